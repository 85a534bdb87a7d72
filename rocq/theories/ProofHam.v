(** Proofs about Hamiltonians.py: dictionaries and local matrices. *)
From Coq Require Import Ascii.
From Verif Require Import Alg ModelMPS SpecMPS ModelNcon ModelEk ModelTensor SpecTensor SpecEk ModelSpin SpecSpin ProofSpin ProofSpin2 ModelHam SpecHam.

Lemma key_eqb_spec a b : reflect (a = b) (key_eqb a b).
Proof.
  revert b. induction a as [|x a IH]; intros [|y b]; cbn; try (constructor; congruence).
  destruct (Ascii.eqb_spec x y) as [->|H]; cbn; [|constructor; congruence].
  destruct (IH b) as [->|H]; constructor; congruence.
Qed.
Lemma key_eqb_refl a : key_eqb a a = true.
Proof. destruct (key_eqb_spec a a); congruence. Qed.

Lemma chr_inj a b : chr a = chr b -> a = b.
Proof. destruct a, b; cbn; try reflexivity; discriminate. Qed.
Definition letter_eqb (a b : letter) : bool := Ascii.eqb (chr a) (chr b).
Lemma letter_eqb_spec a b : reflect (a = b) (letter_eqb a b).
Proof. unfold letter_eqb. destruct (Ascii.eqb_spec (chr a) (chr b)) as [H|H]; constructor; [now apply chr_inj|congruence]. Qed.

Definition all4 : list letter := [LI; LX; LY; LZ].

Section P.
Context {R : sring}.
Local Open Scope sr_scope.
Add Ring Rr : (s_th R).
Variable C : consts R.
Variable eqb : R -> R -> bool.
Hypothesis HC : consts_ok C (fun _ => False).
Hypothesis H1 : c_sqrt C 1 = 1.
Hypothesis Heqb : forall x y, eqb x y = true <-> x = y.
Let im := c_im C.

(** * Dictionaries *)
Lemma dget_dset (d : dict R) k v k' : dget (dset d k v) k' = if key_eqb k k' then Some v else dget d k'.
Proof.
  induction d as [|[a w] d IH]; cbn; [reflexivity|]. destruct (key_eqb_spec a k) as [->|Hak]; cbn.
  - destruct (key_eqb_spec k k'); reflexivity.
  - rewrite IH. destruct (key_eqb_spec a k') as [->|]; [|reflexivity]. destruct (key_eqb_spec k k'); congruence.
Qed.

Lemma keys_dset (d : dict R) k v : map fst (dset d k v) = if existsb (key_eqb k) (map fst d) then map fst d else map fst d ++ [k].
Proof.
  induction d as [|[a w] d IH]; cbn; [reflexivity|]. destruct (key_eqb_spec a k) as [->|Hak]; cbn.
  - now rewrite key_eqb_refl.
  - destruct (key_eqb_spec k a); [congruence|]. cbn. rewrite IH. destruct (existsb _ _); reflexivity.
Qed.
Lemma in_keys (d : dict R) k : existsb (key_eqb k) (map fst d) = true <-> In k (map fst d).
Proof.
  rewrite existsb_exists. split.
  - intros (x & Hx & E). destruct (key_eqb_spec k x); [now subst|discriminate].
  - intros H. exists k. split; [exact H|apply key_eqb_refl].
Qed.

Lemma nodup_dset (d : dict R) k v : keys_nodup d -> keys_nodup (dset d k v).
Proof.
  unfold keys_nodup. intros H. rewrite keys_dset. destruct (existsb (key_eqb k) (map fst d)) eqn:E; [exact H|].
  assert (Hn : ~ In k (map fst d)) by (intros Hi; apply in_keys in Hi; congruence).
  clear E. induction (map fst d) as [|x l IH]; cbn; [constructor; [intros []|constructor]|].
  inversion H; subst. constructor.
  - intros Hi. apply in_app_or in Hi. destruct Hi as [Hi|[->|[]]]; [contradiction|]. apply Hn. now left.
  - apply IH; [assumption|]. intros Hi. apply Hn. now right.
Qed.

Lemma dget_in (d : dict R) k v : dget d k = Some v -> In (k, v) d.
Proof.
  induction d as [|[a w] d IH]; cbn; [discriminate|]. destruct (key_eqb_spec a k) as [->|]; intros H; [injection H as ->; now left|right; auto].
Qed.
Lemma dget_none (d : dict R) k : dget d k = None <-> ~ In k (map fst d).
Proof.
  induction d as [|[a w] d IH]; cbn; [tauto|]. destruct (key_eqb_spec a k) as [->|H]; [split; [discriminate|tauto]|].
  rewrite IH. tauto.
Qed.
Lemma dget_nodup (d : dict R) k v : keys_nodup d -> In (k, v) d -> dget d k = Some v.
Proof.
  unfold keys_nodup. induction d as [|[a w] d IH]; cbn; [tauto|]. intros Hn [E|Hi].
  - injection E as -> ->. now rewrite key_eqb_refl.
  - inversion Hn; subst. destruct (key_eqb_spec a k) as [->|]; [|auto]. exfalso. apply H2. apply (in_map fst) in Hi. exact Hi.
Qed.

Lemma dpop_keys (d : dict R) k : keys_nodup d -> forall k', dget (dpop d k) k' = if key_eqb k k' then None else dget d k'.
Proof.
  unfold keys_nodup. induction d as [|[a w] d IH]; cbn; intros Hn k'; [now destruct (key_eqb k k')|]. inversion Hn; subst.
  destruct (key_eqb_spec a k) as [->|Hak].
  - destruct (key_eqb_spec k k') as [<-|]; [|reflexivity]. now apply dget_none.
  - cbn. rewrite IH by assumption. destruct (key_eqb_spec a k') as [->|]; [|reflexivity]. destruct (key_eqb_spec k k'); congruence.
Qed.
Lemma dpop_sub (d : dict R) k x : In x (map fst (dpop d k)) -> In x (map fst d).
Proof. induction d as [|[a w] d IH]; cbn; [tauto|]. destruct (key_eqb a k); cbn; intuition. Qed.
Lemma nodup_dpop (d : dict R) k : keys_nodup d -> keys_nodup (dpop d k).
Proof.
  unfold keys_nodup. induction d as [|[a w] d IH]; cbn; intros Hn; [exact Hn|]. inversion Hn; subst.
  destruct (key_eqb a k); [assumption|]. cbn. constructor; [|auto]. intros Hi. apply dpop_sub in Hi. contradiction.
Qed.

Lemma coef_get (d : dict R) a b : keys_nodup d -> coef d a b = dget0 d [chr a; chr b].
Proof.
  unfold keys_nodup, coef, dget0. induction d as [|[k w] d IH]; intros Hn; [reflexivity|]. cbn [map fst] in Hn. inversion Hn; subst.
  cbn [filter dget fst]. specialize (IH H3).
  destruct (key_eqb_spec k [chr a; chr b]) as [->|Hk]; [|exact IH].
  cbn [map snd suml]. rewrite IH. rewrite (proj2 (dget_none d _) H2). ring.
Qed.

(** * widen *)
Definition widened (d : dict R) (k : key) : option R :=
  match k with
  | [_] => None
  | [x; y] => match (if Ascii.eqb y "I" then dget d [x] else None) with
              | Some v => Some v
              | None => match (if Ascii.eqb x "I" then dget d [y] else None) with Some v => Some v | None => dget d k end
              end
  | _ => dget d k
  end.

Lemma widen_two (d : dict R) : keys_two d -> widen d = d.
Proof.
  unfold widen. intros H. assert (G : forall acc l, (forall k v, In (k, v) l -> exists a b, k = [chr a; chr b]) ->
    fold_left (fun acc (kv : key * R) => match fst kv with
                           | [c] => dpop (dset (dset acc ["I"%char; c] (snd kv)) [c; "I"%char] (snd kv)) [c]
                           | _ => acc end) l acc = acc).
  { intros acc l. revert acc. induction l as [|[k v] l IH]; intros acc Hl; [reflexivity|]. cbn [fold_left fst].
    destruct (Hl k v) as (a & b & ->); [now left|]. apply IH. intros k' v' Hi. apply (Hl k' v'). now right. }
  apply G. exact H.
Qed.

(** the state of the loop after the items [pre], with [post] to come *)
Lemma widen_ok (d : dict R) : keys_nodup d -> keys_nodup (widen d) /\ forall k, dget (widen d) k = widened d k.
Proof.
  intros Hn. unfold widen.
  set (step := fun acc (kv : key * R) => match fst kv with
                           | [c] => dpop (dset (dset acc ["I"%char; c] (snd kv)) [c; "I"%char] (snd kv)) [c]
                           | _ => acc end).
  assert (G : forall post pre acc, d = pre ++ post -> keys_nodup acc ->
     (forall k, dget acc k = match k with
                             | [x] => match dget pre [x] with Some _ => None | None => dget d [x] end
                             | [x; y] => match (if Ascii.eqb y "I" then dget pre [x] else None) with
                                | Some v => Some v
                                | None => match (if Ascii.eqb x "I" then dget pre [y] else None) with Some v => Some v | None => dget d k end end
                             | _ => dget d k end) ->
     keys_nodup (fold_left step post acc) /\ forall k, dget (fold_left step post acc) k = widened d k).
  { induction post as [|[k v] post IH]; intros pre acc Hd Ha Hk.
    - cbn [fold_left]. split; [exact Ha|]. intros k. rewrite Hk. rewrite app_nil_r in Hd. subst pre.
      destruct k as [|x [|y [|]]]; try reflexivity. cbn. now destruct (dget d [x]).
    - cbn [fold_left]. apply (IH (pre ++ [(k, v)])); [now rewrite <- app_assoc|..].
      + unfold step. cbn [fst snd]. destruct k as [|c [|]]; try exact Ha. apply nodup_dpop, nodup_dset, nodup_dset, Ha.
      + assert (Gp : forall k', dget (pre ++ [(k, v)]) k' = match dget pre k' with Some w => Some w | None => if key_eqb k k' then Some v else None end).
        { intros k'. clear. induction pre as [|[a w] pre IH]; cbn; [reflexivity|]. destruct (key_eqb a k'); [reflexivity|exact IH]. }
        assert (Hpre : dget pre k = None).
        { apply dget_none. intros Hi. unfold keys_nodup in Hn. rewrite Hd, map_app in Hn. cbn in Hn. apply NoDup_remove_2 in Hn. apply Hn, in_or_app. now left. }
        intros k'. unfold step. cbn [fst snd].
        destruct k as [|c [|c2 k]].
        * rewrite Hk. destruct k' as [|x [|y [|]]]; try reflexivity; rewrite !Gp; cbn [key_eqb];
            repeat match goal with |- context [dget pre ?z] => destruct (dget pre z) end; repeat match goal with |- context [Ascii.eqb ?z ?w] => destruct (Ascii.eqb z w) end; reflexivity.
        * rewrite dpop_keys by (apply nodup_dset, nodup_dset, Ha). rewrite !dget_dset, Hk.
          assert (Hdc : dget d [c] = Some v).
          { apply dget_nodup; [exact Hn|]. rewrite Hd. apply in_or_app. right. now left. }
          destruct k' as [|x [|y [|]]]; cbn [key_eqb]; try reflexivity.
          -- rewrite Gp. cbn [key_eqb]. rewrite !andb_false_r, !andb_true_r. destruct (Ascii.eqb_spec c x) as [<-|Hx]; [now rewrite Hpre|]. now destruct (dget pre [x]).
          -- rewrite !Gp. cbn [key_eqb]. rewrite ?andb_false_r, ?andb_true_r.
             rewrite (Ascii.eqb_sym "I" x), (Ascii.eqb_sym "I" y).
             destruct (Ascii.eqb_spec y "I") as [->|Hy], (Ascii.eqb_spec x "I") as [->|Hx]; cbn [andb];
               repeat match goal with |- context [Ascii.eqb c ?z] => destruct (Ascii.eqb_spec c z) as [<-|] end; cbn [andb]; rewrite ?Hpre;
               try reflexivity; try (repeat match goal with |- context [dget pre ?z] => destruct (dget pre z) end; reflexivity); try congruence.
          -- now rewrite !andb_false_r.
        * rewrite Hk. destruct k' as [|x [|y [|]]]; try reflexivity; rewrite !Gp; cbn [key_eqb]; rewrite ?andb_false_r;
            repeat match goal with |- context [dget pre ?z] => destruct (dget pre z) end; repeat match goal with |- context [Ascii.eqb ?z ?w] => destruct (Ascii.eqb z w) end; reflexivity. }
  apply (G d [] d eq_refl Hn). intros k. destruct k as [|x [|y [|]]]; try reflexivity. cbn. now destruct (Ascii.eqb y "I"), (Ascii.eqb x "I").
Qed.
End P.
