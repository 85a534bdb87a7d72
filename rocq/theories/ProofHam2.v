(** Proofs about Hamiltonians.py: local matrices and their sums over a chain. *)
From Coq Require Import Ascii.
From Verif Require Import Alg ModelMPS SpecMPS ModelNcon ProofNcon ModelEk ModelTensor SpecTensor SpecEk ModelSpin SpecSpin ProofTensor ProofSpin ProofSpin2 ProofEk3 ModelHam SpecHam ProofHam.

Section P.
Context {R : sring}.
Local Open Scope sr_scope.
Add Ring Rr : (s_th R).
Variable C : consts R.
Variable eqb : R -> R -> bool.
Hypothesis HC : consts_ok C (fun _ => False).
Hypothesis H1 : c_sqrt C 1 = 1.
Hypothesis Heqb : forall x y, eqb x y = true <-> x = y.
Let im := c_im C.

Lemma suml_mul_l {A} (c : R) (f : A -> R) l : suml (map (fun x => c * f x) l) = c * suml (map f l).
Proof. induction l; cbn; [ring|]. rewrite IHl. ring. Qed.
Lemma suml_mul_r {A} (c : R) (f : A -> R) l : suml (map (fun x => f x * c) l) = suml (map f l) * c.
Proof. induction l; cbn; [ring|]. rewrite IHl. ring. Qed.
Lemma suml_add {A} (f g : A -> R) l : suml (map (fun x => f x + g x) l) = suml (map f l) + suml (map g l).
Proof. induction l; cbn; [ring|]. rewrite IHl. ring. Qed.

(** * One local matrix *)
Lemma S_of_ok a : exists M, S_of C (chr a) = Ok M /\ mat_eq M (sigma im a).
Proof.
  destruct (pauli_entries C HC H1) as (Hx & Hy & Hz).
  destruct a; cbn; eexists; (split; [reflexivity|]); try assumption.
  split; [reflexivity|]. split; [reflexivity|]. cbn [eye mr mc me]. intros i j Hi Hj.
  destruct i as [|[|]]; try lia; destruct j as [|[|]]; try lia; reflexivity.
Qed.

Lemma add_term_ok h a b v : mr h = 4%nat -> mc h = 4%nat ->
  exists h', add_term C h ([chr a; chr b], v) = Ok h' /\ mr h' = 4%nat /\ mc h' = 4%nat /\
    forall x y x' y', (x < 2)%nat -> (y < 2)%nat -> (x' < 2)%nat -> (y' < 2)%nat ->
      me h' (x * 2 + y) (x' * 2 + y') = me h (x * 2 + y) (x' * 2 + y') + v * (me (sigma im a) x x' * me (sigma im b) y y').
Proof.
  intros Hr Hc. destruct (S_of_ok a) as (A & EA & Ar & Ac & Ae). destruct (S_of_ok b) as (B & EB & Br & Bc & Be).
  unfold add_term. cbn [fst snd mapM]. rewrite EA. cbn [bind]. rewrite EB. cbn [bind tensor fold_left].
  assert (Ar' : mr A = 2%nat) by (rewrite Ar; destruct a; reflexivity). assert (Ac' : mc A = 2%nat) by (rewrite Ac; destruct a; reflexivity).
  assert (Br' : mr B = 2%nat) by (rewrite Br; destruct b; reflexivity). assert (Bc' : mc B = 2%nat) by (rewrite Bc; destruct b; reflexivity).
  assert (Er : mr (kron A B) = 4%nat) by (cbn [kron mr]; rewrite Ar', Br'; reflexivity).
  assert (Ec : mc (kron A B) = 4%nat) by (cbn [kron mc]; rewrite Ac', Bc'; reflexivity).
  rewrite Er, Ec. cbn [Nat.eqb andb].
  eexists. split; [reflexivity|]. split; [reflexivity|]. split; [reflexivity|]. intros x y x' y' Hx Hy Hx' Hy'. cbn [me].
  replace (x * 2 + y)%nat with (mr B * x + y)%nat by (rewrite Br'; lia). replace (x' * 2 + y')%nat with (mc B * x' + y')%nat by (rewrite Bc'; lia).
  destruct (kron_loc A B x x' y y') as [_ ->]; [lia|lia|]. now rewrite Ae, Be by lia.
Qed.

Lemma add_terms_ok (d : dict R) : keys_two d -> forall h, mr h = 4%nat -> mc h = 4%nat ->
  exists h', add_terms C h d = Ok h' /\ mr h' = 4%nat /\ mc h' = 4%nat /\
    forall x y x' y', (x < 2)%nat -> (y < 2)%nat -> (x' < 2)%nat -> (y' < 2)%nat ->
      me h' (x * 2 + y) (x' * 2 + y') = me h (x * 2 + y) (x' * 2 + y') +
        suml (map (fun a => suml (map (fun b => coef d a b * (me (sigma im a) x x' * me (sigma im b) y y')) all4)) all4).
Proof.
  induction d as [|[k v] d IH]; intros Hk h Hr Hc.
  - exists h. repeat split; try assumption. intros. unfold coef. cbn [all4 map filter suml]. ring.
  - destruct (Hk k v (or_introl eq_refl)) as (a & b & ->). change (add_terms C h (([chr a; chr b], v) :: d)) with (do h0 <- add_term C h ([chr a; chr b], v); add_terms C h0 d).
    destruct (add_term_ok h a b v Hr Hc) as (h1 & -> & R1 & C1 & E1). cbn [bind].
    destruct (IH (fun k' v' Hi => Hk k' v' (or_intror Hi)) h1 R1 C1) as (h2 & -> & R2 & C2 & E2).
    exists h2. repeat split; try assumption. intros x y x' y' Hx Hy Hx' Hy'. rewrite E2, E1 by assumption.
    assert (Ec : forall a' b', coef (([chr a; chr b], v) :: d) a' b' = (if letter_eqb a a' && letter_eqb b b' then v else 0) + coef d a' b').
    { intros a' b'. unfold coef. cbn [filter fst key_eqb]. rewrite andb_true_r. fold (letter_eqb a a') (letter_eqb b b').
      destruct (letter_eqb a a' && letter_eqb b b')%bool; cbn [map snd suml]; ring. }
    set (c := coef d) in *. cbn [all4 map suml]. rewrite !Ec. unfold letter_eqb.
    destruct a, b; cbn; ring.
Qed.

(** the entries of a local matrix *)
Definition is_local (co : letter -> letter -> R) (h : mat R) : Prop :=
  mr h = 4%nat /\ mc h = 4%nat /\ forall x y x' y', (x < 2)%nat -> (y < 2)%nat -> (x' < 2)%nat -> (y' < 2)%nat ->
      me h (x * 2 + y) (x' * 2 + y') =
        suml (map (fun a => suml (map (fun b => co a b * (me (sigma im a) x x' * me (sigma im b) y y')) all4)) all4).

Lemma to_matrix_ok (d : dict R) : keys_two d -> exists h, strings_to_matrix C d = Ok h /\ is_local (coef d) h.
Proof.
  intros H. unfold strings_to_matrix. destruct (add_terms_ok d H (mkMat 4 4 (fun _ _ => 0)) eq_refl eq_refl) as (h & E & Hr & Hc & He).
  exists h. split; [exact E|]. split; [exact Hr|]. split; [exact Hc|]. intros. rewrite He by assumption. cbn [me]. ring.
Qed.

(** * Squeezing and halving *)
Lemma coef_squeeze (d : dict R) a b : coef (squeeze eqb d) a b = coef d a b.
Proof.
  unfold coef, squeeze. induction d as [|[k v] d IH]; [reflexivity|]. cbn [filter snd fst].
  destruct (eqb v 0) eqn:E; cbn [negb filter fst].
  - apply Heqb in E. subst v. destruct (key_eqb k [chr a; chr b]); cbn [map snd suml]; rewrite IH; ring.
  - destruct (key_eqb k [chr a; chr b]); cbn [map snd suml]; rewrite IH; reflexivity.
Qed.
Lemma two_squeeze (d : dict R) : keys_two d -> keys_two (squeeze eqb d).
Proof. intros H k v Hi. unfold squeeze in Hi. apply filter_In in Hi. now apply (H k v). Qed.
Lemma nodup_squeeze (d : dict R) : keys_nodup d -> keys_nodup (squeeze eqb d).
Proof.
  unfold keys_nodup, squeeze. induction d as [|[k v] d IH]; cbn; intros H; [exact H|]. inversion H; subst.
  destruct (negb (eqb v 0)); [|auto]. cbn. constructor; [|auto]. intros Hi. apply in_map_iff in Hi. destruct Hi as ((k' & v') & E & Hi).
  apply filter_In in Hi. apply H3. rewrite <- E. apply in_map. apply Hi.
Qed.

Lemma two_dset (d : dict R) a b v : keys_two d -> keys_two (dset d [chr a; chr b] v).
Proof.
  unfold keys_two. induction d as [|[k w] d IH]; cbn; intros H k' v' Hi.
  - destruct Hi as [E|[]]. injection E as <- <-. now exists a, b.
  - destruct (key_eqb k [chr a; chr b]); destruct Hi as [E|Hi].
    + injection E as <- <-. apply (H k w). now left.
    + apply (H k' v'). now right.
    + injection E as <- <-. apply (H k w). now left.
    + apply (IH (fun k0 v0 h => H k0 v0 (or_intror h)) k' v' Hi).
Qed.

Definition tidy (d : dict R) : Prop := keys_nodup d /\ keys_two d.
Lemma halve_ok (d : dict R) a b : tidy d -> tidy (halve C d [chr a; chr b]) /\
  forall a' b', coef (halve C d [chr a; chr b]) a' b' = coef d a' b' * (if letter_eqb a a' && letter_eqb b b' then c_half C else 1).
Proof.
  intros [Hn Ht]. unfold halve. destruct (dget d [chr a; chr b]) as [v|] eqn:E.
  - assert (T : tidy (dset d [chr a; chr b] (v * c_half C))) by (split; [now apply nodup_dset|now apply two_dset]).
    split; [exact T|]. intros a' b'. rewrite !coef_get by (exact Hn || apply T). unfold dget0. rewrite dget_dset. cbn [key_eqb]. rewrite andb_true_r.
    fold (letter_eqb a a') (letter_eqb b b'). destruct (letter_eqb_spec a a') as [<-|]; [destruct (letter_eqb_spec b b') as [<-|]|]; cbn [andb].
    + rewrite E. ring.
    + ring.
    + ring.
  - split; [now split|]. intros a' b'. destruct (letter_eqb_spec a a') as [<-|]; [destruct (letter_eqb_spec b b') as [<-|]|]; cbn [andb]; try ring.
    rewrite coef_get by exact Hn. unfold dget0. rewrite E. ring.
Qed.

Definition isI (a : letter) : bool := match a with LI => true | _ => false end.
Lemma halve_left_ok (d : dict R) : tidy d -> tidy (halve_left C d) /\
  forall a b, coef (halve_left C d) a b = coef d a b * (if negb (isI a) && isI b then c_half C else 1).
Proof.
  intros H. unfold halve_left. cbn [fold_left].
  change ["X"; "I"]%char with [chr LX; chr LI]. change ["Y"; "I"]%char with [chr LY; chr LI]. change ["Z"; "I"]%char with [chr LZ; chr LI].
  destruct (halve_ok d LX LI H) as [T1 E1]. destruct (halve_ok _ LY LI T1) as [T2 E2]. destruct (halve_ok _ LZ LI T2) as [T3 E3].
  split; [exact T3|]. intros a b. rewrite E3, E2, E1. destruct a, b; cbn; ring.
Qed.
Lemma halve_right_ok (d : dict R) : tidy d -> tidy (halve_right C d) /\
  forall a b, coef (halve_right C d) a b = coef d a b * (if isI a && negb (isI b) then c_half C else 1).
Proof.
  intros H. unfold halve_right. cbn [fold_left].
  change ["I"; "X"]%char with [chr LI; chr LX]. change ["I"; "Y"]%char with [chr LI; chr LY]. change ["I"; "Z"]%char with [chr LI; chr LZ].
  destruct (halve_ok d LI LX H) as [T1 E1]. destruct (halve_ok _ LI LY T1) as [T2 E2]. destruct (halve_ok _ LI LZ T2) as [T3 E3].
  split; [exact T3|]. intros a b. rewrite E3, E2, E1. destruct a, b; cbn; ring.
Qed.

(** * Strings of letters *)
Lemma place_S L i ops : (i < L)%nat -> place (S L) (S i) ops = LI :: place L i ops.
Proof. intros _. reflexivity. Qed.

Lemma pstring_ids n s t : length s = n -> length t = n -> incfg (repeat 2%nat n) s -> incfg (repeat 2%nat n) t ->
  pstring im (repeat LI n) s t = if nlist_eqb s t then 1 else 0.
Proof.
  revert s t. induction n as [|n IH]; intros [|x s] [|y t] Hs Ht Is It; try discriminate; [reflexivity|].
  inversion Is; subst. inversion It; subst. unfold pstring. cbn [repeat map string_op nlist_eqb]. fold (pstring im (repeat LI n) s t).
  rewrite IH; [|now injection Hs|now injection Ht|assumption|assumption].
  destruct x as [|[|]]; try lia; destruct y as [|[|]]; try lia; cbn; destruct (nlist_eqb s t); ring.
Qed.

Lemma pstring_app l l' : forall s t s' t', length s = length l -> length t = length l ->
  pstring im (l ++ l') (s ++ s') (t ++ t') = pstring im l s t * pstring im l' s' t'.
Proof.
  induction l as [|a l IH]; intros [|x s] [|y t] s' t' Hs Ht; try discriminate; unfold pstring in *; cbn [map app string_op]; [ring|].
  rewrite IH by (cbn in *; lia). ring.
Qed.

Lemma incfg_parts n k s : incfg (repeat 2%nat (n + k)) s -> incfg (repeat 2%nat n) (firstn n s) /\ incfg (repeat 2%nat k) (skipn n s).
Proof.
  intros H. rewrite repeat_app in H. pose proof (incfg_length _ _ H) as Hl. rewrite app_length, !repeat_length in Hl.
  apply (incfg_cut (repeat 2%nat n) (repeat 2%nat k)); [rewrite firstn_length, repeat_length; lia|]. now rewrite firstn_skipn.
Qed.

Lemma pstring_place L i ops s t : (i + length ops <= L)%nat -> incfg (repeat 2%nat L) s -> incfg (repeat 2%nat L) t ->
  pstring im (place L i ops) s t =
    if nlist_eqb (firstn i s ++ skipn (i + length ops) s) (firstn i t ++ skipn (i + length ops) t)
    then pstring im ops (firstn (length ops) (skipn i s)) (firstn (length ops) (skipn i t)) else 0.
Proof.
  intros HL Hs Ht. set (k := length ops) in *. unfold place.
  replace L with (i + (k + (L - i - k)))%nat in Hs, Ht by lia.
  pose proof (incfg_length _ _ Hs) as Ls. pose proof (incfg_length _ _ Ht) as Lt. rewrite repeat_length in Ls, Lt.
  destruct (incfg_parts _ _ _ Hs) as [Hs1 Hs2]. destruct (incfg_parts _ _ _ Hs2) as [Hs3 Hs4].
  destruct (incfg_parts _ _ _ Ht) as [Ht1 Ht2]. destruct (incfg_parts _ _ _ Ht2) as [Ht3 Ht4].
  assert (SK : forall l : list nat, skipn (i + k) l = skipn k (skipn i l)) by (clear; induction i as [|i IH]; intros [|x l]; cbn; try reflexivity; [now rewrite skipn_nil|apply IH]).
  rewrite !SK.
  rewrite <- (firstn_skipn i s), <- (firstn_skipn i t) at 1.
  rewrite <- (firstn_skipn k (skipn i s)), <- (firstn_skipn k (skipn i t)) at 1.
  assert (L1 : length (firstn i s) = i) by (rewrite firstn_length; lia). assert (L2 : length (firstn i t) = i) by (rewrite firstn_length; lia).
  assert (L3 : length (firstn k (skipn i s)) = k) by (rewrite firstn_length, skipn_length; lia). assert (L4 : length (firstn k (skipn i t)) = k) by (rewrite firstn_length, skipn_length; lia).
  rewrite pstring_app by (rewrite repeat_length; assumption). rewrite pstring_app by (fold k; assumption).
  fold k. rewrite !pstring_ids; try assumption; try (rewrite !skipn_length; lia).
  rewrite nlist_eqb_app by lia. destruct (nlist_eqb (firstn i s) (firstn i t)), (nlist_eqb (skipn k (skipn i s)) (skipn k (skipn i t))); cbn [andb]; ring.
Qed.

Lemma on_local L i co h s t : (i + 2 <= L)%nat -> is_local co h -> incfg (repeat 2%nat L) s -> incfg (repeat 2%nat L) t ->
  on_sites 2 i h s t = suml (map (fun a => suml (map (fun b => co a b * pstring im (place L i [a; b]) s t) all4)) all4).
Proof.
  intros HL (Hr & Hc & He) Hs Ht. unfold on_sites.
  rewrite (suml_map_ext _ (fun a => suml (map (fun b => co a b *
     (if nlist_eqb (firstn i s ++ skipn (i + 2) s) (firstn i t ++ skipn (i + 2) t) then pstring im [a; b] (firstn 2 (skipn i s)) (firstn 2 (skipn i t)) else 0)) all4))).
  2:{ intros a _. apply suml_map_ext. intros b _. now rewrite (pstring_place L i [a; b] s t HL Hs Ht). }
  replace L with (i + (2 + (L - i - 2)))%nat in Hs, Ht by lia.
  destruct (incfg_parts _ _ _ Hs) as [_ Hs2]. destruct (incfg_parts _ _ _ Hs2) as [Hs3 _].
  destruct (incfg_parts _ _ _ Ht) as [_ Ht2]. destruct (incfg_parts _ _ _ Ht2) as [Ht3 _].
  destruct (nlist_eqb _ _).
  - set (u := firstn 2 (skipn i s)) in *. set (v := firstn 2 (skipn i t)) in *. clearbody u v.
    inversion Hs3 as [|? x ? u1 Hx Hu1]; subst. inversion Hu1 as [|? y ? u2 Hy Hu2]; subst. inversion Hu2; subst.
    inversion Ht3 as [|? x' ? v1 Hx' Hv1]; subst. inversion Hv1 as [|? y' ? v2 Hy' Hv2]; subst. inversion Hv2; subst.
    unfold rowmajor. cbn [fold_left Nat.mul Nat.add]. rewrite He by assumption.
    apply suml_map_ext. intros a _. apply suml_map_ext. intros b _. unfold pstring. cbn [map string_op]. ring.
  - symmetry. cbn [all4 map suml]. ring.
Qed.
End P.
