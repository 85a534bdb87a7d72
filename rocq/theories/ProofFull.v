(** Networks with one bond opened. *)
From Verif Require Import Alg ModelMPS SpecMPS ProofMPS ModelOrth SpecOrth ProofOrth ProofOrth2 ModelNcon SpecNcon ProofNcon ProofNcon3 ProofNcon4 ModelEk ProofEk ProofEk2.
From Coq Require Import Permutation Sorted.

Section Open.
Context {R : sring}.
Local Open Scope sr_scope.
Add Ring Rr : (s_th R).

Lemma esum_ext_on ld (f g : (Z -> nat) -> R) ls : forall e, (forall e', (forall k, ~ In k ls -> e' k = e k) -> f e' = g e') -> esum ld ls f e = esum ld ls g e.
Proof.
  induction ls as [|l ls IH]; intros e He; cbn [esum].
  - apply He. reflexivity.
  - apply sum_ext; intros x _. apply IH. intros e' He'. apply He. intros k Hk. rewrite He' by (intros G; apply Hk; right; exact G).
    apply eupd_other. intros ->. apply Hk. left. reflexivity.
Qed.

Definition ext3 (ld : Z -> nat) (d a b : nat) (k : Z) : nat :=
  if Z.eqb k (-1) then d else if Z.eqb k (-2) then a else if Z.eqb k (-3) then b else ld k.
Lemma ext3_pos ld d a b k : (0 < k)%Z -> ext3 ld d a b k = ld k.
Proof. intros H. unfold ext3. destruct (Z.eqb_spec k (-1)), (Z.eqb_spec k (-2)), (Z.eqb_spec k (-3)); lia. Qed.

Lemma open_ok O ld d0 a0 (AA' : list (tens R)) v' v order l rest (F : nat -> nat -> nat -> (Z -> nat) -> R) :
  setio_ok O -> v' <> [] -> NoDup order -> (forall x, In x order -> (0 < x)%Z) ->
  (forall x, cnt (concat v) x = (2 * cnt order x)%nat) -> Permutation order (l :: rest) ->
  Permutation (l :: l :: concat v') ([-1; -2; -3]%Z ++ concat v) ->
  Forall2 (fun A w => tsh A = map (ext3 ld d0 a0 (ld l)) w) AA' v' ->
  (forall s a b, proper (F s a b)) ->
  (forall s a b e, e (-1)%Z = s -> e (-2)%Z = a -> e (-3)%Z = b -> F s a b e = dlt b (e l) * tprod AA' v' e) ->
  exists T, ncon O AA' v' None None false = Ok T /\ tsh T = [d0; a0; ld l] /\
    forall s a b, (b < ld l)%nat -> te T [s; a; b] = esum ld order (F s a b) (assign [-1; -2; -3]%Z [s; a; b]).
Proof.
  intros HO Hv HN Hpos Hcnt HP HP' HD Hpr HF.
  assert (Hl : In l order) by (apply (Permutation_in _ (Permutation_sym HP)); left; reflexivity).
  assert (HNr : NoDup (l :: rest)) by (eapply Permutation_NoDup; eassumption).
  assert (HC : forall x, (cnt [l] x + cnt [l] x + cnt (concat v') x = cnt [-1; -2; -3]%Z x + 2 * (cnt [l] x + cnt rest x))%nat).
  { intros x. pose proof (proj1 (Permutation_count_occ Z.eq_dec _ _) HP' x) as G. rewrite count_occ_app, Hcnt in G.
    rewrite (proj1 (Permutation_count_occ Z.eq_dec _ _) HP x) in G. cbn [count_occ] in G |- *. destruct (Z.eq_dec l x); cbn in *; lia. }
  assert (Hneg : forall x, (0 < x)%Z -> cnt [-1; -2; -3]%Z x = 0%nat).
  { intros x Hx. cbn [count_occ]. repeat (destruct (Z.eq_dec _ x); [lia|]). reflexivity. }
  assert (Hrest : forall x, In x rest -> (0 < x)%Z) by (intros x Hx; apply Hpos, (Permutation_in _ (Permutation_sym HP)); right; exact Hx).
  assert (WF : well_formed (ext3 ld d0 a0 (ld l)) AA' v' rest [-1; -2; -3]%Z).
  { repeat split.
    - exact Hv.
    - exact HD.
    - inversion HNr; assumption.
    - repeat constructor; cbn; intuition discriminate.
    - apply Hrest; assumption.
    - assert (Hlx : l <> l0) by (intros ->; inversion HNr; contradiction). specialize (HC l0). rewrite (Hneg l0) in HC by (apply Hrest; assumption).
      assert (cnt rest l0 = 1%nat) by (apply NoDup_count_occ'; [inversion HNr; assumption|assumption]). cbn [count_occ] in HC. destruct (Z.eq_dec l l0); [contradiction|]. lia.
    - destruct H as [<-|[<-|[<-|[]]]]; lia.
    - assert (Hx0 : (l0 < 0)%Z) by (destruct H as [<-|[<-|[<-|[]]]]; lia). specialize (HC l0).
      assert (E1 : cnt [l] l0 = 0%nat). { apply count_occ_not_In. intros [->|[]]. specialize (Hpos _ Hl). lia. }
      assert (E2 : cnt rest l0 = 0%nat). { apply count_occ_not_In. intros G. apply Hrest in G. lia. }
      assert (E3 : cnt [-1; -2; -3]%Z l0 = 1%nat) by (destruct H as [<-|[<-|[<-|[]]]]; reflexivity). lia.
    - intros x Hx. apply (count_occ_In Z.eq_dec) in Hx. specialize (HC x).
      destruct (in_dec Z.eq_dec x [-1; -2; -3]%Z) as [|Hn]; [right; assumption|left]. apply (count_occ_not_In Z.eq_dec) in Hn.
      apply (count_occ_In Z.eq_dec). lia. }
  destruct (ncon_default_ok O _ _ _ _ _ false HO WF) as (T & ET & HT & HV).
  { repeat constructor; lia. }
  exists T. split; [exact ET|]. split; [exact HT|]. intros s a b Hb. rewrite HV by reflexivity.
  set (e0 := assign [-1; -2; -3]%Z [s; a; b]).
  rewrite (esum_ld _ ld rest) by (intros x Hx; apply ext3_pos, Hrest, Hx).
  rewrite (esum_perm ld (F s a b) order (l :: rest) (Hpr s a b) HP HN). cbn [esum].
  rewrite (sum_ext (ld l) _ (fun x => dlt b x * esum ld rest (tprod AA' v') e0)).
  - rewrite sum_dlt_l by exact Hb. reflexivity.
  - intros x Hx. rewrite (esum_ext_on ld (F s a b) (fun e => tprod AA' v' e * dlt b (e l))).
    + rewrite (esum_factor ld (tprod AA' v') (fun e => dlt b (e l))).
      * rewrite eupd_same, (s_th R).(Rmul_comm). f_equal.
        apply (esum_free ld rest (tprod AA' v')).
        -- apply tprod_proper.
        -- inversion HNr; assumption.
        -- intros e'. apply tprod_free. intros G. apply (count_occ_In Z.eq_dec) in G. specialize (HC l). rewrite (Hneg l (Hpos l Hl)) in HC.
           assert (cnt rest l = 0%nat) by (apply count_occ_not_In; inversion HNr; assumption). lia.
      * intros e k y Hk. rewrite eupd_other; [reflexivity|]. intros <-. inversion HNr; contradiction.
    + intros e' He'. rewrite (s_th R).(Rmul_comm). apply HF; rewrite He'; try (intros G; apply Hrest in G; lia); rewrite eupd_other; try reflexivity; specialize (Hpos l Hl); lia.
Qed.

(** two different chains with operators in between *)
Lemma sandwich_esum ld (X Y : list (site R)) (AA : list (tens R)) v G k a z p q b c e0 :
  length X = k -> length Y = k -> (0 < k)%nat -> chain a X z -> chain a Y z -> dims X = dims Y ->
  NoDup (map p (seq 0 k) ++ map q (seq 0 k) ++ bonds_of b c k) ->
  b 0%nat = c 0%nat -> b k = c k -> injb b 0 k -> injb c 0 k ->
  (forall n m, (n < k)%nat -> (m <= k)%nat -> p n <> b m /\ p n <> c m /\ q n <> b m /\ q n <> c m) ->
  (forall n m, (0 < n < k)%nat -> (m <= k)%nat -> b n <> c m) ->
  (forall n m, (0 < n < k)%nat -> (m <= k)%nat -> c n <> b m) ->
  (forall i A, nth_error X i = Some A -> ld (p i) = phys A /\ ld (b i) = dl A) ->
  (forall i A, nth_error Y i = Some A -> ld (q i) = phys A /\ ld (c i) = dl A) -> ld (b k) = z ->
  length AA = length v ->
  (forall e, tprod AA v e = G (map e (map p (seq 0 k))) (map e (map q (seq 0 k)))) ->
  esum ld (map p (seq 0 k) ++ map q (seq 0 k) ++ bonds_of b c k)
    (tprod (map tens_site X ++ AA ++ map tens_site Y) (lnk p b 0 k ++ v ++ lnk q c 0 k)) e0
  = sumcfg (dims X) (fun w => sumcfg (dims Y) (fun w' => G w w' * sum a (fun i => sum z (fun j => amp X w i j * amp Y w' i j)))).
Proof.
  intros HX HY Hk HcX HcY HXY HN E0 Ek Hb Hcc Hpq Hbc Hcb HlX HlY Hz HAA HG.
  set (P := map p (seq 0 k)) in *. set (Q := map q (seq 0 k)) in *.
  assert (HldP : map ld P = dims X). { unfold P. rewrite <- HX. apply (map_nth_ld ld p (fun A => phys A) X 0). intros i A Hi. apply HlX, Hi. }
  assert (HldQ : map ld Q = dims Y). { unfold Q. rewrite <- HY. apply (map_nth_ld ld q (fun A => phys A) Y 0). intros i A Hi. apply HlY, Hi. }
  rewrite app_assoc, esum_app, esum_cfg, map_app, HldP, HldQ, sumcfg_app.
  apply sumcfg_ext; intros w Hw. apply sumcfg_ext; intros w' Hw'.
  apply incfg_length in Hw. apply incfg_length in Hw'.
  set (e := eupds e0 (P ++ Q) (w ++ w')).
  assert (HPQ : map e P = w /\ map e Q = w').
  { assert (HE : map e (P ++ Q) = w ++ w').
    { apply eupds_map.
      - rewrite app_assoc in HN. exact (nodup_l _ _ HN).
      - rewrite !app_length, Hw, Hw'. unfold P, Q, dims. rewrite !map_length, seq_length. lia. }
    rewrite map_app in HE. apply app_inv_len in HE; [exact HE|].
    rewrite Hw. unfold P, dims. rewrite !map_length, seq_length. lia. }
  destruct HPQ as [HPw HQw].
  assert (HF : forall d, tprod (map tens_site X ++ AA ++ map tens_site Y) (lnk p b 0 k ++ v ++ lnk q c 0 k) d
     = (tprod (map tens_site X) (lnk p b 0 k) d * tprod (map tens_site Y) (lnk q c 0 k) d) * G (map d P) (map d Q)).
  { intros d. rewrite !tprod_app.
    - rewrite HG. fold P Q. ring.
    - exact HAA.
    - rewrite map_length, lnk_length. exact HX. }
  rewrite (esum_ext _ _ _ _ HF).
  rewrite (esum_factor ld _ (fun d => G (map d P) (map d Q))).
  2: { intros d l x Hl. assert (Hout : forall n, In n (P ++ Q) -> n <> l).
       { intros n Hn ->. rewrite app_assoc in HN. revert HN Hn Hl. generalize (P ++ Q), (bonds_of b c k). clear. intros A B HN HA HB.
         induction A as [|x A IH]; [contradiction|]. cbn in HN. inversion HN; subst. destruct HA as [->|HA].
         - apply H1, in_or_app. right. exact HB.
         - apply IH; assumption. }
       f_equal; apply map_ext_in; intros n Hn; apply eupd_other, Hout, in_or_app; [left|right]; exact Hn. }
  rewrite HPw, HQw. unfold bonds_of.
  rewrite (pair_esum ld X Y p b q c k a z); try assumption.
  - rewrite (s_th R).(Rmul_comm). f_equal. apply sum_ext. intros i _. apply sum_ext. intros j _.
    rewrite <- (map_map p e), <- (map_map q e). fold P Q. rewrite HPw, HQw. reflexivity.
  - intros i A Hi. apply HlX, Hi.
  - intros i A Hi. apply HlY, Hi.
Qed.
End Open.
