(** match_gauge_to (fMPS.py:1253-1266). *)
From Verif Require Import Alg ModelMPS SpecMPS ProofMPS ProofMPS2 ModelOrth SpecOrth ProofOrth ModelCanon SpecCanon ModelGauge SpecGauge.

Section Proof.
Context {R : sring}.
Local Open Scope sr_scope.
Add Ring Rr : (s_th R).

Lemma amp_snoc (l : list (site R)) A s t x y i k : chain i l k -> (x < i)%nat -> length s = length l -> (y < dr A)%nat ->
  amp (l ++ [A]) (s ++ [t]) x y = sum k (fun z => amp l s x z * ent A t z y).
Proof.
  intros Hc Hx Hl Hy. rewrite (amp_app l [A] s [t] x k i) by assumption. apply sum_ext; intros z Hz. f_equal. cbn [amp].
  rewrite sum_dlt_r by exact Hy. reflexivity.
Qed.

Lemma sum_prod n m (f g : nat -> R) : sum n f * sum m g = sum n (fun i => sum m (fun j => f i * g j)).
Proof. rewrite <- sum_mul_r. apply sum_ext; intros i _. symmetry. apply sum_mul_l. Qed.

Definition coiso (U : mat R) (a b : nat) : Prop :=
  mr U = a /\ mc U = b /\ forall i j, (i < a)%nat -> (j < a)%nat -> sum b (fun k => me U i k * sconj (me U j k)) = dlt i j.

Definition gauged (A : site R) (U : mat R) : site R := mkSite (phys A) (mc U) (dr A) (fun s i j => sum (mr U) (fun k => sconj (me U k i) * ent A s k j)).

Lemma gauged_lmul A U : mr U = dl A -> site_lmul (mH U) A = Ok (gauged A U).
Proof. intros H. unfold site_lmul, mH. cbn. rewrite H, Nat.eqb_refl. unfold gauged. rewrite H. reflexivity. Qed.

Lemma gauged_right_iso A U : right_iso A -> mr U = dl A ->
  (forall i j, (i < mc U)%nat -> (j < mc U)%nat -> sum (mr U) (fun k => sconj (me U k i) * me U k j) = dlt i j) -> right_iso (gauged A U).
Proof.
  intros HA HU Hi i j Hi' Hj'. cbn in Hi', Hj' |- *.
  transitivity (sum (mr U) (fun k => sum (mr U) (fun l => sconj (me U k i) * me U l j * sum (phys A) (fun s => sum (dr A) (fun q => ent A s k q * sconj (ent A s l q)))))).
  - rewrite (sum_ext (phys A) _ (fun s => sum (mr U) (fun k => sum (mr U) (fun l => sconj (me U k i) * me U l j * sum (dr A) (fun q => ent A s k q * sconj (ent A s l q)))))).
    + rewrite sum_swap. apply sum_ext; intros k _. rewrite sum_swap. apply sum_ext; intros l _. now rewrite sum_mul_l.
    + intros s _. rewrite (sum_ext (dr A) _ (fun q => sum (mr U) (fun k => sum (mr U) (fun l => sconj (me U k i) * me U l j * (ent A s k q * sconj (ent A s l q)))))).
      * rewrite sum_swap. apply sum_ext; intros k _. rewrite sum_swap. apply sum_ext; intros l _. now rewrite sum_mul_l.
      * intros q _. rewrite sum_conj. rewrite sum_prod. apply sum_ext; intros k _. apply sum_ext; intros l _. rewrite conj_mul, conj_conj. ring.
  - rewrite <- Hi by assumption. rewrite HU. apply sum_ext; intros k Hk.
    rewrite (sum_ext _ _ (fun l => sconj (me U k i) * me U l j * dlt k l)).
    + rewrite sum_dlt_r' by exact Hk. reflexivity.
    + intros l Hl. now rewrite (HA k l).
Qed.

Lemma gauged_matched (A B : site R) (M U P : mat R) : mr M = dl A -> mc M = dl B -> mr U = dl A ->
  (forall i j, me M i j = sum (phys A) (fun s => sum (dr A) (fun k => ent A s i k * sconj (ent B s j k)))) ->
  (forall i j, (i < mc M)%nat -> (j < mc M)%nat -> me P i j = sum (mr M) (fun k => sconj (me U k i) * me M k j)) ->
  positive (mc M) (me P) -> matched (gauged A U) B.
Proof.
  intros M1 M2 U1 HM HPe (m & X & HX). exists m, X. rewrite <- M2. intros x y Hx Hy. rewrite <- HX by assumption. rewrite HPe by assumption. cbn [gauged phys dr ent].
  rewrite U1, M1. symmetry. rewrite (sum_ext (dl A) _ (fun k => sum (phys A) (fun s => sum (dr A) (fun z => sconj (me U k x) * (ent A s k z * sconj (ent B s y z)))))).
  - rewrite sum_swap. apply sum_ext; intros s _. rewrite sum_swap. apply sum_ext; intros z _. rewrite <- sum_mul_r. apply sum_ext; intros; ring.
  - intros k _. rewrite HM, <- sum_mul_l. apply sum_ext; intros s _. now rewrite sum_mul_l.
Qed.

Definition widened (A : site R) (U : mat R) : site R := mkSite (phys A) (dl A) (mc U) (fun s i j => sum (dr A) (fun k => ent A s i k * me U k j)).
Lemma widened_right_iso A U b : right_iso A -> coiso U (dr A) b -> right_iso (widened A U).
Proof.
  intros HA (H1 & H2 & Hi) i j Hi' Hj'. cbn in Hi', Hj' |- *. rewrite <- (HA i j Hi' Hj'). apply sum_ext; intros s _. rewrite H2.
  transitivity (sum (dr A) (fun k => sum (dr A) (fun l => ent A s i k * sconj (ent A s j l) * sum b (fun q => me U k q * sconj (me U l q))))).
  - rewrite (sum_ext b _ (fun q => sum (dr A) (fun k => sum (dr A) (fun l => ent A s i k * sconj (ent A s j l) * (me U k q * sconj (me U l q)))))).
    + rewrite sum_swap. apply sum_ext; intros k _. rewrite sum_swap. apply sum_ext; intros l _. now rewrite sum_mul_l.
    + intros q _. rewrite sum_conj, sum_prod. apply sum_ext; intros k _. apply sum_ext; intros l _. rewrite conj_mul. ring.
  - apply sum_ext; intros k Hk. rewrite (sum_ext _ _ (fun l => ent A s i k * sconj (ent A s j l) * dlt k l)).
    + rewrite sum_dlt_r' by exact Hk. reflexivity.
    + intros l Hl. now rewrite Hi.
Qed.

Lemma gauge_loop_ok (polar : mat R -> option (mat R * mat R)) (HP : polar_ok polar) :
  forall n rest bs q qb i i' j, length rest = S n -> chain i rest j -> chain i' bs j -> dims rest = dims bs ->
  Forall2 (fun A B => (dl A <= dl B)%nat) rest bs ->
  match gauge_loop polar (rev (seq 0 (length rest))) (rest ++ q) (bs ++ qb) with
  | Err e => e = LinAlgError
  | Ok data => exists rest' U, data = rest' ++ q /\ chain i' rest' j /\ Forall2 same_bonds rest' bs /\ Forall2 matched rest' bs /\ coiso U i i' /\
      (forall s x y, incfg (dims rest) s -> (x < i)%nat -> (y < j)%nat -> amp rest s x y = sum i' (fun k => me U x k * amp rest' s k y)) /\
      (Forall right_iso rest -> map (@dl R) rest = map (@dl R) bs -> Forall right_iso rest')
  end.
Proof.
  induction n as [|n IH]; intros rest bs q qb i i' j Hlen Hc Hcb Hd HD.
  - destruct rest as [|A [|? ?]]; try discriminate. clear Hlen. destruct bs as [|B [|? ?]]; try discriminate.
    inversion HD as [|? ? ? ? HAB _]; subst. cbn [length seq rev app gauge_loop]. cbn [getitem nth_error bind].
    destruct Hc as [HcA Hc], Hcb as [HcB Hcb]. cbn in Hc, Hcb. cbn in Hd. injection Hd as Hd.
    unfold gauge_overlap. rewrite Hd, Hc, Hcb, !Nat.eqb_refl. cbn [andb bind].
    match goal with |- context [polar ?M] => set (M1 := M); destruct (polar M1) as [[U P]|] eqn:EP; [|reflexivity] end.
    destruct (HP _ _ _ EP) as (U1 & U2 & P1 & P2 & _ & HPe & HPp & HUr & HUl). cbn in U1, U2, P1, P2.
    rewrite gauged_lmul by exact U1. cbn [bind setitem Nat.ltb Nat.leb app]. exists [gauged A U], U.
    split; [reflexivity|]. split; [cbn; split; [congruence|exact Hc]|].
    split; [constructor; [|constructor]; unfold same_bonds; cbn; split; [exact Hd|]; split; congruence|].
    split; [|split; [|split]].
    + constructor; [|constructor]. apply (gauged_matched A B M1 U P); auto. intros x y. cbn. now rewrite Hd, Hc.
    + split; [congruence|]. split; [congruence|]. rewrite <- HcA, <- HcB. exact (HUr HAB).
    + intros s x y Hs Hx Hy. destruct s as [|t [|? ?]]; try (inversion Hs; fail). 2: { apply incfg_cons in Hs as [_ Hs]. inversion Hs. }
      cbn [amp gauged dr ent]. rewrite <- HcA in Hx. rewrite <- HcB.
      rewrite (sum_ext (dl B) _ (fun k => sum (dr A) (fun z => sum (dl A) (fun w => (me U x k * sconj (me U w k)) * (ent A t w z * dlt z y))))).
      2: { intros k _. rewrite U1, <- sum_mul_l. apply sum_ext; intros z _. rewrite <- sum_mul_r, <- sum_mul_l. apply sum_ext; intros w _. ring. }
      rewrite sum_swap. apply sum_ext; intros z _. rewrite sum_swap.
      rewrite (sum_ext (dl A) _ (fun w => dlt x w * (ent A t w z * dlt z y))).
      * rewrite (sum_ext _ _ (fun w => (ent A t w z * dlt z y) * dlt x w)) by (intros; ring). now rewrite sum_dlt_r'.
      * intros w Hw. rewrite sum_mul_r. f_equal. now apply (HUr HAB).
    + intros HR HL. constructor; [|constructor]. inversion HR; subst. cbn in HL. injection HL as HL. apply gauged_right_iso; [assumption|exact U1|].
      rewrite U1, U2. apply HUl. cbn. lia.
  - destruct (exists_last (l := rest)) as (r1 & A & ->); [intros ->; discriminate|]. rewrite app_length in Hlen; cbn in Hlen.
    destruct (exists_last (l := r1)) as (r & C & ->); [intros ->; cbn in Hlen; lia|].
    assert (HLb : length bs = length ((r ++ [C]) ++ [A])) by (rewrite <- !dims_length, Hd; reflexivity).
    destruct (exists_last (l := bs)) as (b1 & B & ->); [intros ->; rewrite !app_length in HLb; cbn in HLb; lia|].
    assert (HLb1 : length b1 = length (r ++ [C])) by (rewrite !app_length in *; cbn in *; lia).
    apply Forall2_app_inv_l in HD as (b1' & bB & HD1 & HDB & EB). inversion HDB as [|? ? ? ? HAB HDn]; subst. inversion HDn; subst.
    apply app_inj_tail in EB as [<- <-].
    rewrite !dims_app in Hd. apply app_inj_tail in Hd as [Hd1 HdB].
    destruct (chain_app_last _ _ _ _ Hc) as (k1 & Hc1 & Hk1 & HrA). destruct (chain_app_last _ _ _ _ Hcb) as (kb & Hcb1 & Hkb & HrB).
    rewrite app_length. cbn [length]. rewrite Nat.add_1_r, seq_S, rev_app_distr. cbn [rev app Nat.add]. cbn [gauge_loop].
    rewrite <- (app_assoc (r ++ [C])). cbn [app]. rewrite getitem_app. cbn [bind].
    rewrite <- (app_assoc b1). cbn [app]. rewrite <- HLb1, getitem_app. cbn [bind].
    unfold gauge_overlap. rewrite HdB, HrA, HrB, !Nat.eqb_refl. cbn [andb bind].
    match goal with |- context [polar ?M] => set (M1 := M); destruct (polar M1) as [[U P]|] eqn:EP; [|reflexivity] end.
    destruct (HP _ _ _ EP) as (U1 & U2 & P1 & P2 & _ & HPe & HPp & HUr & HUl). cbn in U1, U2, P1, P2.
    rewrite gauged_lmul by exact U1. cbn [bind]. rewrite HLb1, setitem_app. cbn [bind].
    assert (Hm : Nat.ltb 0 (length (r ++ [C])) = true) by (apply Nat.ltb_lt; rewrite app_length; cbn; lia). rewrite Hm. clear Hm.
    rewrite <- (app_assoc r). cbn [app].
    assert (Hidx : (length (r ++ [C]) - 1)%nat = length r) by (rewrite app_length; cbn; lia).
    rewrite Hidx, getitem_app. cbn [bind].
    destruct (chain_app_last _ _ _ _ Hc1) as (k2 & Hc2 & Hk2 & HrC).
    unfold site_rmul. assert (HCU : dr C = mr U) by congruence. rewrite HCU, Nat.eqb_refl. cbn [bind].
    match goal with |- context [setitem _ _ ?b] => set (C' := b) end.
    assert (EC : C' = widened C U) by (unfold C', widened; rewrite HCU; reflexivity).
    rewrite setitem_app. cbn [bind].
    replace (r ++ C' :: gauged A U :: q) with ((r ++ [C']) ++ gauged A U :: q) by (rewrite <- app_assoc; reflexivity).
    assert (HL' : length (r ++ [C]) = length (r ++ [C'])) by (rewrite !app_length; reflexivity). rewrite HL'.
    assert (HcC : chain i (r ++ [C']) kb).
    { eapply chain_app_mk; [exact Hc2|cbn; congruence|cbn; congruence]. }
    specialize (IH (r ++ [C']) b1 (gauged A U :: q) (B :: qb) i i' kb).
    match type of IH with ?P0 -> _ => assert (G1 : P0) by (rewrite <- HL'; lia) end.
    specialize (IH G1 HcC Hcb1).
    match type of IH with ?P0 -> _ => assert (G2 : P0) by (rewrite <- Hd1, !dims_app; reflexivity) end. specialize (IH G2).
    match type of IH with ?P0 -> _ => assert (G3 : P0) end.
    { apply Forall2_app_inv_l in HD1 as (ba & bc & F1 & F2 & ->). apply Forall2_app; [exact F1|]. inversion F2 as [|? ? ? ? F3 F4]; subst. inversion F4; subst. constructor; [exact F3|constructor]. }
    specialize (IH G3).
    destruct (gauge_loop polar _ _ _) as [data|e]; [|exact IH].
    destruct IH as (rest' & U0 & -> & I1 & I2 & I3 & I4 & I5 & I6).
    exists (rest' ++ [gauged A U]), U0. split; [rewrite <- app_assoc; reflexivity|].
    split; [eapply chain_app_mk; [exact I1|cbn; congruence|exact HrA]|].
    split; [apply Forall2_app; [exact I2|]; constructor; [|constructor]; unfold same_bonds; cbn; split; [exact HdB|]; split; congruence|].
    split; [apply Forall2_app; [exact I3|]; constructor; [|constructor]|].
    { apply (gauged_matched A B M1 U P); auto. intros x y. cbn. now rewrite HdB, HrA. }
    split; [exact I4|]. split.
    + intros s x y Hs Hx Hy. rewrite dims_app in Hs. apply incfg_app_inv in Hs as (s1 & s2 & -> & S1 & S2).
      destruct s2 as [|t [|? ?]]; try (inversion S2; fail). 2: { apply incfg_cons in S2 as [_ S2]. inversion S2. }
      assert (L1 : length s1 = length (r ++ [C])) by (apply incfg_length in S1; now rewrite dims_length in S1).
      assert (LR : length rest' = length (r ++ [C])) by (rewrite <- HLb1; clear -I2; induction I2; cbn; congruence).
      rewrite (amp_snoc (r ++ [C]) A s1 t x y i k1) by (try assumption; lia).
      rewrite (sum_ext i' _ (fun k => sum kb (fun z => me U0 x k * amp rest' s1 k z * ent (gauged A U) t z y))).
      2: { intros k Hk. rewrite (amp_snoc rest' (gauged A U) s1 t k y i' kb) by (try assumption; try (cbn; lia); lia). rewrite <- sum_mul_l. apply sum_ext; intros; ring. }
      rewrite sum_swap. rewrite (sum_ext kb _ (fun z => amp (r ++ [C']) s1 x z * ent (gauged A U) t z y)).
      2: { intros z Hz. rewrite sum_mul_r. f_equal. symmetry. apply I5; try assumption. rewrite G2, <- Hd1, <- dims_app. exact S1. }
      assert (HC' : forall z, (z < kb)%nat -> amp (r ++ [C']) s1 x z = sum k1 (fun w => amp (r ++ [C]) s1 x w * me U w z)).
      { intros z Hz. rewrite dims_app in S1. apply incfg_app_inv in S1 as (sa & sb & -> & Sa & Sb).
        destruct sb as [|u [|? ?]]; try (inversion Sb; fail). 2: { apply incfg_cons in Sb as [_ Sb]. inversion Sb. }
        assert (La : length sa = length r) by (apply incfg_length in Sa; now rewrite dims_length in Sa).
        rewrite (amp_snoc r C' sa u x z i k2) by (try assumption; rewrite EC; cbn; lia).
        rewrite (sum_ext k1 _ (fun w => sum k2 (fun v => amp r sa x v * (ent C u v w * me U w z)))).
        2: { intros w Hw. rewrite (amp_snoc r C sa u x w i k2) by (try assumption; lia). rewrite <- sum_mul_r. apply sum_ext; intros; ring. }
        rewrite sum_swap. apply sum_ext; intros v _. rewrite EC. cbn [widened ent]. rewrite HrC, <- sum_mul_l. reflexivity. }
      rewrite (sum_ext kb _ (fun z => sum k1 (fun w => sum k1 (fun v => (amp (r ++ [C]) s1 x w * ent A t v y) * (me U w z * sconj (me U v z)))))).
      2: { intros z Hz. rewrite HC' by exact Hz. cbn [gauged ent]. rewrite U1, Hk1, sum_prod. apply sum_ext; intros w _. apply sum_ext; intros v _. ring. }
      rewrite sum_swap. apply sum_ext; intros w Hw. rewrite sum_swap.
      rewrite (sum_ext k1 _ (fun v => (amp (r ++ [C]) s1 x w * ent A t v y) * dlt w v)).
      * now rewrite sum_dlt_r'.
      * intros v Hv. rewrite sum_mul_l. f_equal. rewrite <- Hkb. apply (HUr HAB); cbn; lia.
    + intros HR HL. apply Forall_app in HR as [HR1 HRA]. inversion HRA; subst. rewrite !map_app in HL. apply app_inj_tail in HL as [HL1 HLA].
      apply Forall_app. split.
      * apply I6; [|rewrite <- HL1, !map_app; reflexivity]. apply Forall_app in HR1 as [HRr HRC]. apply Forall_app. split; [exact HRr|]. constructor; [|constructor].
        inversion HRC; subst. rewrite EC. apply (widened_right_iso C U (dl B)); [assumption|]. split; [congruence|]. split; [exact U2|]. rewrite HCU, U1. apply (HUr HAB).
      * constructor; [|constructor]. apply gauged_right_iso; [assumption|exact U1|]. rewrite U1, U2. apply HUl. cbn. lia.
Qed.
End Proof.
