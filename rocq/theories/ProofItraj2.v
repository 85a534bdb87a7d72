(** Loschmidt echoes of trajectories of infinite MPS. *)
From Coq Require Import Setoid Morphisms.
From Verif Require Import Alg ModelMPS SpecMPS SpecOrth SpecCanon ModelStruct SpecStruct ModelDecomp SpecDecomp ModelTensor ModelOrth ModelCanon ModelTraj SpecTraj ModelImps SpecImps ProofFm ProofImps6 ProofImps9 ProofImps11 ModelItraj SpecItraj ProofItraj.
Local Open Scope nat_scope.

Section Proofs.
Context {R : sring}.
Local Open Scope sr_scope.
Add Ring Rr : (s_th R).

Lemma gauge_fm D (A B : site R) c : gauge_of D A B c <-> exists P Pi, feq D (fmul D P Pi) f1 /\ feq D (fmul D Pi P) f1 /\
  forall s, (s < phys A)%nat -> feq D (ent B s) (fsc c (fmul D (fmul D P (ent A s)) Pi)).
Proof.
  assert (K : forall P Pi s i j, sum D (fun a => sum D (fun b => P i a * ent A s a b * Pi b j)) = fmul D (fmul D P (ent A s)) Pi i j).
  { intros P Pi s i j. unfold fmul at 1. rewrite sum_swap. apply sum_ext; intros b Hb. unfold fmul. rewrite <- sum_mul_r. reflexivity. }
  split.
  - intros (S & Si & S1 & S2 & (I1 & I2 & I3 & I4) & H). exists (me S), (me Si). rewrite S1 in *. split; [intros i j Hi Hj; now apply I3|]. split; [intros i j Hi Hj; now apply I4|].
    intros s Hs i j Hi Hj. rewrite H by assumption. unfold fsc. now rewrite K.
  - intros (P & Pi & H1 & H2 & H). exists (mkMat D D P), (mkMat D D Pi). repeat split.
    + intros i j Hi Hj. now apply H1.
    + intros i j Hi Hj. now apply H2.
    + intros s i j Hs Hi Hj. rewrite (H s Hs i j Hi Hj). unfold fsc. cbn [me]. now rewrite K.
Qed.

Lemma gauge_trans D (A B E : site R) c c' : phys B = phys A -> gauge_of D A B c -> gauge_of D B E c' -> gauge_of D A E (c' * c).
Proof.
  intros Hp H1 H2. apply gauge_fm in H1 as (P & Pi & P1 & P2 & HP). apply gauge_fm in H2 as (Q & Qi & Q1 & Q2 & HQ). apply gauge_fm.
  exists (fmul D Q P), (fmul D Pi Qi). split; [|split].
  - rewrite fmul_assoc, <- (fmul_assoc D P), P1, f1_l. exact Q1.
  - rewrite fmul_assoc, <- (fmul_assoc D Qi), Q2, f1_l. exact P2.
  - intros s Hs. rewrite (HQ s) by congruence. rewrite (HP s) by exact Hs. rewrite fsc_r, fsc_l, fsc_sc, !fmul_assoc. reflexivity.
Qed.

Lemma gauge_eq D (A A' B : site R) c : square_site D A -> site_eq A A' -> gauge_of D A' B c -> gauge_of D A B c.
Proof.
  intros [D1 D2] (E1 & E2 & E3 & E4) H. apply gauge_fm in H as (P & Pi & P1 & P2 & HP). apply gauge_fm. exists P, Pi. split; [exact P1|]. split; [exact P2|].
  intros s Hs. rewrite (HP s) by congruence.
  assert (K : feq D (ent A' s) (ent A s)) by (intros i j Hi Hj; symmetry; apply E4; congruence). now rewrite K.
Qed.

Section Run.
Variables (nonneg : R -> Prop) (C : icalls R) (I : imag R) (nabs nlog : R -> R) (d D : nat).
Hypothesis HC : icalls_ok nonneg C.
Hypothesis HG : good_envs nonneg C d D.
Hypothesis HI : imag_ok I.
Hypothesis Hint : @integral R.
Hypothesis Hsq : forall z : R, nonneg (z * sconj z).
Hypothesis Hneg : ~ nonneg (- (1)).
Hypothesis Hsgn : forall x, de_sgn (ic_dec C) x = 0 \/ de_sgn (ic_dec C) x * sconj (de_sgn (ic_dec C) x) = 1.
Hypothesis Harn : forall n f v0 eta v, ic_arn C n f v0 = Some (eta, v) -> hdot v v = 1.

Lemma ilcan_gauge (m m' : imps R) : icell d D m -> ilcan C m = Ok m' -> icell d D m' /\ exists A c, i_data m' = [A] /\ left_form_of D m A c.
Proof.
  intros Hm E. split; [exact (proj1 (ilcan_ok nonneg C d D m m' HC HG Hm E))|]. pose proof Hm as (A & Ha & Hp & Hl & Hr & Hper & Hd & HD). unfold ilcan in E.
  destruct (canonicalise C m hand_l None None false) as [[x [G L]]|] eqn:EC; [|discriminate]. cbn [bind fst] in E. injection E as ->.
  assert (HE : exists eta l r, imps_eigs C m None None = Ok (eta, l, r)).
  { unfold canonicalise in EC. destruct (getitem (i_data m) 0); [|discriminate]. cbn [bind] in EC. destruct (imps_eigs C m None None) as [[[eta l] r]|]; [eauto|discriminate]. }
  destruct HE as (eta & l & r & HE). destruct (HG m eta l r Hm HE) as (H1 & H2 & H3).
  destruct (canon_left nonneg C HC D A [] m hand_l None None false m' G L eta l r Ha (conj Hl Hr) HE H1 H2 H3 EC eq_refl) as (A' & c & F1 & F2 & F3 & F5 & _ & F6 & _).
  exists A', c. split; [exact F1|]. exists A. auto.
Qed.

(** z represents the state of x0 *)
Definition from (x0 z : imps R) : Prop := icell d D z /\ exists X Z c, i_data x0 = [X] /\ i_data z = [Z] /\ phys Z = phys X /\ gauge_of D X Z c.

Lemma gauge_refl (A : site R) : gauge_of D A A 1.
Proof.
  apply gauge_fm. exists f1, f1. split; [apply f1_l|]. split; [apply f1_l|]. intros s Hs. rewrite f1_r, f1_l, fsc_1. reflexivity.
Qed.

Lemma losch_loop_ok x0 : icell d D x0 -> forall xs vs z rs, from x0 z -> Forall (icell d D) xs -> Forall2 (fun x v => imps_serialize_real I x = Ok v) xs vs ->
  forall Ds, (length xs <= length Ds)%nat -> Forall (fun e => e = D) Ds -> losch_loop C I nabs nlog d (pyzip Ds vs) z = Ok rs ->
  Forall2 (fun x r => exists eta, overlap_per_site D x x0 eta /\ r = - nlog (nabs (nabs eta * nabs eta))) xs rs.
Proof.
  intros Hx0. induction xs as [|x xs IH]; intros vs z rs Hz HF HS Ds HL HD E.
  - inversion HS; subst. destruct Ds; cbn in E; injection E as <-; constructor.
  - inversion HS as [|? v ? vs' Hv HS']; subst. inversion HF as [|? ? Hx HF']; subst. destruct Ds as [|e Ds]; [cbn in HL; lia|]. inversion HD; subst e. cbn [pyzip combine losch_loop] in E.
    destruct (imps_deserialize_real I blank v d D 1) as [m|] eqn:Em; [|discriminate]. cbn [bind] in E.
    destruct (imps_overlap C nabs m z) as [[o z']|] eqn:Eo; [|discriminate]. cbn [bind fst snd] in E.
    destruct (losch_loop C I nabs nlog d (combine Ds vs') z') as [rs'|] eqn:El; [|discriminate]. cbn [bind] in E. injection E as <-.
    pose proof Hx as (A & Ha & A1 & A2 & A3 & A4 & A5 & A6).
    destruct (imps_roundtrip_real I x blank d D HI) as (w & n' & W1 & W2 & W3 & W4 & W5 & W6); [rewrite Ha; discriminate|rewrite Ha; repeat constructor; auto|].
    rewrite Hv in W1. injection W1 as <-. rewrite Ha in W2, W6. cbn [length] in W2, W6. rewrite Em in W2. injection W2 as <-. rewrite Ha in W3. inversion W3 as [|? A' ? ? HA Hn E1 E2]; subst. inversion Hn; subst.
    assert (Hm : icell d D m). { destruct HA as (S1 & S2 & S3 & _). exists A'. repeat split; congruence. }
    unfold imps_overlap in Eo. destruct (ilcan C m) as [m1|] eqn:E3; [|discriminate]. cbn [bind] in Eo. destruct (imps_get m1 0) as [Am|] eqn:E4; [|discriminate]. cbn [bind] in Eo.
    destruct (ilcan C z) as [z1|] eqn:E5; [|discriminate]. cbn [bind] in Eo. destruct (imps_get z1 0) as [Bz|] eqn:E6; [|discriminate]. cbn [bind] in Eo.
    destruct (left_fixed_point C Am Bz None) as [[e l]|] eqn:E7; [|discriminate]. cbn [bind fst] in Eo. injection Eo as <- <-.
    destruct (ilcan_gauge m m1 Hm E3) as (_ & Am' & c & F1 & (X & G1 & G2 & G3 & G4 & G5)). unfold imps_get in E4. rewrite F1 in E4. cbn in E4. injection E4 as ->.
    rewrite <- E2 in G1. injection G1 as <-.
    destruct Hz as (Hz & X0 & Z & c0 & Z1 & Z2 & Z3 & Z4). destruct (ilcan_gauge z z1 Hz E5) as (Hz1 & Bz' & c' & F1' & (Z' & G1' & G2' & G3' & G4' & G5')). unfold imps_get in E6. rewrite F1' in E6. cbn in E6. injection E6 as ->.
    rewrite Z2 in G1'. injection G1' as <-.
    assert (HX0 : phys X0 = phys A). { destruct Hx0 as (Y & Y1 & Y2 & _). rewrite Z1 in Y1. injection Y1 as ->. congruence. }
    assert (HAp : phys A' = phys A) by (destruct HA as (S1 & _); congruence).
    constructor.
    + destruct (left_fixed_ok nonneg C HC D Am Bz None e l G3 G3') as (_ & _ & _ & eta & n & -> & T1 & T2 & T3); [congruence|exact E7|].
      assert (n = 1) by (apply T3; assumption). subst n. exists eta. split.
      * exists Am, Bz, c, (c' * c0), l. split; [|split; [|split; [exact T1|exact (T2 Hsq)]]].
        -- exists A. split; [exact Ha|]. split; [congruence|]. split; [exact G3|]. split; [exact G4|]. apply (gauge_eq D A A'); [split; congruence|exact HA|exact G5].
        -- exists X0. split; [exact Z1|]. split; [congruence|]. split; [exact G3'|]. split; [exact G4'|]. eapply gauge_trans; eassumption.
      * replace (eta * 1) with eta by ring. reflexivity.
    + apply (IH vs' z1 rs') with (Ds := Ds); try assumption.
      * split; [exact Hz1|]. exists X0, Bz, (c' * c0). split; [exact Z1|]. split; [exact F1'|]. split; [congruence|]. eapply gauge_trans; eassumption.
      * cbn in HL. lia.
Qed.

Theorem iloschmidts_ok tr x0 xs rs : Forall2 (fun x v => imps_serialize_real I x = Ok v) (x0 :: xs) (it_hist tr) -> Forall (icell d D) (x0 :: xs) ->
  icell d D (it_mps tr) -> it_Ds tr = repeat D (S (length (x0 :: xs))) -> iloschmidts C I nabs nlog tr = Ok rs ->
  Forall2 (fun x r => exists eta, overlap_per_site D x x0 eta /\ r = - nlog (nabs (nabs eta * nabs eta))) (x0 :: xs) rs.
Proof.
  intros HS HF (Y & _ & _ & _ & _ & _ & Y6 & Y7) HD E. unfold iloschmidts in E. destruct (it_hist tr) as [|v0 vs] eqn:Eh; [discriminate|]. rewrite Y6, Y7 in E. clear Y Y6 Y7.
  destruct (imps_deserialize_real I blank v0 d D 1) as [m0|] eqn:Em; [|discriminate]. cbn [bind] in E.
  inversion HS as [|? ? ? ? Hv _]; subst. inversion HF as [|? ? Hx _]; subst. pose proof Hx as (A & Ha & A1 & A2 & A3 & A4 & A5 & A6).
  destruct (imps_roundtrip_real I x0 blank d D HI) as (w & n' & W1 & W2 & W3 & W4 & W5 & W6); [rewrite Ha; discriminate|rewrite Ha; repeat constructor; auto|].
  rewrite Hv in W1. injection W1 as <-. rewrite Ha in W2, W6. cbn [length] in W2, W6. rewrite Em in W2. injection W2 as <-. rewrite Ha in W3.
  assert (HA' : exists A', i_data m0 = [A'] /\ site_eq A A') by (clear -W3; inversion W3 as [|? A' ? ? HA Hn E1 E2]; subst; inversion Hn; subst; eauto). destruct HA' as (A' & Hm0 & HA).
  apply (losch_loop_ok x0 Hx (x0 :: xs) (v0 :: vs) m0 rs) with (Ds := it_Ds tr); try assumption.
  - pose proof HA as (S1 & S2 & S3 & _). split; [exists A'; repeat split; congruence|]. exists A, A', 1. split; [exact Ha|]. split; [congruence|]. split; [congruence|].
    apply (gauge_eq D A A'); [split; congruence|exact HA|apply gauge_refl].
  - rewrite HD, repeat_length. lia.
  - rewrite HD. apply Forall_forall. intros e He. now apply repeat_spec in He.
Qed.
End Run.
End Proofs.
