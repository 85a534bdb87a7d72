(** What is known at a site about the frame, and the whole of F2. *)
From Verif Require Import Alg ModelMPS SpecMPS ProofMPS ModelOrth SpecOrth ProofOrth ProofOrth2 ModelNcon SpecNcon ModelNp ProofNp
  ModelEk SpecEk ProofEk4 ModelEnergy SpecEnergy ProofEnergy ModelTan SpecTan ProofTan ModelTdvp SpecTdvp ProofTdvp ProofTdvp2 ProofTdvp3 ProofTdvp4 ProofTdvp5 ProofTdvp6 ProofTdvp7 ProofTdvp8
  ModelJac SpecJac ProofJac ProofJac2 ProofJac3.
Require Verif.SpecDecomp.

Section General.
Context {R : sring}.
Local Open Scope sr_scope.
Add Ring Rr : (s_th R).

Lemma root_spec (M C Ci : mat R) : diagonal M -> (forall a, (a < mr M)%nat -> sconj (me M a a) = me M a a) ->
  is_chol M C -> is_inverse C Ci -> root_of M C Ci.
Proof.
  intros HD Hreal HC HI.
  pose proof (chol_diagonal M C HD HC) as CD. destruct HC as (C1 & C2 & HL & HU & HM). destruct HI as (I1 & I2 & HI). rewrite C1 in *.
  assert (Hcc : forall a, (a < mr M)%nat -> me C a a * me Ci a a = 1).
  { intros a Ha. destruct (HI a a Ha Ha) as [H _]. rewrite (sum_diag (mr M) a) in H; [|exact Ha|intros k Hk Hne; rewrite (CD a k) by lia; ring]. rewrite H. unfold dlt. now rewrite Nat.eqb_refl. }
  assert (Hoff : forall a b, (a < mr M)%nat -> (b < mr M)%nat -> a <> b -> me Ci a b = 0).
  { intros a b Ha Hb Hne. destruct (HI a b Ha Hb) as [H _]. rewrite (sum_diag (mr M) a) in H; [|exact Ha|intros k Hk Hk'; rewrite (CD a k) by lia; ring].
    unfold dlt in H. destruct (Nat.eqb_spec a b); [lia|]. transitivity (me C a a * me Ci a a * me Ci a b); [rewrite Hcc by assumption; ring|]. transitivity (me Ci a a * (me C a a * me Ci a b)); [ring|]. rewrite H. ring. }
  repeat (split; [assumption|]). split.
  - intros a b Ha Hb. unfold dlt. destruct (Nat.eqb_spec a b) as [->|N]; [split; ring|]. rewrite CD, Hoff by assumption. split; ring.
  - intros a Ha. destruct (HU a Ha) as [Hc _]. split; [now apply Hcc|]. split; [|split; [exact Hc|]].
    + rewrite <- (HM a a Ha Ha). rewrite (sum_diag (mr M) a); [now rewrite Hc|exact Ha|]. intros k Hk Hne. rewrite (CD a k) by lia. ring.
    + assert (E : me C a a * sconj (me Ci a a) = 1). { rewrite <- Hc at 1. rewrite <- conj_mul, Hcc by assumption. apply conj_1. }
      transitivity (sconj (me Ci a a) * (me C a a * me Ci a a)); [rewrite Hcc by assumption; ring|]. transitivity (me C a a * sconj (me Ci a a) * me Ci a a); [ring|]. rewrite E. ring.
Qed.

(** a root and its inverse as passed in inv_envs *)
Definition root_pair (n : nat) (f : nat -> R) (c ic : mat R) : Prop :=
  is_dmat c n (fun a => me c a a) /\ is_dmat ic n (fun a => me ic a a) /\
  forall a, (a < n)%nat -> me c a a * me ic a a = 1 /\ me c a a * me c a a = f a /\ sconj (me c a a) = me c a a /\ sconj (me ic a a) = me ic a a.
Lemma root_pair_ok (K : tanlib R) n (f : nat -> nat -> R) M C c ic : tanlib_ok K -> is_env M n f -> diag_on n f -> (forall a, (a < n)%nat -> sconj (f a a) = f a a) ->
  t_ch K M = Ok C -> mat_eq c C -> is_inverse C ic -> root_pair n (fun a => f a a) c ic.
Proof.
  intros (Kc & _ & _) (M1 & M2 & M3) Dg Hr EC (Q1 & Q2 & Q3) HI.
  assert (HD : diagonal M). { split; [congruence|]. rewrite M1. intros i j Hi Hj Hne. rewrite M3 by assumption. now apply Dg. }
  assert (Hre : forall a, (a < mr M)%nat -> sconj (me M a a) = me M a a). { rewrite M1. intros a Ha. rewrite M3 by assumption. now apply Hr. }
  assert (HC : is_chol M C).
  { apply Kc; [|exact EC]. destruct HD as [H1 H2]. split; [exact H1|]. intros i j Hi Hj. destruct (Nat.eq_dec i j) as [->|N]; [now apply Hre|]. rewrite !H2 by lia. apply conj_0. }
  destruct (root_spec M C ic HD Hre HC HI) as (C1 & C2 & I1 & I2 & Ho & Hd). rewrite M1 in *. rewrite Q1, Q2, C1, C2 in *.
  split; [|split].
  - split; [congruence|]. split; [congruence|]. intros i j Hi Hj. rewrite !Q3 by assumption. apply Ho; assumption.
  - split; [congruence|]. split; [congruence|]. intros i j Hi Hj. apply Ho; assumption.
  - intros a Ha. rewrite !Q3 by assumption. rewrite <- M3 by assumption. apply Hd. exact Ha.
Qed.

Lemma overlap_norm d (l : list (site R)) : chain 1 l 1 -> dims l = repeat d (length l) -> overlap d l l = true_l l 0 0.
Proof. intros Hc Hd. unfold overlap, true_l, state. rewrite Hd. reflexivity. Qed.
Lemma true_nil_l : true_l ([] : list (site R)) 0 0 = 1.
Proof. unfold true_l. cbn. unfold dlt. cbn. rewrite conj_1. ring. Qed.

Lemma tvec_shape (A V : site R) L E x y : same_shape A (tvec A V L E x y).
Proof. repeat split. Qed.
End General.

Section Whole.
Context {R : sring}.
Local Open Scope sr_scope.
Add Ring Rr2 : (s_th R).
Variable K : tanlib R.
Variable S : setio.
Hypothesis HK : tanlib_ok K.
Hypothesis HS : setio_ok S.
Hypothesis Hchar : SpecDecomp.char0 R.
Variables (m : fmps R) (H ls rs : list (mat R)) (ie : @invenvs R).
Hypothesis Hin : tdvp_input K m H ls rs.
Hypothesis Hnorm : overlap (fd m) (fdata m) (fdata m) = 1.
Hypothesis Hie : inv_envs_ok K ls rs (fL m) ie.
Notation d := (fd m).

Definition prev (n : nat) : nat := match n with O => (length (fdata m) - 1)%nat | Datatypes.S k => k end.
Definition icl n := nth (prev n) (ie_icl ie) no_mat.
Definition cl n := nth (prev n) (ie_cl ie) no_mat.
Definition icr n := nth n (ie_icr ie) no_mat.
Definition cr n := nth n (ie_cr ie) no_mat.

Lemma getprev_ok {X} (l : list X) (o : X) n : length l = length (fdata m) -> (n < length (fdata m))%nat -> getprev l n = Ok (nth (prev n) l o).
Proof.
  intros HL Hn. unfold getprev, getitem, prev. destruct n as [|n].
  - rewrite HL, (nth_error_nth' l o) by lia. reflexivity.
  - rewrite (nth_error_nth' l o) by lia. reflexivity.
Qed.

(** everything about the frame at a site *)
Definition jfacts (P Q : list (site R)) (A : site R) (pr : tens R) (V : site R) : Prop :=
  let n := length P in
  left_null_projector K S m n (Some ls) None = Ok (pr, V) /\ phys V = d /\ dl V = dl A /\
  getprev (ie_cl ie) n = Ok (cl n) /\ getprev (ie_icl ie) n = Ok (icl n) /\ getitem (ie_icr ie) n = Ok (icr n) /\ getitem (ie_cr ie) n = Ok (cr n) /\
  root_pair (dl A) (fun a => true_l P a a) (cl n) (icl n) /\ root_pair (dr A) (fun b => true_r Q b b) (cr n) (icr n) /\
  (forall k y, (k < dr V)%nat -> (y < dr A)%nat -> sum d (fun t => sum (dl A) (fun c => sconj (ent A t c y) * me (cl n) c c * ent V t c k)) = 0) /\
  (forall k k', (k < dr V)%nat -> (k' < dr V)%nat -> sum d (fun s => sum (dl A) (fun a => sconj (ent V s a k) * ent V s a k')) = dlt k k') /\
  (forall X : nat -> nat -> R, (forall y, (y < dr A)%nat -> sum d (fun t => sum (dl A) (fun c => sconj (ent A t c y) * true_l P c c * X t c)) = 0) ->
     forall s a, (s < d)%nat -> (a < dl A)%nat -> X s a = me (icl n) a a * sum (dr V) (fun k => ent V s a k * sum d (fun t => sum (dl A) (fun c => sconj (ent V t c k) * (me (cl n) c c * X t c))))).

Lemma ie_at n : (n < fL m)%nat -> exists e f C E,
    (nth_error ls (n + 1) = Some e /\ t_ch K e = Ok C /\ nth_error (ie_cl ie) n = Some (nth n (ie_cl ie) no_mat) /\ mat_eq (nth n (ie_cl ie) no_mat) C /\ nth_error (ie_icl ie) n = Some (nth n (ie_icl ie) no_mat) /\ is_inverse C (nth n (ie_icl ie) no_mat)) /\
    (nth_error rs (n + 1) = Some f /\ t_ch K f = Ok E /\ nth_error (ie_cr ie) n = Some (nth n (ie_cr ie) no_mat) /\ mat_eq (nth n (ie_cr ie) no_mat) E /\ nth_error (ie_icr ie) n = Some (nth n (ie_icr ie) no_mat) /\ is_inverse E (nth n (ie_icr ie) no_mat)).
Proof.
  intros Hn. destruct Hie as (_ & _ & HI). destruct (HI n Hn) as (e & f & C & E & c1 & c2 & c3 & c4 & (H1 & H2 & H3 & H4 & H5 & H6) & (H7 & H8 & H9 & H10 & H11 & H12)).
  pose proof (nth_error_nth _ _ no_mat H3) as E3. pose proof (nth_error_nth _ _ no_mat H5) as E5. pose proof (nth_error_nth _ _ no_mat H9) as E9. pose proof (nth_error_nth _ _ no_mat H11) as E11.
  rewrite E3, E5, E9, E11. exists e, f, C, E. repeat (split; try assumption).
Qed.

Lemma jfacts_ok P Q A : fdata m = P ++ A :: Q -> exists l r0 F pr V, site_facts K S m ls rs P Q A l r0 F pr V /\ jfacts P Q A pr V.
Proof.
  intros E. destruct (facts K S HK HS Hchar m H ls rs Hin P Q A E) as (l & r0 & F & pr & V & HF). exists l, r0, F, pr, V. split; [exact HF|].
  pose proof HF as (C1 & C3 & C4 & C5 & C6 & C7 & C9 & Hp & Nl & Hl & Nr & Hr & _ & _ & EP & _).
  assert (HA : nth_error (fdata m) (length P) = Some A) by (rewrite E, nth_error_app2, Nat.sub_diag by lia; reflexivity).
  pose proof Hin as ((Hcl & HL' & _) & Hun' & _ & _ & Hdg' & _ & Hready & _).
  assert (HnL : (length P < length (fdata m))%nat) by (rewrite E, app_length; cbn; lia).
  destruct (Hready _ A l r0 HA Nl Nr) as (HR & _ & _).
  assert (rl : forall a, sconj (true_l P a a) = true_l P a a) by (intros; apply true_l_real).
  assert (rr : forall a, sconj (true_r Q a a) = true_r Q a a) by (intros; apply true_r_real).
  pose proof Hl as (L1 & L2 & L3).
  assert (Dl : diagonal l). { split; [congruence|]. rewrite L1. intros i j Hi Hj Hne. rewrite L3 by assumption. now apply C4. }
  assert (Rl : forall a, (a < dl A)%nat -> sconj (me l a a) = me l a a) by (intros a Ha; rewrite L3 by assumption; apply rl).
  rewrite <- C9 in Hp.
  destruct (left_null_ok K S HK HS m (length P) ls A l HA Nl C9 (proj1 Hp) (proj1 (proj2 Hp)) L1 Dl Rl HR) as (pr' & V' & C & Ci & EP' & EC & ECi & HRt & HV & _).
  rewrite EP in EP'. injection EP' as <- <-. pose proof HV as (V1 & V2 & V3 & V4 & V5). rewrite C9 in *.
  destruct HRt as (_ & _ & _ & _ & _ & HDia). rewrite L1 in HDia.
  destruct Hie as (Li & Lc & _).
  assert (RR : root_pair (dr A) (fun b => true_r Q b b) (cr (length P)) (icr (length P)) /\ getitem (ie_icr ie) (length P) = Ok (icr (length P)) /\ getitem (ie_cr ie) (length P) = Ok (cr (length P))).
  { destruct (ie_at (length P)) as (e & f & C' & E' & _ & (G1 & G2 & G3 & G4 & G5 & G6)); [lia|]. assert (f = r0) by congruence. subst f. split.
    - apply (root_pair_ok K (dr A) (true_r Q) r0 E'); try assumption. intros; apply rr.
    - unfold getitem, icr, cr. rewrite G3, G5. split; reflexivity. }
  assert (RL : root_pair (dl A) (fun a => true_l P a a) (cl (length P)) (icl (length P)) /\ exists g, forall a, (a < dl A)%nat -> me (cl (length P)) a a = g * me C a a /\ (forall c, (c < dl A)%nat -> me (icl (length P)) a a * me (cl (length P)) c c = me Ci a a * me C c c)).
  { destruct P as [|A0 P0] eqn:EPn.
    - cbn [length] in *. unfold cl, icl, prev. destruct (ie_at (length (fdata m) - 1)) as (e & f & C' & E' & (G1 & G2 & G3 & G4 & G5 & G6) & _); [lia|].
      replace (length (fdata m) - 1 + 1)%nat with (length (fdata m)) in G1 by lia.
      destruct (cut m d ls rs (Hun K m H ls rs Hin) (Hdg K m H ls rs Hin) (Hen K m H ls rs Hin) (fdata m) [] (eq_sym (app_nil_r _))) as (e' & _ & a & Ne & _ & K1 & K2 & Ke & _ & Kd & _ & Kdim & _).
      assert (e' = e) by congruence. subst e'. cbn in K2. subst a.
      assert (D1 : dl A = 1%nat) by (rewrite E in Hcl; cbn in Hcl; tauto).
      pose proof (root_pair_ok K 1 (true_l (fdata m)) e C' _ _ HK Ke Kd (fun a _ => true_l_real (fdata m) a) G2 G4 G6) as RP. rewrite D1 in *.
      assert (EN : true_l (fdata m) 0 0 = 1) by (rewrite <- (overlap_norm d) by (try assumption; apply Hcl); exact Hnorm).
      set (c := nth (length (fdata m) - 1) (ie_cl ie) no_mat) in *. set (ic := nth (length (fdata m) - 1) (ie_icl ie) no_mat) in *.
      split.
      + destruct RP as (R1 & R2 & R3). split; [exact R1|]. split; [exact R2|]. intros a Ha. replace a with 0%nat by lia. destruct (R3 0%nat) as (S1 & S2 & S3 & S4); [lia|]. rewrite EN in S2. rewrite true_nil_l. repeat split; assumption.
      + destruct RP as (R1 & R2 & R3). destruct (R3 0%nat) as (S1 & S2 & S3 & S4); [lia|]. destruct (HDia 0%nat) as (T1 & _); [lia|].
        exists (me c 0%nat 0%nat * me Ci 0%nat 0%nat). intros a Ha. replace a with 0%nat by lia. split.
        * transitivity (me c 0%nat 0%nat * (me C 0%nat 0%nat * me Ci 0%nat 0%nat)); [rewrite T1; ring|ring].
        * intros c' Hc'. replace c' with 0%nat by lia. transitivity (1 : R); [rewrite <- S1; ring|rewrite <- T1; ring].
    - assert (LP : exists k, length P = Datatypes.S k) by (exists (length P0); rewrite EPn; reflexivity). rewrite <- EPn in *. destruct LP as (k & LP).
      unfold cl, icl. rewrite LP. cbn [prev]. destruct (ie_at k) as (e & f & C' & E' & (G1 & G2 & G3 & G4 & G5 & G6) & _); [lia|]. replace (k + 1)%nat with (length P) in G1 by lia. assert (e = l) by congruence. subst e.
      assert (C' = C) by congruence. subst C'.
      pose proof (root_pair_ok K (dl A) (true_l P) l C _ _ HK Hl C4 (fun a _ => rl a) G2 G4 G6) as RP. split; [exact RP|].
      exists 1. intros a Ha. destruct G4 as (Q1 & Q2 & Q3). pose proof RP as ((R1 & R1' & _) & (_ & _ & _) & R3). rewrite R1, R1' in Q3.
      assert (EC' : forall c, (c < dl A)%nat -> me (nth k (ie_cl ie) no_mat) c c = me C c c) by (intros c Hc; apply Q3; assumption).
      split; [rewrite EC' by assumption; ring|]. intros c Hc. rewrite EC' by assumption. f_equal.
      destruct (R3 a Ha) as (S1 & _). rewrite EC' in S1 by assumption. destruct (HDia a Ha) as (T1 & _).
      transitivity (me (nth k (ie_icl ie) no_mat) a a * (me C a a * me Ci a a)); [rewrite T1; ring|]. transitivity ((me C a a * me (nth k (ie_icl ie) no_mat) a a) * me Ci a a); [ring|]. rewrite S1. ring. }
  destruct RR as (RR & Gr1 & Gr2). destruct RL as (RL & g & Hg).
  unfold jfacts. split; [exact EP|]. split; [exact V1|]. split; [exact V2|].
  split; [apply getprev_ok; [congruence|exact HnL]|]. split; [apply getprev_ok; [congruence|exact HnL]|]. split; [exact Gr1|]. split; [exact Gr2|]. split; [exact RL|]. split; [exact RR|].
  split; [|split].
  - intros k y Hk Hy. transitivity (g * sum d (fun t => sum (dl A) (fun c => left_form A (fun a => me C a a) y t c * ent V t c k))); [|rewrite V3 by assumption; ring].
    rewrite <- sum_mul_l. apply sum_ext; intros t _. rewrite <- sum_mul_l. apply sum_ext; intros c Hc. destruct (Hg c Hc) as (-> & _). unfold left_form. ring.
  - exact V4.
  - intros X HX s a Hs Ha. destruct (Hg a Ha) as (_ & Hga).
    assert (HW : me C a a * X s a = sum (dr V) (fun k => ent V s a k * sum d (fun t => sum (dl A) (fun c => sconj (ent V t c k) * (me C c c * X t c))))).
    { apply (V5 (fun s a => me C a a * X s a)); try assumption. intros b Hb. rewrite <- (HX b Hb). apply sum_ext; intros t _. apply sum_ext; intros c Hc. destruct (HDia c Hc) as (_ & T2 & _). rewrite <- (L3 c c Hc Hc), <- T2. unfold left_form. ring. }
    destruct (HDia a Ha) as (T1 & _). transitivity (me Ci a a * (me C a a * X s a)); [transitivity ((me C a a * me Ci a a) * X s a); [rewrite T1; ring|ring]|]. rewrite HW.
    rewrite <- !sum_mul_l. apply sum_ext; intros k _. transitivity (ent V s a k * sum d (fun t => sum (dl A) (fun c => (me Ci a a * me C c c) * (sconj (ent V t c k) * X t c)))).
    + transitivity (ent V s a k * (me Ci a a * sum d (fun t => sum (dl A) (fun c => sconj (ent V t c k) * (me C c c * X t c))))); [ring|]. f_equal. rewrite <- sum_mul_l. apply sum_ext; intros t _. rewrite <- sum_mul_l. apply sum_ext; intros c _. ring.
    + symmetry. transitivity (ent V s a k * (me (icl (length P)) a a * sum d (fun t => sum (dl A) (fun c => sconj (ent V t c k) * (me (cl (length P)) c c * X t c))))); [ring|]. f_equal. rewrite <- sum_mul_l. apply sum_ext; intros t _. rewrite <- sum_mul_l. apply sum_ext; intros c Hc.
      rewrite <- (Hga c Hc). ring.
Qed.

(** the direction at a site *)
Notation Lf n := (fun a => me (icl n) a a).
Notation Ef n := (fun b => me (icr n) b b).
Lemma T_gauge P Q A pr V : fdata m = P ++ A :: Q -> jfacts P Q A pr V -> forall x1 y1 x y, (x1 < dr V)%nat -> (x < dr A)%nat -> (y < dr A)%nat -> phys A = d ->
  sum (phys A) (fun t => sum (dl A) (fun c => sconj (ent (tvec A V (Lf (length P)) (Ef (length P)) x1 y1) t c x) * true_l P c c * ent A t c y)) = 0.
Proof.
  intros E (_ & _ & _ & _ & _ & _ & _ & (_ & _ & RL) & _ & HG & _) x1 y1 x y Hx1 Hx Hy PA. rewrite PA.
  transitivity (sconj (me (icr (length P)) y1 y1) * dlt y1 x * sconj (sum d (fun t => sum (dl A) (fun c => sconj (ent A t c y) * me (cl (length P)) c c * ent V t c x1)))).
  - rewrite sum_conj, <- sum_mul_l. apply sum_ext; intros t _. rewrite sum_conj, <- sum_mul_l. apply sum_ext; intros c Hc. cbn [tvec ent]. rewrite !conj_mul, conj_conj, dlt_conj. destruct (RL c Hc) as (R1 & R2 & R3 & R4). rewrite R3, R4, <- R2.
    transitivity (sconj (me (icr (length P)) y1 y1) * dlt y1 x * (ent A t c y * (me (cl (length P)) c c * me (icl (length P)) c c) * me (cl (length P)) c c * sconj (ent V t c x1))); [ring|]. rewrite R1. ring.
  - rewrite HG by assumption. rewrite conj_0. ring.
Qed.

Lemma F2_loop_ok P mid Q A B pr V pr' W l r0 F : fdata m = P ++ A :: mid ++ B :: Q -> site_facts K S m ls rs P (mid ++ B :: Q) A l r0 F pr V ->
  jfacts P (mid ++ B :: Q) A pr V -> jfacts (P ++ A :: mid) Q B pr' W ->
  let i := length P in let j := (length P + 1 + length mid)%nat in
  forall G, tsh G = [dr V; dr A; dr W; dr B] ->
  exists G', F2_loop S m H ls ie V W i j G = Ok G' /\ tsh G' = tsh G /\
    forall x1 y1 x2 y2, (x1 < dr V)%nat -> (y1 < dr A)%nat -> (x2 < dr W)%nat -> (y2 < dr B)%nat ->
      te G' [x1; y1; x2; y2] = te G [x1; y1; x2; y2] +
        ham_elem d (P ++ tvec A V (Lf i) (Ef i) x1 y1 :: mid ++ tvec B W (Lf j) (Ef j) x2 y2 :: Q) (fdata m) H.
Proof.
  intros E HF HJ HJ' i j G SG.
  assert (Ej : length (P ++ A :: mid) = j) by (unfold j; rewrite app_length; cbn; lia).
  pose proof HJ as (_ & PV & LV & Gcl & Gicl & Gicr & _ & RL1 & RR1 & _).
  pose proof HJ' as (_ & PW & LW & _ & Gf & _ & Gcr & RL2 & RR2 & _). rewrite Ej in *. fold i in Gcl, Gicl, Gicr, RL1, RR1.
  destruct RL1 as (Dcl & Dicl & RL1). destruct RR1 as (_ & Dicr & RR1). destruct RL2 as (_ & Df & RL2). destruct RR2 as (Dcr & _ & RR2).
  destruct (shapes_all m d ls rs (Hun K m H ls rs Hin) (Hdg K m H ls rs Hin) (Hen K m H ls rs Hin) P mid Q A B E) as (a & CP & CA & Cm & CQ & DgL & DgR & DP & Dm & DQ & PA & PB). rewrite <- CA in CP.
  assert (rL1 : real_on (dl A) (Lf i)) by (intros x Hx; apply (RL1 x Hx)).
  assert (rE1 : real_on (dr A) (Ef i)) by (intros x Hx; apply (RR1 x Hx)).
  assert (rL2 : real_on (dl B) (Lf j)) by (intros x Hx; apply (RL2 x Hx)).
  assert (rE2 : real_on (dr B) (Ef j)) by (intros x Hx; apply (RR2 x Hx)).
  assert (HCL : forall x, (x < dl A)%nat -> me (cl i) x x = true_l P x x * me (icl i) x x).
  { intros x Hx. destruct (RL1 x Hx) as (R1 & R2 & _). rewrite <- R2. transitivity (me (cl i) x x * (me (cl i) x x * me (icl i) x x)); [rewrite R1|]; ring. }
  assert (HCR : forall y, (y < dr B)%nat -> me (cr j) y y = me (icr j) y y * true_r Q y y).
  { intros y Hy. destruct (RR2 y Hy) as (R1 & R2 & _). rewrite <- R2. transitivity (me (cr j) y y * (me (cr j) y y * me (icr j) y y)); [rewrite R1|]; ring. }
  pose proof Hin as ((_ & HL' & _) & _ & _ & H2 & _ & _ & _ & Hlt & HH).
  destruct (reshape_all K m H ls rs Hin) as (hs & Ehs & Lhs & FF).
  assert (HA : nth_error (fdata m) i = Some A) by (unfold i; rewrite E, nth_error_app2, Nat.sub_diag by lia; reflexivity).
  assert (HB : nth_error (fdata m) j = Some B) by (rewrite E; replace (P ++ A :: mid ++ B :: Q) with ((P ++ A :: mid) ++ B :: Q) by (rewrite <- app_assoc; reflexivity); rewrite nth_error_app2, Ej, Nat.sub_diag by lia; reflexivity).
  unfold F2_loop. rewrite Ehs. cbn [bind]. unfold getitem at 1. rewrite HA. cbn [bind]. rewrite PA.
  destruct (Nat.eqb_spec (d * dl A) (dr A)) as [Ed|Ed].
  { exists G. split; [reflexivity|]. split; [reflexivity|]. intros x1 y1 x2 y2 H1'. exfalso.
    destruct (next_inv K S HK HS Hchar m H ls rs Hin P (mid ++ B :: Q) A E) as (u & Hu); [destruct mid; discriminate|].
    destruct HF as (_ & _ & _ & _ & _ & _ & _ & _ & _ & _ & _ & _ & _ & _ & _ & _ & _ & _ & _ & Hcount & _). specialize (Hcount u Hu). lia. }
  rewrite Gf. cbn [bind]. destruct (dmat_site (icl j) (Lf j) (site_conj W)) as (X & EX & X1 & X2 & X3 & VX); [cbn [site_conj dl]; rewrite LW; exact Df|]. rewrite EX. cbn [bind].
  unfold getitem at 1. rewrite HB. cbn [bind]. rewrite Gcr. cbn [bind]. destruct (site_dmat (cr j) (fun b => me (cr j) b b) B Dcr) as (Y & EY & Y1 & Y2 & Y3 & VY). rewrite EY. cbn [bind].
  destruct (jnet_R S HS X Y) as (Rj & ERj & SRj & VRj); [cbn [site_conj phys] in X1; congruence|]. rewrite ERj. cbn [bind].
  rewrite X2, X3, Y2, Y3 in SRj. cbn [site_conj dl dr] in SRj. rewrite LW in SRj. rewrite Y1, PB in VRj.
  destruct (lt_loop4 P (A :: mid) (dl B) (dr W) (dr B) (B :: Q) (dl A) Rj) as (Ls & ELs & LLs & VLs); [split; [reflexivity|exact Cm]|exact SRj|].
  unfold left_transfer at 1, lt_. replace (j - i)%nat with (length (A :: mid)) by (unfold i, j; cbn; lia).
  replace (P ++ (A :: mid) ++ B :: Q) with (fdata m) in ELs by (rewrite E; reflexivity). fold i in ELs. rewrite ELs. cbn [bind].
  rewrite Gicl. cbn [bind]. destruct (dmat_site (icl i) (Lf i) (site_conj V)) as (X' & EX' & X1' & X2' & X3' & VX'); [cbn [site_conj dl]; rewrite LV; exact Dicl|]. rewrite EX'. cbn [bind].
  destruct (jnet_R S HS X' A) as (Ri & ERi & SRi & VRi); [cbn [site_conj phys] in X1'; congruence|]. rewrite ERi. cbn [bind].
  rewrite X2', X3' in SRi. cbn [site_conj dl dr] in SRi. rewrite LV in SRi. rewrite PA in VRi.
  destruct (lt_loop4 [] P (dl A) (dr V) (dr A) (A :: mid ++ B :: Q) 1 Ri) as (Ls' & ELs' & LLs' & VLs'); [exact CP|exact SRi|].
  unfold left_transfer, lt_. rewrite Nat.sub_0_r. cbn [app length] in ELs'. rewrite <- E in ELs'. fold i in ELs'. rewrite ELs'. cbn [bind].
  set (Rjs := fun n => getitem Ls (n - i)). set (Ris := fun n => getitem Ls' (n - 0)).
  assert (HRj : forall t, (t <= length mid)%nat -> exists X b, Rjs (i + 1 + t)%nat = Ok X /\ chain b (skipn t mid) (dl B) /\ tsh X = [b; b; dr W; dr B] /\
     forall x y u v, (x < b)%nat -> (y < b)%nat -> (v < dr B)%nat -> te X [x; y; u; v] = ovl_r (skipn t mid ++ tvec B W (Lf j) (Ef j) u v :: Q) (skipn t mid ++ B :: Q) x y).
  { intros t Ht. destruct (VLs (Datatypes.S t)) as (Z & b & NZ & CZ & SZ & VZ); [cbn; lia|]. cbn [skipn] in CZ, VZ. exists Z, b. split; [unfold Rjs, getitem; replace (i + 1 + t - i)%nat with (Datatypes.S t) by lia; rewrite NZ; reflexivity|].
    split; [exact CZ|]. split; [exact SZ|]. intros x y u v Hx Hy Hv. rewrite VZ, ovl_r_app. apply (xfer_ext (skipn t mid) _ _ b (dl B) CZ); [|assumption|assumption].
    intros z w Hz Hw. rewrite VRj. rewrite (ovl_r_tvec_end Q B W (Lf j) (Ef j) u v z w) by assumption. rewrite PB. apply sum_ext; intros s _. rewrite VX, VY by (assumption || (cbn [site_conj dl]; lia)). rewrite HCR by assumption. cbn [site_conj ent]. ring. }
  assert (HRi : forall t, (t <= length P)%nat -> exists X b, Ris t = Ok X /\ chain b (skipn t P) (dl A) /\ tsh X = [b; b; dr V; dr A] /\
     forall x y u k, (x < b)%nat -> (y < b)%nat -> te X [x; y; u; k] = xfer (skipn t P) (fun x y => sum d (fun s => me (icl i) y y * sconj (ent V s y u) * ent A s x k)) x y).
  { intros t Ht. destruct (VLs' t Ht) as (Z & b & NZ & CZ & SZ & VZ). exists Z, b. split; [unfold Ris, getitem; rewrite Nat.sub_0_r, NZ; reflexivity|].
    split; [exact CZ|]. split; [exact SZ|]. intros x y u k Hx Hy. rewrite VZ. apply (xfer_ext (skipn t P) _ _ b (dl A) CZ); [|assumption|assumption].
    intros z w Hz Hw. rewrite VRi. apply sum_ext; intros s _. rewrite VX' by (cbn [site_conj dl]; lia). cbn [site_conj ent]. ring. }
  pose proof (combine_rel (R := R) m H hs (length (fdata m)) FF HH 0) as HC. rewrite HL' in Hlt. specialize (HC ltac:(lia)). apply Forall2_rev in HC.
  revert HC. unfold ham_elem. 
  assert (Hsum : forall x1 y1 x2 y2, suml (map (fun kh => term_elem d (P ++ tvec A V (Lf i) (Ef i) x1 y1 :: mid ++ tvec B W (Lf j) (Ef j) x2 y2 :: Q) (fdata m) (fst kh) (snd kh)) (combine (seq 0 (length H)) H))
     = suml (map (fun kh => term_elem d (P ++ tvec A V (Lf i) (Ef i) x1 y1 :: mid ++ tvec B W (Lf j) (Ef j) x2 y2 :: Q) (fdata m) (fst kh) (snd kh)) (rev (combine (seq 0 (length H)) H)))).
  { intros. rewrite map_rev, suml_rev. reflexivity. }
  intros HC. cut (exists G', foldM (F2_term S m ls ie V W Ris Rjs i j) G (rev (combine (seq 0 (length hs)) hs)) = Ok G' /\ tsh G' = tsh G /\
    forall x1 y1 x2 y2, (x1 < dr V)%nat -> (y1 < dr A)%nat -> (x2 < dr W)%nat -> (y2 < dr B)%nat ->
      te G' [x1; y1; x2; y2] = te G [x1; y1; x2; y2] + suml (map (fun kh => term_elem d (P ++ tvec A V (Lf i) (Ef i) x1 y1 :: mid ++ tvec B W (Lf j) (Ef j) x2 y2 :: Q) (fdata m) (fst kh) (snd kh)) (rev (combine (seq 0 (length H)) H)))).
  { intros (G' & G1 & G2 & G3). exists G'. split; [exact G1|]. split; [exact G2|]. intros. rewrite Hsum. apply G3; assumption. }
  clear Hsum. revert HC SG. generalize (rev (combine (seq 0 (length H)) H)) (rev (combine (seq 0 (length hs)) hs)). intros khs kTs HC. revert G.
  induction HC as [|[k h] [k' T] khs kTs (E1 & ET & Hh1 & Hh2 & Hk) HC IH]; intros G SG.
  - exists G. split; [reflexivity|]. split; [reflexivity|]. intros. cbn [map suml fold_right]. ring.
  - cbn [fst snd] in *. subst k'. cbn [foldM].
    destruct (Nat.le_gt_cases k i) as [Hle|Hgt].
    + destruct (F2_term_ok S HS m d ls rs (Hun K m H ls rs Hin) (Hdg K m H ls rs Hin) (Hen K m H ls rs Hin) P mid Q A B E ie V W (cl i) (icl i) (icr i) (icl j) (cr j)
        (Lf i) (fun a => me (cl i) a a) (Ef i) (Lf j) (Ef j) (fun b => me (cr j) b b) Gcl Gicl Gicr Gf Gcr Dcl Dicl Dicr Df Dcr HCL HCR rL1 rE1 rL2 rE2 PV LV PW LW Ris Rjs HRj HRi G k h T SG Hk Hle ET Hh1 Hh2) as (X0 & EX0 & VX0).
      fold j in EX0; fold i in EX0. rewrite EX0. cbn [bind]. destruct (IH (mkT (tsh G) (fun idx => te G idx + te X0 idx)) SG) as (G' & G1 & G2 & G3). exists G'. split; [exact G1|]. split; [exact G2|].
      intros x1 y1 x2 y2 H1 H2' H3 H4. rewrite G3 by assumption. cbn [te map suml fold_right fst snd]. change (fold_right sadd 0 (map ?g khs)) with (suml (map g khs)). rewrite VX0 by assumption. ring.
    + destruct (F2_term_zero S m d ls rs (Hun K m H ls rs Hin) (Hdg K m H ls rs Hin) (Hen K m H ls rs Hin) P mid Q A B E ie V W (Lf i) (Ef i) (Lf j) (Ef j) PV LV PW LW Ris Rjs) with (G := G) (k := k) (h := h) (T := T) as (EX0 & VX0).
      * intros x1 y1 x y Hx1 Hx Hy. exact (T_gauge P (mid ++ B :: Q) A pr V E HJ x1 y1 x y Hx1 Hx Hy PA).
      * exact Hk.
      * exact Hgt.
      * fold j in EX0; fold i in EX0. rewrite EX0. cbn [bind]. destruct (IH G SG) as (G' & G1 & G2 & G3). exists G'. split; [exact G1|]. split; [exact G2|].
        intros x1 y1 x2 y2 H1 H2' H3 H4. rewrite G3 by assumption. cbn [te map suml fold_right fst snd]. change (fold_right sadd 0 (map ?g khs)) with (suml (map g khs)). rewrite VX0 by assumption. ring.
Qed.
End Whole.
