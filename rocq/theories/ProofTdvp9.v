(** The variational principle and the conservation laws. *)
From Verif Require Import Alg ModelMPS SpecMPS ProofMPS ModelOrth SpecOrth ProofOrth ProofOrth2 ModelNcon SpecNcon
  ModelEk SpecEk ProofEk4 ModelNp ModelEnergy SpecEnergy ProofEnergy ModelTan SpecTan ProofTan ModelTdvp SpecTdvp ProofTdvp ProofTdvp2 ProofTdvp3 ProofTdvp4 ProofTdvp5 ProofTdvp6 ProofTdvp7 ProofTdvp8.
Require Verif.SpecDecomp Verif.ProofEk3.

Section Laws.
Context {R : sring}.
Local Open Scope sr_scope.
Add Ring Rr : (s_th R).
Variable K : tanlib R.
Variable S : setio.
Hypothesis HK : tanlib_ok K.
Hypothesis HS : setio_ok S.
Hypothesis Hchar : SpecDecomp.char0 R.
Variables (m : fmps R) (H ls rs : list (mat R)).
Hypothesis Hin : tdvp_input K m H ls rs.
Notation d := (fd m).
Notation facts := (facts K S HK HS Hchar m H ls rs Hin).
Variables (im : R) (Bs : list (site R)).
Hypothesis HLen : length Bs = length (fdata m).
Hypothesis HB : forall P Q A l r0 F pr V, fdata m = P ++ A :: Q -> site_facts K S m ls rs P Q A l r0 F pr V ->
    exists B, nth_error Bs (length P) = Some B /\ rates m H P Q A B pr im.

Lemma at_B i B : nth_error Bs i = Some B -> exists P Q A l r0 F pr V, fdata m = P ++ A :: Q /\ length P = i /\ site_facts K S m ls rs P Q A l r0 F pr V /\ rates m H P Q A B pr im.
Proof.
  intros Hi. destruct (split_nth (fdata m) i) as (P & A & Q & E & LP); [rewrite <- HLen; apply nth_error_Some; congruence|].
  destruct (facts P Q A E) as (l & r0 & F & pr & V & HF). destruct (HB P Q A l r0 F pr V E HF) as (B' & EB & HR). exists P, Q, A, l, r0, F, pr, V. split; [exact E|]. split; [exact LP|]. split; [exact HF|].
  assert (B' = B) by congruence. subst B'. exact HR.
Qed.

Lemma all_dims : dims (fdata m) = repeat d (length (fdata m)).
Proof.
  assert (G : forall l, Forall (fun A : site R => phys A = d) l -> dims l = repeat d (length l)) by (induction 1 as [|A l HA Hu IH]; [reflexivity|]; cbn; rewrite HA; f_equal; exact IH). apply G. apply Hin.
Qed.
Lemma dims_with P Q A X : fdata m = P ++ A :: Q -> same_shape A X -> dims (P ++ X :: Q) = repeat d (length (P ++ X :: Q)).
Proof.
  intros E (X1 & _). pose proof all_dims as G. rewrite E in G. rewrite app_length in *. cbn [length] in *. rewrite <- G. unfold dims. rewrite !map_app. cbn [map]. rewrite X1. reflexivity.
Qed.

Lemma rate_gauge P Q A l r0 F pr V B : fdata m = P ++ A :: Q -> site_facts K S m ls rs P Q A l r0 F pr V -> rates m H P Q A B pr im ->
  forall b, (b < dr A)%nat -> left_gauge A (env_at P A) (fun s a => ent B s a b).
Proof.
  intros E (C1 & C3 & C4 & C5 & C6 & C7 & C9 & Hp & Nl & Hl & Nr & Hr & EF & HFi & EP & Hsh & Hsa & Hcg & Hid & Hcount & Hzero & Hinv) ((B1 & B2 & B3) & HRt) b Hb.
  apply gauge_diag; [exact C4|]. intros y Hy.
  assert (Z : sum (phys A) (fun s => sum (dl A) (fun a => sconj (ent A s a y) * true_l P a a * ent B s a b)) * true_r Q b b = 0).
  { rewrite <- sum_mul_r.
    transitivity (sum d (fun s => sum (dl A) (fun a => sum d (fun t => sum (dl A) (fun c => (- im * gradient d (fdata m) H (length P) A t c b) * (sconj (ent A s a y) * true_l P a a * te pr [s; a; t; c])))))).
    - rewrite C9. apply sum_ext; intros s Hs. rewrite <- sum_mul_r. apply sum_ext; intros a Ha.
      transitivity (sconj (ent A s a y) * true_l P a a * (ent B s a b * true_r Q b b)); [ring|]. rewrite HRt by assumption.
      rewrite <- !sum_mul_l. apply sum_ext; intros t _. rewrite <- !sum_mul_l. apply sum_ext; intros c _. ring.
    - rewrite (sum_ext d _ (fun s => sum d (fun t => sum (dl A) (fun a => sum (dl A) (fun c => (- im * gradient d (fdata m) H (length P) A t c b) * (sconj (ent A s a y) * true_l P a a * te pr [s; a; t; c])))))).
      2: { intros s _. apply (sum_swap (dl A) d (fun a t => sum (dl A) (fun c => (- im * gradient d (fdata m) H (length P) A t c b) * (sconj (ent A s a y) * true_l P a a * te pr [s; a; t; c])))). }
      rewrite sum_swap. apply sum_zero; intros t _.
      rewrite (sum_ext d _ (fun s => sum (dl A) (fun c => sum (dl A) (fun a => (- im * gradient d (fdata m) H (length P) A t c b) * (sconj (ent A s a y) * true_l P a a * te pr [s; a; t; c]))))).
      2: { intros s _. apply sum_swap. }
      rewrite sum_swap. apply sum_zero; intros c Hc.
      rewrite (sum_ext d _ (fun s => (- im * gradient d (fdata m) H (length P) A t c b) * sum (dl A) (fun a => sconj (ent A s a y) * true_l P a a * te pr [s; a; t; c]))).
      2: { intros s _. rewrite <- sum_mul_l. reflexivity. }
      rewrite sum_mul_l, Hcg by assumption. ring. }
  transitivity (sum (phys A) (fun s => sum (dl A) (fun a => sconj (ent A s a y) * true_l P a a * ent B s a b)) * (true_r Q b b * me F b b)).
  - rewrite HFi, dlt_eq by assumption. ring.
  - transitivity (sum (phys A) (fun s => sum (dl A) (fun a => sconj (ent A s a y) * true_l P a a * ent B s a b)) * true_r Q b b * me F b b); [ring|]. rewrite Z. ring.
Qed.

Lemma here_ok P Q A l r0 F pr V B X : fdata m = P ++ A :: Q -> site_facts K S m ls rs P Q A l r0 F pr V -> rates m H P Q A B pr im ->
  same_shape A X -> (forall b, (b < dr A)%nat -> left_gauge A (env_at P A) (fun s a => ent X s a b)) ->
  overlap d (P ++ X :: Q) (P ++ B :: Q) = - im * ham_elem d (P ++ X :: Q) (fdata m) H.
Proof.
  intros E (C1 & C3 & C4 & C5 & C6 & C7 & C9 & Hp & Nl & Hl & Nr & Hr & EF & HFi & EP & Hsh & Hsa & Hcg & Hid & Hcount & Hzero & Hinv) (SB & HRt) SX HG.
  rewrite (overlap_here d P Q A X B C1 C3 C4 C5 SX SB (dims_with P Q A X E SX)).
  rewrite E. rewrite (ham_lin d P Q A X (dl A) H C1 eq_refl C3 SX).
  2: { rewrite <- E. apply all_dims. } 2: { rewrite <- E. destruct Hin as ((_ & HL' & _) & _ & _ & _ & _ & _ & _ & Hlt & _). rewrite HL' in Hlt. exact Hlt. }
  rewrite <- E, C9.
  rewrite (sum_rot d (dl A) (dr A)), (sum_rot d (dl A) (dr A)). rewrite <- sum_mul_l. apply sum_ext; intros b Hb.
  transitivity (sum d (fun s => sum (dl A) (fun a => sum d (fun t => sum (dl A) (fun c => (- im * gradient d (fdata m) H (length P) A t c b) * (sconj (ent X s a b) * true_l P a a * te pr [s; a; t; c])))))).
  - apply sum_ext; intros s Hs. apply sum_ext; intros a Ha. rewrite HRt by assumption. rewrite <- !sum_mul_l. apply sum_ext; intros t _. rewrite <- !sum_mul_l. apply sum_ext; intros c _. ring.
  - rewrite sum_rot4. rewrite <- sum_mul_l. apply sum_ext; intros t Ht. rewrite <- sum_mul_l. apply sum_ext; intros c Hc.
    rewrite <- (Hid (fun s a => ent X s a b) (HG b Hb) t c Ht Hc). rewrite sum_conj.
    transitivity ((- im * gradient d (fdata m) H (length P) A t c b) * sum d (fun s => sum (dl A) (fun a => sconj (ent X s a b) * true_l P a a * te pr [s; a; t; c]))).
    { rewrite <- sum_mul_l. apply sum_ext; intros s _. rewrite <- sum_mul_l. reflexivity. }
    rewrite (sum_ext d _ (fun s => sconj (sum (dl A) (fun a => te pr [t; c; s; a] * true_l P a a * ent X s a b)))); [ring|].
    intros s _. rewrite sum_conj. apply sum_ext; intros a Ha. rewrite !conj_mul, true_l_real, <- Hsa by assumption. ring.
Qed.

Lemma with_len l i (X : site R) : (i < length l)%nat -> length (with_site l i X) = length l.
Proof. intros Hi. unfold with_site. rewrite app_length, firstn_length. cbn [length]. rewrite skipn_length. lia. Qed.

(** the overlap with the velocity is the sum of overlaps *)
Lemma velocity_sum (f : list nat -> R) : sumcfg (repeat d (fL m)) (fun s => sconj (f s) * velocity (fdata m) Bs s)
  = suml (map (fun jB => sumcfg (repeat d (fL m)) (fun s => sconj (f s) * state (with_site (fdata m) (fst jB) (snd jB)) s)) (combine (seq 0 (length Bs)) Bs)).
Proof.
  rewrite <- sumcfg_suml. apply sumcfg_ext; intros s _. unfold velocity. rewrite suml_scale. reflexivity.
Qed.
Lemma LL : fL m = length (fdata m). Proof. apply Hin. Qed.

Lemma ovl_with l' j B : (j < length (fdata m))%nat -> sumcfg (repeat d (fL m)) (fun s => sconj (state l' s) * state (with_site (fdata m) j B) s) = overlap d l' (with_site (fdata m) j B).
Proof. intros Hj. unfold overlap. rewrite (with_len (fdata m) j B Hj), LL. reflexivity. Qed.

Lemma cuts (P Q : list (site R)) A P' Q' A' : P ++ A :: Q = P' ++ A' :: Q' -> (length P < length P')%nat -> exists mid, P' = P ++ A :: mid /\ Q = mid ++ A' :: Q'.
Proof.
  revert P'. induction P as [|x P IH]; intros [|y P'] E HL; cbn in HL; try lia; cbn in E.
  - injection E as -> ->. exists P'. auto.
  - injection E as -> E. destruct (IH P' E) as (mid & -> & ->); [lia|]. exists mid. auto.
Qed.

Lemma chain_with i P Q A (X : site R) j : chain i (P ++ A :: Q) j -> same_shape A X -> chain i (P ++ X :: Q) j.
Proof.
  intros HC (X1 & X2 & X3). apply chain_app in HC as (k & HC1 & HC2 & HC3). apply chain_app. exists k. split; [exact HC1|]. split; [congruence|]. rewrite X3. exact HC3.
Qed.

Lemma tdvp P Q A X : fdata m = P ++ A :: Q -> same_shape A X -> (forall b, (b < dr A)%nat -> left_gauge A (env_at P A) (fun s a => ent X s a b)) ->
  sumcfg (repeat d (fL m)) (fun s => sconj (state (with_site (fdata m) (length P) X) s) * velocity (fdata m) Bs s)
  = - im * ham_elem d (with_site (fdata m) (length P) X) (fdata m) H.
Proof.
  intros E SX HG. destruct (facts P Q A E) as (l & r0 & F & pr & V & HF). destruct (HB P Q A l r0 F pr V E HF) as (B & EB & HR).
  rewrite velocity_sum, (suml_only _ Bs (length P) B EB).
  - cbn [fst snd]. rewrite ovl_with by (rewrite E, app_length; cbn; lia). rewrite E, !with_site_at, <- E. apply (here_ok P Q A l r0 F pr V B X E HF HR SX HG).
  - intros j Bj EBj Hne. cbn [fst snd]. assert (Hj : (j < length (fdata m))%nat) by (rewrite <- HLen; apply nth_error_Some; congruence). rewrite ovl_with by exact Hj.
    destruct (at_B j Bj EBj) as (P' & Q' & A' & l' & r' & F' & pr' & V' & E' & LP' & HF' & HR'). pose proof (rate_gauge _ _ _ _ _ _ _ _ _ E' HF' HR') as HG'.
    rewrite E at 1. rewrite with_site_at. rewrite <- LP', E', with_site_at.
    pose proof HF as (C1 & C3 & C4 & C5 & _). pose proof HF' as (C1' & C3' & C4' & C5' & _). destruct HR' as (SB' & _).
    destruct (Nat.lt_total (length P) (length P')) as [Hlt|[Heq|Hlt]]; [|lia|].
    + (* the bra changes first *)
      rewrite E in E'. destruct (cuts _ _ _ _ _ _ E' Hlt) as (mid & -> & ->). rewrite <- E in E'. replace ((P ++ A :: mid) ++ Bj :: Q') with (P ++ A :: mid ++ Bj :: Q') by (rewrite <- app_assoc; reflexivity).
      apply (overlap_zero d P (mid ++ A' :: Q') (mid ++ Bj :: Q') A X A C1 C4 C3).
      * apply (chain_with _ mid Q' A' Bj _ C3 SB').
      * rewrite !app_length. reflexivity.
      * exact SX.
      * repeat split.
      * apply (dims_with P (mid ++ A' :: Q') A X E SX).
      * intros x y Hx Hy. pose proof (proj1 (gauge_diag P A _ C4) (HG x Hx) y Hy) as G. rewrite <- conj_0, <- G, sum_conj. apply sum_ext; intros s _. rewrite sum_conj. apply sum_ext; intros c _.
        rewrite !conj_mul, conj_conj, true_l_real. ring.
    + (* the ket changes first *)
      assert (E2 : P' ++ A' :: Q' = P ++ A :: Q) by congruence. destruct (cuts _ _ _ _ _ _ E2 Hlt) as (mid & -> & ->). replace ((P' ++ A' :: mid) ++ X :: Q) with (P' ++ A' :: mid ++ X :: Q) by (rewrite <- app_assoc; reflexivity).
      apply (overlap_zero d P' (mid ++ X :: Q) (mid ++ A :: Q) A' A' Bj C1' C4').
      * apply (chain_with _ mid Q A X _ C3' SX).
      * exact C3'.
      * rewrite !app_length. reflexivity.
      * repeat split.
      * exact SB'.
      * replace (P' ++ A' :: mid ++ X :: Q) with ((P' ++ A' :: mid) ++ X :: Q) by (rewrite <- app_assoc; reflexivity). apply (dims_with _ Q A X E SX).
      * intros x y Hx Hy. exact (proj1 (gauge_diag P' A' _ C4') (HG' y Hy) x Hx).
Qed.

Lemma norm_kept : sumcfg (repeat d (fL m)) (fun s => sconj (state (fdata m) s) * velocity (fdata m) Bs s) = 0.
Proof.
  rewrite velocity_sum. apply suml_all0. intros j B EB. cbn [fst snd]. assert (Hj : (j < length (fdata m))%nat) by (rewrite <- HLen; apply nth_error_Some; congruence). rewrite ovl_with by exact Hj.
  destruct (at_B j B EB) as (P & Q & A & l & r0 & F & pr & V & E & LP & HF & HR). pose proof (rate_gauge _ _ _ _ _ _ _ _ _ E HF HR) as HG. pose proof HF as (C1 & C3 & C4 & _). destruct HR as (SB & _).
  rewrite <- LP, E, with_site_at. apply (overlap_zero d P Q Q A A B); try assumption; try reflexivity.
  - repeat split.
  - apply (dims_with P Q A A E). repeat split.
  - intros x y Hx Hy. exact (proj1 (gauge_diag P A _ C4) (HG y Hy) x Hx).
Qed.

Lemma site_energy P Q A l r0 F pr V B : fdata m = P ++ A :: Q -> site_facts K S m ls rs P Q A l r0 F pr V -> rates m H P Q A B pr im -> sconj im = - im ->
  ham_elem d (P ++ B :: Q) (fdata m) H + sconj (ham_elem d (P ++ B :: Q) (fdata m) H) = 0.
Proof.
  intros E (C1 & C3 & C4 & C5 & C6 & C7 & C9 & Hp & Nl & Hl & Nr & Hr & EF & HFi & EP & Hsh & Hsa & Hcg & Hid & Hcount & Hzero & Hinv) (SB & HRt) Him.
  set (G := gradient d (fdata m) H (length P) A).
  set (q := fun b => sum d (fun s => sum (dl A) (fun a => sum d (fun t => sum (dl A) (fun c => sconj (G s a b) * te pr [s; a; t; c] * G t c b))))).
  assert (Hq : forall b, sconj (q b) = q b).
  { intros b. unfold q. rewrite sum_conj. rewrite (sum_ext d _ (fun s => sum (dl A) (fun a => sum d (fun t => sum (dl A) (fun c => sconj (G t c b) * te pr [t; c; s; a] * G s a b))))).
    - apply sum_rot4.
    - intros s _. rewrite sum_conj. apply sum_ext; intros a Ha. rewrite sum_conj. apply sum_ext; intros t _. rewrite sum_conj. apply sum_ext; intros c Hc. rewrite !conj_mul, conj_conj, <- Hsa by assumption. ring. }
  assert (Hreal : forall b, (b < dr A)%nat -> sconj (me F b b) = me F b b).
  { intros b Hb. pose proof (HFi b b Hb Hb) as HF1. rewrite dlt_eq in HF1. pose proof (f_equal sconj HF1) as HF2. rewrite conj_mul, true_r_real, conj_1 in HF2.
    transitivity (sconj (me F b b) * (true_r Q b b * me F b b)); [rewrite HF1; ring|]. transitivity (true_r Q b b * sconj (me F b b) * me F b b); [ring|]. rewrite HF2. ring. }
  assert (Z : ham_elem d (P ++ B :: Q) (fdata m) H = im * sum (dr A) (fun b => me F b b * q b)).
  { rewrite E. rewrite (ham_lin d P Q A B (dl A) H C1 eq_refl C3 SB).
    2: { rewrite <- E. apply all_dims. } 2: { rewrite <- E. destruct Hin as ((_ & HL' & _) & _ & _ & _ & _ & _ & _ & Hlt & _). rewrite HL' in Hlt. exact Hlt. }
    rewrite <- E, C9. fold G. rewrite (sum_rot d (dl A) (dr A)), <- sum_mul_l. apply sum_ext; intros b Hb. unfold q. rewrite <- !sum_mul_l.
    rewrite (sum_ext d (fun t => sum (dl A) (fun c => sconj (ent B t c b) * G t c b)) (fun t => sum (dl A) (fun c => sum d (fun s => sum (dl A) (fun a => im * me F b b * (sconj (G s a b) * te pr [s; a; t; c] * G t c b)))))).
    - rewrite sum_rot4. apply sum_ext; intros s _. rewrite <- !sum_mul_l. apply sum_ext; intros a _. rewrite <- !sum_mul_l. apply sum_ext; intros t _. rewrite <- !sum_mul_l. apply sum_ext; intros c _. ring.
    - intros t Ht. apply sum_ext; intros c Hc.
      assert (EB : ent B t c b = me F b b * (- im * sum d (fun s => sum (dl A) (fun a => te pr [t; c; s; a] * G s a b)))).
      { unfold G. rewrite <- HRt by assumption. transitivity (ent B t c b * (true_r Q b b * me F b b)); [rewrite HFi, dlt_eq by assumption; ring|ring]. }
      rewrite EB, !conj_mul, conj_opp, Him, Hreal by assumption. rewrite sum_conj.
      transitivity ((im * me F b b * G t c b) * sum d (fun s => sconj (sum (dl A) (fun a => te pr [t; c; s; a] * G s a b)))); [ring|]. rewrite <- sum_mul_l. apply sum_ext; intros s _. rewrite sum_conj, <- sum_mul_l.
      apply sum_ext; intros a Ha. rewrite conj_mul, <- Hsa by assumption. ring. }
  rewrite Z, conj_mul, Him, sum_conj. rewrite (sum_ext (dr A) (fun b => sconj (me F b b * q b)) (fun b => me F b b * q b)); [ring|]. intros b Hb. rewrite conj_mul, Hq, Hreal by exact Hb. reflexivity.
Qed.

Lemma rowmajor_lt2 b : incfg [d; d] b -> (rowmajor d b < d * d)%nat.
Proof.
  intros Hb. pose proof (incfg_length _ _ Hb) as Lb. cbn in Lb. pose proof (ProofEk3.rowmajor_lt d b) as G. rewrite Lb in G. cbn [Nat.pow repeat] in G. rewrite Nat.mul_1_r in G. apply G. exact Hb.
Qed.

Lemma ham_velocity : ham_between d (fL m) (velocity (fdata m) Bs) H (state (fdata m)) = suml (map (fun jB => ham_elem d (with_site (fdata m) (fst jB) (snd jB)) (fdata m) H) (combine (seq 0 (length Bs)) Bs)).
Proof.
  unfold ham_between, velocity, ham_elem. rewrite suml_swap. apply suml_map_ext. intros [k h] _. rewrite melem_suml. unfold term_elem. rewrite LL. reflexivity.
Qed.

Lemma energy_kept : sconj im = - im -> Forall hermitian_op H ->
  ham_between d (fL m) (velocity (fdata m) Bs) H (state (fdata m)) + ham_between d (fL m) (state (fdata m)) H (velocity (fdata m) Bs) = 0.
Proof.
  intros Him HH.
  assert (EC : ham_between d (fL m) (state (fdata m)) H (velocity (fdata m) Bs) = sconj (ham_between d (fL m) (velocity (fdata m) Bs) H (state (fdata m)))).
  { unfold ham_between. rewrite suml_conj. apply suml_map_ext. intros [k h] Hk. cbn [fst snd]. apply in_combine_r in Hk.
    pose proof (proj1 (Forall_forall _ _) HH h Hk) as Hh. destruct Hin as (_ & _ & _ & _ & _ & _ & _ & _ & Hs). destruct (proj1 (Forall_forall _ _) Hs h Hk) as (S1 & S2).
    symmetry. apply melem_conj. intros b b' Hb Hb'. unfold block_op. apply Hh; [rewrite S1|rewrite S2]; apply rowmajor_lt2; assumption. }
  rewrite EC, ham_velocity, suml_conj, suml_plus. apply suml_all0. intros j B EB. cbn [fst snd].
  destruct (at_B j B EB) as (P & Q & A & l & r0 & F & pr & V & E & LP & HF & HR). rewrite <- LP, E, with_site_at, <- E. apply (site_energy P Q A l r0 F pr V B E HF HR Him).
Qed.
End Laws.
