(** Trajectories of infinite MPS. *)
From Verif Require Import Alg ModelMPS SpecMPS SpecOrth ModelStruct SpecStruct ModelDecomp SpecDecomp ModelTensor ModelOrth ModelCanon ModelTraj SpecTraj ModelImps SpecImps ProofImps6 ProofImps9 ModelItraj SpecItraj.
Local Open Scope nat_scope.

Section Proofs.
Context {R : sring}.
Local Open Scope sr_scope.

Lemma ilcan_ok nonneg (C : icalls R) d D m m' : icalls_ok nonneg C -> good_envs nonneg C d D -> icell d D m -> ilcan C m = Ok m' -> icanon d D m'.
Proof.
  intros HC HG Hm E. pose proof Hm as (A & Ha & Hp & Hl & Hr & Hper & Hd & HD). unfold ilcan in E.
  destruct (canonicalise C m hand_l None None false) as [[x [G L]]|] eqn:EC; [|discriminate]. cbn [bind fst] in E. injection E as ->.
  assert (HE : exists eta l r, imps_eigs C m None None = Ok (eta, l, r)).
  { unfold canonicalise in EC. destruct (getitem (i_data m) 0); [|discriminate]. cbn [bind] in EC. destruct (imps_eigs C m None None) as [[[eta l] r]|]; [eauto|discriminate]. }
  destruct HE as (eta & l & r & HE). destruct (HG m eta l r Hm HE) as (H1 & H2 & H3).
  destruct (canon_left nonneg C HC D A [] m hand_l None None false m' G L eta l r Ha (conj Hl Hr) HE H1 H2 H3 EC eq_refl) as (A' & c & F1 & F2 & (F3 & F4) & F5 & _).
  assert (K : i_period m' = i_period m /\ i_d m' = i_d m /\ i_D m' = i_D m).
  { unfold canonicalise in EC. repeat match type of EC with bind ?x _ = _ => destruct x; [cbn [bind] in EC|discriminate] end. injection EC as <- _ _. cbn. auto. }
  destruct K as (K1 & K2 & K3). split; [|exists A'; auto]. exists A'. rewrite K1, K2, K3, F2. auto 9.
Qed.

Lemma init_cell (A : site R) can m d D : iMPS_init [A] can = Ok m -> phys A = d -> dl A = D -> dr A = D -> icell d D m.
Proof. intros E H1 H2 H3. injection E as <-. exists A. cbn. auto 9. Qed.

Lemma mul_cell d D (m v : imps R) c : icell d D m -> imps_mul m c = Ok v -> icell d D v.
Proof.
  intros (A & Ha & Hp & Hl & Hr & _) E. unfold imps_mul in E. rewrite Ha in E. cbn [map] in E. eapply init_cell; [exact E| | |]; assumption.
Qed.
Lemma div_cell d D C (m v : imps R) c : icell d D m -> imps_div C m c = Ok v -> icell d D v.
Proof. intros H E. unfold imps_div in E. destruct (quot C 1 c) as [c0|]; [|discriminate]. cbn [bind] in E. now apply (mul_cell d D m v c0). Qed.
Lemma add_cell d D (a b v : imps R) : icell d D a -> icell d D b -> imps_add a b = Ok v -> icell d D v.
Proof.
  intros (A & Ha & A1 & A2 & A3 & _) (B & Hb & B1 & B2 & B3 & _) E. unfold imps_add in E. rewrite Ha, Hb in E. cbn [pyzip combine mapM fst snd] in E.
  unfold site_zip in E. rewrite A1, A2, A3, B1, B2, B3, !Nat.eqb_refl in E. cbn [andb bind] in E. eapply init_cell; [exact E| | |]; cbn; congruence.
Qed.

Ltac peel E := match type of E with bind ?x _ = _ => let H := fresh "Q" in destruct x eqn:H; [cbn [bind] in E|discriminate] end.

Lemma ieuler_canon nonneg (C : icalls R) dA d D dt m m' : icalls_ok nonneg C -> good_envs nonneg C d D -> keeps d D dA ->
  icell d D m -> ieuler_step C dA dt m = Ok m' -> icanon d D m'.
Proof.
  intros HC HG HK Hm E. unfold ieuler_step in E. repeat peel E. assert (V := HK _ _ Hm Q). assert (V2 := mul_cell d D _ _ _ V Q0).
  exact (ilcan_ok nonneg C d D _ m' HC HG (add_cell d D _ _ _ Hm V2 Q1) E).
Qed.

Lemma irk4_canon nonneg (C : icalls R) dA d D dt m m' : icalls_ok nonneg C -> good_envs nonneg C d D -> keeps d D dA ->
  icell d D m -> irk4_step C dA dt m = Ok m' -> icanon d D m'.
Proof.
  intros HC HG HK Hm E. unfold irk4_step in E. repeat peel E.
  assert (K1 := HK _ _ Hm Q).
  assert (K2 : icell d D a0) by (repeat peel Q0; exact (HK _ _ (add_cell d D _ _ _ Hm (mul_cell d D _ _ _ (div_cell d D _ _ _ _ K1 Q11) Q12) Q13) Q0)).
  assert (K3 : icell d D a1) by (repeat peel Q1; exact (mul_cell d D _ _ _ (HK _ _ (add_cell d D _ _ _ Hm (mul_cell d D _ _ _ (div_cell d D _ _ _ _ K2 Q11) Q12) Q13) Q14) Q1)).
  assert (K4 : icell d D a2) by (repeat peel Q2; exact (HK _ _ (add_cell d D _ _ _ Hm (mul_cell d D _ _ _ K3 Q11) Q12) Q2)).
  assert (T2 := mul_cell d D _ _ _ K2 Q3). assert (T3 := mul_cell d D _ _ _ K3 Q4).
  assert (S1 := add_cell d D _ _ _ K1 T2 Q5). assert (S2 := add_cell d D _ _ _ S1 T3 Q6). assert (S3 := add_cell d D _ _ _ S2 K4 Q7).
  assert (S4 := mul_cell d D _ _ _ S3 Q8). assert (S5 := div_cell d D _ _ _ _ S4 Q9).
  exact (ilcan_ok nonneg C d D _ m' HC HG (add_cell d D _ _ _ Hm S5 Q10) E).
Qed.

Lemma iint_loop_ok (I : imag R) step T : forall ts tr m tr1 y,
  iint_loop I step T ts tr m = Ok (tr1, y) ->
  exists xs vs, length xs = length ts /\ orbit (step (nth 1 T 0 - nth 0 T 0)) m (xs ++ [y]) /\
    Forall2 (fun x v => imps_serialize_real I x = Ok v) xs vs /\ it_hist tr1 = it_hist tr ++ vs /\ it_Ds tr1 = it_Ds tr ++ map (@i_D R) xs /\ it_mps0 tr1 = it_mps0 tr /\
    (ts <> [] -> (2 <= length T)%nat).
Proof.
  induction ts as [|t ts IH]; intros tr m tr1 y E; cbn [iint_loop] in E.
  - injection E as <- <-. exists [], []. rewrite !app_nil_r. repeat split; try constructor.
    + cbn. intros x K. congruence.
    + intros k x z H1 H2. destruct k; discriminate.
    + intros K. now contradiction K.
  - destruct (getitem T 1) as [a|] eqn:E1; [|discriminate]. cbn [bind] in E. destruct (getitem T 0) as [b|] eqn:E0; [|discriminate]. cbn [bind] in E.
    destruct (irecord I tr m) as [tr2|] eqn:E2; [|discriminate]. cbn [bind] in E. destruct (step (a - b) m) as [m2|] eqn:E3; [|discriminate]. cbn [bind] in E.
    apply IH in E as (xs & vs & H1 & (O1 & O2) & H3 & H4 & H5 & H6 & _). unfold irecord in E2. destruct (imps_serialize_real I m) as [v|] eqn:Ev; [|discriminate]. cbn [bind] in E2. injection E2 as <-.
    cbn [it_hist it_Ds it_mps0] in *. exists (m :: xs), (v :: vs). rewrite <- app_assoc in H4, H5.
    assert (HT : (2 <= length T)%nat) by (unfold getitem in E1; destruct T as [|? [|? T]]; try discriminate; cbn; lia).
    assert (Ha : nth 1 T 0 - nth 0 T 0 = a - b).
    { unfold getitem in E1, E0. destruct T as [|p [|q T]]; try discriminate. cbn in *. congruence. }
    split; [cbn; congruence|]. split.
    + rewrite Ha in *. split; [cbn; intros x K; congruence|]. intros [|k] x z P1 P2.
      * cbn in P1. injection P1 as <-. cbn in P2. rewrite (O1 _ P2). exact E3.
      * exact (O2 k x z P1 P2).
    + repeat split; try assumption. constructor; assumption. intros _. exact HT.
Qed.

Theorem iintegrate_ok nonneg (C : icalls R) (I : imag R) step d D tr T tr' :
  icalls_ok nonneg C -> good_envs nonneg C d D -> imag_ok I ->
  (forall dt m m', icell d D m -> step dt m = Ok m' -> icanon d D m') ->
  icell d D (it_mps tr) -> iintegrate C I step tr T = Ok tr' ->
  exists x0 xs y vs, ilcan C (it_mps tr) = Ok x0 /\ length xs = length T /\ orbit (step (nth 1 T 0 - nth 0 T 0)) x0 (xs ++ [y]) /\
    Forall (icanon d D) (xs ++ [y]) /\
    Forall2 (fun x v => imps_serialize_real I x = Ok v) xs vs /\
    it_hist tr' = it_hist tr ++ vs /\ it_Ds tr' = it_Ds tr ++ repeat D (length T) /\ it_mps0 tr' = it_mps0 tr /\
    (forall ys z, xs = ys ++ [z] -> icell d D (it_mps tr') /\ same_cell z (it_mps tr')).
Proof.
  intros HC HG HI HS Hm E. unfold iintegrate in E. destruct (ilcan C (it_mps tr)) as [x0|] eqn:E0; [|discriminate]. cbn [bind] in E.
  destruct (iint_loop _ _ _ _ _ _) as [[tr1 y]|] eqn:E1; [|discriminate]. cbn [bind fst] in E.
  apply iint_loop_ok in E1 as (xs & vs & H1 & (O1 & O2) & H3 & H4 & H5 & H6 & _). cbn [it_hist it_Ds it_mps0] in *.
  destruct (last_item (it_hist tr1)) as [v|] eqn:Ev; [|discriminate]. cbn [bind] in E.
  destruct (imps_deserialize_real I blank v (i_d x0) (i_D x0) 1) as [m'|] eqn:Em; [|discriminate]. cbn [bind] in E. injection E as <-. cbn [it_hist it_Ds it_mps0 it_mps].
  assert (K0 : icanon d D x0) by exact (ilcan_ok nonneg C d D _ x0 HC HG Hm E0).
  assert (KF : Forall (icanon d D) (xs ++ [y])).
  { apply Forall_forall. intros x Hx. apply In_nth_error in Hx as (k & Hk). revert x Hk. induction k as [|k IH]; intros x Hk; [rewrite (O1 _ Hk); exact K0|].
    destruct (nth_error (xs ++ [y]) k) as [p|] eqn:Ep.
    - destruct (IH p eq_refl) as [Kp _]. exact (HS _ p x Kp (O2 k p x Ep Hk)).
    - apply nth_error_None in Ep. assert (S k < length (xs ++ [y]))%nat by (apply nth_error_Some; congruence). lia. }
  exists x0, xs, y, vs. split; [reflexivity|]. split; [exact H1|]. split; [split; assumption|]. split; [exact KF|]. split; [exact H3|]. split; [exact H4|]. split.
  { rewrite H5. f_equal. rewrite <- H1. clear -KF. induction xs as [|x xs IH]; [reflexivity|]. inversion KF as [|? ? [(A & _ & _ & _ & _ & _ & _ & HD) _] KF']; subst. cbn [map length repeat]. f_equal. now apply IH. }
  split; [exact H6|]. intros ys z Hxs. subst xs.
  apply Forall2_app_inv_l in H3 as (vs1 & vs2 & _ & H3 & Hvs). inversion H3 as [|? v' ? ? Hz Hnil]; subst. inversion Hnil; subst.
  rewrite H4, app_assoc in Ev. unfold last_item in Ev. rewrite rev_app_distr in Ev. cbn in Ev. injection Ev as <-.
  assert (Kz : icanon d D z). { apply Forall_app in KF as [KF _]. apply Forall_app in KF as [_ KF]. now inversion KF. }
  destruct Kz as [(A & Ha & A1 & A2 & A3 & A4 & A5 & A6) _]. destruct K0 as [(B & Hb & B1 & B2 & B3 & B4 & B5 & B6) _].
  destruct (imps_roundtrip_real I z blank d D HI) as (w & n' & W1 & W2 & W3 & W4 & W5 & W6); [rewrite Ha; discriminate|rewrite Ha; repeat constructor; auto|].
  rewrite Hz in W1. injection W1 as <-. rewrite B5, B6 in Em. rewrite Ha in W2, W6. cbn [length] in W2, W6. rewrite Em in W2. injection W2 as <-.
  split; [|exact W3]. unfold same_cell in *. rewrite Ha in W3. inversion W3 as [|? A' ? ? HA Hn E1 E2]; subst. inversion Hn; subst.
  destruct HA as (S1 & S2 & S3 & _). exists A'. repeat split; congruence.
Qed.

Lemma iintegrate_grid (C : icalls R) (I : imag R) step tr T x0 : ilcan C (it_mps tr) = Ok x0 ->
  (T = [] /\ it_hist tr = []) \/ length T = 1%nat -> iintegrate C I step tr T = Err IndexError.
Proof.
  intros E H. unfold iintegrate. rewrite E. cbn [bind]. destruct H as [[-> H]|H].
  - cbn. rewrite H. reflexivity.
  - destruct T as [|t [|t' T]]; try discriminate. reflexivity.
Qed.
End Proofs.
