(** canonicalise: what the computed tensors are. *)
From Verif Require Import Alg ModelMPS SpecMPS ModelOrth SpecOrth ModelCanon SpecCanon ProofCanon2 ModelNcon ModelEk ModelTensor ModelNp ModelDecomp SpecDecomp
  ModelLie ModelStruct ProofStruct ModelImps SpecImps SpecSpin ProofImps ProofFm ProofImps2 ProofImps3.
From Coq Require Import Setoid Morphisms.

Section C.
Context {R : sring}.
Local Open Scope sr_scope.
Add Ring Rr : (s_th R).

Lemma tright_fm D (A : site R) x i j : square_site D A ->
  tright A A x i j = fsum (phys A) (fun s => fmul D (fmul D (ent A s) x) (fH (ent A s))) i j.
Proof.
  intros [_ H]. unfold tright, fsum, fmul, fH. rewrite H. apply sum_ext; intros s _. rewrite sum_swap. apply sum_ext; intros b _.
  rewrite <- sum_mul_r. reflexivity.
Qed.
Lemma tleft_fm D (A : site R) x i j : square_site D A ->
  tleft A A x i j = fsum (phys A) (fun s => fmul D (fmul D (fT (ent A s)) x) (fC (ent A s))) i j.
Proof.
  intros [H _]. unfold tleft, fsum, fmul, fC, fT. rewrite H. apply sum_ext; intros s _. rewrite sum_swap. apply sum_ext; intros b _.
  rewrite <- sum_mul_r. reflexivity.
Qed.

Variables (nonneg : R -> Prop) (C : icalls R).
Hypothesis HC : icalls_ok nonneg C.

Lemma nonneg_real (x : R) : nonneg x -> sconj x = x.
Proof. destruct HC as (_ & _ & _ & _ & _ & _ & _ & _ & H & _). apply H. Qed.
Lemma nonneg_sum n (f : nat -> R) : (forall i, i < n -> nonneg (f i)) -> nonneg (sum n f).
Proof.
  destruct HC as (_ & _ & _ & _ & _ & _ & H0 & Ha & _). induction n as [|n IH]; intros H; cbn [sum]; [exact H0|].
  apply Ha; [apply IH; auto|apply H; lia].
Qed.
Lemma nonneg_sq (x : R) : sconj x = x -> nonneg (x * x).
Proof. destruct HC as (_ & _ & _ & _ & _ & _ & _ & _ & _ & H & _). apply H. Qed.
Lemma quot_nonneg x y z : quot C x y = Ok z -> nonneg x -> nonneg y -> nonneg z.
Proof. destruct HC as (_ & _ & _ & _ & _ & _ & _ & _ & _ & _ & H & _). intros E. apply lib_ok in E. eauto. Qed.
Lemma root_nonneg x w : root_ C x = Ok w -> nonneg x -> nonneg w.
Proof. destruct HC as (_ & _ & _ & _ & _ & _ & _ & _ & _ & _ & _ & H). intros E. apply lib_ok in E. eauto. Qed.
Lemma recip_real (x c : R) : c * x = 1 -> sconj x = x -> sconj c = c.
Proof.
  intros H Hx. assert (E : sconj c * x = 1) by (rewrite <- Hx, <- conj_mul, H; apply conj_1).
  transitivity (sconj c * (c * x)); [rewrite H; ring|]. transitivity (c * (sconj c * x)); [ring|rewrite E; ring].
Qed.

Definition canon_site (h : hand) (D : nat) (A G A' : site R) (L : mat R) (Lv : nat -> R) : Prop :=
  match h with
  | hand_r => phys A' = phys A /\ square_site D A' /\ forall s, feq D (ent A' s) (fmul D (ent G s) (me L))
  | hand_l => phys A' = phys A /\ square_site D A' /\ forall s, feq D (ent A' s) (fmul D (me L) (ent G s))
  | hand_m => phys A' = phys A /\ square_site D A' /\ exists q, (forall i, i < D -> q i * q i = Lv i) /\ (forall i, i < D -> sconj (q i) = q i) /\
                forall s, feq D (ent A' s) (fmul D (fmul D (fdg q) (ent G s)) (fdg q))
  | hand_other => A' = A
  end.

Lemma mdiag_fdg k v i j : me (mdiag k v) i j = fdg (R := R) v i j.
Proof. cbn [mdiag me]. unfold fdg, dlt. destruct (Nat.eqb_spec i j) as [->|]; ring. Qed.

Lemma canon_inv D (A : site R) rest m h l0 r0 tv m' G L eta l r :
  i_data m = A :: rest -> square_site D A -> imps_eigs C m l0 r0 = Ok (eta, l, r) -> hermitian l -> hermitian r -> nonneg eta ->
  canonicalise C m h l0 r0 tv = Ok (m', (G, L)) ->
  exists X Xi Y Z U V Lv c1 c2 etar A',
    (feq D (fmul D X Xi) f1 /\ feq D (fmul D Xi X) f1 /\ feq D (fmul D (fT Y) Z) f1 /\ feq D (fmul D Z (fT Y)) f1 /\
     feq D (fmul D (fH U) U) f1 /\ feq D (fmul D U (fH U)) f1 /\ feq D (fmul D V (fH V)) f1 /\ feq D (fmul D (fH V) V) f1) /\
    (forall i, i < D -> sconj (Lv i) = Lv i) /\ (forall i, i < D -> nonneg (Lv i)) /\
    feq D (fmul D (fT Y) X) (fmul D (fmul D U (fdg Lv)) V) /\
    feq D (me r) (fmul D X (fH X)) /\ feq D (me l) (fmul D Y (fH Y)) /\
    right_eigen A etar r /\ left_eigen A eta l /\
    sconj c1 = c1 /\ sconj c2 = c2 /\ c1 * c1 * eta = sum D (fun i => Lv i * Lv i) /\ c2 * c2 * sum D (fun i => Lv i * Lv i) = 1 /\
    (phys G = phys A /\ square_site D G /\ forall s, feq D (ent G s) (fsc c1 (Gs D (ent A) Xi Z U V s))) /\
    (mr L = D /\ mc L = D /\ feq D (me L) (fsc c2 (fdg Lv))) /\
    (i_L m' = Some L /\ i_l m' = Some l /\ i_r m' = Some r /\ i_data m' = A' :: rest) /\
    canon_site h D A G A' L Lv.
Proof.
  intros Hm HA He Hl Hr Hn H. unfold canonicalise in H. rewrite Hm in H. cbn [getitem nth_error bind] in H. rewrite He in H. cbn [bind fst snd] in H.
  unfold imps_eigs in He. destruct (Nat.eqb (i_period m) 1); [|discriminate]. rewrite Hm in He. cbn [getitem nth_error bind] in He.
  destruct (eigs_ok nonneg C HC D A l0 r0 eta l r HA He) as (HD & El & (etar & Er) & _).
  pose proof HA as [D1 D2].
  assert (Ml : mr l = D /\ mc l = D) by (destruct El as (E1 & E2 & _); split; congruence).
  assert (Mr : mr r = D /\ mc r = D) by (destruct Er as (E1 & E2 & _); split; congruence).
  destruct Ml as [Ml1 Ml2], Mr as [Mr1 Mr2].
  destruct HC as (_ & _ & Kch & Ksvd & Kinv & _).
  apply bind_ok in H. destruct H as (X & HX & H). apply lib_ok in HX. apply Kch in HX; [|exact Hr].
  apply bind_ok in H. destruct H as (Y & HY & H). apply lib_ok in HY. apply Kch in HY; [|exact Hl].
  destruct HX as (X1 & X2 & _ & X3), HY as (Y1 & Y2 & _ & Y3). rewrite Mr1 in *. rewrite Ml1 in *.
  rewrite mdot_ok in H by (cbn [mtr mc]; congruence). cbn [bind] in H. cbn [mtr mr mc me] in H.
  apply bind_ok in H. destruct H as ([[U Lv] V] & HS & H). apply lib_ok in HS. cbn [fst snd] in H.
  apply Ksvd in HS; [|cbn [mr mc]; congruence]. destruct HS as (SU & SV & SL & SM). cbn [mr mc me] in SU, SV, SL, SM. rewrite Y2 in SU, SV, SL, SM.
  rewrite Y1 in SM. rewrite X2, Y2, Nat.min_id in H.
  set (ll := sum D (fun i => Lv i * Lv i)) in *.
  apply bind_ok in H. destruct H as (Xi & HXi & H). apply lib_ok in HXi. apply Kinv in HXi; [|congruence].
  apply bind_ok in H. destruct H as (Z & HZ & H). apply lib_ok in HZ. apply Kinv in HZ; [|cbn [mtr mr mc]; congruence].
  destruct HXi as (Xi1 & Xi2 & XXi & XiX). rewrite X1 in *. destruct HZ as (Z1 & Z2 & YZ & ZY). cbn [mtr mr mc me] in Z1, Z2, YZ, ZY. rewrite Y2 in *.
  destruct SU as (U1 & U2 & UU & UU'). destruct SV as (V1 & V2 & VV' & VV). unfold orth_cols, orth_rows in UU, UU', VV, VV'.
  rewrite U1, U2 in *. rewrite V1, V2 in *.
  rewrite (mdot_ok V Xi) in H by congruence. cbn [bind] in H. rewrite (mdot_ok Z U) in H by congruence. cbn [bind] in H.
  unfold site_lmul in H at 1. cbn [mr mc me] in H. rewrite Xi2, D1, Nat.eqb_refl in H. cbn [bind] in H.
  unfold site_rmul in H at 1. cbn [mr mc me dr phys dl ent] in H. rewrite D2, Z1, Nat.eqb_refl in H. cbn [bind] in H.
  rewrite V1, V2, U2, Z2 in H.
  set (G0 := mkSite (phys A) D D (fun s i j => sum D (fun k => sum D (fun k0 => sum D (fun k1 => me V i k1 * me Xi k1 k0) * ent A s k0 k) * sum D (fun k0 => me Z k k0 * me U k0 j)))) in *.
  apply bind_ok in H. destruct H as (q & Hq & H). apply bind_ok in H. destruct H as (q' & Hq' & H). apply bind_ok in H. destruct H as (c1 & Hc1 & H).
  apply bind_ok in H. destruct H as (q2 & Hq2 & H). apply bind_ok in H. destruct H as (c2 & Hc2 & H).
  apply bind_ok in H. destruct H as (A' & HA' & H). apply bind_ok in H. destruct H as (data & Hdata & H).
  unfold set0 in Hdata. rewrite Hm in Hdata. cbn [setitem] in Hdata. injection Hdata as <-. injection H as <- <- <-.
  assert (Lr : forall i, i < D -> sconj (Lv i) = Lv i) by (intros i Hi; apply nonneg_real, SL, Hi).
  assert (Hll : nonneg ll) by (apply nonneg_sum; intros i Hi; apply nonneg_sq, Lr, Hi).
  assert (Rq : sconj q' = q') by (apply nonneg_real; eapply root_nonneg; [exact Hq'|]; eapply quot_nonneg; eassumption).
  assert (Rq2 : sconj q2 = q2) by (apply nonneg_real; eapply root_nonneg; eassumption).
  apply (quot_ok nonneg C HC) in Hq. apply (root_ok nonneg C HC) in Hq'. apply (quot_ok nonneg C HC) in Hc1. apply (root_ok nonneg C HC) in Hq2. apply (quot_ok nonneg C HC) in Hc2.
  exists (me X), (me Xi), (me Y), (me Z), (me U), (me V), Lv, c1, c2, etar, A'.
  split. { repeat split.
    - exact XXi. - exact XiX. - exact YZ. - exact ZY.
    - intros i j Hi Hj. apply UU; assumption. - intros i j Hi Hj. apply UU'; assumption.
    - intros i j Hi Hj. apply VV; assumption. - intros i j Hi Hj. apply VV'; assumption. }
  split; [exact Lr|]. split; [exact SL|].
  split. { intros i j Hi Hj. unfold fmul at 1, fT. etransitivity; [apply SM; assumption|]. rewrite fmul_assoc by assumption.
    unfold fmul at 1. apply sum_ext; intros k Hk. rewrite (fdg_mul D Lv (me V) k j Hk Hj). ring. }
  split. { intros i j Hi Hj. apply X3; assumption. }
  split. { intros i j Hi Hj. apply Y3; assumption. }
  split; [exact Er|]. split; [exact El|].
  split; [eapply recip_real; eassumption|]. split; [eapply recip_real; eassumption|].
  split. { fold ll. rewrite <- Hq, <- Hq'. transitivity ((c1 * q') * (c1 * q') * ll); [ring|rewrite Hc1; ring]. }
  split. { fold ll. rewrite <- Hq2. transitivity ((c2 * q2) * (c2 * q2)); [ring|rewrite Hc2; ring]. }
  assert (HG : forall s, feq D (ent (site_scale c1 G0) s) (fsc c1 (Gs D (ent A) (me Xi) (me Z) (me U) (me V) s))).
  { intros s i j Hi Hj. reflexivity. }
  split. { split; [reflexivity|]. split; [split; reflexivity|]. exact HG. }
  split. { split; [reflexivity|]. split; [reflexivity|]. intros i j Hi Hj. cbn [mscal me]. unfold fsc. f_equal. apply mdiag_fdg. }
  split. { repeat split. }
  destruct h.
  - unfold site_rmul in HA'. cbn [site_scale dr G0 mscal mr mdiag] in HA'. rewrite Nat.eqb_refl in HA'. injection HA' as <-.
    split; [reflexivity|]. split; [split; reflexivity|]. intros s i j Hi Hj. reflexivity.
  - unfold site_lmul in HA'. cbn [site_scale dl G0 mscal mc mdiag] in HA'. rewrite Nat.eqb_refl in HA'. injection HA' as <-.
    split; [reflexivity|]. split; [split; reflexivity|]. intros s i j Hi Hj. reflexivity.
  - apply bind_ok in HA'. destruct HA' as (sL & HsL & HA').
    apply bind_ok in HA'. destruct HA' as (X' & HX' & HA'). unfold site_lmul in HX'. cbn [site_scale dl G0 mc mdiag] in HX'. rewrite Nat.eqb_refl in HX'. injection HX' as <-.
    unfold site_rmul in HA'. cbn [dr site_scale G0 mr mdiag] in HA'. rewrite Nat.eqb_refl in HA'. injection HA' as <-.
    split; [reflexivity|]. split; [split; reflexivity|]. exists (fun i => nth i sL 0).
    assert (Hnth : forall i, i < D -> root_ C (Lv i) = Ok (nth i sL 0)).
    { intros i Hi. assert (HH : forall k n sL, mapM (fun i => root_ C (Lv i)) (seq k n) = Ok sL -> forall i, i < n -> root_ C (Lv (k + i)%nat) = Ok (nth i sL 0)).
      { clear. intros k n. revert k. induction n as [|n IH]; intros k sL HM i Hi; [lia|]. cbn [seq mapM] in HM.
        apply bind_ok in HM. destruct HM as (x & Hx & HM). apply bind_ok in HM. destruct HM as (xs & Hxs & HM). injection HM as <-.
        destruct i as [|i]; [rewrite Nat.add_0_r; exact Hx|]. cbn [nth]. rewrite <- Nat.add_succ_comm. apply (IH (S k) xs Hxs). lia. }
      apply (HH 0%nat D sL HsL i Hi). }
    split; [intros i Hi; eapply (root_ok nonneg C HC), Hnth, Hi|].
    split; [intros i Hi; apply nonneg_real; eapply root_nonneg; [apply Hnth, Hi|apply SL, Hi]|].
    intros s i j Hi Hj. cbn [ent site_scale G0]. unfold fmul. apply sum_ext; intros k Hk. f_equal; [|apply (mdiag_fdg D (fun i => nth i sL 0))].
    apply sum_ext; intros k' Hk'. f_equal. apply (mdiag_fdg D (fun i => nth i sL 0)).
  - injection HA' as <-. reflexivity.
Qed.
End C.
