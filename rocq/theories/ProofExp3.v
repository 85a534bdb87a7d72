(** Proofs about the exponentials, third part: U4, U4s, extractv, equal_up_to_phase. *)
From Coq Require Import ZArith.
From Verif Require Import SpecCanon Alg ModelMPS SpecMPS ModelNcon ModelEk ModelTensor SpecTensor ModelDecomp ModelOrth SpecOrth SpecDecomp ModelSpin SpecSpin ProofSpin ProofSpin2 ProofSpin3 ProofSpin4
  ModelLie SpecLie ProofLie ProofLie2 ProofLie3 ProofLie4 ProofLie5 ModelExp SpecExp ProofExp ProofExp2.

Section Proof.
Context {R : sring}.
Add Ring Rr3 : (s_th R).
Local Open Scope sr_scope.
Variable C : consts R.
Variable F : mfun R.
Hypothesis HC : consts_ok C (fun _ => False).
Hypothesis HE : expm_ok (f_exp F).

Lemma U4_unitary r3 r6 v V : c_sqrt C 1 = 1 -> r3 * r3 * (1 + 1 + 1) = 1 -> r6 * r6 * ((1 + 1) * (1 + 1 + 1)) = 1 -> sconj r3 = r3 -> sconj r6 = r6 ->
  Forall (fun x => sconj x = x) v -> U4 C F r3 r6 v = Ok V -> unitary_ 4 V.
Proof.
  intros H1 H3 H6 C3 C6 Hv E. refine (exp_comb_unitary C F HC HE 4 v _ V _ Hv E). intros T HT.
  destruct (lam_orth C HC H1 r3 r6 H3 H6 C3 C6) as [H _]. destruct (H T HT) as (T1 & T2 & _). now split.
Qed.

Lemma U4s_unitary v V : c_sqrt C 1 = 1 -> Forall (fun x => sconj x = x) v -> U4s C F v = Ok V -> unitary_ 4 V.
Proof.
  intros H1 Hv E. refine (exp_comb_unitary C F HC HE 4 v _ V _ Hv E). intros T HT. split.
  - exact (proj1 (Forall_forall _ _) (slam_sq C HC H1) T HT).
  - apply (slam_herm C HC H1 T HT).
Qed.

Lemma U4s_swap v V : c_sqrt C 1 = 1 -> U4s C F v = Ok V -> swap_comm V.
Proof.
  intros H1 E. destruct (exp_comb_inv C F _ _ _ _ E) as (M & EM & EV). destruct (lincomb_inv _ _ _ _ EM) as (_ & HM & Hc).
  refine (exp_swap F HE (mscal (- c_im C) M) V HM _ EV). assert (HM' : sq 4 (mscal (- c_im C) M)) by exact HM. refine (proj2 (swap_comm_iff _ HM') _). intros i j Hi Hj.
  cbn [mscal me]. rewrite !Hc. f_equal. apply sum_ext. intros k Hk. f_equal. assert (HT := nth_In (slambdas C) (mone 0) Hk).
  refine (proj1 (swap_comm_iff _ _) _ i j Hi Hj); [exact (proj1 (Forall_forall _ _) (slam_sq C HC H1) _ HT)|exact (slam_swap C HC H1 _ HT)].
Qed.

(** Inverses are unique and real. *)
Lemma inv_real n (x : R) : sofnat n * x = 1 -> sconj x = x.
Proof.
  intros H. assert (H' : sofnat n * sconj x = 1). { transitivity (sconj (sofnat n * x)); [rewrite conj_mul, sofnat_conj; reflexivity|]. rewrite H. apply conj_1. }
  transitivity (sconj x * (sofnat n * x)); [rewrite H; ring|]. transitivity (x * (sofnat n * sconj x)); [ring|]. rewrite H'. ring.
Qed.

Lemma extract_SU (scale inv : nat -> R) n U A : scale_ok scale n -> inverses inv n -> (1 <= n)%nat -> sq n U -> logm_ok (f_exp F) (f_log F) ->
  inv = f_inv F -> f_log F U = Some A ->
  exists v V w, extractv C F scale U = Ok v /\ SU C F scale v n Adj = Ok V /\ mat_eq V (mscale w U) /\
    (unitary_ n U -> w * sconj w = 1 /\ Forall (fun x => sconj x = x) v).
Proof.
  intros Hs Hinv Hn HU HL Ei EL. destruct (HL n U A HU EL) as (HA & (U' & EU & HU') & Hanti).
  destruct HC as (_ & _ & Hii & Hic & _). set (i_ := c_im C) in *.
  set (Q := mscal i_ A). set (t := mtr_ Q). set (Q' := mkMat n n (fun a b => me Q a b - t * dlt a b * f_inv F n)).
  assert (EQ : msub Q (mkMat n n (fun a b => mtr_ Q * dlt a b * f_inv F n)) = Ok Q').
  { unfold msub. cbn [mr mc]. destruct HA as [A1 A2]. unfold Q. cbn [mscal mr mc]. rewrite A1, A2, !Nat.eqb_refl. reflexivity. }
  assert (Hninv : sofnat n * f_inv F n = 1) by (rewrite <- Ei; apply Hinv; lia).
  assert (Et : t = sum n (fun a => me Q a a)). { unfold t, mtr_. destruct HA as [A1 A2]. unfold Q. cbn [mscal mr mc me]. rewrite A1, A2, Nat.min_id. reflexivity. }
  assert (HT : mtrace Q' = 0).
  { unfold mtrace. cbn [Q' mr me]. rewrite sum_sub, <- Et. rewrite (sum_ext n _ (fun _ => t * f_inv F n * 1)) by (intros; rewrite dlt_eq; ring).
    rewrite sum_mul_l. rewrite sum_ones. transitivity (t - t * (sofnat n * f_inv F n)); [ring|]. rewrite Hninv. ring. }
  destruct (components_complete C scale n HC Hs inv Q' Hinv Hn (conj eq_refl eq_refl) HT) as (v & M & Ev & EM & HM).
  set (c := i_ * t * f_inv F n). destruct (ex_scalar _ HE n c) as (w & Z & EZ & HZ).
  assert (Hcomm : mat_eq (mmul A (mscale c (mone n))) (mmul (mscale c (mone n)) A)).
  { destruct HA as [A1 A2]. split; [exact A1|]. split; [cbn; congruence|]. cbn [mmul mscale mone mr mc me]. rewrite A1, A2. intros a b Ha Hb.
    rewrite (sum_single n b) by (try assumption; intros; rewrite dlt_neq by assumption; ring). rewrite (sum_single n a) by (try assumption; intros; rewrite dlt_neq by congruence; ring). rewrite !dlt_eq. ring. }
  destruct (ex_sum _ HE n A (mscale c (mone n)) U' Z HA (conj eq_refl eq_refl) Hcomm EU EZ) as (S & ES & HS).
  assert (Hsum : mat_eq (mplus A (mscale c (mone n))) (mscal (- i_) M)).
  { destruct HA as [A1 A2]. destruct HM as (M1 & M2 & M3). cbn [Q' mr mc me] in M1, M2, M3. split; [cbn; congruence|]. split; [cbn; congruence|]. cbn [mplus mscale mone mscal mr mc me].
    rewrite A1, A2. intros a b Ha Hb. rewrite M3 by (rewrite ?M1, ?M2; assumption). unfold Q, c. cbn [mscal me]. ring [Hii]. }
  destruct (ex_ext _ HE _ _ _ Hsum ES) as (V & EV & HV).
  assert (HUs := ex_shape _ HE n A U' HA EU).
  assert (HVw : mat_eq V (mscale w U)).
  { eapply mat_eq_trans; [apply mat_eq_sym; exact HV|]. eapply mat_eq_trans; [exact HS|].
    destruct HZ as (Z1 & Z2 & Z3). cbn [mscale mone mr mc me] in Z1, Z2, Z3. destruct HU' as (u1 & u2 & u3). destruct HUs as [s1 s2].
    split; [exact u1|]. split; [cbn; congruence|]. cbn [mmul mscale mr mc me]. rewrite s1, s2, Z2. intros a b Ha Hb.
    rewrite (sum_single n b).
    - rewrite Z3, dlt_eq, u3 by congruence. ring.
    - exact Hb.
    - intros z Hz Hne. rewrite Z3, dlt_neq by congruence. ring. }
  exists v, V, w. split; [|split; [|split]].
  - unfold extractv, logm_. rewrite EL. cbn [bind]. rewrite (proj1 HU). fold i_. fold Q. rewrite EQ. cbn [bind]. exact Ev.
  - cbn [SU]. unfold exp_comb, expm_. rewrite EM. cbn [bind]. fold i_. rewrite EV. reflexivity.
  - exact HVw.
  - intros Hun. assert (HAa := Hanti Hun).
    assert (HAe : forall a b, (a < n)%nat -> (b < n)%nat -> sconj (me A b a) = - me A a b).
    { intros a b Ha Hb. destruct HAa as (_ & _ & H). cbn [madj mscale mr mc me] in H. destruct HA as [A1 A2]. rewrite H by (rewrite ?A1, ?A2; assumption). ring. }
    assert (Hct : sconj t = t).
    { rewrite Et, sum_conj. apply sum_ext. intros a Ha. unfold Q. cbn [mscal me]. rewrite conj_mul, Hic, HAe by assumption. ring. }
    assert (Hh : mat_eq (madj Q') Q').
    { split; [reflexivity|]. split; [reflexivity|]. cbn [Q' madj mr mc me]. intros a b Ha Hb. rewrite conj_sub, !conj_mul, Hct, dlt_conj, (inv_real n _ Hninv), (dlt_sym b a).
      unfold Q. cbn [mscal me]. rewrite conj_mul, Hic, HAe by assumption. ring. }
    assert (Hv := components_real C scale n Q' v HC Hs (conj eq_refl eq_refl) Hh Ev). split; [|exact Hv].
    assert (HuV : unitary_ n V). { apply (SU_unitary C F scale HC HE n v V Hs Hv). cbn [SU]. unfold exp_comb, expm_. rewrite EM. cbn [bind]. fold i_. now rewrite EV. }
    destruct HuV as (SV & (_ & _ & V1) & _). destruct Hun as (SU' & (_ & _ & W1) & _). cbn [mmul madj mr mc me mone] in V1, W1.
    destruct SV as [v1 v2]. destruct SU' as [w1 w2]. rewrite v1, v2 in V1. rewrite w1, w2 in W1.
    specialize (V1 0%nat 0%nat Hn Hn). specialize (W1 0%nat 0%nat Hn Hn). rewrite dlt_eq in V1, W1.
    destruct HVw as (_ & _ & H). cbn [mscale mr mc me] in H. rewrite v1, v2 in H.
    rewrite (sum_ext n _ (fun k => w * sconj w * (sconj (me U k 0%nat) * me U k 0%nat))) in V1 by (intros; rewrite H by (assumption || lia); rewrite conj_mul; ring).
    rewrite sum_mul_l, W1 in V1. transitivity (w * sconj w * 1); [ring|exact V1].
Qed.

Section Phase.
Variable nonneg : R -> Prop.
Hypothesis Hph : phase_ok nonneg (f_ph F).
Variable close : mat R -> mat R -> bool.
Hypothesis Hclose : close_ok close.

Lemma phase_sound U V : equal_up_to_phase F close U V = Ok true -> same_ray U V.
Proof.
  unfold equal_up_to_phase. destruct (_ || _); [discriminate|]. intros E. injection E as E. apply Hclose in E.
  set (p := f_ph F (me U 0%nat 0%nat)) in *. set (q := f_ph F (me V 0%nat 0%nat)) in *.
  destruct Hph as [_ H]. destruct (H (me U 0%nat 0%nat)) as (P1 & _). destruct (H (me V 0%nat 0%nat)) as (Q1 & _). fold p in P1. fold q in Q1.
  exists (sconj q * p). split; [rewrite conj_mul, conj_conj; transitivity ((p * sconj p) * (q * sconj q)); [ring|]; rewrite P1, Q1; ring|].
  destruct E as (E1 & E2 & E3). cbn [mscal mr mc me] in E1, E2, E3. split; [symmetry; exact E1|]. split; [symmetry; exact E2|]. cbn [mscale mr mc me].
  rewrite <- E1, <- E2. intros i j Hi Hj. transitivity (sconj q * (q * me V i j)); [transitivity (q * sconj q * me V i j); [rewrite Q1; ring|ring]|].
  rewrite <- E3 by assumption. ring.
Qed.

Lemma phase_complete U V : @integral R -> order_ok nonneg -> (1 <= mr U)%nat -> (1 <= mc U)%nat -> me U 0%nat 0%nat <> 0 -> same_ray U V -> equal_up_to_phase F close U V = Ok true.
Proof.
  intros Hint Hord H1 H2 Hne (w & Hw & E). destruct E as (E1 & E2 & E3). cbn [mscale mr mc me] in E1, E2, E3. unfold equal_up_to_phase. rewrite E1, E2.
  destruct (Nat.eqb_spec (mr U * mc U) 0); [nia|]. cbn [orb]. f_equal. apply Hclose.
  split; [cbn; symmetry; exact E1|]. split; [cbn; symmetry; exact E2|]. cbn [mscal mr mc me]. intros i j Hi Hj. rewrite (E3 i j) by congruence.
  assert (E0 : me V 0%nat 0%nat = w * me U 0%nat 0%nat) by (apply E3; lia).
  set (u := me U 0%nat 0%nat) in *. set (v := me V 0%nat 0%nat) in *. destruct Hph as [_ H]. destruct (H u) as (P1 & P2 & P3). destruct (H v) as (Q1 & Q2 & Q3).
  set (p := f_ph F u) in *. set (q := f_ph F v) in *.
  assert (K : p * u = q * v).
  { apply Hord; [exact P2|exact Q2|]. transitivity (p * u * sconj (p * u)); [rewrite P3; ring|]. transitivity (q * v * sconj (q * v)); [|rewrite Q3; ring].
    rewrite E0, !conj_mul. transitivity ((p * sconj p) * (u * sconj u)); [ring|]. transitivity ((q * sconj q) * (w * sconj w) * (u * sconj u)); [|ring]. rewrite P1, Q1, Hw. ring. }
  rewrite E0 in K. assert (Kp : p = q * w).
  { assert (Z : (p - q * w) * u = 0). { transitivity (p * u - q * (w * u)); [ring|]. rewrite K. ring. } destruct (Hint _ _ Z) as [Z1|Z1]; [|contradiction].
    transitivity (p - q * w + q * w); [ring|]. rewrite Z1. ring. }
  rewrite Kp. ring.
Qed.

Lemma phase_missed : (1 + 1 <> 0 :> R) -> exists U V, same_ray U V /\ unitary_ 2 U /\ unitary_ 2 V /\ equal_up_to_phase F close U V = Ok false.
Proof.
  intros H2. destruct HC as (_ & _ & Hii & Hic & _). set (i_ := c_im C) in *.
  set (U := mkMat 2 2 (fun a b => if Nat.eqb a b then 0 else 1) : mat R). set (V := mkMat 2 2 (fun a b => if Nat.eqb a b then 0 else i_) : mat R).
  exists U, V. assert (Hw : i_ * sconj i_ = 1) by (rewrite Hic; ring [Hii]).
  split; [|split; [|split]].
  - exists i_. split; [exact Hw|]. split; [reflexivity|]. split; [reflexivity|]. cbn [U V mscale mr mc me]. intros a b Ha Hb. destruct (Nat.eqb a b); ring.
  - split; [split; reflexivity|]. split; (split; [reflexivity|]; split; [reflexivity|]; intros a b Ha Hb; cbn [mr mc madj mmul U] in Ha, Hb;
      destruct a as [|[|a]]; [| |lia]; (destruct b as [|[|b]]; [| |lia]); cbn; rewrite ?conj_0, ?conj_1; unfold dlt; cbn; ring).
  - split; [split; reflexivity|]. split; (split; [reflexivity|]; split; [reflexivity|]; intros a b Ha Hb; cbn [mr mc madj mmul V] in Ha, Hb;
      destruct a as [|[|a]]; [| |lia]; (destruct b as [|[|b]]; [| |lia]); cbn; rewrite ?conj_0, ?Hic; unfold dlt; cbn; ring [Hii]).
  - unfold equal_up_to_phase. cbn [U V mr mc me Nat.mul Nat.add Nat.eqb orb]. destruct Hph as [-> _]. f_equal.
    destruct (close _ _) eqn:E; [|reflexivity]. exfalso. apply Hclose in E as (_ & _ & E). specialize (E 0%nat 1%nat). cbn in E. assert (E' := E ltac:(lia) ltac:(lia)).
    assert (Ei : i_ = 1) by (transitivity (1 * i_); [ring|]; rewrite <- E'; ring). rewrite Ei in Hii. apply H2. transitivity (1 + 1 * 1 : R); [ring|]. rewrite Hii. ring.
Qed.
End Phase.

Lemma to_new_v_ray scale n v w : logm_ok (f_exp F) (f_log F) -> scale_ok scale n -> inverses (f_inv F) n -> (1 <= n)%nat ->
  length v = (n * n - 1)%nat -> Forall (fun x => sconj x = x) v -> to_new_v C F scale v = Ok w ->
  Forall (fun x => sconj x = x) w /\ exists U V, SU C F scale v n Adj = Ok U /\ SU C F scale w n Adj = Ok V /\ same_ray U V.
Proof.
  intros HL Hs Hi Hn Hl Hv E. unfold to_new_v in E. assert (Hq : Nat.sqrt (length v + 1) = n). { rewrite Hl. replace (n * n - 1 + 1)%nat with (n * n)%nat by nia. apply Nat.sqrt_square. }
  rewrite Hq in E. destruct (SU C F scale v n Adj) as [U|] eqn:EU; [|discriminate]. cbn [bind] in E.
  assert (HU := SU_unitary C F scale HC HE n v U Hs Hv EU).
  assert (EL : exists A, f_log F U = Some A). { unfold extractv, logm_ in E. destruct (f_log F U) as [A|]; [now exists A|discriminate]. }
  destruct EL as (A & EL). destruct (extract_SU scale (f_inv F) n U A Hs Hi Hn (proj1 HU) HL eq_refl EL) as (v' & V & c & E1 & E2 & E3 & E4).
  rewrite E in E1. injection E1 as <-. destruct (E4 HU) as [H1 H2]. split; [exact H2|]. exists U, V. split; [reflexivity|]. split; [exact E2|]. exists c. now split.
Qed.
End Proof.

Lemma unitary_eq {R : sring} n (U V : mat R) : mat_eq U V -> unitary_ n U -> unitary_ n V.
Proof.
  intros E (HU & H1 & H2). assert (HV : sq n V) by (destruct E as (e1 & e2 & _), HU; split; congruence). split; [exact HV|].
  assert (Ea : mat_eq (madj U) (madj V)). { destruct E as (e1 & e2 & e3). split; [exact e2|]. split; [exact e1|]. cbn [madj mr mc me]. intros i j Hi Hj. now rewrite e3. }
  destruct HU as [u1 u2]. split; [eapply mat_eq_trans; [|exact H1]|eapply mat_eq_trans; [|exact H2]]; apply mat_eq_sym; apply mmul_eq; try assumption; reflexivity.
Qed.

Lemma SU_generator {R : sring} (C : consts R) (F : mfun R) (scale : nat -> R) (v : list R) (N : nat) : (1 <= N)%nat ->
  (forall V, SU C F scale v N Adj = Ok V -> length v = (N * N - 1)%nat /\ exists A, sq N A /\ f_exp F A = Some V /\
     forall a b, me A a b = (- c_im C * comb_entry v (su C scale N) a b)%sr) /\
  (length v <> (N * N - 1)%nat -> SU C F scale v N Adj = Err ValueError) /\
  SU4 C F scale v = SU C F scale v 4 Adj /\ SU8 C F scale v = SU C F scale v 8 Adj.
Proof.
  intros HN. split; [|split; [|split; reflexivity]].
  - intros V E. destruct (exp_comb_inv C F _ _ _ _ E) as (M & EM & EV). destruct (lincomb_inv _ _ _ _ EM) as (Hl & HM & Hc). rewrite su_length in Hl by exact HN.
    split; [exact Hl|]. exists (mscal (- c_im C)%sr M). split; [exact HM|]. split; [exact EV|]. intros a b. cbn [mscal me]. now rewrite Hc.
  - intros Hl. cbn [SU]. unfold exp_comb, lincomb. rewrite su_length by exact HN. destruct (Nat.eqb_spec (length v) (N * N - 1)); [contradiction|reflexivity].
Qed.
