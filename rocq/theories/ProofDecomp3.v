(** embed and deembed, get_null_space, rotate_to_hermitian. *)
From Verif Require Import Alg ModelMPS SpecMPS ModelOrth SpecOrth ModelCanon SpecCanon ModelDecomp SpecDecomp ProofDecomp ProofDecomp2.

Section Proof.
Context {R : sring}.
Add Ring Rr : (s_th R).
Local Open Scope sr_scope.

Section Or.
Variable nonneg : R -> Prop.
Variable O : decomp R.
Hypothesis HO : decomp_ok nonneg O.

Lemma nrm_ok (v : mat R) n ninv : de_nrm O v = Some (n, ninv) ->
  n * ninv = 1 /\ sconj ninv = ninv /\ n * n = sum (mr v) (fun i => sum (mc v) (fun j => me v i j * sconj (me v i j))).
Proof.
  intros E. destruct HO as (_ & _ & _ & _ & _ & H & _). destruct (H _ _ _ E) as (H1 & H2 & H3).
  split; [exact H2|]. split; [|exact H3].
  assert (H4 : n * sconj ninv = 1) by (rewrite <- H1, <- conj_mul, H2; apply conj_1).
  transitivity (n * sconj ninv * ninv); [|rewrite H4; ring]. transitivity (sconj ninv * (n * ninv)); [rewrite H2; ring|ring].
Qed.

Lemma embed_ok (v U : mat R) : char0 R -> embed O v = Ok U ->
  exists n ninv, de_nrm O v = Some (n, ninv) /\ unitary_mat (mr v * mc v) U /\
    forall i j, i < mr v -> j < mc v -> me U (i * mc v + j)%nat 0%nat = me v i j * ninv.
Proof.
  intros Hc E. unfold embed in E. destruct (de_nrm O v) as [[n ninv]|] eqn:En; [|discriminate]. exists n, ninv. split; [reflexivity|].
  destruct (nrm_ok v n ninv En) as (N1 & N2 & N3).
  match type of E with match de_null O ?r with _ => _ end = _ => set (row := r) in * end.
  destruct (de_null O row) as [N|] eqn:EN; [|discriminate].
  apply (null_ok nonneg O HO) in EN.
  destruct (vcat row (mct N)) as [M|] eqn:EM; [|discriminate]. cbn [bind] in E. injection E as <-.
  assert (KN : mr N = (mr v * mc v)%nat) by (destruct EN as (K1 & _); exact K1).
  destruct (vcat_ok row (mct N)) as (M' & EM' & M1 & M2 & M3 & M4); [cbn; lia|]. rewrite EM in EM'. injection EM' as <-.
  set (Q := mct row).
  assert (HQ : orth_cols Q).
  { intros i j Hi Hj. cbn in Hi, Hj. assert (i = 0)%nat by lia. assert (j = 0)%nat by lia. subst. rewrite dlt_eq. cbn.
    rewrite sum_mul.
    rewrite (sum_ext _ _ (fun i => ninv * ninv * sum (mc v) (fun j => me v i j * sconj (me v i j)))).
    - rewrite sum_mul_l, <- N3. transitivity (n * ninv * (n * ninv)); [ring|]. rewrite N1. ring.
    - intros i Hi'. rewrite <- sum_mul_l. apply sum_ext. intros j Hj'. rewrite conj_conj.
      replace ((i * mc v + j) / mc v)%nat with i by (rewrite Nat.div_add_l by lia; rewrite Nat.div_small by lia; lia).
      replace ((i * mc v + j) mod mc v)%nat with j by (rewrite Nat.add_comm, Nat.mod_add by lia; now rewrite Nat.mod_small).
      rewrite conj_mul, N2. ring. }
  assert (EN' : is_kernel (mct Q) N).
  { destruct EN as (K1 & K2 & K3 & K4). split; [exact K1|]. split; [exact K2|]. unfold Q. cbn [mr mc me mct]. split.
    - intros i k Hi Hk. rewrite <- (K3 i k Hi Hk). apply sum_ext. intros j _. now rewrite conj_conj.
    - intros w Hw j Hj. apply K4; [|exact Hj]. intros i Hi. rewrite <- (Hw i Hi). apply sum_ext. intros l _. now rewrite conj_conj. }
  destruct (hcat_ok Q N) as (P & EP & P1 & P2 & P3 & P4); [cbn; lia|].
  destruct (complete_cols Q N P HQ EN' EP) as (H1 & H2 & _).
  pose proof (unitary_square P Hc H1 H2) as Hs. cbn [mr mc me mct Q row] in P1, P2, P3, P4, M1, M2, M3, M4.
  assert (HE : forall i j, (j < mc P)%nat -> me (mtr M) i j = sconj (me P i j)).
  { intros i j Hj. cbn. destruct j as [|j].
    - rewrite M3, P3 by lia. now rewrite conj_conj.
    - change (S j) with (1 + j)%nat. now rewrite M4, P4. }
  split.
  - split; [cbn; lia|]. split; [cbn; lia|]. split.
    + intros i j Hi Hj. cbn [mr mc mtr] in Hi, Hj. rewrite <- dlt_conj, <- (H1 i j), sum_conj by lia.
      replace (mr (mtr M)) with (mr P) by (cbn; lia). apply sum_ext. intros k _.
      rewrite !HE by lia. rewrite conj_mul. reflexivity.
    + intros i j Hi Hj. cbn [mr mc mtr] in Hi, Hj. rewrite <- dlt_conj, <- (H2 i j), sum_conj by lia.
      replace (mc (mtr M)) with (mc P) by (cbn; lia). apply sum_ext. intros k Hk.
      rewrite !HE by lia. rewrite conj_mul. reflexivity.
  - intros i j Hi Hj. rewrite HE by lia. rewrite P3 by lia. rewrite conj_conj. cbn [as_row me].
    replace ((i * mc v + j) / mc v)%nat with i by (rewrite Nat.div_add_l by lia; rewrite Nat.div_small by lia; lia).
    replace ((i * mc v + j) mod mc v)%nat with j by (rewrite Nat.add_comm, Nat.mod_add by lia; now rewrite Nat.mod_small). reflexivity.
Qed.

Lemma deembed_ok (u : mat R) : mr u = 4%nat -> mc u = 4%nat ->
  exists w, deembed u = Ok w /\ mr w = 2%nat /\ mc w = 2%nat /\ forall i j, i < 2 -> j < 2 -> me w i j = me u (i * 2 + j)%nat 0%nat.
Proof.
  intros H1 H2. unfold deembed, mprod. cbn [mr mc]. rewrite H2. cbn [Nat.eqb bind mr]. rewrite H1. cbn [Nat.eqb].
  eexists. split; [reflexivity|]. cbn [mr mc me]. repeat split. intros i j Hi Hj.
  rewrite (sum_single _ 0%nat) by (try lia; intros z Hz Hne; rewrite dlt_neq by congruence; ring). rewrite dlt_eq. ring.
Qed.

Lemma deembed_err (u : mat R) : mr u <> 4%nat \/ mc u <> 4%nat -> deembed u = Err ValueError.
Proof.
  intros H. unfold deembed, mprod. cbn [mr mc]. destruct (Nat.eqb_spec (mc u) 4); [|reflexivity]. cbn [bind mr].
  destruct (Nat.eqb_spec (mr u) 4); [lia|reflexivity].
Qed.

Lemma deembed_embed (v U : mat R) : char0 R -> mr v = 2%nat -> mc v = 2%nat -> embed O v = Ok U ->
  exists n ninv w, de_nrm O v = Some (n, ninv) /\ deembed U = Ok w /\ mr w = 2%nat /\ mc w = 2%nat /\
    forall i j, i < 2 -> j < 2 -> n * me w i j = me v i j.
Proof.
  intros Hc H1 H2 E. destruct (embed_ok v U Hc E) as (n & ninv & En & (U1 & U2 & _) & V). rewrite H1, H2 in U1, U2.
  destruct (deembed_ok U U1 U2) as (w & Ew & W1 & W2 & W3). exists n, ninv, w. split; [exact En|]. split; [exact Ew|].
  split; [exact W1|]. split; [exact W2|]. intros i j Hi Hj. rewrite W3 by lia. rewrite H2 in V. rewrite V by lia.
  destruct (nrm_ok v n ninv En) as (N1 & _). transitivity (n * ninv * me v i j); [ring|]. rewrite N1. ring.
Qed.

(** * get_null_space *)
Lemma get_null_space_run (A V : mat R) : (mr A <= mc A)%nat -> get_null_space O A = Ok V ->
  mr V = mc A /\ mc V = (mc A - mr A)%nat /\ orth_cols V /\
  forall i k, i < mr A -> k < mc V -> sum (mc A) (fun j => me A i j * me V j k) = 0.
Proof.
  intros Hw E. unfold get_null_space in E. destruct (de_qrf O (mct A)) as [[Q r]|] eqn:EQ; [|discriminate]. injection E as <-.
  destruct HO as (_ & _ & HF & _). destruct (HF _ _ _ EQ) as ((U1 & U2 & Uc & Ur) & (P1 & P2 & P3 & P4) & T). cbn [mr mc me mct] in *.
  split; [exact U1|]. split; [lia|]. split.
  - intros i j Hi Hj. cbn [mr mc me] in *. rewrite Uc by lia. unfold dlt.
    destruct (Nat.eqb_spec (mr A + i) (mr A + j)), (Nat.eqb_spec i j); try reflexivity; lia.
  - intros i k Hi Hk.
    rewrite (sum_ext _ _ (fun j => sum (mc Q) (fun a => sconj (me r a i) * (sconj (me Q j a) * me Q j (mr A + k)%nat)))).
    2:{ intros j Hj. rewrite <- (conj_conj R (me A i j)), P4, sum_conj, <- sum_mul_r by lia. apply sum_ext. intros a _. rewrite conj_mul. ring. }
    rewrite sum_swap. rewrite (sum_single _ (mr A + k)%nat); [|lia|].
    + rewrite T by lia. apply sum_zero. intros j _. rewrite conj_0. ring.
    + intros a Ha Hne. rewrite sum_mul_l. rewrite <- U1, Uc by lia. rewrite dlt_neq by congruence. ring.
Qed.

(** Rows of A independent (A has a right inverse): nothing else is killed by A. *)
Lemma get_null_space_complete (A B V : mat R) : @integral R -> (1 : R) <> 0 -> (mr A <= mc A)%nat -> get_null_space O A = Ok V ->
  mr B = mc A -> mc B = mr A ->
  (forall i j, i < mr A -> j < mr A -> sum (mc A) (fun x => me A i x * me B x j) = dlt i j) ->
  is_kernel A V.
Proof.
  intros Hint H10 Hw E B1 B2 HB. destruct (get_null_space_run A V Hw E) as (V1 & V2 & V3 & V4).
  split; [exact V1|]. split; [exact V3|]. split; [exact V4|]. intros w Hker.
  unfold get_null_space in E. destruct (de_qrf O (mct A)) as [[Q r]|] eqn:EQ; [|discriminate]. injection E as <-.
  destruct HO as (_ & _ & HF & _). destruct (HF _ _ _ EQ) as ((U1 & U2 & Uc & Ur) & (P1 & P2 & P3 & P4) & T). cbn [mr mc me mct] in *.
  assert (Rr_ : mr r = mc A) by lia.
  assert (HA : forall i y, (i < mr A)%nat -> forall f : nat -> R, y = 0 -> sum (mc A) (fun x => me A i x * f x)
     = sum (mr A) (fun a => sconj (me r a i) * sum (mc A) (fun x => sconj (me Q x a) * f x)) + y).
  { intros i y Hi f Hy. subst y.
    rewrite (sum_ext _ _ (fun j => sum (mc A) (fun a => sconj (me r a i) * (sconj (me Q j a) * f j)))).
    2:{ intros j Hj. rewrite <- (conj_conj R (me A i j)), P4, sum_conj, <- sum_mul_r by lia. replace (mc Q) with (mc A) by lia. apply sum_ext. intros a _. rewrite conj_mul. ring. }
    rewrite sum_swap. replace (mc A) with (mr A + (mc A - mr A))%nat at 1 by lia. rewrite sum_split.
    rewrite (sum_zero (mc A - mr A)). { f_equal. apply sum_ext. intros a _. apply sum_mul_l. }
    intros a Ha. rewrite sum_mul_l, T by lia. rewrite conj_0. ring. }
  (* L M = 1 with L i a = conj r a i lower triangular *)
  set (Mx := fun a j => sum (mc A) (fun x => sconj (me Q x a) * me B x j)).
  assert (HL : forall i j, (i < mr A)%nat -> (j < mr A)%nat -> sum (mr A) (fun a => sconj (me r a i) * Mx a j) = dlt i j).
  { intros i j Hi Hj. rewrite <- (HB i j Hi Hj), (HA i 0) by auto. unfold Mx. ring. }
  assert (Htri : forall i, (i < mr A)%nat -> me r i i <> 0 /\ forall j, (i < j)%nat -> (j < mr A)%nat -> Mx i j = 0).
  { induction i as [i IH] using lt_wf_ind. intros Hi.
    assert (Hrow : forall j, (i <= j)%nat -> (j < mr A)%nat -> sconj (me r i i) * Mx i j = dlt i j).
    { intros j Hij Hj. rewrite <- (HL i j Hi Hj). rewrite (sum_upto (mr A) i); [|exact Hi|intros a Ha Ha'; rewrite T by lia; rewrite conj_0; ring].
      rewrite sum_zero; [ring|]. intros a Ha. rewrite (proj2 (IH a Ha ltac:(lia))) by lia. ring. }
    assert (Hne : me r i i <> 0).
    { intros E0. pose proof (Hrow i ltac:(lia) Hi) as E1. rewrite E0, conj_0, dlt_eq in E1. apply H10. rewrite <- E1. ring. }
    split; [exact Hne|]. intros j Hij Hj. pose proof (Hrow j ltac:(lia) Hj) as E1. rewrite dlt_neq in E1 by lia.
    destruct (Hint _ _ E1) as [E2|E2]; [|exact E2]. exfalso. apply Hne. rewrite <- (conj_conj R (me r i i)), E2. apply conj_0. }
  set (c := fun a => sum (mc A) (fun x => sconj (me Q x a) * w x)).
  assert (Hc0 : forall a, (a < mr A)%nat -> c a = 0).
  { induction a as [a IH] using lt_wf_ind. intros Ha. pose proof (HA a 0 Ha w eq_refl) as E1. rewrite (Hker a Ha) in E1. fold (c a) in E1.
    rewrite (sum_upto (mr A) a) in E1; [|exact Ha|intros b Hb Hb'; rewrite T by lia; rewrite conj_0; ring].
    rewrite sum_zero in E1. 2:{ intros b Hb. change (sconj (me r b a) * c b = 0). rewrite (IH b Hb) by lia. ring. }
    assert (E2 : sconj (me r a a) * c a = 0) by (rewrite E1; unfold c; ring).
    destruct (Hint _ _ E2) as [E3|E3]; [|exact E3]. exfalso. apply (proj1 (Htri a Ha)). rewrite <- (conj_conj R (me r a a)), E3. apply conj_0. }
  intros j Hj. transitivity (sum (mc Q) (fun a => me Q j a * c a)).
  { unfold c. rewrite (sum_ext _ _ (fun a => sum (mc A) (fun x => me Q j a * sconj (me Q x a) * w x))).
    2:{ intros a _. rewrite <- sum_mul_l. apply sum_ext. intros x _. ring. }
    rewrite sum_swap. rewrite (sum_single _ j); [|exact Hj|].
    - rewrite sum_mul_r, Ur, dlt_eq by lia. ring.
    - intros x Hx Hne. rewrite sum_mul_r, Ur, dlt_neq by (lia || congruence). ring. }
  replace (mc Q) with (mr A + (mc Q - mr A))%nat by lia. rewrite sum_split. rewrite (sum_zero (mr A)).
  - replace (mr A + (mc Q - mr A) - mr A)%nat with (mc Q - mr A)%nat by lia. unfold c. ring.
  - intros a Ha. rewrite Hc0 by exact Ha. ring.
Qed.

(** * rotate_to_hermitian *)
Lemma rotate_ok (h r : mat R) (ph : R) w r' : @integral R -> hermitian h -> ph * sconj ph = 1 -> me h 0%nat 0%nat <> 0 ->
  mr r = mr h -> mc r = mc h -> (forall i j, i < mr h -> j < mr h -> me r i j = ph * me h i j) ->
  rotate_to_hermitian O r = Ok (w, r') ->
  exists s, (s = 1 \/ s = - (1)) /\ w = s * ph /\ hermitian r' /\ mr r' = mr h /\
    (forall i j, i < mr h -> j < mr h -> me r' i j = s * me h i j) /\
    (forall i j, i < mr h -> j < mr h -> me r i j = w * me r' i j).
Proof.
  intros Hint (Hsq & Hh) Hph H0 D1 D2 Hr E. unfold rotate_to_hermitian in E.
  destruct (Nat.ltb_spec 0 (mr r)) as [L1|]; [|discriminate]. destruct (Nat.ltb_spec 0 (mc r)) as [L2|]; [|discriminate]. cbn [andb] in E.
  destruct (de_quot O (sconj (me r 0%nat 0%nat)) (me r 0%nat 0%nat)) as [x|] eqn:Eq; [|discriminate].
  destruct (de_sqrt O x) as [v|] eqn:Es; [|discriminate]. injection E as <- <-.
  destruct HO as (_ & _ & _ & _ & _ & _ & Hquot & Hsqrt). apply Hquot in Eq. apply Hsqrt in Es.
  assert (Hr0 : sconj (me h 0%nat 0%nat) = me h 0%nat 0%nat) by (symmetry; apply Hh; lia).
  rewrite (Hr 0%nat 0%nat) in Eq by lia. rewrite conj_mul, Hr0 in Eq.
  assert (Ev : v * v * ph = sconj ph).
  { assert (E : me h 0%nat 0%nat * (v * v * ph - sconj ph) = 0) by (rewrite Es; transitivity (x * (ph * me h 0%nat 0%nat) - sconj ph * me h 0%nat 0%nat); [ring|rewrite Eq; ring]).
    destruct (Hint _ _ E) as [|E']; [contradiction|]. transitivity (v * v * ph - sconj ph + sconj ph); [ring|rewrite E'; ring]. }
  assert (Es1 : (v * ph - 1) * (v * ph + 1) = 0).
  { transitivity (v * v * ph * ph - 1); [ring|]. rewrite Ev. transitivity (ph * sconj ph - 1); [ring|]. rewrite Hph. ring. }
  assert (Hs : exists s : R, (s = 1 \/ s = - (1)) /\ v * ph = s).
  { destruct (Hint _ _ Es1) as [E|E].
    - exists 1. split; [now left|]. transitivity (v * ph - 1 + 1); [ring|rewrite E; ring].
    - exists (- (1)). split; [now right|]. transitivity (v * ph + 1 - 1); [ring|rewrite E; ring]. }
  destruct Hs as (s & Hs & Evs). exists s. split; [exact Hs|].
  assert (Hss : s * s = 1) by (destruct Hs; subst s; ring).
  assert (Hsc : sconj s = s) by (destruct Hs as [->| ->]; rewrite ?conj_opp, conj_1; reflexivity).
  assert (Ew : sconj v = s * ph).
  { transitivity (sconj v * sconj ph * ph); [transitivity (sconj v * (ph * sconj ph)); [rewrite Hph; ring|ring]|].
    rewrite <- conj_mul, Evs, Hsc. reflexivity. }
  assert (Hval : forall i j, i < mr h -> j < mr h -> me r i j * v = s * me h i j).
  { intros i j Hi Hj. rewrite Hr by lia. rewrite <- Evs. ring. }
  split; [exact Ew|]. split; [|split; [cbn; exact D1|split]].
  - split; [cbn; congruence|]. cbn [mr mc me]. intros i j Hi Hj. rewrite D1 in Hi, Hj. rewrite !Hval by lia. rewrite conj_mul, Hsc, Hh by lia. reflexivity.
  - intros i j Hi Hj. cbn. now apply Hval.
  - intros i j Hi Hj. cbn [me]. rewrite Hval by lia. rewrite Ew, Hr by lia. transitivity (s * s * (ph * me h i j)); [rewrite Hss; ring|ring].
Qed.
End Or.
End Proof.
