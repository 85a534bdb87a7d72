(** random and isometries on two sites *)
From Coq Require Import ZArith.
From Verif Require Import Alg ModelMPS SpecMPS ProofMPS ProofMPS2 ModelOrth SpecOrth ModelCanon ModelNcon ModelEk SpecEk ProofEk6 ModelStruct SpecStruct ProofStruct ProofPad ModelTwo ProofTwo ModelRest SpecRest ProofRest ProofRest2.

Section Random.
Context {R : sring}.
Local Open Scope sr_scope.
Add Ring Rr : (s_th R).

Lemma bond_pos L d D k : (1 <= d)%nat -> (1 <= D)%nat -> (1 <= bond L d D k)%nat.
Proof. intros Hd HD. unfold bond. assert (d ^ Nat.min k (L - k) <> 0)%nat by (apply Nat.pow_nonzero; lia). lia. Qed.

Lemma draws_nth (G : rng) real d (st : list (nat * nat)) k : (k < length st)%nat ->
  nth_error (map (fun ks => draw_site (R := R) G real d (fst ks) (snd ks)) (combine (seq 0 (length st)) st)) k = Some (draw_site G real d k (nth k st (0, 0)%nat)).
Proof.
  intros Hk. rewrite nth_error_map. assert (E : nth_error (combine (seq 0 (length st)) st) k = Some (k, nth k st (0, 0)%nat)).
  { rewrite (nth_error_nth' _ (0, (0, 0))%nat) by (rewrite combine_length, seq_length; lia). f_equal.
    rewrite combine_nth by apply seq_length. rewrite seq_nth by exact Hk. reflexivity. }
  rewrite E. reflexivity.
Qed.

Lemma draws_st (G : rng) real d (st : list (nat * nat)) : forall a,
  st_of (map (fun ks => draw_site (R := R) G real d (fst ks) (snd ks)) (combine (seq a (length st)) st)) = st.
Proof.
  unfold st_of. induction st as [|[x y] st IH]; intros a; [reflexivity|]. cbn [length seq combine map draw_site dl dr fst snd]. f_equal. apply IH.
Qed.

Theorem random_spec (G : rng) (m : fmps R) L d D real : (2 <= L)%nat -> (1 <= d)%nat -> (2 <= D)%nat ->
  exists m', random G m L d D real = Ok m' /\ wf m' /\ uniform m' /\ fL m' = L /\ fd m' = d /\
    fcan m' = Some false /\ forth m' = Some false /\ foc m' = foc m /\ fnorm m' = fnorm m /\
    (forall k, (k < L)%nat -> exists A, nth_error (fdata m') k = Some A /\ dl A = bond L d D k /\ dr A = bond L d D (k + 1) /\
       forall s i j, ent A s i j = if real then rn_re G k s i j else rn_re G k s i j + rn_i G * rn_im G k s i j) /\
    (forall k, (k <= L)%nat -> (bond L d D k <= fD m')%nat) /\ (exists k, (k <= L)%nat /\ bond L d D k = fD m').
Proof.
  intros HL Hd HD. unfold random. destruct (Nat.eqb_spec D 1); [lia|].
  destruct (create_structure_spec L d D (or_introl HL)) as (st & E & Hlen & Hn). rewrite E. cbn [bind].
  destruct (create_structure_chain L d D st ltac:(lia) HL E) as [Hsc _].
  assert (Hst : st <> []) by (intros ->; cbn in Hlen; lia).
  destruct st as [|s0 st0] eqn:Es; [congruence|]. rewrite <- Es in *. clear Es s0 st0.
  eexists. split; [reflexivity|]. cbn [fdata fL fd fD fcan forth foc fnorm].
  split; [|split; [|split; [reflexivity|split; [reflexivity|split; [reflexivity|split; [reflexivity|split; [reflexivity|split; [reflexivity|split; [|split]]]]]]]]].
  - split; [|split]; cbn [fdata fL].
    + apply chain_stchain. rewrite draws_st. exact Hsc.
    + rewrite map_length, combine_length, seq_length. lia.
    + intros K. apply (f_equal (@length _)) in K. rewrite map_length, combine_length, seq_length in K. cbn in K. lia.
  - unfold uniform. cbn [fdata fd]. rewrite Forall_map, Forall_forall. intros [k sh] _. reflexivity.
  - intros k Hk. eexists. split; [apply draws_nth; lia|]. cbn [draw_site dl dr ent]. rewrite (Hn k Hk). cbn [fst snd].
    split; [reflexivity|]. split; [reflexivity|]. intros s i j. destruct real; ring.
  - assert (Hle : Forall (fun x => (x <= list_max (map snd st))%nat) (map snd st)) by (apply list_max_le; lia).
    rewrite Forall_map, Forall_forall in Hle. intros k Hk. destruct k as [|k].
    + assert (E0 : bond L d D 0 = 1%nat) by (unfold bond; rewrite Nat.min_0_l, Nat.pow_0_r; lia). rewrite E0.
      specialize (Hle (nth 0 st (0, 0)%nat) ltac:(apply nth_In; lia)). rewrite (Hn 0%nat ltac:(lia)) in Hle. cbn [snd] in Hle.
      pose proof (bond_pos L d D (0 + 1) Hd ltac:(lia)). lia.
    + specialize (Hle (nth k st (0, 0)%nat) ltac:(apply nth_In; lia)). rewrite (Hn k ltac:(lia)) in Hle. cbn [snd] in Hle.
      rewrite Nat.add_1_r in Hle. exact Hle.
  - assert (Hin : In (list_max (map snd st)) (map snd st)).
    { clear -Hst. destruct st as [|x st]; [congruence|]. clear Hst. revert x. induction st as [|y st IH]; intros x; cbn [map list_max fold_right].
      - left. lia.
      - specialize (IH y). cbn [map list_max fold_right] in IH. destruct (Nat.max_spec (snd x) (Nat.max (snd y) (fold_right Nat.max 0%nat (map snd st)))) as [[_ ->]|[_ ->]]; [right; exact IH|left; reflexivity]. }
    apply in_map_iff in Hin as ([u v] & Ev & Hin). cbn [snd] in Ev. apply (In_nth _ _ (0, 0)%nat) in Hin as (k & Hk & Ek).
    rewrite Hn in Ek by lia. injection Ek as E1 E2. exists (k + 1)%nat. split; [lia|]. rewrite E2. exact Ev.
Qed.

Lemma random_one (G : rng) (m : fmps R) d D real : D <> 1%nat -> random G m 1 d D real = Err IndexError.
Proof. intros H. unfold random. destruct (Nat.eqb_spec D 1); [contradiction|]. rewrite create_structure_one. reflexivity. Qed.

Theorem random_product (G : rng) (m : fmps R) L d real : rng_ok G -> (1 <= L)%nat ->
  exists m', random G m L d 1 real = Ok m' /\ wf m' /\ fL m' = L /\ fd m' = d /\ fD m' = 1%nat /\
    dims (fdata m') = repeat 2%nat L /\ Forall flat (fdata m') /\ fcan m' = fcan m /\ forth m' = forth m /\ foc m' = foc m /\
    inner (dims (fdata m')) (psi m') (psi m') = 1.
Proof.
  intros HG HL. unfold random. cbn [Nat.eqb]. eexists. split; [reflexivity|]. cbn [fL fd fD fcan forth foc fdata].
  set (l := map (spin_site G real) (seq 0 L)).
  assert (Fl : Forall flat l) by (unfold l; rewrite Forall_map, Forall_forall; intros; split; reflexivity).
  split. { split; [apply flat_chain, Fl|]. cbn [fL fdata]. unfold l. split; [now rewrite map_length, seq_length|]. destruct L; [lia|discriminate]. }
  split; [reflexivity|]. split; [reflexivity|]. split; [reflexivity|].
  split. { assert (H : forall n a, dims (map (spin_site G real) (seq a n)) = repeat 2%nat n) by (induction n as [|n IH]; intros a; [reflexivity|]; cbn [seq map dims repeat spin_site phys]; f_equal; apply IH). apply H. }
  split; [exact Fl|]. split; [reflexivity|]. split; [reflexivity|]. split; [reflexivity|].
  unfold inner, psi. cbn [fdata]. rewrite (flat_norm l Fl). unfold l. enough (H : forall n a, prodl (map site_norm (map (spin_site G real) (seq a n))) = 1) by apply H. clear -HG.
  induction n as [|n IH]; intros a; cbn [seq map]; [reflexivity|]. change (prodl (?x :: ?y)) with (x * prodl y). rewrite IH.
  unfold site_norm. cbn [spin_site phys sum ent]. destruct (HG a) as (H1 & H2 & H3 & H4). rewrite conj_mul, H1, H2.
  destruct real.
  - rewrite conj_1. etransitivity; [|exact H3]. ring.
  - transitivity (rn_cos G a * rn_cos G a + (rn_phase G a * sconj (rn_phase G a)) * (rn_sin G a * rn_sin G a)); [ring|]. rewrite H4. etransitivity; [|exact H3]. ring.
Qed.

(** apply_two_site_isometry on neighbouring sites *)
Lemma apply_isometry_ok (A B : site R) (op : mat R) : dr A = dl B -> mc op = (phys A * phys B)%nat ->
  exists G, apply_isometry A B op = Ok G /\ phys G = mr op /\ dl G = dl A /\ dr G = dr B /\
    forall x i j, ent G x i j = sum (phys A) (fun y => sum (phys B) (fun z => me op x (y * phys B + z) *
      sum (dr A) (fun k => ent A y i k * ent B z k j))).
Proof.
  intros H1 H2. unfold apply_isometry, group_tensors, gate_site, op_site. rewrite H1, Nat.eqb_refl. cbn [bind phys]. rewrite H2, Nat.eqb_refl.
  eexists. split; [reflexivity|]. cbn [phys dl dr ent]. split; [reflexivity|]. split; [reflexivity|]. split; [reflexivity|].
  intros x i j. rewrite sum_mul. apply sum_ext; intros y Hy. apply sum_ext; intros z Hz.
  rewrite (Nat.div_add_l y (phys B) z) by lia. rewrite (Nat.div_small z) by lia. rewrite Nat.add_0_r.
  rewrite (Nat.add_comm _ z), Nat.mod_add, Nat.mod_small by lia. rewrite (Nat.add_comm z). reflexivity.
Qed.

Theorem isometry_spec (O : lapack2 R) (P : lapack R) (m : fmps R) (op : mat R) l1 A B l2 lr (a0 z0 : nat) :
  fdata m = l1 ++ A :: B :: l2 -> chain a0 (fdata m) z0 -> mc op = (phys A * phys B)%nat ->
  exists m' G, apply_two_site_isometry O P m op (length l1) (length l1 + 1) lr = Ok m' /\
    apply_two_site_isometry O P m op (length l1 + 1) (length l1) lr = Ok m' /\
    fdata m' = (if lr then l1 ++ A :: G :: l2 else l1 ++ G :: B :: l2) /\
    phys G = mr op /\ dl G = dl A /\ dr G = dr B /\
    (forall u x v i j, length u = length l1 -> (i < a0)%nat ->
      amp (l1 ++ G :: l2) (u ++ x :: v) i j =
      sum (phys A) (fun y => sum (phys B) (fun z => me op x (y * phys B + z) * amp (fdata m) (u ++ y :: z :: v) i j))) /\
    (chain a0 (fdata m') z0 <-> dr A = if lr then dl A else dr B).
Proof.
  intros Ef Hc Hop. rewrite Ef in Hc. apply chain_app in Hc as (b & C1 & C2). destruct C2 as (HA & HB & C2).
  assert (HAB : dr A = dl B) by congruence.
  destruct (apply_isometry_ok A B op HAB Hop) as (G & EG & G1 & G2 & G3 & VG).
  assert (RUN : forall data, data = l1 ++ A :: B :: l2 ->
    (do A <- getitem data (length l1); do B <- getitem data (length l1 + 1); do G <- apply_isometry A B op;
     do data <- setitem data (if lr then length l1 + 1 else length l1)%nat G; Ok data) =
    Ok (if lr then l1 ++ A :: G :: l2 else l1 ++ G :: B :: l2)).
  { intros data ->. unfold getitem. rewrite nth_error_app2, Nat.sub_diag by lia. cbn [nth_error bind].
    rewrite nth_error_app2 by lia. replace (length l1 + 1 - length l1)%nat with 1%nat by lia. cbn [nth_error bind]. rewrite EG. cbn [bind].
    destruct lr.
    - replace (l1 ++ A :: B :: l2) with ((l1 ++ [A]) ++ B :: l2) by (rewrite <- app_assoc; reflexivity).
      replace (length l1 + 1)%nat with (length (l1 ++ [A])) by (rewrite app_length; reflexivity). rewrite setitem_app. cbn [bind]. rewrite <- app_assoc. reflexivity.
    - rewrite setitem_app. reflexivity. }
  exists (with_data m (if lr then l1 ++ A :: G :: l2 else l1 ++ G :: B :: l2)), G.
  assert (RUN2 : apply_two_site_isometry O P m op (length l1) (length l1 + 1) lr = Ok (with_data m (if lr then l1 ++ A :: G :: l2 else l1 ++ G :: B :: l2))).
  { unfold apply_two_site_isometry. destruct (Nat.eqb_spec (length l1) (length l1 + 1)); [lia|]. destruct (Nat.ltb_spec (length l1) (length l1 + 1)); [|lia].
    replace (length l1 + 1 - 1 - length l1)%nat with 0%nat by lia. cbn [seq rev gates_at bind]. specialize (RUN (fdata m) Ef).
    destruct (getitem (fdata m) (length l1)) as [X|]; [|discriminate]. cbn [bind] in *. destruct (getitem (fdata m) (length l1 + 1)) as [Y|]; [|discriminate]. cbn [bind] in *.
    destruct (apply_isometry X Y op) as [Z|]; [|discriminate]. cbn [bind] in *. destruct (setitem (fdata m) (if lr then length l1 + 1 else length l1)%nat Z) as [W|]; [|discriminate]. cbn [bind] in *. injection RUN as ->. reflexivity. }
  split; [exact RUN2|]. split.
  { rewrite <- RUN2. unfold apply_two_site_isometry. destruct (Nat.eqb_spec (length l1) (length l1 + 1)); [lia|]. destruct (Nat.eqb_spec (length l1 + 1) (length l1)); [lia|].
    destruct (Nat.ltb_spec (length l1) (length l1 + 1)); [|lia]. destruct (Nat.ltb_spec (length l1 + 1) (length l1)); [lia|]. reflexivity. }
  split; [reflexivity|]. split; [exact G1|]. split; [exact G2|]. split; [exact G3|]. split.
  - intros u x v i j Hu Hi. rewrite Ef. rewrite (amp_app l1 _ u _ i b a0 Hu C1 Hi).
    rewrite (sum_ext (phys A) _ (fun y => sum b (fun q => sum (phys B) (fun z => me op x (y * phys B + z) * (amp l1 u i q * amp (A :: B :: l2) (y :: z :: v) q j))))).
    2: { intros y _. rewrite sum_swap. apply sum_ext; intros z _. rewrite (amp_app l1 _ u _ i b a0 Hu C1 Hi). now rewrite <- sum_mul_l. }
    rewrite sum_swap. apply sum_ext; intros q _. cbn [amp]. rewrite G3.
    transitivity (amp l1 u i q * sum (phys A) (fun y => sum (phys B) (fun z => me op x (y * phys B + z) * sum (dr A) (fun k => ent A y q k * sum (dr B) (fun w => ent B z k w * amp l2 v w j))))).
    + f_equal. rewrite (sum_ext (dr B) _ (fun w => sum (phys A) (fun y => sum (phys B) (fun z => me op x (y * phys B + z) * sum (dr A) (fun k => ent A y q k * (ent B z k w * amp l2 v w j)))))).
      2: { intros w _. rewrite VG, <- sum_mul_r. apply sum_ext; intros y _. rewrite <- sum_mul_r. apply sum_ext; intros z _.
           rewrite <- !sum_mul_l, <- sum_mul_r. apply sum_ext; intros k _. ring. }
      rewrite sum_swap. apply sum_ext; intros y _. rewrite sum_swap. apply sum_ext; intros z _. rewrite sum_mul_l. f_equal.
      rewrite sum_swap. apply sum_ext; intros k _. now rewrite sum_mul_l.
    + rewrite <- sum_mul_l. apply sum_ext; intros y _. rewrite <- sum_mul_l. apply sum_ext; intros z _. ring.
  - cbn [with_data fdata]. destruct lr.
    + rewrite chain_app. split.
      * intros (c & Q1 & Q2 & Q3 & Q4). rewrite G2 in Q3. congruence.
      * intros Q. exists b. split; [exact C1|]. cbn [chain]. rewrite G2, G3. split; [exact HA|]. split; [congruence|exact C2].
    + rewrite chain_app. split.
      * intros (c & Q1 & Q2 & Q3 & Q4). rewrite G3 in Q3. congruence.
      * intros Q. exists b. split; [exact C1|]. cbn [chain]. rewrite G2, G3. split; [exact HA|]. split; [congruence|exact C2].
Qed.

Lemma isometry_same (O : lapack2 R) (P : lapack R) (m : fmps R) (op : mat R) k lr : apply_two_site_isometry O P m op k k lr = Err AssertionError.
Proof. unfold apply_two_site_isometry. now rewrite Nat.eqb_refl. Qed.
End Random.
