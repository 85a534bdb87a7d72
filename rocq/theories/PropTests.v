(** C51: the predicates of tests.py. *)
From Coq Require Import QArith Qcanon Qabs.
From Verif Require Import Alg QScalars Oracle ModelMPS SpecMPS ModelTests SpecTests ProofTests.
Local Open Scope nat_scope.
Local Open Scope sr_scope.

(** With tolerances below 1, a positive answer means that every entry of
    sum_s A_s A_s^dagger differs from the identity by less than z or by at most c; and the
    answer is positive if all differ by less than z (for z at most 1/2). *)
Theorem C51_is_right_canonical : forall (R : sring) (V : absval R) (c z : av V) (mats : list (site R)), absval_ok V ->
  (avle V z (avabs V 1) = true -> avlt V c (avabs V 1) = true -> is_right_canonical V c z mats = true ->
   forall A i j, In A mats -> (i < dl A)%nat -> (j < dl A)%nat ->
     avlt V (avabs V (right_defect A i j)) z = true \/ avle V (avabs V (right_defect A i j)) c = true) /\
  (avle V (avadd V z z) (avabs V 1) = true -> avle V (av0 V) c = true ->
   (forall A i j, In A mats -> (i < dl A)%nat -> (j < dl A)%nat -> avlt V (avabs V (right_defect A i j)) z = true) ->
   is_right_canonical V c z mats = true).
Proof. intros R V c z mats HV. exact (conj (right_sound V HV z c mats) (right_complete V HV z c mats)). Qed.
Print Assumptions C51_is_right_canonical.

Theorem C51_is_left_canonical : forall (R : sring) (V : absval R) (c z : av V) (mats : list (site R)), absval_ok V ->
  (avle V z (avabs V 1) = true -> avlt V c (avabs V 1) = true -> is_left_canonical V c z mats = true ->
   forall A i j, In A mats -> (i < dr A)%nat -> (j < dr A)%nat ->
     avlt V (avabs V (left_defect A i j)) z = true \/ avle V (avabs V (left_defect A i j)) c = true) /\
  (avle V (avadd V z z) (avabs V 1) = true -> avle V (av0 V) c = true ->
   (forall A i j, In A mats -> (i < dr A)%nat -> (j < dr A)%nat -> avlt V (avabs V (left_defect A i j)) z = true) ->
   is_left_canonical V c z mats = true).
Proof. intros R V c z mats HV. exact (conj (left_sound V HV z c mats) (left_complete V HV z c mats)). Qed.
Print Assumptions C51_is_left_canonical.

(** The environment predicates: the condition on every site but the last one. *)
Theorem C51_is_right_env_canonical : forall (R : sring) (close : R -> R -> bool) (mats : list (site R)) (sings : list (mat R)),
  (forall i A L, nth_error mats i = Some A -> nth_error sings i = Some L -> mr L = dl A /\ mc L = dl A) ->
  (forall i A L, nth_error mats i = Some A -> nth_error sings (S i) = Some L -> mr L = dr A /\ mc L = dr A) ->
  exists b, is_right_env_canonical close mats sings = Ok b /\
    (b = true <-> forall i A L L', (S i < length mats)%nat -> nth_error mats i = Some A -> nth_error sings i = Some L -> nth_error sings (S i) = Some L' ->
       forall a a', (a < dr A)%nat -> (a' < dr A)%nat -> close (env_right A L a a') (me L' a a') = true).
Proof. intros R close. exact (right_env_ok close). Qed.
Print Assumptions C51_is_right_env_canonical.

Theorem C51_is_left_env_canonical : forall (R : sring) (close : R -> R -> bool) (mats : list (site R)) (sings : list (mat R)),
  (forall i A L, nth_error mats i = Some A -> nth_error sings i = Some L -> mr L = dl A /\ mc L = dl A) ->
  (forall i A L, nth_error mats i = Some A -> nth_error sings (S i) = Some L -> mr L = dr A /\ mc L = dr A) ->
  exists b, is_left_env_canonical close mats sings = Ok b /\
    (b = true <-> forall i A L L', (S i < length mats)%nat -> (S (S i) < length sings)%nat ->
       nth_error mats i = Some A -> nth_error sings i = Some L -> nth_error sings (S i) = Some L' ->
       forall a a', (a < dl A)%nat -> (a' < dl A)%nat -> close (env_left A L' a a') (me L a a') = true).
Proof. intros R close. exact (left_env_ok close). Qed.
Print Assumptions C51_is_left_env_canonical.

Theorem C51_is_full_rank : forall (R : sring) (iszero : R -> bool) (sings : list (mat R)), (forall x, iszero x = true <-> x = 0) ->
  (is_full_rank iszero sings = true <-> forall M i, In M sings -> (i < Nat.min (mr M) (mc M))%nat -> me M i i <> 0).
Proof. intros R. exact full_rank_ok. Qed.
Print Assumptions C51_is_full_rank.

Theorem C51_has_trace_1 : forall (R : sring) (close : R -> R -> bool) (sings : list (mat R)), (forall x, close x 0 = true <-> x = 0) ->
  (has_trace_1 close sings = true <-> forall M, In M sings -> sum (Nat.min (mr M) (mc M)) (fun i => me M i i) = 1).
Proof. intros R. exact trace_1_ok. Qed.
Print Assumptions C51_has_trace_1.

(** * Example: absolute values |re| + |im| over the Gaussian rationals *)
Definition qabs (x : Qi) : Qc := Q2Qc (Qabs (this (fst x)) + Qabs (this (snd x))).
Definition qV : absval Qi := mkAbs Qi Qc (Q2Qc 0) Qcplus (fun a b => Qle_bool (this a) (this b)) qabs.

Lemma qV_ok : absval_ok qV.
Proof.
  unfold absval_ok, avlt. cbn [qV av av0 avadd avle avabs].
  assert (P : forall a b : Qc, this (a + b)%Qc == this a + this b) by (intros a b; exact (Qred_correct (this a + this b))).
  assert (N : forall a b : Qc, negb (Qle_bool (this b) (this a)) = true <-> (this a < this b)%Q).
  { intros a b. destruct (Qle_bool (this b) (this a)) eqn:E; cbn.
    - apply Qle_bool_iff in E. split; [discriminate|]. intros H. apply Qlt_not_le in H. contradiction.
    - split; [|reflexivity]. intros _. apply Qnot_le_lt. intros H. apply Qle_bool_iff in H. congruence. }
  repeat split.
  - intros a. apply Qle_bool_iff, Qle_refl.
  - intros a b c. rewrite !Qle_bool_iff. apply Qle_trans.
  - intros a b. rewrite !Qle_bool_iff. destruct (Qlt_le_dec (this a) (this b)); [left; now apply Qlt_le_weak|now right].
  - intros a b. rewrite !Qle_bool_iff, P. intros H. rewrite <- (Qplus_0_r (this a)) at 1. apply Qplus_le_r. exact H.
  - intros a b. rewrite !Qle_bool_iff, P. intros H. rewrite <- (Qplus_0_l (this a)) at 1. apply Qplus_le_l. exact H.
  - intros a b c d. rewrite !N, !P. intros. now apply Qplus_lt_le_compat; [|apply Qlt_le_weak].
  - intros x. rewrite Qle_bool_iff. unfold qabs. cbn [this Q2Qc]. rewrite !Qred_correct. apply (Qplus_le_compat 0 _ 0); apply Qabs_nonneg.
  - intros [x y]. unfold qabs. f_equal. change (fst (@sopp Qi (x, y))) with (- x)%Qc. change (snd (@sopp Qi (x, y))) with (- y)%Qc.
    assert (O : forall q : Qc, Qabs (this (- q)%Qc) = Qabs (this q)).
    { intros [[n d] Hq]. cbn [this Qcopp Q2Qc]. assert (E : Qred (- (n # d)) = (- (n # d))%Q).
      { transitivity (- Qred (n # d))%Q; [apply Qred_opp|]. now rewrite Hq. }
      rewrite E. cbn. now rewrite Z.abs_opp. }
    now rewrite !O.
  - intros [x y] [u v]. rewrite Qle_bool_iff, P. unfold qabs. change (fst (@sadd Qi (x, y) (u, v))) with (x + u)%Qc. change (snd (@sadd Qi (x, y) (u, v))) with (y + v)%Qc. cbn [fst snd].
    assert (T : forall q, this (Q2Qc q) == q) by (intros q; exact (Qred_correct q)). rewrite !T, !P.
    setoid_replace (Qabs x + Qabs y + (Qabs u + Qabs v))%Q with (Qabs x + Qabs u + (Qabs y + Qabs v))%Q by ring.
    apply Qplus_le_compat; apply Qabs_triangle.
Qed.

Definition qr (l : list Q) : list Qi := map (fun x => qi x 0) l.
(** A right canonical chain of two sites, and one that is not. *)
Definition tA : site Qi := qsite 2 1 2 (qr [3 # 5; 0; 0; 4 # 5]%Q).
Definition tB : site Qi := qsite 2 2 1 (qr [1; 0; 0; 1]%Q).
Example C51_example : is_right_canonical qV (Q2Qc (1 # 100)) (Q2Qc (1 # 100)) [tA; tB] = true /\
  is_left_canonical qV (Q2Qc (1 # 100)) (Q2Qc (1 # 100)) [tA; tB] = false /\ is_right_canonical qV (Q2Qc (1 # 100)) (Q2Qc (1 # 100)) [] = true.
Proof. split; [|split]; vm_compute; reflexivity. Qed.

(** diag(9, 16)/25 is the environment behind the first site; the last site is not looked
    at: a wrong final environment (5 instead of 1) passes both tests. *)
Definition tL (x : Q) : list (mat Qi) := [qmat 1 1 (qr [1%Q]%Q); qmat 2 2 (qr [9 # 25; 0; 0; 16 # 25]%Q); qmat 1 1 (qr [x]%Q)].
Theorem C51_last_site_refuted : exists (mats : list (site Qi)) (good bad : list (mat Qi)) (A : site Qi) (L L' : mat Qi),
  is_right_env_canonical Qi_eqb mats good = Ok true /\ is_right_env_canonical Qi_eqb mats bad = Ok true /\
  nth_error mats 1 = Some A /\ nth_error bad 1 = Some L /\ nth_error bad 2 = Some L' /\ env_right A L 0 0 <> me L' 0%nat 0%nat.
Proof.
  exists [tA; tB], (tL 1), (tL 5), tB, (qmat 2 2 (qr [9 # 25; 0; 0; 16 # 25]%Q)), (qmat 1 1 (qr [5%Q]%Q)).
  split; [vm_compute; reflexivity|]. split; [vm_compute; reflexivity|]. split; [reflexivity|]. split; [reflexivity|]. split; [reflexivity|].
  intros E. apply (f_equal (fun x => Qi_eqb x (qi 5 0))) in E. vm_compute in E. discriminate.
Qed.
Print Assumptions C51_last_site_refuted.

(** And the first bond is looked at. *)
Example C51_env_example : is_right_env_canonical Qi_eqb [tA; tB] [qmat 1 1 (qr [1%Q]%Q); qmat 2 2 (qr [1%Q; 0; 0; 1%Q]%Q); qmat 1 1 (qr [1%Q]%Q)] = Ok false.
Proof. vm_compute. reflexivity. Qed.
