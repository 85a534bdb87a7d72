(** SVD and eigenvalue oracles over the Gaussian rationals: finite tables of
    checked candidates.  No counterpart in /repo. *)
From Coq Require Import QArith Qcanon.
From Verif Require Import Alg QScalars ModelMPS SpecMPS ModelOrth SpecOrth ModelCanon SpecCanon Oracle.
Local Open Scope nat_scope.

Lemma Qi_eqb_refl x : Qi_eqb x x = true.
Proof. unfold Qi_eqb. destruct x; simpl. rewrite !Qeq_bool_refl. reflexivity. Qed.

Lemma Qi_eqb_iff x y : Qi_eqb x y = true <-> x = y.
Proof. split; [apply Qi_eqb_eq|]. intros ->. apply Qi_eqb_refl. Qed.

Lemma Qcsq_nonneg (a : Qc) : (0 <= a * a)%Qc.
Proof.
  destruct (Qclt_le_dec a 0) as [H|H].
  - replace (a * a)%Qc with ((- a) * (- a))%Qc by ring.
    assert (Ha : (0 <= - a)%Qc).
    { apply Qclt_le_weak. replace (- a)%Qc with (0 + - a)%Qc by ring. apply (proj1 (Qclt_minus_iff a 0)), H. }
    replace 0%Qc with (0 * (- a))%Qc by ring. apply Qcmult_le_compat_r; assumption.
  - replace 0%Qc with (0 * a)%Qc by ring. apply Qcmult_le_compat_r; assumption.
Qed.

Lemma Qcadd_nonneg a b : (0 <= a -> 0 <= b -> 0 <= a + b)%Qc.
Proof. intros Ha Hb. replace 0%Qc with (0 + 0)%Qc by ring. apply Qcplus_le_compat; assumption. Qed.

Lemma Qcadd_zero a b : (0 <= a -> 0 <= b -> a + b = 0 -> a = 0)%Qc.
Proof.
  intros Ha Hb H. apply Qcle_antisym; [|exact Ha]. rewrite <- H.
  replace a with (a + 0)%Qc at 1 by ring. apply Qcplus_le_compat; [apply Qcle_refl|exact Hb].
Qed.

Lemma Qi_abs2 (z : Qi) : fst (smul z (sconj z)) = (fst z * fst z + snd z * snd z)%Qc.
Proof. destruct z as [a b]. cbn. ring. Qed.

Lemma Qi_abs2_zero (z : Qi) : (fst z * fst z + snd z * snd z = 0)%Qc -> z = s0.
Proof.
  intros H.
  assert (H1 : (fst z * fst z = 0)%Qc) by (eapply Qcadd_zero; [| |exact H]; apply Qcsq_nonneg).
  assert (H2 : (snd z * snd z = 0)%Qc).
  { rewrite H1 in H. rewrite <- H. ring. }
  destruct z as [a b]; cbn in *.
  destruct (Qcmult_integral _ _ H1) as [->| ->]; destruct (Qcmult_integral _ _ H2) as [->| ->]; reflexivity.
Qed.

Lemma Qi_fst_sum n (f : nat -> Qi) : fst (sum n (fun i => smul (f i) (sconj (f i)))) =
  (fix go n := match n with O => 0 | Datatypes.S n => go n + (fst (f n) * fst (f n) + snd (f n) * snd (f n)) end)%Qc n.
Proof.
  induction n as [|n IH]; [reflexivity|]. cbn [sum].
  rewrite <- IH. rewrite <- Qi_abs2. reflexivity.
Qed.

Lemma Qi_definite : @definite Qi.
Proof.
  intros n f H. apply (f_equal fst) in H. rewrite Qi_fst_sum in H. cbn [fst s0 Qi pair_sring] in H.
  revert H. induction n as [|n IH]; intros H i Hi; [lia|].
  assert (Hn : forall m, (0 <= (fix go n := match n with O => 0 | Datatypes.S n => go n + (fst (f n) * fst (f n) + snd (f n) * snd (f n)) end) m)%Qc).
  { induction m as [|m IHm]; [apply Qcle_refl|]. apply Qcadd_nonneg; [exact IHm|].
    apply Qcadd_nonneg; apply Qcsq_nonneg. }
  pose proof (Qcadd_zero _ _ (Hn n) (Qcadd_nonneg _ _ (Qcsq_nonneg (fst (f n))) (Qcsq_nonneg (snd (f n)))) H) as H1.
  assert (H2 : (fst (f n) * fst (f n) + snd (f n) * snd (f n) = 0)%Qc).
  { rewrite H1 in H. rewrite <- H. ring. }
  destruct (Nat.eq_dec i n) as [->|]; [apply Qi_abs2_zero, H2|]. apply IH; [exact H1|lia].
Qed.

Lemma Qi_integral : @integral Qi.
Proof.
  intros [a b] [c e] H.
  assert (H1 : ((a * a + b * b) * (c * c + e * e) = 0)%Qc).
  { assert (E1 : fst (smul (s := Qi) (a, b) (c, e)) = 0%Qc) by (rewrite H; reflexivity).
    assert (E2 : snd (smul (s := Qi) (a, b) (c, e)) = 0%Qc) by (rewrite H; reflexivity).
    cbn in E1, E2.
    transitivity ((a * c - b * e) * (a * c - b * e) + (a * e + b * c) * (a * e + b * c))%Qc; [ring|].
    rewrite E1, E2. ring. }
  destruct (Qcmult_integral _ _ H1) as [G|G]; [left|right]; apply Qi_abs2_zero; exact G.
Qed.

Lemma Qi_one_zero : (s1 : Qi) <> s0.
Proof. discriminate. Qed.

(** Boolean contracts. *)
Definition sv_b (k : nat) (Sv : nat -> Qi) : bool :=
  ball k (fun i => Qi_eqb (sconj (Sv i)) (Sv i)) &&
  ball k (fun i => ball k (fun j => negb (Nat.leb i j) || negb (Qi_eqb (Sv i) s0) || Qi_eqb (Sv j) s0)).

Definition iso_b (n k : nat) (U : nat -> nat -> Qi) : bool :=
  ball k (fun i => ball k (fun j => Qi_eqb (sum n (fun a => smul (sconj (U a i)) (U a j))) (dlt i j))).

Definition svd_b (M U : mat Qi) (Sv : nat -> Qi) (V : mat Qi) (ku kv : nat) : bool :=
  let k := Nat.min (mr M) (mc M) in
  Nat.eqb (mr U) (mr M) && Nat.eqb (mc U) ku && Nat.eqb (mr V) kv && Nat.eqb (mc V) (mc M) &&
  sv_b k Sv &&
  ball (mr M) (fun i => ball (mc M) (fun j =>
    Qi_eqb (me M i j) (sum k (fun a => smul (smul (me U i a) (Sv a)) (me V a j))))) &&
  ball ku (fun i => ball ku (fun j => Qi_eqb (sum (mr M) (fun a => smul (sconj (me U a i)) (me U a j))) (dlt i j))) &&
  ball kv (fun i => ball kv (fun j => Qi_eqb (sum (mc M) (fun a => smul (me V i a) (sconj (me V j a)))) (dlt i j))).

Definition eig_b (M V : mat Qi) (Sv : nat -> Qi) : bool :=
  let n := mr M in
  Nat.eqb (mr V) n && Nat.eqb (mc V) n &&
  ball n (fun i => ball n (fun j => Qi_eqb (sum n (fun a => smul (sconj (me V a i)) (me V a j))) (dlt i j))) &&
  ball n (fun i => ball n (fun j => Qi_eqb (sum n (fun a => smul (me V i a) (sconj (me V j a)))) (dlt i j))) &&
  ball n (fun i => Qi_eqb (sconj (Sv i)) (Sv i)) &&
  ball n (fun i => ball n (fun j =>
    Qi_eqb (me M i j) (sum n (fun a => smul (smul (me V i a) (Sv a)) (sconj (me V j a)))))).

Definition zl_b (n : nat) (Sv : nat -> Qi) : bool :=
  ball n (fun i => ball n (fun j => negb (Nat.leb i j) || negb (Qi_eqb (Sv i) s0) || Qi_eqb (Sv j) s0)).

Lemma ball2 n m f : ball n (fun i => ball m (f i)) = true -> forall i j, i < n -> j < m -> f i j = true.
Proof. intros H i j Hi Hj. exact (ball_sound _ _ (ball_sound _ _ H i Hi) j Hj). Qed.

Lemma zl_sound n Sv : zl_b n Sv = true -> forall i j, i <= j -> j < n -> Sv i = s0 -> Sv j = s0.
Proof.
  intros H i j Hij Hj E. assert (Hi : i < n) by lia.
  pose proof (ball2 _ _ _ H i j Hi Hj) as G. cbn beta in G.
  apply Nat.leb_le in Hij. rewrite Hij, E, Qi_eqb_refl in G. apply Qi_eqb_eq, G.
Qed.

Lemma sv_sound k Sv : sv_b k Sv = true -> is_sv k Sv.
Proof.
  unfold sv_b. intros H. ands. split.
  - intros i Hi. apply Qi_eqb_eq. exact (ball_sound _ _ H i Hi).
  - apply zl_sound. assumption.
Qed.

(** The table oracle; [strict] keeps only eigen-decompositions with the zeros last. *)
Definition vals (l : list Qi) : nat -> Qi := fun i => nth i l s0.

Definition oracle2 (strict : bool) (svds svdfs : list (mat Qi * list Qi * mat Qi))
  (eigs : list (mat Qi * list Qi)) : lapack2 Qi :=
  mkLA2
   (fun M => match find (fun c => svd_b M (fst (fst c)) (vals (snd (fst c))) (snd c)
                (Nat.min (mr M) (mc M)) (Nat.min (mr M) (mc M))) svds with
             | Some (U, Sv, V) => Some (U, vals Sv, V) | None => None end)
   (fun M => match find (fun c => svd_b M (fst (fst c)) (vals (snd (fst c))) (snd c)
                (mr M) (mc M)) svdfs with
             | Some (U, Sv, V) => Some (U, vals Sv, V) | None => None end)
   (fun M => match find (fun c => eig_b M (fst c) (vals (snd c)) &&
                 (negb strict || zl_b (mr M) (vals (snd c)))) eigs with
             | Some (V, Sv) => Some (V, vals Sv) | None => None end)
   (fun x => Qi_eqb x s0).

Ltac ateq := repeat match goal with H : Nat.eqb _ _ = true |- _ => apply Nat.eqb_eq in H end.

Lemma oracle2_svd st a b c : svd_ok (oracle2 st a b c).
Proof.
  split; [|split]; cbn [la_svd la_svdf la_is0 oracle2].
  - intros M U Sv V. destruct (find _ _) as [[[U' S'] V']|] eqn:E; [|discriminate].
    intros H; injection H as <- <- <-. apply find_some in E as [_ E]. cbn [fst snd] in E.
    unfold svd_b in E. cbv zeta in E. ands. ateq. unfold is_svd. cbv zeta.
    do 4 (split; [assumption|]). split; [apply sv_sound; assumption|].
    split; [|split]; intros i j Hi Hj; apply Qi_eqb_eq.
    + exact (ball2 _ _ _ H2 i j Hi Hj).
    + exact (ball2 _ _ _ H1 i j Hi Hj).
    + exact (ball2 _ _ _ H0 i j Hi Hj).
  - intros M U Sv V. destruct (find _ _) as [[[U' S'] V']|] eqn:E; [|discriminate].
    intros H; injection H as <- <- <-. apply find_some in E as [_ E]. cbn [fst snd] in E.
    unfold svd_b in E. cbv zeta in E. ands. ateq. unfold is_svdf. cbv zeta.
    do 4 (split; [assumption|]). split; [apply sv_sound; assumption|].
    split; [|split]; intros i j Hi Hj; apply Qi_eqb_eq.
    + exact (ball2 _ _ _ H2 i j Hi Hj).
    + exact (ball2 _ _ _ H1 i j Hi Hj).
    + exact (ball2 _ _ _ H0 i j Hi Hj).
  - intros x. apply Qi_eqb_iff.
Qed.

Lemma oracle2_eig st a b c : eig_ok (oracle2 st a b c).
Proof.
  intros M V Sv. cbn [la_eig oracle2]. destruct (find _ _) as [[V' S']|] eqn:E; [|discriminate].
  intros H; injection H as <- <-. intros _ _. apply find_some in E as [_ E]. cbn [fst snd] in E.
  apply andb_prop in E as [E _]. unfold eig_b in E. cbv zeta in E.
  apply andb_prop in E as [E E1]. apply andb_prop in E as [E E2]. apply andb_prop in E as [E E3].
  apply andb_prop in E as [E E4]. apply andb_prop in E as [E5 E6]. ateq.
  split; [split; [exact E5|]; split; [exact E6|]; split|split].
  - intros i j Hi Hj. apply Qi_eqb_eq. exact (ball2 _ _ _ E4 i j Hi Hj).
  - intros i j Hi Hj. apply Qi_eqb_eq. exact (ball2 _ _ _ E3 i j Hi Hj).
  - intros i Hi. apply Qi_eqb_eq. exact (ball_sound _ _ E2 i Hi).
  - intros i j Hi Hj. apply Qi_eqb_eq. exact (ball2 _ _ _ E1 i j Hi Hj).
Qed.

Lemma oracle2_zl a b c : eig_zeros_last (oracle2 true a b c).
Proof.
  intros M V Sv. cbn [la_eig oracle2]. destruct (find _ _) as [[V' S']|] eqn:E; [|discriminate].
  intros H; injection H as <- <-. apply find_some in E as [_ E]. cbn [fst snd] in E.
  apply andb_prop in E as [_ E]. cbn [negb orb] in E. apply zl_sound. exact E.
Qed.
