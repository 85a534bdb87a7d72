(** The complex numbers over Coq's real numbers: an instance of the scalars in which every
    square root, cosine and inverse that the code uses exists.  Only examples depend on
    this file; it uses the axioms of the standard library's real numbers. *)
From Coq Require Import Reals Lra ZArith.
From Verif Require Import Alg ModelMPS SpecMPS ModelNcon ModelEk ModelTensor ModelDecomp ModelSpin SpecSpin ModelLie SpecLie.

Lemma Rdouble_ (x : R) : Ropp x = x -> x = 0%R.
Proof. intros H. lra. Qed.

(** Complex numbers. *)
Definition Cx : sring := pair_sring R 0%R 1%R Rplus Rmult Rminus Ropp RTheory Rdouble_.
Definition cx (a b : R) : Cx := (a, b).
(** Real numbers as complex numbers. *)
Definition re_ (a : R) : Cx := (a, 0%R).

Lemma cx_eq (x y : Cx) : fst x = fst y -> snd x = snd y -> x = y.
Proof. destruct x, y; cbn; intros -> ->; reflexivity. Qed.

Lemma cre_mul a b : smul (re_ a) (re_ b) = re_ (a * b).
Proof. apply cx_eq; cbn; ring. Qed.
Lemma cre_add a b : sadd (re_ a) (re_ b) = re_ (a + b).
Proof. apply cx_eq; cbn; ring. Qed.
Lemma cre_conj a : sconj (re_ a) = re_ a.
Proof. apply cx_eq; cbn; ring. Qed.
Lemma re_nat k : sofnat k = re_ (INR k).
Proof. induction k; [reflexivity|]. cbn [sofnat]. rewrite IHk, S_INR. apply cx_eq; cbn; ring. Qed.

(** 1/2, i and the square roots. *)
Definition Cconsts : consts Cx := mkConsts (re_ (/ 2)) (cx 0 1) (fun k => re_ (sqrt (INR k))).
(** sqrt(2)/norm(1, ..., 1, -i). *)
Definition Cscale (i : nat) : Cx := re_ (sqrt (2 / (INR i + INR i * INR i))).
Definition Cinv (i : nat) : Cx := re_ (/ INR i).

Lemma Cconsts_ok ks : consts_ok Cconsts ks.
Proof.
  split; [cbn [c_half Cconsts]; rewrite cre_add; apply cx_eq; cbn; lra|].
  split; [apply cre_conj|]. split; [apply cx_eq; cbn; ring|]. split; [apply cx_eq; cbn; ring|].
  intros k _. cbn [c_sqrt Cconsts]. rewrite cre_mul, sqrt_sqrt by apply pos_INR. split; [symmetry; apply re_nat|apply cre_conj].
Qed.
Lemma Csqrt1 : c_sqrt Cconsts 1 = s1.
Proof. cbn [c_sqrt Cconsts]. change (INR 1) with 1%R. rewrite sqrt_1. reflexivity. Qed.
Lemma Csqrt4 : c_sqrt Cconsts 4 = sadd s1 s1.
Proof. cbn [c_sqrt Cconsts]. replace (INR 4) with (2 * 2)%R by (cbn; ring). rewrite sqrt_square by lra. apply cx_eq; cbn; ring. Qed.

Lemma Cscale_ok N : scale_ok Cscale N.
Proof.
  intros i Hi _. split; [apply cre_conj|]. unfold Cscale. assert (H : (0 < INR i)%R) by (apply lt_0_INR; lia).
  assert (0 < INR i * INR i)%R by now apply Rmult_lt_0_compat.
  rewrite cre_mul, sqrt_sqrt. 2:{ apply Rlt_le. apply Rdiv_lt_0_compat; lra. }
  rewrite re_nat. rewrite !cre_mul, cre_add, cre_mul. apply cx_eq; cbn [re_ fst snd]; [|cbn; ring]. cbn. field. lra.
Qed.
Lemma Cinv_ok N : inverses Cinv N.
Proof.
  intros i Hi _. unfold Cinv. rewrite re_nat, cre_mul. rewrite Rinv_r; [reflexivity|]. apply not_0_INR. lia.
Qed.

(** 1/sqrt(3) and 1/sqrt(6). *)
Definition Cr3 : Cx := re_ (sqrt (/ 3)).
Definition Cr6 : Cx := re_ (sqrt (/ 6)).
Lemma Cr3_ok : smul (smul Cr3 Cr3) (sadd (sadd s1 s1) s1) = s1.
Proof. unfold Cr3. rewrite cre_mul, sqrt_sqrt by lra. apply cx_eq; cbn; field. Qed.
Lemma Cr6_ok : smul (smul Cr6 Cr6) (smul (sadd s1 s1) (sadd (sadd s1 s1) s1)) = s1.
Proof. unfold Cr6. rewrite cre_mul, sqrt_sqrt by lra. apply cx_eq; cbn; field. Qed.

(** Exact comparison of matrices. *)
Definition Ceqb (x y : Cx) : bool :=
  if Req_EM_T (fst x) (fst y) then if Req_EM_T (snd x) (snd y) then true else false else false.
Lemma Ceqb_eq x y : Ceqb x y = true <-> x = y.
Proof.
  unfold Ceqb. destruct (Req_EM_T (fst x) (fst y)), (Req_EM_T (snd x) (snd y)); split; intros H; try discriminate H; try reflexivity; try (subst; congruence).
  now apply cx_eq.
Qed.
Definition Cclose0 (A : mat Cx) : bool := forallb (fun i => forallb (fun j => Ceqb (me A i j) s0) (seq 0 (mc A))) (seq 0 (mr A)).
Lemma Cclose0_ok : close0_ok Cclose0.
Proof.
  intros A. unfold Cclose0. rewrite forallb_forall. split.
  - intros H i j Hi Hj. specialize (H i). rewrite forallb_forall in H. apply Ceqb_eq. apply H; apply in_seq; lia.
  - intros H i Hi. apply forallb_forall. intros j Hj. apply in_seq in Hi, Hj. apply Ceqb_eq. apply H; lia.
Qed.
Definition Cclose (A B : mat Cx) : bool :=
  (Nat.eqb (mr A) (mr B) && Nat.eqb (mc A) (mc B)) && forallb (fun i => forallb (fun j => Ceqb (me A i j) (me B i j)) (seq 0 (mc A))) (seq 0 (mr A)).
Lemma Cclose_ok : close_ok Cclose.
Proof.
  intros A B. unfold Cclose. rewrite !andb_true_iff, !Nat.eqb_eq, forallb_forall. split.
  - intros [[H1 H2] H]. split; [exact H1|]. split; [exact H2|]. intros i j Hi Hj. specialize (H i). rewrite forallb_forall in H. apply Ceqb_eq. apply H; apply in_seq; lia.
  - intros (H1 & H2 & H). split; [now split|]. intros i Hi. apply forallb_forall. intros j Hj. apply in_seq in Hi, Hj. apply Ceqb_eq. apply H; lia.
Qed.

(** An angle as the pair (cos, sin) that Nsphere uses. *)
Definition angle (t : R) : Cx * Cx := (re_ (cos t), re_ (sin t)).
Lemma angle_ok t : sadd (smul (fst (angle t)) (fst (angle t))) (smul (snd (angle t)) (snd (angle t))) = s1.
Proof. unfold angle. cbn [fst snd]. rewrite !cre_mul, cre_add. apply cx_eq; cbn; [|ring]. assert (H := sin2_cos2 t). unfold Rsqr in H. lra. Qed.
