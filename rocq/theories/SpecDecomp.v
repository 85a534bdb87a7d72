(** Specification vocabulary for the matrix helpers. *)
From Verif Require Import Alg ModelMPS SpecMPS ModelOrth SpecOrth ModelDecomp.

Section Spec.
Context {R : sring}.
Local Open Scope sr_scope.

(** Columns of Q are orthonormal; rows of Q are orthonormal. *)
Definition orth_cols (Q : mat R) : Prop := forall i j, i < mc Q -> j < mc Q ->
  sum (mr Q) (fun k => sconj (me Q k i) * me Q k j) = dlt i j.
Definition orth_rows (Q : mat R) : Prop := forall i j, i < mr Q -> j < mr Q ->
  sum (mc Q) (fun k => me Q i k * sconj (me Q j k)) = dlt i j.
Definition unitary_mat (n : nat) (U : mat R) : Prop :=
  mr U = n /\ mc U = n /\ orth_cols U /\ orth_rows U.

(** M is the product A B. *)
Definition is_prod (M A B : mat R) : Prop :=
  mc A = mr B /\ mr M = mr A /\ mc M = mc B /\
  forall i j, i < mr M -> j < mc M -> me M i j = sum (mc A) (fun k => me A i k * me B k j).

(** Economic QR as LAPACK computes it: upper triangular with real diagonal. *)
Definition qr_tri (A q r : mat R) : Prop :=
  mc q = Nat.min (mr A) (mc A) /\ is_prod A q r /\ orth_cols q /\
  (forall i j, j < i -> i < mr r -> me r i j = 0) /\
  (forall i, i < mr r -> sconj (me r i i) = me r i i).

(** Economic RQ: r is upper triangular counted from the lower right corner, its
    diagonal entries r[i + m - k, i] (k the number of columns) are real. *)
Definition rq_tri (A r q : mat R) : Prop :=
  mr q = Nat.min (mr A) (mc A) /\ is_prod A r q /\ orth_rows q /\
  (forall i j, j < mc r -> i < mr r -> (j + (mr r - mc r) < i)%nat -> me r i j = 0) /\
  (forall i, i < mc r -> sconj (me r (i + (mr r - mc r))%nat i) = me r (i + (mr r - mc r))%nat i).

(** The main diagonal has no zero. *)
Definition nz_diag (r : mat R) : Prop := forall i, i < Nat.min (mr r) (mc r) -> me r i i <> 0.

(** Factorisations with positive diagonal (posrq for matrices that are not tall). *)
Definition posqr (nonneg : R -> Prop) (A q r : mat R) : Prop :=
  qr_tri A q r /\ forall i, i < mr r -> nonneg (me r i i) /\ me r i i <> 0.
Definition posrq (nonneg : R -> Prop) (A r q : mat R) : Prop :=
  rq_tri A r q /\ forall i, i < mc r -> nonneg (me r i i) /\ me r i i <> 0.

(** N is a basis of the kernel of A: orthonormal, killed by A, and every vector killed
    by A is the combination of its components along N. *)
Definition is_kernel (A N : mat R) : Prop :=
  mr N = mc A /\ orth_cols N /\
  (forall i k, i < mr A -> k < mc N -> sum (mc A) (fun j => me A i j * me N j k) = 0) /\
  (forall w : nat -> R, (forall i, i < mr A -> sum (mc A) (fun j => me A i j * w j) = 0) ->
     forall j, j < mc A -> w j = sum (mc N) (fun k => me N j k * sum (mc A) (fun l => sconj (me N l k) * w l))).

(** Order on the real scalars, as far as it is needed. *)
Definition order_ok (nonneg : R -> Prop) : Prop :=
  (forall x y, nonneg x -> nonneg y -> x * x = y * y -> x = y).

(** sign: for real x its sign, for zero zero. *)
Definition sgn_ok (nonneg : R -> Prop) (sgn : R -> R) : Prop :=
  sgn 0 = 0 /\
  forall x, sconj x = x -> sconj (sgn x) = sgn x /\ nonneg (sgn x * x) /\ (x <> 0 -> sgn x * sgn x = 1).

(** The contracts of the library calls. *)
Definition decomp_ok (nonneg : R -> Prop) (O : decomp R) : Prop :=
  (forall A q r, de_qr O A = Some (q, r) -> qr_tri A q r) /\
  (forall A r q, de_rq O A = Some (r, q) -> rq_tri A r q) /\
  (forall A Q r, de_qrf O A = Some (Q, r) ->
     unitary_mat (mr A) Q /\ is_prod A Q r /\ forall i j, j < i -> i < mr r -> j < mc r -> me r i j = 0) /\
  sgn_ok nonneg (de_sgn O) /\
  (forall A N, de_null O A = Some N -> is_kernel A N) /\
  (forall A n ninv, de_nrm O A = Some (n, ninv) -> sconj n = n /\ n * ninv = 1 /\
     n * n = sum (mr A) (fun i => sum (mc A) (fun j => me A i j * sconj (me A i j)))) /\
  (forall x y z, de_quot O x y = Some z -> z * y = x) /\
  (forall x w, de_sqrt O x = Some w -> w * w = x).

(** No multiple of one is zero. *)
Definition char0 : Prop := forall n m, sofnat n = sofnat m :> R -> n = m.

(** Hermitian. *)
Definition hermitian (h : mat R) : Prop :=
  mr h = mc h /\ forall i j, i < mr h -> j < mr h -> me h j i = sconj (me h i j).
End Spec.
Arguments char0 : clear implicits.
