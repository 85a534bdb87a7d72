(** Specification vocabulary for the Lie algebra part of spin.py. *)
From Coq Require Import ZArith.
From Verif Require Import Alg ModelMPS SpecMPS ModelNcon ModelEk ModelTensor ModelDecomp ModelSpin SpecSpin ModelLie.

Section Spec.
Context {R : sring}.
Local Open Scope sr_scope.

(** Square matrices of size n. *)
Definition sq (n : nat) (A : mat R) : Prop := mr A = n /\ mc A = n.

(** The matrix sum_k v_k l_k. *)
Definition comb_entry (v : list R) (l : list (mat R)) (a b : nat) : R :=
  sum (length l) (fun k => nth k v 0 * me (nth k l (mone 0)) a b).

(** [x, y] = c z and the cyclic permutations. *)
Definition triple (c : R) (x y z : mat R) : Prop :=
  mat_eq (mcomm x y) (mscale c z) /\ mat_eq (mcomm y z) (mscale c x) /\ mat_eq (mcomm z x) (mscale c y).

(** allclose without a tolerance. *)
Definition close_ok (close : mat R -> mat R -> bool) : Prop := forall A B, close A B = true <-> mat_eq A B.
Definition close0_ok (close0 : mat R -> bool) : Prop :=
  forall A, close0 A = true <-> (forall i j, (i < mr A)%nat -> (j < mc A)%nat -> me A i j = 0).

(** The generators are Hermitian and traceless, and Tr (T_a T_b) = 2 delta_ab. *)
Definition orthogonal_generators (N : nat) (l : list (mat R)) : Prop :=
  (forall T, In T l -> sq N T /\ mat_eq (madj T) T /\ mtrace T = 0) /\
  (forall a b A B, nth_error l a = Some A -> nth_error l b = Some B ->
     mtrace (mmul A B) = if Nat.eqb a b then 1 + 1 else 0).

(** Inverses of the integers 1, ..., N. *)
Definition inverses (inv : nat -> R) (N : nat) : Prop :=
  forall i, (1 <= i)%nat -> (i <= N)%nat -> sofnat i * inv i = 1.

(** Y is X on n levels with a two-level identity inserted: after it, before it, or before
    its last qubit. *)
Definition inserted (wh : where_) (n : nat) (X Y : mat R) : Prop :=
  sq (2 * n) Y /\
  match wh with
  | Right_ => forall a b c d, (a < n)%nat -> (b < 2)%nat -> (c < n)%nat -> (d < 2)%nat ->
      me Y (a * 2 + b)%nat (c * 2 + d)%nat = me X a c * dlt b d
  | Left_ => forall a b c d, (a < n)%nat -> (b < 2)%nat -> (c < n)%nat -> (d < 2)%nat ->
      me Y (b * n + a)%nat (d * n + c)%nat = me X a c * dlt b d
  | Mid => forall x z b x' z' d, (x < n / 2)%nat -> (z < 2)%nat -> (b < 2)%nat -> (x' < n / 2)%nat -> (z' < 2)%nat -> (d < 2)%nat ->
      me Y ((x * 2 + b) * 2 + z)%nat ((x' * 2 + d) * 2 + z')%nat = me X (x * 2 + z)%nat (x' * 2 + z')%nat * dlt b d
  | Elsewhere => False
  end.

(** Places where insu2N can insert: Mid needs n = 2^q with at least one qubit. *)
Definition place_ok (wh : where_) (n : nat) : Prop :=
  match wh with Mid => exists q, (1 <= q)%nat /\ n = (2 ^ q)%nat | Elsewhere => False | _ => True end.

(** U commutes with the exchange of the two qubits, given by its matrix elements
    <a b|SWAP|c d> = <a|d><b|c>. *)
Definition exchange : mat R :=
  mkMat 4 4 (fun i j => dlt (i / 2) (j mod 2) * dlt (i mod 2) (j / 2)).
Definition swap_comm (U : mat R) : Prop := mat_eq (mmul exchange U) (mmul U exchange).

(** Tr(s_k^2) of the swap-symmetric generators s_k (spin.py:458-470), and its inverse. *)
Definition snorm (k : nat) : R := if Nat.ltb k 3 then (1 + 1) * (1 + 1) else (1 + 1) * (1 + 1) * (1 + 1).
Definition sweight (half : R) (k : nat) : R := if Nat.ltb k 3 then half * half else half * half * half.
End Spec.
