(** Specification vocabulary for spin.py. *)
From Coq Require Import ZArith.
From Verif Require Import Alg ModelMPS SpecMPS ModelNcon ModelEk ModelTensor SpecTensor ModelSpin.

Section Spec.
Context {R : sring}.
Local Open Scope sr_scope.

(** Textbook matrix operations. *)
Definition mmul (A B : mat R) : mat R := mkMat (mr A) (mc B) (fun i j => sum (mc A) (fun k => me A i k * me B k j)).
Definition mplus (A B : mat R) : mat R := mkMat (mr A) (mc A) (fun i j => me A i j + me B i j).
Definition mminus (A B : mat R) : mat R := mkMat (mr A) (mc A) (fun i j => me A i j - me B i j).
Definition mscale (c : R) (A : mat R) : mat R := mkMat (mr A) (mc A) (fun i j => c * me A i j).
Definition madj (A : mat R) : mat R := mkMat (mc A) (mr A) (fun i j => sconj (me A j i)).
Definition mone (n : nat) : mat R := mkMat n n (fun i j => dlt i j).
Definition mtrace (A : mat R) : R := sum (mr A) (fun i => me A i i).
Definition mcomm (A B : mat R) : mat R := mminus (mmul A B) (mmul B A).

(** Two basis states differ at most at place k. *)
Definition agree_off (k : nat) (s t : list nat) : bool :=
  nlist_eqb (firstn k s ++ skipn (S k) s) (firstn k t ++ skipn (S k) t).

(** M acts as op on place k of a product of spaces of dimensions ds. *)
Definition acts_at (ds : list nat) (k : nat) (op M : mat R) : Prop :=
  mr M = fold_right Nat.mul 1%nat ds /\ mc M = fold_right Nat.mul 1%nat ds /\
  forall s t, incfg ds s -> incfg ds t ->
    me M (position ds s) (position ds t) = if agree_off k s t then me op (nth k s 0%nat) (nth k t 0%nat) else 0.

(** The contract of the constants: 1/2, i, and square roots of the integers [ks]. *)
Definition consts_ok (C : consts R) (ks : nat -> Prop) : Prop :=
  c_half C + c_half C = 1 /\ sconj (c_half C) = c_half C /\
  c_im C * c_im C = - (1) /\ sconj (c_im C) = - c_im C /\
  (forall k, ks k -> c_sqrt C k * c_sqrt C k = sofnat k /\ sconj (c_sqrt C k) = c_sqrt C k).

(** The integers whose roots occur for spin twoj/2. *)
Definition spin_roots (twoj : nat) (k : nat) : Prop := exists a, (a < twoj)%nat /\ k = ((a + 1) * (twoj - a))%nat.

(** sqrt(2)/norm(1, ..., 1, -i) for 1 <= i < N: real, and its square times i + i^2 is 2. *)
Definition scale_ok (scale : nat -> R) (N : nat) : Prop :=
  forall i, (1 <= i)%nat -> (i < N)%nat -> sconj (scale i) = scale i /\
    scale i * scale i * (sofnat i + sofnat i * sofnat i) = 1 + 1.
End Spec.

(** The number of inversions: pairs of places in the wrong order. *)
Fixpoint inversions (q : list nat) : nat :=
  match q with [] => 0 | x :: q => length (filter (fun y => Nat.ltb y x) q) + inversions q end.
