(** Specification of the second Renyi entropy of a two-site wave function. *)
From Verif Require Import Alg ModelMPS ModelNcon.

Section Spec.
Context {R : sring}.
Local Open Scope sr_scope.

(** The wave function th[x,y,l,r] after the two-site operator U[a,b,x,y]. *)
Definition gated (d1 d2 : nat) (U th : tens R) (a b l r : nat) : R :=
  sum d1 (fun x => sum d2 (fun y => te U [a; b; x; y] * te th [x; y; l; r])).

(** The density matrix of the left half (a, l), and Tr rho^2. *)
Definition rho_left (d2 Xr : nat) (f : nat -> nat -> nat -> nat -> R) (a l a' l' : nat) : R :=
  sum d2 (fun b => sum Xr (fun r => f a b l r * sconj (f a' b l' r))).
Definition purity_left (d1 d2 Xl Xr : nat) (f : nat -> nat -> nat -> nat -> R) : R :=
  sum d1 (fun a => sum Xl (fun l => sum d1 (fun a' => sum Xl (fun l' => rho_left d2 Xr f a l a' l' * rho_left d2 Xr f a' l' a l)))).

(** The same for the right half (b, r). *)
Definition rho_right (d1 Xl : nat) (f : nat -> nat -> nat -> nat -> R) (b r b' r' : nat) : R :=
  sum d1 (fun a => sum Xl (fun l => f a b l r * sconj (f a b' l r'))).
Definition purity_right (d1 d2 Xl Xr : nat) (f : nat -> nat -> nat -> nat -> R) : R :=
  sum d2 (fun b => sum Xr (fun r => sum d2 (fun b' => sum Xr (fun r' => rho_right d1 Xl f b r b' r' * rho_right d1 Xl f b' r' b r)))).

(** U is unitary as a matrix from (x, y) to (a, b). *)
Definition unitary4 (d1 d2 : nat) (U : tens R) : Prop :=
  forall a b a' b', a < d1 -> b < d2 -> a' < d1 -> b' < d2 ->
  sum d1 (fun x => sum d2 (fun y => te U [a; b; x; y] * sconj (te U [a'; b'; x; y]))) = dlt a a' * dlt b b'.

(** u has orthonormal columns. *)
Definition iso_cols (d : nat) (u : nat -> nat -> R) : Prop :=
  forall i j, i < d -> j < d -> sum d (fun k => sconj (u k i) * u k j) = dlt i j.

(** u (x) v applied to the two physical indices. *)
Definition local2 (d1 d2 : nat) (u v : nat -> nat -> R) (f : nat -> nat -> nat -> nat -> R) (a b l r : nat) : R :=
  sum d1 (fun a' => sum d2 (fun b' => u a a' * v b b' * f a' b' l r)).

(** U U^dagger = 1 for a square matrix. *)
Definition orth_rows (n : nat) (U : mat R) : Prop :=
  mr U = n /\ mc U = n /\ forall i j, i < n -> j < n -> sum n (fun k => me U i k * sconj (me U j k)) = dlt i j.

(** The first factor of the polar decomposition of a square matrix is unitary. *)
Definition polar_ok (polar : mat R -> option (mat R)) : Prop :=
  forall M u, mr M = mc M -> polar M = Some u -> orth_rows (mr M) u.

(** A matrix on pairs as an operator on two sites. *)
Definition as_gate (d1 d2 : nat) (U : mat R) : tens R :=
  mkT [d1; d2; d1; d2] (fun idx => match idx with [a; b; x; y] => me U (a * d2 + b)%nat (x * d2 + y)%nat | _ => 0 end).

(** U is unitary; Ss has at least three entries; its last two entries differ by no more than the
    tolerance; the last one is the entropy for U. *)
Definition finished (d1 d2 Xl Xr : nat) (nlog : R -> R) (big : R -> bool) (psi : tens R) (U : mat R) (Ss : list R) : Prop :=
  orth_rows (d1 * d2) U /\ exists Ss0 a b, Ss = Ss0 ++ [a; b] /\ Ss0 <> [] /\ big (a - b) = false /\
    b = - sre (nlog (purity_left d1 d2 Xl Xr (gated d1 d2 (as_gate d1 d2 U) psi))).
End Spec.
