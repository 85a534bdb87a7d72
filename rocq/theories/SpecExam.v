(** Specification vocabulary for the example states and the symplectic basis. *)
From Verif Require Import Alg ModelMPS SpecMPS ModelNcon ModelTensor.

Section Spec.
Context {R : sring}.
Local Open Scope sr_scope.

(** a on |s1 s2> = |00>, b on |01>, c on |10>, d on |11>. *)
Definition ket2 (a b c d : R) (s : list nat) : R :=
  match s with [0; 0]%nat => a | [0; 1]%nat => b | [1; 0]%nat => c | [1; 1]%nat => d | _ => 0 end.
(** the documented Bell states, not normalised: 11+00, 11-00, 10+01, 10-01 *)
Definition bell_doc (i : nat) : list nat -> R :=
  match i with
  | 1%nat => ket2 1 0 0 1 | 2%nat => ket2 (- (1)) 0 0 1 | 3%nat => ket2 0 1 1 0 | _ => ket2 0 (- (1)) 1 0
  end.
(** |+> and |-> on one site *)
Definition sgn (minus : bool) (x : nat) : R := match x with 0%nat => 1 | _ => if minus then - (1) else 1 end.
Definition pm (a b : bool) (s : list nat) : R := match s with [x; y] => sgn a x * sgn b y | _ => 0 end.

(** two states of two spins are orthogonal; a state is a nonzero multiple of another with
    squared length n *)
Definition inner2 (f g : list nat -> R) : R := sumcfg [2; 2]%nat (fun s => sconj (f s) * g s).
Definition normalised_of (n : R) (f g : list nat -> R) : Prop :=
  inner2 g g = 1 /\ exists c, c * sconj c = n /\ forall s, incfg [2; 2]%nat s -> f s = c * g s.

(** The components of total spin 2 of two neighbouring spins 1 of a uniform MPS; the states
    0, 1, 2 are Sz = 1, 0, -1.  The ground states of the AKLT Hamiltonian have none. *)
Definition pair2 (A : site R) (s t x y : nat) : R := sum (dr A) (fun k => ent A s x k * ent A t k y).
Definition spin2 (A : site R) (m x y : nat) : R :=
  match m with
  | 0%nat => pair2 A 0 0 x y
  | 1%nat => pair2 A 0 1 x y + pair2 A 1 0 x y
  | 2%nat => pair2 A 0 2 x y + (1 + 1) * pair2 A 1 1 x y + pair2 A 2 0 x y
  | 3%nat => pair2 A 1 2 x y + pair2 A 2 1 x y
  | _ => pair2 A 2 2 x y
  end.
Definition no_spin2 (A : site R) : Prop := forall m x y, (m < 5)%nat -> (x < dl A)%nat -> (y < dr A)%nat -> spin2 A m x y = 0.

(** the matrix product and transpose as sums *)
Definition apply (M : mat R) (v : nat -> R) (i : nat) : R := sum (mc M) (fun j => me M i j * v j).
(** (x_1, .., x_n, p_1, .., p_n) and (x_1, p_1, .., x_n, p_n) *)
Definition stacked (n : nat) (x p : nat -> R) (i : nat) : R := if Nat.ltb i n then x i else p (i - n)%nat.
Definition interleaved (x p : nat -> R) (i : nat) : R := if Nat.even i then x (Nat.div2 i) else p (Nat.div2 i).
(** the symplectic form sum x_k p'_k - p_k x'_k *)
Definition omega (n : nat) (x p x' p' : nat -> R) : R := sum n (fun k => x k * p' k - p k * x' k).
(** v^T M w *)
Definition bilin (n : nat) (v : nat -> R) (M : mat R) (w : nat -> R) : R := sum n (fun i => v i * apply M w i).
End Spec.
