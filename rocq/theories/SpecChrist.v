(** Specification of the overlaps of second derivatives of a state with first ones. *)
From Verif Require Import Alg ModelMPS SpecMPS SpecOrth SpecEk SpecEnergy ModelEnergy ModelTan SpecTan SpecTdvp ModelJac SpecJac.

Section Spec.
Context {R : sring}.
Local Open Scope sr_scope.

(** The tensor X is a tangent direction at site n of the chain l: it has the shape of the
    tensor there and satisfies the left gauge condition. *)
Definition tangent_at (l : list (site R)) (n : nat) (X : site R) : Prop :=
  same_shape (nth n l no_site) X /\
  forall b, (b < dr (nth n l no_site))%nat -> left_gauge (nth n l no_site) (env_at (firstn n l) (nth n l no_site)) (fun s a => ent X s a b).

Definition in_shape (A : site R) (s a b : nat) : Prop := (s < phys A /\ a < dl A /\ b < dr A)%nat.

(** The dual of the standard coordinates of the tangent directions at site n: the directions
    D s a b whose overlap with any direction X is the entry (s, a, b) of X. *)
Definition dual_basis (d : nat) (l : list (site R)) (n : nat) (D : nat -> nat -> nat -> site R) : Prop :=
  forall s a b, in_shape (nth n l no_site) s a b -> tangent_at l n (D s a b) /\
    forall X, tangent_at l n X -> overlap d (with_site l n (D s a b)) (with_site l n X) = ent X s a b.

(** - <d_X d_Y psi| d_Z psi> for the directions X, Y, Z at the sites i, j, k. *)
Definition christoffel_elem (d : nat) (l : list (site R)) (i : nat) (X : site R) (j : nat) (Y : site R) (k : nat) (Z : site R) : R :=
  if Nat.eqb i j then 0 else - overlap d (with_site (with_site l i X) j Y) (with_site l k Z).

(** The direction Z at site k represents the array B: its overlap with any direction Y is the
    sum of the products of the entries. *)
Definition represents (d : nat) (l : list (site R)) (k : nat) (B Z : site R) : Prop :=
  tangent_at l k Z /\ forall Y, tangent_at l k Y ->
    overlap d (with_site l k Y) (with_site l k Z) =
      sum (phys B) (fun s => sum (dl B) (fun a => sum (dr B) (fun b => sconj (ent Y s a b) * ent B s a b))).

(** The inverse of the root of M. *)
Definition inv_root (K : tanlib R) (M Mi : mat R) : Prop := exists C, t_ch K M = Ok C /\ is_inverse C Mi.
(** Ci n and Ei n are the inverse roots of the environments of site n. *)
Definition inv_roots (K : tanlib R) (L : nat) (ls rs : list (mat R)) (Ci Ei : nat -> mat R) : Prop :=
  forall n, (n < L)%nat -> inv_root K (nth n ls no_mat) (Ci n) /\ inv_root K (nth (n + 1) rs no_mat) (Ei n).
(** The direction with coordinates (x, y) at site n. *)
Definition root_frame (Ci Ei : nat -> mat R) (l vLs : list (site R)) (n x y : nat) : site R :=
  tvec (nth n l no_site) (nth n vLs no_site) (fun a => me (Ci n) a a) (fun b => me (Ei n) b b) x y.
End Spec.
