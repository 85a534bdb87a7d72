(** Specification notions for trajectories of infinite MPS. *)
From Verif Require Import Alg ModelMPS SpecMPS SpecOrth ModelDecomp SpecDecomp ModelImps SpecImps.

Section Spec.
Context {R : sring}.
Local Open Scope sr_scope.

(** A unit cell of one tensor of d matrices of size D x D. *)
Definition icell (d D : nat) (x : imps R) : Prop :=
  exists A, i_data x = [A] /\ phys A = d /\ dl A = D /\ dr A = D /\ i_period x = 1%nat /\ i_d x = d /\ i_D x = D.

(** ... whose tensor is a left isometry. *)
Definition icanon (d D : nat) (x : imps R) : Prop :=
  icell d D x /\ exists A, i_data x = [A] /\ left_iso A.

(** xs is an initial piece of the orbit of x0. *)
Definition orbit {A} (step : A -> res A) (x0 : A) (xs : list A) : Prop :=
  (forall x, nth_error xs 0 = Some x -> x = x0) /\
  (forall k x y, nth_error xs k = Some x -> nth_error xs (S k) = Some y -> step x = Ok y).

(** The environments found for cells of this shape are Hermitian with non-negative eigenvalue. *)
Definition good_envs (nonneg : R -> Prop) (C : icalls R) (d D : nat) : Prop :=
  forall m eta l r, icell d D m -> imps_eigs C m None None = Ok (eta, l, r) -> hermitian l /\ hermitian r /\ nonneg eta.

(** The vector field keeps the shape. *)
Definition keeps (d D : nat) (dA : imps R -> res (imps R)) : Prop :=
  forall m v, icell d D m -> dA m = Ok v -> icell d D v.

Definition same_cell (x y : imps R) : Prop := Forall2 site_eq (i_data x) (i_data y).
End Spec.

Section Echo.
Context {R : sring}.
Local Open Scope sr_scope.

(** A is a left isometry that represents the same state as the cell x, up to a factor c per site. *)
Definition left_form_of (D : nat) (x : imps R) (A : site R) (c : R) : Prop :=
  exists X, i_data x = [X] /\ phys A = phys X /\ square_site D A /\ left_iso A /\ gauge_of D X A c.

(** eta is an eigenvalue, with an eigenvector of norm one, of the mixed transfer map of left
    isometric tensors of the two states. *)
Definition overlap_per_site (D : nat) (x y : imps R) (eta : R) : Prop :=
  exists A B c c' (l : mat R), left_form_of D x A c /\ left_form_of D y B c' /\
    (forall i j, i < D -> j < D -> tadj A B (me l) i j = eta * me l i j) /\
    sum D (fun a => sum D (fun b => sconj (me l a b) * me l a b)) = 1.
End Echo.
