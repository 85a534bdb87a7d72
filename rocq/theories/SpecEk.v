(** Specification of block measurements. *)
From Verif Require Import Alg ModelMPS SpecMPS SpecOrth.

(** Position of a basis state of a block of sites of dimension d (first site most
    significant: the order of numpy.kron). *)
Definition rowmajor (d : nat) (s : list nat) : nat := fold_left (fun a x => a * d + x) s 0.

(** The labels a, a+1, ... *)
Definition zs (a n : nat) : list Z := map Z.of_nat (seq a n).

Section Spec.
Context {R : sring}.
Local Open Scope sr_scope.

(** Matrix elements of an operator on a block given as a matrix. *)
Definition block_op (d : nat) (M : mat R) (s t : list nat) : R := me M (rowmajor d s) (rowmajor d t).

(** Matrix elements of a tensor product of one-site operators. *)
Fixpoint string_op (ops : list (mat R)) (s t : list nat) : R :=
  match ops, s, t with
  | [], [], [] => 1
  | M :: ops, x :: s, y :: t => me M x y * string_op ops s t
  | _, _, _ => 0
  end.

(** Matrix elements of the partial trace of |psi><psi| over the sites left (du) and
    right (dv) of a block. *)
Definition reduced (du dv : list nat) (psi : list nat -> R) (s t : list nat) : R :=
  sumcfg du (fun u => sumcfg dv (fun v => psi (u ++ s ++ v) * sconj (psi (u ++ t ++ v)))).
End Spec.

Section Objects.
Context {R : sring}.
Local Open Scope sr_scope.

(** Isometries on both sides of the block of sites i .. i+k-1. *)
Definition iso_around (m : fmps R) (i k : nat) : Prop :=
  forall j A, nth_error (fdata m) j = Some A -> ((j < i)%nat -> left_iso A) /\ ((i + k <= j)%nat -> right_iso A).

(** A recorded centre is a centre. *)
Definition centre_true (m : fmps R) : Prop := forall k, foc m = Some k ->
  mixed_at k (fdata m) /\ sumcfg (dims (fdata m)) (fun s => psi m s * sconj (psi m s)) = 1.

(** The object after a measurement of a block: same shape of the state, centre in
    the block, truthful flags, normalised, proportional to the state before. *)
Definition meas_post (m m' : fmps R) i k : Prop :=
  wf m' /\ pos (fdata m') /\ dims (fdata m') = dims (fdata m) /\ flags_set m' /\ flags_true m' /\
  fL m' = fL m /\ fd m' = fd m /\ (exists j, (i <= j < i + k)%nat /\ foc m' = Some j /\ mixed_at j (fdata m')) /\
  sumcfg (dims (fdata m)) (fun s => psi m' s * sconj (psi m' s)) = 1 /\
  exists c, forall s, incfg (dims (fdata m)) s -> psi m s = c * psi m' s.

Definition rho_post (m m' : fmps R) i k : Prop :=
  wf m' /\ pos (fdata m') /\ dims (fdata m') = dims (fdata m) /\ centre_true m' /\
  fL m' = fL m /\ fd m' = fd m /\ (exists j, (i <= j < i + k)%nat /\ foc m' = Some j /\ mixed_at j (fdata m')) /\
  sumcfg (dims (fdata m)) (fun s => psi m' s * sconj (psi m' s)) = 1 /\
  exists c, forall s, incfg (dims (fdata m)) s -> psi m s = c * psi m' s.
End Objects.

Section Product.
Context {R : sring}.
Local Open Scope sr_scope.

(** Squared norm of the tensor of one site of a product state, and the product of
    these over the sites outside a block. *)
Definition site_norm (A : site R) : R := sum (phys A) (fun x => ent A x 0 0 * sconj (ent A x 0 0)).
Definition outside_norm (l : list (site R)) (i k : nat) : R :=
  prodl (map site_norm (firstn i l)) * prodl (map site_norm (skipn (i + k) l)).
End Product.
