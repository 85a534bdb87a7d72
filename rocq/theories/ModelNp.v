(** Model of /repo/xmps/peps_tools.py:5-65 and of the numpy calls it makes. *)
From Verif Require Import Alg ModelMPS ModelNcon ModelEk.

Section Model.
Context {R : sring}.
Local Open Scope sr_scope.

(** numpy.transpose(T, perm) (peps_tools.py:21, 64, fPEPS.py:154): ValueError unless perm is
    a permutation of the axes.  Negative axes are not modelled. *)
Definition transpose_ (perm : list nat) (T : tens R) : res (tens R) :=
  if Nat.eqb (length perm) (length (tsh T)) && forallb (fun a => nmem a perm) (seq 0 (length (tsh T)))
  then Ok (mkT (map (fun a => nth a (tsh T) 0%nat) perm) (fun idx =>
         te T (map (fun a => match index_of Nat.eqb a perm with Some k => nth k idx 0%nat | None => 0%nat end)
                   (seq 0 (length (tsh T))))))
  else Err ValueError.

(** T.reshape(sh) in row-major order (peps_tools.py:31, 63); ValueError if the sizes differ.
    Sizes -1 are not modelled. *)
Definition reshape_ (sh : list nat) (T : tens R) : res (tens R) :=
  if Nat.eqb (fold_right Nat.mul 1%nat (tsh T)) (fold_right Nat.mul 1%nat sh)
  then Ok (mkT sh (fun idx => te T (unravel (tsh T) (ravel sh idx))))
  else Err ValueError.

(** T_.shape[m:m+n] for the groups in turn (peps_tools.py:22-29). *)
Fixpoint group_shapes (sh : list nat) (legs : list (list nat)) : list (list nat) :=
  match legs with
  | [] => []
  | leg :: legs => firstn (length leg) sh :: group_shapes (skipn (length leg) sh) legs
  end.

(** peps_tools.py:5-32, group_legs.  The product of an empty group is the float 1.0, which
    reshape refuses with TypeError. *)
Definition group_legs (T : tens R) (legs : list (list nat)) : res (tens R * (list nat * list (list nat))) :=
  let perm := concat legs in
  do T_ <- transpose_ perm T;
  let old_shape := group_shapes (tsh T_) legs in
  if existsb (fun g => Nat.eqb (length g) 0) old_shape then Err TypeError else
  do T' <- reshape_ (map (fold_right Nat.mul 1%nat) old_shape) T_;
  Ok (T', (perm, old_shape)).

(** peps_tools.py:34-39, inverse_transpose. *)
Fixpoint inv_loop (i : nat) (perm inv : list nat) : res (list nat) :=
  match perm with
  | [] => Ok inv
  | p :: perm => do inv' <- setitem inv p i; inv_loop (S i) perm inv'
  end.
Definition inverse_transpose (perm : list nat) : res (list nat) := inv_loop 0 perm (repeat 0%nat (length perm)).

(** peps_tools.py:41-65, ungroup_legs: a group of one leg takes its size from T. *)
Definition ungroup_legs (T : tens R) (pipe : list nat * list (list nat)) : res (tens R) :=
  let (perm, old_shape) := pipe in
  if negb (Nat.eqb (length old_shape) (length (tsh T))) then Err ValueError else
  let shape := concat (map (fun gd => if Nat.eqb (length (fst gd)) 1 then [snd gd] else fst gd) (combine old_shape (tsh T))) in
  do T_ <- reshape_ shape T;
  do inv <- inverse_transpose perm;
  transpose_ inv T_.
End Model.
