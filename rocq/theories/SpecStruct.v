(** Specification vocabulary for structures and storage. *)
From Verif Require Import Alg ModelMPS SpecMPS ModelStruct.

(** The dimension of bond k of an open chain: the Schmidt bound cut at D. *)
Definition bond (L d D k : nat) : nat := Nat.min (d ^ Nat.min k (L - k)) D.

Section Spec.
Context {R : sring}.

(** The object a list of tensors decodes to. *)
Definition decoded (m : fmps R) (r : res (fmps R)) : Prop :=
  exists m', r = Ok m' /\ Forall2 site_eq (fdata m) (fdata m') /\
    fL m' = length (fdata m) /\ fcan m' = Some false /\ forth m' = Some false /\ foc m' = None.

(** Integers survive being stored as numbers. *)
Definition io_ok (N : numio R) : Prop := forall n, to_nat N (of_nat N n) = n.

End Spec.
