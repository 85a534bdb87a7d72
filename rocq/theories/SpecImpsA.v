(** Specification vocabulary for the arithmetic of infinite MPS objects. *)
From Verif Require Import Alg ModelMPS SpecMPS ModelDecomp ModelStruct ModelImps.

Section Spec.
Context {R : sring}.

(** The attributes period, d and D are those of the tensors in the unit cell. *)
Definition cell_attrs (m : imps R) : Prop :=
  exists A l, i_data m = A :: l /\ i_period m = length (i_data m) /\ i_d m = phys A /\ i_D m = dr A.

(** A new object: no canonical form, no Schmidt values and no environments are known. *)
Definition no_memory (m : imps R) : Prop := i_can m = None /\ i_L m = None /\ i_l m = None /\ i_r m = None.

(** All pairs of items of two lists of equal length are related. *)
Definition pairs_all {A} (P : A -> A -> Prop) (a b : list A) : Prop :=
  forall n x y, nth_error a n = Some x -> nth_error b n = Some y -> P x y.
End Spec.
