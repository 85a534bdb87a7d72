(** Specification vocabulary for exact evolution. *)
From Verif Require Import Alg ModelMPS SpecMPS ModelEk SpecEk SpecFull SpecSpin SpecLie.

Section Spec.
Context {R : sring}.
Local Open Scope sr_scope.

(** The amplitude of the configuration s in the n-th recorded vector. *)
Definition wave (d : nat) (hist : list (list R)) (n : nat) (s : list nat) : R := nth (rowmajor d s) (nth n hist []) 0.

(** M is Hermitian; Q commutes with M. *)
Definition self_adjoint (M : mat R) : Prop := mat_eq (madj M) M.
Definition commutes (Q M : mat R) : Prop := mat_eq (mmul Q M) (mmul M Q).
End Spec.
