(** Specification vocabulary for out-of-time-order correlators. *)
From Coq Require Import ZArith.
From Verif Require Import Alg ModelMPS SpecMPS ModelEk SpecEk SpecSpin.

Section Spec.
Context {R : sring}.
Local Open Scope sr_scope.

(** M applied to the wave function f of L sites. *)
Definition act (d L : nat) (M : mat R) (f : list nat -> R) (s : list nat) : R :=
  sumcfg (repeat d L) (fun t => block_op d M s t * f t).

(** The operator W in the Heisenberg picture. *)
Definition heisenberg (U W : mat R) : mat R := mmul (madj U) (mmul W U).

(** The squared norm of K f. *)
Definition norm_act (d L : nat) (K : mat R) (f : list nat -> R) : R :=
  sumcfg (repeat d L) (fun s => act d L K f s * sconj (act d L K f s)).
End Spec.
