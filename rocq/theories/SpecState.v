(** Specification for splitting a state tensor into an MPS. *)
From Verif Require Import Alg ModelMPS SpecMPS SpecOrth ModelState.

Section Spec.
Context {R : sring}.
Local Open Scope sr_scope.

(** The k numbers Sv are Schmidt coefficients of f across the cut between the
    first a axes and the rest (all axes of length d, n in total): f is
    sum_x u_x (x) Sv_x v_x with orthonormal u_x and orthonormal v_x. *)
Definition schmidt (d n a : nat) (f : list nat -> R) (k : nat) (Sv : nat -> R) : Prop :=
  (forall x, x < k -> sconj (Sv x) = Sv x) /\
  exists u v : nat -> list nat -> R,
    (forall x y, x < k -> y < k -> sumcfg (repeat d a) (fun s => sconj (u x s) * u y s) = dlt x y) /\
    (forall x y, x < k -> y < k -> sumcfg (repeat d (n - a)) (fun s => sconj (v x s) * v y s) = dlt x y) /\
    (forall s t, incfg (repeat d a) s -> incfg (repeat d (n - a)) t ->
       f (s ++ t) = sum k (fun x => u x s * Sv x * v x t)).

(** The object m represents the state tensor up to the scalar c, whose squared
    modulus is the norm of the state; shapes and attributes are right. *)
Definition state_ok (st : state R) (m : fmps R) (c : R) : Prop :=
  wf m /\ pos (fdata m) /\ fL m = stL st /\ fd m = std st /\ dims (fdata m) = repeat (std st) (stL st) /\
  (forall s, incfg (repeat (std st) (stL st)) s -> ste st s = c * psi m s) /\
  c * sconj c = sumcfg (repeat (std st) (stL st)) (fun s => ste st s * sconj (ste st s)) /\
  Forall (fun A => dl A <= fD m /\ dr A <= fD m) (fdata m).

End Spec.
