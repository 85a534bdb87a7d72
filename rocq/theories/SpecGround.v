(** Specification of the descent of find_ground_state. *)
From Verif Require Import Alg ModelMPS ModelImps ModelItraj.

Section Spec.
Context {R : sring}.
Local Open Scope sr_scope.

(** One descent step that was taken from x with energy e to y. *)
Definition descends (C : icalls R) (im eps : R) (field : imps R -> res (imps R * R)) (small : imps R -> bool) (x : imps R) (e : R) (y : imps R) : Prop :=
  exists v g s, field x = Ok (v, e) /\ imps_mul v (im * eps) = Ok g /\ small g = false /\ imps_sub x g = Ok s /\ ilcan C s = Ok y.
End Spec.
