(** Specification vocabulary for thermofield doubles. *)
From Verif Require Import Alg ModelMPS SpecMPS.

(** Exchange of the two halves of an index of dimension d = p^2: x1 p + x2 to x2 p + x1. *)
Definition exch (d x : nat) : nat := (x mod Nat.sqrt d) * Nat.sqrt d + x / Nat.sqrt d.
Definition is_square (n : nat) : Prop := exists p, n = p * p.

(** All indices of a configuration exchanged; pairs of two configurations. *)
Definition exch_cfg (ds s : list nat) : list nat := map (fun dx => exch (fst dx) (snd dx)) (combine ds s).
Definition pair_cfg (ds s t : list nat) : list nat := map (fun dst => snd (fst dst) * fst (fst dst) + snd dst) (combine (combine ds s) t).

Section Spec.
Context {R : sring}.
Local Open Scope sr_scope.

(** All dimensions are squares. *)
Definition square_dims (l : list (site R)) : Prop := Forall (fun A => is_square (phys A) /\ is_square (dl A) /\ is_square (dr A)) l.

(** B is A with the two halves of every index exchanged. *)
Definition exchanged (A B : site R) : Prop :=
  phys B = phys A /\ dl B = dl A /\ dr B = dr A /\
  forall s i j, (s < phys A)%nat -> (i < dl A)%nat -> (j < dr A)%nat -> ent B s i j = ent A (exch (phys A) s) (exch (dl A) i) (exch (dr A) j).
End Spec.
