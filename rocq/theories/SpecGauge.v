(** Specification vocabulary for gauges and Schmidt spectra. *)
From Verif Require Import Alg ModelMPS SpecMPS ModelOrth SpecOrth ModelCanon SpecCanon.

Section Spec.
Context {R : sring}.
Local Open Scope sr_scope.

(** A positive matrix, written as X^dagger X. *)
Definition positive (n : nat) (P : nat -> nat -> R) : Prop :=
  exists m (X : nat -> nat -> R), forall i j, (i < n)%nat -> (j < n)%nat -> P i j = sum m (fun k => sconj (X k i) * X k j).

(** Contract of scipy.linalg.polar: M = U P with P = U^dagger M positive; U has orthonormal
    columns or rows. *)
Definition polar_ok (polar : mat R -> option (mat R * mat R)) : Prop :=
  forall M U P, polar M = Some (U, P) ->
    mr U = mr M /\ mc U = mc M /\ mr P = mc M /\ mc P = mc M /\
    (forall i j, (i < mr M)%nat -> (j < mc M)%nat -> me M i j = sum (mc M) (fun k => me U i k * me P k j)) /\
    (forall i j, (i < mc M)%nat -> (j < mc M)%nat -> me P i j = sum (mr M) (fun k => sconj (me U k i) * me M k j)) /\
    positive (mc M) (me P) /\
    ((mr M <= mc M)%nat -> forall i j, (i < mr M)%nat -> (j < mr M)%nat -> sum (mc M) (fun k => me U i k * sconj (me U j k)) = dlt i j) /\
    ((mc M <= mr M)%nat -> forall i j, (i < mc M)%nat -> (j < mc M)%nat -> sum (mr M) (fun k => sconj (me U k i) * me U k j) = dlt i j).

(** Two tensors in matched gauge: sum_s A_s B_s^dagger is positive. *)
Definition matched (A B : site R) : Prop :=
  positive (dl B) (fun i j => sum (phys A) (fun s => sum (dr A) (fun k => ent A s i k * sconj (ent B s j k)))).

Definition same_bonds (A B : site R) : Prop := phys A = phys B /\ dl A = dl B /\ dr A = dr B.

(** An orthonormal family of n states on the configurations ds. *)
Definition orthonormal (ds : list nat) (n : nat) (phi : nat -> list nat -> R) : Prop :=
  forall x y, (x < n)%nat -> (y < n)%nat -> sumcfg ds (fun s => sconj (phi x s) * phi y s) = dlt x y.
End Spec.
