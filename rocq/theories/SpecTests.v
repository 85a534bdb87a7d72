(** Specification vocabulary for the predicates of tests.py. *)
From Verif Require Import Alg ModelMPS SpecMPS ModelTests.

Section Spec.
Context {R : sring}.
Local Open Scope sr_scope.

(** What is used of absolute values and their order. *)
Definition absval_ok (V : absval R) : Prop :=
  (forall a, avle V a a = true) /\
  (forall a b c, avle V a b = true -> avle V b c = true -> avle V a c = true) /\
  (forall a b, avle V a b = true \/ avle V b a = true) /\
  (forall a b, avle V (av0 V) b = true -> avle V a (avadd V a b) = true) /\
  (forall a b, avle V (av0 V) b = true -> avle V a (avadd V b a) = true) /\
  (forall a b c d, avlt V a c = true -> avlt V b d = true -> avlt V (avadd V a b) (avadd V c d) = true) /\
  avadd V (av0 V) (av0 V) = av0 V /\
  avabs V 0 = av0 V /\
  (forall x, avle V (av0 V) (avabs V x) = true) /\
  (forall x, avabs V (- x) = avabs V x) /\
  (forall x y, avle V (avabs V (x + y)) (avadd V (avabs V x) (avabs V y)) = true).

(** sum_s A_s A_s^dagger - 1 and sum_s A_s^dagger A_s - 1. *)
Definition right_defect (A : site R) (i j : nat) : R :=
  sum (phys A) (fun s => sum (dr A) (fun k => ent A s i k * sconj (ent A s j k))) - dlt i j.
Definition left_defect (A : site R) (i j : nat) : R :=
  sum (phys A) (fun s => sum (dl A) (fun k => sconj (ent A s k i) * ent A s k j)) - dlt i j.

(** sum_s A_s^dagger L A_s and sum_s A_s L A_s^dagger. *)
Definition env_right (A : site R) (L : mat R) (i j : nat) : R :=
  sum (phys A) (fun s => sum (dl A) (fun k => sum (dl A) (fun l => sconj (ent A s k i) * me L k l * ent A s l j))).
Definition env_left (A : site R) (L : mat R) (i j : nat) : R :=
  sum (phys A) (fun s => sum (dr A) (fun k => sum (dr A) (fun l => ent A s i k * me L k l * sconj (ent A s j l)))).
End Spec.
