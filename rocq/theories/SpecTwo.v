(** Specification of splitting a pair of sites and of two-site gates. *)
From Verif Require Import Alg ModelMPS SpecMPS ModelOrth.

Section Spec.
Context {R : sring}.
Local Open Scope sr_scope.

(** T, with its physical index read as a pair (x, y) of indices below d1 and d2
    (what fMPS.py:95-96 produces), is the contraction of A and B over their common
    bond, times c. *)
Definition splits (T A B : site R) (d1 d2 : nat) (c : R) : Prop :=
  phys A = d1 /\ phys B = d2 /\ dl A = dl T /\ dr B = dr T /\ dr A = dl B /\
  forall x y i j, x < d1 -> y < d2 -> i < dl T -> j < dr T ->
    sum (dr A) (fun k => ent A x i k * ent B y k j) = c * ent T (x * d2 + y)%nat i j.

(** Some call of the QR or RQ routine (fMPS.py:131, 140) failed. *)
Definition lin_fail (P : lapack R) : Prop :=
  (exists M, la_qr P M = None) \/ (exists M, la_rq P M = None).

(** op, in the basis |x, y> -> 2x + y of two qubits, acts on the qubits i and j
    of a state. *)
Definition act2 (op : mat R) (i j : nat) (f : list nat -> R) (s : list nat) : R :=
  sum 2 (fun t1 => sum 2 (fun t2 =>
    me op (2 * nth i s 0 + nth j s 0)%nat (2 * t1 + t2)%nat * f (upd (upd s i t1) j t2))).

End Spec.
