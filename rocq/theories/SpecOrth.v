(** Specification vocabulary for orthogonal forms and expectation values. *)
From Verif Require Import Alg ModelMPS SpecMPS ModelOrth.

Section Spec.
Context {R : sring}.
Local Open Scope sr_scope.

(** M = Q Rm with orthonormal columns in Q, economic sizes: the contract of
    scipy.linalg.qr(mode='economic') (fMPS.py:676).  Triangularity and sign
    conventions are not assumed. *)
Definition is_qr (M Q Rm : mat R) : Prop :=
  mr Q = mr M /\ mc Q = Nat.min (mr M) (mc M) /\
  mr Rm = Nat.min (mr M) (mc M) /\ mc Rm = mc M /\
  (forall i j, i < mr M -> j < mc M ->
     me M i j = sum (mc Q) (fun k => me Q i k * me Rm k j)) /\
  (forall i j, i < mc Q -> j < mc Q ->
     sum (mr Q) (fun k => sconj (me Q k i) * me Q k j) = dlt i j).

(** M = Rm Q with orthonormal rows in Q: scipy.linalg.rq(mode='economic')
    (fMPS.py:658). *)
Definition is_rq (M Rm Q : mat R) : Prop :=
  mc Q = mc M /\ mr Q = Nat.min (mr M) (mc M) /\
  mc Rm = Nat.min (mr M) (mc M) /\ mr Rm = mr M /\
  (forall i j, i < mr M -> j < mc M ->
     me M i j = sum (mr Q) (fun k => me Rm i k * me Q k j)) /\
  (forall i j, i < mr Q -> j < mr Q ->
     sum (mc Q) (fun k => me Q i k * sconj (me Q j k)) = dlt i j).

(** Squared Frobenius norm of a tensor. *)
Definition frob (A : site R) : R :=
  sum (phys A) (fun s => sum (dl A) (fun i => sum (dr A) (fun j =>
    ent A s i j * sconj (ent A s i j)))).

(** The LAPACK contract (fMPS.py:658, 676, 696): where a routine answers, its
    answer is a factorisation; the norm n is real, n^2 is the squared Frobenius
    norm, and ninv is its inverse. *)
Definition lapack_ok (O : lapack R) : Prop :=
  (forall M Q Rm, la_qr O M = Some (Q, Rm) -> is_qr M Q Rm) /\
  (forall M Rm Q, la_rq O M = Some (Rm, Q) -> is_rq M Rm Q) /\
  (forall A n ninv, la_nrm O A = Some (n, ninv) ->
     sconj n = n /\ n * n = frob A /\ n * ninv = 1).

(** sum_s A_s^dagger A_s = 1 (what tests.py:44-67 tests). *)
Definition left_iso (A : site R) : Prop :=
  forall i j, i < dr A -> j < dr A ->
    sum (phys A) (fun s => sum (dl A) (fun k => sconj (ent A s k i) * ent A s k j)) = dlt i j.

(** sum_s A_s A_s^dagger = 1 (what tests.py:22-42 tests). *)
Definition right_iso (A : site R) : Prop :=
  forall i j, i < dl A -> j < dl A ->
    sum (phys A) (fun s => sum (dr A) (fun k => ent A s i k * sconj (ent A s j k))) = dlt i j.

(** Left isometries before site k, right isometries after it. *)
Definition mixed_at (k : nat) (l : list (site R)) : Prop :=
  forall i A, nth_error l i = Some A ->
    (i < k -> left_iso A) /\ (k < i -> right_iso A).

(** No empty axis (numpy arrays of a state never have one). *)
Definition pos (l : list (site R)) : Prop :=
  Forall (fun A => 0 < phys A /\ 0 < dl A /\ 0 < dr A) l.

(** <psi| O |psi> for an operator O acting on a block of sites: du, db, dv are
    the local dimensions to the left of, inside and to the right of the block;
    op b b' is the matrix element <b|O|b'>. *)
Definition expect (du db dv : list nat) (psi : list nat -> R)
    (op : list nat -> list nat -> R) : R :=
  sumcfg du (fun u => sumcfg db (fun b => sumcfg db (fun b' => sumcfg dv (fun v =>
    sconj (psi (u ++ b ++ v)) * op b b' * psi (u ++ b' ++ v))))).

(** Expectation value of a one-site operator at site k of the state. *)
Definition expect1 (ds : list nat) (psi : list nat -> R) (k : nat)
    (op : nat -> nat -> R) : R :=
  sumcfg ds (fun s => sum (nth k ds 0%nat) (fun t =>
    sconj (psi s) * op (nth k s 0%nat) t * psi (upd s k t))).

(** The flags tell the truth: if the object claims to be canonical/orthogonal
    with centre k, then it is in mixed form around k and normalised. *)
Definition flags_true (m : fmps R) : Prop :=
  forall c o, fcan m = Some c -> forth m = Some o -> c || o = true ->
  forall k, foc m = Some k ->
    mixed_at k (fdata m) /\
    sumcfg (dims (fdata m)) (fun s => psi m s * sconj (psi m s)) = 1.

(** Missing flags or centres never occur on objects built by the constructor. *)
Definition flags_set (m : fmps R) : Prop :=
  exists c o, fcan m = Some c /\ forth m = Some o /\
    (c || o = true -> exists k, foc m = Some k).

End Spec.
