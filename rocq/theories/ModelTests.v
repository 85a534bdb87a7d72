(** Model of the predicates of /repo/xmps/tests.py. *)
From Verif Require Import Alg ModelMPS.

(** Absolute values: where they live (0, +, <=) and the function abs (tests.py:4, 17). *)
Record absval (R : sring) : Type := mkAbs
  { av : Type; av0 : av; avadd : av -> av -> av; avle : av -> av -> bool; avabs : R -> av }.
Arguments av {R}. Arguments av0 {R}. Arguments avadd {R}. Arguments avle {R}. Arguments avabs {R}.

Section Model.
Context {R : sring}.
Local Open Scope sr_scope.
Variable V : absval R.

(** a < b for real numbers. *)
Definition avlt (a b : av V) : bool := negb (avle V b a).

(** tests.py:33, tensordot(x, H(x), [[0, -1], [0, 1]]). *)
Definition gram_right (A : site R) : mat R :=
  mkMat (dl A) (dl A) (fun i j => sum (phys A) (fun s => sum (dr A) (fun k => ent A s i k * sconj (ent A s j k)))).
(** tests.py:54, tensordot(H(x), x, [[0, -1], [0, 1]]). *)
Definition gram_left (A : site R) : mat R :=
  mkMat (dr A) (dr A) (fun i j => sum (phys A) (fun s => sum (dl A) (fun k => sconj (ent A s k i) * ent A s k j))).

(** tests.py:8-20, clip, on one matrix, and on one matrix of absolute values. *)
Definition clip_mat (tol : av V) (M : mat R) : mat R :=
  mkMat (mr M) (mc M) (fun i j => if avlt (avabs V (me M i j)) tol then 0 else me M i j).
Definition clip_av (tol v : av V) : av V := if avlt v tol then av0 V else v.

(** numpy.sum over all entries of an n x m matrix (tests.py:37, 58). *)
Fixpoint avsum (n : nat) (f : nat -> av V) : av V :=
  match n with O => av0 V | S n => avadd V (avsum n f) (f n) end.

(** tests.py:35-37, 56-58: the clipped distance from the identity; the matrix is square. *)
Definition close_to_id (z : av V) (M : mat R) : av V :=
  avsum (mr M) (fun i => avsum (mc M) (fun j => clip_av z (avabs V (dlt i j - me M i j)))).

(** tests.py:22-40, 42-62: allclose(close, 0, atol=c) is |x| <= c for every x; an empty
    list passes ([mats is []] on line 31, 52 is never true). *)
Definition is_right_canonical (c z : av V) (mats : list (site R)) : bool :=
  forallb (fun A => avle V (close_to_id z (clip_mat z (gram_right A))) c) mats.
Definition is_left_canonical (c z : av V) (mats : list (site R)) : bool :=
  forallb (fun A => avle V (close_to_id z (clip_mat z (gram_left A))) c) mats.

(** allclose on scalars, with its default tolerances. *)
Variable close : R -> R -> bool.
(** allclose on matrices (tests.py:73, 82); other shapes than equal ones raise (numpy's
    broadcasting of single rows and columns is left out). *)
Definition allclose_mat (a b : mat R) : res bool :=
  if Nat.eqb (mr a) (mr b) && Nat.eqb (mc a) (mc b)
  then Ok (forallb (fun i => forallb (fun j => close (me a i j) (me b i j)) (seq 0 (mc a))) (seq 0 (mr a)))
  else Err ValueError.

(** tests.py:71-72: tensordot(dot(H(A), L), A, [[0, -1], [0, 1]]). *)
Definition push_right (AL : site R * mat R) : res (mat R) :=
  let (A, L) := AL in
  if Nat.eqb (dl A) (mr L) && Nat.eqb (mc L) (dl A)
  then Ok (mkMat (dr A) (dr A) (fun i j => sum (phys A) (fun s => sum (mc L) (fun l =>
         sum (dl A) (fun k => sconj (ent A s k i) * me L k l) * ent A s l j))))
  else Err ValueError.
(** tests.py:80-81: tensordot(dot(A, L), H(A), [[0, -1], [0, 1]]). *)
Definition push_left (AL : site R * mat R) : res (mat R) :=
  let (A, L) := AL in
  if Nat.eqb (dr A) (mr L) && Nat.eqb (mc L) (dr A)
  then Ok (mkMat (dl A) (dl A) (fun i j => sum (phys A) (fun s => sum (mc L) (fun l =>
         sum (dr A) (fun k => ent A s i k * me L k l) * sconj (ent A s j l)))))
  else Err ValueError.

(** tests.py:64-74, is_right_env_canonical. *)
Definition is_right_env_canonical (mats : list (site R)) (sings : list (mat R)) : res bool :=
  do Ls <- mapM push_right (combine mats sings);
  do cl <- mapM (fun lx => allclose_mat (fst lx) (snd lx)) (combine (removelast Ls) (tl sings));
  Ok (forallb (fun b => b) cl).
(** tests.py:76-83, is_left_env_canonical. *)
Definition is_left_env_canonical (mats : list (site R)) (sings : list (mat R)) : res bool :=
  do Ls <- mapM push_left (combine mats (tl sings));
  do cl <- mapM (fun lx => allclose_mat (fst lx) (snd lx)) (combine (removelast Ls) (removelast sings));
  Ok (forallb (fun b => b) cl).

(** tests.py:85-91, is_full_rank: exact comparison with zero ([iszero]); the diagonal of a
    matrix has min(rows, columns) entries. *)
Variable iszero : R -> bool.
Definition is_full_rank (sings : list (mat R)) : bool :=
  Nat.eqb (list_sum (map (fun M => let n := Nat.min (mr M) (mc M) in
    (n - length (filter (fun i => negb (iszero (me M i i))) (seq 0 n)))%nat) sings)) 0.

(** tests.py:93-101, has_trace_1. *)
Definition has_trace_1 (sings : list (mat R)) : bool :=
  forallb (fun M => close (sum (Nat.min (mr M) (mc M)) (fun i => me M i i) - 1) 0) sings.
End Model.
