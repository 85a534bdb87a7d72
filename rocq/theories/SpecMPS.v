(** Specification vocabulary for matrix product states: what state a list of
    tensors stands for.  Independent of the loops of the implementation. *)
From Verif Require Import Alg ModelMPS.

Section Spec.
Context {R : sring}.
Local Open Scope sr_scope.

(** Bonds match along the chain: left bond i, right bond j.  (The shape
    condition under which the contractions of fMPS.py:352, 742 do not raise.) *)
Fixpoint chain (i : nat) (l : list (site R)) (j : nat) : Prop :=
  match l with
  | [] => i = j
  | A :: l => dl A = i /\ chain (dr A) l j
  end.

(** A closed chain: trivial outer bonds (the shapes fMPS.py:436-461 generates). *)
Definition closed (l : list (site R)) : Prop := chain 1 l 1.

(** Amplitude: the sum over all internal bond indices of the product of tensor
    entries, with outer bond indices i and j.  This is the mathematical meaning
    of an MPS, <s|psi> for i = j = 0. *)
Fixpoint amp (l : list (site R)) (s : list nat) (i j : nat) : R :=
  match l, s with
  | [], [] => dlt i j
  | A :: l, x :: s => sum (dr A) (fun k => ent A x i k * amp l s k j)
  | _, _ => 0
  end.

(** Local dimensions of a chain. *)
Definition dims (l : list (site R)) : list nat := map (fun A => phys A) l.

(** <b|a>-type inner product: sum over all configurations of a(s) conj(b(s)). *)
Definition inner (ds : list nat) (a b : list nat -> R) : R :=
  sumcfg ds (fun s => a s * sconj (b s)).

(** The state of an object. *)
Definition psi (m : fmps R) : list nat -> R := fun s => amp (fdata m) s 0 0.

(** The object is well formed: closed chain, recorded length right, at least
    one site. *)
Definition wf (m : fmps R) : Prop :=
  closed (fdata m) /\ fL m = length (fdata m) /\ fdata m <> [].

(** All sites have the recorded local dimension. *)
Definition uniform (m : fmps R) : Prop := Forall (fun A => phys A = fd m) (fdata m).

(** Two tensors are equal as arrays: same shape and same entries. *)
Definition site_eq (A B : site R) : Prop :=
  phys A = phys B /\ dl A = dl B /\ dr A = dr B /\
  forall s i j, s < phys A -> i < dl A -> j < dr A -> ent A s i j = ent B s i j.

(** Two matrices are equal as arrays. *)
Definition mat_eq (A B : mat R) : Prop :=
  mr A = mr B /\ mc A = mc B /\
  forall i j, i < mr A -> j < mc A -> me A i j = me B i j.

End Spec.

(** Replace entry k of a configuration. *)
Fixpoint upd (s : list nat) (k x : nat) : list nat :=
  match s, k with
  | [], _ => []
  | _ :: s, O => x :: s
  | y :: s, S k => y :: upd s k x
  end.

(** Insert an entry at position k of a configuration. *)
Fixpoint ins (s : list nat) (k x : nat) {struct k} : list nat :=
  match k with
  | O => x :: s
  | S k => match s with [] => [] | y :: s => y :: ins s k x end
  end.
