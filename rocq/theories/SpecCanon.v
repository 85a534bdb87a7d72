(** Specification vocabulary for the SVD-based sweeps. *)
From Verif Require Import Alg ModelMPS SpecMPS ModelOrth SpecOrth ModelCanon.

Section Spec.
Context {R : sring}.
Local Open Scope sr_scope.

(** Singular values: real, and zeros only at the end (they are sorted). *)
Definition is_sv (k : nat) (Sv : nat -> R) : Prop :=
  (forall i, i < k -> sconj (Sv i) = Sv i) /\
  (forall i j, i <= j -> j < k -> Sv i = 0 -> Sv j = 0).

(** Thin SVD M = U diag(S) V (svd_robust.py:84-141 with full_matrices=False). *)
Definition is_svd (M U : mat R) (Sv : nat -> R) (V : mat R) : Prop :=
  let k := Nat.min (mr M) (mc M) in
  mr U = mr M /\ mc U = k /\ mr V = k /\ mc V = mc M /\ is_sv k Sv /\
  (forall i j, i < mr M -> j < mc M ->
     me M i j = sum k (fun a => me U i a * Sv a * me V a j)) /\
  (forall i j, i < k -> j < k -> sum (mr M) (fun a => sconj (me U a i) * me U a j) = dlt i j) /\
  (forall i j, i < k -> j < k -> sum (mc M) (fun a => me V i a * sconj (me V j a)) = dlt i j).

(** Full SVD: square unitary factors (full_matrices=True). *)
Definition is_svdf (M U : mat R) (Sv : nat -> R) (V : mat R) : Prop :=
  let k := Nat.min (mr M) (mc M) in
  mr U = mr M /\ mc U = mr M /\ mr V = mc M /\ mc V = mc M /\ is_sv k Sv /\
  (forall i j, i < mr M -> j < mc M ->
     me M i j = sum k (fun a => me U i a * Sv a * me V a j)) /\
  (forall i j, i < mr M -> j < mr M -> sum (mr M) (fun a => sconj (me U a i) * me U a j) = dlt i j) /\
  (forall i j, i < mc M -> j < mc M -> sum (mc M) (fun a => me V i a * sconj (me V j a)) = dlt i j).

(** The contract of the SVD-based routines. *)
Definition svd_ok (O : lapack2 R) : Prop :=
  (forall M U Sv V, la_svd O M = Some (U, Sv, V) -> is_svd M U Sv V) /\
  (forall M U Sv V, la_svdf O M = Some (U, Sv, V) -> is_svdf M U Sv V) /\
  (forall x, la_is0 O x = true <-> x = 0).

(** The bond limit does not cut any bond of the chain (left bonds for the
    right-canonical sweep). *)
Definition fits_l (D : option nat) (l : list (site R)) : Prop :=
  match D with None => True | Some D => Forall (fun A => dl A <= D) l end.
Definition fits_r (D : option nat) (l : list (site R)) : Prop :=
  match D with None => True | Some D => Forall (fun A => dr A <= D) l end.

End Spec.

Section Gauge.
Context {R : sring}.
Local Open Scope sr_scope.

(** Square unitary matrix of size n. *)
Definition unitary (n : nat) (V : mat R) : Prop :=
  mr V = n /\ mc V = n /\
  (forall i j, i < n -> j < n -> sum n (fun k => sconj (me V k i) * me V k j) = dlt i j) /\
  (forall i j, i < n -> j < n -> sum n (fun k => me V i k * sconj (me V j k)) = dlt i j).

(** Contract of diagonalise (tensor.py:238-242) on a Hermitian matrix: a unitary
    eigenbasis and real eigenvalues.  numpy's eig does not promise orthogonal
    eigenvectors for repeated eigenvalues: this is an assumption. *)
Definition eig_ok (O : lapack2 R) : Prop :=
  forall M V Sv, la_eig O M = Some (V, Sv) -> mr M = mc M ->
  (forall i j, i < mr M -> j < mr M -> sconj (me M i j) = me M j i) ->
  unitary (mr M) V /\ (forall k, k < mr M -> sconj (Sv k) = Sv k) /\
  (forall i j, i < mr M -> j < mr M ->
     me M i j = sum (mr M) (fun k => me V i k * Sv k * sconj (me V j k))).

(** ... and its zero eigenvalues come last.  numpy's eig does not promise any
    order: without this the truncation of fMPS.py:515-523 is wrong. *)
Definition eig_zeros_last (O : lapack2 R) : Prop :=
  forall M V Sv, la_eig O M = Some (V, Sv) ->
  forall i j, i <= j -> j < mr M -> Sv i = 0 -> Sv j = 0.

(** Properties of the scalars used by the truncation: the inner product is
    definite and there are no zero divisors (true of the complex numbers). *)
Definition definite : Prop :=
  forall n (f : nat -> R), sum n (fun i => f i * sconj (f i)) = 0 -> forall i, i < n -> f i = 0.
Definition integral : Prop := forall x y : R, x * y = 0 -> x = 0 \/ y = 0.

(** The left environments are diagonal: sum over the configurations u of the
    first k sites of conj(psi_u,a) psi_u,b. *)
Definition left_gram (l : list (site R)) (a b : nat) : R :=
  sumcfg (dims l) (fun u => sconj (amp l u 0 a) * amp l u 0 b).

End Gauge.

Section Gauge2.
Context {R : sring}.
Local Open Scope sr_scope.

(** The same on the right. *)
Definition right_gram (l : list (site R)) (a b : nat) : R :=
  sumcfg (dims l) (fun u => amp l u a 0 * sconj (amp l u b 0)).

(** A diagonal environment. *)
Definition diag_gram (p : list (site R)) (n : nat) (Sv : nat -> R) : Prop :=
  forall a b, a < n -> b < n -> left_gram p a b = if Nat.eqb a b then Sv a else 0.
Definition diag_rgram (p : list (site R)) (n : nat) (Sv : nat -> R) : Prop :=
  forall a b, a < n -> b < n -> right_gram p a b = if Nat.eqb a b then Sv a else 0.

End Gauge2.

Section Keeps.
Context {R : sring}.
Local Open Scope sr_scope.

(** The sweep does not collapse the chain to nothing: either a positive bond
    limit is given, or nothing is truncated and the state is not zero. *)
Definition keeps_something (D : option nat) (m : fmps R) : Prop :=
  (match D with Some D => 0 < D | None => False end /\ pos (fdata m)) \/
  (fits_l D (fdata m) /\ exists s, incfg (dims (fdata m)) s /\ psi m s <> 0).
Definition keeps_something_r (D : option nat) (m : fmps R) : Prop :=
  (match D with Some D => 0 < D | None => False end /\ pos (fdata m)) \/
  (fits_r D (fdata m) /\ exists s, incfg (dims (fdata m)) s /\ psi m s <> 0).

End Keeps.
