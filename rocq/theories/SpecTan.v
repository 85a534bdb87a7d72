(** Specification vocabulary for null-space projectors and tangent vectors. *)
From Verif Require Import Alg ModelMPS SpecMPS ModelTan.

Section Spec.
Context {R : sring}.
Local Open Scope sr_scope.

Definition hermitian (M : mat R) : Prop := mr M = mc M /\ forall i j, (i < mr M)%nat -> (j < mr M)%nat -> sconj (me M i j) = me M j i.
Definition diagonal (M : mat R) : Prop := mr M = mc M /\ forall i j, (i < mr M)%nat -> (j < mr M)%nat -> i <> j -> me M i j = 0.

(** numpy.linalg.cholesky: the lower triangular C with real invertible diagonal and
    C C^dagger = M. *)
Definition is_chol (M C : mat R) : Prop :=
  mr C = mr M /\ mc C = mr M /\
  (forall i j, (i < j)%nat -> (j < mr M)%nat -> me C i j = 0) /\
  (forall i, (i < mr M)%nat -> sconj (me C i i) = me C i i /\ exists u, me C i i * u = 1) /\
  (forall i j, (i < mr M)%nat -> (j < mr M)%nat -> sum (mr M) (fun k => me C i k * sconj (me C j k)) = me M i j).

(** numpy.linalg.inv *)
Definition is_inverse (M N : mat R) : Prop :=
  mr N = mr M /\ mc N = mr M /\
  forall i j, (i < mr M)%nat -> (j < mr M)%nat -> sum (mr M) (fun k => me M i k * me N k j) = dlt i j /\ sum (mr M) (fun k => me N i k * me M k j) = dlt i j.

(** scipy.linalg.null_space: the columns of N are an orthonormal basis of the null space. *)
Definition is_null (M N : mat R) : Prop :=
  mr N = mc M /\
  (forall i k, (i < mr M)%nat -> (k < mc N)%nat -> sum (mc M) (fun j => me M i j * me N j k) = 0) /\
  (forall k k', (k < mc N)%nat -> (k' < mc N)%nat -> sum (mc M) (fun j => sconj (me N j k) * me N j k') = dlt k k') /\
  (forall w : nat -> R, (forall i, (i < mr M)%nat -> sum (mc M) (fun j => me M i j * w j) = 0) ->
     forall j, (j < mc M)%nat -> w j = sum (mc N) (fun k => me N j k * sum (mc M) (fun j' => sconj (me N j' k) * w j'))).

Definition tanlib_ok (K : tanlib R) : Prop :=
  (forall M C, hermitian M -> t_ch K M = Ok C -> is_chol M C) /\
  (forall M N, mr M = mc M -> t_inv K M = Ok N -> is_inverse M N) /\
  (forall M N, t_null K M = Ok N -> is_null M N).

(** The matrix of the gauge condition: row b, column (s, a): sum_a' conj(A_s)[a',b] C[a',a]. *)
Definition gauge_mat (A : site R) (C : mat R) : mat R :=
  mkMat (dr A) (phys A * dl A) (fun b j => sum (dl A) (fun a' => sconj (ent A (j / dl A)%nat a' b) * me C a' (j mod dl A)%nat)).

(** The libraries succeed on what left_null_projector passes to them at a site A with
    environment l: l is positive, its root is invertible, and the null space is found. *)
Definition left_ready (K : tanlib R) (A : site R) (l : mat R) : Prop :=
  exists C Ci, t_ch K l = Ok C /\ t_inv K C = Ok Ci /\ forall M, mat_eq M (gauge_mat A C) -> exists N, t_null K M = Ok N.

(** The same for right_null_projector: row a, column (s, b): sum_b' conj(A_s)[a,b'] r[b',b]. *)
Definition gauge_mat_r (A : site R) (r : mat R) : mat R :=
  mkMat (dl A) (phys A * dr A) (fun a j => sum (dr A) (fun b' => sconj (ent A (j / dr A)%nat a b') * me r b' (j mod dr A)%nat)).
Definition right_ready (K : tanlib R) (A : site R) (r : mat R) : Prop :=
  exists C Ci, t_ch K r = Ok C /\ t_inv K C = Ok Ci /\ forall M, mat_eq M (gauge_mat_r A r) -> exists N, t_null K M = Ok N.

(** The gauge condition sum_s A_s^dagger l X_s = 0 for the tensor X with one column. *)
Definition left_gauge (A : site R) (l : mat R) (X : nat -> nat -> R) : Prop :=
  forall b, (b < dr A)%nat -> sum (phys A) (fun s => sum (dl A) (fun a => sum (dl A) (fun a' => sconj (ent A s a b) * me l a a' * X s a'))) = 0.
Definition right_gauge (A : site R) (r : mat R) (X : nat -> nat -> R) : Prop :=
  forall a, (a < dl A)%nat -> sum (phys A) (fun s => sum (dr A) (fun b => sum (dr A) (fun b' => sconj (ent A s a b) * me r b b' * X s b'))) = 0.
(** The projector acts on l X. *)
Definition project (d D : nat) (pr : list nat -> R) (l : mat R) (X : nat -> nat -> R) (s a : nat) : R :=
  sum d (fun t => sum D (fun c => sum D (fun c' => pr [s; a; t; c] * me l c c' * X t c'))).
End Spec.

Section Spec2.
Context {R : sring}.
Local Open Scope sr_scope.

(** All dimensions are positive; dA has the shapes of the chain. *)
Definition positive_dims (l : list (site R)) : Prop := Forall (fun A => 0 < phys A /\ 0 < dl A /\ 0 < dr A)%nat l.
Definition same_shapes (l l' : list (site R)) : Prop := Forall2 (fun A B => phys B = phys A /\ dl B = dl A /\ dr B = dr A) l l'.

(** The libraries succeed on everything passed to them for this chain. *)
Definition tangent_ready (K : tanlib R) (l : list (site R)) (ls rs : list (mat R)) : Prop :=
  forall n A e f, nth_error l n = Some A -> nth_error ls n = Some e -> nth_error rs (n + 1) = Some f ->
    left_ready K A e /\ exists E Ei, t_ch K f = Ok E /\ t_inv K E = Ok Ei.

(** The sites with an empty tangent space come first, and there are others. *)
Definition empty_first (shapes : list (nat * nat)) : Prop :=
  exists z, (z < length shapes)%nat /\ forall n s, nth_error shapes n = Some s -> (fst s * snd s = 0 <-> n < z)%nat.
(** The tangent-space dimension. *)
Definition tangent_dim (shapes : list (nat * nat)) : nat := fold_right Nat.add 0%nat (map (fun s => fst s * snd s)%nat shapes).
End Spec2.
