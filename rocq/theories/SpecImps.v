(** Specification vocabulary for infinite MPS: vectors, transfer maps, fixed points. *)
From Verif Require Import Alg ModelMPS SpecMPS ModelDecomp SpecDecomp ModelStruct ModelImps SpecSpin.

Section Spec.
Context {R : sring}.
Local Open Scope sr_scope.

(** Matrix times vector. *)
Definition mvec (M : mat R) (v : list R) : list R :=
  map (fun i => sum (mc M) (fun j => me M i j * nth j v 0)) (seq 0 (mr M)).

(** The inner product of two vectors, conjugate-linear in the first. *)
Definition hdot (u v : list R) : R := sum (length u) (fun i => sconj (nth i u 0) * nth i v 0).

(** A vector read as a D x D matrix, row by row. *)
Definition unvec (D : nat) (v : list R) : mat R := mkMat D D (fun i j => nth (i * D + j)%nat v 0).

(** The tensors of A are D x D matrices. *)
Definition square_site (D : nat) (A : site R) : Prop := dl A = D /\ dr A = D.

(** The transfer map of A over B from the right, sum_s A_s x B_s^dagger, and from the
    left, sum_s A_s^T x B_s^*.  Index order: the layer of A first. *)
Definition tright (A B : site R) (x : nat -> nat -> R) (i j : nat) : R :=
  sum (phys A) (fun s => sum (dr A) (fun a => sum (dr B) (fun b =>
    ent A s i a * x a b * sconj (ent B s j b)))).
Definition tleft (A B : site R) (x : nat -> nat -> R) (i j : nat) : R :=
  sum (phys A) (fun s => sum (dl A) (fun a => sum (dl B) (fun b =>
    ent A s a i * x a b * sconj (ent B s b j)))).

(** The adjoint of the transfer map, sum_s A_s^dagger x B_s. *)
Definition tadj (A B : site R) (x : nat -> nat -> R) (i j : nat) : R :=
  sum (phys A) (fun s => sum (dl A) (fun a => sum (dl B) (fun b =>
    sconj (ent A s a i) * x a b * ent B s b j))).

(** x is a right (left) eigenvector of the transfer map of A. *)
Definition right_eigen (A : site R) (eta : R) (x : mat R) : Prop :=
  mr x = dl A /\ mc x = dl A /\ forall i j, i < dl A -> j < dl A -> tright A A (me x) i j = eta * me x i j.
Definition left_eigen (A : site R) (eta : R) (x : mat R) : Prop :=
  mr x = dr A /\ mc x = dr A /\ forall i j, i < dr A -> j < dr A -> tleft A A (me x) i j = eta * me x i j.

(** The pairing of a left with a right environment: both layers are joined. *)
Definition pair_lr (D : nat) (l r : nat -> nat -> R) : R := sum D (fun a => sum D (fun b => l a b * r a b)).

(** M N = N M = 1 for square matrices. *)
Definition is_inverse (M N : mat R) : Prop :=
  mr N = mr M /\ mc N = mr M /\
  (forall i j, i < mr M -> j < mr M -> sum (mr M) (fun k => me M i k * me N k j) = dlt i j) /\
  (forall i j, i < mr M -> j < mr M -> sum (mr M) (fun k => me N i k * me M k j) = dlt i j).

(** M = X X^dagger with X lower triangular. *)
Definition is_chol (M X : mat R) : Prop :=
  mr X = mr M /\ mc X = mr M /\ (forall i j, i < j -> j < mr M -> me X i j = 0) /\
  (forall i j, i < mr M -> j < mr M -> me M i j = sum (mr M) (fun k => me X i k * sconj (me X j k))).

(** Singular value decomposition of a square matrix. *)
Definition is_svd_sq (nonneg : R -> Prop) (M U : mat R) (Sv : nat -> R) (V : mat R) : Prop :=
  unitary_mat (mr M) U /\ unitary_mat (mr M) V /\ (forall i, i < mr M -> nonneg (Sv i)) /\
  (forall i j, i < mr M -> j < mr M -> me M i j = sum (mr M) (fun k => me U i k * Sv k * me V k j)).

(** The contracts of the library calls: an eigenpair of the operator; a Cholesky factor
    of a Hermitian matrix (only its lower triangle is read); inverse and singular value
    decomposition of a square matrix; non-negative numbers are real, are closed under
    sums and quotients, contain the squares of real numbers and have real square roots;
    root finds a zero. *)
Definition icalls_ok (nonneg : R -> Prop) (C : icalls R) : Prop :=
  decomp_ok nonneg (ic_dec C) /\
  (forall n f v0 eta v, ic_arn C n f v0 = Some (eta, v) -> length v = n /\ f v = Ok (map (smul eta) v)) /\
  (forall M X, hermitian M -> ic_chol C M = Some X -> is_chol M X) /\
  (forall M U Sv V, mr M = mc M -> ic_svd C M = Some (U, Sv, V) -> is_svd_sq nonneg M U Sv V) /\
  (forall M N, mr M = mc M -> ic_inv C M = Some N -> is_inverse M N) /\
  (forall f x0 x, ic_root C f x0 = Some x -> exists n, f x = Ok (repeat 0 n)) /\
  nonneg 0 /\ (forall x y, nonneg x -> nonneg y -> nonneg (x + y)) /\
  (forall x, nonneg x -> sconj x = x) /\ (forall x, sconj x = x -> nonneg (x * x)) /\
  (forall x y z, de_quot (ic_dec C) x y = Some z -> nonneg x -> nonneg y -> nonneg z) /\
  (forall x w, de_sqrt (ic_dec C) x = Some w -> nonneg x -> nonneg w).

(** Minus the adjoint. *)
Definition antihermitian (h : mat R) : Prop :=
  mr h = mc h /\ forall i j, i < mr h -> j < mr h -> me h j i = - sconj (me h i j).

(** The entries of B are c S A Sinv: the same state up to the factor c per site. *)
Definition gauge_of (D : nat) (A B : site R) (c : R) : Prop :=
  exists S Si : mat R, mr S = D /\ mc S = D /\ is_inverse S Si /\
    forall s i j, s < phys A -> i < D -> j < D ->
      ent B s i j = c * sum D (fun a => sum D (fun b => me S i a * ent A s a b * me Si b j)).

(** A diagonal matrix of size D with the real entries v. *)
Definition diag_real (D : nat) (L : mat R) : Prop :=
  mr L = D /\ mc L = D /\ (forall i j, i < D -> j < D -> i <> j -> me L i j = 0) /\
  (forall i, i < D -> sconj (me L i i) = me L i i).

(** The expectation value of a one-site operator, not yet normalised: the tensor of A with
    its conjugate between the environments l and r. *)
Definition site_exp (D : nat) (A : site R) (l r : nat -> nat -> R) (op : mat R) : R :=
  sum (phys A) (fun s => sum (phys A) (fun t => me op t s *
    sum D (fun a => sum D (fun b => sum D (fun c => sum D (fun e =>
      l a b * ent A s a c * r c e * sconj (ent A t b e))))))).

(** Vidal's form: L diagonal, real, of norm one, and G L right, L G left isometric. *)
Definition vidal_form (D : nat) (G : site R) (L : mat R) : Prop :=
  square_site D G /\ diag_real D L /\ sum D (fun i => me L i i * me L i i) = 1 /\
  (forall i j, i < D -> j < D ->
     sum (phys G) (fun s => sum D (fun k => ent G s i k * (me L k k * me L k k) * sconj (ent G s j k))) = dlt i j) /\
  (forall i j, i < D -> j < D ->
     sum (phys G) (fun s => sum D (fun k => sconj (ent G s k i) * (me L k k * me L k k) * ent G s k j)) = dlt i j).

(** The identity as an environment. *)
Definition ident (i j : nat) : R := dlt i j.

(** Environment r of a two-site operator h with the rows and columns (s1, s2), s1 slow:
    the local energy of neighbouring sites, not yet normalised. *)
Definition two_exp (D : nat) (A : site R) (l r : nat -> nat -> R) (h : mat R) : R :=
  sum (phys A) (fun s1 => sum (phys A) (fun s2 => sum (phys A) (fun t1 => sum (phys A) (fun t2 =>
    me h (s1 * phys A + s2)%nat (t1 * phys A + t2)%nat *
    sum D (fun a => sum D (fun b => sum D (fun c => sum D (fun e =>
      l a b * sum D (fun k => ent A t1 a k * ent A t2 k c) * r c e
            * sconj (sum D (fun k => ent A s1 b k * ent A s2 k e)))))))))).

End Spec.
