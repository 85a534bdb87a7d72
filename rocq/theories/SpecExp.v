(** Specification vocabulary for matrix exponentials. *)
From Coq Require Import ZArith.
From Verif Require Import Alg ModelMPS SpecMPS ModelNcon ModelEk ModelTensor ModelDecomp ModelSpin SpecSpin ModelLie SpecLie ModelExp.

Section Spec.
Context {R : sring}.
Local Open Scope sr_scope.

(** What is used about expm: it depends on the entries only, keeps the shape, commutes with
    the adjoint, is a homomorphism on commuting matrices, maps scalar matrices to scalar
    matrices and 0 to 1, and a matrix that intertwines A and B intertwines their
    exponentials. *)
Record expm_ok (E : mat R -> option (mat R)) : Prop := {
  ex_ext : forall A A' X, mat_eq A A' -> E A = Some X -> exists X', E A' = Some X' /\ mat_eq X X';
  ex_shape : forall n A X, sq n A -> E A = Some X -> sq n X;
  ex_adj : forall A X, E A = Some X -> exists Y, E (madj A) = Some Y /\ mat_eq Y (madj X);
  ex_sum : forall n A B X Y, sq n A -> sq n B -> mat_eq (mmul A B) (mmul B A) -> E A = Some X -> E B = Some Y ->
    exists Z, E (mplus A B) = Some Z /\ mat_eq Z (mmul X Y);
  ex_zero : forall n, exists Z, E (mkMat n n (fun _ _ => 0)) = Some Z /\ mat_eq Z (mone n);
  ex_scalar : forall n c, exists w Z, E (mscale c (mone n)) = Some Z /\ mat_eq Z (mscale w (mone n));
  ex_inter : forall n m X A B P Q, mr X = n -> mc X = m -> sq m A -> sq n B -> E A = Some P -> E B = Some Q ->
    mat_eq (mmul X A) (mmul B X) -> mat_eq (mmul X P) (mmul Q X)
}.

(** logm is a logarithm, anti-Hermitian for unitary matrices. *)
Definition unitary_ (n : nat) (U : mat R) : Prop :=
  sq n U /\ mat_eq (mmul (madj U) U) (mone n) /\ mat_eq (mmul U (madj U)) (mone n).
Definition logm_ok (E L : mat R -> option (mat R)) : Prop :=
  forall n U A, sq n U -> L U = Some A -> sq n A /\ (exists U', E A = Some U' /\ mat_eq U' U) /\
    (unitary_ n U -> mat_eq (madj A) (mscale (- (1)) A)).

(** exp(-i angle(u)): of modulus one, turning u into a nonnegative real, and 1 for 0. *)
Definition phase_ok (nonneg : R -> Prop) (ph : R -> R) : Prop :=
  ph 0 = 1 /\ forall u, ph u * sconj (ph u) = 1 /\ nonneg (ph u * u) /\ sconj (ph u * u) = ph u * u.

(** V is U times a number of modulus one. *)
Definition same_ray (U V : mat R) : Prop := exists w, w * sconj w = 1 /\ mat_eq V (mscale w U).
End Spec.
