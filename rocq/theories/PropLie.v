(** C62-C64: swap symmetry, SU(4) generators and two-site spinors, Lie algebra components. *)
From Coq Require Import QArith ZArith Reals.
From Verif Require Import Alg QScalars ModelMPS SpecMPS ModelNcon ModelEk ModelTensor SpecTensor ModelDecomp ModelSpin SpecSpin ProofSpin ProofSpin2 ProofSpin3 ProofSpin4
  ModelLie SpecLie ProofLie ProofLie2 ProofLie3 ProofLie4 ProofLie5 Oracle2 ExReal.
Local Open Scope nat_scope.
Local Open Scope sr_scope.

(** * C62 *)
(** swap_symmetrise gives a matrix that commutes with the exchange of the qubits, and leaves
    exactly those matrices unchanged that do already. *)
Theorem C62_symmetrise : forall (R : sring) (C : consts R) (U : mat R), consts_ok C (fun _ => False) -> sq 4 U ->
  exists P, swap_symmetrise_ C U = Ok P /\ sq 4 P /\ swap_comm P /\ (swap_comm U <-> mat_eq P U).
Proof. intros R C U HC HU. exact (symmetrise_ok C HC U HU). Qed.
Print Assumptions C62_symmetrise.

(** is_swap_symmetric decides the symmetry. *)
Theorem C62_is_swap_symmetric : forall (R : sring) (C : consts R) (close0 : mat R -> bool) (U : mat R),
  consts_ok C (fun _ => False) -> close0_ok close0 -> sq 4 U ->
  exists b, is_swap_symmetric C close0 U = Ok b /\ (b = true <-> swap_comm U).
Proof. intros R C close0 U HC. exact (is_swap_ok C HC close0 U). Qed.
Print Assumptions C62_is_swap_symmetric.

(** swap_antisymmetrise does not give an antisymmetric matrix: on the identity it returns
    the identity. *)
Definition Qconsts : consts Qi := mkConsts (qi (1#2) 0) (qi 0 1) (fun k => match k with 1%nat => qi 1 0 | 4%nat => qi 2 0 | _ => qi 0 0 end).
Lemma Qconsts_ok : consts_ok Qconsts (fun _ => False).
Proof. repeat split; try (apply Qi_eqb_eq; vm_compute; reflexivity); destruct H. Qed.
Lemma Qsqrt1 : c_sqrt Qconsts 1 = 1.
Proof. apply Qi_eqb_eq; vm_compute; reflexivity. Qed.

Definition p62 : mat Qi := mscal (c_half Qconsts) (mkMat 4 4 (fun i j => me (mone 4) i j + me (mmul (mmul swap_gate (mone 4)) swap_gate) i j)).
Theorem C62_antisymmetrise_refuted : exists U P : mat Qi, sq 4 U /\ swap_antisymmetrise_ Qconsts U = Ok P /\
  ~ mat_eq (mmul exchange P) (mscale (- (1)) (mmul P exchange)).
Proof.
  exists (mone 4), p62. split; [split; reflexivity|]. split; [reflexivity|]. intros (_ & _ & H). specialize (H 0%nat 0%nat ltac:(cbn; lia) ltac:(cbn; lia)).
  assert (K : Qi_eqb (me (mmul exchange p62) 0%nat 0%nat) (me (mscale (- (1)) (mmul p62 exchange)) 0%nat 0%nat) = false) by (vm_compute; reflexivity).
  rewrite H, Qi_eqb_refl in K. discriminate K.
Qed.
Print Assumptions C62_antisymmetrise_refuted.

(** The nine slambdas: Hermitian, traceless, symmetric, orthogonal; and complete among the
    traceless matrices that commute with the exchange (spin.py:453 "should prove this!"). *)
Theorem C62_slambdas : forall (R : sring) (C : consts R), consts_ok C (fun _ => False) -> c_sqrt C 1 = 1 ->
  length (slambdas C) = 9%nat /\
  (forall T, In T (slambdas C) -> sq 4 T /\ mat_eq (madj T) T /\ mtrace T = 0 /\ swap_comm T) /\
  (forall a b A B, nth_error (slambdas C) a = Some A -> nth_error (slambdas C) b = Some B ->
     mtrace (mmul A B) = if Nat.eqb a b then snorm a else 0).
Proof.
  intros R C HC H1. split; [reflexivity|]. split.
  - intros T HT. split; [exact (proj1 (Forall_forall _ _) (slam_sq C HC H1) T HT)|]. destruct (slam_herm C HC H1 T HT) as [Hh Ht].
    split; [exact Hh|]. split; [exact Ht|exact (slam_swap C HC H1 T HT)].
  - exact (slam_orth C HC H1).
Qed.
Print Assumptions C62_slambdas.

Theorem C62_slambdas_complete : forall (R : sring) (C : consts R) (Q : mat R), consts_ok C (fun _ => False) -> c_sqrt C 1 = 1 ->
  sq 4 Q -> mtrace Q = 0 -> swap_comm Q -> forall a b, (a < 4)%nat -> (b < 4)%nat ->
  me Q a b = comb_entry (map (fun k => sweight (c_half C) k * mtrace (mmul Q (nth k (slambdas C) (mone 0)))) (seq 0 9)) (slambdas C) a b.
Proof. intros R C Q HC H1. exact (slam_complete C HC H1 Q). Qed.
Print Assumptions C62_slambdas_complete.

(** A symmetric matrix that is not in the list, and one that is not symmetric. *)
Definition q62 : mat Qi := lit 4 4 [qi 1 0; qi 2 1; qi 2 1; qi 0 3;  qi 5 0; qi 1 0; qi 7 0; qi 1 0;  qi 5 0; qi 7 0; qi 1 0; qi 1 0;  qi 0 0; qi 4 0; qi 4 0; qi (-3) 0].
Definition q62' : mat Qi := kron (lit 2 2 [qi 1 0; qi 0 0; qi 0 0; qi (-1) 0]) (lit 2 2 [qi 1 0; qi 0 0; qi 0 0; qi 1 0]).
Definition qclose (A B : mat Qi) : bool := Nat.eqb (mr A) (mr B) && Nat.eqb (mc A) (mc B) && forallb (fun i => forallb (fun j => Qi_eqb (me A i j) (me B i j)) (seq 0 (mc A))) (seq 0 (mr A)).
Definition qclose0 (A : mat Qi) : bool := forallb (fun i => forallb (fun j => Qi_eqb (me A i j) 0) (seq 0 (mc A))) (seq 0 (mr A)).
Lemma qclose0_ok : close0_ok qclose0.
Proof.
  intros A. unfold qclose0. rewrite forallb_forall. split.
  - intros H i j Hi Hj. specialize (H i). rewrite forallb_forall in H. apply Qi_eqb_eq. apply H; apply in_seq; lia.
  - intros H i Hi. apply forallb_forall. intros j Hj. apply in_seq in Hi, Hj. rewrite H by lia. apply Qi_eqb_refl.
Qed.
Example C62_example : consts_ok Qconsts (fun _ => False) /\ c_sqrt Qconsts 1 = 1 /\ close0_ok qclose0 /\
  Qi_eqb (mtrace q62) 0 = true /\ qclose (mmul exchange q62) (mmul q62 exchange) = true /\
  match is_swap_symmetric Qconsts qclose0 q62, is_swap_symmetric Qconsts qclose0 q62' with Ok true, Ok false => true | _, _ => false end = true.
Proof. split; [exact Qconsts_ok|]. split; [exact Qsqrt1|]. split; [exact qclose0_ok|]. repeat split; vm_compute; reflexivity. Qed.

(** * C63 *)
(** lambdas: fifteen orthogonal generators of su(4), complete. *)
Theorem C63_lambdas : forall (R : sring) (C : consts R) (r3 r6 : R), consts_ok C (fun _ => False) -> c_sqrt C 1 = 1 ->
  r3 * r3 * (1 + 1 + 1) = 1 -> r6 * r6 * ((1 + 1) * (1 + 1 + 1)) = 1 -> sconj r3 = r3 -> sconj r6 = r6 ->
  length (lambdas C r3 r6) = 15%nat /\ orthogonal_generators 4 (lambdas C r3 r6).
Proof. intros R C r3 r6 HC H1 H3 H6 K3 K6. split; [reflexivity|exact (lam_orth C HC H1 r3 r6 H3 H6 K3 K6)]. Qed.
Print Assumptions C63_lambdas.

Theorem C63_lambdas_complete : forall (R : sring) (C : consts R) (r3 r6 inv4 : R) (Q : mat R), consts_ok C (fun _ => False) -> c_sqrt C 1 = 1 ->
  r3 * r3 * (1 + 1 + 1) = 1 -> r6 * r6 * ((1 + 1) * (1 + 1 + 1)) = 1 -> sconj r3 = r3 -> sconj r6 = r6 -> sofnat 4 * inv4 = 1 ->
  sq 4 Q -> mtrace Q = 0 -> forall a b, (a < 4)%nat -> (b < 4)%nat ->
  me Q a b = comb_entry (map (fun T => c_half C * mtrace (mmul Q T)) (lambdas C r3 r6)) (lambdas C r3 r6) a b.
Proof. intros R C r3 r6 inv4 Q HC H1 H3 H6 K3 K6 H4. exact (lam_complete C HC H1 r3 r6 H3 H6 K3 K6 inv4 Q H4). Qed.
Print Assumptions C63_lambdas_complete.

(** The antiferromagnetic spinor is a triple of Pauli matrices. *)
Theorem C63_antiferro : forall (R : sring) (C : consts R) (ilog : nat -> nat -> option nat), consts_ok C (fun _ => False) ->
  exists x y z, antiferro C ilog = Ok [x; y; z] /\ triple ((1 + 1) * c_im C) x y z.
Proof. intros R C ilog HC. exact (antiferro_ok C HC ilog). Qed.
Print Assumptions C63_antiferro.

(** The ferromagnetic one has a wrong factor in its third component. *)
Theorem C63_ferro : forall (R : sring) (C : consts R) (ilog : nat -> nat -> option nat), consts_ok C (fun _ => False) ->
  exists x y z, ferro C ilog = Ok [x; y; z] /\
    mat_eq (mcomm x y) (mscale ((1 + 1) * (1 + 1) * c_im C) z) /\
    mat_eq (mcomm y z) (mscale (c_im C) x) /\ mat_eq (mcomm z x) (mscale (c_im C) y).
Proof. intros R C ilog HC. exact (ferro_ok C HC ilog). Qed.
Print Assumptions C63_ferro.

(** It is a triple for no factor: neither Pauli nor spin matrices. *)
Theorem C63_ferro_refuted : exists x y z : mat Qi, ferro Qconsts (fun _ _ => None) = Ok [x; y; z] /\ forall c, ~ triple c x y z.
Proof.
  destruct (ferro_lit Qconsts Qconsts_ok (fun _ _ => None)) as (x & y & z & E & Ex & Ey & Ez). exists x, y, z. split; [exact E|].
  intros c (Hxy & Hyz & _).
  assert (Cxy : Qi_eqb (me (mcomm (lit 4 4 [0; 0; 0; 1;  0; 0; 0; 0;  0; 0; 0; 0;  1; 0; 0; 0]) (lit 4 4 [0; 0; 0; - c_im Qconsts;  0; 0; 0; 0;  0; 0; 0; 0;  c_im Qconsts; 0; 0; 0])) 0%nat 0%nat) (qi 0 2) = true) by (vm_compute; reflexivity).
  assert (Cyz : Qi_eqb (me (mcomm (lit 4 4 [0; 0; 0; - c_im Qconsts;  0; 0; 0; 0;  0; 0; 0; 0;  c_im Qconsts; 0; 0; 0]) (lit 4 4 [c_half Qconsts; 0; 0; 0;  0; 0; 0; 0;  0; 0; 0; 0;  0; 0; 0; - c_half Qconsts])) 0%nat 3%nat) (qi 0 1) = true) by (vm_compute; reflexivity).
  apply Qi_eqb_eq in Cxy, Cyz.
  assert (E1 : qi 0 2 = c * c_half Qconsts).
  { rewrite <- Cxy. destruct Ex as (X1 & X2 & X3), Ey as (Y1 & Y2 & Y3), Ez as (Z1 & Z2 & Z3), Hxy as (_ & _ & H).
    specialize (H 0%nat 0%nat). cbn [mcomm mminus mmul mscale mr mc me] in H. rewrite X1, Y2 in H. specialize (H ltac:(cbn; lia) ltac:(cbn; lia)).
    rewrite Z3 in H by (rewrite ?Z1, ?Z2; cbn; lia). cbn [mcomm mminus mmul mscale mr mc me]. transitivity (c * me (lit 4 4 [c_half Qconsts; 0; 0; 0;  0; 0; 0; 0;  0; 0; 0; 0;  0; 0; 0; - c_half Qconsts]) 0%nat 0%nat); [|reflexivity].
    rewrite <- H. rewrite ?X2, ?Y2. f_equal; apply sum_ext; intros k Hk; rewrite X3, Y3 by (rewrite ?X1, ?X2, ?Y1, ?Y2; cbn in Hk |- *; lia); reflexivity. }
  assert (E2 : qi 0 1 = c * 1).
  { rewrite <- Cyz. destruct Ex as (X1 & X2 & X3), Ey as (Y1 & Y2 & Y3), Ez as (Z1 & Z2 & Z3), Hyz as (_ & _ & H).
    specialize (H 0%nat 3%nat). cbn [mcomm mminus mmul mscale mr mc me] in H. rewrite Y1, Z2 in H. specialize (H ltac:(cbn; lia) ltac:(cbn; lia)).
    rewrite X3 in H by (rewrite ?X1, ?X2; cbn; lia). cbn [mcomm mminus mmul mscale mr mc me]. transitivity (c * me (lit 4 4 [0; 0; 0; 1;  0; 0; 0; 0;  0; 0; 0; 0;  1; 0; 0; 0]) 0%nat 3%nat); [|reflexivity].
    rewrite <- H. rewrite ?Y2, ?Z2. f_equal; apply sum_ext; intros k Hk; rewrite Z3, Y3 by (rewrite ?Z1, ?Z2, ?Y1, ?Y2; cbn in Hk |- *; lia); reflexivity. }
  assert (Ec : c = qi 0 1) by (rewrite E2; destruct (s_th Qi) as [_ _ _ H1 H2 _ _ _ _]; rewrite H2; symmetry; apply H1).
  rewrite Ec in E1. assert (K : Qi_eqb (qi 0 2) (qi 0 1 * c_half Qconsts) = false) by (vm_compute; reflexivity). rewrite <- E1, Qi_eqb_refl in K. discriminate K.
Qed.
Print Assumptions C63_ferro_refuted.

Example C63_example : consts_ok Cconsts (fun _ => False) /\ c_sqrt Cconsts 1 = 1 /\ Cr3 * Cr3 * (1 + 1 + 1) = 1 /\ Cr6 * Cr6 * ((1 + 1) * (1 + 1 + 1)) = 1 /\
  sconj Cr3 = Cr3 /\ sconj Cr6 = Cr6 /\ sofnat 4 * Cinv 4 = 1.
Proof.
  split; [apply Cconsts_ok|]. split; [exact Csqrt1|]. split; [exact Cr3_ok|]. split; [exact Cr6_ok|]. split; [apply cre_conj|]. split; [apply cre_conj|]. apply (Cinv_ok 4); lia.
Qed.
Example C63_example_spinor : match antiferro Qconsts (fun _ _ => None) with
  | Ok [x; y; z] => Qi_eqb (me x 1 2)%nat 1 && Qi_eqb (me y 1 2)%nat (qi 0 1) && Qi_eqb (me z 2 2)%nat 1 | _ => false end = true.
Proof. vm_compute. reflexivity. Qed.

(** * C64 *)
(** components inverts the combination of generators, on both sides. *)
Theorem C64_components : forall (R : sring) (C : consts R) (scale inv : nat -> R) (N : nat) (Q : mat R), consts_ok C (fun _ => False) -> scale_ok scale N ->
  inverses inv N -> (1 <= N)%nat -> sq N Q -> mtrace Q = 0 ->
  exists v M, components C scale Q = Ok v /\ lincomb N v (su C scale N) = Ok M /\ mat_eq M Q.
Proof. intros R C scale inv N Q HC Hs. exact (components_complete C scale N HC Hs inv Q). Qed.
Print Assumptions C64_components.

Theorem C64_components_inverse : forall (R : sring) (C : consts R) (scale : nat -> R) (N : nat) (v : list R) (M : mat R), consts_ok C (fun _ => False) -> scale_ok scale N ->
  (1 <= N)%nat -> lincomb N v (su C scale N) = Ok M -> components C scale M = Ok v.
Proof. intros R C scale N v M HC Hs. exact (components_unique C scale N HC Hs v M). Qed.
Print Assumptions C64_components_inverse.

(** Hermitian matrices have real components. *)
Theorem C64_components_real : forall (R : sring) (C : consts R) (scale : nat -> R) (N : nat) (Q : mat R) (v : list R), consts_ok C (fun _ => False) -> scale_ok scale N ->
  sq N Q -> mat_eq (madj Q) Q -> components C scale Q = Ok v -> Forall (fun x => sconj x = x) v.
Proof. intros R. exact components_real. Qed.
Print Assumptions C64_components_real.

(** insu2N gives the components of the matrix with a two-level identity inserted. *)
Theorem C64_insu2N : forall (R : sring) (C : consts R) (scale inv : nat -> R) (n : nat) (v : list R) (wh : where_), consts_ok C (fun _ => False) ->
  scale_ok scale (2 * n) -> inverses inv (2 * n) -> (1 <= n)%nat -> place_ok wh n -> length v = (n * n - 1)%nat ->
  exists w X Y, insu2N C scale v wh = Ok w /\ lincomb n v (su C scale n) = Ok X /\ lincomb (2 * n) w (su C scale (2 * n)) = Ok Y /\ inserted wh n X Y.
Proof. intros R. exact insu2N_ok. Qed.
Print Assumptions C64_insu2N.

Example C64_example : forall n, consts_ok Cconsts (fun _ => False) /\ scale_ok Cscale (2 * n) /\ inverses Cinv (2 * n) /\ place_ok Mid 4 /\ place_ok Left_ 3 /\ place_ok Right_ 3.
Proof.
  intros n. split; [apply Cconsts_ok|]. split; [apply Cscale_ok|]. split; [apply Cinv_ok|]. split; [exists 2%nat; split; [lia|reflexivity]|]. split; exact I.
Qed.
