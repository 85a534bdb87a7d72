(** C80: fixed points of the transfer map of two tensors. *)
From Coq Require Import QArith Qcanon.
From Verif Require Import Alg QScalars ModelMPS SpecMPS ModelOrth SpecOrth Oracle ModelCanon SpecCanon Oracle2 ExOrth ModelNcon SpecNcon ModelEk ModelTensor ModelNp
  ModelDecomp SpecDecomp ProofDecomp ExDecomp ModelLie ModelStruct SpecStruct ModelImps SpecImps SpecSpin
  ProofImps ProofImps3 ProofImps11 PropNcon ExImps.
Local Open Scope nat_scope.
Local Open Scope sr_scope.

Theorem C80_right : forall (R : sring) (nonneg : R -> Prop) (C : icalls R), icalls_ok nonneg C ->
  forall D (A B : site R) r0 eta r, square_site D A -> square_site D B -> phys A = phys B ->
  right_fixed_point C A B r0 = Ok (eta, r) ->
  2 <= D /\ mr r = D /\ mc r = D /\ (forall i j, i < D -> j < D -> tright A B (me r) i j = eta * me r i j) /\
  (@integral R -> (forall z, nonneg (z * sconj z)) -> ~ nonneg (- (1)) -> nonneg (me r 0%nat 0%nat)).
Proof. exact (@right_fixed_ok). Qed.
Print Assumptions C80_right.

(** the returned number is the eigenvalue times the norm n of the vector of eigs *)
Theorem C80_left : forall (R : sring) (nonneg : R -> Prop) (C : icalls R), icalls_ok nonneg C ->
  forall D (A B : site R) l0 e l, square_site D A -> square_site D B -> phys A = phys B ->
  left_fixed_point C A B l0 = Ok (e, l) ->
  2 <= D /\ mr l = D /\ mc l = D /\
  exists eta n, e = eta * n /\ (forall i j, i < D -> j < D -> tadj A B (me l) i j = eta * me l i j) /\
   ((forall z, nonneg (z * sconj z)) -> sum D (fun a => sum D (fun b => sconj (me l a b) * me l a b)) = 1) /\
   (@integral R -> (forall z, nonneg (z * sconj z)) -> ~ nonneg (- (1)) ->
    (forall x, de_sgn (ic_dec C) x = 0 \/ de_sgn (ic_dec C) x * sconj (de_sgn (ic_dec C) x) = 1) ->
    (forall n f v0 eta v, ic_arn C n f v0 = Some (eta, v) -> hdot v v = 1) -> n = 1).
Proof. exact (@left_fixed_ok). Qed.
Print Assumptions C80_left.

(** is_right_eigenvector and is_left_eigenvector accept for the reciprocal of the eigenvalue ... *)
Theorem C80_right_test : forall (R : sring) D (A B : site R) close (r : mat R) eta lam, square_site D A -> square_site D B -> phys A = phys B -> mr r = D -> mc r = D ->
  (forall M N, mat_eq M N -> close M N = true) -> (forall i j, i < D -> j < D -> tright A B (me r) i j = eta * me r i j) -> lam * eta = 1 ->
  is_right_eigenvector close A B r lam = Ok true.
Proof. exact (@is_right_ok). Qed.
Print Assumptions C80_right_test.
Theorem C80_left_test : forall (R : sring) D (A B : site R) close (l : mat R) eta lam, square_site D A -> square_site D B -> phys A = phys B -> mr l = D -> mc l = D ->
  (forall M N, mat_eq M N -> close M N = true) -> (forall i j, i < D -> j < D -> tadj A B (me l) i j = eta * me l i j) -> lam * eta = 1 ->
  is_left_eigenvector close A B l lam = Ok true.
Proof. exact (@is_left_ok). Qed.
Print Assumptions C80_left_test.

(** A pair of tensors with a complex eigenvector of norm one. *)
Definition fxA : site Qi := qsite 1 2 2 [qi 2 0; qi 0 0; qi 0 0; qi 0 2].
Definition fxv : list Qi := [qi (-9 # 25) (-12 # 25); qi 0 0; qi 0 0; qi (12 # 25) (16 # 25)].
Definition fxC : icalls Qi := icQ [(qi 4 0, fxv)] [] [] [] [qi 1 0; qi (3 # 5) (-4 # 5)].
Definition mclose (M N : mat Qi) : bool := Nat.eqb (mr M) (mr N) && Nat.eqb (mc M) (mc N) && ball (mr M) (fun i => ball (mc M) (fun j => Qi_eqb (me M i j) (me N i j))).

(** ... and not for the eigenvalue itself. *)
Theorem C80_test_refuted : exists (A : site Qi) (r : mat Qi) eta, square_site 2 A /\ mr r = 2%nat /\ mc r = 2%nat /\
  (forall i j, i < 2 -> j < 2 -> tright A A (me r) i j = eta * me r i j) /\ eta <> 1 /\
  is_right_eigenvector mclose A A r eta = Ok false /\ is_right_eigenvector mclose A A r 1 = Ok false.
Proof.
  exists fxA, (unvec 2 fxv), (qi 4 0). split; [split; reflexivity|]. split; [reflexivity|]. split; [reflexivity|]. split.
  - intros i j Hi Hj. apply Qi_eqb_eq.
    assert (H : ball 2 (fun i => ball 2 (fun j => Qi_eqb (tright fxA fxA (me (unvec 2 fxv)) i j) (qi 4 0 * me (unvec 2 fxv) i j))) = true) by (vm_compute; reflexivity).
    exact (ball_sound _ _ (ball_sound _ _ H i Hi) j Hj).
  - split; [apply Qi_neq; vm_compute; reflexivity|]. split; vm_compute; reflexivity.
Qed.
Print Assumptions C80_test_refuted.

Lemma square_nonneg (z : Qi) : nonnegQ (z * sconj z).
Proof.
  destruct z as [a b]. split; cbn; [ring|].
  assert (Hs : forall x : Qc, (0 <= x * x)%Qc).
  { intros x. destruct (Qclt_le_dec x 0) as [Hl|Hl].
    - apply Qclt_le_weak in Hl. apply Qcopp_le_compat in Hl. replace (- 0)%Qc with 0%Qc in Hl by ring. replace (x * x)%Qc with (- x * - x)%Qc by ring.
      rewrite <- (Qcmult_0_l (- x)). apply Qcmult_le_compat_r; assumption.
    - rewrite <- (Qcmult_0_l x). apply Qcmult_le_compat_r; assumption. }
  replace (a * a - b * - b)%Qc with (a * a + b * b)%Qc by ring. rewrite <- (Qcplus_0_l 0). apply Qcplus_le_compat; apply Hs.
Qed.

Example C80_example : icalls_ok nonnegQ fxC /\ square_site 2 fxA /\
  @integral Qi /\ (forall z : Qi, nonnegQ (z * sconj z)) /\ ~ nonnegQ (- (1)) /\
  (forall x, de_sgn (ic_dec fxC) x = 0 \/ de_sgn (ic_dec fxC) x * sconj (de_sgn (ic_dec fxC) x) = 1) /\
  (forall n f v0 eta v, ic_arn fxC n f v0 = Some (eta, v) -> hdot v v = 1) /\
  match right_fixed_point fxC fxA fxA None, left_fixed_point fxC fxA fxA None with
  | Ok (e, r), Ok (e', l) => Qi_eqb e (qi 4 0) && Qi_eqb e' (qi 4 0) && Qi_eqb (me r 0%nat 0%nat) (qi (3 # 5) 0) && Qi_eqb (me r 1%nat 1%nat) (qi (-4 # 5) 0) && Qi_eqb (me l 1%nat 1%nat) (qi (-4 # 5) 0)
  | _, _ => false end = true.
Proof.
  split; [apply icQ_ok; vm_compute; reflexivity|]. split; [split; reflexivity|]. split; [exact Qi_integral|]. split; [exact square_nonneg|].
  split. { intros [_ H]. vm_compute in H. apply H. reflexivity. }
  split. { intros x. cbn [fxC icQ ic_dec decQ de_sgn]. unfold sgnQ. destruct (Qccompare (fst x) 0%Qc); [left|right|right]; apply Qi_eqb_eq; vm_compute; reflexivity. }
  split. { intros n f v0 eta v H. cbn [fxC icQ ic_arn find] in H. destruct (eig_b n f (qi 4 0, fxv)); [|discriminate]. injection H as _ <-. apply Qi_eqb_eq. vm_compute. reflexivity. }
  vm_compute. reflexivity.
Qed.
