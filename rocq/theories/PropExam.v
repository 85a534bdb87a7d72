(** Property theorems C93 and C94: example states; the symplectic basis. *)
From Coq Require Import QArith Qcanon Reals Lra.
From Verif Require Import Alg QScalars ModelMPS SpecMPS ModelPad ModelNcon ModelTensor ModelSpin SpecSpin ModelOrth SpecOrth ModelCanon SpecCanon ModelTraj ModelExam SpecExam ProofExam ProofExam2 Oracle Oracle2 ExOrth ExCanon ExReal PropCanon.
Local Open Scope nat_scope.
Local Open Scope sr_scope.

(** C93: whatever singular vectors LAPACK chooses, bell(i) is normalised and, up to a factor,
    the documented state; its tensors are left canonical. *)
Theorem C93_bell : forall (R : sring) (O : lapack2 R), svd_ok O -> eig_ok O -> eig_zeros_last O -> @definite R -> @integral R -> (1 : R) <> 0 ->
  forall i, (1 <= i <= 4)%nat ->
  match bell O i with
  | Err e => e = LinAlgError
  | Ok None => False
  | Ok (Some m') => wf m' /\ dims (fdata m') = [2; 2]%nat /\ fL m' = 2%nat /\ fd m' = 2%nat /\ Forall left_iso (fdata m') /\ normalised_of (1 + 1) (bell_doc i) (psi m')
  end.
Proof. exact (@bell_ok). Qed.
Print Assumptions C93_bell.

Theorem C93_bell_orthogonal : forall (R : sring) (O : lapack2 R), svd_ok O -> eig_ok O -> eig_zeros_last O -> @definite R -> @integral R -> (1 : R) <> 0 ->
  forall i j a b, (1 <= i <= 4)%nat -> (1 <= j <= 4)%nat -> i <> j -> bell O i = Ok (Some a) -> bell O j = Ok (Some b) -> inner2 (psi a) (psi b) = 0.
Proof. exact (@bell_orth). Qed.
Print Assumptions C93_bell_orthogonal.

(** C93: comp_z(1..4) are the four basis states, with bond dimension 2. *)
Theorem C93_comp_z : forall (R : sring) a b, (a < 2)%nat -> (b < 2)%nat -> exists m : fmps R, comp_z (a * 2 + b + 1) = Ok m /\ wf m /\ uniform m /\ fL m = 2%nat /\ fd m = 2%nat /\ fD m = 2%nat /\
  forall s, incfg [2; 2]%nat s -> psi m s = if list_eq_dec Nat.eq_dec s [a; b] then 1 else 0.
Proof. exact (@comp_z_ok). Qed.
Print Assumptions C93_comp_z.

(** C93: comp_x(1..4) are ++, +-, -+ and --, normalised. *)
Theorem C93_comp_x : forall (R : sring) (O : lapack2 R), svd_ok O -> eig_ok O -> eig_zeros_last O -> @definite R -> @integral R -> (1 : R) <> 0 ->
  forall im, im * im = - (1) -> forall i, (1 <= i <= 4)%nat ->
  match comp_x O im i with
  | Err e => e = LinAlgError
  | Ok m' => wf m' /\ dims (fdata m') = [2; 2]%nat /\ fL m' = 2%nat /\ fd m' = 2%nat /\ Forall left_iso (fdata m') /\
      normalised_of ((1 + 1) * (1 + 1)) (match i with 1%nat => pm false false | 2%nat => pm false true | 3%nat => pm true false | _ => pm true true end) (psi m')
  end.
Proof.
  intros R O H1 H2 H3 H4 H5 H6 im Hi i Hi4. pose proof (comp_x_ok O H1 H2 H3 H4 H5 H6 im Hi i Hi4) as G.
  destruct i as [|[|[|[|[|]]]]]; try exact G; lia.
Qed.
Print Assumptions C93_comp_x.

Theorem C93_comp_x_orthogonal : forall (R : sring) (O : lapack2 R), svd_ok O -> eig_ok O -> eig_zeros_last O -> @definite R -> @integral R -> (1 : R) <> 0 ->
  forall im, im * im = - (1) -> forall i j a b, (1 <= i <= 4)%nat -> (1 <= j <= 4)%nat -> i <> j -> comp_x O im i = Ok a -> comp_x O im j = Ok b -> inner2 (psi a) (psi b) = 0.
Proof. exact (@comp_x_orth). Qed.
Print Assumptions C93_comp_x_orthogonal.

(** C93: the docstring gives (-, +) for comp_x(2): it never is. *)
Theorem C93_comp_x_docstring : forall (R : sring) (O : lapack2 R), svd_ok O -> eig_ok O -> eig_zeros_last O -> @definite R -> @integral R -> (1 : R) <> 0 ->
  forall im, im * im = - (1) -> forall a, comp_x O im 2 = Ok a -> ~ exists c, forall s, incfg [2; 2]%nat s -> psi a s = c * pm true false s.
Proof. exact (@comp_x_doc). Qed.
Print Assumptions C93_comp_x_docstring.

(** C93: the tensor of AKLT() has the component |S=2, m=0> on neighbouring sites, with weight
    -5/12 for every pair of equal bond states; the other components of spin 2 vanish. *)
Theorem C93_AKLT : forall (R : sring) (C : consts R) r23 r12 A, c_half C + c_half C = 1 ->
  (1 + 1 + 1) * (r23 * r23) = 1 + 1 -> (1 + 1) * (r12 * r12) = 1 -> AKLT_site C r23 r12 = Some A ->
  forall x y, (x < 2)%nat -> (y < 2)%nat ->
  spin2 A 0 x y = 0 /\ spin2 A 1 x y = 0 /\ (1 + 1 + 1) * ((1 + 1) * (1 + 1)) * spin2 A 2 x y = - ((1 + 1) * (1 + 1) + 1) * dlt x y /\ spin2 A 3 x y = 0 /\ spin2 A 4 x y = 0.
Proof. exact (@AKLT_spin2). Qed.
Print Assumptions C93_AKLT.

(** C93: so over the complex numbers AKLT() is not the AKLT state. *)
Theorem C93_AKLT_refuted : exists (r23 r12 : Cx) A, (1 + 1 + 1) * (r23 * r23) = 1 + 1 /\ (1 + 1) * (r12 * r12) = 1 /\ AKLT_site Cconsts r23 r12 = Some A /\ ~ no_spin2 A.
Proof.
  exists (re_ (sqrt (2 / 3))), (re_ (sqrt (1 / 2))). eexists.
  assert (H3 : (1 + 1 + 1) * (re_ (sqrt (2 / 3)) * re_ (sqrt (2 / 3))) = (1 + 1 : Cx)) by (rewrite cre_mul, sqrt_sqrt by lra; apply cx_eq; cbn; lra).
  assert (H2 : (1 + 1) * (re_ (sqrt (1 / 2)) * re_ (sqrt (1 / 2))) = (1 : Cx)) by (rewrite cre_mul, sqrt_sqrt by lra; apply cx_eq; cbn; lra).
  split; [exact H3|]. split; [exact H2|]. split; [reflexivity|]. intros H.
  assert (Hh : c_half Cconsts + c_half Cconsts = 1) by (apply cx_eq; cbn; lra).
  destruct (C93_AKLT Cx Cconsts _ _ _ Hh H3 H2 eq_refl 0 0 ltac:(lia) ltac:(lia)) as (_ & _ & E & _).
  rewrite (H 2%nat 0%nat 0%nat ltac:(lia) ltac:(cbn; lia) ltac:(cbn; lia)) in E. rewrite dlt_eq in E.
  apply (f_equal fst) in E. cbn in E. lra.
Qed.
Print Assumptions C93_AKLT_refuted.

(** C93: with -sqrt(1/3) sigma_z for the state Sz = 0 there is no component of spin 2. *)
Theorem C93_AKLT_fixed : forall (R : sring) (r23 r13 : R), (1 + 1) * (r13 * r13) = r23 * r23 -> no_spin2 (fixed_site r23 r13).
Proof. exact (@fixed_spin2). Qed.
Print Assumptions C93_AKLT_fixed.

(** C94: changebasis(n) takes (x_1, .., x_n, p_1, .., p_n) to (x_1, p_1, .., x_n, p_n). *)
Theorem C94_changebasis : forall (R : sring) n (x p : nat -> R) i, (i < 2 * n)%nat -> apply (changebasis n) (stacked n x p) i = interleaved x p i.
Proof. exact (@changebasis_ok). Qed.
Print Assumptions C94_changebasis.

(** C94: it is orthogonal, of shape 2n x 2n. *)
Theorem C94_orthogonal : forall (R : sring) n i j, (i < 2 * n)%nat -> (j < 2 * n)%nat ->
  mr (changebasis (R := R) n) = (2 * n)%nat /\ mc (changebasis (R := R) n) = (2 * n)%nat /\
  sum (2 * n) (fun k => me (changebasis n) i k * me (changebasis n) j k) = dlt i j :> R /\
  sum (2 * n) (fun k => me (changebasis n) k i * me (changebasis n) k j) = dlt i j :> R.
Proof.
  intros R n i j Hi Hj. destruct (cb_shape (R := R) n) as [H1 H2]. split; [exact H1|]. split; [exact H2|].
  split; [exact (changebasis_rows n i j Hi Hj)|exact (changebasis_cols n i j Hi Hj)].
Qed.
Print Assumptions C94_orthogonal.

(** C94: sympmat(n) is the form sum x p' - p x', and in the interleaved basis it is n blocks
    [[0, 1], [-1, 0]]. *)
Theorem C94_sympmat : forall (R : sring) n (x p x' p' : nat -> R), bilin (n + n) (stacked n x p) (sympmat n) (stacked n x' p') = omega n x p x' p'.
Proof. exact (@symp_form). Qed.
Print Assumptions C94_sympmat.

Theorem C94_blocks : forall (R : sring) n i j, (i < 2 * n)%nat -> (j < 2 * n)%nat ->
  bilin (2 * n) (fun k => me (changebasis n) i k) (sympmat n) (fun k => me (changebasis n) j k) =
    if Nat.even i then dlt j (i + 1)%nat else - dlt i (j + 1)%nat :> R.
Proof. exact (@symp_interleaved). Qed.
Print Assumptions C94_blocks.

(** * Examples: the contracts are met by an oracle; the tensors of bell(2); n = 2 *)
Example C93_example : svd_ok exLA2 /\ eig_ok exLA2 /\ eig_zeros_last exLA2 /\ @definite Qi /\ @integral Qi /\ (1 : Qi) <> 0 /\ (qi 0 1 : Qi) * qi 0 1 = - (1) /\
  match bell_data (R := Qi) 2 with Some l => qlist_eqb (map (fun s => amp l s 0 0) [[0; 0]; [0; 1]; [1; 0]; [1; 1]]%nat) [qi 1 0; qi 0 0; qi 0 0; qi (-1) 0] | None => false end = true.
Proof.
  split; [exact (proj1 exLA2_ok)|]. split; [exact (proj1 (proj2 exLA2_ok))|]. split; [exact (proj2 (proj2 exLA2_ok))|].
  destruct C12_example as (_ & _ & _ & H1 & H2 & H3 & _). split; [exact H1|]. split; [exact H2|]. split; [exact H3|].
  split; [apply Qi_eqb_eq; vm_compute; reflexivity|vm_compute; reflexivity].
Qed.
Example C94_example : qlist_eqb (map (fun i => apply (changebasis 2) (stacked 2 (fun k => qi (inject_Z (Z.of_nat k)) 0) (fun k => qi (inject_Z (Z.of_nat k + 10)) 0)) i) (seq 0 4))
  [qi 0 0; qi 10 0; qi 1 0; qi 11 0] = true.
Proof. vm_compute. reflexivity. Qed.
