(** Property theorems C12, C13: the SVD-based canonicalisation sweeps. *)
From Coq Require Import QArith.
From Verif Require Import Alg QScalars ModelMPS SpecMPS ModelOrth SpecOrth ModelCanon SpecCanon
  ProofCanon ProofCanon2 ProofCanon3 ProofCanon4 Oracle Oracle2 ExOrth ExCanon.
Local Open Scope nat_scope.
Local Open Scope sr_scope.

(** C12: left_canonicalise without the backward sweep. *)
Theorem C12_left_canonicalise : forall (R : sring) (O : lapack2 R) (m : fmps R) D sweep_back minD,
  svd_ok O -> wf m -> uniform m -> 0 < fd m -> sweep_back && minD = false ->
  match left_canonicalise O m D sweep_back minD with
  | Err e => e = LinAlgError
  | Ok (m', Ls) => Ls = None /\ dims (fdata m') = dims (fdata m) /\
      fL m' = fL m /\ fd m' = fd m /\
      fcan m' = Some true /\ forth m' = Some true /\ foc m' = Some (fL m) /\
      Forall left_iso (fdata m') /\
      match D with Some D => Forall (fun A => dr A <= D) (fdata m') | None => True end /\
      (match D with Some D => 0 < D | None => minD = false end -> pos (fdata m) ->
         wf m' /\ pos (fdata m')) /\
      exists X, fnorm m' = Some X /\ mc X = 1%nat /\ mr X <= 1 /\
      (match D with Some D => 0 < D | None => minD = false end -> pos (fdata m) -> mr X = 1%nat) /\
      (fits_r D (fdata m) ->
       (forall s, incfg (dims (fdata m)) s ->
          psi m s = match mr X with O => 0 | S _ => psi m' s * me X 0 0 end) /\
       ((exists s, incfg (dims (fdata m)) s /\ psi m s <> 0) ->
          mr X = 1%nat /\ wf m' /\ pos (fdata m')))
  end.
Proof. exact (@left_can_ok). Qed.
Print Assumptions C12_left_canonicalise.

(** with the gauge-fixing sweep back (the default): the right environments are
    diagonal with non-zero entries, which are the returned Ls *)
Theorem C12_left_canonicalise_sweep_back : forall (R : sring) (O : lapack2 R) (m : fmps R) D,
  svd_ok O -> eig_ok O -> eig_zeros_last O -> @definite R -> @integral R -> (1:R) <> 0 ->
  wf m -> uniform m -> 0 < fd m -> keeps_something_r D m ->
  match left_canonicalise O m D true true with
  | Err e => e = LinAlgError
  | Ok (m', None) => False
  | Ok (m', Some Ls) => wf m' /\ dims (fdata m') = dims (fdata m) /\
      fL m' = fL m /\ fd m' = fd m /\
      fcan m' = Some true /\ forth m' = Some true /\ foc m' = Some (fL m) /\
      Forall left_iso (fdata m') /\
      match D with Some D => Forall (fun A => dr A <= D) (fdata m') | None => True end /\
      (exists X, fnorm m' = Some X /\ mr X = 1%nat /\ mc X = 1%nat /\
       (fits_r D (fdata m) -> exists w, w * sconj w = 1 /\
        forall s, incfg (dims (fdata m)) s -> psi m s = psi m' s * (me X 0 0 * w))) /\
      length Ls = S (fL m) /\
      (forall k A, nth_error (fdata m') k = Some A -> exists Sk X, nth_error Ls k = Some X /\
         mat_eq X (mdiag (dl A) Sk) /\ diag_rgram (skipn k (fdata m')) (dl A) Sk /\
         (forall x, x < dl A -> Sk x <> 0))
  end.
Proof. exact (@left_can_back). Qed.
Print Assumptions C12_left_canonicalise_sweep_back.

Theorem C12_fails_only_with_lapack : forall (R : sring) (O : lapack2 R) (m : fmps R) D sb minD,
  left_canonicalise O m D sb minD = Err LinAlgError ->
  (exists M, la_svd O M = None) \/ (exists M, la_svdf O M = None) \/ (exists M, la_eig O M = None).
Proof. exact (@left_can_err). Qed.
Print Assumptions C12_fails_only_with_lapack.

Example C12_example : svd_ok exLA2 /\ eig_ok exLA2 /\ eig_zeros_last exLA2 /\
  @definite Qi /\ @integral Qi /\ (1:Qi) <> 0 /\
  wf exCl /\ uniform exCl /\ 0 < fd exCl /\ keeps_something_r None exCl /\
  match left_canonicalise exLA2 exCl None true true with
  | Ok (m, Some [L0; L1; L2]) =>
      match fnorm m with Some X => Qi_eqb (me X 0 0) (qi 625 0) | None => false end &&
      Qi_eqb (psi exCl [1;1]%nat) (smul (qi 625 0) (psi m [1;1]%nat)) &&
      Qi_eqb (me L1 0 0) (qi (16#25) 0) && Qi_eqb (me L1 1 1) (qi (9#25) 0)
  | _ => false end = true.
Proof.
  exact (conj (proj1 exLA2_ok) (conj (proj1 (proj2 exLA2_ok)) (conj (proj2 (proj2 exLA2_ok))
   (conj Qi_definite (conj Qi_integral (conj Qi_one_zero (conj (proj1 exCl_wf)
   (conj (proj1 (proj2 exCl_wf)) (conj (proj1 (proj2 (proj2 exCl_wf)))
   (conj (proj2 (proj2 (proj2 (proj2 exCl_wf)))) ex_left_can)))))))))).
Qed.

Example C12_example_limit :
  match left_canonicalise exLA2 exCl (Some 2) false false with
  | Ok (m, None) => match fnorm m with Some X => Qi_eqb (me X 0 0) (qi 625 0) | None => false end
  | _ => false end = true.
Proof. exact ex_left_can_D. Qed.

(** C13: right_canonicalise without the backward sweep. *)
Theorem C13_right_canonicalise : forall (R : sring) (O : lapack2 R) (m : fmps R) D sweep_back minD,
  svd_ok O -> wf m -> uniform m -> 0 < fd m -> sweep_back && minD = false ->
  match right_canonicalise O m D sweep_back minD with
  | Err e => e = LinAlgError
  | Ok (m', Ls) => Ls = None /\ dims (fdata m') = dims (fdata m) /\
      fL m' = fL m /\ fd m' = fd m /\
      fcan m' = Some true /\ forth m' = Some true /\ foc m' = Some 0%nat /\ fnorm m' = fnorm m /\
      Forall right_iso (fdata m') /\
      match D with Some D => Forall (fun A => dl A <= D) (fdata m') | None => True end /\
      (match D with Some D => 0 < D | None => minD = false end -> pos (fdata m) ->
         wf m' /\ pos (fdata m')) /\
      (fits_l D (fdata m) ->
       (exists c, forall s, incfg (dims (fdata m)) s -> psi m s = c * psi m' s) /\
       ((exists s, incfg (dims (fdata m)) s /\ psi m s <> 0) -> wf m' /\ pos (fdata m')))
  end.
Proof. exact (@right_can_ok). Qed.
Print Assumptions C13_right_canonicalise.

Theorem C13_right_canonicalise_sweep_back : forall (R : sring) (O : lapack2 R) (m : fmps R) D,
  svd_ok O -> eig_ok O -> eig_zeros_last O -> @definite R -> @integral R -> (1:R) <> 0 ->
  wf m -> uniform m -> 0 < fd m -> keeps_something D m ->
  match right_canonicalise O m D true true with
  | Err e => e = LinAlgError
  | Ok (m', None) => False
  | Ok (m', Some Ls) => wf m' /\ dims (fdata m') = dims (fdata m) /\
      fL m' = fL m /\ fd m' = fd m /\
      fcan m' = Some true /\ forth m' = Some true /\ foc m' = Some 0%nat /\ fnorm m' = fnorm m /\
      Forall right_iso (fdata m') /\
      match D with Some D => Forall (fun A => dl A <= D) (fdata m') | None => True end /\
      (fits_l D (fdata m) ->
       exists c, forall s, incfg (dims (fdata m)) s -> psi m s = c * psi m' s) /\
      length Ls = S (fL m) /\
      (forall k A, nth_error (fdata m') k = Some A -> exists Sk X, nth_error Ls k = Some X /\
         mat_eq X (mdiag (dl A) Sk) /\ diag_gram (firstn k (fdata m')) (dl A) Sk /\
         (forall x, x < dl A -> Sk x <> 0))
  end.
Proof. exact (@right_can_back). Qed.
Print Assumptions C13_right_canonicalise_sweep_back.

Theorem C13_fails_only_with_lapack : forall (R : sring) (O : lapack2 R) (m : fmps R) D sb minD,
  right_canonicalise O m D sb minD = Err LinAlgError ->
  (exists M, la_svd O M = None) \/ (exists M, la_svdf O M = None) \/ (exists M, la_eig O M = None).
Proof. exact (@right_can_err). Qed.
Print Assumptions C13_fails_only_with_lapack.

(** Without the assumption that eig returns the zero eigenvalues last, the rank
    cut of the backward sweep can annihilate the state. *)
Theorem C13_unsorted_eigenvalues_refuted : exists (O : lapack2 Qi) (m m' : fmps Qi) Ls s,
  svd_ok O /\ eig_ok O /\ wf m /\ uniform m /\ 0 < fd m /\ pos (fdata m) /\
  right_canonicalise O m None true true = Ok (m', Ls) /\
  incfg (dims (fdata m)) s /\ psi m s <> 0 /\
  forall t, incfg (dims (fdata m)) t -> psi m' t = 0.
Proof. exact ex_unsorted. Qed.
Print Assumptions C13_unsorted_eigenvalues_refuted.

Example C13_example : svd_ok exLA2 /\ eig_ok exLA2 /\ eig_zeros_last exLA2 /\
  @definite Qi /\ @integral Qi /\ (1:Qi) <> 0 /\
  wf exC /\ uniform exC /\ 0 < fd exC /\ pos (fdata exC) /\
  (keeps_something None exC /\ keeps_something (Some 2%nat) exC) /\
  match right_canonicalise exLA2 exC None true true with
  | Ok (m, Some [L0; L1; L2]) =>
      qlist_eqb [psi exC [0;0]; psi exC [0;1]; psi exC [1;0]; psi exC [1;1]]%nat
        (map (smul (qi 625 0)) [psi m [0;0]; psi m [0;1]; psi m [1;0]; psi m [1;1]]%nat) &&
      Qi_eqb (me L1 0 0) (qi (16#25) 0) && Qi_eqb (me L1 1 1) (qi (9#25) 0)
  | _ => false end = true.
Proof.
  exact (conj (proj1 exLA2_ok) (conj (proj1 (proj2 exLA2_ok)) (conj (proj2 (proj2 exLA2_ok))
   (conj Qi_definite (conj Qi_integral (conj Qi_one_zero (conj (proj1 exC_wf)
   (conj (proj1 (proj2 exC_wf)) (conj (proj1 (proj2 (proj2 exC_wf)))
   (conj (proj1 (proj2 (proj2 (proj2 exC_wf))))
   (conj (proj2 (proj2 (proj2 (proj2 exC_wf)))) ex_right_can))))))))))).
Qed.

Example C13_example_limit :
  match right_canonicalise exLA2 exC (Some 2%nat) false false with
  | Ok (m, None) => Qi_eqb (psi exC [1;1]%nat) (smul (qi 625 0) (psi m [1;1]%nat))
  | _ => false end = true.
Proof. exact ex_right_can_D. Qed.
