(** Property theorems C06-C08: the orthogonalisation sweeps. *)
From Coq Require Import QArith.
From Verif Require Import Alg QScalars ModelMPS SpecMPS ModelOrth SpecOrth ProofOrth
  ProofOrth2 ProofOrth3 ProofOrth4 Oracle ExOrth.
Local Open Scope nat_scope.
Local Open Scope sr_scope.

(** C06: left_orthogonalise. *)
Theorem C06_left_orthogonalise : forall (R : sring) (O : lapack R) (m : fmps R),
  lapack_ok O -> wf m -> pos (fdata m) ->
  match left_orthogonalise O m 0 None with
  | Err e => e = LinAlgError
  | Ok m' => wf m' /\ pos (fdata m') /\ dims (fdata m') = dims (fdata m) /\
      fL m' = fL m /\ fd m' = fd m /\ fD m' = fD m /\
      fcan m' = fcan m /\ forth m' = Some true /\ foc m' = Some (fL m) /\
      Forall left_iso (fdata m') /\
      exists X, fnorm m' = Some X /\ mr X = 1%nat /\ mc X = 1%nat /\
      (forall s, incfg (dims (fdata m)) s -> psi m s = psi m' s * me X 0 0)
  end.
Proof. exact (@left_orth_full). Qed.
Print Assumptions C06_left_orthogonalise.

Theorem C06_left_orthogonalise_range : forall (R : sring) (O : lapack R) (m : fmps R) fr to,
  lapack_ok O -> wf m -> pos (fdata m) -> fr <= to -> to < fL m ->
  match left_orthogonalise O m fr (Some to) with
  | Err e => e = LinAlgError
  | Ok m' => wf m' /\ pos (fdata m') /\ dims (fdata m') = dims (fdata m) /\
      fL m' = fL m /\ fd m' = fd m /\ fD m' = fD m /\
      fcan m' = fcan m /\ forth m' = forth m /\ foc m' = foc m /\ fnorm m' = fnorm m /\
      (forall k A, (fr <= k < to)%nat -> nth_error (fdata m') k = Some A -> left_iso A) /\
      (forall k, (k < fr \/ to < k)%nat -> nth_error (fdata m') k = nth_error (fdata m) k) /\
      (forall s, incfg (dims (fdata m)) s -> psi m' s = psi m s)
  end.
Proof. exact (@left_orth_partial). Qed.
Print Assumptions C06_left_orthogonalise_range.

Theorem C06_left_orthogonalise_to_the_end : forall (R : sring) (O : lapack R) (m : fmps R) fr,
  lapack_ok O -> wf m -> pos (fdata m) -> 0 < fr -> fr < fL m ->
  match left_orthogonalise O m fr None with
  | Err e => e = LinAlgError
  | Ok m' => wf m' /\ pos (fdata m') /\ dims (fdata m') = dims (fdata m) /\
      forth m' = forth m /\ foc m' = foc m /\
      (forall k A, (fr <= k)%nat -> nth_error (fdata m') k = Some A -> left_iso A) /\
      (forall k, (k < fr)%nat -> nth_error (fdata m') k = nth_error (fdata m) k) /\
      exists X, fnorm m' = Some X /\ mr X = 1%nat /\ mc X = 1%nat /\
      (forall s, incfg (dims (fdata m)) s -> psi m s = psi m' s * me X 0 0)
  end.
Proof. exact (@left_orth_tail). Qed.
Print Assumptions C06_left_orthogonalise_to_the_end.

(** a sweep over a well-formed chain fails only when the QR routine fails *)
Theorem C06_fails_only_with_qr : forall (R : sring) (O : lapack R) (m : fmps R) e,
  lapack_ok O -> wf m -> pos (fdata m) ->
  left_orthogonalise O m 0 None = Err e -> e = LinAlgError /\ exists M, la_qr O M = None.
Proof. exact (@left_fails). Qed.
Print Assumptions C06_fails_only_with_qr.

Theorem C06_range_fails_only_with_qr : forall (R : sring) (O : lapack R) (m : fmps R) fr to e,
  lapack_ok O -> wf m -> pos (fdata m) -> fr <= to -> to < fL m ->
  left_orthogonalise O m fr (Some to) = Err e -> e = LinAlgError /\ exists M, la_qr O M = None.
Proof. exact (@left_range_fails). Qed.
Print Assumptions C06_range_fails_only_with_qr.

Example C06_example : lapack_ok exLA /\ wf exO /\ pos (fdata exO) /\
  match left_orthogonalise exLA exO 0 None with
  | Ok m => match fnorm m with Some X => Qi_eqb (me X 0 0) (qi 75 0) | None => false end
            && qlist_eqb [psi exO [0;0]; psi exO [0;1]; psi exO [1;0]; psi exO [1;1]]%nat
                  [qi 57 0; qi 0 26; qi 26 0; qi 0 (-32)]
  | Err _ => false end = true.
Proof. exact ex_left. Qed.

(** C07: right_orthogonalise. *)
Theorem C07_right_orthogonalise : forall (R : sring) (O : lapack R) (m : fmps R),
  lapack_ok O -> wf m -> pos (fdata m) ->
  match right_orthogonalise O m 0 None with
  | Err e => e = LinAlgError
  | Ok m' => wf m' /\ pos (fdata m') /\ dims (fdata m') = dims (fdata m) /\
      fL m' = fL m /\ fd m' = fd m /\ fD m' = fD m /\
      fcan m' = fcan m /\ forth m' = Some true /\ foc m' = Some 0%nat /\
      Forall right_iso (fdata m') /\
      exists X, fnorm m' = Some X /\ mr X = 1%nat /\ mc X = 1%nat /\
      (forall s, incfg (dims (fdata m)) s -> psi m s = me X 0 0 * psi m' s)
  end.
Proof. exact (@right_orth_full). Qed.
Print Assumptions C07_right_orthogonalise.

Theorem C07_right_orthogonalise_range : forall (R : sring) (O : lapack R) (m : fmps R) fr to,
  lapack_ok O -> wf m -> pos (fdata m) -> 0 < fr -> fr <= to -> to <= fL m ->
  match right_orthogonalise O m fr (Some to) with
  | Err e => e = LinAlgError
  | Ok m' => wf m' /\ pos (fdata m') /\ dims (fdata m') = dims (fdata m) /\
      fL m' = fL m /\ fd m' = fd m /\ fD m' = fD m /\
      fcan m' = fcan m /\ forth m' = forth m /\ foc m' = foc m /\ fnorm m' = fnorm m /\
      (forall k A, (fr <= k < to)%nat -> nth_error (fdata m') k = Some A -> right_iso A) /\
      (forall k, (S k < fr \/ to <= k)%nat -> nth_error (fdata m') k = nth_error (fdata m) k) /\
      (forall s, incfg (dims (fdata m)) s -> psi m' s = psi m s)
  end.
Proof. exact (@right_orth_partial). Qed.
Print Assumptions C07_right_orthogonalise_range.

Theorem C07_right_orthogonalise_from_the_start : forall (R : sring) (O : lapack R) (m : fmps R) to,
  lapack_ok O -> wf m -> pos (fdata m) -> 0 < to -> to < fL m ->
  match right_orthogonalise O m 0 (Some to) with
  | Err e => e = LinAlgError
  | Ok m' => wf m' /\ pos (fdata m') /\ dims (fdata m') = dims (fdata m) /\
      forth m' = forth m /\ foc m' = foc m /\
      (forall k A, (k < to)%nat -> nth_error (fdata m') k = Some A -> right_iso A) /\
      (forall k, (to <= k)%nat -> nth_error (fdata m') k = nth_error (fdata m) k) /\
      exists X, fnorm m' = Some X /\ mr X = 1%nat /\ mc X = 1%nat /\
      (forall s, incfg (dims (fdata m)) s -> psi m s = me X 0 0 * psi m' s)
  end.
Proof. exact (@right_orth_head). Qed.
Print Assumptions C07_right_orthogonalise_from_the_start.

Theorem C07_fails_only_with_rq : forall (R : sring) (O : lapack R) (m : fmps R) e,
  lapack_ok O -> wf m -> pos (fdata m) ->
  right_orthogonalise O m 0 None = Err e -> e = LinAlgError /\ exists M, la_rq O M = None.
Proof. exact (@right_fails). Qed.
Print Assumptions C07_fails_only_with_rq.

Theorem C07_range_fails_only_with_rq : forall (R : sring) (O : lapack R) (m : fmps R) fr to e,
  lapack_ok O -> wf m -> pos (fdata m) -> 0 < fr -> fr <= to -> to <= fL m ->
  right_orthogonalise O m fr (Some to) = Err e -> e = LinAlgError /\ exists M, la_rq O M = None.
Proof. exact (@right_range_fails). Qed.
Print Assumptions C07_range_fails_only_with_rq.

Example C07_example : lapack_ok exLA /\ wf exO /\ pos (fdata exO) /\
  match right_orthogonalise exLA exO 0 None with
  | Ok m => match fnorm m with Some X => Qi_eqb (me X 0 0) (qi 75 0) | None => false end
            && Qi_eqb (psi m [1;1]%nat) (qi 0 (-32#75))
  | Err _ => false end = true.
Proof. exact ex_right. Qed.

(** C08: mixed_orthogonalise.  For k = 0 only norm_^2 = 1 is promised: *)
Theorem C08_mixed_orthogonalise : forall (R : sring) (O : lapack R) (m : fmps R) k,
  lapack_ok O -> wf m -> pos (fdata m) -> k < fL m ->
  match mixed_orthogonalise O m k with
  | Err e => e = LinAlgError \/ e = Exception_
  | Ok m' => wf m' /\ pos (fdata m') /\ dims (fdata m') = dims (fdata m) /\
      fL m' = fL m /\ fd m' = fd m /\ fD m' = fD m /\ fcan m' = fcan m /\
      forth m' = Some true /\ foc m' = Some k /\
      mixed_at k (fdata m') /\
      sumcfg (dims (fdata m)) (fun s => psi m' s * sconj (psi m' s)) = 1 /\
      exists c n, fnorm m' = Some (mkMat 1 1 (fun _ _ => n)) /\
        (forall s, incfg (dims (fdata m)) s -> psi m s = c * psi m' s) /\
        ((0 < k)%nat -> c = n) /\ (k = 0%nat -> n * n = 1)
  end.
Proof. exact (@mixed_orth_ok). Qed.
Print Assumptions C08_mixed_orthogonalise.

(** ... and the reported norm_ is then not the norm of the state: *)
Theorem C08_scale_at_site_0_refuted : exists (O : lapack Qi) (m m' : fmps Qi) X s,
  lapack_ok O /\ wf m /\ pos (fdata m) /\ mixed_orthogonalise O m 0 = Ok m' /\
  fnorm m' = Some X /\ incfg (dims (fdata m)) s /\ psi m s <> me X 0 0 * psi m' s.
Proof. exact ex_scale_lost. Qed.
Print Assumptions C08_scale_at_site_0_refuted.

Theorem C08_fails_only_with_lapack : forall (R : sring) (O : lapack R) (m : fmps R) k e,
  lapack_ok O -> wf m -> pos (fdata m) -> k < fL m -> mixed_orthogonalise O m k = Err e ->
  (e = LinAlgError /\ exists M, la_qr O M = None \/ la_rq O M = None) \/
  (e = Exception_ /\ exists A, la_nrm O A = None).
Proof. exact (@mixed_fails). Qed.
Print Assumptions C08_fails_only_with_lapack.

Example C08_example : lapack_ok exLA /\ wf exO /\ pos (fdata exO) /\ 1 < fL exO /\
  match mixed_orthogonalise exLA exO 1 with
  | Ok m => match fnorm m with Some X => Qi_eqb (me X 0 0) (qi 75 0) | None => false end
            && Qi_eqb (psi m [1;1]%nat) (qi 0 (-32#75))
  | Err _ => false end = true.
Proof. exact ex_mixed. Qed.
