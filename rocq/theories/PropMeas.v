(** Property theorems C10, C11: local measurements and call histories. *)
From Coq Require Import QArith.
From Verif Require Import Alg QScalars ModelMPS SpecMPS ModelOrth SpecOrth ModelCanon SpecCanon
  ProofMeas ProofCanon3 ProofCanon4 SpecHist ProofHist Oracle Oracle2 ExOrth ExCanon ExMeas.
Local Open Scope nat_scope.
Local Open Scope sr_scope.

(** C10: Es returns <psi|op|psi>/<psi|psi> for every operator of the list. *)
Theorem C10_Es : forall (R : sring) (O : lapack2 R) (m : fmps R) ops k,
  svd_ok O -> wf m -> uniform m -> pos (fdata m) -> 0 < fd m -> k < fL m ->
  Forall (fun op => mr op = fd m /\ mc op = fd m) ops ->
  match mps_Es O m ops k with
  | Err e => e = LinAlgError
  | Ok (vs, m') => wf m' /\ dims (fdata m') = dims (fdata m) /\
      (exists c, forall s, incfg (dims (fdata m)) s -> psi m s = c * psi m' s) /\
      length vs = length ops /\
      forall n op, nth_error ops n = Some op -> exists v, nth_error vs n = Some v /\
      v * sumcfg (dims (fdata m)) (fun s => psi m s * sconj (psi m s))
      = sre (expect1 (dims (fdata m)) (psi m) k (me op))
  end.
Proof. exact (@Es_ok_d). Qed.
Print Assumptions C10_Es.

(** E_ returns the expectation of the transposed operator. *)
Theorem C10_E_underscore_is_transposed : forall (R : sring) (O : lapack2 R) (m : fmps R) op k,
  svd_ok O -> wf m -> uniform m -> pos (fdata m) -> 0 < fd m -> k < fL m ->
  mr op = fd m /\ mc op = fd m ->
  match mps_E_ O m op k with
  | Err e => e = LinAlgError
  | Ok (v, m') => wf m' /\ dims (fdata m') = dims (fdata m) /\
      (exists c, forall s, incfg (dims (fdata m)) s -> psi m s = c * psi m' s) /\
      v * sumcfg (dims (fdata m)) (fun s => psi m s * sconj (psi m s))
      = sre (expect1 (dims (fdata m)) (psi m) k (fun s t => me op t s))
  end.
Proof. exact (@E__ok_d). Qed.
Print Assumptions C10_E_underscore_is_transposed.

(** E too, on objects whose flags are truthful. *)
Theorem C10_E_is_transposed : forall (R : sring) (O : lapack R) (m : fmps R) op k,
  lapack_ok O -> wf m -> pos (fdata m) -> flags_set m -> flags_true m -> k < fL m ->
  mr op = nth k (dims (fdata m)) 0%nat -> mc op = nth k (dims (fdata m)) 0%nat ->
  match mps_E O m op k with
  | Err e => e = LinAlgError \/ e = Exception_
  | Ok (v, m') => wf m' /\ pos (fdata m') /\ dims (fdata m') = dims (fdata m) /\
      flags_set m' /\ flags_true m' /\ foc m' = Some k /\ fL m' = fL m /\ fd m' = fd m /\
      mixed_at k (fdata m') /\
      sumcfg (dims (fdata m)) (fun s => psi m' s * sconj (psi m' s)) = 1 /\
      (exists c, forall s, incfg (dims (fdata m)) s -> psi m s = c * psi m' s) /\
      v * sumcfg (dims (fdata m)) (fun s => psi m s * sconj (psi m s))
      = sre (expect1 (dims (fdata m)) (psi m) k (fun s t => me op t s))
  end.
Proof. exact (@E_ok). Qed.
Print Assumptions C10_E_is_transposed.

(** so "E(op,k) is the expectation of op" is false *)
Theorem C10_E_refuted : exists (O : lapack Qi) (m m' : fmps Qi) op v,
  lapack_ok O /\ wf m /\ pos (fdata m) /\ mr op = 2%nat /\ mc op = 2%nat /\
  mps_E O m op 1 = Ok (v, m') /\
  v * (sumcfg (dims (fdata m)) (fun s => psi m s * sconj (psi m s))) <>
  sre (expect1 (dims (fdata m)) (psi m) 1 (me op)).
Proof. exact ex_E_transposes. Qed.
Print Assumptions C10_E_refuted.

Theorem C10_E_underscore_refuted : exists (O : lapack2 Qi) (m m' : fmps Qi) op v,
  svd_ok O /\ wf m /\ uniform m /\ pos (fdata m) /\ mr op = 2%nat /\ mc op = 2%nat /\
  mps_E_ O m op 1 = Ok (v, m') /\
  v * (sumcfg (dims (fdata m)) (fun s => psi m s * sconj (psi m s))) <>
  sre (expect1 (dims (fdata m)) (psi m) 1 (me op)).
Proof. exact ex_E__transposes. Qed.
Print Assumptions C10_E_underscore_refuted.

Theorem C10_Es_fails_only_with_lapack : forall (R : sring) (O : lapack2 R) (m : fmps R) ops k,
  mps_Es O m ops k = Err LinAlgError ->
  (exists M, la_svd O M = None) \/ (exists M, la_svdf O M = None) \/ (exists M, la_eig O M = None).
Proof. exact (@mps_Es_err). Qed.
Print Assumptions C10_Es_fails_only_with_lapack.

Example C10_example : svd_ok exLA2 /\ wf exC /\ uniform exC /\ pos (fdata exC) /\ 0 < fd exC /\
  match mps_Es exLA2 exC [qP0; qY] 1 with
  | Ok (vs, m) => qlist_eqb vs [qi (7984#15625) 0; qi (-1176#15625) 0]
  | _ => false end = true /\
  match mps_E_ exLA2 exC qY 1 with
  | Ok (v, m) => Qi_eqb v (qi (1176#15625) 0)
  | _ => false end = true.
Proof.
  exact (conj (proj1 exLA2_ok) (conj (proj1 exC_wf) (conj (proj1 (proj2 exC_wf))
    (conj (proj1 (proj2 (proj2 (proj2 exC_wf)))) (conj (proj1 (proj2 (proj2 exC_wf))) (conj ex_Es ex_E_)))))).
Qed.

(** C11: after every history of the listed calls, E contracts at the true
    centre (or moves it there first) and returns the right number. *)
Theorem C11_E_after_every_history : forall (R : sring) (O : lapack2 R) (P : lapack R) L d m op k,
  svd_ok O -> eig_ok O -> eig_zeros_last O -> lapack_ok P ->
  @definite R -> @integral R -> (1:R) <> 0 ->
  reachable O P L d m -> mr op = d -> mc op = d -> k < L ->
  match mps_E P m op k with
  | Err e => e = LinAlgError \/ e = Exception_
  | Ok (v, m') => mixed_at k (fdata m') /\
      (exists c, forall s, incfg (dims (fdata m)) s -> psi m s = c * psi m' s) /\
      v * sumcfg (dims (fdata m)) (fun s => psi m s * sconj (psi m s))
      = sre (expect1 (dims (fdata m)) (psi m) k (fun s t => me op t s))
  end.
Proof. exact (@reachable_E). Qed.
Print Assumptions C11_E_after_every_history.

(** the excluded calls: mixed_canonicalise(k > 0) ... *)
Theorem C11_after_mixed_canonicalise_refuted :
  exists (O : lapack2 Qi) (P : lapack Qi) (m m' m'' : fmps Qi) op v,
  svd_ok O /\ lapack_ok P /\ wf m /\ uniform m /\ pos (fdata m) /\
  mixed_canonicalise O m 1 None true = Ok m' /\ mps_E P m' op 0 = Ok (v, m'') /\
  v * (sumcfg (dims (fdata m)) (fun s => psi m' s * sconj (psi m' s))) <>
  sre (expect1 (dims (fdata m)) (psi m') 0 (fun s t => me op t s)).
Proof. exact ex_stale_centre. Qed.
Print Assumptions C11_after_mixed_canonicalise_refuted.

(** ... a partial sweep after a full one ... *)
Theorem C11_after_partial_sweep_refuted : exists (P : lapack Qi) (m m1 m2 m3 : fmps Qi) op v,
  lapack_ok P /\ wf m /\ pos (fdata m) /\
  right_orthogonalise P m 0 None = Ok m1 /\ left_orthogonalise P m1 0 (Some 1%nat) = Ok m2 /\
  mps_E P m2 op 0 = Ok (v, m3) /\
  v * (sumcfg (dims (fdata m2)) (fun s => psi m2 s * sconj (psi m2 s))) <>
  sre (expect1 (dims (fdata m2)) (psi m2) 0 (fun s t => me op t s)).
Proof. exact ex_partial_sweep. Qed.
Print Assumptions C11_after_partial_sweep_refuted.

(** ... and post_select, after which E raises whenever it has to move the centre *)
Theorem C11_after_post_select_raises : forall (R : sring) (P : lapack R) (m m' : fmps R) k w op k',
  wf m -> 2 <= fL m -> k < fL m -> post_select m k w = Ok m' -> k' < fL m ->
  needs_centre m' [k'] = Ok true -> mps_E P m' op k' = Err IndexError.
Proof. exact (@post_select_then_E). Qed.
Print Assumptions C11_after_post_select_raises.

Example C11_example : svd_ok exLA2 /\ eig_ok exLA2 /\ eig_zeros_last exLA2 /\ lapack_ok exLAh /\
  @definite Qi /\ @integral Qi /\ (@s1 Qi) <> s0 /\
  reachable exLA2 exLAh 2 2 (snd exHb) /\
  match foc exHa, foc (snd exHb) with Some 0%nat, Some 1%nat => true | _, _ => false end = true.
Proof. exact ex_history. Qed.

Example C11_example_post_select : wf exO /\ 2 <= fL exO /\ 0 < fL exO /\
  match post_select exO 0 1 with
  | Ok m' => match needs_centre m' [0]%nat with Ok true => true | _ => false end
  | Err _ => false end = true.
Proof. exact ex_post_select. Qed.
