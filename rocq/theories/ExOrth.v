(** Concrete runs of the orthogonalisation sweeps and of E, over the Gaussian
    rationals.  No counterpart in /repo. *)
From Coq Require Import QArith Qcanon.
From Verif Require Import Alg QScalars ModelMPS SpecMPS ModelOrth SpecOrth Oracle.
Local Open Scope nat_scope.

(** Two qubits, bond 2, entangled, norm 75. *)
Definition exO : fmps Qi := qobj
  [qsite 2 1 2 [qi 6 0; qi 11 0; qi 8 0; qi (-2) 0];
   qsite 2 2 1 [qi 4 0; qi 3 0; qi 0 (-3); qi 0 4]].

Definition exQ : mat Qi := qmat 2 2 [qi (3#5) 0; qi (4#5) 0; qi (4#5) 0; qi (-3#5) 0].

Definition exLA : lapack Qi := oracle
  [(exQ, qmat 2 2 [qi 10 0; qi 5 0; qi 0 0; qi 10 0]);
   (exQ, qmat 2 2 [qi 50 0; qi 25 0; qi 0 0; qi 50 0]);
   (qmat 4 1 [qi (11#15) 0; qi (6#15) 0; qi 0 (-2#15); qi 0 (8#15)], qmat 1 1 [qi 75 0])]
  [(qmat 2 2 [qi 5 0; qi 0 0; qi 0 0; qi 5 0],
    qmat 2 2 [qi (4#5) 0; qi 0 (-3#5); qi (3#5) 0; qi 0 (4#5)]);
   (qmat 1 1 [qi 75 0], qmat 1 4 [qi (6#15) 0; qi (11#15) 0; qi (8#15) 0; qi (-2#15) 0])]
  [(qi 75 0, qi (1#75) 0); (qi 1 0, qi 1 0)].

Lemma exO_wf : wf exO /\ pos (fdata exO).
Proof. repeat split; try discriminate; repeat constructor. Qed.

Definition runs {A} (r : res A) : bool := match r with Ok _ => true | Err _ => false end.

Lemma ex_left : lapack_ok exLA /\ wf exO /\ pos (fdata exO) /\
  match left_orthogonalise exLA exO 0 None with
  | Ok m => match fnorm m with Some X => Qi_eqb (me X 0 0) (qi 75 0) | None => false end
            && qlist_eqb [psi exO [0;0]; psi exO [0;1]; psi exO [1;0]; psi exO [1;1]]
                  [qi 57 0; qi 0 26; qi 26 0; qi 0 (-32)]
  | Err _ => false end = true.
Proof.
  split; [apply oracle_ok|]. split; [apply exO_wf|]. split; [apply exO_wf|]. vm_compute. reflexivity.
Qed.

Lemma ex_right : lapack_ok exLA /\ wf exO /\ pos (fdata exO) /\
  match right_orthogonalise exLA exO 0 None with
  | Ok m => match fnorm m with Some X => Qi_eqb (me X 0 0) (qi 75 0) | None => false end
            && Qi_eqb (psi m [1;1]) (qi 0 (-32#75))
  | Err _ => false end = true.
Proof.
  split; [apply oracle_ok|]. split; [apply exO_wf|]. split; [apply exO_wf|]. vm_compute. reflexivity.
Qed.

Lemma ex_mixed : lapack_ok exLA /\ wf exO /\ pos (fdata exO) /\ 1 < fL exO /\
  match mixed_orthogonalise exLA exO 1 with
  | Ok m => match fnorm m with Some X => Qi_eqb (me X 0 0) (qi 75 0) | None => false end
            && Qi_eqb (psi m [1;1]) (qi 0 (-32#75))
  | Err _ => false end = true.
Proof.
  split; [apply oracle_ok|]. split; [apply exO_wf|]. split; [apply exO_wf|].
  split; [repeat constructor|]. vm_compute. reflexivity.
Qed.

Lemma Qi_neq x y : Qi_eqb x y = false -> x <> y.
Proof.
  intros H E. subst. unfold Qi_eqb in H. destruct y as [a b]. simpl in H.
  rewrite !Qeq_bool_refl in H. discriminate.
Qed.

(** The value of a run that succeeds. *)
Definition the {A} (d : A) (r : res A) : A := match r with Ok x => x | Err _ => d end.

Lemma the_ok {A} (d : A) r : runs r = true -> r = Ok (the d r).
Proof. destruct r; [reflexivity|discriminate]. Qed.

Definition ex0 : fmps Qi := the exO (mixed_orthogonalise exLA exO 0).

Lemma ex_scale_lost : exists (O : lapack Qi) (m m' : fmps Qi) X s,
  lapack_ok O /\ wf m /\ pos (fdata m) /\ mixed_orthogonalise O m 0 = Ok m' /\
  fnorm m' = Some X /\ incfg (dims (fdata m)) s /\ psi m s <> smul (me X 0 0) (psi m' s).
Proof.
  exists exLA, exO, ex0.
  assert (H : match fnorm ex0 with Some X => negb (Qi_eqb (psi exO [0;0])
     (smul (me X 0 0) (psi ex0 [0;0]))) | None => false end = true) by (vm_compute; reflexivity).
  destruct (fnorm ex0) as [X|]; [|discriminate]. exists X, [0;0].
  split; [apply oracle_ok|]. split; [apply exO_wf|]. split; [apply exO_wf|].
  split; [apply the_ok; vm_compute; reflexivity|]. split; [reflexivity|].
  split; [repeat constructor|]. apply Qi_neq. apply negb_true_iff, H.
Qed.

(** Pauli Y. *)
Definition qY : mat Qi := qmat 2 2 [qi 0 0; qi 0 (-1); qi 0 1; qi 0 0].

Lemma ex_E : lapack_ok exLA /\ wf exO /\ pos (fdata exO) /\ 1 < fL exO /\
  mr qY = nth 1 (dims (fdata exO)) 0 /\ mc qY = nth 1 (dims (fdata exO)) 0 /\
  match mps_E exLA exO qY 1 with
  | Ok (v, _) => Qi_eqb v (qi (-52#225) 0)
  | Err _ => false end = true.
Proof.
  split; [apply oracle_ok|]. split; [apply exO_wf|]. split; [apply exO_wf|].
  split; [repeat constructor|]. split; [reflexivity|]. split; [reflexivity|].
  vm_compute. reflexivity.
Qed.
