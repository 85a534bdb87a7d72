(** Concrete call histories.  No counterpart in /repo. *)
From Coq Require Import QArith Qcanon.
From Verif Require Import Alg QScalars ModelMPS SpecMPS ModelOrth SpecOrth ModelCanon SpecCanon
  Oracle Oracle2 ExOrth ExCanon SpecHist.
Local Open Scope nat_scope.

(** right_orthogonalise(), then left_orthogonalise(0, 1), then E(P0, 0). *)
Definition exLAq : lapack Qi := oracle
  [(exQ, qmat 2 2 [qi (10#15) 0; qi (5#15) 0; qi 0 0; qi (10#15) 0])]
  [(qmat 2 2 [qi 5 0; qi 0 0; qi 0 0; qi 5 0],
    qmat 2 2 [qi (4#5) 0; qi 0 (-3#5); qi (3#5) 0; qi 0 (4#5)]);
   (qmat 1 1 [qi 75 0], qmat 1 4 [qi (6#15) 0; qi (11#15) 0; qi (8#15) 0; qi (-2#15) 0])]
  [].
Definition exR1 : fmps Qi := the exO (right_orthogonalise exLAq exO 0 None).
Definition exR2 : fmps Qi := the exO (left_orthogonalise exLAq exR1 0 (Some 1)).
Definition exR3 : Qi * fmps Qi := the (s0, exO) (mps_E exLAq exR2 qP0 0).

Lemma ex_partial_sweep : exists (P : lapack Qi) (m m1 m2 m3 : fmps Qi) op v,
  lapack_ok P /\ wf m /\ pos (fdata m) /\
  right_orthogonalise P m 0 None = Ok m1 /\ left_orthogonalise P m1 0 (Some 1) = Ok m2 /\
  mps_E P m2 op 0 = Ok (v, m3) /\
  smul v (sumcfg (dims (fdata m2)) (fun s => smul (psi m2 s) (sconj (psi m2 s)))) <>
  sre (expect1 (dims (fdata m2)) (psi m2) 0 (fun s t => me op t s)).
Proof.
  exists exLAq, exO, exR1, exR2, (snd exR3), qP0, (fst exR3).
  split; [apply oracle_ok|]. split; [apply exO_wf|]. split; [apply exO_wf|].
  split; [apply the_ok; vm_compute; reflexivity|].
  split; [apply the_ok; vm_compute; reflexivity|].
  split; [rewrite <- surjective_pairing; apply the_ok; vm_compute; reflexivity|].
  apply Qi_neq. vm_compute. reflexivity.
Qed.


(** A history: construct, right_orthogonalise, E at site 1. *)
Definition exLAh : lapack Qi := oracle
  [(exQ, qmat 2 2 [qi (10#15) 0; qi (5#15) 0; qi 0 0; qi (10#15) 0])]
  [(qmat 2 2 [qi 5 0; qi 0 0; qi 0 0; qi 5 0],
    qmat 2 2 [qi (4#5) 0; qi 0 (-3#5); qi (3#5) 0; qi 0 (4#5)]);
   (qmat 2 2 [qi 1 0; qi 0 0; qi 0 0; qi 1 0],
    qmat 2 2 [qi (4#5) 0; qi 0 (-3#5); qi (3#5) 0; qi 0 (4#5)]);
   (qmat 1 1 [qi 75 0], qmat 1 4 [qi (6#15) 0; qi (11#15) 0; qi (8#15) 0; qi (-2#15) 0])]
  [(qi 1 0, qi 1 0)].
Definition exHa : fmps Qi := the exO (right_orthogonalise exLAh exO 0 None).
Definition exHb : Qi * fmps Qi := the (s0, exO) (mps_E exLAh exHa qY 1).

Lemma ex_history : svd_ok exLA2 /\ eig_ok exLA2 /\ eig_zeros_last exLA2 /\ lapack_ok exLAh /\
  @definite Qi /\ @integral Qi /\ (@s1 Qi) <> s0 /\
  reachable exLA2 exLAh 2 2 (snd exHb) /\
  match foc exHa, foc (snd exHb) with Some 0, Some 1 => true | _, _ => false end = true.
Proof.
  split; [apply exLA2_ok|]. split; [apply exLA2_ok|]. split; [apply exLA2_ok|].
  split; [apply oracle_ok|]. split; [exact Qi_definite|]. split; [exact Qi_integral|].
  split; [exact Qi_one_zero|]. split.
  - apply (r_E _ _ 2 2 exHa qY 1 (fst exHb)); [|lia|reflexivity|reflexivity|].
    + apply (r_right _ _ 2 2 exO).
      * apply (r_new _ _ 2 2 (fdata exO)); [repeat split|reflexivity|repeat constructor|apply exO_wf|reflexivity].
      * apply the_ok. vm_compute. reflexivity.
    + rewrite <- surjective_pairing. apply the_ok. vm_compute. reflexivity.
  - vm_compute. reflexivity.
Qed.

Lemma ex_post_select : wf exO /\ 2 <= fL exO /\ 0 < fL exO /\
  match post_select exO 0 1 with
  | Ok m' => match needs_centre m' [0] with Ok true => true | _ => false end
  | Err _ => false end = true.
Proof. split; [apply exO_wf|]. split; [repeat constructor|]. split; [repeat constructor|]. vm_compute. reflexivity. Qed.
