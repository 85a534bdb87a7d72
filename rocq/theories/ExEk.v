(** Concrete runs of E_k, E_L, rho and local_overlap.  No counterpart in /repo. *)
From Coq Require Import QArith Qcanon.
From Verif Require Import Alg QScalars ModelMPS SpecMPS ModelOrth SpecOrth Oracle ExOrth ModelNcon SpecNcon PropNcon ModelEk SpecEk.
Local Open Scope nat_scope.

(** sigma+ on the second of two sites, times Pauli Y on the first. *)
Definition qYP : mat Qi := qmat 4 4 [qi 0 0; qi 0 0; qi 0 0; qi 0 (-1);  qi 0 0; qi 0 0; qi 0 0; qi 0 0;
  qi 0 0; qi 0 1; qi 0 0; qi 0 0;  qi 0 0; qi 0 0; qi 0 0; qi 0 0].
Definition qP : mat Qi := qmat 2 2 [qi 0 0; qi 1 0; qi 0 0; qi 0 0].
(** a product state *)
Definition exP : fmps Qi := qobj [qsite 2 1 1 [qi (3#5) 0; qi 0 (4#5)]; qsite 2 1 1 [qi 2 0; qi 1 0]].


Lemma exO_flags : flags_set exO /\ flags_true exO /\ uniform exO /\ foc exO = None.
Proof.
  split; [exists false, false; repeat split; discriminate|]. split; [|split; [repeat constructor|reflexivity]].
  intros c o Hc Ho H. cbn in Hc, Ho. injection Hc as <-. injection Ho as <-. discriminate.
Qed.
Lemma exP_flags : wf exP /\ pos (fdata exP) /\ uniform exP /\ bond_dimension exP = 1 /\ bond_dimension exO = 2.
Proof. repeat split; try discriminate; repeat constructor. Qed.

Lemma ex_Ek :
  match mps_Ek setA exLA exO qY [1] with Ok (v, _) => Qi_eqb v (qi (52#225) 0) | _ => false end = true /\
  match mps_Ek setA exLA exO qYP [0;1] with Ok (v, _) => Qi_eqb v (qi (-4#9) 0) | _ => false end = true /\
  match mps_Ek_string setA exLA exO [qY; qP] [0;1] with Ok (v, _) => Qi_eqb v (qi (-4#9) 0) | _ => false end = true /\
  match mps_EL setA exO qYP with Ok v => Qi_eqb v (qi (-2500) 0) | _ => false end = true.
Proof. repeat split; vm_compute; reflexivity. Qed.

Lemma ex_rho : match mps_rho setA exLA exO [1] with
  | Ok (r, _) => qlist_eqb [me r 0 0; me r 0 1; me r 1 0; me r 1 1] [qi (157#225) 0; qi 0 (-26#225); qi 0 (26#225); qi (68#225) 0]
  | _ => false end = true.
Proof. vm_compute. reflexivity. Qed.

Lemma ex_rho_list : match mps_rho_list setA exP [0;1] with
  | Ok [r; r'] => qlist_eqb [me r 0 0; me r 0 1; me r 1 0; me r 1 1; me r' 0 1] [qi (9#25) 0; qi 0 (-12#25); qi 0 (12#25); qi (16#25) 0; qi 2 0]
  | _ => false end = true.
Proof. vm_compute. reflexivity. Qed.

Lemma ex_local_overlap :
  match mps_local_overlap setA exLA exO exO [1] with Ok (v, _, _) => Qi_eqb v (qi (49#81) 0) | _ => false end = true /\
  match mps_local_overlap setA exLA exP exO [1] with Ok (v, _, _) => Qi_eqb v (qi (232#75) 0) | _ => false end = true /\
  match mps_local_overlap setA exLA exO exP [1] with Ok (v, _, _) => Qi_eqb v (qi (232#75) 0) | _ => false end = true.
Proof. repeat split; vm_compute; reflexivity. Qed.

(** an object in mixed form around site 1 *)
Definition exM : fmps Qi := the exO (mixed_orthogonalise exLA exO 1).
Lemma ex_mixed_block : needs_centre exM [1] = Ok false /\ foc exM = Some 1 /\
  match mps_Ek setA exLA exM qY [1] with Ok (v, _) => Qi_eqb v (qi (52#225) 0) | _ => false end = true.
Proof. repeat split; vm_compute; reflexivity. Qed.

Definition exE1 := the (s0, exO) (mps_E exLA exO qY 1).
Definition exE2 := the (s0, exO) (mps_Ek setA exLA exO qY [1]).
Lemma ex_differ : exists (S : setio) (O : lapack Qi) (m : fmps Qi) op v w m' m'',
  setio_ok S /\ lapack_ok O /\ wf m /\ mps_E O m op 1 = Ok (v, m') /\ mps_Ek S O m op [1] = Ok (w, m'') /\ v <> w.
Proof.
  exists setA, exLA, exO, qY, (fst exE1), (fst exE2), (snd exE1), (snd exE2).
  split; [apply setA_ok|]. split; [apply oracle_ok|]. split; [apply exO_wf|].
  split; [rewrite <- surjective_pairing; apply the_ok; vm_compute; reflexivity|].
  split; [rewrite <- surjective_pairing; apply the_ok; vm_compute; reflexivity|].
  apply Qi_neq. vm_compute. reflexivity.
Qed.
