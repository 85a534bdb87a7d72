(** Concrete trajectories for mps_energies.  No counterpart in /repo. *)
From Coq Require Import QArith Qcanon.
From Verif Require Import Alg QScalars ModelMPS SpecMPS ModelStruct SpecStruct ModelOrth ModelCanon SpecCanon ModelPad Oracle Oracle2
  ExOrth ExCanon ExStruct ModelTraj SpecTraj ProofTraj ExTraj ModelNcon SpecNcon PropNcon ModelEk ExEk ModelEnergy ExEnergy ModelEns SpecEns ModelMisc.
Local Open Scope nat_scope.

(** three times the state 00 is stored, flipped after every step *)
Lemma ex_run1 : run exLAt qimag exTr1 exXs.
Proof.
  apply (run_int exLAt qimag (fun m => Ok m) exFlip ExTraj.exT exTr0 [] exTr1 exXs).
  - apply (run_init exLAt qimag exT0 exTr0).
    + apply the_ok. vm_compute. reflexivity.
    + apply fits_b_ok. vm_compute. reflexivity.
  - apply (the_ok exTd (invfreeint qimag exFlip exTr0 ExTraj.exT)). vm_compute. reflexivity.
  - discriminate.
  - reflexivity.
  - exists (tmps exTr0). split; [reflexivity|]. apply flip_iterates; vm_compute; reflexivity.
  - apply good_b_ok. vm_compute. reflexivity.
Qed.

Lemma exLAt_ok : svd_ok exLAt /\ eig_ok exLAt /\ eig_zeros_last exLAt.
Proof. split; [apply oracle2_svd|]. split; [apply oracle2_eig|apply oracle2_zl]. Qed.

Lemma exXs_ok : Forall (fun x => closed (fdata x) /\ exists s, incfg (dims (fdata x)) s /\ psi x s <> (s0 : Qi)) exXs.
Proof.
  assert (G : forall x : fmps Qi, closed (fdata x) -> forall s, incfg (dims (fdata x)) s -> Qi_eqb (psi x s) s0 = false ->
    closed (fdata x) /\ exists s, incfg (dims (fdata x)) s /\ psi x s <> (s0 : Qi)).
  { intros x Hc s Hs E. split; [exact Hc|]. exists s. split; [exact Hs|]. now apply Qi_neq. }
  repeat constructor; [apply (G (tmps exTr0)) with (s := [0; 0])|apply (G (flipd (tmps exTr0))) with (s := [1; 1])|
    apply (G (flipd (flipd (tmps exTr0)))) with (s := [0; 0])]; try (vm_compute; reflexivity); repeat constructor.
Qed.

Lemma ex_energies :
  match mps_energies setA exLAt qimag quotQ (Some (HTerms [qG])) exTr1, mps_energies setA exLAt qimag quotQ (Some (HFull qG)) exTr1 with
  | Ok [a; b; c], Ok [a'; b'; c'] => Qi_eqb a (qi (1#2) 0) && Qi_eqb b (qi 3 0) && Qi_eqb c (qi (1#2) 0)
      && Qi_eqb a' (qi 1 0) && Qi_eqb b' (qi 6 0) && Qi_eqb c' (qi 1 0)
  | _, _ => false end = true.
Proof. vm_compute. reflexivity. Qed.

(** an entangled state that is not normalised *)
Lemma ex_lcan_energy :
  match (do m <- lcan exLA2 exCl None; energy_any setA quotQ m (HTerms [qG])) with
  | Ok v => Qi_eqb v (qi (22793#78125) 0) && Qi_eqb (sq_norm exCl) (qi 390625 0) | Err _ => false end = true.
Proof. vm_compute. reflexivity. Qed.

(** after expand the entries stored before cannot be read by deserialize *)
Lemma ex_deserialize : exists (O : lapack2 Qi) (I : imag Qi) tr xs ms, imag_ok I /\ svd_ok O /\ run O I tr xs /\
  mps_list I tr = Ok ms /\ Forall2 same_tensors xs ms /\ traj_deserialize I tr = Err ValueError.
Proof.
  destruct (mps_list_ok exLAt qimag exTr3 (exXs ++ exYs) qimag_ok exRun ltac:(discriminate)) as (ms & E & H).
  exists exLAt, qimag, exTr3, (exXs ++ exYs), ms. split; [exact qimag_ok|]. split; [apply exLAt_ok|]. split; [exact exRun|].
  split; [exact E|]. split; [exact H|]. apply is_value_error_eq. vm_compute. reflexivity.
Qed.
Lemma exXs_fit : Forall (fun x => fits x (fD (tmps exTr1))) exXs.
Proof. apply Forall_cons; [|apply Forall_cons; [|apply Forall_cons; [|apply Forall_nil]]]; apply fits_b_ok; vm_compute; reflexivity. Qed.
