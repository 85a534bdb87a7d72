(** C105: the energies of a trajectory, and its deserialize. *)
From Coq Require Import QArith.
From Verif Require Import Alg QScalars ModelMPS SpecMPS ModelStruct ModelOrth SpecOrth ModelCanon SpecCanon ModelTraj SpecTraj Oracle Oracle2 ExOrth ExCanon ExStruct ExTraj
  ModelNcon SpecNcon PropNcon ModelEk SpecEk ExEk ModelEnergy SpecEnergy ExEnergy ModelEns SpecEns ProofEns ExEns.
Local Open Scope nat_scope.
Local Open Scope sr_scope.

(** left_canonicalise brings any state that is not zero into the form in which energy
    is right: <psi|H|psi>/<psi|psi> of the state before, per site for a list of terms. *)
Theorem C105_canonicalise_then_energy : forall (R : sring) (S : setio) (O : lapack2 R) quot (m m' : fmps R) h,
  setio_ok S -> (forall x n, (0 < n)%nat -> sofnat n * quot x n = x) ->
  svd_ok O -> eig_ok O -> eig_zeros_last O -> @definite R -> @integral R -> (1:R) <> 0 ->
  wf m -> uniform m -> (0 < fd m)%nat -> (exists s, incfg (dims (fdata m)) s /\ psi m s <> 0) ->
  ham_size (fL m) (fd m) h -> lcan O m None = Ok m' ->
  exists v, energy_any S quot m' h = Ok v /\ reports h (fL m) (v * sq_norm m) (sre (ham_mean m h)).
Proof. exact (@lcan_energy). Qed.
Print Assumptions C105_canonicalise_then_energy.

(** One energy per stored state, in the order of the steps. *)
Theorem C105_mps_energies : forall (R : sring) (S : setio) (O : lapack2 R) (I : imag R) quot tr xs h,
  setio_ok S -> (forall x n, (0 < n)%nat -> sofnat n * quot x n = x) ->
  svd_ok O -> eig_ok O -> eig_zeros_last O -> @definite R -> @integral R -> (1:R) <> 0 ->
  imag_ok I -> run O I tr xs -> xs <> [] ->
  Forall (fun x => closed (fdata x) /\ exists s, incfg (dims (fdata x)) s /\ psi x s <> 0) xs -> (0 < fd (tmps tr))%nat ->
  ham_size (fL (tmps tr)) (fd (tmps tr)) h ->
  match mps_energies S O I quot (Some h) tr with
  | Err e => e = LinAlgError
  | Ok vs => Forall2 (fun x v => reports h (fL (tmps tr)) (v * sq_norm x) (sre (ham_mean x h))) xs vs
  end.
Proof. exact (@mps_energies_run). Qed.
Print Assumptions C105_mps_energies.

Theorem C105_nothing_to_report : forall (R : sring) (S : setio) (O : lapack2 R) (I : imag R) quot h tr,
  h = None \/ thist tr = [] -> mps_energies S O I quot h tr = Err AssertionError.
Proof. exact (@mps_energies_empty). Qed.
Print Assumptions C105_nothing_to_report.

(** deserialize reads every entry back when all stored states have the shape that
    belongs to the bond dimension of the current state. *)
Theorem C105_deserialize : forall (R : sring) (O : lapack2 R) (I : imag R) tr xs, imag_ok I -> run O I tr xs ->
  Forall (fun x => fits x (fD (tmps tr))) xs ->
  exists ms, traj_deserialize I tr = Ok ms /\ Forall2 same_tensors xs ms.
Proof. exact (@deserialize_run). Qed.
Print Assumptions C105_deserialize.

(** After expand it fails on a history that mps_list reads. *)
Theorem C105_deserialize_refuted : exists (O : lapack2 Qi) (I : imag Qi) tr xs ms, imag_ok I /\ svd_ok O /\ run O I tr xs /\
  mps_list I tr = Ok ms /\ Forall2 same_tensors xs ms /\ traj_deserialize I tr = Err ValueError.
Proof. exact ex_deserialize. Qed.
Print Assumptions C105_deserialize_refuted.

Example C105_example : run exLAt qimag exTr1 exXs /\ (svd_ok exLAt /\ eig_ok exLAt /\ eig_zeros_last exLAt) /\
  Forall (fun x => closed (fdata x) /\ exists s, incfg (dims (fdata x)) s /\ psi x s <> (s0 : Qi)) exXs /\
  Forall (fun x => fits x (fD (tmps exTr1))) exXs /\
  match mps_energies setA exLAt qimag quotQ (Some (HTerms [qG])) exTr1, mps_energies setA exLAt qimag quotQ (Some (HFull qG)) exTr1 with
  | Ok [a; b; c], Ok [a'; b'; c'] => Qi_eqb a (qi (1#2) 0) && Qi_eqb b (qi 3 0) && Qi_eqb c (qi (1#2) 0)
      && Qi_eqb a' (qi 1 0) && Qi_eqb b' (qi 6 0) && Qi_eqb c' (qi 1 0)
  | _, _ => false end = true.
Proof. exact (conj ex_run1 (conj exLAt_ok (conj exXs_ok (conj exXs_fit ex_energies)))). Qed.

(** an entangled state of norm 625 *)
Example C105_example_entangled : wf exCl /\ uniform exCl /\
  match (do m <- lcan exLA2 exCl None; energy_any setA quotQ m (HTerms [qG])) with
  | Ok v => Qi_eqb v (qi (22793#78125) 0) && Qi_eqb (sq_norm exCl) (qi 390625 0) | Err _ => false end = true.
Proof. exact (conj (proj1 exCl_wf) (conj (proj1 (proj2 exCl_wf)) ex_lcan_energy)). Qed.
