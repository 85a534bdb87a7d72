(** C55: energy is the mean of the bond energies of a chain in canonical form. *)
From Coq Require Import QArith.
From Verif Require Import Alg QScalars ModelMPS SpecMPS ModelOrth SpecOrth ModelNcon SpecNcon PropNcon ModelEk SpecEk ExOrth ExEk
  ModelEnergy SpecEnergy ProofEnergy ExEnergy.
Local Open Scope nat_scope.
Local Open Scope sr_scope.

(** get_envs returns the environments when these are diagonal: the element at
    position |p| of either list belongs to the cut between p and q. *)
Theorem C55_get_envs : forall (R : sring) (m : fmps R), closed (fdata m) -> envs_diagonal (fdata m) ->
  exists ls rs, get_envs m = Ok (ls, rs) /\
    forall p q, fdata m = p ++ q -> exists l r a, nth_error ls (length p) = Some l /\ nth_error rs (length p) = Some r /\
      chain 1 p a /\ chain a q 1 /\
      (mr l = a /\ mc l = a /\ forall x y, (x < a)%nat -> (y < a)%nat -> me l x y = true_l p x y) /\
      (mr r = a /\ mc r = a /\ forall x y, (x < a)%nat -> (y < a)%nat -> me r x y = true_r q x y).
Proof. intros R. exact (@get_envs_ok R). Qed.
Print Assumptions C55_get_envs.

Theorem C55_energy : forall (R : sring) (S : setio) quot (m : fmps R) H,
  setio_ok S -> (forall x n, (0 < n)%nat -> sofnat n * quot x n = x) ->
  wf m -> uniform m -> envs_diagonal (fdata m) ->
  (length H < fL m)%nat -> Forall (fun h => mr h = (fd m * fd m)%nat /\ mc h = (fd m * fd m)%nat) H ->
  exists v, mps_energy S quot m H = Ok v /\ sofnat (fL m) * v = sre (total_energy (fd m) m H).
Proof. intros R. exact (@energy_value R). Qed.
Print Assumptions C55_energy.

(** For a right-canonical chain only the left environments have to be diagonal. *)
Theorem C55_energy_right_canonical : forall (R : sring) (S : setio) quot (m : fmps R) H,
  setio_ok S -> (forall x n, (0 < n)%nat -> sofnat n * quot x n = x) ->
  wf m -> uniform m -> Forall right_iso (fdata m) ->
  (forall p q a, fdata m = p ++ q -> chain 1 p a -> forall x y, (x < a)%nat -> (y < a)%nat -> x <> y -> true_l p x y = 0) ->
  (length H < fL m)%nat -> Forall (fun h => mr h = (fd m * fd m)%nat /\ mc h = (fd m * fd m)%nat) H ->
  exists v, mps_energy S quot m H = Ok v /\ sofnat (fL m) * v = sre (total_energy (fd m) m H).
Proof. intros R. exact (@energy_right R). Qed.
Print Assumptions C55_energy_right_canonical.

(** Without diagonal environments the value is wrong. *)
Theorem C55_energy_refuted : exists (S : setio) quot (m : fmps Qi) H v,
  setio_ok S /\ (forall x n, (0 < n)%nat -> sofnat n * quot x n = x) /\ wf m /\ uniform m /\ (length H < fL m)%nat /\
  Forall (fun h => mr h = (fd m * fd m)%nat /\ mc h = (fd m * fd m)%nat) H /\
  mps_energy S quot m H = Ok v /\ sofnat (fL m) * v <> sre (total_energy (fd m) m H).
Proof. exact ex_energy_wrong. Qed.
Print Assumptions C55_energy_refuted.

Example C55_example : (wf exC3 /\ uniform exC3 /\ fL exC3 = 3%nat) /\ envs_diagonal (fdata exC3) /\
  match mps_energy setA quotQ exC3 [qYP; qG] with Ok v => Qi_eqb v (qi (224#3) 0) | _ => false end = true.
Proof. exact (conj exC3_ok (conj exC3_diagonal ex_energy)). Qed.
