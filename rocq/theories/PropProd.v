(** C85: product states, append and states as operators.  C86: averages of local overlaps. *)
From Coq Require Import QArith Qcanon.
From Verif Require Import Alg QScalars ModelMPS SpecMPS ModelOrth SpecOrth ModelNcon SpecNcon PropNcon Oracle ExOrth ModelEk SpecEk ModelNp ModelTensor SpecTensor ModelPeps SpecPeps
  ModelApprox SpecApprox ProofProd ProofMpoMps ProofApprox ExPeps ExApprox.
Import ListNotations.
Local Open Scope nat_scope.
Local Open Scope sr_scope.
Local Notation prod_ := (fold_right Nat.mul 1%nat).

Theorem C85_product_state_overlap : forall (R : sring) (m : fmps R) (vs : list (nat * (nat -> R))), wf m -> dims (fdata m) = map fst vs ->
  exists F, product_state_overlap m vs = Ok F /\ mr F = 1%nat /\ mc F = 1%nat /\
    me F 0%nat 0%nat = sumcfg (map fst vs) (fun s => psi m s * sconj (prodl (map (fun vx => snd (fst vx) (snd vx)) (combine vs s)))).
Proof. exact (@product_overlap_ok). Qed.
Print Assumptions C85_product_state_overlap.

Theorem C85_product_states : forall (R : sring) (vss : list (list (nat * (nat -> R)))), Forall (fun vs => vs <> []) vss ->
  exists ms, from_product_states vss = Ok ms /\
    Forall2 (fun vs m => wf m /\ dims (fdata m) = map fst vs /\
      forall s, length s = length vs -> psi m s = prodl (map (fun vx => snd (fst vx) (snd vx)) (combine vs s))) vss ms.
Proof. exact (@product_states_ok). Qed.
Print Assumptions C85_product_states.

(** Any tensor is accepted; with bonds 1 and 1 the amplitudes are products. *)
Theorem C85_append : forall (R : sring) (a : fmps R) (t : site R), wf a ->
  exists m, mps_append a t = Ok m /\ fdata m = fdata a ++ [t] /\ fL m = S (fL a) /\
    (dl t = 1%nat -> dr t = 1%nat -> wf m /\ dims (fdata m) = dims (fdata a) ++ [phys t] /\
      forall s x, length s = fL a -> psi m (s ++ [x]) = psi a s * ent t x 0%nat 0%nat).
Proof. exact (@append_ok). Qed.
Print Assumptions C85_append.

(** from_mps of fPEPS.py: up legs of dimension one, the amplitudes on the down legs. *)
Theorem C85_from_mps : forall (R : sring) (m : fmps R), wf m -> exists o, mpo_from_mps m = Ok o /\ oL o = fL m /\ oX o = fD m /\ od o = fd m /\
  length (odata o) = fL m /\ mpo_ok (odata o) /\ map (leg 0) (odata o) = repeat 1%nat (fL m) /\ map (leg 2) (odata o) = dims (fdata m) /\
  forall ds, incfg (dims (fdata m)) ds -> mop (odata o) (repeat 0%nat (fL m)) ds = psi m ds.
Proof. exact (@from_mps_ok). Qed.
Print Assumptions C85_from_mps.

(** recombine of that operator is one column, of the conjugated amplitudes. *)
Theorem C85_from_mps_column : forall (R : sring) S (m : fmps R), setio_ok S -> wf m -> (1 < fL m)%nat ->
  exists o M, mpo_from_mps m = Ok o /\ mpo_recombine S o = Ok M /\ mr M = prod_ (dims (fdata m)) /\ mc M = 1%nat /\
    forall s, incfg (dims (fdata m)) s -> me M (position (dims (fdata m)) s) 0%nat = sconj (psi m s).
Proof. exact (@from_mps_column). Qed.
Print Assumptions C85_from_mps_column.

(** operator * from_mps(state): the operator applied to the state. *)
Theorem C85_apply : forall (R : sring) S (m : fmps R) (a : mpo R), setio_ok S -> wf m -> mpo_ok (odata a) -> map (leg 0) (odata a) = dims (fdata m) ->
  exists o c, mpo_from_mps m = Ok o /\ mpo_mul S a o = Ok c /\ mpo_ok (odata c) /\
    map (leg 0) (odata c) = repeat 1%nat (fL m) /\ map (leg 2) (odata c) = map (leg 2) (odata a) /\
    forall ds, incfg (map (leg 2) (odata a)) ds ->
      mop (odata c) (repeat 0%nat (fL m)) ds = sumcfg (dims (fdata m)) (fun ks => mop (odata a) ks ds * psi m ks).
Proof. exact (@from_mps_apply). Qed.
Print Assumptions C85_apply.

Definition m85 : fmps Zi := mkF [sz 1 2 1 2; sz 2 2 2 3; sz 3 2 3 1] 3 2 3 None None None None.
Definition v85 : list (nat * (nat -> Zi)) := [(2%nat, fun x => zi 1 (Z.of_nat x)); (2%nat, fun x => zi (Z.of_nat x) 2); (2%nat, fun x => zi (Z.of_nat x - 1) 1)].
Example C85_example : wf m85 /\ dims (fdata m85) = map fst v85 /\ mpo_ok (odata mA) /\ map (leg 0) (odata mA) = dims (fdata m85) /\ setio_ok setA /\
  match product_state_overlap m85 v85 with Ok F => negb (Zi_eqb (me F 0%nat 0%nat) 0) | _ => false end = true /\
  match (do o <- mpo_from_mps m85; mpo_mul setA mA o) with Ok c => negb (Zi_eqb (mop (odata c) [0;0;0]%nat [1;0;1]%nat) 0) | _ => false end = true.
Proof.
  split; [repeat split; discriminate|]. split; [reflexivity|].
  split; [split; [discriminate|intros n Hn; do 3 (destruct n as [|n]; [split; reflexivity|]); cbn in Hn; lia]|]. split; [reflexivity|]. split; [exact setA_ok|]. split; vm_compute; reflexivity.
Qed.

(** * C86: with states in mixed form and of norm one, the mean of Re Tr(rho_a rho_b) over the
    windows of k neighbouring sites; the two states are afterwards the same up to a factor of
    modulus one. *)
Theorem C86_k_local : forall (R : sring) (S : setio) (O : lapack R), setio_ok S -> lapack_ok O -> forall d L, (1 < d)%nat ->
  forall div : R -> R -> option R, (forall x y z, div x y = Some z -> z * y = x) -> forall (a b : fmps R) k,
  settled a -> settled b -> fd a = d -> fd b = d -> fL a = L -> fL b = L -> (0 < k)%nat -> (k <= L)%nat ->
  match k_local_approx_overlap S O div a b (Some k) with
  | Err e => e = LinAlgError \/ e = Exception_ \/
      (e = ValueError /\ div (sum (L - k + 1) (fun i => window_overlap d L (psi a) (psi b) i k)) (sofnat (L - k + 1)) = None)
  | Ok (v, a', b') => v * sofnat (L - k + 1) = sum (L - k + 1) (fun i => window_overlap d L (psi a) (psi b) i k) /\
      settled a' /\ settled b' /\ same_ray a a' /\ same_ray b b'
  end.
Proof. exact (@k_local_ok). Qed.
Print Assumptions C86_k_local.

(** Without k it is the overlap, and nothing changes. *)
Theorem C86_no_k : forall (R : sring) (S : setio) (O : lapack R) (div : R -> R -> option R) (a b : fmps R), wf a -> wf b -> dims (fdata a) = dims (fdata b) ->
  k_local_approx_overlap S O div a b None = Ok (sumcfg (dims (fdata a)) (fun s => psi a s * sconj (psi b s)), a, b).
Proof. exact (@k_local_none). Qed.
Print Assumptions C86_no_k.

(** Windows longer than the chain: the mean of nothing. *)
Theorem C86_too_long : forall (R : sring) (S : setio) (O : lapack R) (div : R -> R -> option R) (a b : fmps R) k, (fL a < k)%nat ->
  k_local_approx_overlap S O div a b (Some k) = Err ValueError.
Proof. exact (@k_local_long). Qed.
Print Assumptions C86_too_long.

Example C86_example : setio_ok setA /\ lapack_ok exLA /\ (forall x y z, apdiv x y = Some z -> z * y = x) /\ settled apA /\ settled apB /\
  match k_local_approx_overlap setA exLA apdiv apA apB (Some 2%nat) with Ok (v, _, _) => Qi_eqb v (qi (1033#4500) 0) | _ => false end = true.
Proof. split; [exact setA_ok|]. split; [apply oracle_ok|]. split; [exact apdiv_ok|]. split; [exact (proj1 ap_settled)|]. split; [exact (proj2 ap_settled)|]. exact (proj1 ap_value). Qed.
