(** Property theorems C47-C50 and C67-C71: PEPS and matrix product operators. *)
From Verif Require Import Alg ModelMPS SpecMPS ModelNcon SpecNcon PropNcon ModelEk ExEk ModelNp ModelTensor ModelPeps SpecTensor SpecPeps
  ProofPeps4 ProofPeps5 ProofPeps6 ProofPeps7 ProofPeps8 ProofPeps9 ProofPeps11 ProofPeps12 ProofPeps13 ProofPeps14 ProofPeps15 ExPeps.
Import ListNotations.
Local Open Scope nat_scope.
Local Open Scope sr_scope.
Local Notation prod_ := (fold_right Nat.mul 1%nat).

Ltac cell_ := vm_compute; repeat split; intros; first [reflexivity|discriminate|lia].
Ltac cells := intros j i Hj Hi; do 4 (try (destruct j as [|j]; [do 4 (try (destruct i as [|i]; [first [exfalso; lia|cell_]|])); lia|])); lia.
Ltac grid_ := split; [reflexivity|repeat constructor].
Lemma d23_ok : peps_ok 2 3 d23. Proof. split; [lia|]. split; [lia|]. split; [grid_|cells]. Qed.
Lemma e23_ok : peps_ok 2 3 e23. Proof. split; [lia|]. split; [lia|]. split; [grid_|cells]. Qed.
Lemma d22_ok : peps_ok 2 2 d22. Proof. split; [lia|]. split; [lia|]. split; [grid_|cells]. Qed.
Lemma pairs_ok : peps_ok 2 2 pairs. Proof. split; [lia|]. split; [lia|]. split; [grid_|cells]. Qed.
Lemma one_ok : peps_ok 2 3 one. Proof. split; [lia|]. split; [lia|]. split; [grid_|cells]. Qed.

(** C47: transposition and the two flips relabel the sites of the state and permute the legs of
    the arrays; done twice they give the arrays back. *)
Theorem C47_T : forall (R : sring) H W (p : peps R), peps_ok H W (pdata p) ->
  exists q, peps_T p = Ok q /\ peps_ok W H (pdata q) /\ pLx q = W /\ pLy q = H /\ pd q = pd p /\ pX q = pX p /\
    poc q = match poc p with Some (i, j) => Some (j, i) | None => None end /\
    (forall j i, j < H -> i < W -> permuted [0; 4; 3; 2; 1]%nat (site_at (pdata p) j i) (site_at (pdata q) i j)) /\
    (forall s t, grid H W s -> transposed H W s t -> pamp W H (pdata q) t = pamp H W (pdata p) s).
Proof. exact (@T_ok). Qed.
Print Assumptions C47_T.

Theorem C47_R : forall (R : sring) H W (p : peps R), peps_ok H W (pdata p) ->
  exists q, peps_R p = Ok q /\ peps_ok H W (pdata q) /\ pLx q = H /\ pLy q = W /\ pd q = pd p /\ pX q = pX p /\
    poc q = match poc p with Some (i, j) => Some ((Z.of_nat (pLx p) - 1 - i)%Z, j) | None => None end /\
    (forall j i, j < H -> i < W -> permuted [0; 1; 4; 3; 2]%nat (site_at (pdata p) j i) (site_at (pdata q) j (W - 1 - i)%nat)) /\
    (forall s t, grid H W s -> mirrored H W s t -> pamp H W (pdata q) t = pamp H W (pdata p) s).
Proof. exact (@R_ok). Qed.
Print Assumptions C47_R.

Theorem C47_U : forall (R : sring) H W (p : peps R), peps_ok H W (pdata p) ->
  exists q, peps_U p = Ok q /\ peps_ok H W (pdata q) /\ pLx q = H /\ pLy q = W /\ pd q = pd p /\ pX q = pX p /\
    poc q = match poc p with Some (i, j) => Some (i, (Z.of_nat (pLy p) - j - 1)%Z) | None => None end /\
    (forall j i, j < H -> i < W -> permuted [0; 3; 2; 1; 4]%nat (site_at (pdata p) j i) (site_at (pdata q) (H - 1 - j)%nat i)) /\
    (forall s t, grid H W s -> upside_down H W s t -> pamp H W (pdata q) t = pamp H W (pdata p) s).
Proof. exact (@U_ok). Qed.
Print Assumptions C47_U.

Theorem C47_T_T : forall (R : sring) H W (p : peps R), peps_ok H W (pdata p) ->
  exists q r, peps_T p = Ok q /\ peps_T q = Ok r /\ peps_ok H W (pdata r) /\ pLx r = H /\ pLy r = W /\ pd r = pd p /\ pX r = pX p /\ poc r = poc p /\
  forall j i, j < H -> i < W -> tsh (site_at (pdata r) j i) = tsh (site_at (pdata p) j i) /\ forall idx, length idx = 5%nat -> te (site_at (pdata r) j i) idx = te (site_at (pdata p) j i) idx.
Proof. exact (@twice_T). Qed.
Print Assumptions C47_T_T.
Theorem C47_R_R : forall (R : sring) H W (p : peps R), peps_ok H W (pdata p) ->
  exists q r, peps_R p = Ok q /\ peps_R q = Ok r /\ peps_ok H W (pdata r) /\ pLx r = H /\ pLy r = W /\ pd r = pd p /\ pX r = pX p /\ (pLx p = H -> poc r = poc p) /\
  forall j i, j < H -> i < W -> tsh (site_at (pdata r) j i) = tsh (site_at (pdata p) j i) /\ forall idx, length idx = 5%nat -> te (site_at (pdata r) j i) idx = te (site_at (pdata p) j i) idx.
Proof. exact (@twice_R). Qed.
Print Assumptions C47_R_R.
Theorem C47_U_U : forall (R : sring) H W (p : peps R), peps_ok H W (pdata p) ->
  exists q r, peps_U p = Ok q /\ peps_U q = Ok r /\ peps_ok H W (pdata r) /\ pLx r = H /\ pLy r = W /\ pd r = pd p /\ pX r = pX p /\ (pLy p = W -> poc r = poc p) /\
  forall j i, j < H -> i < W -> tsh (site_at (pdata r) j i) = tsh (site_at (pdata p) j i) /\ forall idx, length idx = 5%nat -> te (site_at (pdata r) j i) idx = te (site_at (pdata p) j i) idx.
Proof. exact (@twice_U). Qed.
Print Assumptions C47_U_U.

(** The recorded centre of the mirror image of a PEPS built from data with sides H <> W is not
    the mirror image of the recorded centre: it can leave the grid. *)
Theorem C47_centre_refuted : exists (p q : peps Zi) (i j : Z), peps_ok 2 3 (pdata p) /\ pLx p = 2 /\ pLy p = 3 /\
  poc p = Some (i, j) /\ (0 <= i < 3)%Z /\ (0 <= j < 2)%Z /\ peps_R p = Ok q /\ poc q = Some ((-1)%Z, j) /\ poc q <> Some ((3 - 1 - i)%Z, j).
Proof.
  exists p23. destruct (R_ok 2 3 p23 d23_ok) as (q & E & _ & _ & _ & _ & _ & Eo & _). exists q, 2%Z, 0%Z.
  split; [exact d23_ok|]. split; [reflexivity|]. split; [reflexivity|]. split; [reflexivity|]. split; [lia|]. split; [lia|]. split; [exact E|]. rewrite Eo. split; [reflexivity|]. vm_compute. discriminate.
Qed.
Print Assumptions C47_centre_refuted.

Example C47_example : peps_ok 2 3 d23 /\ pamp 2 3 d23 [[0;1;1];[1;0;1]]%nat = zi (-28) 190 /\ transposed 2 3 [[0;1;1];[1;0;1]]%nat [[0;1];[1;0];[1;1]]%nat.
Proof. split; [exact d23_ok|]. split; [vm_compute; reflexivity|]. split; [grid_|cells]. Qed.

(** C48: the sum of two PEPS, when the recorded Lx is the number of columns and the recorded
    Ly the number of rows. *)
Theorem C48_add : forall (R : sring) H W (p q : peps R), 1 < H -> 1 < W -> peps_ok H W (pdata p) -> peps_ok H W (pdata q) ->
  pLx p = W -> pLy p = H -> legs_of 0 (pdata q) = legs_of 0 (pdata p) ->
  exists r, peps_add p q = Ok r /\ peps_ok H W (pdata r) /\ legs_of 0 (pdata r) = legs_of 0 (pdata p) /\
    (forall j i, j < H -> (S i < W)%nat -> leg 2 (site_at (pdata r) j i) = (leg 2 (site_at (pdata p) j i) + leg 2 (site_at (pdata q) j i))%nat) /\
    (forall j i, (S j < H)%nat -> i < W -> leg 3 (site_at (pdata r) j i) = (leg 3 (site_at (pdata p) j i) + leg 3 (site_at (pdata q) j i))%nat) /\
    forall s, ingrid (legs_of 0 (pdata p)) s -> pamp H W (pdata r) s = pamp H W (pdata p) s + pamp H W (pdata q) s.
Proof. exact (@add_ok). Qed.
Print Assumptions C48_add.

Theorem C48_narrow : forall (R : sring) H W (p q : peps R), peps_ok H W (pdata p) -> peps_ok H W (pdata q) -> (pLx p <= 1 \/ pLy p <= 1) -> peps_add p q = Err AssertionError.
Proof. exact (@add_narrow). Qed.
Print Assumptions C48_narrow.

(** PEPS of 2 rows and 3 columns built from data: the sum is formed but has no amplitudes. *)
Theorem C48_nonsquare_refuted : exists (p q r : peps Zi), peps_ok 2 3 (pdata p) /\ peps_ok 2 3 (pdata q) /\ legs_of 0 (pdata q) = legs_of 0 (pdata p) /\
  peps_init (pdata p) = Ok p /\ peps_init (pdata q) = Ok q /\ peps_add p q = Ok r /\ ~ peps_ok 2 3 (pdata r) /\ peps_recombine r = Err ValueError.
Proof.
  exists (mkPeps d23 2 3 2 2 None), (mkPeps d23 2 3 2 2 None), (match peps_add (mkPeps d23 2 3 2 2 None) (mkPeps d23 2 3 2 2 None) with Ok r => r | Err _ => p23 end).
  split; [exact d23_ok|]. split; [exact d23_ok|]. split; [reflexivity|]. split; [reflexivity|]. split; [reflexivity|]. split; [reflexivity|]. split.
  - intros (_ & _ & _ & K). destruct (K 0%nat 0%nat) as (_ & _ & _ & _ & _); [lia|lia|]. specialize (K 1%nat 0%nat ltac:(lia) ltac:(lia)). vm_compute in K. destruct K as (_ & K1 & _ & K3 & _). first [discriminate K1|discriminate (K3 eq_refl)].
  - vm_compute. reflexivity.
Qed.
Print Assumptions C48_nonsquare_refuted.

Example C48_example : peps_ok 2 3 (pdata r23) /\ peps_ok 2 3 (pdata q23) /\ pLx r23 = 3 /\ pLy r23 = 2 /\ legs_of 0 (pdata q23) = legs_of 0 (pdata r23) /\
  pamp 2 3 (pdata r23) [[0;1;1];[1;0;1]]%nat = zi (-28) 190 /\ pamp 2 3 (pdata q23) [[0;1;1];[1;0;1]]%nat = zi (-138) 134.
Proof. split; [exact d23_ok|]. split; [exact e23_ok|]. split; [reflexivity|]. split; [reflexivity|]. split; [reflexivity|]. split; vm_compute; reflexivity. Qed.

(** C49: the product of two operators. *)
Theorem C49_mul : forall (R : sring) S (a b : mpo R), setio_ok S -> mpo_ok (odata a) -> mpo_ok (odata b) -> map (leg 2) (odata b) = map (leg 0) (odata a) ->
  exists c, mpo_mul S a b = Ok c /\ mpo_ok (odata c) /\ oL c = length (odata c) /\ length (odata c) = length (odata a) /\ od c = od a /\ oX c = (oX a * oX b)%nat /\
    map (leg 0) (odata c) = map (leg 0) (odata b) /\ map (leg 2) (odata c) = map (leg 2) (odata a) /\
    forall us ds, incfg (map (leg 0) (odata b)) us -> incfg (map (leg 2) (odata a)) ds ->
      mop (odata c) us ds = sumcfg (map (leg 0) (odata a)) (fun ks => mop (odata b) us ks * mop (odata a) ks ds).
Proof. exact (@mpo_mul_ok). Qed.
Print Assumptions C49_mul.

(** recombine() of an operator of two or more sites: rows are the down legs, columns the up
    legs, conjugated. *)
Theorem C49_recombine : forall (R : sring) S (m : mpo R), setio_ok S -> mpo_ok (odata m) -> oL m = length (odata m) -> 1 < oL m ->
  exists M, mpo_recombine S m = Ok M /\ mr M = prod_ (map (leg 2) (odata m)) /\ mc M = prod_ (map (leg 0) (odata m)) /\
    forall us ds, incfg (map (leg 0) (odata m)) us -> incfg (map (leg 2) (odata m)) ds ->
      me M (position (map (leg 2) (odata m)) ds) (position (map (leg 0) (odata m)) us) = sconj (mop (odata m) us ds).
Proof. exact (@mpo_recombine_ok). Qed.
Print Assumptions C49_recombine.

Theorem C49_matrices : forall (R : sring) S (a b : mpo R), setio_ok S -> mpo_ok (odata a) -> mpo_ok (odata b) -> oL a = length (odata a) -> oL b = length (odata b) -> 1 < oL a ->
  map (leg 2) (odata b) = map (leg 0) (odata a) ->
  exists c A B C AB, mpo_mul S a b = Ok c /\ mpo_recombine S a = Ok A /\ mpo_recombine S b = Ok B /\ mpo_recombine S c = Ok C /\ mdot A B = Ok AB /\ mat_eq C AB.
Proof. exact (@mpo_mul_matrix). Qed.
Print Assumptions C49_matrices.

Example C49_example : setio_ok setA /\ mpo_ok (odata mA) /\ mpo_ok (odata mB) /\ oL mA = length (odata mA) /\ oL mB = length (odata mB) /\ 1 < oL mA /\
  map (leg 2) (odata mB) = map (leg 0) (odata mA) /\ mop (odata mA) [0;1;1]%nat [1;0;1]%nat = zi (-36) (-7) /\ mop (odata mB) [2;1;1]%nat [1;0;1]%nat = zi (-1) 0.
Proof.
  split; [exact setA_ok|]. split; [split; [discriminate|intros n Hn; do 3 (destruct n as [|n]; [split; reflexivity|]); cbn in Hn; lia]|].
  split; [split; [discriminate|intros n Hn; do 3 (destruct n as [|n]; [split; reflexivity|]); cbn in Hn; lia]|]. split; [reflexivity|]. split; [reflexivity|]. split; [cbn; lia|]. split; [reflexivity|]. split; vm_compute; reflexivity.
Qed.

(** C50: recombine() lists the amplitudes in reading order; contracting neighbouring rows or
    columns keeps them, the merged sites numbered from top to bottom or from left to right. *)
Theorem C50_recombine : forall (R : sring) H W (p : peps R), peps_ok H W (pdata p) ->
  exists T, peps_recombine p = Ok T /\ tsh T = (if Nat.eqb (prod_ (concat (legs_of 0 (pdata p)))) 1 then [] else [prod_ (concat (legs_of 0 (pdata p)))]) /\
    forall s, ingrid (legs_of 0 (pdata p)) s -> flat T (position (concat (legs_of 0 (pdata p))) (concat s)) = pamp H W (pdata p) s.
Proof. exact (@recombine_ok). Qed.
Print Assumptions C50_recombine.

Theorem C50_rows : forall (R : sring) H W (p : peps R) fr h, peps_ok H W (pdata p) -> 0 < h -> (fr + h <= H)%nat ->
  exists q, peps_row_contract p fr (fr + h) = Ok q /\ peps_ok (H - h + 1) W (pdata q) /\ pLx q = (H - h + 1)%nat /\ pLy q = W /\ poc q = None /\
    (forall j i, (j < H - h + 1)%nat -> i < W -> leg 0 (site_at (pdata q) j i) = prod_ (entries (group fr h j) [i] (legs_of 0 (pdata p)))) /\
    (forall j k i, (j < H - h + 1)%nat -> i < W -> j <> fr -> group fr h j = [k] -> site_at (pdata q) j i = site_at (pdata p) k i) /\
    (forall s t, ingrid (legs_of 0 (pdata p)) s -> merged H W 0 fr 1 h (legs_of 0 (pdata p)) s t -> pamp (H - h + 1) W (pdata q) t = pamp H W (pdata p) s).
Proof. exact (@row_contract_ok'). Qed.
Print Assumptions C50_rows.

Theorem C50_cols : forall (R : sring) H W (p : peps R) fr w, peps_ok H W (pdata p) -> 0 < w -> (fr + w <= W)%nat ->
  exists q, peps_col_contract p fr (fr + w) = Ok q /\ peps_ok H (W - w + 1) (pdata q) /\ pLx q = H /\ pLy q = (W - w + 1)%nat /\ poc q = None /\
    (forall j i, j < H -> (i < W - w + 1)%nat -> leg 0 (site_at (pdata q) j i) = prod_ (entries [j] (group fr w i) (legs_of 0 (pdata p)))) /\
    (forall s t, ingrid (legs_of 0 (pdata p)) s -> merged H W fr 0 w 1 (legs_of 0 (pdata p)) s t -> pamp H (W - w + 1) (pdata q) t = pamp H W (pdata p) s).
Proof. exact (@col_contract_ok'). Qed.
Print Assumptions C50_cols.

(** A block of w columns and h rows becomes one site, its parts numbered column by column. *)
Theorem C50_block : forall (R : sring) H W (p : peps R) x y w h, peps_ok H W (pdata p) -> 0 < w -> 0 < h -> (x + w <= W)%nat -> (y + h <= H)%nat ->
  exists q, peps_contract p x y w h = Ok q /\ peps_ok (H - h + 1) (W - w + 1) (pdata q) /\
    (forall j i, (j < H - h + 1)%nat -> (i < W - w + 1)%nat -> leg 0 (site_at (pdata q) j i) = prod_ (entries (group y h j) (group x w i) (legs_of 0 (pdata p)))) /\
    (forall s t, ingrid (legs_of 0 (pdata p)) s -> merged H W x y w h (legs_of 0 (pdata p)) s t -> pamp (H - h + 1) (W - w + 1) (pdata q) t = pamp H W (pdata p) s).
Proof. exact (@contract_ok). Qed.
Print Assumptions C50_block.

Example C50_example : peps_ok 2 3 d23 /\ merged 2 3 0 0 3 2 (legs_of 0 d23) [[0;1;1];[1;0;1]]%nat [[27]]%nat /\ position (concat (legs_of 0 d23)) (concat [[0;1;1];[1;0;1]]%nat) = 29%nat.
Proof. split; [exact d23_ok|]. split; [split; [grid_|intros j i Hj Hi; cbn in Hj, Hi; destruct j; [destruct i; [vm_compute; reflexivity|lia]|lia]]|reflexivity]. Qed.

(** C67: recombine('row_snake') on a PEPS with at most one wide bond between two rows lists
    the amplitudes in snake order; in general it does not. *)
Theorem C67_snake : forall (R : sring) H W (p : peps R), peps_ok H W (pdata p) -> thin H W (pdata p) ->
  exists T, peps_recombine_snake p = Ok T /\ size T = prod_ (concat (legs_of 0 (pdata p))) /\
    forall s t dss, ingrid (legs_of 0 (pdata p)) s -> snaked H W s t -> snaked H W (legs_of 0 (pdata p)) dss -> flat T (position (concat dss) (concat t)) = pamp H W (pdata p) s.
Proof. exact (@snake_ok). Qed.
Print Assumptions C67_snake.

Theorem C67_snake_refuted : exists (p : peps Zi) T s t dss, peps_ok 2 2 (pdata p) /\ peps_recombine_snake p = Ok T /\
  ingrid (legs_of 0 (pdata p)) s /\ snaked 2 2 s t /\ snaked 2 2 (legs_of 0 (pdata p)) dss /\ flat T (position (concat dss) (concat t)) <> pamp 2 2 (pdata p) s.
Proof.
  assert (A : match peps_recombine_snake pp22 with Ok T => negb (Zi_eqb (flat T (position [2;1;1;2]%nat [1;0;0;1]%nat)) (pamp 2 2 (pdata pp22) [[1;0];[1;0]]%nat)) | Err _ => false end = true) by (vm_compute; reflexivity).
  destruct (peps_recombine_snake pp22) as [T|] eqn:E; [|discriminate A]. exists pp22, T, [[1;0];[1;0]]%nat, [[1;0];[0;1]]%nat, [[2;1];[1;2]]%nat.
  split; [exact pairs_ok|]. split; [exact E|]. split; [repeat constructor; cbn; lia|]. split; [split; [grid_|cells]|]. split; [split; [grid_|cells]|]. cbn [concat app]. intros K. rewrite K in A.
  assert (Z : forall z, Zi_eqb z z = true) by (intros [a b]; unfold Zi_eqb; cbn [fst snd]; now rewrite !Z.eqb_refl). rewrite Z in A. discriminate A.
Qed.
Print Assumptions C67_snake_refuted.

(** C68: the PEPS made of an MPS holds the MPS along the snake. *)
Theorem C68_from_mps : forall (R : sring) (m : fmps R) W H, wf m -> 1 < W -> 0 < H -> fL m = (W * H)%nat ->
  exists p, peps_from_mps m (Some W) = Ok p /\ peps_ok H W (pdata p) /\ thin H W (pdata p) /\ pLx p = H /\ pLy p = W /\ poc p = None /\
    (forall dss, snaked H W (legs_of 0 (pdata p)) dss -> concat dss = dims (fdata m)) /\
    forall s t, ingrid (legs_of 0 (pdata p)) s -> snaked H W s t -> pamp H W (pdata p) s = psi m (concat t).
Proof. exact (@from_mps_ok). Qed.
Print Assumptions C68_from_mps.

Theorem C68_square : forall (R : sring) (m : fmps R) W, 0 < W -> fL m = (W * W)%nat -> peps_from_mps m None = peps_from_mps m (Some W).
Proof. exact (@from_mps_square). Qed.
Print Assumptions C68_square.

Theorem C68_state : forall (R : sring) (m : fmps R) W H, wf m -> 1 < W -> 0 < H -> fL m = (W * H)%nat ->
  exists p T, peps_from_mps m (Some W) = Ok p /\ peps_recombine_snake p = Ok T /\ size T = prod_ (dims (fdata m)) /\
    forall s, incfg (dims (fdata m)) s -> flat T (position (dims (fdata m)) s) = psi m s.
Proof. exact (@from_mps_state). Qed.
Print Assumptions C68_state.

Example C68_example : wf m6 /\ fL m6 = (3 * 2)%nat /\ snaked 2 3 [[0;1;2];[1;1;0]]%nat [[0;1;2];[0;1;1]]%nat /\ psi m6 [0;1;2;0;1;1]%nat = zi (-8) 42.
Proof.
  split. { split; [repeat (split; [reflexivity|]); reflexivity|]. split; [reflexivity|discriminate]. }
  split; [reflexivity|]. split; [|vm_compute; reflexivity]. split; [grid_|]. cells.
Qed.

(** C69: overlap and full_overlap. *)
Theorem C69_overlap : forall (R : sring) S H W (p q : peps R), setio_ok S -> peps_ok H W (pdata p) -> peps_ok H W (pdata q) -> legs_of 0 (pdata p) = legs_of 0 (pdata q) -> 1 < W ->
  exists M, peps_overlap S p q = Ok M /\ mr M = 1%nat /\ mc M = 1%nat /\
    me M 0%nat 0%nat = sumgrid (legs_of 0 (pdata p)) (fun s => sconj (pamp H W (pdata p) s) * pamp H W (pdata q) s).
Proof. exact (@overlap_ok). Qed.
Print Assumptions C69_overlap.

Theorem C69_full_overlap : forall (R : sring) H W (p q : peps R), peps_ok H W (pdata p) -> peps_ok H W (pdata q) -> legs_of 0 (pdata q) = legs_of 0 (pdata p) ->
  peps_full_overlap p q = Ok (sumgrid (legs_of 0 (pdata p)) (fun s => sconj (pamp H W (pdata p) s) * pamp H W (pdata q) s)).
Proof. exact (@full_overlap_ok). Qed.
Print Assumptions C69_full_overlap.

Example C69_example : peps_ok 2 3 (pdata r23) /\ peps_ok 2 3 (pdata q23) /\ legs_of 0 (pdata q23) = legs_of 0 (pdata r23) /\ setio_ok setA.
Proof. split; [exact d23_ok|]. split; [exact e23_ok|]. split; [reflexivity|exact setA_ok]. Qed.

(** A single column: the overlap fails although the states are fine. *)
Theorem C69_single_column_refuted : exists (p : peps Zi) e, peps_ok 2 1 (pdata p) /\ peps_overlap setA p p = Err e.
Proof.
  exists (mkPeps [[tz 1 [2;1;1;2;1]%nat]; [tz 2 [2;2;1;1;1]%nat]] 2 1 2 2 None). eexists. split; [split; [lia|]; split; [lia|]; split; [grid_|cells]|]. vm_compute. reflexivity.
Qed.
Print Assumptions C69_single_column_refuted.

(** C70: applying an operator to one site; expectation values of one site. *)
Theorem C70_apply : forall (R : sring) H W (p : peps R) (op : mat R) i j, peps_ok H W (pdata p) -> j < H -> i < W -> mc op = leg 0 (site_at (pdata p) j i) ->
  exists q, peps_apply p op i j = Ok q /\ peps_ok H W (pdata q) /\ pLx q = H /\ pLy q = W /\ pd q = pd p /\ pX q = pX p /\ poc q = poc p /\
    (forall j' i', j' < H -> i' < W -> (j', i') <> (j, i) -> site_at (pdata q) j' i' = site_at (pdata p) j' i') /\
    leg 0 (site_at (pdata q) j i) = mr op /\
    (forall s, grid H W s -> pamp H W (pdata q) s = sum (mc op) (fun x => me op (at_ 0%nat s j i) x * pamp H W (pdata p) (put s j i x))).
Proof. exact (@apply_ok). Qed.
Print Assumptions C70_apply.

Theorem C70_E : forall (R : sring) S H W (p : peps R) (op : mat R) i j, setio_ok S -> peps_ok H W (pdata p) -> 1 < W -> j < H -> i < W ->
  mr op = leg 0 (site_at (pdata p) j i) -> mc op = leg 0 (site_at (pdata p) j i) ->
  peps_E S p op i j = Ok (sre (sumgrid (legs_of 0 (pdata p)) (fun s => sconj (pamp H W (pdata p) s)
    * sum (mc op) (fun x => me op (at_ 0%nat s j i) x * pamp H W (pdata p) (put s j i x))))).
Proof. exact (@E_ok). Qed.
Print Assumptions C70_E.

Example C70_example : peps_ok 2 3 (pdata p23) /\ leg 0 (site_at (pdata p23) 1%nat 2%nat) = 2%nat /\ put [[0;1;1];[1;0;1]]%nat 1%nat 2%nat 0%nat = [[0;1;1];[1;0;0]]%nat.
Proof. split; [exact d23_ok|]. split; reflexivity. Qed.

(** C71: expectation values of a block narrower than the PEPS; the operator acts on the parts
    of the block numbered column by column, not in reading order as documented. *)
Theorem C71_E_k : forall (R : sring) S H W (p : peps R) (op : mat R) x y w h, setio_ok S -> peps_ok H W (pdata p) -> 0 < w -> 0 < h -> (x + w <= W)%nat -> (y + h <= H)%nat -> w < W ->
  let dss := legs_of 0 (pdata p) in let bd := entries (seq y h) (seq x w) dss in
  mr op = prod_ bd -> mc op = prod_ bd ->
  peps_E_k S p op x y w h = Ok (sre (sumgrid dss (fun s => sconj (pamp H W (pdata p) s)
    * sumcfg bd (fun b => me op (position bd (entries (seq y h) (seq x w) s)) (position bd b) * pamp H W (pdata p) (put_block H W x y w h s b))))).
Proof. exact (@E_k_ok). Qed.
Print Assumptions C71_E_k.

(** The state of one grid s0: the projector on the number of the block of s0 in reading order
    has the expectation value 0, on the number column by column the value 1. *)
Theorem C71_reading_order_refuted : exists (p : peps Zi) g x y w h, peps_ok 2 3 (pdata p) /\ (x + w <= 3)%nat /\ (y + h <= 2)%nat /\ ingrid (legs_of 0 (pdata p)) g /\
  (forall s, ingrid (legs_of 0 (pdata p)) s -> pamp 2 3 (pdata p) s = if list_eq_dec (list_eq_dec Nat.eq_dec) s g then zi 1 0 else zi 0 0) /\
  peps_E_k setA p (proj (position [2;2;2;2]%nat (reading (seq y h) (seq x w) g))) x y w h = Ok (zi 0 0) /\
  peps_E_k setA p (proj (position [2;2;2;2]%nat (entries (seq y h) (seq x w) g))) x y w h = Ok (zi 1 0).
Proof.
  exists p_one, [[0;1;0];[0;0;0]]%nat, 0%nat, 0%nat, 2%nat, 2%nat. split; [exact one_ok|]. split; [lia|]. split; [lia|]. split; [repeat constructor; cbn; lia|]. split.
  - assert (A : forallb (fun s => Zi_eqb (pamp 2 3 (pdata p_one) s) (if list_eq_dec (list_eq_dec Nat.eq_dec) s [[0;1;0];[0;0;0]]%nat then zi 1 0 else zi 0 0)) (allgrid (legs_of 0 (pdata p_one))) = true) by (vm_compute; reflexivity).
    intros s Hs. rewrite forallb_forall in A. specialize (A s (proj2 (allgrid_in _ _) Hs)). now apply Zi_eqb_eq.
  - split; rewrite (E_k_ok setA 2 3 p_one) by (try exact setA_ok; try exact one_ok; try reflexivity; cbn; lia); vm_compute; reflexivity.
Qed.
Print Assumptions C71_reading_order_refuted.
