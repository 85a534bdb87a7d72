(** The truncations of a PEPS restrict the sum over the bonds. *)
From Verif Require Import Alg ModelMPS SpecMPS ModelNcon SpecTensor ModelPeps SpecPeps ProofPeps2 ProofPeps5 ProofPeps9 ProofPeps15 ModelTrunc SpecTrunc ProofNp.
Local Open Scope nat_scope.

Definition capf (o : option nat) (n : nat) : nat := match o with None => n | Some D => Nat.min D n end.
Fixpoint caprow (cap : nat -> option nat) (ds : list nat) : list nat :=
  match ds with [] => [] | n :: ds => capf (cap 0) n :: caprow (fun i => cap (S i)) ds end.
Fixpoint capgrid (cap : nat -> nat -> option nat) (dss : list (list nat)) : list (list nat) :=
  match dss with [] => [] | ds :: dss => caprow (cap 0) ds :: capgrid (fun j => cap (S j)) dss end.

Lemma caprow_len ds : forall cap, length (caprow cap ds) = length ds.
Proof. induction ds; intros cap; cbn; auto. Qed.
Lemma caprow_nth ds : forall cap i, i < length ds -> nth i (caprow cap ds) 0 = capf (cap i) (nth i ds 0).
Proof. induction ds as [|n ds IH]; intros cap [|i] Hi; cbn in *; try lia; try reflexivity. now rewrite IH by lia. Qed.
Lemma capgrid_grid H W dss : grid H W dss -> forall cap, grid H W (capgrid cap dss).
Proof.
  revert H. induction dss as [|ds dss IH]; intros H [HL HF] cap; cbn in *; [split; [exact HL|constructor]|].
  destruct H; [discriminate|]. destruct (IH H (conj (eq_add_S _ _ HL) (Forall_inv_tail HF)) (fun j => cap (S j))) as [K1 K2].
  split; [cbn; congruence|]. constructor; [|exact K2]. rewrite caprow_len. exact (Forall_inv HF).
Qed.
Lemma capgrid_at H W dss : grid H W dss -> forall cap j i, j < H -> i < W -> at_ 0 (capgrid cap dss) j i = capf (cap j i) (at_ 0 dss j i).
Proof.
  revert H. induction dss as [|ds dss IH]; intros H [HL HF] cap j i Hj Hi; cbn in *; [lia|]. destruct H; [lia|].
  destruct j as [|j]; unfold at_; cbn [nth].
  - apply caprow_nth. rewrite (Forall_inv HF). exact Hi.
  - apply (IH H (conj (eq_add_S _ _ HL) (Forall_inv_tail HF)) (fun j => cap (S j)) j i); lia.
Qed.

Lemma forallb_seq_S (f : nat -> bool) n : forallb f (seq 0 (S n)) = (f 0 && forallb (fun i => f (S i)) (seq 0 n))%bool.
Proof. cbn [seq forallb]. f_equal. rewrite <- seq_shift. induction (seq 0 n) as [|x l IH]; cbn; [reflexivity|]. now rewrite IH. Qed.

Lemma forallb_false {X} (f : X -> bool) l : forallb f l = false -> exists x, In x l /\ f x = false.
Proof.
  induction l as [|x l IH]; cbn; [discriminate|]. destruct (f x) eqn:E; cbn; [|intros _; exists x; now auto].
  intros K. destruct (IH K) as (y & Hy & Ey). exists y. auto.
Qed.

Section Proofs.
Context {R : sring}.
Local Open Scope sr_scope.
Add Ring Rr : (s_th R).

Lemma sum_cap o n (f : nat -> R) : sum (capf o n) f = sum n (fun k => if keeps o k then f k else 0).
Proof.
  destruct o as [D|]; cbn [capf keeps]; [|reflexivity].
  induction n as [|n IH]; [now rewrite Nat.min_0_r|]. cbn [sum]. destruct (Nat.ltb_spec n D) as [Hl|Hl].
  - rewrite Nat.min_r by lia. cbn [sum]. rewrite <- IH, Nat.min_r by lia. reflexivity.
  - rewrite <- IH. rewrite !Nat.min_l by lia. ring.
Qed.

Lemma sumcfg_zero ds : sumcfg ds (fun _ => 0 : R) = 0.
Proof. induction ds as [|n ds IH]; cbn; [reflexivity|]. rewrite (sum_ext _ _ (fun _ => 0)) by (intros; exact IH). apply sum_zero; reflexivity. Qed.

Lemma sumgrid_zero' dss : sumgrid dss (fun _ => 0 : R) = 0.
Proof. induction dss as [|ds dss IH]; cbn; [reflexivity|]. rewrite (sumcfg_ext ds _ (fun _ => 0)) by (intros; exact IH). apply sumcfg_zero. Qed.

Lemma sumcfg_cap ds : forall cap (f : list nat -> R),
  sumcfg (caprow cap ds) f = sumcfg ds (fun c => if forallb (fun i => keeps (cap i) (nth i c 0%nat)) (seq 0 (length ds)) then f c else 0).
Proof.
  induction ds as [|n ds IH]; intros cap f; [reflexivity|]. cbn [caprow sumcfg length]. rewrite sum_cap. apply sum_ext; intros k _. rewrite IH.
  destruct (keeps (cap 0%nat) k) eqn:E.
  - apply sumcfg_ext; intros c _. rewrite forallb_seq_S. cbn [nth]. rewrite E. reflexivity.
  - symmetry. etransitivity; [|apply (sumcfg_zero ds)]. apply sumcfg_ext; intros c _. rewrite forallb_seq_S. cbn [nth]. rewrite E. reflexivity.
Qed.

Lemma sumgrid_cap W dss : Forall (fun r => length r = W) dss -> forall cap (f : list (list nat) -> R),
  sumgrid (capgrid cap dss) f = sumgrid dss (fun v => if within (length dss) W cap v then f v else 0).
Proof.
  induction dss as [|ds dss IH]; intros HF cap f; [reflexivity|]. cbn [capgrid sumgrid length]. rewrite sumcfg_cap. apply sumcfg_ext; intros c _.
  rewrite (Forall_inv HF). rewrite (IH (Forall_inv_tail HF)).
  destruct (forallb (fun i => keeps (cap 0%nat i) (nth i c 0%nat)) (seq 0 W)) eqn:E.
  - apply sumgrid_ext; intros v _. unfold within. rewrite (forallb_seq_S _ (length dss)). unfold at_. cbn [nth]. rewrite E. reflexivity.
  - symmetry. etransitivity; [|apply (sumgrid_zero' dss)]. apply sumgrid_ext; intros v _. unfold within. rewrite (forallb_seq_S _ (length dss)). unfold at_. cbn [nth]. rewrite E. reflexivity.
Qed.

(** data' is data with its bonds cut *)
Definition cut_of (H W : nat) (hcap vcap : nat -> nat -> option nat) (data data' : list (list (tens R))) : Prop :=
  grid H W data' /\ forall j i, (j < H)%nat -> (i < W)%nat -> let A := site_at data j i in
    te (site_at data' j i) = te A /\
    tsh (site_at data' j i) = [leg 0 A; (if Nat.eqb j 0 then 1%nat else capf (vcap (j - 1)%nat i) (leg 1 A)); capf (hcap j i) (leg 2 A); capf (vcap j i) (leg 3 A);
      (if Nat.eqb i 0 then 1%nat else capf (hcap j (i - 1)%nat) (leg 4 A))].

Lemma cut_truncated H W hcap vcap (p : peps R) data' : peps_ok H W (pdata p) -> cut_of H W hcap vcap (pdata p) data' ->
  (forall j, capf (hcap j (W - 1)%nat) 1 = 1%nat) -> (forall i, capf (vcap (H - 1)%nat i) 1 = 1%nat) ->
  truncated H W hcap vcap p (with_data p data').
Proof.
  intros (H0 & W0 & Hg & Hok) [Hg' Hc] Bh Bv. set (data := pdata p) in *.
  assert (L2 : forall j i, (j < H)%nat -> (i < W)%nat -> leg 2 (site_at data' j i) = capf (hcap j i) (leg 2 (site_at data j i))).
  { intros j i Hj Hi. unfold leg. rewrite (proj2 (Hc j i Hj Hi)). reflexivity. }
  assert (L3 : forall j i, (j < H)%nat -> (i < W)%nat -> leg 3 (site_at data' j i) = capf (vcap j i) (leg 3 (site_at data j i))).
  { intros j i Hj Hi. unfold leg. rewrite (proj2 (Hc j i Hj Hi)). reflexivity. }
  assert (E2 : legs_of 2 data' = capgrid hcap (legs_of 2 data)).
  { apply (grid_ext 0%nat H W); [now apply legs_grid|apply capgrid_grid; now apply legs_grid|]. intros j i Hj Hi.
    rewrite (capgrid_at H W) by (try assumption; now apply legs_grid). rewrite !at_legs. now apply L2. }
  assert (E3 : legs_of 3 data' = capgrid vcap (legs_of 3 data)).
  { apply (grid_ext 0%nat H W); [now apply legs_grid|apply capgrid_grid; now apply legs_grid|]. intros j i Hj Hi.
    rewrite (capgrid_at H W) by (try assumption; now apply legs_grid). rewrite !at_legs. now apply L3. }
  unfold truncated, with_data. cbn [pdata pLx pLy pd pX poc]. fold data. split; [|split; [|repeat (split; [reflexivity|]); split]].
  - split; [exact H0|]. split; [exact W0|]. split; [exact Hg'|]. intros j i Hj Hi. cbn zeta. destruct (Hc j i Hj Hi) as [_ HS].
    destruct (Hok j i Hj Hi) as (_ & U & L & D & Rr). cbn zeta in U, L, D, Rr. split; [rewrite HS; reflexivity|]. split; [|split; [|split]].
    + unfold leg at 1. rewrite HS. cbn [nth]. destruct (Nat.eqb_spec j 0) as [->|Ne]; [reflexivity|]. rewrite L3 by lia. now rewrite U.
    + unfold leg at 1. rewrite HS. cbn [nth]. destruct (Nat.eqb_spec i 0) as [->|Ne]; [reflexivity|]. rewrite L2 by lia. now rewrite L.
    + intros Ej. rewrite L3, D by assumption. replace j with (H - 1)%nat by lia. apply Bv.
    + intros Ei. rewrite L2, Rr by assumption. replace i with (W - 1)%nat by lia. apply Bh.
  - apply (grid_ext 0%nat H W); [now apply legs_grid|now apply legs_grid|]. intros j i Hj Hi. rewrite !at_legs. unfold leg at 1. rewrite (proj2 (Hc j i Hj Hi)). reflexivity.
  - intros j i Hj Hi. split; [now apply L2|now apply L3].
  - intros s. unfold pamp, pamp_within. rewrite E2, E3. destruct (legs_grid 2 H W data Hg) as [G2 F2]. destruct (legs_grid 3 H W data Hg) as [G3 F3].
    rewrite (sumgrid_cap W _ F2), G2. apply sumgrid_ext; intros h _. rewrite (sumgrid_cap W _ F3), G3.
    destruct (within H W hcap h); cbn [andb]; [|symmetry; apply sumgrid_zero'].
    apply sumgrid_ext; intros v _. destruct (within H W vcap v); [|reflexivity].
    apply prodgrid_ext'. intros j i Hj Hi. now rewrite (proj1 (Hc j i Hj Hi)).
Qed.

(** nothing behind the limits: nothing is lost *)
Lemma within_false H W cap v : within H W cap v = false -> exists j i, (j < H)%nat /\ (i < W)%nat /\ keeps (cap j i) (at_ 0%nat v j i) = false.
Proof.
  unfold within. intros E. apply forallb_false in E. destruct E as (j & Hj & E). apply forallb_false in E. destruct E as (i & Hi & E).
  apply in_seq in Hj, Hi. exists j, i. repeat split; [lia|lia|exact E].
Qed.

Lemma pamp_within_all H W hcap vcap (data : list (list (tens R))) s : zero_beyond H W hcap vcap data -> pamp_within H W hcap vcap data s = pamp H W data s.
Proof.
  intros Z. unfold pamp_within, pamp. apply sumgrid_ext; intros h _. apply sumgrid_ext; intros v _.
  destruct (within H W hcap h) eqn:E1; cbn [andb].
  - destruct (within H W vcap v) eqn:E2; [reflexivity|]. symmetry. destruct (within_false _ _ _ _ E2) as (j & i & Hj & Hi & K).
    apply (prodgrid_zero H W _ j i Hj Hi). apply (Z j i Hj Hi). now right.
  - symmetry. destruct (within_false _ _ _ _ E1) as (j & i & Hj & Hi & K). apply (prodgrid_zero H W _ j i Hj Hi). apply (Z j i Hj Hi). now left.
Qed.
End Proofs.
