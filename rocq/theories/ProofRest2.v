(** rho_proj, random and isometries on two sites *)
From Coq Require Import ZArith.
From Verif Require Import Alg ModelMPS SpecMPS ProofMPS ModelOrth SpecOrth ProofOrth ProofOrth2 ModelCanon ModelNcon SpecNcon ProofNcon ProofNcon3 ProofNcon4
  ModelEk SpecEk ProofEk ProofEk2 ProofEk6 ModelStruct SpecStruct ProofStruct ProofPad ModelTensor SpecTensor ProofTensor ProofTrace2 ModelSpin SpecSpin ProofSpin ProofFull4 ModelTwo ModelRest SpecRest ProofRest.

Lemma filter_sites i k n : filter (fun x => negb (existsb (Nat.eqb x) (seq i k))) (seq 0 (i + k + n)) = seq 0 i ++ seq (i + k) n.
Proof.
  assert (H : forall a c (p : nat -> bool), (forall x, (a <= x < a + c)%nat -> p x = true) -> filter p (seq a c) = seq a c).
  { intros a c p. revert a. induction c as [|c IH]; intros a Hp; [reflexivity|]. cbn [seq filter]. rewrite (Hp a) by lia. f_equal. apply IH. intros x Hx. apply Hp. lia. }
  assert (H' : forall a c (p : nat -> bool), (forall x, (a <= x < a + c)%nat -> p x = false) -> filter p (seq a c) = []).
  { intros a c p. revert a. induction c as [|c IH]; intros a Hp; [reflexivity|]. cbn [seq filter]. rewrite (Hp a) by lia. apply IH. intros x Hx. apply Hp. lia. }
  assert (E : forall x, existsb (Nat.eqb x) (seq i k) = true <-> (i <= x < i + k)%nat).
  { intros x. rewrite existsb_exists. split.
    - intros (y & Hy & Ey). apply Nat.eqb_eq in Ey. subst y. apply in_seq in Hy. exact Hy.
    - intros Hx. exists x. split; [apply in_seq; exact Hx|apply Nat.eqb_refl]. }
  rewrite !seq_app, !filter_app. cbn [Nat.add].
  rewrite H. 2: { intros x Hx. destruct (existsb _ _) eqn:K; [|reflexivity]. apply E in K. lia. }
  rewrite H'. 2: { intros x Hx. rewrite (proj2 (E x)) by lia. reflexivity. }
  rewrite app_nil_r. f_equal. apply H. intros x Hx. destruct (existsb _ _) eqn:K; [|reflexivity]. apply E in K. lia.
Qed.

Section Proj.
Context {R : sring}.
Local Open Scope sr_scope.
Add Ring Rr : (s_th R).

Lemma mapM_seg {X} (g : site R -> site R -> res X) (a b : fmps R) qa qb : forall la lb pa pb,
  fdata a = pa ++ la ++ qa -> fdata b = pb ++ lb ++ qb -> length pa = length pb -> length la = length lb ->
  mapM (fun i => do AB <- both a b i; g (fst AB) (snd AB)) (seq (length pa) (length la)) = mapM (fun AB => g (fst AB) (snd AB)) (combine la lb).
Proof.
  induction la as [|A la IH]; intros [|B lb] pa pb Ea Eb Hp Hl; try discriminate; [reflexivity|].
  cbn [length seq mapM combine fst snd].
  assert (E : both a b (length pa) = Ok (A, B)).
  { unfold both, getitem. rewrite Ea, Eb, nth_error_app2, Nat.sub_diag by lia. cbn [app nth_error bind].
    rewrite Hp, nth_error_app2, Nat.sub_diag by lia. reflexivity. }
  rewrite E. cbn [bind fst snd]. destruct (g A B); [|reflexivity]. cbn [bind].
  specialize (IH lb (pa ++ [A]) (pb ++ [B])). rewrite !app_length in IH. cbn [length] in IH. rewrite Nat.add_1_r in IH.
  rewrite IH; [reflexivity| | |lia|injection Hl; auto]; rewrite <- app_assoc; assumption.
Qed.

Lemma squeeze_flat (A : site R) : flat A -> phys A <> 1%nat -> squeeze_site A = Ok (mkT [phys A] (fun idx => ent A (nth 0 idx 0%nat) 0%nat 0%nat)).
Proof. intros [H1 H2] H3. unfold squeeze_site. rewrite H1, H2. destruct (Nat.eqb_spec (phys A) 1); [contradiction|]. reflexivity. Qed.

Lemma part_overlap_ok (A B : site R) : pairing A B ->
  part_overlap A B = Ok (sum (phys A) (fun x => sconj (ent A x 0%nat 0%nat) * sconj (ent B x 0%nat 0%nat))).
Proof.
  intros (HA & HB & Hp & H1). unfold part_overlap. rewrite (squeeze_flat A HA H1). cbn [bind].
  rewrite (squeeze_flat (site_conj B)); [|exact HB|cbn [site_conj phys]; congruence]. cbn [bind]. rewrite Hp, Nat.eqb_refl. reflexivity.
Qed.

Lemma part_matrix_ok (S : setio) (A B : site R) : setio_ok S -> pairing A B ->
  exists M, part_matrix S A B = Ok M /\ mr M = phys A /\ mc M = phys B /\ forall x y, me M x y = ent A x 0%nat 0%nat * sconj (ent B y 0%nat 0%nat).
Proof.
  intros HS (HA & HB & Hp & H1). unfold part_matrix. rewrite (squeeze_flat A HA H1). cbn [bind].
  rewrite (squeeze_flat (site_conj B)); [|exact HB|cbn [site_conj phys]; congruence]. cbn [bind site_conj phys ent]. rewrite <- Hp.
  destruct (outer_ok S (fun x => ent A x 0%nat 0%nat) (fun x => sconj (ent B x 0%nat 0%nat)) (phys A) HS) as (T & ET & ST & VT).
  rewrite ET. cbn [bind]. eexists. split; [reflexivity|]. cbn [mr mc me]. rewrite ST. cbn [nth]. split; [reflexivity|]. split; [reflexivity|exact VT].
Qed.

Lemma flat_csite (A : site R) : flat A -> flat (csite A). Proof. exact (fun H => H). Qed.

Lemma overlaps_ok (la lb : list (site R)) : Forall2 pairing la lb ->
  exists po, mapM (fun AB => part_overlap (fst AB) (snd AB)) (combine la lb) = Ok po /\
    fold_right smul 1 po = sumcfg (dims la) (fun u => amp (map csite la) u 0 0 * sconj (amp lb u 0 0)).
Proof.
  induction 1 as [|A B la lb HAB H IH].
  - exists []. split; [reflexivity|]. cbn. unfold dlt. cbn. rewrite conj_1. ring.
  - destruct IH as (po & E & V). cbn [combine mapM fst snd]. rewrite (part_overlap_ok A B HAB). cbn [bind]. rewrite E. cbn [bind].
    eexists. split; [reflexivity|]. cbn [fold_right dims map sumcfg]. rewrite V, <- sum_mul_r. apply sum_ext; intros x _.
    change (map (fun A0 : site R => phys A0) la) with (dims la). rewrite <- sumcfg_mul_l. apply sumcfg_ext; intros s _.
    destruct HAB as ([A1 A2] & [B1 B2] & _ & _). cbn [amp csite dr]. rewrite A2, B2. cbn [sum ent csite]. rewrite !conj_add, !conj_mul, !conj_0. ring.
Qed.

Lemma matrices_ok (S : setio) (la lb : list (site R)) : setio_ok S -> Forall2 pairing la lb ->
  exists ms, mapM (fun AB => part_matrix S (fst AB) (snd AB)) (combine la lb) = Ok ms /\ map (@mr R) ms = dims la /\ map (@mc R) ms = dims lb /\
    forall s t, length s = length la -> length t = length lb -> prod_entries ms s t = amp la s 0 0 * sconj (amp lb t 0 0).
Proof.
  intros HS. induction 1 as [|A B la lb HAB H IH].
  - exists []. split; [reflexivity|]. split; [reflexivity|]. split; [reflexivity|]. intros [|] [|]; try discriminate. intros _ _. cbn. unfold dlt. cbn. rewrite conj_1. ring.
  - destruct IH as (ms & E & E1 & E2 & V). destruct (part_matrix_ok S A B HS HAB) as (M & EM & M1 & M2 & VM).
    cbn [combine mapM fst snd]. rewrite EM. cbn [bind]. rewrite E. cbn [bind]. eexists. split; [reflexivity|].
    cbn [map dims]. split; [f_equal; assumption|]. split; [f_equal; assumption|]. intros [|x s] [|y t] Hs Ht; try discriminate.
    cbn [prod_entries]. rewrite VM, V by (cbn in *; lia). destruct HAB as ([A1 A2] & [B1 B2] & _ & _). cbn [amp]. rewrite A2, B2. cbn [sum].
    rewrite !conj_add, !conj_mul, !conj_0. ring.
Qed.

Lemma pairing_flat (la lb : list (site R)) : Forall2 pairing la lb -> Forall flat la /\ Forall flat lb /\ dims la = dims lb /\ length la = length lb.
Proof.
  induction 1 as [|A B la lb (H1 & H2 & H3 & _) H IH]; [repeat split; constructor|]. destruct IH as (I1 & I2 & I3 & I4).
  split; [constructor; assumption|]. split; [constructor; assumption|]. split; [cbn; f_equal; assumption|cbn; congruence].
Qed.

Lemma flat_chain (l : list (site R)) : Forall flat l -> chain 1 l 1.
Proof. induction 1 as [|A l [H1 H2] H IH]; [reflexivity|]. cbn. split; [exact H1|]. rewrite H2. exact IH. Qed.

Lemma flat_bond (m : fmps R) : fdata m <> [] -> Forall flat (fdata m) -> bond_dimension m = 1%nat.
Proof.
  unfold bond_dimension. destruct (fdata m) as [|A l]; [congruence|]. intros _ H. inversion H as [|? ? [H1 H2] Hl]; subst.
  cbn [map list_max fold_right]. rewrite H1, H2. assert (Hle : (list_max (map (fun A => Nat.max (dl A) (dr A)) l) <= 1)%nat).
  { apply list_max_le. rewrite Forall_map. eapply Forall_impl; [|exact Hl]. intros B [B1 B2]. cbn. lia. }
  unfold list_max in *. lia.
Qed.

Lemma amp3 (a1 a2 a3 : list (site R)) u s v : Forall flat a1 -> Forall flat a2 -> Forall flat a3 -> length u = length a1 -> length s = length a2 ->
  amp (a1 ++ a2 ++ a3) (u ++ s ++ v) 0 0 = amp a1 u 0 0 * amp a2 s 0 0 * amp a3 v 0 0.
Proof.
  intros F1 F2 F3 Hu Hs. rewrite (amp_app a1 _ u _ 0 1%nat 1%nat Hu (flat_chain _ F1)) by lia. cbn [sum].
  rewrite (amp_app a2 a3 s v 0 1%nat 1%nat Hs (flat_chain _ F2)) by lia. cbn [sum]. ring.
Qed.

Theorem rho_proj_spec (S : setio) (a b : fmps R) a1 a2 a3 b1 b2 b3 : setio_ok S ->
  fdata a = a1 ++ a2 ++ a3 -> fdata b = b1 ++ b2 ++ b3 -> fL a = length (fdata a) -> a2 <> [] ->
  Forall2 pairing a1 b1 -> Forall2 pairing a2 b2 -> Forall2 pairing a3 b3 ->
  exists M, rho_proj S a b (seq (length a1) (length a2)) true = Ok (Some M) /\
    forall s t, incfg (dims a2) s -> incfg (dims a2) t ->
      me M (position (dims a2) s) (position (dims a2) t) =
      partial (dims a1) (dims a3) (fun w => amp (map csite a1 ++ a2 ++ map csite a3) w 0 0) (psi b) s t.
Proof.
  intros HS Ea Eb HL Hne P1 P2 P3.
  destruct (pairing_flat _ _ P1) as (Fa1 & Fb1 & D1 & L1). destruct (pairing_flat _ _ P2) as (Fa2 & Fb2 & D2 & L2). destruct (pairing_flat _ _ P3) as (Fa3 & Fb3 & D3 & L3).
  assert (EB : bond_dimension a = 1%nat).
  { apply flat_bond; rewrite Ea; [destruct a1, a2; cbn; congruence|]. apply Forall_app. split; [exact Fa1|]. apply Forall_app. split; assumption. }
  unfold rho_proj. rewrite EB. cbn [Nat.eqb andb].
  replace (fL a) with (length a1 + length a2 + length a3)%nat by (rewrite HL, Ea, !app_length; lia). rewrite filter_sites.
  destruct (overlaps_ok _ _ P1) as (po1 & E1 & V1). destruct (overlaps_ok _ _ P3) as (po3 & E3 & V3).
  destruct (matrices_ok S _ _ HS P2) as (ms & E2 & R2 & C2 & V2).
  rewrite (mapM_app' _ _ _ po1 po3).
  2: { etransitivity; [|exact E1]. exact (mapM_seg part_overlap a b (a2 ++ a3) (b2 ++ b3) a1 b1 [] [] Ea Eb eq_refl L1). }
  2: { etransitivity; [|exact E3]. rewrite <- app_length.
       apply (mapM_seg part_overlap a b [] [] a3 b3 (a1 ++ a2) (b1 ++ b2)); rewrite ?app_nil_r, <- ?app_assoc, ?app_length; try assumption. lia. }
  cbn [bind]. rewrite (mapM_seg (part_matrix S) a b a3 b3 a2 b2 a1 b1 Ea Eb L1 L2), E2. cbn [bind].
  assert (Hms : ms <> []). { intros ->. cbn in R2. destruct a2; [congruence|discriminate]. }
  destruct (tensor ms) as [M|e] eqn:EM.
  2: { destruct ms; [congruence|discriminate EM]. }
  cbn [bind]. eexists. split; [reflexivity|]. intros s t Hs Ht. cbn [mscale me].
  destruct (tensor_entry ms s t Hms) as (M' & EM' & _ & _ & VM); [rewrite R2; exact Hs|rewrite C2, <- D2; exact Ht|].
  rewrite EM in EM'. injection EM' as <-. rewrite R2, C2, <- D2 in VM. rewrite VM.
  apply incfg_length in Hs as Ls. apply incfg_length in Ht as Lt. unfold dims in Ls, Lt. rewrite map_length in Ls, Lt.
  rewrite V2 by lia. assert (Ep : fold_right smul (1 : R) (po1 ++ po3) = fold_right smul 1 po1 * fold_right smul 1 po3).
  { clear. induction po1 as [|x po1 IH]; cbn; [ring|]. rewrite IH. ring. }
  rewrite Ep, V1, V3. unfold partial. rewrite <- !sumcfg_mul_r. apply sumcfg_ext; intros u Hu.
  rewrite <- sumcfg_mul_l, <- sumcfg_mul_r. apply sumcfg_ext; intros v Hv.
  apply incfg_length in Hu. unfold dims in Hu. rewrite map_length in Hu.
  rewrite amp3; [|apply Forall_map; exact Fa1|exact Fa2|apply Forall_map; exact Fa3|rewrite map_length; exact Hu|exact Ls].
  unfold psi. rewrite Eb, amp3 by (assumption || lia). rewrite !conj_mul. ring.
Qed.

Lemma csite_real (l : list (site R)) : real_sites l -> forall s i j, amp (map csite l) s i j = amp l s i j.
Proof. intros H s i j. rewrite amp_csite. now apply amp_real. Qed.

Corollary rho_proj_real (S : setio) (a b : fmps R) a1 a2 a3 b1 b2 b3 : setio_ok S ->
  fdata a = a1 ++ a2 ++ a3 -> fdata b = b1 ++ b2 ++ b3 -> fL a = length (fdata a) -> a2 <> [] ->
  Forall2 pairing a1 b1 -> Forall2 pairing a2 b2 -> Forall2 pairing a3 b3 -> real_sites a1 -> real_sites a3 ->
  exists M, rho_proj S a b (seq (length a1) (length a2)) true = Ok (Some M) /\
    forall s t, incfg (dims a2) s -> incfg (dims a2) t ->
      me M (position (dims a2) s) (position (dims a2) t) = partial (dims a1) (dims a3) (psi a) (psi b) s t.
Proof.
  intros HS Ea Eb HL Hne P1 P2 P3 H1 H3. destruct (rho_proj_spec S a b a1 a2 a3 b1 b2 b3 HS Ea Eb HL Hne P1 P2 P3) as (M & EM & VM).
  exists M. split; [exact EM|]. intros s t Hs Ht. rewrite VM by assumption. unfold partial. apply sumcfg_ext; intros u Hu. apply sumcfg_ext; intros v Hv.
  destruct (pairing_flat _ _ P1) as (Fa1 & _). destruct (pairing_flat _ _ P2) as (Fa2 & _). destruct (pairing_flat _ _ P3) as (Fa3 & _).
  apply incfg_length in Hu. unfold dims in Hu. rewrite map_length in Hu. apply incfg_length in Hs. unfold dims in Hs. rewrite map_length in Hs.
  f_equal. unfold psi. rewrite Ea. rewrite !amp3; try assumption; try (apply Forall_map; assumption); rewrite ?map_length; try assumption.
  rewrite !csite_real by assumption. reflexivity.
Qed.

Lemma rho_proj_none (S : setio) (a b : fmps R) sites st : bond_dimension a <> 1%nat \/ st = false -> rho_proj S a b sites st = Ok None.
Proof.
  intros H. unfold rho_proj. destruct (Nat.eqb_spec (bond_dimension a) 1) as [E|E]; [|reflexivity].
  destruct H as [H| ->]; [contradiction|reflexivity].
Qed.
End Proj.
