(** The energies of the states of a run. *)
From Verif Require Import Alg ModelMPS SpecMPS ProofMPS ModelOrth SpecOrth ProofOrth ProofOrth2 ModelCanon SpecCanon ProofCanon3 ModelStruct SpecStruct ProofStruct
  ModelTraj SpecTraj ProofTraj ModelNcon SpecNcon ModelEk SpecEk ProofEk ProofEk4 ProofEk5 ModelEnergy SpecEnergy ProofEnergy ProofEd3 ModelEns SpecEns.
Local Open Scope nat_scope.

Section Proofs.
Context {R : sring}.
Local Open Scope sr_scope.
Add Ring Rr : (s_th R).

Lemma left_canonical_diagonal (l : list (site R)) : closed l -> Forall left_iso l ->
  (forall k A, nth_error l k = Some A -> exists Sk, diag_rgram (skipn k l) (dl A) Sk) -> envs_diagonal l.
Proof.
  intros Hc HF HD p q a E Hp x y Hx Hy Hne. split.
  - assert (HFp : Forall left_iso p) by (rewrite E in HF; apply Forall_app in HF; tauto).
    pose proof (left_collapse p 1 a Hp HFp x y Hx Hy) as K. cbn [sum] in K. unfold true_l.
    transitivity (dlt x y : R); [|unfold dlt; destruct (Nat.eqb_spec x y); [contradiction|reflexivity]].
    rewrite <- K. ring.
  - destruct q as [|A q].
    + unfold closed in Hc. rewrite E, app_nil_r in Hc. assert (a = 1%nat) by (eapply chain_fun; eassumption). lia.
    + assert (Hn : nth_error l (length p) = Some A) by (rewrite E, nth_error_app2, Nat.sub_diag by lia; reflexivity).
      destruct (HD _ _ Hn) as (Sk & K). unfold closed in Hc. rewrite E in Hc.
      destruct (chain_parts p (A :: q) [] 1 1) as (c & c' & C1 & C2 & C3); [rewrite app_nil_r; exact Hc|].
      rewrite (chain_fun p 1 c a C1 Hp) in C2. cbn [chain] in C2. destruct C2 as [C2 _].
      replace (skipn (length p) l) with (A :: q) in K by (rewrite E, skipn_app, Nat.sub_diag, skipn_all; reflexivity).
      specialize (K x y ltac:(lia) ltac:(lia)). unfold true_r. unfold right_gram in K. rewrite K.
      destruct (Nat.eqb_spec x y); [contradiction|reflexivity].
Qed.

Lemma suml_scale (c : R) l : suml (map (fun x => c * x) l) = c * suml l.
Proof. induction l as [|x l IH]; cbn [map suml]; [ring|]. rewrite IH. ring. Qed.

Lemma ham_mean_scale (m m' : fmps R) c h : wf m -> uniform m -> wf m' -> uniform m' -> fL m' = fL m -> fd m' = fd m ->
  ham_size (fL m) (fd m) h ->
  (forall s, incfg (dims (fdata m)) s -> psi m s = c * psi m' s) -> ham_mean m h = c * sconj c * ham_mean m' h.
Proof.
  intros Hw Hu Hw' Hu' HL Hd Hs Hpsi.
  assert (Ed : dims (fdata m') = dims (fdata m)).
  { rewrite (dims_repeat _ _ Hu), (dims_repeat _ _ Hu'), Hd. destruct Hw as (_ & W & _), Hw' as (_ & W' & _). congruence. }
  destruct h as [H|H]; cbn [ham_mean].
  - rewrite Ed, Hd. rewrite <- sumcfg_mul_l. apply sumcfg_ext; intros s Hs1. rewrite <- sumcfg_mul_l. apply sumcfg_ext; intros t Ht.
    rewrite (Hpsi s Hs1), (Hpsi t Ht), conj_mul. ring.
  - cbn [ham_size] in Hs. destruct Hs as [Hlen _]. unfold total_energy. rewrite Hd, <- suml_scale, map_map. f_equal. apply map_ext_in. intros [i g] Hin.
    cbn [fst snd]. apply in_combine_l, in_seq in Hin. unfold bond_energy.
    destruct Hw as (W1 & W2 & W3), Hw' as (W1' & W2' & W3'). rewrite <- W2, <- W2', HL.
    apply expect_scale. intros s Hs. apply Hpsi. rewrite (dims_parts m i 2 (conj W1 (conj W2 W3)) Hu) by lia. exact Hs.
Qed.

Lemma lcan_energy (S : setio) (O : lapack2 R) quot (m m' : fmps R) h :
  setio_ok S -> (forall x n, (0 < n)%nat -> sofnat n * quot x n = x) ->
  svd_ok O -> eig_ok O -> eig_zeros_last O -> @definite R -> @integral R -> (1:R) <> 0 ->
  wf m -> uniform m -> (0 < fd m)%nat -> (exists s, incfg (dims (fdata m)) s /\ psi m s <> 0) ->
  ham_size (fL m) (fd m) h -> lcan O m None = Ok m' ->
  exists v, energy_any S quot m' h = Ok v /\ reports h (fL m) (v * sq_norm m) (sre (ham_mean m h)).
Proof.
  intros HS Hq HO HE HZ HDf HI H01 Hw Hu H0 Hnz Hh E. apply lcan_inv in E as [Ls E].
  pose proof (left_can_back O m None HO HE HZ HDf HI H01 Hw Hu H0 (or_intror (conj I Hnz))) as K. rewrite E in K.
  destruct Ls as [Ls|]; [|contradiction].
  destruct K as (W' & Ed & EL & Efd & _ & _ & _ & Hiso & _ & (X & _ & _ & _ & Hpsi) & _ & Hdiag).
  destruct (Hpsi I) as (w & Hw1 & Hp). clear Hpsi. set (c := me X 0 0 * w) in *.
  assert (Hu' : uniform m').
  { unfold uniform in *. rewrite Forall_forall in *. intros A HA. rewrite Efd.
    assert (Ha : In (phys A) (dims (fdata m'))) by (apply in_map; exact HA). rewrite Ed in Ha. apply in_map_iff in Ha as (B & <- & HB). auto. }
  assert (Hp' : forall s, incfg (dims (fdata m)) s -> psi m s = c * psi m' s) by (intros s Hs; rewrite (Hp s Hs); ring).
  assert (Hn : sq_norm m = c * sconj c).
  { unfold sq_norm. transitivity (c * sconj c * sumcfg (dims (fdata m')) (fun s => psi m' s * sconj (psi m' s))).
    - rewrite Ed, <- sumcfg_mul_l. apply sumcfg_ext; intros s Hs. rewrite (Hp' s Hs), conj_mul. ring.
    - unfold psi. rewrite left_iso_normalised by (try exact Hiso; apply W'). ring. }
  assert (Hm : sre (ham_mean m h) = c * sconj c * sre (ham_mean m' h)).
  { rewrite (ham_mean_scale m m' c h Hw Hu W' Hu' EL Efd Hh Hp'). apply re_mul. rewrite conj_mul, conj_conj. ring. }
  destruct h as [H|H]; cbn [energy_any reports ham_size] in *.
  - destruct Hh as [h1 h2]. eexists. split; [apply EL_ok; try assumption; rewrite ?EL, ?Efd; assumption|]. rewrite Hm, Hn. cbn [ham_mean]. ring.
  - destruct Hh as [h1 h2]. destruct (energy_value S quot m' H HS Hq W' Hu') as (v & V1 & V2).
    + apply left_canonical_diagonal; [apply W'|exact Hiso|]. intros k A HA. destruct (Hdiag k A HA) as (Sk & X' & _ & _ & K & _). now exists Sk.
    + now rewrite EL.
    + now rewrite Efd.
    + exists v. split; [exact V1|]. rewrite EL, Efd in V2. rewrite Hm, Hn. cbn [ham_mean]. rewrite Efd, <- V2. ring.
Qed.

Lemma ham_mean_copy (x m : fmps R) h : closed (fdata x) -> uniform x -> copy_of x m -> ham_size (fL x) (fd x) h ->
  ham_mean m h = ham_mean x h /\ sq_norm m = sq_norm x.
Proof.
  intros Hc Hu Hcp Hh. destruct (copy_wf x m Hcp Hc Hu) as [Wm Um]. destruct Hcp as (P1 & P2 & P3 & P4 & P5).
  assert (Wx : wf x). { split; [exact Hc|]. split; [congruence|]. intros K. rewrite K in P4. cbn in P4. lia. }
  split.
  - transitivity (1 * sconj 1 * ham_mean m h); [rewrite conj_1; ring|]. symmetry. apply ham_mean_scale; try assumption.
    intros s Hs. rewrite (psi_same x m s Hc P1 Hs). ring.
  - unfold sq_norm. rewrite <- (dims_same _ _ P1). apply sumcfg_ext; intros s Hs. now rewrite (psi_same x m s Hc P1 Hs).
Qed.

Lemma lcan_err (S : setio) (O : lapack2 R) (m : fmps R) e :
  svd_ok O -> eig_ok O -> eig_zeros_last O -> @definite R -> @integral R -> (1:R) <> 0 ->
  wf m -> uniform m -> (0 < fd m)%nat -> (exists s, incfg (dims (fdata m)) s /\ psi m s <> 0) ->
  lcan O m None = Err e -> e = LinAlgError.
Proof.
  intros HO HE HZ HDf HI H01 Hw Hu H0 Hnz E. unfold lcan in E.
  pose proof (left_can_back O m None HO HE HZ HDf HI H01 Hw Hu H0 (or_intror (conj I Hnz))) as K.
  destruct (left_canonicalise O m None true true) as [[y Ls]|e']; cbn [bind] in E; [discriminate|]. congruence.
Qed.

Lemma mps_energies_run (S : setio) (O : lapack2 R) (I : imag R) quot tr xs h :
  setio_ok S -> (forall x n, (0 < n)%nat -> sofnat n * quot x n = x) ->
  svd_ok O -> eig_ok O -> eig_zeros_last O -> @definite R -> @integral R -> (1:R) <> 0 ->
  imag_ok I -> run O I tr xs -> xs <> [] ->
  Forall (fun x => closed (fdata x) /\ exists s, incfg (dims (fdata x)) s /\ psi x s <> 0) xs -> (0 < fd (tmps tr))%nat ->
  ham_size (fL (tmps tr)) (fd (tmps tr)) h ->
  match mps_energies S O I quot (Some h) tr with
  | Err e => e = LinAlgError
  | Ok vs => Forall2 (fun x v => reports h (fL (tmps tr)) (v * sq_norm x) (sre (ham_mean x h))) xs vs
  end.
Proof.
  intros HS Hq HO HE HZ HDf HIt H01 HI Hrun Hne Hc Hd Hh. destruct (run_inv O I tr xs HI Hrun) as (Ds & Dl & I1 & I2 & I3 & I4).
  destruct (entries_copy I _ _ HI xs Ds (thist tr) [Dl] I3 I4) as (ms & E & HF).
  unfold mps_energies, mps_list. rewrite I1.
  assert (Hth : thist tr <> []) by (intros K; rewrite K in I4; inversion I4; congruence).
  destruct (thist tr) as [|v0 vs] eqn:Et; [congruence|]. rewrite E. cbn [bind]. clear - HS Hq HO HE HZ HDf HIt H01 HF Hc Hd Hh.
  revert Hc. induction HF as [|x m xs ms (Hcp & Hu & HL & Hfd) HF IH]; intros Hc; cbn [mapM]; [constructor|].
  inversion Hc as [|? ? [Hx (s & Hs & Hnz)] Hc']; subst. specialize (IH Hc').
  destruct (copy_wf x m Hcp Hx Hu) as [Wm Um]. assert (Hcp' := Hcp). destruct Hcp as (P1 & P2 & P3 & P4 & P5).
  assert (Nz : exists s, incfg (dims (fdata m)) s /\ psi m s <> 0).
  { exists s. rewrite <- (dims_same _ _ P1). split; [exact Hs|]. now rewrite (psi_same x m s Hx P1 Hs). }
  assert (Dm : (0 < fd m)%nat) by (rewrite P3, Hfd; exact Hd).
  assert (Hh' : ham_size (fL x) (fd x) h) by (rewrite HL, Hfd; exact Hh).
  destruct (lcan O m None) as [m'|er] eqn:El; cbn [bind]; [|apply (lcan_err S O m er); assumption].
  destruct (lcan_energy S O quot m m' h HS Hq HO HE HZ HDf HIt H01 Wm Um Dm Nz ltac:(rewrite P2, P3; exact Hh') El) as (v & V1 & V2).
  rewrite V1. cbn [bind].
  match goal with |- match bind ?X _ with _ => _ end => destruct X as [rows|er] end; cbn [bind]; [|exact IH].
  constructor; [|exact IH]. destruct (ham_mean_copy x m h Hx Hu Hcp' Hh') as [K1 K2]. rewrite K1, K2, P2, HL in V2. exact V2.
Qed.

Lemma mps_energies_empty (S : setio) (O : lapack2 R) (I : imag R) quot h tr : h = None \/ thist tr = [] ->
  mps_energies S O I quot h tr = Err AssertionError.
Proof. intros [->|E]; [reflexivity|]. unfold mps_energies. rewrite E. destruct h; reflexivity. Qed.

Lemma deserialize_run (O : lapack2 R) (I : imag R) tr xs : imag_ok I -> run O I tr xs ->
  Forall (fun x => fits x (fD (tmps tr))) xs ->
  exists ms, traj_deserialize I tr = Ok ms /\ Forall2 same_tensors xs ms.
Proof.
  intros HI Hrun Hf. destruct (run_inv O I tr xs HI Hrun) as (Ds & Dl & I1 & I2 & I3 & I4).
  unfold traj_deserialize. clear Hrun I1 I2. revert I4 Hf. generalize (thist tr). induction I3 as [|x D xs Ds (F1 & F2 & F3) I3 IH]; intros vs I4 Hf.
  - inversion I4; subst. exists []. split; [reflexivity|constructor].
  - inversion I4 as [|? v ? vs' Ev I4']; subst. inversion Hf as [|? ? Hx Hf']; subst. destruct (IH _ I4' Hf') as (ms & E & HF).
    destruct (decode_one I x _ v HI Hx Ev) as (D1 & m & D2 & D3 & _). rewrite F2, F3 in D1.
    exists (m :: ms). split; [|now constructor]. cbn [mapM]. rewrite E, D1. cbn [bind]. rewrite D2. reflexivity.
Qed.
End Proofs.
