(** links: structure of the label lists, the network without operator. *)
From Verif Require Import Alg ModelMPS SpecMPS ProofMPS ModelOrth SpecOrth ProofOrth ProofOrth2 ProofOrth3 ProofMeas
  ModelNcon SpecNcon ProofNcon ProofNcon3 ProofNcon4 ModelEk SpecEk ProofEk ProofEk2 ProofEk3 ProofEk4.
From Coq Require Import Permutation Sorted.

Lemma nth_lnk p b k n : n < k -> nth_error (lnk p b 0 k) n = Some [p n; b n; b (S n)].
Proof.
  intros H. unfold lnk. rewrite (map_nth_error (fun n => [p n; b n; b (S n)]) n (seq 0 k) (d := n)); [reflexivity|].
  rewrite (nth_error_nth' _ 0) by (rewrite seq_length; lia). rewrite seq_nth by lia. reflexivity.
Qed.

Lemma links_op_structure k : 0 < k ->
  Permutation (concat (links k true)) (zs 1 (4 * k) ++ zs 1 (4 * k)) /\ length (links k true) = 2 * k + 1 /\
  nth_error (links k true) k = Some (zs 1 (2 * k)) /\
  exists b c : nat -> Z, b 0 = c 0 /\ b k = c k /\ forall n, n < k ->
    nth_error (links k true) n = Some [Z.of_nat (n + 1); b n; b (S n)] /\
    nth_error (links k true) (k + 1 + n) = Some [Z.of_nat (k + (n + 1)); c n; c (S n)].
Proof.
  intros Hk. split; [apply links_op_twice, Hk|]. split; [|split].
  - rewrite links_op, !app_length, !lnk_length. cbn [length]. lia.
  - unfold links. rewrite nth_error_app2 by (rewrite map_length, seq_length; lia).
    rewrite map_length, seq_length, Nat.sub_diag. reflexivity.
  - exists (lb k), (lc k). split; [labels|]. split; [labels|]. intros n Hn. rewrite links_op. split.
    + rewrite nth_error_app1 by (rewrite lnk_length; lia). rewrite nth_lnk by exact Hn. reflexivity.
    + rewrite nth_error_app2 by (rewrite lnk_length; lia). rewrite lnk_length. replace (k + 1 + n - k) with (S n) by lia.
      cbn [app nth_error]. rewrite nth_lnk by exact Hn. reflexivity.
Qed.

Lemma links_noop_structure k : 0 < k ->
  Permutation (concat (links k false)) (zs 1 (3 * k) ++ zs 1 (3 * k)) /\ length (links k false) = 2 * k /\
  exists b c : nat -> Z, b 0 = c 0 /\ b k = c k /\ forall n, n < k ->
    nth_error (links k false) n = Some [Z.of_nat (n + 1); b n; b (S n)] /\
    nth_error (links k false) (k + n) = Some [Z.of_nat (n + 1); c n; c (S n)].
Proof.
  intros Hk. split; [apply links_noop_twice, Hk|]. split.
  - rewrite links_noop, !app_length, !lnk_length. lia.
  - exists (la k), (ld_ k). split; [unfold la, ld_; labels|]. split; [unfold la, ld_; labels|]. intros n Hn. rewrite links_noop. split.
    + rewrite nth_error_app1 by (rewrite lnk_length; lia). rewrite nth_lnk by exact Hn. reflexivity.
    + rewrite nth_error_app2 by (rewrite lnk_length; lia). rewrite lnk_length. replace (k + n - k) with n by lia.
      rewrite nth_lnk by exact Hn. reflexivity.
Qed.

Section Noop.
Context {R : sring}.
Local Open Scope sr_scope.
Add Ring Rr : (s_th R).

Ltac nlabels := unfold la, ld_ in *; labels.

Lemma noop_net_ok S (Ms : list (site R)) k a z chk :
  setio_ok S -> length Ms = k -> (0 < k)%nat -> chain a Ms z ->
  exists T, ncon S (map (fun M => tens_site (site_conj M)) Ms ++ map tens_site Ms) (links k false) None None chk = Ok T /\ tsh T = [] /\
    te T [] = sumcfg (dims Ms) (fun w => sum a (fun i => sum z (fun j => sconj (amp Ms w i j) * amp Ms w i j))).
Proof.
  intros HS HL Hk Hc. rewrite links_noop. set (P := map lp (seq 0 k)).
  assert (HN0 : NoDup (P ++ bonds_of (la k) (ld_ k) k)).
  { eapply Permutation_NoDup; [symmetry; apply order_noop, Hk|apply nodup_zseq]. }
  assert (Hpos : forall l, In l (P ++ bonds_of (la k) (ld_ k) k) -> (0 < l)%Z).
  { intros l H. apply (Permutation_in _ (order_noop k Hk)) in H. apply in_map_iff in H as (n & <- & Hn). apply in_seq in Hn. lia. }
  assert (HN : NoDup (map lp (seq 0 k) ++ map rp (seq 0 k) ++ bonds_of (la k) (ld_ k) k)).
  { assert (HX : NoDup (map rp (seq 0 k) ++ P ++ bonds_of (la k) (ld_ k) k)).
    { apply nodup_app'; [apply map_inj_nodup; unfold rp; intros; lia|exact HN0|]. intros x G1 G2. apply Hpos in G2.
      apply in_map_iff in G1 as (n & <- & _). unfold rp in G2. lia. }
    eapply Permutation_NoDup; [|exact HX]. apply Permutation_app_swap_app. }
  assert (E0 : la k 0 = ld_ k 0) by nlabels. assert (Ek : la k k = ld_ k k) by nlabels.
  destruct (ld_exists Ms lp rp (la k) (ld_ k) k a z HN Hc HL Hk E0) as (ld & Hld & Hz).
  assert (HldP : map ld P = dims Ms).
  { unfold P. rewrite <- HL. apply (map_nth_ld ld lp (fun A => phys A) Ms 0). intros i A Hi. apply (Hld i A Hi). }
  assert (Hcl : length (map site_conj Ms) = k) by (rewrite map_length; exact HL).
  assert (HldC : forall i A, nth_error (map site_conj Ms) i = Some A -> ld (lp i) = phys A /\ ld (la k i) = dl A).
  { intros i A Hi. rewrite nth_error_map in Hi. destruct (nth_error Ms i) as [B|] eqn:E; [|discriminate]. cbn in Hi. injection Hi as <-.
    destruct (Hld i B E) as (H1 & _ & H2 & _). split; assumption. }
  assert (WF : well_formed ld (map (fun M => tens_site (site_conj M)) Ms ++ map tens_site Ms)
              (lnk lp (la k) 0 k ++ lnk lp (ld_ k) 0 k) (P ++ bonds_of (la k) (ld_ k) k) []).
  { assert (HC : forall l, cnt (concat (lnk lp (la k) 0 k ++ lnk lp (ld_ k) 0 k)) l = (2 * cnt (P ++ bonds_of (la k) (ld_ k) k) l)%nat).
    { intros l. rewrite !concat_app, !count_occ_app, !cnt_lnk0, !cnt_bonds by exact Hk. fold P. rewrite <- E0, <- Ek. lia. }
    repeat split.
    - destruct k; [lia|]. discriminate.
    - rewrite <- (map_map site_conj tens_site). apply Forall2_app.
      + pose proof (lnk_dims ld (map site_conj Ms) 0 lp (la k) a z (chain_conj _ _ _ Hc) HldC) as H. rewrite Hcl in H. exact (H Hz).
      + pose proof (lnk_dims ld Ms 0 lp (ld_ k) a z Hc) as H. rewrite HL in H. apply H.
        * intros i A Hi. destruct (Hld i A Hi) as (H1 & _ & _ & H2). split; assumption.
        * cbn [Nat.add]. rewrite <- Ek. exact Hz.
    - exact HN0.
    - constructor.
    - apply Hpos; assumption.
    - rewrite HC. rewrite (proj1 (NoDup_count_occ' Z.eq_dec _) HN0) by assumption. reflexivity.
    - contradiction.
    - contradiction.
    - intros l Hl. left. apply (count_occ_In Z.eq_dec) in Hl. rewrite HC in Hl. apply (count_occ_In Z.eq_dec). lia. }
  destruct (ncon_default_ok S ld _ _ _ _ chk HS WF) as (T & ET & HT & HV); [constructor|].
  exists T. split; [exact ET|]. split; [exact HT|]. rewrite (HV [] eq_refl).
  rewrite esum_app, esum_cfg, HldP. apply sumcfg_ext; intros w Hw. apply incfg_length in Hw.
  set (e := eupds (assign [] []) P w).
  assert (HPw : map e P = w).
  { apply eupds_map; [exact (nodup_l _ _ HN0)|]. rewrite Hw. unfold P, dims. rewrite !map_length, seq_length. lia. }
  assert (HF : forall d, tprod (map (fun M => tens_site (site_conj M)) Ms ++ map tens_site Ms) (lnk lp (la k) 0 k ++ lnk lp (ld_ k) 0 k) d
     = tprod (map tens_site (map site_conj Ms)) (lnk lp (la k) 0 k) d * tprod (map tens_site Ms) (lnk lp (ld_ k) 0 k) d).
  { intros d. rewrite <- (map_map site_conj tens_site). apply tprod_app. rewrite map_length, lnk_length. exact Hcl. }
  rewrite (esum_ext _ _ _ _ HF). unfold bonds_of.
  rewrite (pair_esum ld (map site_conj Ms) Ms lp (la k) lp (ld_ k) k a z); try assumption.
  - apply sum_ext. intros i _. apply sum_ext. intros j _. rewrite <- (map_map lp e). fold P. rewrite HPw, amp_conj. reflexivity.
  - apply chain_conj, Hc.
  - nlabels.
  - nlabels.
  - nlabels.
  - nlabels.
  - nlabels.
  - intros i A Hi. apply HldC, Hi.
  - intros i A Hi. destruct (Hld i A Hi) as (_ & _ & _ & H). exact H.
Qed.

Lemma noop_norm S (m : fmps R) : setio_ok S -> wf m ->
  exists T, ncon S (map (fun M => tens_site (site_conj M)) (fdata m) ++ map tens_site (fdata m)) (links (fL m) false) None None false = Ok T /\
    tsh T = [] /\ te T [] = sumcfg (dims (fdata m)) (fun s => sconj (psi m s) * psi m s).
Proof.
  intros HS (Hc & HL & Hne).
  destruct (noop_net_ok S (fdata m) (fL m) 1 1 false HS (eq_sym HL)) as (T & ET & HT & VT).
  - rewrite HL. destruct (fdata m); [contradiction|cbn; lia].
  - exact Hc.
  - exists T. split; [exact ET|]. split; [exact HT|]. rewrite VT. apply sumcfg_ext; intros s _. cbn [sum]. unfold psi. ring.
Qed.
End Noop.
