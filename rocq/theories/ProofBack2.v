From Verif Require Import Alg ModelMPS SpecMPS ProofMPS ProofMPS2 ModelOrth SpecOrth
  ProofOrth ProofOrth2 ProofOrth3 ModelCanon SpecCanon ProofCanon ProofCanon2 ProofGauge ProofRank ProofBack.

Section Proofs.
Context {R : sring}.
Add Ring Rr : (s_th R).
Local Open Scope sr_scope.

Lemma sumcfg_rev ds (f : list nat -> R) : sumcfg (rev ds) f = sumcfg ds (fun s => f (rev s)).
Proof.
  revert f. induction ds as [|d ds IH]; intros f; [reflexivity|].
  cbn [rev]. rewrite sumcfg_app, IH. cbn [sumcfg].
  rewrite sumcfg_sum. apply sum_ext. intros i _. reflexivity.
Qed.

Definition flip (l : list (site R)) : list (site R) := rev (map sH l).

Lemma flip_cons A l : flip (A :: l) = flip l ++ [sH A].
Proof. reflexivity. Qed.

Lemma dims_flip l : dims (flip l) = rev (dims l).
Proof. unfold dims, flip. rewrite map_rev, map_map. reflexivity. Qed.

Lemma flip_app l l' : flip (l ++ l') = flip l' ++ flip l.
Proof. unfold flip. rewrite map_app, rev_app_distr. reflexivity. Qed.

Lemma chain_flip l : forall i j, chain i l j -> chain j (flip l) i.
Proof.
  induction l as [|A l IH]; intros i j H.
  - simpl in *. auto.
  - destruct H as [H1 H]. rewrite flip_cons. eapply chain_app_mk; [apply IH; exact H|reflexivity|exact H1].
Qed.

Lemma chain_unflip l : forall i j, chain j (flip l) i -> chain i l j.
Proof.
  induction l as [|A l IH]; intros i j H.
  - simpl in *. auto.
  - rewrite flip_cons in H. apply chain_app in H as (k & H1 & H2). simpl in H2. cbn in H2.
    destruct H2 as [H2 H3]. split; [exact H3|]. apply IH. rewrite H2. exact H1.
Qed.

Lemma incfg_rev ds s : incfg ds s -> incfg (rev ds) (rev s).
Proof.
  induction 1 as [|d x ds s H1 H2 IH]; [constructor|]. simpl. apply incfg_app; [exact IH|].
  constructor; [exact H1|constructor].
Qed.

Lemma amp_flip l : forall i j s x y, chain i l j -> length s = length l -> x < i -> y < j ->
  amp (flip l) (rev s) y x = sconj (amp l s x y).
Proof.
  induction l as [|A l IH]; intros i j s x y Hc Hs Hx Hy.
  - destruct s; [|discriminate]. simpl. rewrite sconj_dlt. unfold dlt. rewrite Nat.eqb_sym. reflexivity.
  - destruct s as [|a s]; [discriminate|]. destruct Hc as [H1 Hc]. injection Hs as Hs.
    rewrite flip_cons. cbn [rev].
    rewrite (amp_app (flip l) [sH A] (rev s) [a] y (dr A) j); [| |apply chain_flip; exact Hc|lia].
    2:{ unfold flip. rewrite !rev_length, map_length. exact Hs. }
    cbn [amp]. rewrite sum_conj. apply sum_ext. intros k Hk.
    rewrite (IH (dr A) j s k y Hc Hs Hk Hy), conj_mul.
    cbn [sH ent dr]. rewrite sum_dlt_r by lia. ring.
Qed.

Lemma iso_sH (A : site R) : left_iso A -> right_iso (sH A).
Proof.
  intros H i j Hi Hj. cbn in *. rewrite <- (H i j Hi Hj). apply sum_ext. intros s _. apply sum_ext. intros k _.
  rewrite conj_conj. reflexivity.
Qed.
Lemma iso_sH' (A : site R) : right_iso (sH A) -> left_iso A.
Proof.
  intros H i j Hi Hj. rewrite <- (H i j Hi Hj). cbn. apply sum_ext. intros s _. apply sum_ext. intros k _.
  rewrite conj_conj. reflexivity.
Qed.

Lemma Forall_flip (l : list (site R)) : Forall left_iso l <-> Forall right_iso (flip l).
Proof.
  unfold flip. rewrite !Forall_forall. split; intros H A HA.
  - apply in_rev, in_map_iff in HA as (B & <- & HB). apply iso_sH. auto.
  - apply iso_sH', H. apply -> in_rev. apply in_map. exact HA.
Qed.

Lemma gram_flip (l : list (site R)) i a b : chain i l 1 -> a < i -> b < i ->
  left_gram (flip l) a b = right_gram l a b.
Proof.
  intros Hc Ha Hb. unfold left_gram, right_gram. rewrite dims_flip, sumcfg_rev.
  apply sumcfg_ext. intros s Hs. apply incfg_length in Hs. rewrite dims_length in Hs.
  rewrite (amp_flip l i 1 s a 0 Hc Hs Ha) by lia. rewrite (amp_flip l i 1 s b 0 Hc Hs Hb) by lia.
  rewrite conj_conj. reflexivity.
Qed.

Lemma nth_rev {A} (l : list A) k : k < length l ->
  nth_error (rev l) k = nth_error l (length l - 1 - k).
Proof.
  revert k. induction l as [|x l IH]; intros k Hk; simpl in Hk; [lia|].
  cbn [rev]. destruct (Nat.lt_ge_cases k (length l)) as [H|H].
  - rewrite nth_error_app1 by (rewrite rev_length; exact H). rewrite IH by exact H. simpl length.
    replace (S (length l) - 1 - k)%nat with (S (length l - 1 - k)) by lia. reflexivity.
  - assert (k = length l) by lia. subst k. rewrite nth_error_app2 by (rewrite rev_length; lia).
    rewrite rev_length, Nat.sub_diag. simpl length. replace (S (length l) - 1 - length l)%nat with 0%nat by lia.
    reflexivity.
Qed.

Lemma nth_flip (l : list (site R)) k : k < length l ->
  nth_error (flip l) k = option_map sH (nth_error l (length l - 1 - k)).
Proof.
  intros H. unfold flip. rewrite nth_rev by (rewrite map_length; exact H). rewrite map_length.
  apply nth_error_map.
Qed.

Lemma firstn_flip (l : list (site R)) k : k <= length l -> firstn k (flip l) = flip (skipn (length l - k) l).
Proof.
  intros H. unfold flip. rewrite firstn_rev, map_length, skipn_map. reflexivity.
Qed.

Lemma cutq_sH (A B : site R) l h : cutq A B l h -> cutq (sH A) (sH B) h l.
Proof.
  intros (H1 & H2 & H3 & H4). unfold cutq, sH; cbn. repeat split; auto.
  intros s i j Hi Hj. rewrite H4 by assumption. reflexivity.
Qed.

Lemma chain_skipn (l : list (site R)) i j k A : chain i l j -> nth_error l k = Some A ->
  chain (dl A) (skipn k l) j.
Proof.
  revert i k. induction l as [|B l IH]; intros i [|k] Hc H; simpl in *; try discriminate.
  - injection H as ->. split; [reflexivity|]. exact (proj2 Hc).
  - destruct Hc as [H1 Hc]. eapply IH; eauto.
Qed.

Lemma chain_skipn_S (l : list (site R)) i j k A : chain i l j -> nth_error l k = Some A ->
  chain (dr A) (skipn (S k) l) j.
Proof.
  revert i k. induction l as [|B l IH]; intros i [|k] Hc H; simpl in *; try discriminate.
  - injection H as ->. exact (proj2 Hc).
  - destruct Hc as [H1 Hc]. eapply IH; eauto.
Qed.

Lemma left_back_ok (O : lapack2 R) (data : list (site R)) :
  svd_ok O -> eig_ok O -> eig_zeros_last O -> @definite R -> @integral R -> (1:R) <> 0 ->
  chain 1 data 1 -> data <> [] -> Forall left_iso data ->
  match back_part_l O data with
  | Err e => e = LinAlgError
  | Ok (data', None) => False
  | Ok (data', Some Ls) => exists w, w * sconj w = 1 /\
      chain 1 data' 1 /\ data' <> [] /\ dims data' = dims data /\ Forall left_iso data' /\
      (forall s, incfg (dims data) s -> amp data' s 0 0 = amp data s 0 0 * w) /\
      length Ls = S (length data) /\
      (forall k A, nth_error data' k = Some A -> exists Sk X, nth_error Ls k = Some X /\
         mat_eq X (mdiag (dl A) Sk) /\ diag_rgram (skipn k data') (dl A) Sk /\
         (forall x, x < dl A -> Sk x <> 0)) /\
      (forall k A, nth_error data k = Some A -> exists B, nth_error data' k = Some B /\ dr B <= dr A)
  end.
Proof.
  intros HO HE HZ HDf HI H01 Hc Hne Hiso. unfold back_part_l.
  set (f0 := flip data).
  assert (Ef0 : map sH (rev data) = f0) by (unfold f0, flip; apply map_rev).
  assert (Hcf : chain 1 f0 1) by (apply chain_flip; exact Hc).
  pose proof (left_gauge_gauged O HE (rev data) (mid 1) (fun _ => 1) 1 1 eq_refl eq_refl
     (fun _ _ => conj_1)) as HR. rewrite Ef0 in HR. specialize (HR Hcf).
  destruct (left_gauge O (mid 1) (fun _ => 1) (rev data)) as [[rd Ls1]|e]; [|exact HR].
  cbn [bind fst snd]. destruct HR as (Svs & HG & HEi).
  set (d1 := rev rd).
  assert (Ef1 : map sH rd = flip d1).
  { unfold flip, d1. rewrite map_rev, rev_involutive. reflexivity. }
  rewrite Ef1 in HG.
  destruct (gauged_closed f0 (flip d1) Svs HG Hcf (proj1 (Forall_flip _) Hiso))
    as (w & Hw & I1 & I2 & I3 & I5 & I6 & I7 & I8).
  assert (Hlf0 : length f0 = length data) by (unfold f0, flip; rewrite rev_length, map_length; reflexivity).
  assert (Hlf1 : length (flip d1) = length d1) by (unfold flip; rewrite rev_length, map_length; reflexivity).
  assert (Hld : length d1 = length data).
  { rewrite <- Hlf1, <- (dims_length (flip d1)), I2, dims_length. exact Hlf0. }
  set (L := length d1) in *.
  assert (HL : 0 < L) by (rewrite Hld; destruct data; [congruence|simpl; lia]).
  assert (HLs1 : length Ls1 = L).
  { destruct HEi as (_ & E & _). rewrite E, map_length. congruence. }
  assert (Hcd1 : chain 1 d1 1).
  { apply chain_unflip. exact I1. }
  (* the matrices are those of the relation *)
  assert (HEn : forall k A, nth_error d1 k = Some A -> exists Sk,
     nth_error (rev Ls1) k = Some (mdiag (dl A) Sk) /\ diag_gram (firstn (L - k) (flip d1)) (dl A) Sk /\
     (forall x y, x <= y -> y < dl A -> Sk x = 0 -> Sk y = 0)).
  { intros k A HA.
    assert (Hk : k < L) by (apply nth_error_Some; unfold L; rewrite HA; discriminate).
    assert (HA' : nth_error (flip d1) (L - 1 - k) = Some (sH A)).
    { rewrite nth_flip by (fold L; lia). fold L. replace (L - 1 - (L - 1 - k))%nat with k by lia.
      rewrite HA. reflexivity. }
    destruct (I8 _ _ HA') as (Sk & ES & HGk). cbn [sH dr] in HGk.
    assert (HdrA : nth_error (map (fun A => dr A) f0) (L - 1 - k) = Some (dl A)).
    { rewrite <- (same_dr (flip d1) f0 1 1 I1 Hcf I5).
      rewrite (map_nth_error (fun A : site R => dr A) _ _ HA'). reflexivity. }
    destruct (eigs_nth O _ _ _ _ _ HEi HdrA) as (Sk' & E1 & E2 & E3).
    assert (Sk' = Sk) by congruence. subst Sk'. exists Sk.
    split. { rewrite nth_rev by (rewrite HLs1; exact Hk). rewrite HLs1. exact E1. }
    split; [|exact (E3 HZ)]. replace (L - k)%nat with (S (L - 1 - k)) by lia. exact HGk. }
  destruct (rev Ls1) as [|firstL Lr] eqn:ER.
  { exfalso. apply (f_equal (@length _)) in ER. rewrite rev_length in ER. simpl in ER. lia. }
  set (Ls0 := (firstL :: Lr) ++ [ones_like firstL]).
  set (Sv := fun k x => me (nth k Ls0 (mid 0)) x x : R).
  set (r := fun k => rank O (nth k Ls0 (mid 0))).
  assert (HlLr : length (firstL :: Lr) = L).
  { rewrite <- ER, rev_length. exact HLs1. }
  assert (HB : forall k A, nth_error d1 k = Some A ->
     nth_error Ls0 k = Some (nth k Ls0 (mid 0)) /\ mr (nth k Ls0 (mid 0)) = dl A /\
     mat_eq (nth k Ls0 (mid 0)) (mdiag (dl A) (Sv k)) /\
     diag_gram (firstn (L - k) (flip d1)) (dl A) (Sv k) /\
     (forall x y, x <= y -> y < dl A -> Sv k x = 0 -> Sv k y = 0)).
  { intros k A HA. destruct (HEn k A HA) as (Sk & EK & HGk & Hz).
    assert (Hk : k < L) by (apply nth_error_Some; unfold L; rewrite HA; discriminate).
    assert (EK' : nth_error Ls0 k = Some (mdiag (dl A) Sk)).
    { unfold Ls0. rewrite nth_error_app1 by lia. exact EK. }
    assert (En : nth k Ls0 (mid 0) = mdiag (dl A) Sk) by exact (nth_error_nth _ _ _ EK').
    assert (Es : forall x, Sv k x = Sk x).
    { intros x. unfold Sv. rewrite En. cbn. rewrite Nat.eqb_refl. reflexivity. }
    rewrite En. split; [exact EK'|]. split; [reflexivity|].
    split; [|split].
    + split; [reflexivity|]. split; [reflexivity|]. cbn. intros i j _ _. rewrite Es. reflexivity.
    + intros a b Ha Hb. rewrite Es. exact (HGk a b Ha Hb).
    + intros x y Hxy Hy. rewrite !Es. apply (Hz x y Hxy Hy). }
  assert (HRk : forall k A, nth_error d1 k = Some A -> r k <= dl A /\
     forall x, x < dl A -> (Sv k x = 0 <-> r k <= x)).
  { intros k A HA. destruct (HB k A HA) as (_ & B1 & (_ & B2 & _) & _ & B4). cbn in B2.
    apply (rank_spec2 O (dl A) _ HO B1 B2). exact B4. }
  assert (HdA0 : forall A, nth_error d1 0 = Some A -> dl A = 1%nat).
  { intros A HA. destruct d1; [discriminate|]. injection HA as ->. exact (proj1 Hcd1). }
  assert (Hr0 : r 0%nat = 1%nat).
  { destruct (nth_error d1 0) as [A0|] eqn:EA0; [|apply nth_error_None in EA0; fold L in EA0; lia].
    pose proof (HdA0 A0 eq_refl) as HdA.
    destruct (HRk 0%nat A0 EA0) as [G1 G2]. rewrite HdA in G1, G2.
    destruct (r 0%nat) as [|[|n]]; [|reflexivity|lia].
    exfalso. apply H01.
    destruct (HB 0%nat A0 EA0) as (_ & _ & _ & HG0 & _). rewrite HdA in HG0.
    specialize (HG0 0%nat 0%nat ltac:(lia) ltac:(lia)). cbn [Nat.eqb] in HG0.
    rewrite (proj2 (G2 0%nat ltac:(lia)) ltac:(lia)) in HG0.
    rewrite Nat.sub_0_r in HG0. rewrite <- Hlf1 in HG0. rewrite firstn_all in HG0.
    rewrite <- HG0, <- (right_iso_normalised (flip d1) I1 I3). unfold left_gram.
    apply sumcfg_ext. intros; ring. }
  assert (HLs0 : length Ls0 = S (length d1)) by (unfold Ls0; rewrite app_length; simpl in *; fold L; lia).
  assert (G1 : forall k A, nth_error d1 k = Some A -> exists X, nth_error Ls0 k = Some X /\
      mr X = dl A /\ mat_eq X (mdiag (dl A) (Sv k)) /\ rank O X = r k /\ r k <= dl A).
  { intros k A HA. destruct (HB k A HA) as (B0 & B1 & B2 & _). exists (nth k Ls0 (mid 0)).
    split; [exact B0|]. split; [exact B1|]. split; [exact B2|]. split; [reflexivity|].
    exact (proj1 (HRk k A HA)). }
  assert (G2 : forall A B, nth_error d1 0 = Some A -> nth_error d1 (length d1 - 1) = Some B -> dl A = dr B).
  { intros A B HA HBl. rewrite (HdA0 A HA). symmetry. exact (chain_last _ _ _ _ Hcd1 HBl). }
  assert (G3 : forall A, nth_error d1 0 = Some A -> r 0%nat = dl A).
  { intros A HA. rewrite (HdA0 A HA). exact Hr0. }
  assert (G4 : forall k A, nth_error d1 k = Some A -> exists B, nth_error d1 k = Some B /\
      cutq A B (if Nat.ltb k 0 then r k else dl A) (if Nat.ltb (S k) 0 then r (S k) else dr A)).
  { intros k A HA. exists A. split; [exact HA|]. simpl. unfold cutq. auto. }
  destruct (rank_loop_ok O d1 Ls0 Sv r HL HLs0 G1 (fun k A HA => chain_next _ _ _ _ _ Hcd1 HA) G2 G3
    (length d1) 0%nat d1 Ls0 eq_refl eq_refl HLs0 G4 (fun k _ => eq_refl)
    (fun k Hk => False_ind _ (Nat.nlt_0_r k Hk)))
    as (d2 & Ls2 & ER2 & Hl2 & HlL2 & Hcut & HLk & _).
  change (firstL :: (Lr ++ [ones_like firstL])) with Ls0.
  cbn [rev app] in ER2 |- *.
  match goal with |- context [rank_loop O ?a ?b ?c] => change (rank_loop O a b c) with (rank_loop O (seq 0 (length d1)) Ls0 d1) end.
  rewrite ER2. cbn [bind fst snd]. fold L in Hl2, HlL2, Hcut, HLk.
  set (SvR := fun k => match k with 0 => fun _ => 1 | S _ => Sv (L - k)%nat end : nat -> R).
  set (rR := fun k => match k with 0 => 1 | S _ => r (L - k) end%nat).
  assert (Hlf2 : length (flip d2) = length (flip d1)).
  { unfold flip at 1. rewrite rev_length, map_length. lia. }
  assert (Hnth : forall k A, nth_error (flip d1) k = Some A -> exists A0, A = sH A0 /\
     nth_error d1 (L - 1 - k) = Some A0 /\ k < L).
  { intros k A HA.
    assert (Hk : k < L) by (rewrite <- Hlf1; apply nth_error_Some; rewrite HA; discriminate).
    rewrite nth_flip in HA by exact Hk. fold L in HA.
    destruct (nth_error d1 (L - 1 - k)) as [A0|]; [|discriminate]. injection HA as <-. eauto. }
  assert (Hprev : forall k A0, nth_error d1 (L - 1 - S k) = Some A0 -> S k < L ->
     exists A1, nth_error d1 (L - S k) = Some A1 /\ dr A0 = dl A1).
  { intros k A0 HA Hk. destruct (nth_error d1 (S (L - 1 - S k))) as [A1|] eqn:E.
    2:{ apply nth_error_None in E. fold L in E. lia. }
    destruct (chain_next _ _ _ _ _ Hcd1 E) as (B & EB & Hd). exists A1.
    split; [|congruence]. rewrite <- E. f_equal. lia. }
  destruct (cut_sem (flip d1) (flip d2) SvR rR HDf HI I1 I3 Hlf2) as (Q1 & Q2 & Q3 & Q4 & Q5).
  { intros k A HA. destruct (Hnth k A HA) as (A0 & -> & HA0 & Hk).
    destruct (Hcut _ _ HA0) as (B & EB & HC). exists (sH B). split.
    - rewrite nth_flip by lia. rewrite Hl2, EB. reflexivity.
    - apply cutq_sH in HC. rewrite Hlf1. cbn [sH dr].
      assert (E1 : rR k = (if Nat.ltb (S (L - 1 - k)) L then r (S (L - 1 - k)) else dr A0)).
      { destruct k as [|k].
        - replace (Nat.ltb (S (L - 1 - 0)) L) with false by (symmetry; apply Nat.ltb_ge; lia).
          cbn [rR]. symmetry. apply (chain_last _ _ _ _ Hcd1). fold L.
          replace (L - 1 - 0)%nat with (L - 1)%nat in HA0 by lia. exact HA0.
        - replace (Nat.ltb (S (L - 1 - S k)) L) with true by (symmetry; apply Nat.ltb_lt; lia).
          cbn [rR]. f_equal. lia. }
      assert (E2 : (if Nat.ltb (S k) L then rR (S k) else dl A0) = r (L - 1 - k)%nat).
      { destruct (Nat.ltb_spec (S k) L).
        - cbn [rR]. f_equal. lia.
        - assert (E : (L - 1 - k)%nat = 0%nat) by lia. rewrite E in HA0 |- *.
          rewrite Hr0. apply HdA0. exact HA0. }
      rewrite E1, E2. exact HC. }
  { intros k A HA. destruct (Hnth k A HA) as (A0 & -> & HA0 & Hk). cbn [sH dl].
    destruct k as [|k].
    - simpl firstn. replace (dr A0) with 1%nat; [exact gram_nil|].
      symmetry. apply (chain_last _ _ _ _ Hcd1). fold L.
      replace (L - 1 - 0)%nat with (L - 1)%nat in HA0 by lia. exact HA0.
    - destruct (Hprev k A0 HA0 Hk) as (A1 & HA1 & Hd). rewrite Hd.
      destruct (HB _ _ HA1) as (_ & _ & _ & HGk & _). cbn [SvR].
      replace (L - (L - S k))%nat with (S k) in HGk by lia. exact HGk. }
  { intros k A HA. destruct (Hnth k A HA) as (A0 & -> & HA0 & Hk). cbn [sH dl].
    destruct k as [|k].
    - cbn [rR SvR]. replace (dr A0) with 1%nat.
      + split; [lia|]. intros x Hx. split; [intros E; exfalso; exact (H01 E)|lia].
      + symmetry. apply (chain_last _ _ _ _ Hcd1). fold L.
        replace (L - 1 - 0)%nat with (L - 1)%nat in HA0 by lia. exact HA0.
    - destruct (Hprev k A0 HA0 Hk) as (A1 & HA1 & Hd). rewrite Hd. cbn [rR SvR].
      exact (HRk _ _ HA1). }
  { reflexivity. }
  assert (Hcd2 : chain 1 d2 1) by (apply chain_unflip; exact Q1).
  assert (Hdims : dims d2 = dims data).
  { rewrite <- (rev_involutive (dims d2)), <- dims_flip, Q2, I2. unfold f0.
    rewrite dims_flip. apply rev_involutive. }
  assert (Hdims1 : dims d1 = dims data).
  { rewrite <- (rev_involutive (dims d1)), <- dims_flip, I2. unfold f0.
    rewrite dims_flip. apply rev_involutive. }
  exists (sconj w). split; [rewrite conj_conj, <- Hw; ring|]. split; [exact Hcd2|].
  split; [intros E; rewrite E in Hl2; simpl in Hl2; lia|].
  split; [exact Hdims|]. split; [apply Forall_flip; exact Q3|].
  split.
  { intros s Hs. pose proof (incfg_length _ _ Hs) as Hls. rewrite dims_length in Hls.
    assert (E2 : amp (flip d2) (rev s) 0 0 = sconj (amp d2 s 0 0)).
    { apply (amp_flip d2 1 1); auto; lia. }
    assert (E0 : amp f0 (rev s) 0 0 = sconj (amp data s 0 0)).
    { apply (amp_flip data 1 1); auto; lia. }
    transitivity (sconj (sconj (amp d2 s 0 0))); [symmetry; apply conj_conj|]. rewrite <- E2.
    assert (Hrs : incfg (dims f0) (rev s)) by (unfold f0; rewrite dims_flip; apply incfg_rev; exact Hs).
    rewrite Q4 by (rewrite I2; exact Hrs). rewrite I6 by exact Hrs. rewrite E0, conj_mul, conj_conj.
    reflexivity. }
  split; [lia|].
  split.
  - intros k B EB.
    assert (Hk : k < L).
    { rewrite <- Hl2. apply nth_error_Some. rewrite EB. discriminate. }
    destruct (HLk k Hk) as (X & EX & HX).
    destruct (nth_error d1 k) as [A|] eqn:EA; [|apply nth_error_None in EA; fold L in EA; lia].
    destruct (Hcut k A EA) as (B' & EB' & (C1 & C2 & C3 & C4)). assert (B' = B) by congruence. subst B'.
    exists (Sv k), X. rewrite C2. split; [exact EX|]. split; [exact HX|]. split.
    + (* right environments *)
      intros a b Ha Hb.
      rewrite <- (gram_flip (skipn k d2) (r k) a b); [|rewrite <- C2; eapply chain_skipn; eauto|exact Ha|exact Hb].
      replace k with (length d2 - (L - k))%nat at 1 by lia.
      rewrite <- firstn_flip by lia.
      destruct k as [|k].
      * rewrite Nat.sub_0_r. rewrite firstn_all2 by (rewrite Hlf2, Hlf1; lia).
        destruct (HB 0%nat A EA) as (_ & _ & _ & HG0 & _).
        rewrite <- (HG0 a b) by (pose proof (proj1 (HRk 0%nat A EA)); lia).
        rewrite Nat.sub_0_r, firstn_all2 by lia.
        assert (a = 0%nat) by lia. assert (b = 0%nat) by lia. subst a b.
        unfold left_gram. rewrite Q2. apply sumcfg_ext. intros s Hs. rewrite Q4 by exact Hs. reflexivity.
      * destruct (nth_error d2 k) as [B1|] eqn:EB1; [|apply nth_error_None in EB1; lia].
        assert (EBf : nth_error (flip d2) (L - S k) = Some (sH B1)).
        { rewrite nth_flip by lia. rewrite Hl2. replace (L - 1 - (L - S k))%nat with k by lia.
          rewrite EB1. reflexivity. }
        destruct (Q5 _ _ EBf) as (T1 & T2 & T3). unfold rR, SvR in T2.
        destruct (L - S k)%nat as [|q] eqn:Eq; [lia|].
        replace (L - S q)%nat with (S k) in T2 by lia. exact (T2 a b Ha Hb).
    + intros x Hx E. apply (proj2 (HRk k A EA)) in E; [lia|]. pose proof (proj1 (HRk k A EA)). lia.
  - intros k A0 EA0.
    assert (Hk : k < L) by (rewrite Hld; apply nth_error_Some; rewrite EA0; discriminate).
    destruct (nth_error d1 k) as [A|] eqn:EA; [|apply nth_error_None in EA; fold L in EA; lia].
    destruct (Hcut k A EA) as (B & EB & (C1 & C2 & C3 & C4)). exists B. split; [exact EB|].
    assert (Hdr : dr A = dr A0).
    { assert (E1 : nth_error (flip d1) (L - 1 - k) = Some (sH A)).
      { rewrite nth_flip by (fold L; lia). fold L. replace (L - 1 - (L - 1 - k))%nat with k by lia. rewrite EA. reflexivity. }
      assert (E2 : nth_error f0 (L - 1 - k) = Some (sH A0)).
      { unfold f0. rewrite nth_flip by lia. rewrite <- Hld. fold L. replace (L - 1 - (L - 1 - k))%nat with k by lia. rewrite EA0. reflexivity. }
      apply (f_equal (fun l => nth_error l (L - 1 - k))) in I5.
      rewrite (map_nth_error _ _ _ E1), (map_nth_error _ _ _ E2) in I5. cbn in I5. congruence. }
    rewrite C3, <- Hdr. destruct (Nat.ltb_spec (S k) L); [|lia].
    destruct (nth_error d1 (S k)) as [A1|] eqn:EA1; [|apply nth_error_None in EA1; fold L in EA1; lia].
    destruct (chain_next _ _ _ _ _ Hcd1 EA1) as (A' & EA' & HdA'). assert (A' = A) by congruence. subst A'.
    rewrite HdA'. exact (proj1 (HRk _ _ EA1)).
Qed.

End Proofs.
