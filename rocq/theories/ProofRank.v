From Verif Require Import Alg ModelMPS SpecMPS ProofMPS ProofMPS2 ModelOrth SpecOrth
  ProofOrth ProofOrth2 ProofOrth3 ModelCanon SpecCanon ProofCanon ProofCanon2 ProofGauge.

Section Lists.
Context {A : Type}.

Lemma getitem_nth (l : list A) k x : nth_error l k = Some x -> getitem l k = Ok x.
Proof. intros H. unfold getitem. rewrite H. reflexivity. Qed.

Lemma setitem_nth (l : list A) k x : k < length l ->
  exists l', setitem l k x = Ok l' /\ length l' = length l /\
  forall j, nth_error l' j = if Nat.eqb j k then Some x else nth_error l j.
Proof.
  revert k. induction l as [|y l IH]; intros k Hk; simpl in Hk; [lia|].
  destruct k as [|k].
  - exists (x :: l). split; [reflexivity|]. split; [reflexivity|].
    intros [|j]; reflexivity.
  - destruct (IH k ltac:(lia)) as (l' & H1 & H2 & H3). exists (y :: l'). simpl. rewrite H1.
    split; [reflexivity|]. split; [simpl; congruence|].
    intros [|j]; [reflexivity|]. simpl. apply H3.
Qed.

End Lists.

Section Proofs.
Context {R : sring}.
Add Ring Rr : (s_th R).
Local Open Scope sr_scope.

(** B is the upper left l x h corner of A. *)
Definition cutq (A B : site R) (l h : nat) : Prop :=
  phys B = phys A /\ dl B = l /\ dr B = h /\
  forall s i j, i < l -> j < h -> ent B s i j = ent A s i j.

Lemma sconj_dlt i j : sconj (dlt i j : R) = dlt i j.
Proof. unfold dlt. destruct (Nat.eqb i j); [apply conj_1|apply conj_0]. Qed.

Lemma cut_cols (A B : site R) l h t : cutq A B l h -> t <= h ->
  exists C, site_rmul B (mH (mproj t h)) = Ok C /\ cutq A C l t.
Proof.
  intros (H1 & H2 & H3 & H4) Ht. unfold site_rmul. cbn [mH mproj mr mc]. rewrite H3, Nat.eqb_refl.
  eexists. split; [reflexivity|]. split; [exact H1|]. split; [exact H2|]. split; [reflexivity|].
  intros s i j Hi Hj. cbn.
  rewrite (sum_ext h _ (fun k => dlt j k * ent B s i k)).
  - rewrite sum_dlt_l by lia. apply H4; lia.
  - intros k _. rewrite sconj_dlt. ring.
Qed.

Lemma cut_rows (A B : site R) l h t : cutq A B l h -> t <= l ->
  exists C, site_lmul (mproj t l) B = Ok C /\ cutq A C t h.
Proof.
  intros (H1 & H2 & H3 & H4) Ht. unfold site_lmul. cbn [mproj mr mc]. rewrite H2, Nat.eqb_refl.
  eexists. split; [reflexivity|]. split; [exact H1|]. split; [reflexivity|]. split; [exact H3|].
  intros s i j Hi Hj. cbn. rewrite sum_dlt_l by lia. apply H4; lia.
Qed.

Lemma cut_diag n Sv t (X : mat R) : mat_eq X (mdiag n Sv) -> t <= n ->
  exists Y Z, mdot (mproj t n) X = Ok Y /\ mdot Y (mH (mproj t n)) = Ok Z /\ mat_eq Z (mdiag t Sv).
Proof.
  intros (H1 & H2 & H3) Ht. cbn in H1, H2.
  rewrite (mdot_ok (mproj t n) X) by (simpl; congruence).
  eexists. eexists. split; [reflexivity|].
  rewrite mdot_ok by (simpl; congruence). split; [reflexivity|]. split; [reflexivity|].
  split; [reflexivity|]. cbn. intros i j Hi Hj. rewrite H2.
  rewrite (sum_ext n _ (fun k => dlt j k * sum n (fun k0 => dlt i k0 * me X k0 k))).
  2:{ intros k _. cbn. rewrite sconj_dlt. ring. }
  rewrite sum_dlt_l by lia. rewrite sum_dlt_l by lia.
  apply H3; lia.
Qed.

(** The cut loop: every site is cut to the rank of the matrices on its bonds. *)
Lemma rank_loop_ok (O : lapack2 R) (data0 : list (site R)) (Ls0 : list (mat R)) (Sv : nat -> nat -> R)
    (r : nat -> nat) :
  let L := length data0 in
  0 < L -> length Ls0 = S L ->
  (forall k A, nth_error data0 k = Some A -> exists X, nth_error Ls0 k = Some X /\
      mr X = dl A /\ mat_eq X (mdiag (dl A) (Sv k)) /\ rank O X = r k /\ r k <= dl A) ->
  (forall k A, nth_error data0 (S k) = Some A -> exists B, nth_error data0 k = Some B /\ dr B = dl A) ->
  (forall A B, nth_error data0 0 = Some A -> nth_error data0 (L - 1) = Some B -> dl A = dr B) ->
  (forall A, nth_error data0 0 = Some A -> r 0%nat = dl A) ->
  forall n m data Ls, (m + n)%nat = L ->
  length data = L -> length Ls = S L ->
  (forall k A, nth_error data0 k = Some A -> exists B, nth_error data k = Some B /\
      cutq A B (if Nat.ltb k m then r k else dl A) (if Nat.ltb (S k) m then r (S k) else dr A)) ->
  (forall k, m <= k -> nth_error Ls k = nth_error Ls0 k) ->
  (forall k, k < m -> exists X, nth_error Ls k = Some X /\ mat_eq X (mdiag (r k) (Sv k))) ->
  exists data' Ls', rank_loop O (seq m n) Ls data = Ok (data', Ls') /\
  length data' = L /\ length Ls' = S L /\
  (forall k A, nth_error data0 k = Some A -> exists B, nth_error data' k = Some B /\
      cutq A B (r k) (if Nat.ltb (S k) L then r (S k) else dr A)) /\
  (forall k, k < L -> exists X, nth_error Ls' k = Some X /\ mat_eq X (mdiag (r k) (Sv k))) /\
  nth_error Ls' L = nth_error Ls0 L.
Proof.
  intros L HL HLs HX Hch Hcl Hr0 n. induction n as [|n IH]; intros m data Ls Hmn Hd HlL HI H1 H2.
  - assert (m = L) by lia. subst m. simpl. exists data, Ls. split; [reflexivity|]. do 2 (split; [assumption|]).
    split.
    { intros k A HA. destruct (HI k A HA) as (B & HB & HC). exists B. split; [exact HB|].
      assert (k < L) by (apply nth_error_Some; rewrite HA; discriminate).
      replace (Nat.ltb k L) with true in HC by (symmetry; apply Nat.ltb_lt; assumption). exact HC. }
    split; [exact H2|]. apply H1. lia.
  - cbn [seq rank_loop].
    destruct (nth_error data0 m) as [A|] eqn:EA.
    2:{ apply nth_error_None in EA. unfold L in *. lia. }
    destruct (HX m A EA) as (X & EX & X1 & X2 & X3 & X4).
    rewrite (getitem_nth Ls m X) by (rewrite H1 by lia; exact EX). cbn [bind].
    rewrite X1, X3.
    (* the previous site *)
    assert (Hprev : exists P0 B0 l0, nth_error data0 (prev_index m (length data)) = Some P0 /\
       nth_error data (prev_index m (length data)) = Some B0 /\ cutq P0 B0 l0 (dl A) /\
       l0 = (if Nat.ltb (prev_index m (length data)) m then r (prev_index m (length data)) else dl P0) /\
       (m = 0%nat -> dr P0 = dl A)).
    { destruct m as [|m']; cbn [prev_index].
      - rewrite Hd. destruct (nth_error data0 (L - 1)) as [P0|] eqn:EP.
        2:{ apply nth_error_None in EP. unfold L in *. lia. }
        destruct (HI _ P0 EP) as (B0 & HB0 & HC0). exists P0, B0. eexists.
        split; [reflexivity|]. split; [exact HB0|]. split; [|split; [reflexivity|]].
        + simpl in HC0. rewrite (Hcl A P0 EA eq_refl). exact HC0.
        + intros _. symmetry. apply Hcl; [exact EA|reflexivity].
      - destruct (Hch m' A EA) as (P0 & EP & HdP).
        destruct (HI _ P0 EP) as (B0 & HB0 & HC0). exists P0, B0. eexists.
        split; [exact EP|]. split; [exact HB0|]. split; [|split; [reflexivity|discriminate]].
        replace (Nat.ltb (S m') (S m')) with false in HC0 by (symmetry; apply Nat.ltb_irrefl).
        rewrite <- HdP. exact HC0. }
    set (pi := prev_index m (length data)) in *.
    destruct Hprev as (P0 & B0 & l0 & EP0 & EB0 & HC0 & El0 & Hm0).
    assert (Hpi : pi < length data) by (apply nth_error_Some; rewrite EB0; discriminate).
    rewrite (getitem_nth data pi B0 EB0). cbn [bind].
    destruct (cut_cols P0 B0 l0 (dl A) (r m) HC0 X4) as (B1 & EB1 & HC1). rewrite EB1. cbn [bind].
    destruct (setitem_nth data pi B1 Hpi) as (data1 & ES1 & Hl1 & Hn1). rewrite ES1. cbn [bind].
    (* the current site, which may be the same one *)
    destruct (HI m A EA) as (A0 & EA0 & HCA).
    rewrite Nat.ltb_irrefl in HCA.
    replace (Nat.ltb (S m) m) with false in HCA by (symmetry; apply Nat.ltb_ge; lia).
    assert (HA1 : exists A1, nth_error data1 m = Some A1 /\
       cutq A A1 (dl A) (if Nat.eqb m pi then r m else dr A)).
    { rewrite Hn1. destruct (Nat.eqb_spec m pi) as [E|E].
      - exists B1. split; [reflexivity|].
        assert (P0 = A) by (rewrite <- E in EP0; congruence). subst P0.
        rewrite <- E, Nat.ltb_irrefl in El0. subst l0. exact HC1.
      - exists A0. split; [exact EA0|exact HCA]. }
    destruct HA1 as (A1 & EA1 & HCA1). rewrite (getitem_nth data1 m A1 EA1). cbn [bind].
    destruct (cut_rows A A1 _ _ (r m) HCA1 X4) as (A2 & EA2 & HCA2). rewrite EA2. cbn [bind].
    destruct (setitem_nth data1 m A2) as (data2 & ES2 & Hl2 & Hn2); [lia|]. rewrite ES2. cbn [bind].
    destruct (cut_diag (dl A) (Sv m) (r m) X X2 X4) as (Y & Z & EY & EZ & HZ).
    rewrite EY. cbn [bind]. rewrite EZ. cbn [bind].
    destruct (setitem_nth Ls m Z) as (Ls2 & ES3 & Hl3 & Hn3); [lia|]. rewrite ES3. cbn [bind].
    apply IH; [lia|lia|lia| | |].
    + intros k K HK. rewrite Hn2, Hn1.
      destruct (Nat.eqb_spec k m) as [->|Hkm].
      { assert (K = A) by congruence. subst K. exists A2. split; [reflexivity|].
        replace (Nat.ltb m (S m)) with true by (symmetry; apply Nat.ltb_lt; lia).
        replace (Nat.ltb (S m) (S m)) with false by (symmetry; apply Nat.ltb_irrefl).
        destruct (Nat.eqb_spec m pi) as [E|E]; [|exact HCA2].
        (* only possible for a single site *)
        unfold pi in E. destruct m as [|m']; cbn [prev_index] in E; [|lia].
        rewrite (Hr0 A EA) in HCA2 |- *.
        assert (P0 = A) by (unfold pi in EP0; cbn [prev_index] in EP0; rewrite <- E in EP0; congruence).
        subst P0. rewrite (Hm0 eq_refl). exact HCA2. }
      destruct (Nat.eqb_spec k pi) as [->|Hkp].
      { assert (K = P0) by congruence. subst K. exists B1. split; [reflexivity|].
        destruct m as [|m']; unfold pi in *; cbn [prev_index] in *.
        - replace (Nat.ltb (length data - 1) 1) with false by (symmetry; apply Nat.ltb_ge; lia).
          replace (Nat.ltb (S (length data - 1)) 1) with false by (symmetry; apply Nat.ltb_ge; lia).
          simpl in El0. subst l0. rewrite (Hm0 eq_refl), <- (Hr0 A EA). exact HC1.
        - replace (Nat.ltb m' (S (S m'))) with true by (symmetry; apply Nat.ltb_lt; lia).
          replace (Nat.ltb (S m') (S (S m'))) with true by (symmetry; apply Nat.ltb_lt; lia).
          replace (Nat.ltb m' (S m')) with true in El0 by (symmetry; apply Nat.ltb_lt; lia).
          subst l0. exact HC1. }
      destruct (HI k K HK) as (B & EB & HC). exists B. split; [exact EB|].
      destruct (Nat.ltb_spec k m) as [Hlt|Hge].
      * replace (Nat.ltb k (S m)) with true by (symmetry; apply Nat.ltb_lt; lia).
        assert (S k < m).
        { unfold pi in Hkp. destruct m; cbn [prev_index] in Hkp; lia. }
        replace (Nat.ltb (S k) (S m)) with true by (symmetry; apply Nat.ltb_lt; lia).
        replace (Nat.ltb (S k) m) with true in HC by (symmetry; apply Nat.ltb_lt; lia). exact HC.
      * replace (Nat.ltb k (S m)) with false by (symmetry; apply Nat.ltb_ge; lia).
        replace (Nat.ltb (S k) (S m)) with false by (symmetry; apply Nat.ltb_ge; lia).
        replace (Nat.ltb (S k) m) with false in HC by (symmetry; apply Nat.ltb_ge; lia). exact HC.
    + intros k Hk. rewrite Hn3. replace (Nat.eqb k m) with false by (symmetry; apply Nat.eqb_neq; lia).
      apply H1. lia.
    + intros k Hk. rewrite Hn3. destruct (Nat.eqb_spec k m) as [->|Hne].
      * exists Z. split; [reflexivity|exact HZ].
      * apply H2. lia.
Qed.

(** ------------------------------------------------------------------ *)
(** Cutting where the left amplitudes vanish keeps them. *)
Lemma firstn_snoc {B} (l : list B) k x : nth_error l k = Some x -> firstn (S k) l = firstn k l ++ [x].
Proof.
  revert k. induction l as [|y l IH]; intros [|k] H; simpl in *; try discriminate.
  - injection H as ->. reflexivity.
  - f_equal. apply IH. exact H.
Qed.

Lemma chain_firstn (l : list (site R)) i j k A : chain i l j -> nth_error l k = Some A ->
  chain i (firstn k l) (dl A).
Proof.
  revert i k. induction l as [|B l IH]; intros i [|k] Hc H; simpl in *; try discriminate.
  - injection H as ->. symmetry. exact (proj1 Hc).
  - destruct Hc as [H1 Hc]. split; [exact H1|]. eapply IH; eauto.
Qed.

Lemma chain_firstn_S (l : list (site R)) i j k A : chain i l j -> nth_error l k = Some A ->
  chain i (firstn (S k) l) (dr A).
Proof.
  intros Hc H. rewrite (firstn_snoc _ _ _ H). eapply chain_app_mk; [eapply chain_firstn; eauto|reflexivity|reflexivity].
Qed.

Lemma chain_next (l : list (site R)) i j k A : chain i l j -> nth_error l (S k) = Some A ->
  exists B, nth_error l k = Some B /\ dr B = dl A.
Proof.
  revert i k. induction l as [|B l IH]; intros i k Hc H; simpl in *; [discriminate|].
  destruct Hc as [H1 Hc]. destruct k as [|k]; simpl in *.
  - exists B. split; [reflexivity|]. destruct l as [|C l]; [discriminate|]. injection H as ->.
    destruct Hc as [Hc _]. auto.
  - eapply IH; eauto.
Qed.

Lemma chain_last (l : list (site R)) i j A : chain i l j -> nth_error l (length l - 1) = Some A -> dr A = j.
Proof.
  revert i. induction l as [|B l IH]; intros i Hc H; [discriminate|].
  destruct Hc as [H1 Hc]. destruct l as [|C l].
  - simpl in *. congruence.
  - eapply IH; [exact Hc|]. replace (length (C :: l) - 1)%nat with (length l) by (simpl; lia).
    simpl length in H. replace (S (S (length l)) - 1)%nat with (S (length l)) in H by lia. exact H.
Qed.

(** Amplitudes of the cut chain: bond k (left of site k) is cut to r k. *)
Lemma amp_cut (l l' : list (site R)) (r : nat -> nat) j :
  chain 1 l j -> length l' = length l ->
  (forall k A, nth_error l k = Some A -> exists B, nth_error l' k = Some B /\
      cutq A B (r k) (if Nat.ltb (S k) (length l) then r (S k) else dr A)) ->
  (forall k A, nth_error l k = Some A -> r k <= dl A) ->
  r 0%nat = 1%nat ->
  (forall k A u a, nth_error l k = Some A -> incfg (dims (firstn k l)) u -> r k <= a -> a < dl A ->
     amp (firstn k l) u 0 a = 0) ->
  forall k, k <= length l ->
  chain 1 (firstn k l') (if Nat.ltb k (length l) then r k else j) /\
  dims (firstn k l') = dims (firstn k l) /\
  forall u a, incfg (dims (firstn k l)) u -> a < (if Nat.ltb k (length l) then r k else j) ->
    amp (firstn k l') u 0 a = amp (firstn k l) u 0 a.
Proof.
  intros Hc Hlen Hcut Hle Hr0 Hz k. induction k as [|k IH]; intros Hk.
  - simpl. split; [destruct l; simpl in *; [exact Hc|auto]|]. split; reflexivity.
  - destruct (nth_error l k) as [A|] eqn:EA; [|apply nth_error_None in EA; lia].
    assert (Hkl : k < length l) by (apply nth_error_Some; rewrite EA; discriminate).
    destruct IH as (I1 & I2 & I3); [lia|].
    replace (Nat.ltb k (length l)) with true in * by (symmetry; apply Nat.ltb_lt; lia).
    destruct (Hcut k A EA) as (B & EB & (C1 & C2 & C3 & C4)).
    assert (HdB : dr B = (if Nat.ltb (S k) (length l) then r (S k) else j)).
    { rewrite C3. destruct (Nat.ltb_spec (S k) (length l)); [reflexivity|].
      eapply chain_last; [exact Hc|]. replace (length l - 1)%nat with k by lia. exact EA. }
    rewrite (firstn_snoc _ _ _ EA), (firstn_snoc _ _ _ EB).
    assert (Hcp : chain 1 (firstn k l) (dl A)) by (eapply chain_firstn; eauto).
    split. { eapply chain_app_mk; [exact I1|exact C2|exact HdB]. }
    split. { rewrite !dims_app, I2. unfold dims. simpl. rewrite C1. reflexivity. }
    intros t a Ht Ha. rewrite dims_app in Ht. apply incfg_snoc in Ht as (u & s & -> & Hu & Hs).
    assert (Hlu : length u = length (firstn k l)) by (apply incfg_length in Hu; rewrite dims_length in Hu; exact Hu).
    assert (Hlu' : length u = length (firstn k l')) by (rewrite Hlu, !firstn_length; lia).
    assert (HaA : a < dr A).
    { rewrite <- HdB, C3 in Ha. destruct (Nat.ltb_spec (S k) (length l)) as [Hs'|]; [|exact Ha].
      destruct (nth_error l (S k)) as [A'|] eqn:EA'; [|apply nth_error_None in EA'; lia].
      destruct (chain_next _ _ _ _ _ Hc EA') as (A'' & E'' & Hd). assert (A'' = A) by congruence. subst A''.
      pose proof (Hle _ _ EA'). lia. }
    rewrite (amp_snoc (firstn k l') B u s a (r k) I1 C2 Hlu') by lia.
    rewrite (amp_snoc (firstn k l) A u s a (dl A) Hcp eq_refl Hlu HaA).
    rewrite (sum_cut (r k) (dl A)).
    + apply sum_ext. intros q Hq. rewrite I3 by assumption. rewrite C4 by (lia || congruence). reflexivity.
    + apply (Hle k A EA).
    + intros q Hq1 Hq2. rewrite (Hz k A u q EA Hu Hq1 Hq2). ring.
Qed.

End Proofs.
