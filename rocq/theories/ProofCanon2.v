From Verif Require Import Alg ModelMPS SpecMPS ProofMPS ProofMPS2 ModelOrth SpecOrth
  ProofOrth ProofOrth2 ProofOrth3 ModelCanon SpecCanon ProofCanon.

Section Proofs.
Context {R : sring}.
Add Ring Rr : (s_th R).
Local Open Scope sr_scope.

Definition lshape (A : site R) (c : nat) (A' : site R) (Sm V : mat R) : Prop :=
  phys A' = phys A /\ dl A' = dl A /\ dr A' = c /\ mr Sm = c /\ mc Sm = c /\ mr V = c /\ mc V = dr A.

Lemma mdot_ok (X Y : mat R) : mc X = mr Y ->
  mdot X Y = Ok (mkMat (mr X) (mc Y) (fun i j => sum (mc X) (fun k => me X i k * me Y k j))).
Proof. intros H. unfold mdot. rewrite H, Nat.eqb_refl. reflexivity. Qed.

(** The isometry and product properties of a cut SVD with left factor u. *)
Lemma cut_A_ok (O : lapack2 R) (u v : mat R) Sv d A D minD k :
  svd_ok O -> phys A = d -> 0 < d ->
  k = Nat.min (phys A * dl A) (dr A) ->
  mr u = (phys A * dl A)%nat -> mc u = k -> mr v = k -> mc v = dr A -> is_sv k Sv ->
  (forall i j, i < phys A * dl A -> j < dr A ->
     me (lgroup A) i j = sum k (fun a => me u i a * Sv a * me v a j)) ->
  (forall i j, i < k -> j < k -> sum (phys A * dl A) (fun a => sconj (me u a i) * me u a j) = dlt i j) ->
  match chop0 d u with
  | Err e => False
  | Ok A0 => let '(A', Sm', V') := truncate_A O A0 (mdiag k Sv) v D minD in
      exists c, lshape A c A' Sm' V' /\ left_iso A' /\ c <= k /\
      match D with Some D => c <= D | None => True end /\
      (keeps D minD -> 0 < k -> 0 < c) /\
      (match D with Some D => dr A <= D | None => True end ->
       forall s i j, s < phys A -> i < dl A -> j < dr A ->
         ent A s i j = sum c (fun a => ent A' s i a * sum c (fun b => me Sm' a b * me V' b j)))
  end.
Proof.
  intros HO Hd H0 Hk S1 S2 S3 S4 S5 S6 S7.
  assert (Hdiv : (mr u / d)%nat = dl A).
  { rewrite S1, Hd, Nat.mul_comm. apply Nat.div_mul. lia. }
  assert (EB : chop0 d u = Ok (lungroup d (dl A) u)).
  { unfold chop0. replace (Nat.eqb d 0) with false by (symmetry; apply Nat.eqb_neq; lia).
    simpl negb. cbn [andb]. rewrite S1 at 1. rewrite Hd, Nat.mul_comm, Nat.mod_mul by lia.
    simpl Nat.eqb. cbv iota. rewrite Hdiv. reflexivity. }
  rewrite EB.
  assert (Hk' : k <= dr A) by (rewrite Hk; apply Nat.le_min_r).
  destruct (cut_ok O k Sv D minD (dr A) HO S5 Hk') as (C1 & C2 & C4 & C3).
  set (c := cut_of O (mdiag k Sv) D minD k) in *.
  assert (HT : exists A' Sm' V', truncate_A O (lungroup d (dl A) u) (mdiag k Sv) v D minD = (A', Sm', V')
    /\ lshape A c A' Sm' V' /\ me V' = me v /\ me Sm' = me (mdiag k Sv)
    /\ ent A' = ent (lungroup d (dl A) u)).
  { unfold truncate_A, c, cut_of. destruct (cut_to O (mdiag k Sv) D minD) as [c0|].
    - do 3 eexists. split; [reflexivity|]. unfold lshape; cbn. rewrite S2, S3.
      repeat split; auto.
    - do 3 eexists. split; [reflexivity|]. unfold lshape; cbn. rewrite S2, S3.
      repeat split; auto. }
  destruct HT as (A' & Sm' & V' & ET & Hsh & EV & ES & EE). rewrite ET.
  exists c. split; [exact Hsh|]. destruct Hsh as (T1 & T2 & T3 & T4 & T5 & T6 & T7).
  split; [|split; [exact C1|split; [exact C2|split; [exact C4|]]]].
  - intros i j Hi Hj. rewrite T3 in Hi, Hj. rewrite T1, T2, EE. simpl.
    rewrite <- (S7 i j) by lia. rewrite sum_mul. reflexivity.
  - intros HD s i j Hs Hi Hj. rewrite EV, ES, EE. simpl.
    rewrite <- (lgroup_ungroup A s i j Hi).
    rewrite (S6 (s * dl A + i)%nat j) by (try assumption; apply ragged; assumption).
    rewrite (sum_cut c k) by (auto; intros a Ha Hb; rewrite (C3 HD a Ha Hb); ring).
    apply sum_ext. intros a Ha.
    rewrite (sum_ext c _ (fun b => dlt a b * (Sv a * me v b j))).
    + rewrite sum_dlt_l by lia. ring.
    + intros b Hb. unfold dlt. destruct (Nat.eqb_spec a b) as [->|]; ring.
Qed.

Definition Asplit_post (O : lapack2 R) (A : site R) D minD (r : res (site R * mat R * mat R)) : Prop :=
  match r with
  | Err e => e = LinAlgError
  | Ok (A0, Sm, V) => let '(A', Sm', V') := truncate_A O A0 Sm V D minD in
      exists c, lshape A c A' Sm' V' /\ left_iso A' /\
      c <= Nat.min (phys A * dl A) (dr A) /\
      match D with Some D => c <= D | None => True end /\
      (keeps D minD -> 0 < Nat.min (phys A * dl A) (dr A) -> 0 < c) /\
      (match D with Some D => dr A <= D | None => True end ->
       forall s i j, s < phys A -> i < dl A -> j < dr A ->
         ent A s i j = sum c (fun a => ent A' s i a * sum c (fun b => me Sm' a b * me V' b j)))
  end.

Lemma split_A_ok (O : lapack2 R) d A D minD :
  svd_ok O -> phys A = d -> 0 < d -> Asplit_post O A D minD (split_A O d A).
Proof.
  intros HO Hd H0. unfold Asplit_post, split_A.
  destruct (la_svdf O (lgroup A)) as [[[u Sv] v]|] eqn:E; [|reflexivity].
  pose proof (proj1 (proj2 HO) _ _ _ _ E) as (S1 & S2 & S3 & S4 & S5 & S6 & S7 & S8).
  cbn [lgroup mr mc] in *.
  set (k := Nat.min (phys A * dl A) (dr A)) in *.
  pose proof (cut_A_ok O (mcols k u) (mrows k v) Sv d A D minD k HO Hd H0 eq_refl) as H.
  cbn [mcols mrows mr mc me] in H. rewrite S2, S3 in H.
  specialize (H S1 ltac:(unfold k; lia) ltac:(unfold k; lia) S4 S5 S6).
  specialize (H ltac:(intros i j Hi Hj; apply S7; unfold k in *; lia)).
  cbv zeta. destruct (chop0 d (mcols k u)) as [A0|e]; [|contradiction]. cbn [bind]. exact H.
Qed.

Lemma split_A_thin_ok (O : lapack2 R) d A D minD :
  svd_ok O -> phys A = d -> 0 < d -> Asplit_post O A D minD (split_A_thin O d A).
Proof.
  intros HO Hd H0. unfold Asplit_post, split_A_thin.
  destruct (la_svd O (lgroup A)) as [[[u Sv] v]|] eqn:E; [|reflexivity].
  pose proof (proj1 HO _ _ _ _ E) as (S1 & S2 & S3 & S4 & S5 & S6 & S7 & S8).
  cbn [lgroup mr mc] in *.
  set (k := Nat.min (phys A * dl A) (dr A)) in *.
  pose proof (cut_A_ok O u v Sv d A D minD k HO Hd H0 eq_refl S1 S2 S3 S4 S5 S6 S7) as H.
  destruct (chop0 d u) as [A0|e]; [|contradiction]. cbn [bind]. exact H.
Qed.

Lemma fits_r_Forall D (l : list (site R)) : fits_r D l <-> Forall (fun A => fitsD D (dr A)) l.
Proof.
  destruct D; simpl; [reflexivity|]. split; [|trivial]. intros _. apply Forall_forall; trivial.
Qed.

Lemma left_can_loop_app (O : lapack2 R) d D minD a b data nrm :
  left_can_loop O d D minD (a ++ b) data nrm
  = bind (left_can_loop O d D minD a data nrm)
      (fun dn => left_can_loop O d D minD b (fst dn) (snd dn)).
Proof.
  revert data nrm; induction a as [|m a IH]; intros data nrm; [reflexivity|].
  cbn [app left_can_loop].
  destruct (getitem data m) as [A|]; [|reflexivity]. cbn [bind].
  destruct (split_A O d A) as [[[A0 Sm] V]|]; [|reflexivity]. cbn [bind].
  destruct (truncate_A O A0 Sm V D minD) as [[A' Sm'] V'].
  destruct (setitem data m A') as [d1|]; [|reflexivity]. cbn [bind].
  destruct (mdot Sm' V') as [SV|]; [|reflexivity]. cbn [bind].
  destruct (m + 1 <? length d1); [|apply IH].
  destruct (getitem d1 (m + 1)) as [C|]; [|reflexivity]. cbn [bind].
  destruct (site_lmul SV C) as [C1|]; [|reflexivity]. cbn [bind].
  destruct (setitem d1 (m + 1) C1) as [d2|]; [|reflexivity]. cbn [bind]. apply IH.
Qed.

(** The split as an lsplit, and the product S V. *)
Lemma lsplit_of (A A' : site R) c Sm V :
  lshape A c A' Sm V ->
  (forall s i j, s < phys A -> i < dl A -> j < dr A ->
     ent A s i j = sum c (fun a => ent A' s i a * sum c (fun b => me Sm a b * me V b j))) ->
  lsplit A A' (mkMat (mr Sm) (mc V) (fun i j => sum (mc Sm) (fun k => me Sm i k * me V k j))).
Proof.
  intros (T1 & T2 & T3 & T4 & T5 & T6 & T7) H. repeat split; try assumption; cbn; try congruence.
  intros s i j Hs Hi Hj. rewrite T3, T5. apply H; assumption.
Qed.

Lemma left_can_loop_ok (O : lapack2 R) d D minD : svd_ok O -> 0 < d ->
  forall n p rest nrm i j,
  chain i rest j -> Forall (fun A => phys A = d) rest -> n < length rest ->
  match left_can_loop O d D minD (seq (length p) n) (p ++ rest) nrm with
  | Err e => e = LinAlgError
  | Ok (data, nrm') => exists rest', data = p ++ rest' /\ nrm' = nrm /\
      chain i rest' j /\ dims rest' = dims rest /\
      (forall k A, k < n -> nth_error rest' k = Some A -> left_iso A /\ fitsD D (dr A)) /\
      (forall k, n < k -> nth_error rest' k = nth_error rest k) /\
      (keeps D minD -> pos rest -> pos rest') /\
      (fits_r D rest -> fits_r D rest' /\
       forall s x y, incfg (dims rest) s -> x < i -> amp rest' s x y = amp rest s x y)
  end.
Proof.
  intros HO H0 n. induction n as [|n IH]; intros p rest nrm i j Hc Hu Hn.
  - simpl. exists rest. repeat split; auto; intros; lia.
  - destruct rest as [|A [|B q]]; simpl in Hn; try lia.
    cbn [seq left_can_loop]. rewrite getitem_app. cbn [bind].
    inversion Hu as [|? ? HA Hu']; subst. inversion Hu' as [|? ? HB Huq]; subst.
    pose proof (split_A_ok O (phys A) A D minD HO eq_refl H0) as HS. unfold Asplit_post in HS.
    destruct (split_A O (phys A) A) as [[[A0 Sm] V]|e]; [|exact HS]. cbn [bind].
    destruct (truncate_A O A0 Sm V D minD) as [[A' Sm'] V'].
    destruct HS as (c & Hsh & Hiso & Hc1 & Hc2 & Hck & Hent).
    pose proof Hsh as (T1 & T2 & T3 & T4 & T5 & T6 & T7).
    rewrite setitem_app. cbn [bind]. rewrite mdot_ok by congruence. cbn [bind].
    set (SV := mkMat (mr Sm') (mc V') (fun i j => sum (mc Sm') (fun k => me Sm' i k * me V' k j))) in *.
    assert (Hlt : length p + 1 <? length (p ++ A' :: B :: q) = true).
    { apply Nat.ltb_lt. rewrite app_length; simpl; lia. }
    rewrite Hlt, getitem_app1. cbn [bind].
    destruct Hc as [HcA [HcB Hcq]].
    assert (HX : mc SV = dl B) by (cbn; congruence).
    unfold site_lmul at 1. rewrite HX, Nat.eqb_refl. cbn [bind].
    match goal with |- context [setitem _ _ ?b] => set (B' := b) end.
    assert (EB : site_lmul SV B = Ok B').
    { unfold site_lmul. rewrite HX, Nat.eqb_refl. reflexivity. }
    rewrite setitem_app1. cbn [bind].
    replace (p ++ A' :: B' :: q) with ((p ++ [A']) ++ B' :: q) by (rewrite <- app_assoc; reflexivity).
    replace (S (length p)) with (length (p ++ [A'])) by (rewrite app_length; simpl; lia).
    specialize (IH (p ++ [A']) (B' :: q) nrm c j).
    match type of IH with ?P -> _ => assert (H1 : P) end.
    { split; [exact T4|exact Hcq]. }
    match type of IH with _ -> ?P -> _ => assert (H2 : P) end.
    { constructor; [exact HB|exact Huq]. }
    specialize (IH H1 H2 ltac:(simpl; lia)).
    destruct (left_can_loop _ _ _ _ _ _ _) as [[data nrm']|e]; [|exact IH].
    destruct IH as (rest' & -> & -> & I1 & I3 & I4 & I5 & Ip & I6).
    exists (A' :: rest'). rewrite <- app_assoc. split; [reflexivity|]. split; [reflexivity|].
    split; [split; [congruence|rewrite T3; exact I1]|].
    split; [unfold dims in *; simpl in *; rewrite I3, T1; reflexivity|].
    split.
    { intros k C Hk HC. destruct k as [|k]; simpl in HC.
      - injection HC as <-. split; [exact Hiso|rewrite T3; exact Hc2].
      - eapply I4; [|exact HC]. lia. }
    split.
    { intros k Hk. destruct k as [|k]; [lia|]. simpl. rewrite I5 by lia.
      destruct k as [|k]; [lia|]. reflexivity. }
    split.
    { intros Hk Hp. inversion Hp as [|? ? (P1 & P2 & P3) Hp']; subst.
      inversion Hp' as [|? ? (Q1 & Q2 & Q3) Hpq]; subst.
      assert (Hc0 : 0 < dr A') by (apply (Hck Hk), Nat.min_glb_lt; [nia|assumption]).
      constructor; [rewrite T1, T2; auto|]. apply (Ip Hk). constructor; [|exact Hpq].
      cbn. rewrite T4. auto. }
    intros Hf. apply fits_r_Forall in Hf. inversion Hf as [|? ? HfA Hf1]; subst.
    inversion Hf1 as [|? ? HfB Hfq]; subst.
    assert (Hf' : fits_r D (B' :: q)).
    { apply fits_r_Forall. constructor; [exact HfB|exact Hfq]. }
    destruct (I6 Hf') as [I7 I8]. split.
    { apply fits_r_Forall. constructor; [exact Hc2|apply fits_r_Forall; exact I7]. }
    intros s x y Hsx Hx.
    destruct s as [|x0 [|x1 s]].
    + inversion Hsx.
    + inversion Hsx; subst. match goal with H : Forall2 _ [] _ |- _ => inversion H end.
    + unfold dims in Hsx; simpl in Hsx.
      apply incfg_cons in Hsx as [Hx0 Hsx].
      transitivity (amp (A' :: B' :: q) (x0 :: x1 :: s) x y).
      * cbn [amp]. apply sum_ext. intros k Hk. f_equal. apply I8; assumption.
      * eapply amp_lpush; eauto. eapply lsplit_of; eauto.
Qed.

Lemma left_can_full (O : lapack2 R) d D minD : svd_ok O -> 0 < d ->
  forall rest nrm i j,
  chain i rest j -> Forall (fun A => phys A = d) rest -> rest <> [] ->
  match left_can_loop O d D minD (seq 0 (length rest)) rest nrm with
  | Err e => e = LinAlgError
  | Ok (data, nrm') => exists X, nrm' = Some X /\ mc X = j /\
      chain i data (mr X) /\ mr X <= j /\ dims data = dims rest /\
      Forall (fun A => left_iso A /\ fitsD D (dr A)) data /\
      (keeps D minD -> pos rest -> 0 < mr X /\ pos data) /\
      (fits_r D rest -> forall s x y, incfg (dims rest) s -> x < i -> y < j ->
         amp rest s x y = sum (mr X) (fun k => amp data s x k * me X k y))
  end.
Proof.
  intros HO H0 rest nrm i j Hc Hu Hne.
  assert (Hpos : 0 < length rest) by (destruct rest; [congruence|simpl; lia]).
  replace (length rest) with (length rest - 1 + 1)%nat by lia.
  rewrite seq_app, left_can_loop_app. cbn [plus].
  pose proof (left_can_loop_ok O d D minD HO H0 (length rest - 1) [] rest nrm i j Hc Hu ltac:(lia)) as H.
  cbn [length app] in H.
  destruct (left_can_loop O d D minD (seq 0 (length rest - 1)) rest nrm) as [[data nrm']|e];
    [|exact H].
  destruct H as (r & -> & -> & I1 & I3 & I4 & I5 & Ip & I6). cbn [bind fst snd].
  assert (Hlen : length r = length rest) by (rewrite <- !dims_length, I3; reflexivity).
  destruct (exists_last (l := r)) as (r0 & C & ->); [intros ->; simpl in Hlen; lia|].
  rewrite app_length in Hlen; simpl in Hlen.
  replace (length rest - 1)%nat with (length r0) in * by lia. cbn [seq left_can_loop].
  rewrite (getitem_app r0 C []). cbn [bind].
  assert (HdC : phys C = d).
  { assert (HIn : In (phys C) (dims rest)).
    { rewrite <- I3, dims_app. apply in_or_app. right. left. reflexivity. }
    unfold dims in HIn. apply in_map_iff in HIn as (C1 & <- & HIn).
    rewrite Forall_forall in Hu. apply Hu, HIn. }
  pose proof (split_A_ok O d C D minD HO HdC H0) as HS. unfold Asplit_post in HS.
  destruct (split_A O d C) as [[[A0 Sm] V]|e]; [|exact HS]. cbn [bind].
  destruct (truncate_A O A0 Sm V D minD) as [[C' Sm'] V'].
  destruct HS as (c & Hsh & Hiso & Hc1 & Hc2 & Hck & Hent).
  pose proof Hsh as (T1 & T2 & T3 & T4 & T5 & T6 & T7).
  rewrite setitem_app. cbn [bind]. rewrite mdot_ok by congruence. cbn [bind].
  set (SV := mkMat (mr Sm') (mc V') (fun i j => sum (mc Sm') (fun k => me Sm' i k * me V' k j))) in *.
  assert (Hlt : length r0 + 1 <? length (r0 ++ [C']) = false).
  { apply Nat.ltb_ge. rewrite app_length; simpl; lia. }
  rewrite Hlt.
  destruct (chain_app_last _ _ _ _ I1) as (k1 & Hch1 & Hk1 & HrC).
  exists SV. split; [reflexivity|]. split; [cbn; congruence|].
  assert (HmS : mr SV = c) by (cbn; congruence). rewrite HmS.
  split; [eapply chain_app_mk; [exact Hch1|congruence|exact T3]|].
  split; [rewrite <- HrC; eapply Nat.le_trans; [exact Hc1|apply Nat.le_min_r]|].
  split; [rewrite <- I3, !dims_app; unfold dims; simpl; rewrite T1; reflexivity|].
  split.
  { apply Forall_app. split; [|constructor; [split; [exact Hiso|rewrite T3; exact Hc2]|constructor]].
    apply Forall_forall. intros B HB. apply In_nth_error in HB as (q & HB).
    assert (q < length r0) by (apply nth_error_Some; congruence).
    apply (I4 q); [assumption|]. rewrite nth_error_app1; assumption. }
  split.
  { intros Hk Hp. specialize (Ip Hk Hp). apply Forall_app in Ip as [Pr PC].
    inversion PC as [|? ? (P1 & P2 & P3) _]; subst.
    assert (Hc0 : 0 < dr C') by (apply (Hck Hk), Nat.min_glb_lt; [nia|assumption]).
    split; [exact Hc0|]. apply Forall_app. split; [exact Pr|].
    constructor; [|constructor]. rewrite T1, T2; auto. }
  intros Hf s x y Hsc Hx Hy. destruct (I6 Hf) as [I7 I8]. rewrite <- I8 by assumption.
  assert (HfC : fitsD D (dr C)).
  { apply fits_r_Forall, Forall_app in I7 as [_ I7]. inversion I7; assumption. }
  rewrite <- T3. eapply amp_last_split; [exact I1| |rewrite I3; exact Hsc|exact Hx|exact Hy].
  eapply lsplit_of; eauto.
Qed.

(** Bonds of a left-isometric chain are positive, from the right. *)
Lemma iso_pos_l (l : list (site R)) i j : (1:R) <> 0 -> chain i l j -> 0 < j ->
  Forall left_iso l -> pos l.
Proof.
  intros H1. revert j; induction l as [|A l IH] using rev_ind; intros j Hc Hj Hr; [constructor|].
  destruct (chain_app_last _ _ _ _ Hc) as (k & Hk & HdA & HrA).
  apply Forall_app in Hr as [Hr HA]. inversion HA as [|? ? HrA' _]; subst.
  assert (HP : 0 < phys A /\ 0 < dl A).
  { specialize (HrA' 0%nat 0%nat Hj Hj). rewrite dlt_eq in HrA'.
    destruct (Nat.eq_dec (phys A) 0) as [E|]; [rewrite E in HrA'; simpl in HrA'; congruence|].
    destruct (Nat.eq_dec (dl A) 0) as [E|]; [|lia].
    exfalso. apply H1. rewrite <- HrA'. apply sum_zero. intros s _. rewrite E. reflexivity. }
  apply Forall_app. split; [|constructor; [tauto|constructor]]. apply (IH (dl A)); tauto.
Qed.

(** left_canonicalise without the backward sweep. *)
Lemma left_can_ok (O : lapack2 R) (m : fmps R) D sweep_back minD :
  svd_ok O -> wf m -> uniform m -> 0 < fd m -> sweep_back && minD = false ->
  match left_canonicalise O m D sweep_back minD with
  | Err e => e = LinAlgError
  | Ok (m', Ls) => Ls = None /\ dims (fdata m') = dims (fdata m) /\
      fL m' = fL m /\ fd m' = fd m /\
      fcan m' = Some true /\ forth m' = Some true /\ foc m' = Some (fL m) /\
      Forall left_iso (fdata m') /\
      match D with Some D => Forall (fun A => dr A <= D) (fdata m') | None => True end /\
      (keeps D minD -> pos (fdata m) -> wf m' /\ pos (fdata m')) /\
      exists X, fnorm m' = Some X /\ mc X = 1%nat /\ mr X <= 1 /\
      (keeps D minD -> pos (fdata m) -> mr X = 1%nat) /\
      (fits_r D (fdata m) ->
       (forall s, incfg (dims (fdata m)) s ->
          psi m s = match mr X with O => 0 | S _ => psi m' s * me X 0 0 end) /\
       ((exists s, incfg (dims (fdata m)) s /\ psi m s <> 0) ->
          mr X = 1%nat /\ wf m' /\ pos (fdata m')))
  end.
Proof.
  intros HO (Hc & HL & Hne) Hu H0 Hsb. unfold left_canonicalise. rewrite Hsb.
  pose proof (left_can_full O (fd m) D minD HO H0 (fdata m) (fnorm m) 1 1 Hc Hu Hne) as H.
  destruct (left_can_loop _ _ _ _ _ _ _) as [[data nrm]|e]; [|exact H]. cbn [bind fst snd].
  destruct H as (X & -> & I0 & I1 & I2 & I3 & I4 & I5 & I6).
  split; [reflexivity|]. cbn [fdata fL fd fcan forth foc fnorm].
  split; [exact I3|]. do 5 (split; [reflexivity|]).
  assert (Hiso : Forall left_iso data) by (eapply Forall_impl; [|exact I4]; simpl; tauto).
  split; [exact Hiso|].
  split. { destruct D; [|trivial]. eapply Forall_impl; [|exact I4]; simpl; tauto. }
  assert (Hlen : length data = length (fdata m)) by (rewrite <- !dims_length, I3; reflexivity).
  assert (Hne' : data <> []).
  { intros E. rewrite E in Hlen. destruct (fdata m); [congruence|discriminate]. }
  assert (Hwf : mr X = 1%nat -> wf (mkF data (fL m) (fd m) (cap_D D m) (Some true) (Some true) (Some (fL m)) (Some X))).
  { intros E. rewrite E in I1. split; [exact I1|]. split; [simpl; congruence|exact Hne']. }
  split. { intros Hk Hp. destruct (I5 Hk Hp) as [Hc0 Hp']. split; [apply Hwf; lia|exact Hp']. }
  exists X. split; [reflexivity|]. split; [exact I0|]. split; [exact I2|].
  split. { intros Hk Hp. destruct (I5 Hk Hp). lia. }
  intros Hf. specialize (I6 Hf).
  destruct (mr X) as [|[|c]] eqn:EX; [| |lia].
  - assert (Hz : forall s, incfg (dims (fdata m)) s -> psi m s = 0).
    { intros s Hs. unfold psi at 1. rewrite (I6 s 0%nat 0%nat Hs) by lia. reflexivity. }
    split; [exact Hz|]. intros (s & Hs & Hn). exfalso. apply Hn, Hz, Hs.
  - split.
    + intros s Hs. unfold psi. rewrite (I6 s 0%nat 0%nat Hs) by lia. simpl. ring.
    + intros (s & Hs & Hn). split; [reflexivity|]. split; [apply Hwf; reflexivity|].
      apply (iso_pos_l data 1 1); auto. intros E. apply Hn.
      transitivity (1 * psi m s); [ring|]. rewrite E. ring.
Qed.

End Proofs.
