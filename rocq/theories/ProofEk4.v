(** E_k, E_L, rho and local_overlap on objects. *)
From Verif Require Import Alg ModelMPS SpecMPS ProofMPS ModelOrth SpecOrth ProofOrth ProofOrth2 ProofOrth3 ProofMeas
  ModelNcon SpecNcon ProofNcon ProofNcon3 ProofNcon4 ModelEk SpecEk ProofEk ProofEk2 ProofEk3.
From Coq Require Import Permutation Sorted.

Lemma unravel_ravel sh : forall idx, Forall2 (fun x d => x < d) idx sh -> unravel sh (ravel sh idx) = idx /\ ravel sh idx < fold_right Nat.mul 1 sh.
Proof.
  induction sh as [|d sh IH]; intros idx H; inversion H as [|x ? s ? Hx Hs]; subst; cbn; [split; [reflexivity|lia]|].
  destruct (IH s Hs) as [H1 H2]. split.
  - rewrite Nat.div_add_l, (Nat.div_small (ravel sh s)) by lia. rewrite Nat.add_0_r. f_equal.
    rewrite (Nat.add_comm (x * _)), Nat.mod_add, Nat.mod_small by lia. exact H1.
  - nia.
Qed.

Section Block.
Context {R : sring}.
Local Open Scope sr_scope.
Add Ring Rr : (s_th R).

Lemma mapM_getitem {A} (p blk q : list A) i : length p = i ->
  mapM (getitem (p ++ blk ++ q)) (seq i (length blk)) = Ok blk.
Proof.
  intros Hi. revert i p Hi. induction blk as [|x blk IH]; intros i p Hi; [reflexivity|]. cbn [length seq mapM].
  unfold getitem at 1. rewrite nth_error_app2 by lia. subst i. rewrite Nat.sub_diag. cbn [app nth_error bind].
  assert (E : p ++ x :: blk ++ q = (p ++ [x]) ++ blk ++ q) by (rewrite <- app_assoc; reflexivity). rewrite E, IH; [reflexivity|].
  rewrite app_length. cbn. lia.
Qed.

Lemma block_split (l : list (site R)) i k : (i + k <= length l)%nat ->
  exists p blk q, l = p ++ blk ++ q /\ length p = i /\ length blk = k.
Proof.
  intros H. exists (firstn i l), (firstn k (skipn i l)), (skipn k (skipn i l)).
  rewrite !firstn_skipn. split; [reflexivity|]. rewrite !firstn_length, skipn_length. lia.
Qed.

Lemma chain_parts (p blk q : list (site R)) a z : chain a (p ++ blk ++ q) z ->
  exists b c, chain a p b /\ chain b blk c /\ chain c q z.
Proof.
  assert (H : forall (x y : list (site R)) a, chain a (x ++ y) z -> exists b, chain a x b /\ chain b y z).
  { induction x as [|A x IH]; intros y a' Hc; cbn in *.
    - exists a'. split; [reflexivity|exact Hc].
    - destruct Hc as [H1 H2]. destruct (IH _ _ H2) as (b & H3 & H4). exists b. repeat split; assumption. }
  intros Hc. destruct (H p _ _ Hc) as (b & H1 & H2). destruct (H blk _ _ H2) as (c & H3 & H4). exists b, c. auto.
Qed.

Lemma mixed_isos (p blk q : list (site R)) j : mixed_at j (p ++ blk ++ q) -> (length p <= j < length p + length blk)%nat ->
  Forall left_iso p /\ Forall right_iso q.
Proof.
  intros Hm Hj. split; apply Forall_forall; intros B HB; apply In_nth_error in HB as (i & HB).
  - assert (i < length p)%nat by (apply nth_error_Some; congruence). apply (Hm i); [|lia]. rewrite nth_error_app1; assumption.
  - apply (Hm (length p + (length blk + i))%nat); [|lia]. rewrite nth_error_app2 by lia.
    rewrite nth_error_app2 by lia. rewrite <- HB. f_equal. lia.
Qed.

Lemma dims_repeat (l : list (site R)) d : Forall (fun A => phys A = d) l -> dims l = repeat d (length l).
Proof. induction 1 as [|A l H _ IH]; cbn; [reflexivity|]. rewrite H. f_equal. exact IH. Qed.

(** a measurement of a block in mixed form *)
Definition block_form (m : fmps R) i k p blk q a b : Prop :=
  fdata m = p ++ blk ++ q /\ length p = i /\ length blk = k /\ chain 1 p a /\ chain a blk b /\ chain b q 1 /\
  dims p = repeat (fd m) i /\ dims blk = repeat (fd m) k /\ dims q = repeat (fd m) (fL m - i - k).

Lemma block_items (m : fmps R) i k p blk q a b : block_form m i k p blk q a b -> mapM (getitem (fdata m)) (seq i k) = Ok blk.
Proof. intros (E & Hp & Hb & _). rewrite E, <- Hb. apply mapM_getitem, Hp. Qed.

Lemma block_form_exists (m : fmps R) i k : wf m -> uniform m -> (i + k <= fL m)%nat ->
  exists p blk q a b, block_form m i k p blk q a b.
Proof.
  intros (Hc & HL & _) Hu Hi. destruct (block_split (fdata m) i k) as (p & blk & q & E & Hp & Hb); [lia|].
  unfold closed in Hc. unfold uniform in Hu. rewrite E in Hc, Hu. destruct (chain_parts _ _ _ _ _ Hc) as (a & b & H1 & H2 & H3).
  apply Forall_app in Hu as [U1 U2]. apply Forall_app in U2 as [U2 U3].
  exists p, blk, q, a, b. unfold block_form. repeat (split; [assumption|]).
  rewrite (dims_repeat p _ U1), (dims_repeat blk _ U2), (dims_repeat q _ U3), Hp, Hb. split; [reflexivity|]. split; [reflexivity|].
  f_equal. rewrite HL, E, !app_length. lia.
Qed.

Lemma reshape_op_ok d k (op : mat R) : mr op = Nat.pow d k -> mc op = Nat.pow d k ->
  exists T, reshape_op d k op = Ok T /\ tsh T = repeat d k ++ repeat d k /\
    forall w w', incfg (repeat d k) w -> incfg (repeat d k) w' -> te T (w ++ w') = block_op d op w w'.
Proof.
  intros H1 H2. unfold reshape_op. rewrite H1, H2.
  replace (Nat.pow d (2 * k)) with (Nat.pow d k * Nat.pow d k)%nat by (rewrite <- Nat.pow_add_r; f_equal; lia).
  rewrite Nat.eqb_refl. eexists. split; [reflexivity|]. split.
  { cbn [tsh]. replace (2 * k)%nat with (k + k)%nat by lia. apply repeat_app. }
  intros w w' Hw Hw'. cbn [te].
  assert (L1 : length w = k) by (apply incfg_length in Hw; rewrite repeat_length in Hw; exact Hw).
  assert (L2 : length w' = k) by (apply incfg_length in Hw'; rewrite repeat_length in Hw'; exact Hw').
  assert (HL : length (w ++ w') = (2 * k)%nat) by (rewrite app_length; lia).
  rewrite <- HL, ravel_rowmajor, rowmajor_app, L2.
  assert (Hlt : (rowmajor d w' < Nat.pow d k)%nat) by (rewrite <- L2; apply rowmajor_lt; rewrite L2; exact Hw').
  unfold block_op. f_equal.
  - rewrite Nat.div_add_l, (Nat.div_small (rowmajor d w')) by lia. lia.
  - rewrite (Nat.add_comm (_ * _)), Nat.mod_add, Nat.mod_small by lia. reflexivity.
Qed.

Lemma block_value_ext (Ms : list (site R)) a b f g :
  (forall w w', incfg (dims Ms) w -> incfg (dims Ms) w' -> f w w' = g w w') -> block_value Ms a b f = block_value Ms a b g.
Proof. intros H. unfold block_value. apply sumcfg_ext; intros w Hw. apply sumcfg_ext; intros w' Hw'. rewrite H by assumption. reflexivity. Qed.

(** contraction of the block with a big operator and with a string *)
Lemma op_contract S (m : fmps R) (op : mat R) i k p blk q a b :
  setio_ok S -> block_form m i k p blk q a b -> (0 < k)%nat -> mr op = Nat.pow (fd m) k -> mc op = Nat.pow (fd m) k ->
  Forall left_iso p -> Forall right_iso q ->
  exists T r, reshape_op (fd m) k op = Ok T /\
    ncon S (map (fun M => tens_site (site_conj M)) blk ++ [T] ++ map tens_site blk) (links k true) None None false = Ok r /\
    te r [] = expect (repeat (fd m) i) (repeat (fd m) k) (repeat (fd m) (fL m - i - k)) (psi m) (block_op (fd m) op).
Proof.
  intros HS (E & Hp & Hb & C1 & C2 & C3 & D1 & D2 & D3) Hk H1 H2 I1 I2.
  destruct (reshape_op_ok (fd m) k op H1 H2) as (T & ET & ST & VT).
  destruct (op_net_ok S blk T k a b false HS Hb Hk C2) as (r & Er & _ & Vr); [rewrite D2; exact ST|].
  exists T, r. split; [exact ET|]. split; [exact Er|]. rewrite Vr.
  rewrite (block_value_ext blk a b _ (block_op (fd m) op)) by (rewrite D2; exact VT).
  rewrite <- (expect_block p blk q a b _ C1 C2 C3 I1 I2), D1, D2, D3. unfold psi. rewrite E. reflexivity.
Qed.

Lemma string_contract S (m : fmps R) (ops : list (mat R)) i k p blk q a b :
  setio_ok S -> block_form m i k p blk q a b -> (0 < k)%nat -> length ops = k ->
  Forall (fun M => mr M = fd m /\ mc M = fd m) ops ->
  Forall left_iso p -> Forall right_iso q ->
  exists l r, string_links k = Ok l /\
    ncon S (map (fun M => tens_site (site_conj M)) blk ++ map tens_mat ops ++ map tens_site blk) l None None false = Ok r /\
    te r [] = expect (repeat (fd m) i) (repeat (fd m) k) (repeat (fd m) (fL m - i - k)) (psi m) (string_op ops).
Proof.
  intros HS (E & Hp & Hb & C1 & C2 & C3 & D1 & D2 & D3) Hk Ho HF I1 I2.
  destruct (string_net_ok S blk ops k a b false (lnk lp (lb k) 0 k ++ map (fun i => [lp i; lq k i]) (seq 0 k) ++ lnk (lq k) (lc k) 0 k) HS Hb Hk C2) as (r & Er & _ & Vr).
  - rewrite <- Hb in Ho, D2. clear -HF Ho D2. revert ops HF Ho. unfold dims in D2. induction blk as [|A blk IH]; intros [|M ops] HF Ho; try discriminate; constructor.
    + cbn in D2. injection D2 as D2 _. inversion HF; subst. rewrite D2. assumption.
    + cbn in D2. injection D2 as _ D2. inversion HF; subst. apply IH; [exact D2|assumption|cbn in Ho; lia].
  - apply string_links_ok.
  - exists (lnk lp (lb k) 0 k ++ map (fun i => [lp i; lq k i]) (seq 0 k) ++ lnk (lq k) (lc k) 0 k), r. split; [apply string_links_ok|]. split; [exact Er|]. rewrite Vr.
    rewrite <- (expect_block p blk q a b _ C1 C2 C3 I1 I2), D1, D2, D3. unfold psi. rewrite E. reflexivity.
Qed.

(** exact statements for blocks in mixed form *)
Lemma iso_parts (m : fmps R) i k p blk q a b : block_form m i k p blk q a b -> iso_around m i k -> Forall left_iso p /\ Forall right_iso q.
Proof.
  intros (E & Hp & Hb & _) H. split; apply Forall_forall; intros B HB; apply In_nth_error in HB as (j & HB).
  - assert (j < length p)%nat by (apply nth_error_Some; congruence). apply (H j); [|lia]. rewrite E, nth_error_app1; assumption.
  - apply (H (i + (k + j))%nat); [|lia]. rewrite E, nth_error_app2 by lia. rewrite nth_error_app2 by lia. rewrite <- HB. f_equal. lia.
Qed.

Lemma Ek_mixed S (O : lapack R) (m : fmps R) op i k :
  setio_ok S -> wf m -> uniform m -> (0 < k)%nat -> (i + k <= fL m)%nat ->
  mr op = Nat.pow (fd m) k -> mc op = Nat.pow (fd m) k ->
  needs_centre m (seq i k) = Ok false -> iso_around m i k ->
  mps_Ek S O m op (seq i k)
  = Ok (sre (expect (repeat (fd m) i) (repeat (fd m) k) (repeat (fd m) (fL m - i - k)) (psi m) (block_op (fd m) op)), m).
Proof.
  intros HS Hwf Hu Hk Hi H1 H2 Hn Hiso.
  destruct (block_form_exists m i k Hwf Hu Hi) as (p & blk & q & a & b & HB).
  destruct (iso_parts m i k p blk q a b HB Hiso) as [I1 I2].
  destruct (op_contract S m op i k p blk q a b HS HB Hk H1 H2 I1 I2) as (T & r & ET & Er & Vr).
  unfold mps_Ek, centre_block. rewrite Hn. cbn [bind].
  rewrite (block_items _ _ _ _ _ _ _ _ HB). cbn [bind].
  rewrite seq_length, ET. cbn [bind]. rewrite Er. cbn [bind]. rewrite Vr. reflexivity.
Qed.

Lemma Ek_string_mixed S (O : lapack R) (m : fmps R) ops i k :
  setio_ok S -> wf m -> uniform m -> (0 < k)%nat -> (i + k <= fL m)%nat -> length ops = k ->
  Forall (fun M => mr M = fd m /\ mc M = fd m) ops ->
  needs_centre m (seq i k) = Ok false -> iso_around m i k ->
  mps_Ek_string S O m ops (seq i k)
  = Ok (sre (expect (repeat (fd m) i) (repeat (fd m) k) (repeat (fd m) (fL m - i - k)) (psi m) (string_op ops)), m).
Proof.
  intros HS Hwf Hu Hk Hi Ho HF Hn Hiso.
  destruct (block_form_exists m i k Hwf Hu Hi) as (p & blk & q & a & b & HB).
  destruct (iso_parts m i k p blk q a b HB Hiso) as [I1 I2].
  destruct (string_contract S m ops i k p blk q a b HS HB Hk Ho HF I1 I2) as (l & r & El & Er & Vr).
  unfold mps_Ek_string, centre_block. rewrite Hn. cbn [bind].
  rewrite (block_items _ _ _ _ _ _ _ _ HB). cbn [bind].
  rewrite seq_length, El. cbn [bind]. rewrite Er. cbn [bind]. rewrite Vr. reflexivity.
Qed.

(** E_L: no assumption on the form *)
Lemma EL_ok S (m : fmps R) op : setio_ok S -> wf m -> uniform m ->
  mr op = Nat.pow (fd m) (fL m) -> mc op = Nat.pow (fd m) (fL m) ->
  mps_EL S m op = Ok (sre (sumcfg (dims (fdata m)) (fun s => sumcfg (dims (fdata m)) (fun t =>
     sconj (psi m s) * block_op (fd m) op s t * psi m t)))).
Proof.
  intros HS (Hc & HL & Hne) Hu H1 H2.
  destruct (reshape_op_ok (fd m) (fL m) op H1 H2) as (T & ET & ST & VT).
  assert (HD : dims (fdata m) = repeat (fd m) (fL m)) by (rewrite HL; apply dims_repeat, Hu).
  assert (Hk : (0 < fL m)%nat) by (rewrite HL; destruct (fdata m); [contradiction|cbn; lia]).
  destruct (op_net_ok S (fdata m) T (fL m) 1 1 false HS (eq_sym HL) Hk Hc) as (r & Er & _ & Vr); [rewrite HD; exact ST|].
  unfold mps_EL. rewrite ET. cbn [bind]. rewrite Er. cbn [bind]. rewrite Vr. do 2 f_equal.
  rewrite (block_value_ext _ _ _ _ (block_op (fd m) op)) by (rewrite HD; exact VT).
  unfold block_value. apply sumcfg_ext; intros s _. apply sumcfg_ext; intros t _. cbn [sum]. unfold psi. ring.
Qed.

(** the guard *)
Lemma centre_block_ok (O : lapack R) (m : fmps R) i k :
  lapack_ok O -> wf m -> pos (fdata m) -> flags_set m -> flags_true m -> (0 < k)%nat -> (i + k <= fL m)%nat ->
  match centre_block O m (seq i k) with
  | Err e => e = LinAlgError \/ e = Exception_
  | Ok m' => wf m' /\ pos (fdata m') /\ dims (fdata m') = dims (fdata m) /\ flags_set m' /\ flags_true m' /\
      fL m' = fL m /\ fd m' = fd m /\ (exists j, (i <= j < i + k)%nat /\ foc m' = Some j /\ mixed_at j (fdata m')) /\
      sumcfg (dims (fdata m)) (fun s => psi m' s * sconj (psi m' s)) = 1 /\
      exists c, forall s, incfg (dims (fdata m)) s -> psi m s = c * psi m' s
  end.
Proof.
  intros HO Hwf Hp (c & o & Hfc & Hfo & Hco) Ht Hk Hi. unfold centre_block, needs_centre. rewrite Hfc. cbn [flag bind].
  assert (Hb : exists b, (if c then Ok false else do o0 <- flag (forth m); Ok (negb o0)) = Ok b /\ b = negb (c || o)).
  { rewrite Hfo. destruct c, o; eexists; split; reflexivity. }
  destruct Hb as (b & -> & Hb). cbn [bind].
  destruct (b || _) eqn:Eg.
  - destruct k as [|k]; [lia|]. cbn [seq getitem nth_error bind].
    pose proof (mixed_orth_ok O m i HO Hwf Hp ltac:(lia)) as HM.
    unfold getitem. cbn [nth_error bind].
    destruct (mixed_orthogonalise O m i) as [m'|e]; [|exact HM].
    destruct HM as (M1 & M2 & M3 & M4 & M5 & M6 & M7 & M8 & M9 & M10 & M11 & c' & n & _ & M12 & _).
    repeat (split; [assumption|]).
    split. { exists c, true. rewrite M7, M8. repeat split; auto. intros _. exists i; exact M9. }
    split. { intros c0 o0 Hc0 Ho0 _ k0 Hk0. rewrite M9 in Hk0. injection Hk0 as <-. split; [exact M10|]. rewrite M3. exact M11. }
    repeat (split; [assumption|]). split; [exists i; split; [lia|split; assumption]|]. split; [assumption|]. exists c'; exact M12.
  - apply orb_false_iff in Eg as [Eb Eo]. subst b.
    apply negb_false_iff in Eb. destruct (Hco Eb) as (k0 & Hk0). rewrite Hk0 in Eo.
    apply negb_false_iff in Eo. apply existsb_exists in Eo as (x & Hx & Ex). apply Nat.eqb_eq in Ex. subst x. apply in_seq in Hx.
    destruct (Ht c o Hfc Hfo Eb k0 Hk0) as [Hmix Hn].
    repeat (split; [first [assumption|reflexivity]|]).
    split. { exists c, o. auto. }
    repeat (split; [first [assumption|reflexivity]|]). split; [exists k0; split; [lia|split; assumption]|]. split; [assumption|]. exists 1. intros; ring.
Qed.

Lemma expect_scale du db dv (f g : list nat -> R) c op :
  (forall s, incfg (du ++ db ++ dv) s -> f s = c * g s) ->
  expect du db dv f op = c * sconj c * expect du db dv g op.
Proof.
  intros H. unfold expect. rewrite <- sumcfg_mul_l. apply sumcfg_ext; intros u Hu.
  rewrite <- sumcfg_mul_l. apply sumcfg_ext; intros b Hb. rewrite <- sumcfg_mul_l. apply sumcfg_ext; intros b' Hb'.
  rewrite <- sumcfg_mul_l. apply sumcfg_ext; intros v Hv.
  rewrite !H by (apply incfg_app; [assumption|apply incfg_app; assumption]). rewrite conj_mul. ring.
Qed.

Lemma centred_needs (m : fmps R) i k j : flags_set m -> (forall c o, fcan m = Some c -> forth m = Some o -> c || o = true) ->
  (i <= j < i + k)%nat -> foc m = Some j -> needs_centre m (seq i k) = Ok false.
Proof.
  intros (c & o & Hc & Ho & _) Ht Hj Hf. specialize (Ht c o Hc Ho). unfold needs_centre. rewrite Hc, Ho, Hf.
  assert (HE : existsb (Nat.eqb j) (seq i k) = true). { apply existsb_exists. exists j. split; [apply in_seq; lia|apply Nat.eqb_refl]. }
  rewrite HE. destruct c, o; try discriminate; reflexivity.
Qed.

Lemma dims_parts (m : fmps R) i k : wf m -> uniform m -> (i + k <= fL m)%nat ->
  dims (fdata m) = repeat (fd m) i ++ repeat (fd m) k ++ repeat (fd m) (fL m - i - k).
Proof.
  intros (_ & HL & _) Hu Hi. rewrite (dims_repeat _ _ Hu), <- HL, <- !repeat_app. f_equal. lia.
Qed.

Lemma uniform_dims (m m' : fmps R) : uniform m -> dims (fdata m') = dims (fdata m) -> fd m' = fd m -> uniform m'.
Proof.
  unfold uniform, dims. intros H E F. rewrite F. clear F. revert E H. generalize (fd m). generalize (fdata m). intros l d. revert l.
  induction (fdata m') as [|A x IH]; intros [|B l] E H; try discriminate; constructor; inversion H; subst.
  - cbn in E. injection E as E _. congruence.
  - cbn in E. injection E as _ E. eapply IH; eassumption.
Qed.

Lemma Ek_ok S (O : lapack R) (m : fmps R) op i k :
  setio_ok S -> lapack_ok O -> wf m -> uniform m -> pos (fdata m) -> flags_set m -> flags_true m ->
  (0 < k)%nat -> (i + k <= fL m)%nat -> mr op = Nat.pow (fd m) k -> mc op = Nat.pow (fd m) k ->
  match mps_Ek S O m op (seq i k) with
  | Err e => e = LinAlgError \/ e = Exception_
  | Ok (v, m') => meas_post m m' i k /\
      v * sumcfg (dims (fdata m)) (fun s => psi m s * sconj (psi m s))
      = sre (expect (repeat (fd m) i) (repeat (fd m) k) (repeat (fd m) (fL m - i - k)) (psi m) (block_op (fd m) op))
  end.
Proof.
  intros HS HO Hwf Hu Hp Hfs Hft Hk Hi H1 H2. unfold mps_Ek.
  pose proof (centre_block_ok O m i k HO Hwf Hp Hfs Hft Hk Hi) as HC.
  destruct (centre_block O m (seq i k)) as [m'|e]; cbn [bind]; [|exact HC].
  destruct HC as (M1 & M2 & M3 & M4 & M5 & M6 & M7 & (j & Hj & Mj & Mm) & M9 & c & M10).
  assert (Hu' : uniform m') by (apply (uniform_dims m); assumption).
  destruct (block_form_exists m' i k M1 Hu') as (p & blk & q & a & b & HB); [lia|].
  assert (HI : Forall left_iso p /\ Forall right_iso q).
  { destruct HB as (E & Lp & Lb & _). apply (mixed_isos p blk q j); [rewrite <- E; exact Mm|lia]. }
  destruct (op_contract S m' op i k p blk q a b HS HB Hk) as (T & r & ET & Er & Vr); try (rewrite M7; assumption); try apply HI.
  rewrite (block_items _ _ _ _ _ _ _ _ HB). cbn [bind].
  rewrite seq_length, ET. cbn [bind]. rewrite Er. cbn [bind]. split.
  { unfold meas_post. repeat (split; [assumption|]). split; [exists j; auto|]. split; [assumption|]. exists c. exact M10. }
  rewrite Vr, M6, M7. rewrite (norm_scale _ _ _ c M10), M9.
  rewrite (expect_scale _ _ _ (psi m) (psi m') c) by (rewrite <- dims_parts by assumption; exact M10).
  rewrite re_mul by (rewrite conj_mul, conj_conj; ring). ring.
Qed.

Lemma Ek_string_ok S (O : lapack R) (m : fmps R) ops i k :
  setio_ok S -> lapack_ok O -> wf m -> uniform m -> pos (fdata m) -> flags_set m -> flags_true m ->
  (0 < k)%nat -> (i + k <= fL m)%nat -> length ops = k -> Forall (fun M => mr M = fd m /\ mc M = fd m) ops ->
  match mps_Ek_string S O m ops (seq i k) with
  | Err e => e = LinAlgError \/ e = Exception_
  | Ok (v, m') => meas_post m m' i k /\
      v * sumcfg (dims (fdata m)) (fun s => psi m s * sconj (psi m s))
      = sre (expect (repeat (fd m) i) (repeat (fd m) k) (repeat (fd m) (fL m - i - k)) (psi m) (string_op ops))
  end.
Proof.
  intros HS HO Hwf Hu Hp Hfs Hft Hk Hi H1 H2. unfold mps_Ek_string.
  pose proof (centre_block_ok O m i k HO Hwf Hp Hfs Hft Hk Hi) as HC.
  destruct (centre_block O m (seq i k)) as [m'|e]; cbn [bind]; [|exact HC].
  destruct HC as (M1 & M2 & M3 & M4 & M5 & M6 & M7 & (j & Hj & Mj & Mm) & M9 & c & M10).
  assert (Hu' : uniform m') by (apply (uniform_dims m); assumption).
  destruct (block_form_exists m' i k M1 Hu') as (p & blk & q & a & b & HB); [lia|].
  assert (HI : Forall left_iso p /\ Forall right_iso q).
  { destruct HB as (E & Lp & Lb & _). apply (mixed_isos p blk q j); [rewrite <- E; exact Mm|lia]. }
  destruct (string_contract S m' ops i k p blk q a b HS HB Hk) as (l & r & El & Er & Vr); try (rewrite M7; assumption); try apply HI; try assumption.
  rewrite (block_items _ _ _ _ _ _ _ _ HB). cbn [bind].
  rewrite seq_length, El. cbn [bind]. rewrite Er. cbn [bind]. split.
  { unfold meas_post. repeat (split; [assumption|]). split; [exists j; auto|]. split; [assumption|]. exists c. exact M10. }
  rewrite Vr, M6, M7. rewrite (norm_scale _ _ _ c M10), M9.
  rewrite (expect_scale _ _ _ (psi m) (psi m') c) by (rewrite <- dims_parts by assumption; exact M10).
  rewrite re_mul by (rewrite conj_mul, conj_conj; ring). ring.
Qed.
End Block.
