(** rho, Tr(rho O), local_overlap, one-site measurements. *)
From Verif Require Import Alg ModelMPS SpecMPS ProofMPS ModelOrth SpecOrth ProofOrth ProofOrth2 ProofOrth3 ProofMeas
  ModelNcon SpecNcon ProofNcon ProofNcon3 ProofNcon4 ModelEk SpecEk ProofEk ProofEk2 ProofEk3 ProofEk4.
From Coq Require Import Permutation Sorted.

Section Rho.
Context {R : sring}.
Local Open Scope sr_scope.
Add Ring Rr : (s_th R).

Lemma reshape_rows_ok d k (T : tens R) : (0 < d)%nat -> tsh T = repeat d k ++ repeat d k ->
  exists r, reshape_rows (Nat.pow d k) T = Ok r /\ mr r = Nat.pow d k /\ mc r = Nat.pow d k /\
    forall s t, incfg (repeat d k) s -> incfg (repeat d k) t -> me r (rowmajor d s) (rowmajor d t) = te T (s ++ t).
Proof.
  intros Hd HT. unfold reshape_rows. rewrite HT, <- repeat_app, prod_repeat, Nat.pow_add_r.
  assert (Hn : Nat.pow d k <> 0%nat) by (apply Nat.pow_nonzero; lia).
  rewrite Nat.mod_mul, Nat.div_mul by exact Hn. destruct (Nat.eqb_spec (Nat.pow d k) 0); [contradiction|]. cbn [orb negb Nat.eqb].
  eexists. split; [reflexivity|]. cbn [mr mc me]. split; [reflexivity|]. split; [reflexivity|].
  intros s t Hs Ht. f_equal.
  assert (L2 : length t = k) by (apply incfg_length in Ht; rewrite repeat_length in Ht; exact Ht).
  assert (L1 : length s = k) by (apply incfg_length in Hs; rewrite repeat_length in Hs; exact Hs).
  assert (HL : length (s ++ t) = (k + k)%nat) by (rewrite app_length; lia).
  assert (HR : (rowmajor d s * Nat.pow d k + rowmajor d t)%nat = ravel (repeat d (k + k)) (s ++ t)).
  { rewrite <- HL, ravel_rowmajor, rowmajor_app, L2. reflexivity. }
  rewrite HR. apply unravel_ravel. rewrite repeat_app. apply Forall2_app.
  - clear -Hs. induction Hs; constructor; assumption.
  - clear -Ht. induction Ht; constructor; assumption.
Qed.

Lemma rho_contract S (m : fmps R) i k p blk q a b :
  setio_ok S -> block_form m i k p blk q a b -> (0 < k)%nat -> (0 < fd m)%nat ->
  Forall left_iso p -> Forall right_iso q ->
  exists T r, ncon S (map tens_site blk ++ map (fun M => tens_site (site_conj M)) blk) (rho_links k) None None false = Ok T /\
    reshape_rows (Nat.pow (fd m) k) T = Ok r /\ mr r = Nat.pow (fd m) k /\ mc r = Nat.pow (fd m) k /\
    forall s t, incfg (repeat (fd m) k) s -> incfg (repeat (fd m) k) t ->
      block_op (fd m) r s t = reduced (repeat (fd m) i) (repeat (fd m) (fL m - i - k)) (psi m) s t.
Proof.
  intros HS (E & Hp & Hb & C1 & C2 & C3 & D1 & D2 & D3) Hk Hd I1 I2.
  destruct (rho_net_ok S blk k a b false HS Hb Hk C2) as (T & ET & ST & VT). rewrite D2 in ST.
  destruct (reshape_rows_ok (fd m) k T Hd ST) as (r & Er & R1 & R2 & VR).
  exists T, r. repeat (split; [assumption|]). intros s t Hs Ht. unfold block_op. rewrite VR by assumption.
  assert (L1 : length s = k) by (apply incfg_length in Hs; rewrite repeat_length in Hs; exact Hs).
  assert (L2 : length t = k) by (apply incfg_length in Ht; rewrite repeat_length in Ht; exact Ht).
  rewrite VT by assumption.
  transitivity (sum a (fun i => sum b (fun j => sconj (amp blk t i j) * amp blk s i j))).
  { apply sum_ext; intros x _. apply sum_ext; intros y _. ring. }
  rewrite <- (gram_collapse p blk q a b t s C1 C2 C3 I1 I2) by lia.
  unfold reduced. rewrite D1, D3. apply sumcfg_ext; intros u _. apply sumcfg_ext; intros v _. unfold psi. rewrite E. ring.
Qed.

Lemma rho_mixed S (O : lapack R) (m : fmps R) i k j :
  setio_ok S -> wf m -> uniform m -> (0 < fd m)%nat -> (0 < k)%nat -> (i + k <= fL m)%nat ->
  foc m = Some j -> (i <= j < i + k)%nat -> iso_around m i k ->
  exists r, mps_rho S O m (seq i k) = Ok (r, m) /\ mr r = Nat.pow (fd m) k /\ mc r = Nat.pow (fd m) k /\
    forall s t, incfg (repeat (fd m) k) s -> incfg (repeat (fd m) k) t ->
      block_op (fd m) r s t = reduced (repeat (fd m) i) (repeat (fd m) (fL m - i - k)) (psi m) s t.
Proof.
  intros HS Hwf Hu Hd Hk Hi Hf Hj Hiso.
  destruct (block_form_exists m i k Hwf Hu Hi) as (p & blk & q & a & b & HB).
  destruct (iso_parts m i k p blk q a b HB Hiso) as [I1 I2].
  destruct (rho_contract S m i k p blk q a b HS HB Hk Hd I1 I2) as (T & r & ET & Er & R1 & R2 & VR).
  exists r. split; [|auto]. unfold mps_rho. rewrite Hf.
  assert (HE : existsb (Nat.eqb j) (seq i k) = true). { apply existsb_exists. exists j. split; [apply in_seq; lia|apply Nat.eqb_refl]. }
  rewrite HE. cbn [negb bind]. rewrite (block_items _ _ _ _ _ _ _ _ HB). cbn [bind].
  rewrite seq_length, ET. cbn [bind]. rewrite Er. reflexivity.
Qed.

Lemma reduced_scale du db dv (f g : list nat -> R) c s t :
  (forall s, incfg (du ++ db ++ dv) s -> f s = c * g s) -> incfg db s -> incfg db t ->
  reduced du dv f s t = c * sconj c * reduced du dv g s t.
Proof.
  intros H Hs Ht. unfold reduced. rewrite <- sumcfg_mul_l. apply sumcfg_ext; intros u Hu.
  rewrite <- sumcfg_mul_l. apply sumcfg_ext; intros v Hv.
  rewrite !H by (apply incfg_app; [assumption|apply incfg_app; assumption]). rewrite conj_mul. ring.
Qed.

Lemma rho_ok S (O : lapack R) (m : fmps R) i k :
  setio_ok S -> lapack_ok O -> wf m -> uniform m -> (0 < fd m)%nat -> pos (fdata m) -> centre_true m ->
  (0 < k)%nat -> (i + k <= fL m)%nat ->
  match mps_rho S O m (seq i k) with
  | Err e => e = LinAlgError \/ e = Exception_
  | Ok (r, m') => rho_post m m' i k /\ mr r = Nat.pow (fd m) k /\ mc r = Nat.pow (fd m) k /\
      forall s t, incfg (repeat (fd m) k) s -> incfg (repeat (fd m) k) t ->
        block_op (fd m) r s t * sumcfg (dims (fdata m)) (fun s => psi m s * sconj (psi m s))
        = reduced (repeat (fd m) i) (repeat (fd m) (fL m - i - k)) (psi m) s t
  end.
Proof.
  intros HS HO Hwf Hu Hd Hp Hct Hk Hi. unfold mps_rho.
  assert (HC : match (if match foc m with None => true | Some c => negb (existsb (Nat.eqb c) (seq i k)) end
           then do s <- getitem (seq i k) 0; mixed_orthogonalise O m s else Ok m) with
    | Err e => e = LinAlgError \/ e = Exception_ | Ok m' => rho_post m m' i k end).
  { destruct (match foc m with None => true | Some c => negb (existsb (Nat.eqb c) (seq i k)) end) eqn:Eg.
    - destruct k as [|k]; [lia|]. unfold getitem. cbn [seq nth_error bind].
      pose proof (mixed_orth_ok O m i HO Hwf Hp ltac:(lia)) as HM.
      destruct (mixed_orthogonalise O m i) as [m'|e]; [|exact HM].
      destruct HM as (M1 & M2 & M3 & M4 & M5 & M6 & M7 & M8 & M9 & M10 & M11 & c' & n & _ & M12 & _).
      unfold rho_post. repeat (split; [assumption|]).
      split. { intros k0 Hk0. rewrite M9 in Hk0. injection Hk0 as <-. split; [exact M10|]. rewrite M3. exact M11. }
      repeat (split; [assumption|]). split; [exists i; split; [lia|split; assumption]|]. split; [assumption|]. exists c'; exact M12.
    - destruct (foc m) as [j|] eqn:Ef; [|discriminate]. apply negb_false_iff in Eg.
      apply existsb_exists in Eg as (x & Hx & Ex). apply Nat.eqb_eq in Ex. subst x. apply in_seq in Hx.
      destruct (Hct j Ef) as [Hm Hn]. unfold rho_post. repeat (split; [first [assumption|reflexivity]|]).
      split; [exists j; split; [lia|split; assumption]|]. split; [assumption|]. exists 1. intros; ring. }
  destruct (if match foc m with None => true | Some c => negb (existsb (Nat.eqb c) (seq i k)) end
           then do s <- getitem (seq i k) 0; mixed_orthogonalise O m s else Ok m) as [m'|e]; cbn [bind]; [|exact HC].
  pose proof HC as HC'. destruct HC as (M1 & M2 & M3 & M4 & M6 & M7 & (j & Hj & Mj & Mm) & M9 & c & M10).
  assert (Hu' : uniform m') by (apply (uniform_dims m); assumption).
  destruct (block_form_exists m' i k M1 Hu') as (p & blk & q & a & b & HB); [lia|].
  assert (HI : Forall left_iso p /\ Forall right_iso q).
  { destruct HB as (E & Lp & Lb & _). apply (mixed_isos p blk q j); [rewrite <- E; exact Mm|lia]. }
  destruct (rho_contract S m' i k p blk q a b HS HB Hk) as (T & r & ET & Er & R1 & R2 & VR); try (rewrite M7; assumption); try apply HI.
  rewrite (block_items _ _ _ _ _ _ _ _ HB). cbn [bind].
  rewrite seq_length, ET. cbn [bind]. rewrite Er. cbn [bind]. rewrite M6, M7 in *.
  split; [exact HC'|]. repeat (split; [assumption|]). intros s t Hs Ht. rewrite VR by assumption.
  rewrite (norm_scale _ _ _ c M10), M9.
  rewrite (reduced_scale _ (repeat (fd m) k) _ (psi m) (psi m') c) by (first [assumption | rewrite <- dims_parts by assumption; exact M10]).
  ring.
Qed.

(** <O> = Tr(rho O) *)
Lemma expect_reduced du db dv (f : list nat -> R) op :
  expect du db dv f op = sumcfg db (fun s => sumcfg db (fun t => op s t * reduced du dv f t s)).
Proof.
  unfold expect, reduced. rewrite swap4. apply sumcfg_ext; intros s _. apply sumcfg_ext; intros t _.
  rewrite <- sumcfg_mul_l. apply sumcfg_ext; intros u _. rewrite <- sumcfg_mul_l. apply sumcfg_ext; intros v _. ring.
Qed.

Lemma expect_op_ext du db dv (f : list nat -> R) op op' : (forall s t, incfg db s -> incfg db t -> op s t = op' s t) ->
  expect du db dv f op = expect du db dv f op'.
Proof.
  intros H. unfold expect. apply sumcfg_ext; intros u _. apply sumcfg_ext; intros s Hs. apply sumcfg_ext; intros t Ht.
  apply sumcfg_ext; intros v _. rewrite H by assumption. reflexivity.
Qed.

Lemma conj_norm ds (f : list nat -> R) : sconj (sumcfg ds (fun s => f s * sconj (f s))) = sumcfg ds (fun s => f s * sconj (f s)).
Proof. rewrite sumcfg_conj. apply sumcfg_ext; intros s _. rewrite conj_mul, conj_conj. ring. Qed.

Lemma expect_mul_r du db dv (f : list nat -> R) op x : expect du db dv f op * x = expect du db dv f (fun s t => op s t * x).
Proof.
  unfold expect. rewrite <- sumcfg_mul_r. apply sumcfg_ext; intros u _. rewrite <- sumcfg_mul_r. apply sumcfg_ext; intros s _.
  rewrite <- sumcfg_mul_r. apply sumcfg_ext; intros t _. rewrite <- sumcfg_mul_r. apply sumcfg_ext; intros v _. ring.
Qed.

(** local_overlap with two entangled states *)
Lemma local_overlap_ok S (O : lapack R) (a b : fmps R) i k d L :
  setio_ok S -> lapack_ok O -> wf a -> wf b -> uniform a -> uniform b -> pos (fdata a) -> pos (fdata b) ->
  fd a = d -> fd b = d -> (0 < d)%nat -> fL a = L -> fL b = L ->
  flags_set a -> flags_true a -> centre_true b -> (0 < k)%nat -> (i + k <= L)%nat ->
  bond_dimension a <> 1%nat -> bond_dimension b <> 1%nat ->
  match mps_local_overlap S O a b (seq i k) with
  | Err e => e = LinAlgError \/ e = Exception_
  | Ok (v, a', b') => meas_post a a' i k /\ rho_post b b' i k /\
      v * sumcfg (repeat d L) (fun s => psi a s * sconj (psi a s)) * sumcfg (repeat d L) (fun s => psi b s * sconj (psi b s))
      = sre (sumcfg (repeat d k) (fun s => sumcfg (repeat d k) (fun t =>
          reduced (repeat d i) (repeat d (L - i - k)) (psi a) s t * reduced (repeat d i) (repeat d (L - i - k)) (psi b) t s)))
  end.
Proof.
  intros HS HO Wa Wb Ua Ub Pa Pb Da Db Hd La Lb Fa Ta Cb Hk Hi Ba Bb. unfold mps_local_overlap.
  destruct (Nat.eqb_spec (bond_dimension a) 1); [contradiction|]. destruct (Nat.eqb_spec (bond_dimension b) 1); [contradiction|].
  pose proof (rho_ok S O b i k HS HO Wb Ub ltac:(lia) Pb Cb Hk ltac:(lia)) as HR.
  destruct (mps_rho S O b (seq i k)) as [[r b']|e]; cbn [bind fst snd]; [|exact HR].
  destruct HR as (Hb' & R1 & R2 & VR). rewrite Db, Lb in *.
  pose proof (Ek_ok S O a r i k HS HO Wa Ua Pa Fa Ta Hk ltac:(lia)) as HE. rewrite Da, La in HE. specialize (HE R1 R2).
  destruct (mps_Ek S O a r (seq i k)) as [[v a']|e]; cbn [bind fst snd]; [|exact HE].
  destruct HE as (Ha' & VE). split; [exact Ha'|]. split; [exact Hb'|].
  assert (DA : dims (fdata a) = repeat d L) by (rewrite <- Da, <- La; destruct Wa as (_ & -> & _); apply dims_repeat, Ua).
  assert (DB : dims (fdata b) = repeat d L) by (rewrite <- Db, <- Lb; destruct Wb as (_ & -> & _); apply dims_repeat, Ub).
  rewrite DA in VE. rewrite DB in VR. rewrite VE.
  set (nb := sumcfg (repeat d L) (fun s => psi b s * sconj (psi b s))) in *.
  assert (Hnb : sconj nb = nb) by apply conj_norm.
  transitivity (sre (nb * expect (repeat d i) (repeat d k) (repeat d (L - i - k)) (psi a) (block_op d r))).
  { rewrite re_mul by exact Hnb. ring. }
  f_equal. rewrite (s_th R).(Rmul_comm), expect_mul_r, expect_reduced, sumcfg_swap.
  apply sumcfg_ext; intros s Hs. apply sumcfg_ext; intros t Ht. rewrite VR by assumption. ring.
Qed.

(** one site *)
Lemma rowmajor1 d x : rowmajor d [x] = x.
Proof. reflexivity. Qed.

Lemma expect1_block (m : fmps R) i (op : mat R) : wf m -> uniform m -> (i < fL m)%nat ->
  expect (repeat (fd m) i) (repeat (fd m) 1) (repeat (fd m) (fL m - i - 1)) (psi m) (block_op (fd m) op)
  = expect1 (dims (fdata m)) (psi m) i (me op).
Proof.
  intros Hwf Hu Hi. rewrite (dims_parts m i 1 Hwf Hu) by lia. cbn [repeat app].
  pose proof (expect1_expect (repeat (fd m) i) (fd m) (repeat (fd m) (fL m - i - 1)) (psi m) (me op)) as H.
  rewrite repeat_length in H. rewrite H. apply expect_op_ext. intros s t Hs Ht.
  inversion Hs as [|x ? s' ? Hx Hs']; subst. inversion Hs'; subst. inversion Ht as [|y ? t' ? Hy Ht']; subst. inversion Ht'; subst.
  reflexivity.
Qed.

Lemma Ek_one S (O : lapack R) (m : fmps R) op i :
  setio_ok S -> lapack_ok O -> wf m -> uniform m -> pos (fdata m) -> flags_set m -> flags_true m ->
  (i < fL m)%nat -> mr op = fd m -> mc op = fd m ->
  match mps_Ek S O m op [i] with
  | Err e => e = LinAlgError \/ e = Exception_
  | Ok (v, m') => meas_post m m' i 1 /\
      v * sumcfg (dims (fdata m)) (fun s => psi m s * sconj (psi m s)) = sre (expect1 (dims (fdata m)) (psi m) i (me op))
  end.
Proof.
  intros HS HO Hwf Hu Hp Hs Ht Hi H1 H2.
  pose proof (Ek_ok S O m op i 1 HS HO Hwf Hu Hp Hs Ht ltac:(lia) ltac:(lia)) as H. rewrite Nat.pow_1_r in H. specialize (H H1 H2).
  cbn [seq] in H. destruct (mps_Ek S O m op [i]) as [[v m']|e]; [|exact H]. destruct H as [H3 H4]. split; [exact H3|].
  rewrite H4. f_equal. apply expect1_block; assumption.
Qed.
End Rho.

Section Trace.
Context {R : sring}.
Local Open Scope sr_scope.
Add Ring Rr' : (s_th R).

Lemma sum_pow (d k : nat) (f : nat -> R) : (0 < d)%nat -> sum (Nat.pow d k) f = sumcfg (repeat d k) (fun s => f (rowmajor d s)).
Proof.
  intros Hd. revert f. induction k as [|k IH]; intros f.
  - cbn. ring.
  - cbn [Nat.pow repeat sumcfg]. rewrite (sum_mul d (Nat.pow d k)). apply sum_ext. intros x _. rewrite IH. apply sumcfg_ext. intros s Hs. f_equal.
    change (x :: s) with ([x] ++ s). rewrite rowmajor_app. apply incfg_length in Hs. rewrite repeat_length in Hs. rewrite Hs. reflexivity.
Qed.

Lemma Ek_trace S (O : lapack R) (m : fmps R) op i k j :
  setio_ok S -> wf m -> uniform m -> (0 < fd m)%nat -> (0 < k)%nat -> (i + k <= fL m)%nat ->
  mr op = Nat.pow (fd m) k -> mc op = Nat.pow (fd m) k -> needs_centre m (seq i k) = Ok false ->
  foc m = Some j -> (i <= j < i + k)%nat -> iso_around m i k ->
  exists r, mps_rho S O m (seq i k) = Ok (r, m) /\
    mps_Ek S O m op (seq i k) = Ok (sre (sum (Nat.pow (fd m) k) (fun x => sum (Nat.pow (fd m) k) (fun y => me r x y * me op y x))), m).
Proof.
  intros HS Hwf Hu Hd Hk Hi H1 H2 Hn Hf Hj Hiso.
  destruct (rho_mixed S O m i k j HS Hwf Hu Hd Hk Hi Hf Hj Hiso) as (r & Er & _ & _ & VR).
  exists r. split; [exact Er|]. rewrite (Ek_mixed S O m op i k HS Hwf Hu Hk Hi H1 H2 Hn Hiso). do 3 f_equal.
  rewrite expect_reduced, sumcfg_swap, sum_pow by exact Hd. apply sumcfg_ext; intros s Hs. rewrite sum_pow by exact Hd.
  apply sumcfg_ext; intros t Ht. rewrite <- VR by assumption. unfold block_op. ring.
Qed.
End Trace.
