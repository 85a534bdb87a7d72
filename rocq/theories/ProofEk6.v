(** Product states: rho as a list, local_overlap. *)
From Verif Require Import Alg ModelMPS SpecMPS ProofMPS ModelOrth SpecOrth ProofOrth ProofOrth2 ProofOrth3 ProofMeas
  ModelNcon SpecNcon ProofNcon ProofNcon3 ProofNcon4 ModelEk SpecEk ProofEk ProofEk2 ProofEk3 ProofEk4 ProofEk5.
From Coq Require Import Permutation Sorted.

Section Product.
Context {R : sring}.
Local Open Scope sr_scope.
Add Ring Rr : (s_th R).

Definition flat (A : site R) : Prop := dl A = 1%nat /\ dr A = 1%nat.

Lemma bond1_flat (m : fmps R) : pos (fdata m) -> bond_dimension m = 1%nat -> Forall flat (fdata m).
Proof.
  unfold bond_dimension, pos. intros Hp H. assert (Hle : (list_max (map (fun A => Nat.max (dl A) (dr A)) (fdata m)) <= 1)%nat) by lia.
  apply list_max_le in Hle. rewrite Forall_map in Hle. rewrite Forall_forall in *. intros A HA. specialize (Hp A HA). specialize (Hle A HA).
  unfold flat. lia.
Qed.

Lemma outer_ok S (f g : nat -> R) n : setio_ok S ->
  exists T, ncon S [mkT [n] (fun idx => f (nth 0 idx 0%nat)); mkT [n] (fun idx => g (nth 0 idx 0%nat))] [[(-1)%Z]; [(-2)%Z]] None None false = Ok T /\
    tsh T = [n; n] /\ forall x y, te T [x; y] = f x * g y.
Proof.
  intros HS.
  destruct (ncon_default_ok S (fun _ => n) [mkT [n] (fun idx => f (nth 0 idx 0%nat)); mkT [n] (fun idx => g (nth 0 idx 0%nat))]
    [[(-1)%Z]; [(-2)%Z]] [] [(-1)%Z; (-2)%Z] false HS) as (T & ET & ST & VT).
  - repeat split.
    + discriminate.
    + repeat constructor.
    + constructor.
    + repeat constructor; cbn; intuition discriminate.
    + contradiction.
    + contradiction.
    + destruct H as [<-|[<-|[]]]; lia.
    + destruct H as [<-|[<-|[]]]; reflexivity.
    + intros l Hl. right. exact Hl.
  - repeat constructor.
  - exists T. split; [exact ET|]. split; [exact ST|]. intros x y. rewrite VT by reflexivity. cbn [esum]. unfold tprod.
    cbn [combine map prodl fst snd te nth]. cbn [assign]. unfold eupd. cbn. ring.
Qed.

(** the matrix of one site *)
Definition site_rho (A : site R) (r : mat R) : Prop :=
  mr r = phys A /\ mc r = phys A /\ forall x y, me r x y = ent A x 0 0 * sconj (ent A y 0 0).

Lemma rho_list_items S (m : fmps R) sites Ms : setio_ok S -> mapM (getitem (fdata m)) sites = Ok Ms ->
  Forall (fun A => flat A /\ phys A <> 1%nat) Ms -> exists rs, mps_rho_list S m sites = Ok rs /\ Forall2 site_rho Ms rs.
Proof.
  intros HS. unfold mps_rho_list. revert Ms. induction sites as [|i sites IH]; intros Ms HM HF; cbn [mapM] in *.
  - injection HM as <-. exists []. split; [reflexivity|constructor].
  - destruct (getitem (fdata m) i) as [A|e]; [|discriminate]. cbn [bind] in *.
    destruct (mapM (getitem (fdata m)) sites) as [Ms'|e]; [|discriminate]. cbn [bind] in HM. injection HM as <-.
    inversion HF as [|? ? [[H1 H2] H3] HF']; subst.
    assert (E1 : squeeze_site A = Ok (mkT [phys A] (fun idx => ent A (nth 0 idx 0%nat) 0%nat 0%nat))).
    { unfold squeeze_site. rewrite H1, H2. destruct (Nat.eqb_spec (phys A) 1); [contradiction|]. reflexivity. }
    assert (E2 : squeeze_site (site_conj A) = Ok (mkT [phys A] (fun idx => sconj (ent A (nth 0 idx 0%nat) 0%nat 0%nat)))).
    { unfold squeeze_site. cbn [site_conj phys dl dr ent]. rewrite H1, H2. destruct (Nat.eqb_spec (phys A) 1); [contradiction|]. reflexivity. }
    rewrite E1, E2. cbn [bind].
    destruct (outer_ok S (fun x => ent A x 0%nat 0%nat) (fun x => sconj (ent A x 0%nat 0%nat)) (phys A) HS) as (T & ET & ST & VT).
    rewrite ET. cbn [bind]. destruct (IH Ms' eq_refl HF') as (rs & Er & HR). rewrite Er. cbn [bind].
    eexists. split; [reflexivity|]. constructor; [|exact HR]. unfold site_rho. cbn [mr mc me]. rewrite ST. cbn [nth].
    split; [reflexivity|]. split; [reflexivity|]. exact VT.
Qed.

Lemma amp_flat (l : list (site R)) : Forall flat l -> forall x s A, flat A ->
  amp (A :: l) (x :: s) 0 0 = ent A x 0 0 * amp l s 0 0.
Proof. intros _ x s A [_ H]. cbn [amp]. rewrite H. cbn [sum]. ring. Qed.

Lemma string_rho (Ms : list (site R)) rs : Forall flat Ms -> Forall2 site_rho Ms rs -> forall s t, length s = length Ms -> length t = length Ms ->
  string_op rs s t = amp Ms s 0 0 * sconj (amp Ms t 0 0).
Proof.
  intros HF H. induction H as [|A r Ms rs HA HR IH]; intros [|x s] [|y t] Hs Ht; try discriminate.
  - cbn. unfold dlt. cbn. rewrite conj_1. ring.
  - inversion HF; subst. rewrite !amp_flat by assumption. cbn [string_op]. rewrite IH by (try assumption; cbn in *; lia).
    destruct HA as (_ & _ & HA). rewrite HA, conj_mul. ring.
Qed.

Lemma flat_norm (l : list (site R)) : Forall flat l -> sumcfg (dims l) (fun u => amp l u 0 0 * sconj (amp l u 0 0)) = prodl (map site_norm l).
Proof.
  intros HF. induction HF as [|A l HA HF IH]; cbn [dims map sumcfg prodl].
  - cbn. unfold dlt. cbn. rewrite conj_1. ring.
  - rewrite <- IH. unfold site_norm. rewrite <- sum_mul_r. apply sum_ext. intros x _. rewrite <- sumcfg_mul_l.
    apply sumcfg_ext; intros s _. rewrite !amp_flat by assumption. rewrite conj_mul. ring.
Qed.

Lemma chain_flat (l : list (site R)) a b : Forall flat l -> chain a l b -> l <> [] \/ a = 1%nat -> a = 1%nat /\ b = 1%nat.
Proof.
  intros HF. revert a. induction HF as [|A l [H1 H2] HF IH]; intros a Hc Hne; cbn in Hc.
  - destruct Hne as [|]; [contradiction|]. subst. auto.
  - destruct Hc as [H3 H4]. split; [congruence|]. apply (IH (dr A)); [exact H4|right; exact H2].
Qed.

Lemma reduced_product (m : fmps R) i k p blk q a b s t : block_form m i k p blk q a b -> Forall flat (fdata m) ->
  length s = k -> length t = k ->
  reduced (repeat (fd m) i) (repeat (fd m) (fL m - i - k)) (psi m) s t
  = amp blk s 0 0 * sconj (amp blk t 0 0) * outside_norm (fdata m) i k.
Proof.
  intros (E & Lp & Lb & C1 & C2 & C3 & D1 & D2 & D3) HF Hs Ht. rewrite E in HF.
  apply Forall_app in HF as [F1 F2]. apply Forall_app in F2 as [F2 F3].
  destruct (chain_flat p 1 a F1 C1 (or_intror eq_refl)) as [_ ->]. destruct (chain_flat blk 1 b F2 C2 (or_intror eq_refl)) as [_ ->].
  assert (EO : outside_norm (fdata m) i k = prodl (map site_norm p) * prodl (map site_norm q)).
  { unfold outside_norm. rewrite E. rewrite firstn_app, Lp, Nat.sub_diag, firstn_O, app_nil_r.
    rewrite <- Lp at 1. rewrite firstn_all. f_equal. f_equal. f_equal.
    rewrite app_assoc. rewrite skipn_app. replace (i + k - length (p ++ blk))%nat with 0%nat by (rewrite app_length; lia).
    rewrite skipn_all2 by (rewrite app_length; lia). reflexivity. }
  rewrite EO, <- (flat_norm p F1), <- (flat_norm q F3). unfold reduced. rewrite <- D1, <- D3.
  rewrite (s_th R).(Rmul_comm). rewrite <- (s_th R).(Rmul_assoc). rewrite <- sumcfg_mul_r. apply sumcfg_ext; intros u Hu.
  rewrite <- sumcfg_mul_r, <- sumcfg_mul_l. apply sumcfg_ext; intros v Hv. apply incfg_length in Hu. rewrite dims_length in Hu.
  assert (HA : forall w, length w = k -> psi m (u ++ w ++ v) = amp p u 0 0 * amp blk w 0 0 * amp q v 0 0).
  { intros w Hw. unfold psi. rewrite E. rewrite (amp_app p _ _ _ _ 1%nat 1%nat Hu C1) by lia. cbn [sum].
    rewrite (amp_app blk q w v 0 1%nat 1%nat) by (first [lia|exact C2]). cbn [sum]. ring. }
  rewrite !HA by assumption. rewrite !conj_mul. ring.
Qed.

Lemma rho_list_ok S (m : fmps R) i k : setio_ok S -> wf m -> uniform m -> pos (fdata m) -> fd m <> 1%nat ->
  bond_dimension m = 1%nat -> (i + k <= fL m)%nat ->
  exists rs, mps_rho_list S m (seq i k) = Ok rs /\ length rs = k /\ Forall (fun M => mr M = fd m /\ mc M = fd m) rs /\
    forall s t, length s = k -> length t = k ->
      string_op rs s t * outside_norm (fdata m) i k = reduced (repeat (fd m) i) (repeat (fd m) (fL m - i - k)) (psi m) s t.
Proof.
  intros HS Hwf Hu Hp Hd HB Hi. pose proof (bond1_flat m Hp HB) as HF.
  destruct (block_form_exists m i k Hwf Hu Hi) as (p & blk & q & a & b & HBF).
  pose proof (block_items _ _ _ _ _ _ _ _ HBF) as HI.
  assert (HFb : Forall flat blk /\ Forall (fun A => phys A = fd m) blk).
  { destruct HBF as (E & _). unfold uniform in Hu. rewrite E in HF, Hu. apply Forall_app in HF as [_ HF]. apply Forall_app in HF as [HF _].
    apply Forall_app in Hu as [_ Hu]. apply Forall_app in Hu as [Hu _]. split; assumption. }
  destruct HFb as [HFb HUb].
  destruct (rho_list_items S m (seq i k) blk HS HI) as (rs & Er & HR).
  { rewrite Forall_forall in *. intros A HA. split; [apply HFb, HA|]. rewrite (HUb A HA). exact Hd. }
  exists rs. split; [exact Er|].
  assert (Lb : length blk = k) by apply HBF.
  split. { rewrite <- Lb. clear -HR. induction HR; cbn; congruence. }
  split. { clear -HR HUb. induction HR as [|A r Ms rs HA HR IH]; constructor; inversion HUb; subst.
           - destruct HA as (H & H' & _). split; congruence.
           - apply IH. assumption. }
  intros s t Hs Ht. rewrite (string_rho blk rs HFb HR) by lia. rewrite (reduced_product m i k p blk q a b s t HBF HF Hs Ht). ring.
Qed.

Lemma conj_outside (l : list (site R)) i k : sconj (outside_norm l i k) = outside_norm l i k.
Proof.
  assert (H : forall l : list (site R), sconj (prodl (map site_norm l)) = prodl (map site_norm l)).
  { induction l0 as [|A l0 IH]; cbn; [apply conj_1|]. rewrite conj_mul, IH. f_equal. unfold site_norm. rewrite sum_conj.
    apply sum_ext. intros x _. rewrite conj_mul, conj_conj. ring. }
  unfold outside_norm. rewrite conj_mul, !H. reflexivity.
Qed.

(** the contraction of the list of matrices of a product state with another state *)
Lemma product_overlap S (O : lapack R) (a b : fmps R) i k d L :
  setio_ok S -> lapack_ok O -> wf a -> wf b -> uniform a -> uniform b -> pos (fdata a) -> pos (fdata b) ->
  fd a = d -> fd b = d -> (1 < d)%nat -> fL a = L -> fL b = L ->
  flags_set b -> flags_true b -> (0 < k)%nat -> (i + k <= L)%nat -> bond_dimension a = 1%nat ->
  match (do r <- mps_rho_list S a (seq i k); mps_Ek_string S O b r (seq i k)) with
  | Err e => e = LinAlgError \/ e = Exception_
  | Ok (v, b') => meas_post b b' i k /\
      v * sumcfg (repeat d L) (fun s => psi b s * sconj (psi b s)) * outside_norm (fdata a) i k
      = sre (sumcfg (repeat d k) (fun s => sumcfg (repeat d k) (fun t =>
          reduced (repeat d i) (repeat d (L - i - k)) (psi a) s t * reduced (repeat d i) (repeat d (L - i - k)) (psi b) t s)))
  end.
Proof.
  intros HS HO Wa Wb Ua Ub Pa Pb Da Db Hd La Lb Fb Tb Hk Hi Ba.
  destruct (rho_list_ok S a i k HS Wa Ua Pa ltac:(lia) Ba ltac:(lia)) as (rs & Er & Lr & HFr & VR).
  rewrite Er. cbn [bind]. rewrite Da, La in *.
  pose proof (Ek_string_ok S O b rs i k HS HO Wb Ub Pb Fb Tb Hk ltac:(lia) Lr) as HE. rewrite Db, Lb in HE. specialize (HE HFr).
  destruct (mps_Ek_string S O b rs (seq i k)) as [[v b']|e]; cbn [bind]; [|exact HE].
  destruct HE as (Hb' & VE). split; [exact Hb'|].
  assert (DB : dims (fdata b) = repeat d L) by (rewrite <- Db, <- Lb; destruct Wb as (_ & -> & _); apply dims_repeat, Ub).
  rewrite DB in VE. rewrite VE.
  set (nb := outside_norm (fdata a) i k) in *.
  assert (Hnb : sconj nb = nb) by apply conj_outside.
  transitivity (sre (nb * expect (repeat d i) (repeat d k) (repeat d (L - i - k)) (psi b) (string_op rs))).
  { rewrite re_mul by exact Hnb. ring. }
  f_equal. rewrite (s_th R).(Rmul_comm), expect_mul_r, expect_reduced.
  apply sumcfg_ext; intros s Hs. apply sumcfg_ext; intros t Ht.
  apply incfg_length in Hs. apply incfg_length in Ht. rewrite repeat_length in Hs, Ht. rewrite VR by assumption. reflexivity.
Qed.

Lemma local_overlap_product S (O : lapack R) (a b : fmps R) i k d L :
  setio_ok S -> lapack_ok O -> wf a -> wf b -> uniform a -> uniform b -> pos (fdata a) -> pos (fdata b) ->
  fd a = d -> fd b = d -> (1 < d)%nat -> fL a = L -> fL b = L ->
  flags_set b -> flags_true b -> (0 < k)%nat -> (i + k <= L)%nat -> bond_dimension a = 1%nat ->
  match mps_local_overlap S O a b (seq i k) with
  | Err e => e = LinAlgError \/ e = Exception_
  | Ok (v, a', b') => a' = a /\ meas_post b b' i k /\
      v * sumcfg (repeat d L) (fun s => psi b s * sconj (psi b s)) * outside_norm (fdata a) i k
      = sre (sumcfg (repeat d k) (fun s => sumcfg (repeat d k) (fun t =>
          reduced (repeat d i) (repeat d (L - i - k)) (psi a) s t * reduced (repeat d i) (repeat d (L - i - k)) (psi b) t s)))
  end.
Proof.
  intros HS HO Wa Wb Ua Ub Pa Pb Da Db Hd La Lb Fb Tb Hk Hi Ba.
  pose proof (product_overlap S O a b i k d L HS HO Wa Wb Ua Ub Pa Pb Da Db Hd La Lb Fb Tb Hk Hi Ba) as H.
  unfold mps_local_overlap. rewrite Ba, Nat.eqb_refl. destruct (mps_rho_list S a (seq i k)) as [r|e]; cbn [bind] in *; [|exact H].
  destruct (mps_Ek_string S O b r (seq i k)) as [[v b']|e]; cbn [bind fst snd]; [|exact H]. split; [reflexivity|exact H].
Qed.

Lemma local_overlap_product' S (O : lapack R) (a b : fmps R) i k d L :
  setio_ok S -> lapack_ok O -> wf a -> wf b -> uniform a -> uniform b -> pos (fdata a) -> pos (fdata b) ->
  fd a = d -> fd b = d -> (1 < d)%nat -> fL a = L -> fL b = L ->
  flags_set a -> flags_true a -> (0 < k)%nat -> (i + k <= L)%nat -> bond_dimension a <> 1%nat -> bond_dimension b = 1%nat ->
  match mps_local_overlap S O a b (seq i k) with
  | Err e => e = LinAlgError \/ e = Exception_
  | Ok (v, a', b') => meas_post a a' i k /\ b' = b /\
      v * sumcfg (repeat d L) (fun s => psi a s * sconj (psi a s)) * outside_norm (fdata b) i k
      = sre (sumcfg (repeat d k) (fun s => sumcfg (repeat d k) (fun t =>
          reduced (repeat d i) (repeat d (L - i - k)) (psi a) s t * reduced (repeat d i) (repeat d (L - i - k)) (psi b) t s)))
  end.
Proof.
  intros HS HO Wa Wb Ua Ub Pa Pb Da Db Hd La Lb Fa Ta Hk Hi Ba Bb.
  pose proof (product_overlap S O b a i k d L HS HO Wb Wa Ub Ua Pb Pa Db Da Hd Lb La Fa Ta Hk Hi Bb) as H.
  unfold mps_local_overlap. destruct (Nat.eqb_spec (bond_dimension a) 1); [contradiction|]. rewrite Bb, Nat.eqb_refl.
  destruct (mps_rho_list S b (seq i k)) as [r|e]; cbn [bind] in *; [|exact H].
  destruct (mps_Ek_string S O a r (seq i k)) as [[v a']|e]; cbn [bind fst snd]; [|exact H].
  destruct H as [H1 H2]. split; [exact H1|]. split; [reflexivity|]. rewrite H2. f_equal. rewrite sumcfg_swap.
  apply sumcfg_ext; intros s _. apply sumcfg_ext; intros t _. ring.
Qed.
End Product.
