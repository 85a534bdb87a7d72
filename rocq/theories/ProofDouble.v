(** Proofs for C95: E and Es of a thermofield double. *)
From Verif Require Import Alg ModelMPS SpecMPS ModelNcon ModelNp ModelTensor ModelSpin ModelOrth SpecOrth ProofOrth ModelCanon SpecCanon ProofMeas ProofCanon ProofCanon3 ModelTFD SpecTFD ProofTFD ModelLie ModelTan ModelTdvp SpecTdvp ModelEk SpecEk SpecEnergy ModelDouble SpecDouble.

Section P.
Context {R : sring}.
Add Ring Rr : (s_th R).
Local Open Scope sr_scope.

Lemma dm p u v : (v < p)%nat -> ((u * p + v) / p = u /\ (u * p + v) mod p = v)%nat.
Proof. intros Hv. rewrite Nat.div_add_l, Nat.div_small by lia. rewrite (Nat.add_comm (u * p)), Nat.mod_add, Nat.mod_small by lia. lia. Qed.

(** The operator the code builds. *)
Lemma tfd_op_entry p lr (op : mat R) : mr op = p -> mc op = p -> mr (tfd_op lr op) = (p * p)%nat /\ mc (tfd_op lr op) = (p * p)%nat /\
  forall s t, me (tfd_op lr op) s t = half_op p lr (me op) s t.
Proof.
  intros E1 E2. unfold tfd_op, half_op. destruct (Nat.eqb lr 0); cbn [kron eye mr mc me]; rewrite E1, E2; repeat split; reflexivity.
Qed.
Lemma half_op_T p lr (o : nat -> nat -> R) s t : half_op p lr o t s = half_op p lr (fun a b => o b a) s t.
Proof.
  unfold half_op. destruct (Nat.eqb lr 0); unfold dlt.
  - rewrite (Nat.eqb_sym (t mod p)). reflexivity.
  - rewrite (Nat.eqb_sym (t / p)). reflexivity.
Qed.

Lemma local_value (l : list (site R)) k A op v : closed l -> mixed_at k l -> nth_error l k = Some A -> tfd_local A op = Ok v ->
  v = expect1 (dims l) (fun s => amp l s 0 0) k (fun s t => me op t s).
Proof.
  intros Hc Hm HA E. unfold tfd_local in E. destruct (_ && _); [|discriminate]. injection E as <-.
  rewrite (centre_value l k A _ Hc Hm HA). rewrite sum_swap. apply sum_ext; intros s _.
  rewrite (sum_ext (dr A) _ (fun j => sum (phys A) (fun a => sum (dl A) (fun i => me op a s * (sconj (ent A s i j) * ent A a i j))))).
  2:{ intros j _. rewrite sum_swap. apply sum_ext; intros i _. rewrite <- sum_mul_l. apply sum_ext; intros a _. ring. }
  rewrite sum_swap. apply sum_ext; intros a _. rewrite sum_swap, <- sum_mul_l. apply sum_ext; intros i _. rewrite <- sum_mul_l. apply sum_ext; intros j _. reflexivity.
Qed.

Definition half_size (m : fmps R) (k p : nat) : Prop := nth k (dims (fdata m)) 0%nat = (p * p)%nat.

Lemma expect1_op_ext ds (f : list nat -> R) k o o' : (forall s t, o s t = o' s t) -> expect1 ds f k o = expect1 ds f k o'.
Proof. intros H. unfold expect1. apply sumcfg_ext; intros s _. apply sum_ext; intros t _. now rewrite H. Qed.

Lemma Es_double (O : lapack2 R) (m : fmps R) ops k lr p :
  svd_ok O -> wf m -> uniform m -> pos (fdata m) -> (0 < fd m)%nat -> (k < fL m)%nat -> half_size m k p ->
  Forall (fun op => mr op = p /\ mc op = p) ops ->
  match tfd_Es O m ops k lr with
  | Err e => e = LinAlgError
  | Ok (vs, m') => wf m' /\ dims (fdata m') = dims (fdata m) /\
      (exists c, forall s, incfg (dims (fdata m)) s -> psi m s = c * psi m' s) /\ length vs = length ops /\
      forall n op, nth_error ops n = Some op -> exists v, nth_error vs n = Some v /\
        v * sumcfg (dims (fdata m)) (fun s => psi m s * sconj (psi m s)) = expect1 (dims (fdata m)) (psi m) k (half_op p lr (fun a b => me op b a))
  end.
Proof.
  intros HO Hwf Hu Hp H0 Hk Hh Hops. unfold tfd_Es.
  pose proof (mixed_can_ok O m k true HO Hwf Hu Hp H0 Hk) as HM.
  destruct (mixed_canonicalise O m k None true) as [m'|e]; [|exact HM]. cbn [bind].
  destruct HM as (M1 & M2 & M3 & M4 & _ & _ & _ & _ & M5 & M6 & c & M7). pose proof M1 as (Mc & ML & Mne).
  destruct (nth_error (fdata m') k) as [A|] eqn:EA; [|apply nth_error_None in EA; lia].
  unfold getitem. rewrite EA. cbn [bind].
  assert (HphA : phys A = (p * p)%nat).
  { rewrite <- Hh, <- M2. symmetry. apply nth_error_nth. unfold dims. apply map_nth_error. exact EA. }
  rewrite (mapM_ok (tfd_local A) (fun op => expect1 (dims (fdata m')) (psi m') k (fun s t => me op t s))).
  - cbn [bind]. split; [exact M1|]. split; [exact M2|]. split; [exists c; exact M7|].
    split; [now rewrite !map_length|]. intros n op Hn. eexists. split; [apply map_nth_error, map_nth_error, Hn|].
    rewrite Forall_forall in Hops. destruct (Hops op (nth_error_In _ _ Hn)) as [E1 E2]. destruct (tfd_op_entry p lr op E1 E2) as (_ & _ & V).
    rewrite (expect1_op_ext _ _ _ _ (half_op p lr (fun a b => me op b a))) by (intros s t; rewrite V; apply half_op_T).
    rewrite M2, (norm_scale _ _ _ c M7), M6.
    rewrite (expect1_scale _ _ _ c k _ M7) by (rewrite dims_length; destruct Hwf as (_ & ? & _); lia). ring.
  - intros op' Hop. apply in_map_iff in Hop as (op & <- & Hop). rewrite Forall_forall in Hops. destruct (Hops op Hop) as [E1 E2].
    destruct (tfd_op_entry p lr op E1 E2) as (F1 & F2 & _).
    destruct (tfd_local A (tfd_op lr op)) as [v|e] eqn:EE.
    + f_equal. apply (local_value (fdata m') k A _ v Mc M5 EA EE).
    + unfold tfd_local in EE. rewrite F1, F2, HphA, Nat.eqb_refl in EE. discriminate.
Qed.

Lemma E_double (O : lapack2 R) (m : fmps R) op k lr p :
  svd_ok O -> wf m -> uniform m -> pos (fdata m) -> (0 < fd m)%nat -> (k < fL m)%nat -> half_size m k p -> mr op = p -> mc op = p ->
  match tfd_E O m op k lr with
  | Err e => e = LinAlgError
  | Ok (v, m') => wf m' /\ dims (fdata m') = dims (fdata m) /\
      (exists c, forall s, incfg (dims (fdata m)) s -> psi m s = c * psi m' s) /\
      v * sumcfg (dims (fdata m)) (fun s => psi m s * sconj (psi m s)) = sre (expect1 (dims (fdata m)) (psi m) k (half_op p lr (fun a b => me op b a)))
  end.
Proof.
  intros HO Hwf Hu Hp H0 Hk Hh E1 E2.
  pose proof (Es_double O m [op] k lr p HO Hwf Hu Hp H0 Hk Hh ltac:(repeat constructor; assumption)) as G. unfold tfd_Es in G. unfold tfd_E.
  destruct (mixed_canonicalise O m k None true) as [m'|e]; [|exact G]. cbn [bind] in *.
  destruct (getitem (fdata m') k) as [M|e]; [|exact G]. cbn [bind map mapM] in *.
  destruct (tfd_local M (tfd_op lr op)) as [v|e]; [|exact G]. cbn [bind] in *.
  destruct G as (G1 & G2 & G3 & _ & G4). split; [exact G1|]. split; [exact G2|]. split; [exact G3|].
  destruct (G4 0%nat op eq_refl) as (w & Ew & Hw). injection Ew as <-. rewrite <- Hw.
  set (N := sumcfg _ _). replace (v * N) with (N * v) by ring. rewrite re_mul. { ring. } unfold N.
  rewrite sumcfg_conj. apply sumcfg_ext; intros s _. rewrite conj_mul, conj_conj. ring.
Qed.

(** Sums over doubled configurations. *)
Lemma sumcfg_double ds : forall (F : list nat -> R),
  sumcfg (map (fun d => d * d)%nat ds) F = sumcfg ds (fun s => sumcfg ds (fun t => F (pair_cfg ds s t))).
Proof.
  induction ds as [|d ds IH]; intros F; [reflexivity|]. cbn [map sumcfg].
  rewrite (sum_ext (d * d) _ (fun x => (fun u v => sumcfg ds (fun s => sumcfg ds (fun t => F ((u * d + v)%nat :: pair_cfg ds s t)))) (x / d)%nat (x mod d)%nat)).
  - rewrite (sum_pairs d (fun u v => sumcfg ds (fun s => sumcfg ds (fun t => F ((u * d + v)%nat :: pair_cfg ds s t))))).
    apply sum_ext; intros u _. rewrite <- sumcfg_sum. apply sumcfg_ext; intros s _. apply sum_ext; intros v _. reflexivity.
  - intros x Hx. cbn beta. rewrite IH. apply sumcfg_ext; intros s _. apply sumcfg_ext; intros t _. f_equal. f_equal.
    destruct (split_square d x Hx) as (u & v & Hu & Hv & ->). destruct (dm d u v Hv) as [-> ->]. reflexivity.
Qed.

Lemma nth_pair ds : forall s t k, incfg ds s -> incfg ds t -> (k < length ds)%nat ->
  nth k (pair_cfg ds s t) 0%nat = (nth k s 0 * nth k ds 0 + nth k t 0)%nat.
Proof.
  induction ds as [|d ds IH]; intros s t k Hs Ht Hk; [cbn in Hk; lia|]. inversion Hs as [|x ? s' ? Hx Hs']; subst. inversion Ht as [|y ? t' ? Hy Ht']; subst.
  destruct k as [|k]; [reflexivity|]. cbn in Hk. exact (IH s' t' k Hs' Ht' ltac:(lia)).
Qed.
Lemma upd_pair ds : forall s t k u v, incfg ds s -> incfg ds t -> (k < length ds)%nat ->
  upd (pair_cfg ds s t) k (u * nth k ds 0 + v)%nat = pair_cfg ds (upd s k u) (upd t k v).
Proof.
  induction ds as [|d ds IH]; intros s t k u v Hs Ht Hk; [cbn in Hk; lia|]. inversion Hs as [|x ? s' ? Hx Hs']; subst. inversion Ht as [|y ? t' ? Hy Ht']; subst.
  destruct k as [|k]; [reflexivity|]. cbn in Hk. cbn [nth]. unfold pair_cfg. cbn [combine map upd]. f_equal. exact (IH s' t' k u v Hs' Ht' ltac:(lia)).
Qed.
Lemma nth_incfg ds : forall s k, incfg ds s -> (k < length ds)%nat -> (nth k s 0 < nth k ds 0)%nat.
Proof.
  induction ds as [|d ds IH]; intros s k Hs Hk; [cbn in Hk; lia|]. inversion Hs as [|x ? s' ? Hx Hs']; subst. destruct k; [exact Hx|]. cbn in *. apply IH; [exact Hs'|lia].
Qed.
Lemma upd_self s : forall k, upd s k (nth k s 0%nat) = s.
Proof. induction s as [|x s IH]; intros [|k]; cbn; try reflexivity. f_equal. apply IH. Qed.
Lemma upd_in ds : forall s k t, incfg ds s -> (t < nth k ds 0)%nat -> incfg ds (upd s k t).
Proof.
  induction ds as [|d ds IH]; intros s k t Hs Hk; [destruct k; cbn in Hk; lia|]. inversion Hs as [|x ? s' ? Hx Hs']; subst. destruct k; cbn in *; constructor; try assumption. now apply IH.
Qed.

Lemma expect1_double ds (f g : list nat -> R) k lr o : (k < length ds)%nat ->
  (forall s t, incfg ds s -> incfg ds t -> g (pair_cfg ds s t) = f s * f t) ->
  expect1 (map (fun d => d * d)%nat ds) g k (half_op (nth k ds 0%nat) lr o)
  = expect1 ds f k o * sumcfg ds (fun s => f s * sconj (f s)).
Proof.
  intros Hk Hg. unfold expect1. rewrite sumcfg_double. set (p := nth k ds 0%nat).
  assert (En : nth k (map (fun d => d * d)%nat ds) 0%nat = (p * p)%nat) by (rewrite (map_nth (fun d => d * d)%nat ds 0%nat k : nth k (map (fun d => d * d)%nat ds) 0%nat = _); reflexivity).
  rewrite En.
  transitivity (sumcfg ds (fun s => sumcfg ds (fun t => sum p (fun u => sum p (fun v =>
     sconj (f s * f t) * half_op p lr o (nth k s 0 * p + nth k t 0)%nat (u * p + v)%nat * (f (upd s k u) * f (upd t k v))))))).
  - apply sumcfg_ext; intros s Hs. apply sumcfg_ext; intros t Ht. rewrite Hg by assumption. rewrite nth_pair by assumption. fold p.
    rewrite <- sum_pairs. apply sum_ext; intros x Hx. destruct (split_square p x Hx) as (u & v & Hu & Hv & ->). destruct (dm p u v Hv) as [-> ->].
    f_equal. unfold p. rewrite upd_pair by assumption. apply Hg; apply upd_in; assumption.
  - unfold half_op. destruct (Nat.eqb lr 0).
    + transitivity (sumcfg ds (fun s => sumcfg ds (fun t => (sum p (fun u => sconj (f s) * o (nth k s 0%nat) u * f (upd s k u))) * (f t * sconj (f t))))).
      * apply sumcfg_ext; intros s Hs. apply sumcfg_ext; intros t Ht. rewrite <- sum_mul_r. apply sum_ext; intros u Hu.
        pose proof (nth_incfg ds t k Ht Hk) as Hkt. fold p in Hkt. destruct (dm p (nth k s 0%nat) (nth k t 0%nat) Hkt) as [-> ->].
        rewrite (sum_single p (nth k t 0%nat)); [|exact Hkt|].
        -- destruct (dm p u (nth k t 0%nat) Hkt) as [-> ->]. rewrite dlt_eq, upd_self, conj_mul. ring.
        -- intros v Hv Hne. destruct (dm p u v Hv) as [-> ->]. rewrite dlt_neq by congruence. ring.
      * rewrite <- sumcfg_mul_r. apply sumcfg_ext; intros s Hs. rewrite sumcfg_mul_l. reflexivity.
    + transitivity (sumcfg ds (fun s => sumcfg ds (fun t => (f s * sconj (f s)) * sum p (fun v => sconj (f t) * o (nth k t 0%nat) v * f (upd t k v))))).
      * apply sumcfg_ext; intros s Hs. apply sumcfg_ext; intros t Ht. rewrite sum_swap, <- sum_mul_l. apply sum_ext; intros v Hv.
        pose proof (nth_incfg ds t k Ht Hk) as Hkt. fold p in Hkt. destruct (dm p (nth k s 0%nat) (nth k t 0%nat) Hkt) as [-> ->].
        pose proof (nth_incfg ds s k Hs Hk) as Hks. fold p in Hks.
        rewrite (sum_single p (nth k s 0%nat)); [|exact Hks|].
        -- destruct (dm p (nth k s 0%nat) v Hv) as [-> ->]. rewrite dlt_eq, upd_self, conj_mul. ring.
        -- intros u Hu Hne. destruct (dm p u v Hv) as [-> ->]. rewrite dlt_neq by congruence. ring.
      * rewrite sumcfg_swap. rewrite <- sumcfg_mul_r. apply sumcfg_ext; intros t Ht. rewrite sumcfg_mul_r. ring.
Qed.

Lemma norm_double ds (f g : list nat -> R) : (forall s t, incfg ds s -> incfg ds t -> g (pair_cfg ds s t) = f s * f t) ->
  sumcfg (map (fun d => d * d)%nat ds) (fun s => g s * sconj (g s)) = sumcfg ds (fun s => f s * sconj (f s)) * sumcfg ds (fun s => f s * sconj (f s)).
Proof.
  intros Hg. rewrite sumcfg_double. rewrite <- sumcfg_mul_r. apply sumcfg_ext; intros s Hs. rewrite <- sumcfg_mul_l. apply sumcfg_ext; intros t Ht.
  rewrite Hg by assumption. rewrite conj_mul. ring.
Qed.

(** The double of an MPS. *)
Lemma double_Es (O : lapack2 R) (self m : fmps R) ops k lr :
  svd_ok O -> wf m -> uniform m -> pos (fdata m) -> (0 < fd m)%nat -> (k < fL m)%nat ->
  Forall (fun op => mr op = fd m /\ mc op = fd m) ops ->
  let n2 := sumcfg (dims (fdata m)) (fun s => psi m s * sconj (psi m s)) in
  match tfd_Es O (tfd_from_fMPS self m) ops k lr with
  | Err e => e = LinAlgError
  | Ok (vs, _) => length vs = length ops /\ forall n op, nth_error ops n = Some op -> exists v, nth_error vs n = Some v /\
        v * (n2 * n2) = expect1 (dims (fdata m)) (psi m) k (fun a b => me op b a) * n2
  end.
Proof.
  intros HO Hwf Hu Hp H0 Hk Hops n2. destruct (double_state self m Hwf) as (Dw & Dd & Da).
  assert (Hd : nth k (dims (fdata m)) 0%nat = fd m).
  { destruct Hwf as (_ & HL & _). destruct (nth_error (fdata m) k) as [A|] eqn:EA; [|apply nth_error_None in EA; lia].
    unfold uniform in Hu. rewrite Forall_forall in Hu. rewrite <- (Hu A (nth_error_In _ _ EA)). apply nth_error_nth. unfold dims. now apply map_nth_error. }
  assert (Hpos : pos (fdata (tfd_from_fMPS self m))).
  { cbn [tfd_from_fMPS fdata]. unfold pos in *. rewrite Forall_forall in *. intros X HX. apply in_map_iff in HX as (A & <- & HA). cbn. destruct (Hp A HA) as (? & ? & ?). nia. }
  assert (Hh : half_size (tfd_from_fMPS self m) k (fd m)).
  { unfold half_size. rewrite Dd. rewrite <- Hd. apply (map_nth (fun d => d * d)%nat _ 0%nat k). }
  assert (Hk' : (k < length (dims (fdata m)))%nat) by (rewrite dims_length; destruct Hwf as (_ & ? & _); lia).
  pose proof (Es_double O (tfd_from_fMPS self m) ops k lr (fd m) HO Dw (double_uniform self m Hu) Hpos ltac:(cbn; nia) Hk Hh Hops) as G.
  destruct (tfd_Es _ _ _ _ _) as [[vs m']|e]; [|exact G]. destruct G as (_ & _ & _ & G1 & G2). split; [exact G1|].
  intros n op Hn. destruct (G2 n op Hn) as (v & Ev & Hv). exists v. split; [exact Ev|]. unfold n2. rewrite <- (norm_double _ (psi m) (psi (tfd_from_fMPS self m)) Da).
  rewrite <- Dd, Hv, Dd. rewrite <- Hd. apply (expect1_double _ (psi m)); assumption.
Qed.

(** Exchange of the halves. *)
Lemma sumcfg_exch ds : Forall is_square ds -> forall (F : list nat -> R), sumcfg ds (fun s => F (exch_cfg ds s)) = sumcfg ds F.
Proof.
  induction 1 as [|d ds Hd Hds IH]; intros F; [reflexivity|]. cbn [sumcfg]. unfold exch_cfg. cbn [combine map fst snd].
  rewrite <- (sum_exch d (fun x => sumcfg ds (fun c => F (x :: c))) Hd). apply sum_ext; intros x Hx.
  exact (IH (fun c => F (exch d x :: c))).
Qed.
Lemma nth_exch ds : forall s k, incfg ds s -> (k < length ds)%nat -> nth k (exch_cfg ds s) 0%nat = exch (nth k ds 0%nat) (nth k s 0%nat).
Proof.
  induction ds as [|d ds IH]; intros s k Hs Hk; [cbn in Hk; lia|]. inversion Hs as [|x ? s' ? Hx Hs']; subst.
  destruct k as [|k]; [reflexivity|]. cbn in Hk. exact (IH s' k Hs' ltac:(lia)).
Qed.
Lemma upd_exch ds : forall s k t, incfg ds s -> (k < length ds)%nat -> upd (exch_cfg ds s) k (exch (nth k ds 0%nat) t) = exch_cfg ds (upd s k t).
Proof.
  induction ds as [|d ds IH]; intros s k t Hs Hk; [cbn in Hk; lia|]. inversion Hs as [|x ? s' ? Hx Hs']; subst.
  destruct k as [|k]; [reflexivity|]. cbn in Hk. cbn [nth]. unfold exch_cfg. cbn [combine map upd fst snd]. f_equal. exact (IH s' k t Hs' ltac:(lia)).
Qed.
Lemma half_op_exch p o s t : (s < p * p)%nat -> (t < p * p)%nat -> half_op p 0 o (exch (p * p) s) (exch (p * p) t) = half_op p 1 o s t :> R.
Proof.
  intros Hs Ht. destruct (split_square p s Hs) as (s1 & s2 & H1 & H2 & ->). destruct (split_square p t Ht) as (t1 & t2 & H3 & H4 & ->).
  rewrite !exch_pair by assumption. unfold half_op. cbn [Nat.eqb].
  destruct (dm p s1 s2 H2) as [-> ->]. destruct (dm p s2 s1 H1) as [-> ->]. destruct (dm p t1 t2 H4) as [-> ->]. destruct (dm p t2 t1 H3) as [-> ->]. ring.
Qed.
Lemma expect1_exch ds (f : list nat -> R) k p o : Forall is_square ds -> (k < length ds)%nat -> nth k ds 0%nat = (p * p)%nat -> exch_invariant ds f ->
  expect1 ds f k (half_op p 0 o) = expect1 ds f k (half_op p 1 o).
Proof.
  intros Hsq Hk Hp Hf. unfold expect1. rewrite <- (sumcfg_exch ds Hsq). apply sumcfg_ext; intros s Hs.
  assert (Hd : is_square (nth k ds 0%nat)) by (rewrite Hp; now exists p).
  rewrite <- (sum_exch _ _ Hd). apply sum_ext; intros t Ht. pose proof (nth_incfg ds s k Hs Hk) as Hks.
  rewrite (Hf s Hs), nth_exch, upd_exch by assumption. rewrite (Hf _ (upd_in _ _ _ _ Hs Ht)). rewrite Hp in *. now rewrite half_op_exch.
Qed.
End P.
