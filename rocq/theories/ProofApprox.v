(** Averages of local overlaps (fMPS.py:745-753). *)
From Verif Require Import Alg ModelMPS SpecMPS ProofMPS ProofMPS2 ModelOrth SpecOrth ModelCanon SpecCanon ModelNcon SpecNcon ModelEk SpecEk
  ProofEk3 ProofEk4 ProofEk5 ProofEk6 ModelApprox SpecApprox.

Section Proof.
Context {R : sring}.
Local Open Scope sr_scope.
Add Ring Rr : (s_th R).

Lemma prodl_one_off (l : list R) : forall c, (forall n x, nth_error l n = Some x -> n <> c -> x = 1) ->
  prodl l = match nth_error l c with Some x => x | None => 1 end.
Proof.
  induction l as [|x l IH]; intros c H; [destruct c; reflexivity|]. cbn [prodl]. destruct c as [|c]; cbn [nth_error].
  - rewrite (IH (length l)). 2: { intros n y Hn _. exact (H (Datatypes.S n) y Hn ltac:(lia)). }
    assert (E : nth_error l (length l) = None) by (apply nth_error_None; lia). rewrite E. ring.
  - rewrite (H 0%nat x eq_refl ltac:(lia)). rewrite (IH c). 2: { intros n y Hn Hne. exact (H (Datatypes.S n) y Hn ltac:(lia)). } ring.
Qed.

Lemma prodl_ones (l : list R) : Forall (fun x => x = 1) l -> prodl l = 1.
Proof. induction 1 as [|x l Hx _ IH]; cbn; [reflexivity|]. rewrite Hx, IH. ring. Qed.

Lemma flat_of (l : list (site R)) : pos l -> list_max (map (fun A => Nat.max (dl A) (dr A)) l) = 1%nat -> Forall flat l.
Proof.
  intros Hp Hb. assert (HB : (list_max (map (fun A => Nat.max (dl A) (dr A)) l) <= 1)%nat) by lia. apply list_max_le in HB.
  unfold pos in Hp. rewrite Forall_forall in *. intros A HA. destruct (Hp A HA) as (_ & H1 & H2).
  specialize (HB (Nat.max (dl A) (dr A))). assert (In (Nat.max (dl A) (dr A)) (map (fun A => Nat.max (dl A) (dr A)) l)) by (apply in_map_iff; eauto).
  specialize (HB H). unfold flat. lia.
Qed.

Lemma iso_norm_l (A : site R) : flat A -> left_iso A -> site_norm A = 1.
Proof.
  intros [F1 F2] H. unfold left_iso in H. rewrite F1, F2 in H. specialize (H 0%nat 0%nat ltac:(lia) ltac:(lia)). rewrite dlt_eq in H. rewrite <- H.
  unfold site_norm. apply sum_ext; intros x _. cbn [sum]. ring.
Qed.
Lemma iso_norm_r (A : site R) : flat A -> right_iso A -> site_norm A = 1.
Proof.
  intros [F1 F2] H. unfold right_iso in H. rewrite F1, F2 in H. specialize (H 0%nat 0%nat ltac:(lia) ltac:(lia)). rewrite dlt_eq in H. rewrite <- H.
  unfold site_norm. apply sum_ext; intros x _. cbn [sum]. ring.
Qed.

Lemma settled_outside (m : fmps R) i k : settled m -> bond_dimension m = 1%nat -> outside_norm (fdata m) i k = 1.
Proof.
  intros (_ & Hp & _ & _ & (c & _ & Hm) & HN) Hb. assert (HF := flat_of _ Hp Hb).
  assert (G : Forall (fun x => x = 1) (map site_norm (fdata m))).
  { assert (O : forall n x, nth_error (map site_norm (fdata m)) n = Some x -> n <> c -> x = 1).
    { intros n x Hn Hne. rewrite nth_error_map in Hn. destruct (nth_error (fdata m) n) as [A|] eqn:EA; [|discriminate]. injection Hn as <-.
      assert (FA : flat A) by (rewrite Forall_forall in HF; apply HF; eapply nth_error_In; exact EA).
      destruct (Hm n A EA) as [H1 H2]. destruct (Nat.lt_ge_cases n c); [apply iso_norm_l; auto|apply iso_norm_r; [exact FA|]; apply H2; lia]. }
    assert (P := prodl_one_off _ c O). unfold psi in HN. rewrite (flat_norm _ HF) in HN. rewrite HN in P.
    rewrite Forall_forall. intros x Hx. apply In_nth_error in Hx as (n & Hn). destruct (Nat.eq_dec n c) as [->|Hne]; [|eauto].
    rewrite Hn in P. now symmetry. }
  unfold outside_norm.
  assert (T : forall p q : list (site R), fdata m = p ++ q -> Forall (fun x => x = 1) (map site_norm p) /\ Forall (fun x => x = 1) (map site_norm q)).
  { intros p q E. rewrite E, map_app in G. now apply Forall_app in G. }
  destruct (T (firstn i (fdata m)) (skipn i (fdata m))) as [T1 _]; [now rewrite firstn_skipn|].
  destruct (T (firstn (i + k) (fdata m)) (skipn (i + k) (fdata m))) as [_ T2]; [now rewrite firstn_skipn|].
  rewrite (prodl_ones _ T1), (prodl_ones _ T2). ring.
Qed.

Lemma settled_centre (m : fmps R) : settled m -> centre_true m.
Proof. intros (_ & _ & _ & _ & (j & Hj & Hm) & HN) k Hk. rewrite Hj in Hk. injection Hk as <-. auto. Qed.
Lemma settled_flags (m : fmps R) : settled m -> flags_set m /\ flags_true m.
Proof.
  intros (_ & _ & _ & (c & o & Hc & Ho) & (j & Hj & Hm) & HN). split.
  - exists c, o. split; [exact Hc|]. split; [exact Ho|]. eauto.
  - intros c' o' _ _ _ k Hk. rewrite Hj in Hk. injection Hk as <-. auto.
Qed.

Lemma ray_of (m m' : fmps R) : settled m -> fL m' = fL m -> fd m' = fd m -> dims (fdata m') = dims (fdata m) ->
  sumcfg (dims (fdata m)) (fun s => psi m' s * sconj (psi m' s)) = 1 ->
  (exists c, forall s, incfg (dims (fdata m)) s -> psi m s = c * psi m' s) -> same_ray m m'.
Proof.
  intros (_ & _ & _ & _ & _ & HN) H1 H2 H3 HN' (c & Hc). repeat split; auto. exists c. split; [|exact Hc].
  transitivity (sumcfg (dims (fdata m)) (fun s => psi m s * sconj (psi m s))); [|exact HN].
  transitivity (c * sconj c * sumcfg (dims (fdata m)) (fun s => psi m' s * sconj (psi m' s))); [rewrite HN'; ring|].
  rewrite <- sumcfg_mul_l. apply sumcfg_ext. intros s Hs. rewrite Hc by exact Hs. rewrite conj_mul. ring.
Qed.

Lemma meas_settled (m m' : fmps R) i k : settled m -> meas_post m m' i k -> settled m' /\ same_ray m m'.
Proof.
  intros HS (P1 & P2 & P3 & (c & o & Pc & Po & _) & _ & P6 & P7 & (j & _ & Hj & Hmj) & PN & PR). split.
  - split; [exact P1|]. split; [exact P2|]. split; [exact (uniform_dims m m' (proj1 (proj2 (proj2 HS))) P3 P7)|]. split; [eauto|]. split; [eauto|]. now rewrite P3.
  - apply ray_of; auto.
Qed.
Lemma rho_settled (m m' : fmps R) i k : settled m -> (exists c o, fcan m' = Some c /\ forth m' = Some o) -> rho_post m m' i k -> settled m' /\ same_ray m m'.
Proof.
  intros HS HF (P1 & P2 & P3 & _ & P6 & P7 & (j & _ & Hj & Hmj) & PN & PR). split.
  - split; [exact P1|]. split; [exact P2|]. split; [exact (uniform_dims m m' (proj1 (proj2 (proj2 HS))) P3 P7)|]. split; [exact HF|]. split; [eauto|]. now rewrite P3.
  - apply ray_of; auto.
Qed.

Lemma rho_flags S (O : lapack R) (m m' : fmps R) sites r : mps_rho S O m sites = Ok (r, m') ->
  (exists c o, fcan m = Some c /\ forth m = Some o) -> exists c o, fcan m' = Some c /\ forth m' = Some o.
Proof.
  intros H (c & o & Hc & Ho). unfold mps_rho in H.
  destruct (match foc m with None => true | Some c => negb (existsb (Nat.eqb c) sites) end).
  - destruct (getitem sites 0) as [s|]; [|discriminate]. cbn [bind] in H. destruct (mixed_orthogonalise O m s) as [m1|] eqn:E; [|discriminate]. cbn [bind] in H.
    destruct (mapM _ sites); [|discriminate]. cbn [bind] in H. destruct (ncon _ _ _ _ _ _); [|discriminate]. cbn [bind] in H.
    destruct (reshape_rows _ _); [|discriminate]. cbn [bind] in H. injection H as _ <-.
    unfold mixed_orthogonalise, right_orthogonalise, left_orthogonalise in E.
    destruct (right_orth_loop _ _ _ _) as [x|]; [|discriminate]. cbn [bind] in E. destruct (left_orth_loop _ _ _ _ _) as [y|]; [|discriminate]. cbn [bind] in E.
    destruct (getitem _ s); [|discriminate]. cbn [bind] in E. destruct (la_nrm O _) as [[n ni]|]; [|discriminate].
    destruct (setitem _ _ _); [|discriminate]. cbn [bind] in E. injection E as <-. cbn [fcan forth]. exists c, true. auto.
  - cbn [bind] in H. destruct (mapM _ sites); [|discriminate]. cbn [bind] in H. destruct (ncon _ _ _ _ _ _); [|discriminate]. cbn [bind] in H.
    destruct (reshape_rows _ _); [|discriminate]. cbn [bind] in H. injection H as _ <-. eauto.
Qed.

Lemma ray_refl (m : fmps R) : same_ray m m.
Proof. repeat split; auto. exists 1. split; [rewrite conj_1; ring|]. intros; ring. Qed.
Lemma ray_trans (a b c : fmps R) : same_ray a b -> same_ray b c -> same_ray a c.
Proof.
  intros (A1 & A2 & A3 & x & Ax & Hx) (B1 & B2 & B3 & y & By & Hy). repeat split; try congruence. exists (x * y). split.
  - rewrite conj_mul. transitivity ((x * sconj x) * (y * sconj y)); [ring|]. rewrite Ax, By. ring.
  - intros s Hs. rewrite Hx by exact Hs. rewrite Hy by (rewrite A3; exact Hs). ring.
Qed.

Lemma settled_dims (m : fmps R) d L : settled m -> fd m = d -> fL m = L -> dims (fdata m) = repeat d L.
Proof. intros ((_ & HL & _) & _ & Hu & _) <- <-. rewrite HL. now apply dims_repeat. Qed.

Lemma ray_reduced (a b : fmps R) d L i k s t : dims (fdata a) = repeat d L -> (i + k <= L)%nat -> same_ray a b ->
  incfg (repeat d k) s -> incfg (repeat d k) t ->
  reduced (repeat d i) (repeat d (L - i - k)) (psi a) s t = reduced (repeat d i) (repeat d (L - i - k)) (psi b) s t.
Proof.
  intros Hd Hik (_ & _ & _ & c & Hc & He) Hs Ht. unfold reduced. apply sumcfg_ext; intros u Hu. apply sumcfg_ext; intros v Hv.
  assert (Er : repeat d L = repeat d i ++ repeat d k ++ repeat d (L - i - k)) by (rewrite <- !repeat_app; f_equal; lia).
  rewrite Hd, Er in He. rewrite !He by (repeat apply incfg_app; assumption). rewrite conj_mul.
  transitivity ((c * sconj c) * (psi b (u ++ s ++ v) * sconj (psi b (u ++ t ++ v)))); [ring|]. rewrite Hc. ring.
Qed.

Lemma ray_window (a a' b b' : fmps R) d L i k : dims (fdata a) = repeat d L -> dims (fdata b) = repeat d L -> (i + k <= L)%nat -> same_ray a a' -> same_ray b b' ->
  window_overlap d L (psi a) (psi b) i k = window_overlap d L (psi a') (psi b') i k.
Proof.
  intros Ha Hb Hik Ra Rb. unfold window_overlap. f_equal. apply sumcfg_ext; intros s Hs. apply sumcfg_ext; intros t Ht.
  rewrite (ray_reduced a a' d L i k s t), (ray_reduced b b' d L i k t s) by assumption. reflexivity.
Qed.

Section Run.
Context (S : setio) (O : lapack R) (HS : setio_ok S) (HO : lapack_ok O) (d L : nat) (Hd : (1 < d)%nat).

Lemma local_step (a b : fmps R) i k : settled a -> settled b -> fd a = d -> fd b = d -> fL a = L -> fL b = L -> (0 < k)%nat -> (i + k <= L)%nat ->
  match mps_local_overlap S O a b (seq i k) with
  | Err e => e = LinAlgError \/ e = Exception_
  | Ok (v, a', b') => v = window_overlap d L (psi a) (psi b) i k /\ settled a' /\ settled b' /\ same_ray a a' /\ same_ray b b'
  end.
Proof.
  intros Sa Sb Da Db La Lb Hk Hi. destruct (settled_flags a Sa) as [Fa Ta]. destruct (settled_flags b Sb) as [Fb Tb].
  assert (Ca := settled_centre a Sa). assert (Cb := settled_centre b Sb).
  assert (Na := proj2 (proj2 (proj2 (proj2 (proj2 Sa))))). assert (Nb := proj2 (proj2 (proj2 (proj2 (proj2 Sb))))).
  rewrite (settled_dims a d L Sa Da La) in Na. rewrite (settled_dims b d L Sb Db Lb) in Nb.
  assert (Sa' := Sa). assert (Sb' := Sb). destruct Sa' as (Wa & Pa & Ua & _), Sb' as (Wb & Pb & Ub & HFb & _).
  destruct (Nat.eq_dec (bond_dimension a) 1) as [Ba|Ba]; [|destruct (Nat.eq_dec (bond_dimension b) 1) as [Bb|Bb]].
  - pose proof (local_overlap_product S O a b i k d L HS HO Wa Wb Ua Ub Pa Pb Da Db Hd La Lb Fb Tb Hk Hi Ba) as H.
    destruct (mps_local_overlap S O a b (seq i k)) as [[[v a'] b']|e]; [|exact H]. destruct H as (-> & HM & HV).
    rewrite Nb, (settled_outside a i k Sa Ba) in HV. destruct (meas_settled b b' i k Sb HM) as [Q1 Q2].
    split; [unfold window_overlap; rewrite <- HV; ring|]. split; [exact Sa|]. split; [exact Q1|]. split; [apply ray_refl|exact Q2].
  - pose proof (local_overlap_product' S O a b i k d L HS HO Wa Wb Ua Ub Pa Pb Da Db Hd La Lb Fa Ta Hk Hi Ba Bb) as H.
    destruct (mps_local_overlap S O a b (seq i k)) as [[[v a'] b']|e]; [|exact H]. destruct H as (HM & -> & HV).
    rewrite Na, (settled_outside b i k Sb Bb) in HV. destruct (meas_settled a a' i k Sa HM) as [Q1 Q2].
    split; [unfold window_overlap; rewrite <- HV; ring|]. split; [exact Q1|]. split; [exact Sb|]. split; [exact Q2|apply ray_refl].
  - pose proof (local_overlap_ok S O a b i k d L HS HO Wa Wb Ua Ub Pa Pb Da Db ltac:(lia) La Lb Fa Ta Cb Hk Hi Ba Bb) as H.
    destruct (mps_local_overlap S O a b (seq i k)) as [[[v a'] b']|e] eqn:E; [|exact H]. destruct H as (HM & HR & HV).
    rewrite Na, Nb in HV. destruct (meas_settled a a' i k Sa HM) as [Q1 Q2].
    assert (FF : exists c o, fcan b' = Some c /\ forth b' = Some o).
    { unfold mps_local_overlap in E. apply Nat.eqb_neq in Ba, Bb. rewrite Ba, Bb in E. destruct (mps_rho S O b (seq i k)) as [[r b1]|] eqn:ER; [|discriminate]. cbn [bind fst snd] in E.
      destruct (mps_Ek S O a r (seq i k)) as [va|]; [|discriminate]. cbn [bind] in E. injection E as _ _ <-. eapply rho_flags; eassumption. }
    destruct (rho_settled b b' i k Sb FF HR) as [Q3 Q4].
    split; [unfold window_overlap; rewrite <- HV; ring|]. auto.
Qed.

Lemma overlaps_run k : (0 < k)%nat -> forall is_ (a b : fmps R), settled a -> settled b -> fd a = d -> fd b = d -> fL a = L -> fL b = L ->
  (forall i, In i is_ -> (i + k <= L)%nat) ->
  match local_overlaps S O a b (map (fun i => seq i k) is_) with
  | Err e => e = LinAlgError \/ e = Exception_
  | Ok (vs, a', b') => vs = map (fun i => window_overlap d L (psi a) (psi b) i k) is_ /\ settled a' /\ settled b' /\ same_ray a a' /\ same_ray b b'
  end.
Proof.
  intros Hk. induction is_ as [|i is_ IH]; intros a b Sa Sb Da Db La Lb Hi.
  - cbn [map local_overlaps]. split; [reflexivity|]. split; [exact Sa|]. split; [exact Sb|]. split; apply ray_refl.
  - cbn [map local_overlaps]. pose proof (local_step a b i k Sa Sb Da Db La Lb Hk (Hi i (or_introl eq_refl))) as H1.
    destruct (mps_local_overlap S O a b (seq i k)) as [[[v a1] b1]|e]; cbn [bind]; [|exact H1].
    destruct H1 as (Hv & Sa1 & Sb1 & Ra & Rb). assert (Ra' := Ra). assert (Rb' := Rb). destruct Ra' as (A1 & A2 & A3 & _), Rb' as (B1 & B2 & B3 & _).
    pose proof (IH a1 b1 Sa1 Sb1 ltac:(congruence) ltac:(congruence) ltac:(congruence) ltac:(congruence) (fun i H => Hi i (or_intror H))) as H2.
    destruct (local_overlaps S O a1 b1 (map (fun i => seq i k) is_)) as [[[vs a2] b2]|e]; cbn [bind]; [|exact H2].
    destruct H2 as (Hvs & Sa2 & Sb2 & Ra2 & Rb2). split.
    + rewrite Hv, Hvs. f_equal. apply map_ext_in. intros j Hj. symmetry. apply ray_window; auto using settled_dims. apply Hi. now right.
    + split; [exact Sa2|]. split; [exact Sb2|]. split; eapply ray_trans; eassumption.
Qed.

Lemma k_local_ok (div : R -> R -> option R) (Hdiv : forall x y z, div x y = Some z -> z * y = x) (a b : fmps R) k :
  settled a -> settled b -> fd a = d -> fd b = d -> fL a = L -> fL b = L -> (0 < k)%nat -> (k <= L)%nat ->
  match k_local_approx_overlap S O div a b (Some k) with
  | Err e => e = LinAlgError \/ e = Exception_ \/
      (e = ValueError /\ div (sum (L - k + 1) (fun i => window_overlap d L (psi a) (psi b) i k)) (sofnat (L - k + 1)) = None)
  | Ok (v, a', b') => v * sofnat (L - k + 1) = sum (L - k + 1) (fun i => window_overlap d L (psi a) (psi b) i k) /\
      settled a' /\ settled b' /\ same_ray a a' /\ same_ray b b'
  end.
Proof.
  intros Sa Sb Da Db La Lb Hk Hkl. unfold k_local_approx_overlap, approx_overlap. rewrite La. replace (L + 1 - k)%nat with (L - k + 1)%nat by lia.
  pose proof (overlaps_run k Hk (seq 0 (L - k + 1)) a b Sa Sb Da Db La Lb) as H.
  specialize (H ltac:(intros i Hi; apply in_seq in Hi; lia)).
  destruct (local_overlaps S O a b _) as [[[vs a'] b']|e]; cbn [bind]; [|tauto].
  destruct H as (-> & H). set (f := fun i => window_overlap d L (psi a) (psi b) i k) in *.
  assert (SU : forall n s, suml (map f (seq s n)) = sum n (fun i => f (s + i)%nat)).
  { induction n as [|n IH]; intros s; [reflexivity|]. cbn [seq map suml]. rewrite IH, sum_S_l. rewrite Nat.add_0_r. f_equal. apply sum_ext; intros i _. f_equal; lia. }
  assert (EM : forall l, suml l = suml (map f (seq 0 (L - k + 1))) -> div (suml l) (sofnat (L - k + 1)) = div (sum (L - k + 1) f) (sofnat (L - k + 1))).
  { intros l ->. now rewrite SU. }
  unfold mean. rewrite map_length, seq_length. destruct (map f (seq 0 (L - k + 1))) as [|x vs] eqn:E.
  { replace (L - k + 1)%nat with (Datatypes.S (L - k)) in E by lia. discriminate. }
  rewrite (EM _ eq_refl). clear EM. destruct (div _ _) as [z|] eqn:Ez; cbn [bind].
  - split; [exact (Hdiv _ _ _ Ez)|exact H].
  - right. right. split; reflexivity.
Qed.
End Run.

Lemma k_local_none (S : setio) (O : lapack R) (div : R -> R -> option R) (a b : fmps R) : wf a -> wf b -> dims (fdata a) = dims (fdata b) ->
  k_local_approx_overlap S O div a b None = Ok (sumcfg (dims (fdata a)) (fun s => psi a s * sconj (psi b s)), a, b).
Proof.
  intros Ha Hb Hd. unfold k_local_approx_overlap. destruct (overlap_ok a b) as (F & -> & _ & _ & HV); [apply Ha|apply Hb|exact Hd|]. cbn [bind]. now rewrite HV.
Qed.

Lemma k_local_long (S : setio) (O : lapack R) (div : R -> R -> option R) (a b : fmps R) k : (fL a < k)%nat ->
  k_local_approx_overlap S O div a b (Some k) = Err ValueError.
Proof. intros H. unfold k_local_approx_overlap, approx_overlap. replace (fL a + 1 - k)%nat with 0%nat by lia. reflexivity. Qed.
End Proof.
