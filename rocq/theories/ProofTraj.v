(** Proofs about trajectories: the history and the recorded bond dimensions. *)
From Verif Require Import Alg ModelMPS SpecMPS ProofMPS2 ModelStruct SpecStruct ProofStruct ModelOrth ModelCanon
  ModelPad ModelTraj SpecTraj.

Section Proofs.
Context {R : sring}.
Local Open Scope sr_scope.

Lemma lcan_inv (O : lapack2 R) m D x : lcan O m D = Ok x ->
  exists Ls, left_canonicalise O m D true true = Ok (x, Ls).
Proof.
  unfold lcan. destruct (left_canonicalise O m D true true) as [[y Ls]|]; [|discriminate].
  cbn [bind fst]. intros H. injection H as <-. eauto.
Qed.

Lemma lcan_fields (O : lapack2 R) m D x : lcan O m D = Ok x -> fL x = fL m /\ fd x = fd m.
Proof.
  intros H. apply lcan_inv in H as [Ls H]. unfold left_canonicalise in H.
  destruct (left_can_loop _ _ _ _ _ _ _) as [dn|]; [|discriminate]. cbn [bind] in H.
  match type of H with bind ?e _ = _ => destruct e as [y|] end; [|discriminate]. cbn [bind] in H.
  injection H as <- _. split; reflexivity.
Qed.

(** the loop *)
Lemma int_loop_ok (I : imag R) step T : forall ts tr m tr' m',
  int_loop I step T ts tr m = Ok (tr', m') ->
  exists xs vs, length xs = length ts /\ iterates (step (nth 1 T 0 - nth 0 T 0)) m (xs ++ [m']) /\
    Forall2 (fun x v => serialize_real I x = Ok v) xs vs /\
    thist tr' = thist tr ++ vs /\ tDs tr' = tDs tr ++ map fD xs /\
    tmps0 tr' = tmps0 tr /\ tmps tr' = tmps tr.
Proof.
  induction ts as [|t ts IH]; intros tr m tr' m' H; cbn [int_loop] in H.
  - injection H as <- <-. exists [], []. rewrite !app_nil_r. cbn.
    split; [reflexivity|]. split.
    { split; [intros x E; injection E as <-; reflexivity|]. intros k x y _ E. destruct k; discriminate. }
    repeat split; constructor.
  - unfold getitem in H. destruct (nth_error T 1) as [a|] eqn:Ea; [|discriminate].
    destruct (nth_error T 0) as [b|] eqn:Eb; [|discriminate]. cbn [bind] in H.
    rewrite (nth_error_nth _ _ 0 Ea), (nth_error_nth _ _ 0 Eb).
    rewrite (nth_error_nth _ _ 0 Ea), (nth_error_nth _ _ 0 Eb) in IH.
    unfold record_state in H. destruct (serialize_real I m) as [v|] eqn:Ev; [|discriminate]. cbn [bind] in H.
    destruct (step (a - b) m) as [m1|] eqn:Es; [|discriminate]. cbn [bind] in H.
    apply IH in H as (xs & vs & H1 & (H2 & H3) & H4 & H5 & H6 & H7 & H8).
    cbn [thist tDs tmps0 tmps] in *.
    exists (m :: xs), (v :: vs). split; [cbn; lia|]. split.
    { split; cbn.
      - intros x E. injection E as <-. reflexivity.
      - intros [|k] x y E1 E2; cbn in E1.
        + injection E1 as <-. apply H2 in E2. subst y. exact Es.
        + eapply H3; eassumption. }
    split; [constructor; assumption|]. split; [rewrite H5, <- app_assoc; reflexivity|].
    split; [rewrite H6, <- app_assoc; reflexivity|]. split; assumption.
Qed.

Lemma iterates_prefix step x0 (xs ys : list (fmps R)) : iterates step x0 (xs ++ ys) -> iterates step x0 xs.
Proof.
  intros [H1 H2]. assert (G : forall k x, nth_error xs k = Some x -> nth_error (xs ++ ys) k = Some x).
  { intros k x E. rewrite nth_error_app1; [exact E|]. apply nth_error_Some. congruence. }
  split; [intros x E; apply H1, G, E|]. intros k x y E1 E2. eapply H2; apply G; eassumption.
Qed.

Lemma iterates_unique step x0 : forall xs ys : list (fmps R),
  iterates step x0 xs -> iterates step x0 ys -> length xs = length ys -> xs = ys.
Proof.
  intros xs ys [H1 H2] [H3 H4] HL.
  assert (G : forall k x, nth_error xs k = Some x -> nth_error ys k = Some x).
  { induction k as [|k IH]; intros x E.
    - destruct (nth_error ys 0) as [y|] eqn:Ey.
      + f_equal. rewrite (H1 _ E). exact (H3 _ eq_refl).
      + apply nth_error_None in Ey. assert (0 < length xs) by (apply nth_error_Some; congruence). lia.
    - assert (Hk : S k < length xs) by (apply nth_error_Some; congruence).
      destruct (nth_error xs k) as [x'|] eqn:Ex; [|apply nth_error_None in Ex; lia].
      pose proof (IH _ eq_refl) as Ey.
      destruct (nth_error ys (S k)) as [y|] eqn:Ey2; [|apply nth_error_None in Ey2; lia].
      pose proof (H2 _ _ _ Ex E) as S1. pose proof (H4 _ _ _ Ey Ey2) as S2. congruence. }
  clear -G HL. revert ys HL G. induction xs as [|x xs IH]; intros [|y ys] HL G; try discriminate; [reflexivity|].
  pose proof (G 0%nat x eq_refl) as E. cbn in E. injection E as <-. f_equal.
  apply IH; [cbn in HL; lia|]. intros k z E. exact (G (S k) z E).
Qed.

(** shapes *)
Lemma fits_structure (m : fmps R) D : fits m D ->
  structure_LdD (fL m) (fd m) D = Ok (map shape_of (fdata m)).
Proof.
  intros (H2 & HL & H). unfold structure_LdD.
  destruct (create_structure_spec (fL m) (fd m) D (or_introl H2)) as (st & E & Hlen & Hn).
  rewrite E. cbn [bind]. apply (f_equal (@Ok (list shape3))).
  apply (nth_ext _ _ (0,0,0)%nat (0,0,0)%nat); rewrite !map_length; [lia|].
  intros k Hk. rewrite Hlen in Hk.
  rewrite (nth_indep _ _ ((fun x : nat * nat => (fd m, fst x, snd x)) (0,0)%nat)) by (rewrite map_length; lia).
  rewrite (map_nth (fun x : nat * nat => (fd m, fst x, snd x))), Hn by exact Hk.
  destruct (nth_error (fdata m) k) as [A|] eqn:EA; [|apply nth_error_None in EA; lia].
  destruct (H k A EA) as (P1 & P2 & P3).
  transitivity (shape_of A); [unfold shape_of; rewrite P1, P2, P3; reflexivity|].
  symmetry. apply nth_error_nth. rewrite nth_error_map, EA. reflexivity.
Qed.

Lemma fits_shapes (m m' : fmps R) D : fits m D -> map shape_of (fdata m') = map shape_of (fdata m) ->
  fL m' = fL m -> fd m' = fd m -> fits m' D.
Proof.
  intros (H1 & H2 & H3) Hs HL Hd. unfold fits. rewrite HL, Hd.
  assert (length (fdata m') = length (fdata m)) by (rewrite <- (map_length shape_of), Hs, map_length; reflexivity).
  split; [exact H1|]. split; [congruence|]. intros k A' E.
  assert (E' : nth_error (map shape_of (fdata m')) k = Some (shape_of A')) by (rewrite nth_error_map, E; reflexivity).
  rewrite Hs, nth_error_map in E'. destruct (nth_error (fdata m) k) as [A|] eqn:EA; [|discriminate].
  injection E' as E1 E2 E3. destruct (H3 k A EA) as (P1 & P2 & P3). unfold shape_of in *. lia.
Qed.

Lemma deserialize_real_inv (I : imag R) v st m : deserialize_real I v st = Ok m ->
  map shape_of (fdata m) = st /\ fL m = length st /\
  fd m = match st with (d, _, _) :: _ => d | [] => 0%nat end /\ st <> [].
Proof.
  unfold deserialize_real. destruct (chop2 v) as [xy|]; [|discriminate]. cbn [bind]. unfold deserialize.
  destruct (deserialize_loop _ st) as [l|] eqn:E; [|discriminate]. cbn [bind].
  apply deserialize_loop_shapes in E. intros H. destruct l as [|A l]; [discriminate|].
  destruct (init_ok (A :: l)) as (m' & Hm & Hd & HL & Hp & _); [discriminate|].
  rewrite Hm in H. injection H as <-. rewrite Hd, HL, Hp, <- E. rewrite map_length.
  repeat split. discriminate.
Qed.

(** one integrator call *)
Lemma integrate_ok start (I : imag R) step tr T tr' :
  integrate start I step tr T = Ok tr' ->
  exists x0 xs y vs,
    start (tmps tr) = Ok x0 /\
    length xs = length T /\ iterates (step (nth 1 T 0 - nth 0 T 0)) x0 (xs ++ [y]) /\
    Forall2 (fun x v => serialize_real I x = Ok v) xs vs /\
    thist tr' = thist tr ++ vs /\ tDs tr' = tDs tr ++ map fD xs /\ tmps0 tr' = tmps0 tr /\
    (imag_ok I -> forall ys z, xs = ys ++ [z] -> fits z (fD x0) -> fL z = fL x0 -> fd z = fd x0 ->
       same_tensors z (tmps tr') /\ fL (tmps tr') = fL z /\ fd (tmps tr') = fd z).
Proof.
  unfold integrate. destruct (start (tmps tr)) as [x0|] eqn:E0; [|discriminate]. cbn [bind].
  destruct (int_loop _ _ _ _ _ _) as [[tr1 y]|] eqn:E1; [|discriminate]. cbn [bind fst].
  apply int_loop_ok in E1 as (xs & vs & H1 & H2 & H3 & H4 & H5 & H6 & H7). cbn [thist tDs tmps0 tmps] in *.
  destruct (last_item (thist tr1)) as [v|] eqn:Ev; [|discriminate]. cbn [bind].
  destruct (structure_LdD (fL x0) (fd x0) (fD x0)) as [st|] eqn:Est; [|discriminate]. cbn [bind].
  destruct (deserialize_real I v st) as [m'|] eqn:Em; [|discriminate]. cbn [bind].
  intros H. injection H as <-. cbn [thist tDs tmps0 tmps].
  exists x0, xs, y, vs. split; [reflexivity|]. do 6 (split; [assumption|]).
  intros HI ys z Hxs Hf HL Hd. subst xs.
  apply Forall2_app_inv_l in H3 as (vs1 & vs2 & _ & H3 & Hvs).
  assert (Hv2 : exists v', vs2 = [v'] /\ serialize_real I z = Ok v').
  { clear -H3. inversion H3 as [|? v' ? ? Hz Hnil]; subst. inversion Hnil; subst. eauto. }
  destruct Hv2 as (v' & -> & Hz). subst vs.
  rewrite H4, app_assoc in Ev. unfold last_item in Ev. rewrite rev_app_distr in Ev. cbn in Ev. injection Ev as <-.
  rewrite <- HL, <- Hd, (fits_structure z (fD x0) Hf) in Est. injection Est as <-.
  assert (Hne : fdata z <> []).
  { destruct Hf as (F1 & F2 & _). intros C. rewrite C in F2. cbn in F2. lia. }
  destruct (serialize_real_roundtrip I z HI Hne) as (v2 & Ez & _ & (m2 & Em2 & HF & HL2 & _)).
  assert (v2 = v') by congruence. subst v2. assert (m2 = m') by congruence. subst m2.
  pose proof (deserialize_real_inv _ _ _ _ Em) as (D1 & D2 & D3 & _).
  split; [exact HF|]. rewrite D2, D3, map_length. destruct Hf as (F1 & F2 & F3). split; [exact F2|].
  destruct (fdata z) as [|A l] eqn:Edz; [congruence|]. cbn. destruct (F3 0%nat A eq_refl) as [P _]. exact P.
Qed.

Lemma integrate_grid start (I : imag R) step tr T x0 :
  start (tmps tr) = Ok x0 ->
  (T = [] /\ thist tr = []) \/ length T = 1%nat ->
  integrate start I step tr T = Err IndexError.
Proof.
  intros E H. unfold integrate. rewrite E. cbn [bind].
  destruct H as [[-> H]|H].
  - cbn. rewrite H. reflexivity.
  - destruct T as [|t [|t' T]]; try discriminate. reflexivity.
Qed.

Lemma set_last_snoc l x D : set_last (l ++ [x]) D = Ok (l ++ [D]).
Proof. unfold set_last. rewrite rev_app_distr. cbn. rewrite rev_involutive. reflexivity. Qed.

Lemma later_grows (O : lapack2 R) (I : imag R) tr tr' : later O I tr tr' ->
  exists vs, thist tr' = thist tr ++ vs.
Proof.
  induction 1 as [tr|start step T tr tr1 tr2 _ [vs IH] H|D tr tr1 tr2 _ [vs IH] H|D tr tr1 tr2 _ [vs IH] H].
  - exists []. rewrite app_nil_r. reflexivity.
  - apply integrate_ok in H as (x0 & xs & y & ws & _ & _ & _ & _ & H & _).
    exists (vs ++ ws). rewrite H, IH, app_assoc. reflexivity.
  - unfold traj_expand in H. destruct (expand O (tmps tr1) D); [|discriminate]. cbn [bind] in H.
    destruct (set_last (tDs tr1) D); [|discriminate]. injection H as <-. exists vs. exact IH.
  - unfold traj_contract in H. destruct (lcan O (tmps tr1) (Some D)); [|discriminate]. cbn [bind] in H.
    destruct (set_last (tDs tr1) D); [|discriminate]. injection H as <-. exists vs. exact IH.
Qed.

(** the bond dimensions *)
Definition entry_ok (I : imag R) (L d : nat) (x : fmps R) (D : nat) : Prop :=
  fits x D /\ fL x = L /\ fd x = d.

Definition inv (I : imag R) (tr : traj R) (xs : list (fmps R)) : Prop :=
  exists Ds Dl, tDs tr = Ds ++ [Dl] /\ fits (tmps tr) Dl /\
    Forall2 (entry_ok I (fL (tmps tr)) (fd (tmps tr))) xs Ds /\
    Forall2 (fun x v => serialize_real I x = Ok v) xs (thist tr).

Lemma expand_fields (O : lapack2 R) m D x : expand O m D = Ok x -> fL x = fL m /\ fd x = fd m.
Proof.
  unfold expand. destruct (create_structure _ _ _) as [st|]; [|discriminate]. cbn [bind].
  destruct (pad_loop _ _) as [data|]; [|discriminate]. cbn [bind].
  match goal with |- bind ?e _ = _ -> _ => destruct e as [[y Ls]|] eqn:E end; [|discriminate]. cbn [bind fst].
  intros H. injection H as <-. unfold left_canonicalise in E.
  destruct (left_can_loop _ _ _ _ _ _ _) as [dn|]; [|discriminate]. cbn [bind] in E.
  match type of E with bind ?e _ = _ => destruct e as [z|] end; [|discriminate]. cbn [bind] in E.
  injection E as <- _. split; reflexivity.
Qed.

(** entries ys stored one after another, each described by the bond dimension of
    the one before *)
Lemma shifted_ok (I : imag R) L d : forall ys (D : nat) (z : fmps R),
  Forall (fun y => regular y /\ fL y = fL z /\ fd y = fd z /\ map shape_of (fdata y) = map shape_of (fdata z)) ys ->
  fits z D -> fL z = L -> fd z = d ->
  exists Ds Dl, D :: map fD ys = Ds ++ [Dl] /\ Forall2 (entry_ok I L d) ys Ds /\ fits z Dl.
Proof.
  induction ys as [|y ys IH]; intros D z HF Hz HL Hd.
  - exists [], D. split; [reflexivity|]. split; [constructor|exact Hz].
  - inversion HF as [|? ? (P1 & P2 & P3 & P4) HF']; subst.
    destruct (IH (fD y) z HF') as (Ds & Dl & E & H1 & H2); try reflexivity.
    { apply (fits_shapes y z); [exact P1|symmetry; exact P4|congruence|congruence]. }
    exists (D :: Ds), Dl. split; [cbn [map]; rewrite E; reflexivity|]. split; [|exact H2].
    constructor; [|exact H1]. split; [|split; assumption].
    apply (fits_shapes z y); assumption.
Qed.

Lemma run_inv (O : lapack2 R) (I : imag R) tr xs : imag_ok I -> run O I tr xs -> inv I tr xs.
Proof.
  intros HI. induction 1 as [m tr E Hr|start step T tr xs tr' ys _ IH E HT Hl (x0 & E0 & Hit) HF
    |D tr xs tr' _ IH E Hf|D tr xs tr' _ IH E Hf].
  - unfold traj_init in E. destruct (mps_copy m) as [a|]; [|discriminate]. cbn [bind] in E. injection E as <-.
    exists [], (fD a). cbn in *. split; [reflexivity|]. split; [exact Hr|]. split; constructor.
  - destruct IH as (Ds & Dl & I1 & I2 & I3 & I4).
    destruct (integrate_ok _ _ _ _ _ _ E) as (x0' & xs' & y & vs & H0 & H1 & H2 & H3 & H4 & H5 & _ & H6).
    assert (x0' = x0) by congruence. subst x0'.
    assert (xs' = ys).
    { eapply iterates_unique; [eapply iterates_prefix; exact H2|exact Hit|congruence]. }
    subst xs'. clear H0.
    destruct (shifted_ok I (fL (tmps tr)) (fd (tmps tr)) ys Dl (tmps tr) HF I2 eq_refl eq_refl)
      as (Ds' & Dl' & S1 & S2 & S3).
    assert (Hne : ys <> []) by (intros ->; destruct T; [congruence|discriminate]).
    destruct (exists_last Hne) as (ys' & z & Hys).
    assert (Hx0 : exists ws, ys = x0 :: ws).
    { destruct ys as [|w ws]; [congruence|]. exists ws. f_equal. apply Hit. reflexivity. }
    destruct Hx0 as (ws & Hx0).
    assert (Hgx : regular x0 /\ fL x0 = fL (tmps tr) /\ fd x0 = fd (tmps tr) /\
                  map shape_of (fdata x0) = map shape_of (fdata (tmps tr))).
    { rewrite Forall_forall in HF. apply HF. rewrite Hx0. left. reflexivity. }
    assert (Hgz : regular z /\ fL z = fL (tmps tr) /\ fd z = fd (tmps tr) /\
                  map shape_of (fdata z) = map shape_of (fdata (tmps tr))).
    { rewrite Forall_forall in HF. apply HF. rewrite Hys. apply in_or_app. right. left. reflexivity. }
    destruct Hgx as (G1 & G2 & G3 & G4). destruct Hgz as (K1 & K2 & K3 & K4).
    destruct (H6 HI ys' z Hys) as (T1 & T2 & T3); try congruence.
    { apply (fits_shapes x0 z); [exact G1|congruence|congruence|congruence]. }
    exists (Ds ++ Ds'), Dl'. split; [rewrite H5, I1, <- !app_assoc; cbn [app]; rewrite S1; reflexivity|].
    split.
    { apply (fits_shapes (tmps tr)); try congruence. rewrite <- K4. symmetry. apply Forall2_shapes. exact T1. }
    rewrite T2, T3, K2, K3. split; [apply Forall2_app; assumption|].
    rewrite H4. apply Forall2_app; assumption.
  - destruct IH as (Ds & Dl & I1 & I2 & I3 & I4). unfold traj_expand in E.
    destruct (expand O (tmps tr) D) as [m|] eqn:Em; [|discriminate]. cbn [bind] in E.
    rewrite I1, set_last_snoc in E. cbn [bind] in E. injection E as <-. cbn [tmps] in Hf.
    destruct (expand_fields _ _ _ _ Em) as [F1 F2].
    exists Ds, D. cbn [tDs tmps thist]. split; [reflexivity|]. split; [exact Hf|]. rewrite F1, F2. split; assumption.
  - destruct IH as (Ds & Dl & I1 & I2 & I3 & I4). unfold traj_contract in E.
    destruct (lcan O (tmps tr) (Some D)) as [m|] eqn:Em; [|discriminate]. cbn [bind] in E.
    rewrite I1, set_last_snoc in E. cbn [bind] in E. injection E as <-. cbn [tmps] in Hf.
    destruct (lcan_fields _ _ _ _ Em) as [F1 F2].
    exists Ds, D. cbn [tDs tmps thist]. split; [reflexivity|]. split; [exact Hf|]. rewrite F1, F2. split; assumption.
Qed.

Lemma entries_decode (I : imag R) L d : imag_ok I -> forall xs Ds vs extra,
  Forall2 (entry_ok I L d) xs Ds -> Forall2 (fun x v => serialize_real I x = Ok v) xs vs ->
  exists ms, mapM (fun p : nat * list R => do st <- structure_LdD L d (fst p); deserialize_real I (snd p) st)
               (combine (Ds ++ extra) vs) = Ok ms /\ Forall2 same_tensors xs ms.
Proof.
  intros HI xs Ds vs extra H. revert vs. induction H as [|x D xs Ds (Hf & HL & Hd) H IH]; intros vs Hv.
  - inversion Hv; subst. exists []. split; [destruct extra; reflexivity|constructor].
  - inversion Hv as [|? v ? vs' Ev Hv']; subst. destruct (IH _ Hv') as (ms & E & HF).
    assert (Hne : fdata x <> []).
    { destruct Hf as (F1 & F2 & _). intros C. rewrite C in F2. cbn in F2. lia. }
    destruct (serialize_real_roundtrip I x HI Hne) as (v2 & Ez & _ & (m2 & Em2 & HF2 & _)).
    assert (v2 = v) by congruence. subst v2.
    exists (m2 :: ms). split; [|constructor; assumption].
    cbn [app combine mapM fst snd]. rewrite (fits_structure x D Hf). cbn [bind]. rewrite Em2. cbn [bind].
    cbn [fst snd] in E. rewrite E. reflexivity.
Qed.

Lemma mps_list_ok (O : lapack2 R) (I : imag R) tr xs : imag_ok I -> run O I tr xs -> xs <> [] ->
  exists ms, mps_list I tr = Ok ms /\ Forall2 same_tensors xs ms.
Proof.
  intros HI H Hne. destruct (run_inv O I tr xs HI H) as (Ds & Dl & I1 & I2 & I3 & I4).
  destruct (entries_decode I _ _ HI xs Ds (thist tr) [Dl] I3 I4) as (ms & E & HF).
  exists ms. split; [|exact HF]. unfold mps_list. rewrite I1.
  destruct (thist tr) eqn:Et; [inversion I4; congruence|exact E].
Qed.

Lemma run_lengths (O : lapack2 R) (I : imag R) tr xs : imag_ok I -> run O I tr xs ->
  length (thist tr) = length xs /\ length (tDs tr) = S (length (thist tr)).
Proof.
  intros HI H. destruct (run_inv O I tr xs HI H) as (Ds & Dl & I1 & I2 & I3 & I4).
  apply Forall2_len in I3. apply Forall2_len in I4. rewrite I1, app_length. cbn. lia.
Qed.

End Proofs.

Section Integrators.
Context {R : sring}.
Local Open Scope sr_scope.

Lemma eulerint_ok (O : lapack2 R) (I : imag R) dA (tr tr' : traj R) (T : list R) :
  eulerint O I dA tr T = Ok tr' ->
  exists x0 Ls xs y vs,
    left_canonicalise O (tmps tr) None true true = Ok (x0, Ls) /\
    length xs = length T /\ iterates (euler_step O dA (nth 1 T 0 - nth 0 T 0)) x0 (xs ++ [y]) /\
    Forall2 (fun x v => serialize_real I x = Ok v) xs vs /\ thist tr' = thist tr ++ vs.
Proof.
  intros H. destruct (integrate_ok _ _ _ _ _ _ H) as (x0 & xs & y & vs & H0 & H1 & H2 & H3 & H4 & _).
  apply lcan_inv in H0 as [Ls H0]. exists x0, Ls, xs, y, vs. auto.
Qed.

Lemma rk4int_ok (O : lapack2 R) (I : imag R) half sixth dA (tr tr' : traj R) (T : list R) :
  rk4int O I half sixth dA tr T = Ok tr' ->
  exists x0 Ls xs y vs,
    left_canonicalise O (tmps tr) None true true = Ok (x0, Ls) /\
    length xs = length T /\ iterates (rk4_step O half sixth dA (nth 1 T 0 - nth 0 T 0)) x0 (xs ++ [y]) /\
    Forall2 (fun x v => serialize_real I x = Ok v) xs vs /\ thist tr' = thist tr ++ vs.
Proof.
  intros H. destruct (integrate_ok _ _ _ _ _ _ H) as (x0 & xs & y & vs & H0 & H1 & H2 & H3 & H4 & _).
  apply lcan_inv in H0 as [Ls H0]. exists x0, Ls, xs, y, vs. auto.
Qed.
End Integrators.
