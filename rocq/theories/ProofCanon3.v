From Verif Require Import Alg ModelMPS SpecMPS ProofMPS ProofMPS2 ModelOrth SpecOrth
  ProofOrth ProofOrth2 ProofOrth3 ProofMeas ModelCanon SpecCanon ProofCanon ProofCanon2
  ProofGauge ProofRank ProofBack ProofBack2.

Section Proofs.
Context {R : sring}.
Add Ring Rr : (s_th R).
Local Open Scope sr_scope.

Lemma ones_ne (m : fmps R) : (exists s, incfg (dims (fdata m)) s /\ psi m s <> 0) -> (1:R) <> 0.
Proof. intros (s & _ & H) E. apply H. transitivity (1 * psi m s); [ring|]. rewrite E. ring. Qed.

(** right_canonicalise with the backward sweep. *)
Lemma right_can_back (O : lapack2 R) (m : fmps R) D :
  svd_ok O -> eig_ok O -> eig_zeros_last O -> @definite R -> @integral R -> (1:R) <> 0 ->
  wf m -> uniform m -> 0 < fd m -> keeps_something D m ->
  match right_canonicalise O m D true true with
  | Err e => e = LinAlgError
  | Ok (m', None) => False
  | Ok (m', Some Ls) => wf m' /\ dims (fdata m') = dims (fdata m) /\
      fL m' = fL m /\ fd m' = fd m /\
      fcan m' = Some true /\ forth m' = Some true /\ foc m' = Some 0%nat /\ fnorm m' = fnorm m /\
      Forall right_iso (fdata m') /\
      match D with Some D => Forall (fun A => dl A <= D) (fdata m') | None => True end /\
      (fits_l D (fdata m) ->
       exists c, forall s, incfg (dims (fdata m)) s -> psi m s = c * psi m' s) /\
      length Ls = S (fL m) /\
      (forall k A, nth_error (fdata m') k = Some A -> exists Sk X, nth_error Ls k = Some X /\
         mat_eq X (mdiag (dl A) Sk) /\ diag_gram (firstn k (fdata m')) (dl A) Sk /\
         (forall x, x < dl A -> Sk x <> 0))
  end.
Proof.
  intros HO HE HZ HDf HI H01 (Hc & HL & Hne) Hu H0 Hks. unfold right_canonicalise.
  pose proof (right_can_full O (fd m) D true HO H0 (fdata m) 1 1 Hc Hu Hne) as H.
  destruct (right_can_loop _ _ _ _ _ _) as [data|e]; [|exact H]. cbn [bind].
  destruct H as (c & X & I1 & I2 & I3 & I4 & I5 & I6).
  assert (Hiso : Forall right_iso data) by (eapply Forall_impl; [|exact I4]; simpl; tauto).
  assert (Hlen : length data = length (fdata m)) by (rewrite <- !dims_length, I3; reflexivity).
  assert (Hne' : data <> []).
  { intros E. rewrite E in Hlen. destruct (fdata m); [congruence|discriminate]. }
  assert (Hc1 : c = 1%nat).
  { destruct Hks as [[HD Hp]|[Hf (s & Hs & Hn)]].
    - assert (Hk : keeps D true) by (destruct D; [exact HD|contradiction]).
      destruct (I5 Hk Hp). lia.
    - destruct c as [|[|c]]; [|reflexivity|lia]. exfalso. apply Hn. unfold psi.
      rewrite (I6 Hf s 0%nat 0%nat Hs) by lia. reflexivity. }
  subst c.
  pose proof (right_back_ok O data HO HE HZ HDf HI H01 I1 Hne' Hiso) as HB. unfold back_part in HB.
  cbn [andb]. destruct (bind (right_gauge _ _ _ _) _) as [[d2 [Ls|]]|e]; [|contradiction|exact HB].
  cbn [bind fst snd]. destruct HB as (w & Hw & B1 & B2 & B3 & B4 & B5 & B6 & B7 & B8).
  cbn [fdata fL fd fcan forth foc fnorm].
  split. { split; [exact B1|]. split; [|exact B2]. cbn. rewrite HL, <- Hlen, <- !dims_length, B3. reflexivity. }
  split; [congruence|]. do 6 (split; [reflexivity|]). split; [exact B4|].
  split.
  { destruct D as [D|]; [|trivial]. apply Forall_forall. intros B HB. apply In_nth_error in HB as (k & EB).
    assert (Hk : k < length data).
    { rewrite <- (dims_length data), <- B3, dims_length. apply nth_error_Some. rewrite EB. discriminate. }
    destruct (nth_error data k) as [A|] eqn:EA; [|apply nth_error_None in EA; lia].
    destruct (B8 k A EA) as (B' & EB' & Hd). assert (B' = B) by congruence. subst B'.
    rewrite Forall_forall in I4. destruct (I4 A (nth_error_In _ _ EA)) as [_ G]. simpl in G. lia. }
  split.
  { intros Hf. exists (X 0%nat 0%nat * sconj w). intros s Hs. unfold psi.
    rewrite (I6 Hf s 0%nat 0%nat Hs) by lia. cbn [fdata].
    rewrite B5 by (rewrite I3; exact Hs). simpl.
    transitivity (X 0%nat 0%nat * amp data s 0 0 * (w * sconj w)); [rewrite Hw; ring|ring]. }
  split; [rewrite B6, Hlen, HL; reflexivity|]. exact B7.
Qed.

Lemma left_can_back (O : lapack2 R) (m : fmps R) D :
  svd_ok O -> eig_ok O -> eig_zeros_last O -> @definite R -> @integral R -> (1:R) <> 0 ->
  wf m -> uniform m -> 0 < fd m -> keeps_something_r D m ->
  match left_canonicalise O m D true true with
  | Err e => e = LinAlgError
  | Ok (m', None) => False
  | Ok (m', Some Ls) => wf m' /\ dims (fdata m') = dims (fdata m) /\
      fL m' = fL m /\ fd m' = fd m /\
      fcan m' = Some true /\ forth m' = Some true /\ foc m' = Some (fL m) /\
      Forall left_iso (fdata m') /\
      match D with Some D => Forall (fun A => dr A <= D) (fdata m') | None => True end /\
      (exists X, fnorm m' = Some X /\ mr X = 1%nat /\ mc X = 1%nat /\
       (fits_r D (fdata m) -> exists w, w * sconj w = 1 /\
        forall s, incfg (dims (fdata m)) s -> psi m s = psi m' s * (me X 0 0 * w))) /\
      length Ls = S (fL m) /\
      (forall k A, nth_error (fdata m') k = Some A -> exists Sk X, nth_error Ls k = Some X /\
         mat_eq X (mdiag (dl A) Sk) /\ diag_rgram (skipn k (fdata m')) (dl A) Sk /\
         (forall x, x < dl A -> Sk x <> 0))
  end.
Proof.
  intros HO HE HZ HDf HI H01 (Hc & HL & Hne) Hu H0 Hks. unfold left_canonicalise.
  pose proof (left_can_full O (fd m) D true HO H0 (fdata m) (fnorm m) 1 1 Hc Hu Hne) as H.
  destruct (left_can_loop _ _ _ _ _ _ _) as [[data nrm]|e]; [|exact H]. cbn [bind].
  destruct H as (X & -> & I0 & I1 & I2 & I3 & I4 & I5 & I6).
  assert (Hiso : Forall left_iso data) by (eapply Forall_impl; [|exact I4]; simpl; tauto).
  assert (Hlen : length data = length (fdata m)) by (rewrite <- !dims_length, I3; reflexivity).
  assert (Hne' : data <> []).
  { intros E. rewrite E in Hlen. destruct (fdata m); [congruence|discriminate]. }
  assert (Hc1 : mr X = 1%nat).
  { destruct Hks as [[HD Hp]|[Hf (s & Hs & Hn)]].
    - assert (Hk : keeps D true) by (destruct D; [exact HD|contradiction]).
      destruct (I5 Hk Hp). lia.
    - destruct (mr X) as [|[|c]] eqn:EX; [|reflexivity|lia]. exfalso. apply Hn. unfold psi.
      rewrite (I6 Hf s 0%nat 0%nat Hs) by lia. reflexivity. }
  rewrite Hc1 in I1, I6.
  pose proof (left_back_ok O data HO HE HZ HDf HI H01 I1 Hne' Hiso) as HB. unfold back_part_l in HB.
  cbn [andb fst snd]. destruct (bind (left_gauge _ _ _ _) _) as [[d2 [Ls|]]|e]; [|contradiction|exact HB].
  cbn [bind fst snd]. destruct HB as (w & Hw & B1 & B2 & B3 & B4 & B5 & B6 & B7 & B8).
  cbn [fdata fL fd fcan forth foc fnorm].
  split. { split; [exact B1|]. split; [|exact B2]. cbn. rewrite HL, <- Hlen, <- !dims_length, B3. reflexivity. }
  split; [congruence|]. do 5 (split; [reflexivity|]). split; [exact B4|].
  split.
  { destruct D as [D|]; [|trivial]. apply Forall_forall. intros B HB. apply In_nth_error in HB as (k & EB).
    assert (Hk : k < length data).
    { rewrite <- (dims_length data), <- B3, dims_length. apply nth_error_Some. rewrite EB. discriminate. }
    destruct (nth_error data k) as [A|] eqn:EA; [|apply nth_error_None in EA; lia].
    destruct (B8 k A EA) as (B' & EB' & Hd). assert (B' = B) by congruence. subst B'.
    rewrite Forall_forall in I4. destruct (I4 A (nth_error_In _ _ EA)) as [_ G]. simpl in G. lia. }
  split.
  { exists X. split; [reflexivity|]. split; [exact Hc1|]. split; [exact I0|].
    intros Hf. exists (sconj w). split; [rewrite conj_conj, <- Hw; ring|]. intros s Hs. unfold psi.
    rewrite (I6 Hf s 0%nat 0%nat Hs) by lia. cbn [fdata].
    rewrite B5 by (rewrite I3; exact Hs). simpl.
    transitivity (amp data s 0 0 * me X 0 0 * (w * sconj w)); [rewrite Hw; ring|ring]. }
  split; [rewrite B6, Hlen, HL; reflexivity|]. exact B7.
Qed.

(** The right-going sweep of mixed_canonicalise. *)
Lemma mixed_can_loop_ok (O : lapack2 R) d : svd_ok O -> 0 < d ->
  forall n p rest i j,
  chain i rest j -> Forall (fun A => phys A = d) rest -> n < length rest ->
  match mixed_can_loop O d None (seq (length p) n) (p ++ rest) with
  | Err e => e = LinAlgError
  | Ok data => exists rest', data = p ++ rest' /\
      chain i rest' j /\ dims rest' = dims rest /\
      (forall k A, k < n -> nth_error rest' k = Some A -> left_iso A) /\
      (forall k, n < k -> nth_error rest' k = nth_error rest k) /\
      (forall s x y, incfg (dims rest) s -> x < i -> amp rest' s x y = amp rest s x y)
  end.
Proof.
  intros HO H0 n. induction n as [|n IH]; intros p rest i j Hc Hu Hn.
  - simpl. exists rest. repeat split; auto; intros; lia.
  - destruct rest as [|A [|B q]]; simpl in Hn; try lia.
    cbn [seq mixed_can_loop]. rewrite getitem_app. cbn [bind].
    inversion Hu as [|? ? HA Hu']; subst. inversion Hu' as [|? ? HB Huq]; subst.
    pose proof (split_A_thin_ok O (phys A) A None true HO eq_refl H0) as HS. unfold Asplit_post in HS.
    destruct (split_A_thin O (phys A) A) as [[[A0 Sm] V]|e]; [|exact HS]. cbn [bind].
    destruct (truncate_A O A0 Sm V None true) as [[A' Sm'] V'].
    destruct HS as (c & Hsh & Hiso & Hc1 & Hc2 & Hck & Hent).
    pose proof Hsh as (T1 & T2 & T3 & T4 & T5 & T6 & T7).
    rewrite setitem_app. cbn [bind].
    assert (Hlt : length p + 1 <? length (p ++ A' :: B :: q) = true).
    { apply Nat.ltb_lt. rewrite app_length; simpl; lia. }
    rewrite Hlt, getitem_app1. rewrite mdot_ok by congruence. cbn [bind].
    set (SV := mkMat (mr Sm') (mc V') (fun i j => sum (mc Sm') (fun k => me Sm' i k * me V' k j))) in *.
    destruct Hc as [HcA [HcB Hcq]].
    assert (HX : mc SV = dl B) by (cbn; congruence).
    unfold site_lmul at 1. rewrite HX, Nat.eqb_refl. cbn [bind].
    match goal with |- context [setitem _ _ ?b] => set (B' := b) end.
    assert (EB : site_lmul SV B = Ok B').
    { unfold site_lmul. rewrite HX, Nat.eqb_refl. reflexivity. }
    rewrite setitem_app1. cbn [bind].
    replace (p ++ A' :: B' :: q) with ((p ++ [A']) ++ B' :: q) by (rewrite <- app_assoc; reflexivity).
    replace (S (length p)) with (length (p ++ [A'])) by (rewrite app_length; simpl; lia).
    specialize (IH (p ++ [A']) (B' :: q) c j).
    match type of IH with ?P -> _ => assert (H1 : P) end.
    { split; [exact T4|exact Hcq]. }
    match type of IH with _ -> ?P -> _ => assert (H2 : P) end.
    { constructor; [exact HB|exact Huq]. }
    specialize (IH H1 H2 ltac:(simpl; lia)).
    destruct (mixed_can_loop _ _ _ _ _) as [data|e]; [|exact IH].
    destruct IH as (rest' & -> & I1 & I3 & I4 & I5 & I6).
    exists (A' :: rest'). rewrite <- app_assoc. split; [reflexivity|].
    split; [split; [congruence|rewrite T3; exact I1]|].
    split; [unfold dims in *; simpl in *; rewrite I3, T1; reflexivity|].
    split.
    { intros k C Hk HC. destruct k as [|k]; simpl in HC.
      - injection HC as <-. exact Hiso.
      - eapply I4; [|exact HC]. lia. }
    split.
    { intros k Hk. destruct k as [|k]; [lia|]. simpl. rewrite I5 by lia.
      destruct k as [|k]; [lia|]. reflexivity. }
    intros s x y Hsx Hx.
    destruct s as [|x0 [|x1 s]].
    + inversion Hsx.
    + inversion Hsx; subst. match goal with H : Forall2 _ [] _ |- _ => inversion H end.
    + unfold dims in Hsx; simpl in Hsx.
      apply incfg_cons in Hsx as [Hx0 Hsx].
      transitivity (amp (A' :: B' :: q) (x0 :: x1 :: s) x y).
      * cbn [amp]. apply sum_ext. intros k Hk. f_equal. apply I6; [exact Hsx|rewrite T3 in Hk; exact Hk].
      * assert (Hx2 : x < dl A) by congruence.
        eapply amp_lpush; [eapply lsplit_of; [exact Hsh|apply Hent; exact Logic.I]|exact EB|exact Hx0|exact Hx2].
Qed.

Lemma firstn_seq n k : k <= n -> firstn k (seq 0 n) = seq 0 k.
Proof.
  intros H. replace n with (k + (n - k))%nat by lia. rewrite seq_app, firstn_app, seq_length.
  rewrite Nat.sub_diag, firstn_all2 by (rewrite seq_length; lia). simpl. apply app_nil_r.
Qed.

(** mixed_canonicalise without a bond limit. *)
Lemma mixed_can_ok (O : lapack2 R) (m : fmps R) k sb :
  svd_ok O -> wf m -> uniform m -> pos (fdata m) -> 0 < fd m -> k < fL m ->
  match mixed_canonicalise O m k None sb with
  | Err e => e = LinAlgError
  | Ok m' => wf m' /\ dims (fdata m') = dims (fdata m) /\ fL m' = fL m /\ fd m' = fd m /\
      fcan m' = Some true /\ forth m' = Some true /\ foc m' = Some 0%nat /\ fnorm m' = fnorm m /\
      mixed_at k (fdata m') /\
      sumcfg (dims (fdata m)) (fun s => psi m' s * sconj (psi m' s)) = 1 /\
      exists c, forall s, incfg (dims (fdata m)) s -> psi m s = c * psi m' s
  end.
Proof.
  intros HO Hwf Hu Hp H0 Hk. unfold mixed_canonicalise.
  pose proof (right_can_ok O m None sb false HO Hwf Hu H0 (andb_false_r _)) as H.
  destruct (right_canonicalise O m None sb false) as [[m1 Ls]|e]; [|exact H]. cbn [bind fst].
  destruct H as (_ & I2 & I3 & I4 & I5 & I6 & I7 & I8 & I9 & _ & I11 & I12).
  destruct (I11 eq_refl Hp) as [Hwf1 Hp1]. destruct (I12 Logic.I) as [[c Hcc] _].
  pose proof Hwf1 as (Hc1 & HL1 & Hne1).
  rewrite firstn_seq by lia.
  assert (Hu1 : Forall (fun A => phys A = fd m1) (fdata m1)).
  { rewrite I4. unfold uniform in Hu.
    apply Forall_forall. intros A HA.
    assert (HA' : In (phys A) (dims (fdata m))) by (rewrite <- I2; unfold dims; apply in_map; exact HA).
    unfold dims in HA'. apply in_map_iff in HA' as (B & EB & HB). rewrite Forall_forall in Hu.
    rewrite <- EB. apply Hu. exact HB. }
  pose proof (mixed_can_loop_ok O (fd m1) HO ltac:(rewrite I4; exact H0) k [] (fdata m1) 1 1 Hc1 Hu1 ltac:(lia)) as HM.
  simpl app in HM. simpl length in HM.
  destruct (mixed_can_loop _ _ _ _ _) as [data|e]; [|exact HM]. cbn [bind].
  destruct HM as (rest' & -> & J1 & J2 & J3 & J4 & J5).
  assert (Hpsi : forall s, incfg (dims (fdata m)) s -> amp rest' s 0 0 = psi m1 s).
  { intros s Hs. apply J5; [rewrite I2; exact Hs|lia]. }
  assert (Hlen : length rest' = length (fdata m1)) by (rewrite <- !dims_length, J2; reflexivity).
  cbn [fdata fL fd fcan forth foc fnorm].
  split. { split; [exact J1|]. cbn. split; [lia|]. intros E. rewrite E in Hlen. destruct (fdata m1); [congruence|discriminate]. }
  split; [congruence|]. do 2 (split; [congruence|]). do 2 (split; [reflexivity|]).
  split; [exact I7|]. split; [exact I8|].
  split.
  { intros n A HA. split; intros Hn.
    - apply (J3 n A Hn HA).
    - rewrite J4 in HA by exact Hn. rewrite Forall_forall in I9. apply I9. eapply nth_error_In; exact HA. }
  split.
  { rewrite <- (right_iso_normalised (fdata m1) Hc1 I9), I2. apply sumcfg_ext. intros s Hs.
    unfold psi at 1 2. cbn [fdata]. rewrite Hpsi by exact Hs. reflexivity. }
  exists c. intros s Hs. unfold psi at 2. cbn [fdata]. rewrite (Hcc s Hs), Hpsi by exact Hs. reflexivity.
Qed.

(** Es at the centre. *)
Lemma Es_local_value (l : list (site R)) k A op v :
  closed l -> mixed_at k l -> nth_error l k = Some A -> Es_local A op = Ok v ->
  v = sre (expect1 (dims l) (fun s => amp l s 0 0) k (me op)).
Proof.
  intros Hc Hm HA E. unfold Es_local in E. destruct (_ && _); [|discriminate]. injection E as <-.
  rewrite (centre_value l k A _ Hc Hm HA). f_equal.
  apply sum_ext; intros s _. apply sum_ext; intros t _. f_equal. apply sum_swap.
Qed.

Lemma mapM_ok {A B} (f : A -> res B) (g : A -> B) l : (forall x, In x l -> f x = Ok (g x)) ->
  mapM f l = Ok (map g l).
Proof.
  induction l as [|x l IH]; intros H; [reflexivity|]. simpl. rewrite H by (left; reflexivity).
  cbn [bind]. rewrite IH by (intros; apply H; right; assumption). reflexivity.
Qed.

Definition one_site_ops (m : fmps R) (k : nat) (op : mat R) : Prop :=
  mr op = nth k (dims (fdata m)) 0%nat /\ mc op = nth k (dims (fdata m)) 0%nat.

Lemma Es_ok (O : lapack2 R) (m : fmps R) ops k :
  svd_ok O -> wf m -> uniform m -> pos (fdata m) -> 0 < fd m -> k < fL m ->
  Forall (one_site_ops m k) ops ->
  match mps_Es O m ops k with
  | Err e => e = LinAlgError
  | Ok (vs, m') => wf m' /\ dims (fdata m') = dims (fdata m) /\
      (exists c, forall s, incfg (dims (fdata m)) s -> psi m s = c * psi m' s) /\
      length vs = length ops /\
      forall n op, nth_error ops n = Some op -> exists v, nth_error vs n = Some v /\
      v * sumcfg (dims (fdata m)) (fun s => psi m s * sconj (psi m s))
      = sre (expect1 (dims (fdata m)) (psi m) k (me op))
  end.
Proof.
  intros HO Hwf Hu Hp H0 Hk Hops. unfold mps_Es.
  pose proof (mixed_can_ok O m k true HO Hwf Hu Hp H0 Hk) as HM.
  destruct (mixed_canonicalise O m k None true) as [m'|e]; [|exact HM]. cbn [bind].
  destruct HM as (M1 & M2 & M3 & M4 & _ & _ & _ & _ & M5 & M6 & c & M7).
  pose proof M1 as (Mc & ML & Mne).
  destruct (nth_error (fdata m') k) as [A|] eqn:EA; [|apply nth_error_None in EA; lia].
  unfold getitem. rewrite EA. cbn [bind].
  assert (HphA : phys A = nth k (dims (fdata m)) 0%nat).
  { rewrite <- M2. symmetry. apply nth_error_nth. unfold dims. apply map_nth_error. exact EA. }
  rewrite (mapM_ok (Es_local A) (fun op => sre (expect1 (dims (fdata m')) (psi m') k (me op)))).
  - cbn [bind]. split; [exact M1|]. split; [exact M2|]. split; [exists c; exact M7|].
    split; [apply map_length|]. intros n op Hn. eexists.
    split; [apply (map_nth_error _ _ _ Hn)|].
    rewrite M2, (norm_scale _ _ _ c M7), M6.
    rewrite (expect1_scale _ _ _ c k _ M7) by (rewrite dims_length; destruct Hwf as (_ & ? & _); lia).
    rewrite re_mul by (rewrite conj_mul, conj_conj; ring). ring.
  - intros op Hop. rewrite Forall_forall in Hops. destruct (Hops op Hop) as [E1 E2].
    destruct (Es_local A op) as [v|e] eqn:EE.
    + f_equal. apply (Es_local_value (fdata m') k A op v Mc M5 EA EE).
    + unfold Es_local in EE. rewrite E1, E2, <- HphA, Nat.eqb_refl in EE. discriminate.
Qed.

(** E_ measures the transpose. *)
Lemma E__ok (O : lapack2 R) (m : fmps R) op k :
  svd_ok O -> wf m -> uniform m -> pos (fdata m) -> 0 < fd m -> k < fL m ->
  one_site_ops m k op ->
  match mps_E_ O m op k with
  | Err e => e = LinAlgError
  | Ok (v, m') => wf m' /\ dims (fdata m') = dims (fdata m) /\
      (exists c, forall s, incfg (dims (fdata m)) s -> psi m s = c * psi m' s) /\
      v * sumcfg (dims (fdata m)) (fun s => psi m s * sconj (psi m s))
      = sre (expect1 (dims (fdata m)) (psi m) k (fun s t => me op t s))
  end.
Proof.
  intros HO Hwf Hu Hp H0 Hk [E1 E2]. unfold mps_E_.
  pose proof (mixed_can_ok O m k true HO Hwf Hu Hp H0 Hk) as HM.
  destruct (mixed_canonicalise O m k None true) as [m'|e]; [|exact HM]. cbn [bind].
  destruct HM as (M1 & M2 & M3 & M4 & _ & _ & _ & _ & M5 & M6 & c & M7).
  pose proof M1 as (Mc & ML & Mne).
  destruct (nth_error (fdata m') k) as [A|] eqn:EA; [|apply nth_error_None in EA; lia].
  unfold getitem. rewrite EA. cbn [bind].
  assert (HphA : phys A = nth k (dims (fdata m)) 0%nat).
  { rewrite <- M2. symmetry. apply nth_error_nth. unfold dims. apply map_nth_error. exact EA. }
  destruct (E_local A op) as [v|e] eqn:EE.
  2:{ unfold E_local in EE. rewrite E1, E2, <- HphA, Nat.eqb_refl in EE. discriminate. }
  cbn [bind]. split; [exact M1|]. split; [exact M2|]. split; [exists c; exact M7|].
  rewrite (E_local_value (fdata m') k A op v Mc M5 EA EE).
  change (fun s => amp (fdata m') s 0 0) with (psi m').
  rewrite M2, (norm_scale _ _ _ c M7), M6.
  rewrite (expect1_scale _ _ _ c k _ M7) by (rewrite dims_length; destruct Hwf as (_ & ? & _); lia).
  rewrite re_mul by (rewrite conj_mul, conj_conj; ring). ring.
Qed.

End Proofs.
