From Verif Require Import Alg ModelMPS SpecMPS ProofMPS ModelStruct SpecStruct ModelOrth SpecOrth ModelCanon SpecCanon
  ProofOrth ProofStruct ProofCanon ProofCanon2 ModelPad.

Section Proofs.
Context {R : sring}.
Add Ring Rr : (s_th R).
Local Open Scope sr_scope.

(** B is A with its bonds padded by zeros. *)
Definition padded (A B : site R) : Prop :=
  phys B = phys A /\ dl A <= dl B /\ dr A <= dr B /\
  forall s i j, i < dl B -> j < dr B -> ent B s i j = if Nat.ltb i (dl A) && Nat.ltb j (dr A) then ent A s i j else 0.

Lemma pad_site_padded (A : site R) a b : padded A (pad_site A a b).
Proof. repeat split; cbn; try lia. Qed.

Lemma sum_pad n m (f : nat -> R) : n <= m -> (forall k, n <= k -> k < m -> f k = 0) -> sum m f = sum n f.
Proof.
  intros H Hz. replace m with (n + (m - n))%nat by lia. rewrite sum_split.
  rewrite (sum_zero (m - n)); [ring|]. intros i Hi. apply Hz; lia.
Qed.

Lemma amp_padded (l l' : list (site R)) : Forall2 padded l l' ->
  forall i s x y, x < i -> chain i l 1 -> y = 0%nat -> amp l' s x y = amp l s x y.
Proof.
  induction 1 as [|A B l l' (H1 & H2 & H3 & H4) HF IH]; intros i s x y Hx Hc Hy; [reflexivity|].
  destruct s as [|t s]; [reflexivity|]. cbn [amp]. destruct Hc as [Hd Hc].
  rewrite (sum_pad (dr A) (dr B)); [|exact H3|].
  - apply sum_ext. intros k Hk. rewrite H4 by lia.
    assert (E1 : (x <? dl A) = true) by (apply Nat.ltb_lt; lia).
    assert (E2 : (k <? dr A) = true) by (apply Nat.ltb_lt; lia). rewrite E1, E2. cbn [andb].
    f_equal. eapply IH; eassumption.
  - intros k Hk Hk2. rewrite H4 by lia. assert (E2 : (k <? dr A) = false) by (apply Nat.ltb_ge; lia).
    rewrite E2, andb_false_r. ring.
Qed.

(** Padded tensors have the shapes asked for. *)
Definition st_of (l : list (site R)) : list (nat * nat) := map (fun A => (dl A, dr A)) l.

Definition le2 (p q : nat * nat) : Prop := fst p <= fst q /\ snd p <= snd q.

Lemma pad_siteZ_ok (A : site R) a b : dl A <= a -> dr A <= b ->
  exists B, pad_siteZ A (Z.of_nat a - Z.of_nat (dl A)) (Z.of_nat b - Z.of_nat (dr A)) = Ok B /\
  padded A B /\ dl B = a /\ dr B = b.
Proof.
  intros Ha Hb. unfold pad_siteZ.
  destruct (Z.ltb_spec (Z.of_nat a - Z.of_nat (dl A)) 0); [lia|].
  destruct (Z.ltb_spec (Z.of_nat b - Z.of_nat (dr A)) 0); [lia|]. cbn [orb].
  eexists. split; [reflexivity|]. split; [apply pad_site_padded|]. cbn. lia.
Qed.

Lemma pad_siteZ_neg (A : site R) a b : a < dl A \/ b < dr A ->
  pad_siteZ A (Z.of_nat a - Z.of_nat (dl A)) (Z.of_nat b - Z.of_nat (dr A)) = Err ValueError.
Proof.
  intros H. unfold pad_siteZ.
  destruct (Z.ltb_spec (Z.of_nat a - Z.of_nat (dl A)) 0); [reflexivity|].
  destruct (Z.ltb_spec (Z.of_nat b - Z.of_nat (dr A)) 0); [reflexivity|]. lia.
Qed.

Lemma pad_loop_ok : forall (l : list (site R)) st, Forall2 le2 (st_of l) st ->
  exists l', pad_loop l st = Ok l' /\ Forall2 padded l l' /\ st_of l' = st.
Proof.
  induction l as [|A l IH]; intros st H; inversion H as [|? [a b] ? st' [Ha Hb] HF]; subst.
  - exists []. repeat split; constructor.
  - cbn [pad_loop]. cbn [fst snd] in *. destruct (pad_siteZ_ok A a b Ha Hb) as (B & -> & HB & HBa & HBb).
    cbn [bind]. destruct (IH st' HF) as (l' & -> & Hl & Hs). cbn [bind].
    exists (B :: l'). split; [reflexivity|]. split; [constructor; assumption|].
    cbn. rewrite HBa, HBb. f_equal. exact Hs.
Qed.

Lemma pad_loop_neg : forall (l : list (site R)) st, length st = length l ->
  ~ Forall2 le2 (st_of l) st -> pad_loop l st = Err ValueError.
Proof.
  induction l as [|A l IH]; intros [|[a b] st] Hl Hn; try discriminate.
  - exfalso. apply Hn. constructor.
  - cbn [pad_loop]. destruct (Nat.le_gt_cases (dl A) a), (Nat.le_gt_cases (dr A) b);
      try (rewrite pad_siteZ_neg by lia; reflexivity).
    destruct (pad_siteZ_ok A a b) as (B & -> & _); [assumption..|]. cbn [bind].
    rewrite IH; [reflexivity|simpl in Hl; lia|]. intros HF. apply Hn. constructor; [split; assumption|exact HF].
Qed.

Lemma chain_of_st (l : list (site R)) (l' : list (site R)) i j :
  st_of l = st_of l' -> chain i l j -> chain i l' j.
Proof.
  revert l' i; induction l as [|A l IH]; intros [|B l'] i E H; try discriminate; [exact H|].
  injection E as E1 E2 E3. destruct H as [H1 H2]. split; [congruence|]. rewrite <- E2. apply IH; assumption.
Qed.

Lemma padded_dims (l l' : list (site R)) : Forall2 padded l l' -> dims l' = dims l.
Proof. induction 1 as [|A B l l' (H & _) _ IH]; [reflexivity|]. unfold dims in *. simpl. congruence. Qed.

(** a structure list is a chain *)
Fixpoint stchain (i : nat) (st : list (nat * nat)) (j : nat) : Prop :=
  match st with [] => i = j | (a, b) :: st => a = i /\ stchain b st j end.

Lemma chain_stchain (l : list (site R)) i j : stchain i (st_of l) j -> chain i l j.
Proof. revert i; induction l as [|A l IH]; intros i H; [exact H|]. destruct H as [H1 H2]. split; [exact H1|apply IH, H2]. Qed.

Lemma stchain_nth st : forall i j f, length st = j ->
  (forall k, k < j -> nth k st (0, 0) = (f (i + k), f (i + k + 1)))%nat -> stchain (f i) st (f (i + j)%nat).
Proof.
  induction st as [|[a b] st IH]; intros i j f Hl Hn; simpl in Hl; subst j.
  - simpl. f_equal. lia.
  - pose proof (Hn 0%nat ltac:(lia)) as H0. simpl in H0. injection H0 as -> ->.
    split; [f_equal; lia|]. replace (i + 0 + 1)%nat with (i + 1)%nat by lia.
    replace (i + S (length st))%nat with (i + 1 + length st)%nat by lia.
    apply IH; [reflexivity|]. intros k Hk. specialize (Hn (S k) ltac:(lia)). simpl in Hn. rewrite Hn.
    f_equal; f_equal; lia.
Qed.

Lemma create_structure_chain L d D st : 1 <= D -> 2 <= L ->
  create_structure L d (Some D) = Ok st -> stchain 1 st 1 /\ length st = L.
Proof.
  intros HD HL E. destruct (create_structure_spec L d D (or_introl HL)) as (st' & E' & Hlen & Hn).
  assert (st' = st) by congruence. subst st'. split; [|exact Hlen].
  assert (H := stchain_nth st 0 L (bond L d D) Hlen Hn).
  assert (B0 : bond L d D 0 = 1%nat). { unfold bond. simpl Nat.min at 2. cbn. destruct D; lia. }
  assert (BL : bond L d D (0 + L) = 1%nat).
  { unfold bond. replace (L - (0 + L))%nat with 0%nat by lia. rewrite Nat.min_0_r. cbn. destruct D; lia. }
  rewrite B0, BL in H. exact H.
Qed.

(** expand: nothing changes but the norm, and the tensors become left isometries *)
Lemma expand_ok (O : lapack2 R) (m : fmps R) D_ :
  svd_ok O -> wf m -> uniform m -> 0 < fd m -> pos (fdata m) -> 1 <= D_ -> 2 <= fL m ->
  (forall k A, nth_error (fdata m) k = Some A -> dl A <= bond (fL m) (fd m) D_ k /\
     dr A <= bond (fL m) (fd m) D_ (k + 1)) ->
  match expand O m D_ with
  | Err e => e = LinAlgError
  | Ok m' => wf m' /\ dims (fdata m') = dims (fdata m) /\ Forall left_iso (fdata m') /\
     foc m' = Some (fL m) /\ fcan m' = Some true /\
     exists X, fnorm m' = Some X /\ mr X = 1%nat /\ mc X = 1%nat /\
     forall s, incfg (dims (fdata m)) s -> psi m s = psi m' s * me X 0 0
  end.
Proof.
  intros HO (Hc & HL & Hne) Hu H0 Hp HD HL2 Hb. unfold expand.
  destruct (create_structure_spec (fL m) (fd m) D_ (or_introl HL2)) as (st & E & Hlen & Hn).
  rewrite E. cbn [bind].
  assert (HF : Forall2 le2 (st_of (fdata m)) st).
  { clear -Hb Hlen Hn HL. assert (G : forall k A, nth_error (fdata m) k = Some A ->
      dl A <= fst (nth k st (0,0)%nat) /\ dr A <= snd (nth k st (0,0)%nat)).
    { intros k A HA. assert (Hk : k < fL m) by (rewrite HL; apply nth_error_Some; congruence).
      rewrite (Hn k Hk). apply Hb, HA. }
    rewrite HL in Hlen. clear Hn HL Hb. revert st Hlen G.
    induction (fdata m) as [|A l IH]; intros [|p st] Hlen G; try discriminate; [constructor|].
    constructor; [exact (G 0%nat A eq_refl)|]. apply IH; [simpl in Hlen; lia|].
    intros k B HB. exact (G (S k) B HB). }
  destruct (pad_loop_ok (fdata m) st HF) as (l' & E' & HP & Hst). rewrite E'. cbn [bind].
  destruct (create_structure_chain _ _ _ _ HD HL2 E) as [Hsc _].
  set (m1 := mkF l' (fL m) (fd m) D_ (fcan m) (forth m) (foc m) (fnorm m)).
  assert (Hlen' : length l' = fL m) by (rewrite <- Hlen, <- Hst; unfold st_of; rewrite map_length; reflexivity).
  assert (Hd : dims l' = dims (fdata m)) by (apply padded_dims; exact HP).
  assert (Hw1 : wf m1).
  { split; [apply chain_stchain; change (fdata m1) with l'; rewrite Hst; exact Hsc|]. split; [cbn; lia|].
    cbn. intros ->. simpl in Hlen'. lia. }
  assert (Hu1 : uniform m1).
  { unfold uniform in *. cbn. apply Forall_forall. intros B HB.
    assert (HB' : In (phys B) (dims (fdata m))) by (rewrite <- Hd; unfold dims; apply in_map; exact HB).
    unfold dims in HB'. apply in_map_iff in HB' as (A & <- & HA). rewrite Forall_forall in Hu. apply Hu, HA. }
  assert (Hpo : pos (fdata m1)).
  { cbn. clear -HP Hp. unfold pos in *. induction HP as [|A B l l' (P1 & P2 & P3 & _) _ IH]; [constructor|].
    inversion Hp as [|? ? (Q1 & Q2 & Q3) Hp']; subst. constructor; [|apply IH, Hp']. lia. }
  pose proof (left_can_ok O m1 None true false HO Hw1 Hu1 H0 eq_refl) as H.
  destruct (left_canonicalise O m1 None true false) as [[m' Ls]|e]; [|exact H]. cbn [bind fst].
  destruct H as (_ & I2 & I3 & I4 & I5 & I6 & I7 & I8 & _ & I9 & X & I10 & I11 & I12 & I13a & I13).
  destruct (I9 eq_refl Hpo) as [Hw' Hp']. destruct (I13 Logic.I) as [I14 _].
  split; [exact Hw'|]. split; [rewrite I2; exact Hd|]. split; [exact I8|]. split; [exact I7|].
  split; [exact I5|]. exists X. split; [exact I10|].
  assert (Hpsi : forall s, incfg (dims (fdata m)) s -> psi m1 s = psi m s).
  { intros s Hs. unfold psi. cbn [fdata m1]. apply (amp_padded _ _ HP 1 s 0 0); [lia|exact Hc|reflexivity]. }
  assert (HX : mr X = 1%nat) by (apply I13a; [reflexivity|exact Hpo]).
  split; [exact HX|]. split; [exact I11|]. intros s Hs. rewrite <- Hpsi by exact Hs.
  assert (Hs1 : incfg (dims (fdata m1)) s) by (change (incfg (dims l') s); rewrite Hd; exact Hs).
  rewrite (I14 s Hs1), HX. reflexivity.
Qed.

Lemma pad_loop_structure (l : list (site R)) st :
  Forall2 (fun p q => fst p <= fst q /\ snd p <= snd q) (map (fun A => (dl A, dr A)) l) st ->
  exists l', pad_loop l st = Ok l' /\ map (fun A => (dl A, dr A)) l' = st /\
  Forall2 (fun A B => phys B = phys A /\ forall s i j, i < dl B -> j < dr B ->
    ent B s i j = if Nat.ltb i (dl A) && Nat.ltb j (dr A) then ent A s i j else 0) l l'.
Proof.
  intros H. destruct (pad_loop_ok l st H) as (l' & E & P & Q). exists l'. split; [exact E|].
  split; [exact Q|]. clear - P. induction P as [|A B l l' HP _ IH]; constructor; [|exact IH].
  destruct HP as (h1 & h2 & h3 & h4). split; [exact h1|exact h4].
Qed.

Lemma expand_shrink (O : lapack2 R) (m : fmps R) D_ k A :
  fL m = length (fdata m) -> 2 <= fL m -> nth_error (fdata m) k = Some A ->
  bond (fL m) (fd m) D_ k < dl A \/ bond (fL m) (fd m) D_ (k + 1) < dr A ->
  expand O m D_ = Err ValueError.
Proof.
  intros HL HL2 HA Hb. unfold expand.
  destruct (create_structure_spec (fL m) (fd m) D_ (or_introl HL2)) as (st & E & Hlen & Hn).
  rewrite E. cbn [bind]. rewrite pad_loop_neg; [reflexivity|congruence|].
  assert (Hk : k < fL m) by (rewrite HL; apply nth_error_Some; congruence).
  specialize (Hn k Hk). rewrite HL in Hlen. clear E.
  revert k HA Hk Hn Hb. generalize (bond (fL m) (fd m) D_). intros b k HA _ Hn Hb HF.
  assert (G : forall l st k, Forall2 le2 (st_of l) st -> nth_error l k = Some A ->
     dl A <= fst (nth k st (0,0)%nat) /\ dr A <= snd (nth k st (0,0)%nat)).
  { clear. induction l as [|B l IH]; intros st [|k] HF HA; try discriminate; inversion HF; subst; simpl in *.
    - injection HA as ->. match goal with H : le2 _ _ |- _ => destruct H; split; assumption end.
    - apply IH; assumption. }
  destruct (G _ _ _ HF HA) as [G1 G2]. rewrite Hn in G1, G2. cbn in G1, G2. lia.
Qed.

(** mps_pad *)
Lemma padded_refl (A : site R) : padded A A.
Proof.
  repeat split; try lia. intros s i j Hi Hj. apply Nat.ltb_lt in Hi, Hj. rewrite Hi, Hj. reflexivity.
Qed.

Lemma mps_pad_site_ok (A B : site R) : exists A' B', mps_pad_site A B = Ok (A', B') /\
  padded A A' /\ padded B B' /\ dl A' = Nat.max (dl A) (dl B) /\ dl B' = Nat.max (dl A) (dl B) /\
  dr A' = Nat.max (dr A) (dr B) /\ dr B' = Nat.max (dr A) (dr B).
Proof.
  unfold mps_pad_site, pad_siteZ.
  destruct (Z.ltb_spec (Z.of_nat (dl B) - Z.of_nat (dl A)) 0) as [H1|H1];
  destruct (Z.ltb_spec (Z.of_nat (dr B) - Z.of_nat (dr A)) 0) as [H2|H2];
  rewrite ?Z.gtb_ltb;
  destruct (Z.ltb_spec 0 (Z.of_nat (dl B) - Z.of_nat (dl A))) as [H3|H3];
  destruct (Z.ltb_spec 0 (Z.of_nat (dr B) - Z.of_nat (dr A))) as [H4|H4];
  cbn [orb bind]; try lia;
  repeat match goal with |- context [Z.ltb ?x 0] => destruct (Z.ltb_spec x 0); [lia|] end;
  cbn [orb bind];
  do 2 eexists; (split; [reflexivity|]);
  (split; [first [apply pad_site_padded|apply padded_refl]|]);
  (split; [first [apply pad_site_padded|apply padded_refl]|]); cbn; lia.
Qed.

Lemma mps_pad_loop_ok : forall l1 l2 : list (site R), length l1 = length l2 ->
  exists l1' l2', mps_pad_loop l1 l2 = Ok (l1', l2') /\ Forall2 padded l1 l1' /\ Forall2 padded l2 l2' /\
  st_of l1' = st_of l2' /\
  st_of l1' = map (fun ab => (Nat.max (dl (fst ab)) (dl (snd ab)), Nat.max (dr (fst ab)) (dr (snd ab)))) (combine l1 l2).
Proof.
  induction l1 as [|A l1 IH]; intros [|B l2] H; try discriminate.
  - exists [], []. repeat split; constructor.
  - cbn [mps_pad_loop]. destruct (mps_pad_site_ok A B) as (A' & B' & -> & H1 & H2 & H3 & H4 & H5 & H6).
    cbn [bind]. destruct (IH l2 ltac:(simpl in H; lia)) as (l1' & l2' & -> & G1 & G2 & G3 & G4). cbn [bind fst snd].
    exists (A' :: l1'), (B' :: l2'). split; [reflexivity|]. split; [constructor; assumption|].
    split; [constructor; assumption|]. unfold st_of in *. cbn. split; [congruence|]. rewrite H3, H5. f_equal. exact G4.
Qed.

Lemma st_eqb_spec a : forall b, st_eqb a b = true -> a = b.
Proof.
  induction a as [|[x y] a IH]; intros [|[x' y'] b]; simpl; try discriminate; [reflexivity|].
  intros H. apply andb_prop in H as [H H3]. apply andb_prop in H as [H1 H2].
  apply Nat.eqb_eq in H1, H2. subst. f_equal. apply IH, H3.
Qed.

Lemma Forall2_padded_refl (l : list (site R)) : Forall2 padded l l.
Proof. induction l; constructor; [apply padded_refl|assumption]. Qed.

Lemma mps_pad_ok (m1 m2 : fmps R) : wf m1 -> wf m2 -> fL m1 = fL m2 ->
  exists m1' m2', mps_pad m1 m2 = Ok (m1', m2') /\
  map (fun A => (dl A, dr A)) (fdata m1') = map (fun A => (dl A, dr A)) (fdata m2') /\
  wf m1' /\ wf m2' /\
  dims (fdata m1') = dims (fdata m1) /\ dims (fdata m2') = dims (fdata m2) /\
  (forall s, psi m1' s = psi m1 s) /\ (forall s, psi m2' s = psi m2 s) /\
  (forall k A B C, nth_error (fdata m1) k = Some A -> nth_error (fdata m2) k = Some B ->
     nth_error (fdata m1') k = Some C -> dl C = Nat.max (dl A) (dl B) /\ dr C = Nat.max (dr A) (dr B)).
Proof.
  intros (Hc1 & HL1 & Hn1) (Hc2 & HL2 & Hn2) HL. unfold mps_pad.
  destruct (st_eqb (structure m1) (structure m2)) eqn:E; cbn [negb].
  - apply st_eqb_spec in E. exists m1, m2. split; [reflexivity|]. split; [exact E|].
    do 2 (split; [repeat split; assumption|]). do 4 (split; [reflexivity|]).
    intros k A B C HA HB HC. assert (C = A) by congruence. subst C.
    unfold structure in E.
    assert (E2 : nth_error (map (fun A => (dl A, dr A)) (fdata m1)) k = nth_error (map (fun A => (dl A, dr A)) (fdata m2)) k) by (rewrite E; reflexivity).
    rewrite !nth_error_map, HA, HB in E2. injection E2 as -> ->. lia.
  - destruct (mps_pad_loop_ok (fdata m1) (fdata m2) ltac:(lia)) as (l1 & l2 & -> & P1 & P2 & S1 & S2).
    cbn [bind fst snd]. do 2 eexists. split; [reflexivity|]. cbn [fdata fL].
    split; [exact S1|].
    assert (Hchain : chain 1 l1 1).
    { apply chain_stchain. rewrite S2. assert (Hl : length (fdata m1) = length (fdata m2)) by lia.
      revert Hl Hc1 Hc2. unfold closed. generalize (fdata m1) (fdata m2).
      assert (G : forall (a b : list (site R)) i j, length a = length b -> chain i a 1 -> chain j b 1 ->
        stchain (Nat.max i j) (map (fun ab => (Nat.max (dl (fst ab)) (dl (snd ab)), Nat.max (dr (fst ab)) (dr (snd ab)))) (combine a b)) 1).
      { induction a as [|A a IH]; intros [|B b] i j Hl Ha Hb; try discriminate.
        - simpl in *. lia.
        - destruct Ha as [? Ha], Hb as [? Hb]. cbn. split; [lia|]. apply IH; auto. }
      intros a b Hl Ha Hb. apply (G a b 1%nat 1%nat); assumption. }
    assert (Hchain2 : chain 1 l2 1) by (apply (chain_of_st l1); assumption).
    assert (Hl1 : length l1 = length (fdata m1)) by (symmetry; eapply Forall2_len; exact P1).
    assert (Hl2 : length l2 = length (fdata m2)) by (symmetry; eapply Forall2_len; exact P2).
    assert (N1 : l1 <> []) by (intros ->; destruct (fdata m1); [congruence|discriminate]).
    assert (N2 : l2 <> []) by (intros ->; destruct (fdata m2); [congruence|discriminate]).
    split; [repeat split; [exact Hchain|cbn; lia|exact N1]|].
    split; [repeat split; [exact Hchain2|cbn; lia|exact N2]|].
    split; [apply padded_dims; exact P1|]. split; [apply padded_dims; exact P2|].
    split; [intros s; exact (amp_padded _ _ P1 1 s 0 0 ltac:(lia) Hc1 eq_refl)|].
    split; [intros s; exact (amp_padded _ _ P2 1 s 0 0 ltac:(lia) Hc2 eq_refl)|].
    intros k A B C HA HB HC.
    assert (E2 : nth_error (st_of l1) k = Some (dl C, dr C)) by (unfold st_of; rewrite nth_error_map, HC; reflexivity).
    rewrite S2, nth_error_map in E2.
    assert (HAB : nth_error (combine (fdata m1) (fdata m2)) k = Some (A, B)).
    { revert HA HB. generalize (fdata m1) (fdata m2) k. clear.
      induction l as [|x l IH]; intros [|y l'] [|k] HA HB; try discriminate; simpl in *; [congruence|].
      apply IH; assumption. }
    rewrite HAB in E2. cbn in E2. injection E2 as <- <-. split; reflexivity.
Qed.

End Proofs.
