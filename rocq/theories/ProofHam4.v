(** Proofs about Hamiltonians.py: when an MPO exists, full matrices, and the documented
    dictionaries. *)
From Coq Require Import Ascii.
From Verif Require Import Alg ModelMPS SpecMPS ModelNcon ProofNcon ModelEk ModelTensor SpecTensor SpecEk ModelSpin SpecSpin ProofTensor ProofTrace ProofSpin ProofSpin2 ProofEk3 ModelHam SpecHam ProofHam ProofHam2 ProofHam3.

Local Notation prod_ := (fold_right Nat.mul 1%nat).

Section P.
Context {R : sring}.
Local Open Scope sr_scope.
Add Ring Rr : (s_th R).
Variable C : consts R.
Variable eqb : R -> R -> bool.
Hypothesis HC : consts_ok C (fun _ => False).
Hypothesis H1 : c_sqrt C 1 = 1.
Hypothesis Heqb : forall x y, eqb x y = true <-> x = y.
Let im := c_im C.

(** * When an MPO exists *)
Lemma coef_absent (d : dict R) a b : ~ In [chr a; chr b] (map fst d) -> coef d a b = 0.
Proof.
  unfold coef. induction d as [|[k v] d IH]; cbn [map filter fst]; intros H; [reflexivity|].
  destruct (key_eqb_spec k [chr a; chr b]) as [E|E]; [exfalso; apply H; now left|]. apply IH. intros Hi. apply H. now right.
Qed.

Lemma heis_ok_iff (d : dict R) : tidy d -> (heis_ok eqb d = true <-> heisenberg d).
Proof.
  intros [Hn Ht]. unfold heis_ok, heisenberg. rewrite forallb_forall.
  assert (K : forall a b, In [chr a; chr b] (map fst d) -> exists v, In ([chr a; chr b], v) d).
  { intros a b Hi. apply in_map_iff in Hi. destruct Hi as ((k & v) & E & Hi). cbn in E. subst k. now exists v. }
  split.
  - intros H. split.
    + intros a b Hi. destruct (K a b Hi) as [v Hv]. specialize (H _ Hv). cbn [fst] in H. apply andb_true_iff in H. destruct H as [H _].
      destruct a, b; cbn in H; try discriminate; intuition discriminate.
    + assert (G : forall a b, In [chr a; chr b] (map fst d) -> coef d b a = coef d a b).
      { intros a b Hi. destruct (K a b Hi) as [v Hv]. specialize (H _ Hv). cbn [fst] in H. apply andb_true_iff in H. destruct H as [_ H].
        apply Heqb in H. cbn [rev app] in H. now rewrite !coef_get by exact Hn. }
      intros a. destruct (in_dec (list_eq_dec ascii_dec) [chr LI; chr a] (map fst d)) as [Hi|Hi]; [symmetry; now apply G|].
      destruct (in_dec (list_eq_dec ascii_dec) [chr a; chr LI] (map fst d)) as [Hj|Hj]; [now apply G|].
      now rewrite !coef_absent.
  - intros [Hk Hs] [k v] Hi. cbn [fst]. destruct (Ht k v Hi) as (a & b & ->).
    assert (Hin : In [chr a; chr b] (map fst d)) by (apply (in_map fst) in Hi; exact Hi).
    apply andb_true_iff. split.
    + destruct (Hk a b Hin) as [[-> Ha]|[[-> Hb]|[Ha ->]]]; [destruct b|destruct b|destruct a]; try congruence; reflexivity.
    + apply Heqb. cbn [rev app]. rewrite <- !coef_get by exact Hn.
      destruct (Hk a b Hin) as [[-> Ha]|[[-> Hb]|[Ha ->]]]; [reflexivity|symmetry; apply Hs|apply Hs].
Qed.

Lemma to_mpo_ok h (d : dict R) L : h_strings h = Some d -> tidy d -> heisenberg d ->
  exists W, to_mpo C eqb h L = Ok (repeat W L) /\ tsh W = [5; 5; 2; 2]%nat /\
    forall s t, incfg (repeat 2%nat L) s -> incfg (repeat 2%nat L) t ->
      mpo_chain 5 (repeat W L) s t 0 4 = chain_ham im L (coef d) (fun _ a => coef d LI a) 0 s t.
Proof.
  intros Hh Hd Hz. unfold to_mpo, strings_of. rewrite Hh. cbn [bind]. rewrite (proj2 (heis_ok_iff d Hd) Hz). cbn [map heis_keys].
  eexists. split; [reflexivity|]. split; [reflexivity|]. intros s t Hs Ht. destruct Hd as [Hn Ht2].
  change ["X"; "X"]%char with [chr LX; chr LX]. change ["Y"; "Y"]%char with [chr LY; chr LY]. change ["Z"; "Z"]%char with [chr LZ; chr LZ].
  change ["I"; "X"]%char with [chr LI; chr LX]. change ["I"; "Y"]%char with [chr LI; chr LY]. change ["I"; "Z"]%char with [chr LI; chr LZ].
  rewrite <- !coef_get by exact Hn. destruct Hz as [Hk _].
  apply mpo_first; try reflexivity; try assumption.
  - intros a b Ha Hb Hab. apply coef_absent. intros Hi. destruct (Hk a b Hi) as [[E _]|[[-> _]|[_ ->]]]; [contradiction|cbn in Ha; intuition discriminate|cbn in Hb; intuition discriminate].
  - intros i. apply coef_absent. intros Hi. destruct (Hk LI LI Hi) as [[_ E]|[[_ E]|[E _]]]; congruence.
Qed.

Lemma to_mpo_err h (d : dict R) L : h_strings h = Some d -> tidy d -> ~ heisenberg d -> to_mpo C eqb h L = Err NotImplementedError.
Proof.
  intros Hh Hd Hz. unfold to_mpo, strings_of. rewrite Hh. cbn [bind]. destruct (heis_ok eqb d) eqn:E; [|reflexivity].
  exfalso. apply Hz. now apply heis_ok_iff.
Qed.

Lemma chain_ham_ext L J f f' c c' s t : (forall i a, (i < L)%nat -> In a xyz -> f i a = f' i a) -> c = c' ->
  chain_ham im L J f c s t = chain_ham im L J f' c' s t.
Proof.
  intros Hf ->. unfold chain_ham. f_equal. f_equal. apply sum_ext. intros i Hi. apply suml_map_ext. intros a Ha. now rewrite Hf.
Qed.

Lemma half_two (x : R) : c_half C * (x + x) = x.
Proof. destruct HC as [Hh _]. transitivity ((c_half C + c_half C) * x); [ring|]. rewrite Hh. ring. Qed.

Lemma heis_field L (d : dict R) : heisenberg d -> forall i a, bond_field C L d i a = coef d LI a.
Proof.
  intros [_ Hs] i a. unfold bond_field. rewrite <- Hs. destruct (Nat.eqb i 0); [reflexivity|]. destruct (Nat.eqb (S i) L); [reflexivity|]. apply half_two.
Qed.

Lemma views_agree h (d : dict R) L : h_strings h = Some d -> tidy d -> heisenberg d -> (3 <= L)%nat ->
  exists ms Ws, to_matrices C eqb h L = Ok ms /\ to_mpo C eqb h L = Ok Ws /\
    forall s t, incfg (repeat 2%nat L) s -> incfg (repeat 2%nat L) t -> mpo_chain 5 Ws s t 0 4 = sum_terms 2 ms s t.
Proof.
  intros Hh Hd Hz HL. destruct (to_matrices_sum C eqb HC H1 Heqb h d L Hh Hd HL) as (ms & E & _ & _ & Hm).
  destruct (to_mpo_ok h d L Hh Hd Hz) as (W & EW & _ & HW). exists ms, (repeat W L). split; [exact E|]. split; [exact EW|].
  intros s t Hs Ht. rewrite HW, Hm by assumption. symmetry. apply chain_ham_ext; [intros; now apply heis_field|].
  destruct Hz as [Hk _]. rewrite (coef_absent d LI LI); [ring|]. intros Hi. destruct (Hk LI LI Hi) as [[_ ?]|[[_ ?]|[? _]]]; congruence.
Qed.

(** * The documented dictionaries *)
Lemma field_get (d : dict R) a : keys_nodup d -> field d a = dget0 d [chr a].
Proof.
  unfold keys_nodup, field, dget0. induction d as [|[k w] d IH]; intros Hn; [reflexivity|]. cbn [map fst] in Hn. inversion Hn; subst.
  cbn [filter dget fst]. specialize (IH H3). destruct (key_eqb_spec k [chr a]) as [->|Hk]; [|exact IH].
  cbn [map snd suml]. rewrite IH, (proj2 (dget_none d _) H2). ring.
Qed.
Lemma dget_Some_in (d : dict R) k : dget d k <> None -> exists v, In (k, v) d.
Proof. destruct (dget d k) as [v|] eqn:E; [|congruence]. intros _. exists v. now apply dget_in. Qed.

Lemma chr_I a : Ascii.eqb (chr a) "I" = isI a.
Proof. destruct a; reflexivity. Qed.
Lemma xyz_not_I a : In a xyz -> isI a = false.
Proof. destruct a; cbn; intuition discriminate. Qed.

Lemma documented_two (d : dict R) : documented d -> forall a b, In [chr a; chr b] (map fst d) -> In a xyz /\ In b xyz.
Proof.
  intros H a b Hi. apply in_map_iff in Hi. destruct Hi as ((k & v) & E & Hi). cbn in E. subst k. destruct (H _ _ Hi) as [(c & _ & E)|(c & e & Hc & He & E)]; [discriminate|].
  injection E as E1 E2. apply chr_inj in E1, E2. subst. now split.
Qed.

Lemma documented_widen (d : dict R) : keys_nodup d -> documented d -> tidy (widen d) /\
  (forall a b, In a xyz -> In b xyz -> coef (widen d) a b = coef d a b) /\
  (forall a, In a xyz -> coef (widen d) LI a = field d a /\ coef (widen d) a LI = field d a) /\
  coef (widen d) LI LI = 0 /\
  (forall a b, In [chr a; chr b] (map fst (widen d)) -> In [chr a; chr b] (map fst d) \/ (a = LI /\ b <> LI) \/ (a <> LI /\ b = LI)).
Proof.
  intros Hn Hd. destruct (widen_ok d Hn) as [Hn' Hw].
  assert (Gabs : forall a, In a xyz -> dget d [chr LI; chr a] = None /\ dget d [chr a; chr LI] = None).
  { intros a Ha. split; apply dget_none; intros Hi; destruct (documented_two d Hd _ _ Hi) as [X Y]; [apply xyz_not_I in X|apply xyz_not_I in Y]; discriminate. }
  assert (GI : dget d [chr LI] = None).
  { apply dget_none. intros Hi. apply in_map_iff in Hi. destruct Hi as ((k & v) & E & Hi). cbn [fst] in E. subst k.
    destruct (Hd _ _ Hi) as [(c & Hc & E)|(c & e & _ & _ & E)]; [|discriminate]. injection E as E. destruct c; cbn in E; try discriminate. apply xyz_not_I in Hc. discriminate. }
  assert (GII : dget d [chr LI; chr LI] = None).
  { apply dget_none. intros Hi. destruct (documented_two d Hd _ _ Hi) as [X _]. apply xyz_not_I in X. discriminate. }
  split; [split; [exact Hn'|]|].
  - intros k v Hi. assert (E : widened d k = Some v) by (rewrite <- Hw; now apply dget_nodup).
    destruct k as [|x [|y [|z k]]]; cbn [widened] in E.
    + apply dget_in in E. destruct (Hd _ _ E) as [(c & _ & F)|(c & e & _ & _ & F)]; discriminate.
    + discriminate.
    + assert (S1 : forall w, In ([w], v) d -> exists c, w = chr c).
      { intros w Hv. destruct (Hd _ _ Hv) as [(c & _ & F)|(c & e & _ & _ & F)]; [|discriminate]. injection F as F. now exists c. }
      assert (G : dget d [x; y] = Some v -> exists a b, [x; y] = [chr a; chr b]).
      { intros F. apply dget_in in F. destruct (Hd _ _ F) as [(c & _ & F')|(c & e & _ & _ & F')]; [discriminate|]. now exists c, e. }
      destruct (Ascii.eqb_spec y "I") as [->|]; [destruct (dget d [x]) as [w|] eqn:Ex|].
      * injection E as ->. apply dget_in in Ex. destruct (S1 x Ex) as [c ->]. now exists c, LI.
      * destruct (Ascii.eqb_spec x "I") as [->|]; [change ["I"%char] with [chr LI] in E; rewrite GI in E; now apply G|now apply G].
      * destruct (Ascii.eqb_spec x "I") as [->|]; [destruct (dget d [y]) as [w|] eqn:Ey|].
        -- injection E as ->. apply dget_in in Ey. destruct (S1 y Ey) as [c ->]. now exists LI, c.
        -- now apply G.
        -- now apply G.
    + apply dget_in in E. destruct (Hd _ _ E) as [(c & _ & F)|(c & e & _ & _ & F)]; discriminate.
  - split; [|split; [|split]].
    + intros a b Ha Hb. rewrite !coef_get by assumption. unfold dget0. rewrite Hw. cbn [widened]. now rewrite !chr_I, !xyz_not_I.
    + intros a Ha. rewrite !coef_get, field_get by assumption. unfold dget0. rewrite !Hw. cbn [widened]. rewrite !chr_I, (xyz_not_I a Ha). cbn [isI].
      destruct (Gabs a Ha) as [-> ->]. destruct (dget d [chr a]); now split.
    + rewrite coef_get by assumption. unfold dget0. rewrite Hw. cbn [widened]. rewrite !chr_I. cbn [isI]. now rewrite GI, GII.
    + intros a b Hi. assert (E : widened d [chr a; chr b] <> None).
      { rewrite <- Hw. intros E. now apply dget_none in E. }
      cbn [widened] in E. rewrite !chr_I in E. destruct (isI b) eqn:Ib, (isI a) eqn:Ia.
      * destruct a, b; try discriminate. now rewrite GI, GII in E.
      * right. right. destruct a, b; try discriminate; split; congruence.
      * right. left. destruct a, b; try discriminate; split; congruence.
      * left. destruct (in_dec (list_eq_dec ascii_dec) [chr a; chr b] (map fst d)) as [Hj|Hj]; [exact Hj|]. apply dget_none in Hj. congruence.
Qed.

Lemma bond_field_documented (d : dict R) L i a : keys_nodup d -> documented d -> In a xyz -> bond_field C L (widen d) i a = field d a.
Proof.
  intros Hn Hd Ha. destruct (documented_widen d Hn Hd) as (_ & _ & Hf & _). destruct (Hf a Ha) as [E1 E2].
  unfold bond_field. rewrite E1, E2. destruct (Nat.eqb i 0); [reflexivity|]. destruct (Nat.eqb (S i) L); [reflexivity|]. apply half_two.
Qed.

Lemma chain_ham_ext2 L J J' f f' c s t : (forall a b, In a xyz -> In b xyz -> J a b = J' a b) -> (forall i a, (i < L)%nat -> In a xyz -> f i a = f' i a) ->
  chain_ham im L J f c s t = chain_ham im L J' f' c s t.
Proof.
  intros HJ Hf. transitivity (chain_ham im L J f' c s t); [now apply chain_ham_ext|]. unfold chain_ham. f_equal. f_equal.
  apply sum_ext. intros i Hi. apply suml_map_ext. intros a Ha. apply suml_map_ext. intros b Hb. now rewrite HJ.
Qed.

Lemma documented_matrices (d : dict R) L dd : keys_nodup d -> documented d -> (3 <= L)%nat ->
  exists ms, to_matrices C eqb (ham_init (Some d) None dd) L = Ok ms /\ length ms = (L - 1)%nat /\
    forall s t, incfg (repeat 2%nat L) s -> incfg (repeat 2%nat L) t ->
      sum_terms 2 ms s t = chain_ham im L (coef d) (fun _ => field d) 0 s t.
Proof.
  intros Hn Hd HL. destruct (documented_widen d Hn Hd) as (Ht & HJ & Hf & H0 & _).
  destruct (to_matrices_sum C eqb HC H1 Heqb (ham_init (Some d) None dd) (widen d) L eq_refl Ht HL) as (ms & E & Hl & _ & Hm).
  exists ms. split; [exact E|]. split; [exact Hl|]. intros s t Hs Ht'. rewrite Hm by assumption. rewrite H0.
  replace (sofnat (L - 1) * 0) with (0 : R) by ring. apply chain_ham_ext2; [exact HJ|]. intros i a _ Ha. now apply bond_field_documented.
Qed.

Lemma documented_mpo (d : dict R) L dd : keys_nodup d -> documented d -> (forall a b, In [chr a; chr b] (map fst d) -> a = b) ->
  exists W, to_mpo C eqb (ham_init (Some d) None dd) L = Ok (repeat W L) /\
    forall s t, incfg (repeat 2%nat L) s -> incfg (repeat 2%nat L) t ->
      mpo_chain 5 (repeat W L) s t 0 4 = chain_ham im L (coef d) (fun _ => field d) 0 s t.
Proof.
  intros Hn Hd Hdiag. destruct (documented_widen d Hn Hd) as (Ht & HJ & Hf & H0 & Hk).
  destruct (to_mpo_ok (ham_init (Some d) None dd) (widen d) L eq_refl Ht) as (W & E & _ & HW).
  - split.
    + intros a b Hi. destruct (Hk a b Hi) as [Hi'|Hi']; [|tauto]. left. split; [now apply Hdiag|]. destruct (documented_two d Hd a b Hi') as [Ha _].
      intros ->. apply xyz_not_I in Ha. discriminate.
    + intros a. destruct (isI a) eqn:Ia; [destruct a; try discriminate; reflexivity|]. assert (Ha : In a xyz) by (destruct a; try discriminate; cbn; tauto).
      destruct (Hf a Ha) as [-> ->]. reflexivity.
  - exists W. split; [exact E|]. intros s t Hs Ht'. rewrite HW by assumption. apply chain_ham_ext2; [exact HJ|]. intros i a _ Ha. now apply Hf.
Qed.

(** * Full matrices *)
Lemma prod_entries_ids n s t : length s = n -> length t = n -> prod_entries (repeat (eye 2) n) s t = if nlist_eqb s t then 1 else (0 : R).
Proof.
  revert s t. induction n as [|n IH]; intros [|x s] [|y t] Hs Ht; try discriminate; [reflexivity|]. cbn [repeat prod_entries nlist_eqb eye me].
  rewrite IH by (cbn in *; lia). unfold dlt. destruct (Nat.eqb x y), (nlist_eqb s t); cbn; ring.
Qed.

Lemma map_repeat {A B} (f : A -> B) x n : map f (repeat x n) = repeat (f x) n.
Proof. induction n; cbn; congruence. Qed.
Lemma prod_repeat d n : prod_ (repeat d n) = Nat.pow d n.
Proof. induction n; cbn; [reflexivity|]. now rewrite <- IHn. Qed.

Lemma split3 L i k s : (i + k <= L)%nat -> incfg (repeat 2%nat L) s ->
  exists s1 s2 s3, s = s1 ++ s2 ++ s3 /\ length s1 = i /\ length s2 = k /\ length s3 = (L - k - i)%nat /\
    incfg (repeat 2%nat i) s1 /\ incfg (repeat 2%nat k) s2 /\ incfg (repeat 2%nat (L - k - i)) s3 /\
    firstn i s ++ skipn (i + k) s = s1 ++ s3 /\ firstn k (skipn i s) = s2.
Proof.
  intros HL Hs. replace L with (i + (k + (L - k - i)))%nat in Hs by lia.
  destruct (incfg_parts _ _ _ Hs) as [Hs1 Hs2]. destruct (incfg_parts _ _ _ Hs2) as [Hs3 Hs4].
  exists (firstn i s), (firstn k (skipn i s)), (skipn k (skipn i s)).
  split; [now rewrite !firstn_skipn|].
  pose proof (incfg_length _ _ Hs1) as L1. pose proof (incfg_length _ _ Hs3) as L3. pose proof (incfg_length _ _ Hs4) as L4. rewrite !repeat_length in L1, L3, L4.
  repeat (split; [assumption|]). split; [|reflexivity]. f_equal. clear. revert s. induction i as [|i IH]; intros [|x l]; cbn; try reflexivity; [now rewrite skipn_nil|apply IH].
Qed.

Lemma full_term_ok L k (total : mat R) i (m : mat R) : (1 <= k)%nat -> (i + k <= L)%nat -> mr m = Nat.pow 2 k -> mc m = Nat.pow 2 k -> mr total = Nat.pow 2 L -> mc total = Nat.pow 2 L ->
  exists M, full_term L k total (i, m) = Ok M /\ mr M = Nat.pow 2 L /\ mc M = Nat.pow 2 L /\
    forall s t, incfg (repeat 2%nat L) s -> incfg (repeat 2%nat L) t ->
      me M (rowmajor 2 s) (rowmajor 2 t) = me total (rowmajor 2 s) (rowmajor 2 t) + on_sites k i m s t.
Proof.
  intros Hk HL Hr Hc Tr Tc. unfold full_term. cbn [fst snd].
  set (ops := repeat (eye 2) i ++ [m] ++ repeat (eye 2) (L - k - i)).
  assert (Hne : ops <> []) by (unfold ops; destruct i; discriminate).
  assert (Sr : map (@mr R) ops = repeat 2%nat i ++ [Nat.pow 2 k] ++ repeat 2%nat (L - k - i)) by (unfold ops; rewrite !map_app, !map_repeat; cbn [map eye mr]; now rewrite Hr).
  assert (Sc : map (@mc R) ops = repeat 2%nat i ++ [Nat.pow 2 k] ++ repeat 2%nat (L - k - i)) by (unfold ops; rewrite !map_app, !map_repeat; cbn [map eye mc]; now rewrite Hc).
  assert (HP : prod_ (repeat 2%nat i ++ [Nat.pow 2 k] ++ repeat 2%nat (L - k - i)) = Nat.pow 2 L).
  { rewrite !prod_app, !prod_repeat. cbn [fold_right]. rewrite Nat.mul_1_r, <- !Nat.pow_add_r. f_equal. lia. }
  assert (HT : exists M, tensor ops = Ok M /\ mr M = Nat.pow 2 L /\ mc M = Nat.pow 2 L).
  { destruct ops as [|x l] eqn:E; [congruence|]. cbn [tensor]. eexists. split; [reflexivity|]. rewrite fold_kron_mr, fold_kron_mc.
    rewrite <- HP. split; [rewrite <- Sr|rewrite <- Sc]; reflexivity. }
  destruct HT as (M & EM & Mr & Mc). rewrite EM. cbn [bind]. rewrite Mr, Mc, Tr, Tc, !Nat.eqb_refl. cbn [andb].
  eexists. split; [reflexivity|]. split; [reflexivity|]. split; [reflexivity|]. intros s t Hs Ht. cbn [me]. f_equal.
  unfold on_sites.
  destruct (split3 L i k s HL Hs) as (s1 & s2 & s3 & Es & L1 & L2 & L3 & I1 & I2 & I3 & -> & ->).
  destruct (split3 L i k t HL Ht) as (t1 & t2 & t3 & Et & M1 & M2 & M3 & J1 & J2 & J3 & -> & ->).
  assert (PF : forall u1 u2 u3, length u1 = i -> length u2 = k -> length u3 = (L - k - i)%nat ->
    incfg (repeat 2%nat i) u1 -> incfg (repeat 2%nat k) u2 -> incfg (repeat 2%nat (L - k - i)) u3 ->
    incfg (repeat 2%nat i ++ [Nat.pow 2 k] ++ repeat 2%nat (L - k - i)) (u1 ++ [rowmajor 2 u2] ++ u3) /\
    position (repeat 2%nat i ++ [Nat.pow 2 k] ++ repeat 2%nat (L - k - i)) (u1 ++ [rowmajor 2 u2] ++ u3) = rowmajor 2 (u1 ++ u2 ++ u3)).
  { intros u1 u2 u3 U1 U2 U3 V1 V2 V3. split.
    - apply Forall2_app; [exact V1|]. apply Forall2_app; [|exact V3]. constructor; [|constructor].
      rewrite <- U2. apply rowmajor_lt. now rewrite U2.
    - rewrite position_ravel by (rewrite !app_length, !repeat_length; cbn; lia).
      rewrite !ravel_app by (rewrite ?repeat_length; cbn; lia). rewrite !rowmajor_app. rewrite !prod_app, !prod_repeat.
      rewrite <- U1 at 1. rewrite ravel_rowmajor. rewrite <- U3 at 3. rewrite ravel_rowmajor. cbn [ravel fold_right app length].
      rewrite app_length, U2, U3, Nat.pow_add_r. lia. }
  destruct (PF s1 s2 s3 L1 L2 L3 I1 I2 I3) as [Gs Ps]. destruct (PF t1 t2 t3 M1 M2 M3 J1 J2 J3) as [Gt Pt].
  destruct (tensor_entry ops (s1 ++ [rowmajor 2 s2] ++ s3) (t1 ++ [rowmajor 2 t2] ++ t3) Hne) as (M' & EM' & _ & _ & He); [now rewrite Sr|now rewrite Sc|].
  rewrite EM in EM'. injection EM' as <-. rewrite Sr, Sc, Ps, Pt in He. rewrite Es, Et, He. unfold ops.
  rewrite !prod_entries_app by (rewrite ?repeat_length; cbn; assumption || reflexivity).
  rewrite !prod_entries_ids by assumption. cbn [prod_entries]. rewrite nlist_eqb_app by lia.
  destruct (nlist_eqb s1 t1), (nlist_eqb s3 t3); cbn [andb]; ring.
Qed.

Lemma full_terms_ok L k (l : list (mat R)) : forall (total : mat R) o, (1 <= k)%nat -> (o + length l + k <= S L)%nat ->
  (forall m, In m l -> mr m = Nat.pow 2 k /\ mc m = Nat.pow 2 k) -> mr total = Nat.pow 2 L -> mc total = Nat.pow 2 L ->
  exists M, full_terms L k total (combine (seq o (length l)) l) = Ok M /\ mr M = Nat.pow 2 L /\ mc M = Nat.pow 2 L /\
    forall s t, incfg (repeat 2%nat L) s -> incfg (repeat 2%nat L) t ->
      me M (rowmajor 2 s) (rowmajor 2 t) = me total (rowmajor 2 s) (rowmajor 2 t)
        + suml (map (fun im => on_sites k (fst im) (snd im) s t) (combine (seq o (length l)) l)).
Proof.
  induction l as [|m l IH]; intros total o Hk HL Hm Tr Tc.
  - exists total. cbn [length seq combine full_terms map suml]. repeat split; try assumption. intros. ring.
  - cbn [length seq combine]. destruct (Hm m (or_introl eq_refl)) as [Mr Mc]. cbn [length] in HL.
    destruct (full_term_ok L k total o m Hk) as (M & E & Fr & Fc & Fe); try assumption; [lia|].
    change (full_terms L k total ((o, m) :: combine (seq (S o) (length l)) l)) with (do t <- full_term L k total (o, m); full_terms L k t (combine (seq (S o) (length l)) l)).
    rewrite E. cbn [bind]. destruct (IH M (S o) Hk) as (M2 & E2 & Gr & Gc & Ge); try assumption; [lia|intros x Hx; apply Hm; now right|].
    exists M2. split; [exact E2|]. split; [exact Gr|]. split; [exact Gc|]. intros s t Hs Ht. rewrite Ge, Fe by assumption. cbn [map suml fst snd]. ring.
Qed.

Lemma to_full_ok ilog (str : option (dict R)) ms k L0 : (1 <= k)%nat -> ms <> [] -> (forall m, In m ms -> mr m = Nat.pow 2 k /\ mc m = Nat.pow 2 k) ->
  ilog (Nat.pow 2 k) 2%nat = Ok k -> let L := (length ms + k - 1)%nat in
  exists M, to_full C eqb ilog (ham_init str (Some ms) 2) L0 = Ok M /\ mr M = Nat.pow 2 L /\ mc M = Nat.pow 2 L /\
    forall s t, incfg (repeat 2%nat L) s -> incfg (repeat 2%nat L) t -> me M (rowmajor 2 s) (rowmajor 2 t) = sum_terms k ms s t.
Proof.
  intros Hk Hne Hm Hlog L. unfold to_full, ham_L, ham_k. cbn [ham_init h_matrices h_d bind].
  destruct ms as [|m0 ms]; [congruence|]. cbn [getitem bind].
  assert (E0 : getitem (m0 :: ms) 0 = Ok m0) by reflexivity. rewrite E0. cbn [bind]. rewrite (proj1 (Hm m0 (or_introl eq_refl))), Hlog. cbn [bind].
  fold L. destruct (full_terms_ok L k (m0 :: ms) (mkMat (2 ^ L) (2 ^ L) (fun _ _ => 0)) 0 Hk) as (M & E & Mr & Mc & Me); try reflexivity; try assumption.
  { unfold L. lia. }
  exists M. split; [exact E|]. split; [exact Mr|]. split; [exact Mc|]. intros s t Hs Ht. rewrite Me by assumption. cbn [me]. unfold sum_terms. ring.
Qed.

Lemma to_full_strings ilog (d : dict R) L dd : tidy (widen d) -> (2 <= L)%nat ->
  to_full C eqb ilog (ham_init (Some d) None dd) (Some L) = Err AttributeError.
Proof.
  intros Hd HL. unfold to_full. cbn [ham_init option_map h_matrices h_strings]. unfold ham_L, ham_k.
  assert (exists m ms, to_matrices C eqb (ham_init (Some d) None dd) L = Ok (m :: ms)) as (m & ms & E).
  { destruct (Nat.eq_dec L 2) as [->|].
    - destruct (to_matrices_two C eqb HC H1 Heqb (ham_init (Some d) None dd) (widen d) eq_refl Hd) as (m & E & _). now exists m, [].
    - destruct (to_matrices_sum C eqb HC H1 Heqb (ham_init (Some d) None dd) (widen d) L eq_refl Hd) as (ms & E & Hl & _); [lia|].
      destruct ms as [|m ms]; [cbn in Hl; lia|]. now exists m, ms. }
  rewrite E. cbn [bind h_matrices h_strings]. unfold getitem. cbn [nth_error bind h_d]. reflexivity.
Qed.
End P.
