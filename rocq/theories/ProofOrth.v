From Verif Require Import Alg ModelMPS SpecMPS ProofMPS ProofMPS2 ModelOrth SpecOrth.

Lemma incfg_app_inv ds es s :
  incfg (ds ++ es) s -> exists s1 s2, s = s1 ++ s2 /\ incfg ds s1 /\ incfg es s2.
Proof.
  revert s; induction ds as [|d ds IH]; intros s H; simpl in H.
  - exists [], s. repeat split; [constructor|exact H].
  - inversion H as [|x y s' l' Hx Hs]; subst. destruct (IH _ Hs) as (s1 & s2 & -> & H1 & H2).
    exists (x :: s1), s2. repeat split; [constructor|]; assumption.
Qed.

Section Proofs.
Context {R : sring}.
Add Ring Rr : (s_th R).
Local Open Scope sr_scope.

(** ** grouping *)
Lemma lgroup_ungroup (A : site R) s i j :
  i < dl A -> me (lgroup A) (s * dl A + i)%nat j = ent A s i j.
Proof.
  intros H. simpl. rewrite Nat.div_add_l by lia.
  rewrite Nat.div_small by lia. rewrite Nat.add_0_r.
  rewrite Nat.add_comm, Nat.mod_add by lia. rewrite Nat.mod_small by lia. reflexivity.
Qed.

Lemma rgroup_ungroup (A : site R) s i j :
  j < dr A -> me (rgroup A) i (s * dr A + j)%nat = ent A s i j.
Proof.
  intros H. simpl. rewrite Nat.div_add_l by lia.
  rewrite Nat.div_small by lia. rewrite Nat.add_0_r.
  rewrite Nat.add_comm, Nat.mod_add by lia. rewrite Nat.mod_small by lia. reflexivity.
Qed.

Lemma ragged d s a i : s < d -> i < a -> (s * a + i < d * a)%nat.
Proof. intros. nia. Qed.

Lemma qr_left_iso (A : site R) Q Rm :
  is_qr (lgroup A) Q Rm -> left_iso (lungroup (phys A) (dl A) Q).
Proof.
  intros (H1 & H2 & H3 & H4 & H5 & H6) i j Hi Hj. simpl in *.
  rewrite <- (H6 i j Hi Hj), H1.
  rewrite sum_mul. reflexivity.
Qed.

Lemma rq_right_iso (A : site R) Q Rm :
  is_rq (rgroup A) Rm Q -> right_iso (rungroup (phys A) (dr A) Q).
Proof.
  intros (H1 & H2 & H3 & H4 & H5 & H6) i j Hi Hj. simpl in *.
  rewrite <- (H6 i j Hi Hj), H1.
  rewrite sum_mul. reflexivity.
Qed.

(** A split of a tensor into a new tensor and a matrix to its right. *)
Definition lsplit (A A' : site R) (X : mat R) : Prop :=
  phys A' = phys A /\ dl A' = dl A /\ mr X = dr A' /\ mc X = dr A /\
  forall s i j, s < phys A -> i < dl A -> j < dr A ->
    ent A s i j = sum (dr A') (fun k => ent A' s i k * me X k j).

(** A split of a tensor into a matrix to its left and a new tensor. *)
Definition rsplit (A : site R) (X : mat R) (A' : site R) : Prop :=
  phys A' = phys A /\ dr A' = dr A /\ mc X = dl A' /\ mr X = dl A /\
  forall s i j, s < phys A -> i < dl A -> j < dr A ->
    ent A s i j = sum (dl A') (fun k => me X i k * ent A' s k j).

Lemma qr_lsplit (A : site R) Q Rm :
  is_qr (lgroup A) Q Rm -> lsplit A (lungroup (phys A) (dl A) Q) Rm.
Proof.
  intros (H1 & H2 & H3 & H4 & H5 & H6). simpl in *.
  repeat split; simpl; try congruence.
  intros s i j Hs Hi Hj. rewrite <- H5; [|apply ragged; assumption|assumption].
  symmetry. apply (lgroup_ungroup A); assumption.
Qed.

Lemma rq_rsplit (A : site R) Q Rm :
  is_rq (rgroup A) Rm Q -> rsplit A Rm (rungroup (phys A) (dr A) Q).
Proof.
  intros (H1 & H2 & H3 & H4 & H5 & H6). simpl in *.
  repeat split; simpl; try congruence.
  intros s i j Hs Hi Hj. rewrite <- H5; [|assumption|apply ragged; assumption].
  symmetry. apply (rgroup_ungroup A); assumption.
Qed.

Lemma amp_lmul (X : mat R) (B B' : site R) l y s k j :
  site_lmul X B = Ok B' ->
  amp (B' :: l) (y :: s) k j = sum (mc X) (fun q => me X k q * amp (B :: l) (y :: s) q j).
Proof.
  unfold site_lmul. destruct (Nat.eqb_spec (mc X) (dl B)) as [H|]; [|discriminate].
  intros E; injection E as <-. simpl.
  transitivity (sum (dr B) (fun r => sum (mc X) (fun q => me X k q * (ent B y q r * amp l s r j)))).
  - apply sum_ext. intros r _. rewrite <- sum_mul_r. apply sum_ext. intros q _. ring.
  - rewrite sum_swap. apply sum_ext. intros q _. apply sum_mul_l.
Qed.

Lemma amp_lsplit (A A' : site R) X l x s i j :
  lsplit A A' X -> x < phys A -> i < dl A ->
  amp (A :: l) (x :: s) i j
  = sum (dr A') (fun k => ent A' x i k * sum (mc X) (fun q => me X k q * amp l s q j)).
Proof.
  intros (H1 & H2 & H3 & H4 & H5) Hx Hi. simpl.
  transitivity (sum (dr A) (fun q => sum (dr A') (fun k => ent A' x i k * (me X k q * amp l s q j)))).
  - apply sum_ext. intros q Hq. rewrite (H5 x i q Hx Hi Hq), <- sum_mul_r.
    apply sum_ext. intros; ring.
  - rewrite sum_swap. apply sum_ext. intros k _. rewrite <- sum_mul_l, H4. reflexivity.
Qed.

Lemma amp_lpush (A A' B B' : site R) X l x y s i j :
  lsplit A A' X -> site_lmul X B = Ok B' -> x < phys A -> i < dl A ->
  amp (A' :: B' :: l) (x :: y :: s) i j = amp (A :: B :: l) (x :: y :: s) i j.
Proof.
  intros H HB Hx Hi. rewrite (amp_lsplit A A' X (B :: l) x (y :: s) i j H Hx Hi).
  cbn [amp]. apply sum_ext. intros k _. f_equal.
  exact (amp_lmul X B B' l y s k j HB).
Qed.

Lemma left_orth_loop_app (O : lapack R) L a b data nrm :
  left_orth_loop O L (a ++ b) data nrm
  = bind (left_orth_loop O L a data nrm) (fun dn => left_orth_loop O L b (fst dn) (snd dn)).
Proof.
  revert data nrm; induction a as [|m a IH]; intros data nrm; [reflexivity|].
  cbn [app left_orth_loop].
  destruct (getitem data m) as [A|]; [|reflexivity]. cbn [bind].
  destruct (la_qr O (lgroup A)) as [[Q Rm]|]; [|reflexivity].
  destruct (setitem data m _) as [d1|]; [|reflexivity]. cbn [bind].
  destruct (negb (m =? L - 1)); [|apply IH].
  destruct (getitem d1 (m + 1)) as [B|]; [|reflexivity]. cbn [bind].
  destruct (site_lmul Rm B) as [B'|]; [|reflexivity]. cbn [bind].
  destruct (setitem d1 (m + 1) B') as [d2|]; [|reflexivity]. cbn [bind]. apply IH.
Qed.

Lemma getitem_app1 {A} (p : list A) x y q : getitem (p ++ x :: y :: q) (length p + 1) = Ok y.
Proof.
  replace (p ++ x :: y :: q) with ((p ++ [x]) ++ y :: q) by (rewrite <- app_assoc; reflexivity).
  replace (length p + 1)%nat with (length (p ++ [x])) by (rewrite app_length; reflexivity).
  apply getitem_app.
Qed.

Lemma setitem_app1 {A} (p : list A) x y q z :
  setitem (p ++ x :: y :: q) (length p + 1) z = Ok (p ++ x :: z :: q).
Proof.
  replace (p ++ x :: y :: q) with ((p ++ [x]) ++ y :: q) by (rewrite <- app_assoc; reflexivity).
  replace (length p + 1)%nat with (length (p ++ [x])) by (rewrite app_length; reflexivity).
  rewrite setitem_app, <- app_assoc. reflexivity.
Qed.

Lemma left_loop_ok (O : lapack R) L : lapack_ok O ->
  forall n p rest nrm i j,
  chain i rest j -> pos rest -> n < length rest -> L = (length p + length rest)%nat ->
  match left_orth_loop O L (seq (length p) n) (p ++ rest) nrm with
  | Err e => e = LinAlgError
  | Ok (data, nrm') => exists rest', data = p ++ rest' /\ nrm' = nrm /\
      chain i rest' j /\ pos rest' /\ dims rest' = dims rest /\
      (forall k A, k < n -> nth_error rest' k = Some A -> left_iso A) /\
      (forall k, n < k -> nth_error rest' k = nth_error rest k) /\
      (forall s x y, incfg (dims rest) s -> x < i -> amp rest' s x y = amp rest s x y)
  end.
Proof.
  intros HO n. induction n as [|n IH]; intros p rest nrm i j Hc Hp Hn HL.
  - simpl. exists rest. repeat split; auto. intros; lia.
  - destruct rest as [|A [|B q]]; simpl in Hn; try lia.
    cbn [seq left_orth_loop]. rewrite getitem_app. cbn [bind].
    destruct (la_qr O (lgroup A)) as [[Q Rm]|] eqn:EQ; [|reflexivity].
    destruct HO as (HQR & HRQ & HN). pose proof (HQR _ _ _ EQ) as Hq.
    rewrite setitem_app. cbn [bind].
    assert (Hm : negb (Nat.eqb (length p) (L - 1)) = true).
    { apply negb_true_iff, Nat.eqb_neq. simpl in HL. lia. }
    rewrite Hm. rewrite getitem_app1. cbn [bind].
    pose proof (qr_lsplit A Q Rm Hq) as Hs. pose proof (qr_left_iso A Q Rm Hq) as Hiso.
    set (A' := lungroup (phys A) (dl A) Q) in *.
    destruct Hc as [HcA [HcB Hcq]].
    assert (HX : mc Rm = dl B).
    { destruct Hs as (_ & _ & _ & Hs & _). congruence. }
    unfold site_lmul at 1. rewrite HX, Nat.eqb_refl. cbn [bind].
    match goal with |- context [setitem _ _ ?b] => set (B' := b) end.
    assert (EB : site_lmul Rm B = Ok B').
    { unfold site_lmul. rewrite HX, Nat.eqb_refl. reflexivity. }
    rewrite setitem_app1. cbn [bind].
    replace (p ++ A' :: B' :: q) with ((p ++ [A']) ++ B' :: q) by (rewrite <- app_assoc; reflexivity).
    replace (S (length p)) with (length (p ++ [A'])) by (rewrite app_length; simpl; lia).
    inversion Hp as [|? ? HpA Hp']; subst. inversion Hp' as [|? ? HpB Hpq]; subst.
    assert (HdrA : 0 < dr A').
    { unfold A'. simpl. destruct Hq as (_ & Hq & _). rewrite Hq. simpl.
      apply Nat.min_glb_lt; [|apply HpA]. destruct HpA as (? & ? & ?). nia. }
    assert (HmX : mr Rm = dr A') by apply Hs.
    specialize (IH (p ++ [A']) (B' :: q) nrm (dr A') j).
    match type of IH with ?P -> _ => assert (H1 : P) end.
    { split; [exact HmX|exact Hcq]. }
    match type of IH with _ -> ?P -> _ => assert (H2 : P) end.
    { constructor; [|exact Hpq]. destruct HpB as (? & ? & ?). split; [assumption|].
      split; [|assumption]. change (0 < mr Rm). lia. }
    specialize (IH H1 H2).
    match type of IH with ?P -> _ => assert (H3 : P) by (simpl; lia) end.
    specialize (IH H3).
    match type of IH with ?P -> _ => assert (H4 : P) by (rewrite app_length; simpl; lia) end.
    specialize (IH H4).
    destruct (left_orth_loop _ _ _ _ _) as [[data nrm']|e]; [|exact IH].
    destruct IH as (rest' & -> & -> & I1 & I2 & I3 & I4 & I5 & I6).
    exists (A' :: rest'). rewrite <- app_assoc. split; [reflexivity|]. split; [reflexivity|].
    split; [split; [reflexivity|exact I1]|].
    split; [constructor; [|exact I2]; repeat split; try apply HpA; exact HdrA|].
    split; [unfold dims in *; simpl in *; rewrite I3; reflexivity|].
    split.
    { intros k C Hk HC. destruct k as [|k]; simpl in HC.
      - injection HC as <-. exact Hiso.
      - eapply I4; [|exact HC]. lia. }
    split.
    { intros k Hk. destruct k as [|k]; [lia|]. simpl. rewrite I5 by lia.
      destruct k as [|k]; [lia|]. reflexivity. }
    intros s x y Hsx Hx.
    destruct s as [|x0 [|x1 s]]; try solve [inversion Hsx; subst; inversion H5; subst; inversion H9].
    + inversion Hsx; subst. match goal with H : Forall2 _ [] _ |- _ => inversion H end.
    + unfold dims in Hsx; simpl in Hsx.
      apply incfg_cons in Hsx as [Hx0 Hsx].
      transitivity (amp (A' :: B' :: q) (x0 :: x1 :: s) x y).
      * cbn [amp]. apply sum_ext. intros k Hk. f_equal. apply I6; assumption.
      * eapply amp_lpush; eauto.
Qed.

Lemma dims_length (l : list (site R)) : length (dims l) = length l.
Proof. apply map_length. Qed.

Lemma amp_last_split (r : list (site R)) C C' X s x y i j :
  chain i (r ++ [C]) j -> lsplit C C' X -> incfg (dims (r ++ [C])) s -> x < i -> y < j ->
  amp (r ++ [C]) s x y = sum (dr C') (fun k => amp (r ++ [C']) s x k * me X k y).
Proof.
  revert s x i; induction r as [|A r IH]; intros s x i Hc HX Hs Hx Hy.
  - simpl in Hc. destruct Hc as [Hc1 Hc2]. simpl app in *.
    destruct s as [|x0 s]; [inversion Hs|]. apply incfg_cons in Hs as [Hx0 Hs].
    destruct s as [|? ?]; [|inversion Hs].
    rewrite (amp_lsplit C C' X [] x0 [] x y HX Hx0) by lia.
    apply sum_ext. intros k Hk. cbn [amp]. rewrite sum_dlt_r by (destruct HX as (_ & _ & _ & H & _); lia).
    rewrite sum_dlt_r by lia. reflexivity.
  - destruct s as [|x0 s]; [inversion Hs|]. simpl app in *. destruct Hc as [Hc1 Hc2].
    apply incfg_cons in Hs as [Hx0 Hs]. cbn [amp].
    transitivity (sum (dr A) (fun q => sum (dr C') (fun k => ent A x0 x q * amp (r ++ [C']) s q k * me X k y))).
    + apply sum_ext. intros q Hq. rewrite (IH s q (dr A) Hc2 HX Hs Hq Hy), <- sum_mul_l.
      apply sum_ext. intros; ring.
    + rewrite sum_swap. apply sum_ext. intros k _. rewrite sum_mul_r. reflexivity.
Qed.

Lemma chain_app_last i (r : list (site R)) C j :
  chain i (r ++ [C]) j -> exists k, chain i r k /\ dl C = k /\ dr C = j.
Proof.
  revert i; induction r as [|A r IH]; intros i H; simpl in H.
  - exists i. destruct H as [H1 H2]. simpl in *. auto.
  - destruct H as [H1 H2]. destruct (IH _ H2) as (k & K1 & K2 & K3). exists k.
    simpl. auto.
Qed.

Lemma chain_app_mk i (r : list (site R)) C k j :
  chain i r k -> dl C = k -> dr C = j -> chain i (r ++ [C]) j.
Proof.
  revert i; induction r as [|A r IH]; intros i H H1 H2; simpl in *.
  - subst. auto.
  - destruct H as [Ha Hb]. split; auto.
Qed.

Lemma left_loop_full (O : lapack R) L : lapack_ok O ->
  forall p rest nrm i j,
  chain i rest j -> pos rest -> rest <> [] -> L = (length p + length rest)%nat ->
  match left_orth_loop O L (seq (length p) (length rest)) (p ++ rest) nrm with
  | Err e => e = LinAlgError
  | Ok (data, nrm') => exists rest' X, data = p ++ rest' /\ nrm' = Some X /\
      chain i rest' (mr X) /\ mc X = j /\ (0 < mr X <= j)%nat /\
      pos rest' /\ dims rest' = dims rest /\
      Forall left_iso rest' /\
      (forall s x y, incfg (dims rest) s -> x < i -> y < j ->
         amp rest s x y = sum (mr X) (fun k => amp rest' s x k * me X k y))
  end.
Proof.
  intros HO p rest nrm i j Hc Hp Hne HL.
  assert (Hpos : 0 < length rest) by (destruct rest; [congruence|simpl; lia]).
  replace (length rest) with (length rest - 1 + 1)%nat by lia.
  rewrite seq_app, left_orth_loop_app.
  pose proof (left_loop_ok O L HO (length rest - 1) p rest nrm i j Hc Hp ltac:(lia) HL) as H.
  destruct (left_orth_loop O L (seq (length p) (length rest - 1)) (p ++ rest) nrm) as [[data nrm']|e];
    [|exact H].
  destruct H as (r & -> & -> & I1 & I2 & I3 & I4 & I5 & I6). cbn [bind fst snd].
  assert (Hlen : length r = length rest) by (rewrite <- !dims_length, I3; reflexivity).
  destruct (exists_last (l := r)) as (r0 & C & ->); [intros ->; simpl in Hlen; lia|].
  rewrite app_length in Hlen; simpl in Hlen.
  replace (length p + (length rest - 1))%nat with (length (p ++ r0)) by (rewrite app_length; lia).
  rewrite app_assoc. cbn [seq left_orth_loop]. rewrite getitem_app. cbn [bind].
  destruct (la_qr O (lgroup C)) as [[Q Rm]|] eqn:EQ; [|reflexivity].
  destruct HO as (HQR & HRQ & HN). pose proof (HQR _ _ _ EQ) as Hq.
  rewrite setitem_app. cbn [bind].
  assert (Hm : negb (Nat.eqb (length (p ++ r0)) (L - 1)) = false).
  { apply negb_false_iff, Nat.eqb_eq. rewrite app_length. lia. }
  rewrite Hm.
  pose proof (qr_lsplit C Q Rm Hq) as Hs. pose proof (qr_left_iso C Q Rm Hq) as Hiso.
  set (C' := lungroup (phys C) (dl C) Q) in *.
  destruct (chain_app_last _ _ _ _ I1) as (k & K1 & K2 & K3).
  exists (r0 ++ [C']), Rm. rewrite <- app_assoc.
  assert (HmX : mr Rm = dr C') by apply Hs.
  split; [reflexivity|]. split; [reflexivity|].
  split; [eapply chain_app_mk; [exact K1|exact K2|auto]|].
  assert (HmC : mc Rm = dr C) by apply Hs.
  split; [congruence|].
  apply Forall_app in I2 as [P1 P2]. inversion P2 as [|? ? HpC _]; subst.
  assert (HX : 0 < mr Rm <= dr C).
  { destruct Hq as (_ & _ & Hq & _). rewrite Hq. simpl.
    split; [apply Nat.min_glb_lt; [|apply HpC]; destruct HpC as (? & ? & ?); nia|].
    apply Nat.le_min_r. }
  split; [exact HX|].
  split; [apply Forall_app; split; [exact P1|]; constructor; [|constructor];
          repeat split; try apply HpC; simpl; change (0 < dr C'); lia|].
  split; [rewrite <- I3, !dims_app; reflexivity|].
  split.
  { apply Forall_app. split; [|constructor; [exact Hiso|constructor]].
    apply Forall_forall. intros B HB. apply In_nth_error in HB as (q & HB).
    assert (q < length r0) by (apply nth_error_Some; congruence).
    apply (I4 q); [lia|]. rewrite nth_error_app1; assumption. }
  intros s x y Hsc Hx Hy. rewrite <- I6 by assumption. rewrite HmX.
  eapply amp_last_split; [exact I1|exact Hs| |exact Hx|exact Hy].
  rewrite I3; exact Hsc.
Qed.

(** *** right sweep *)
Lemma amp_rpush (A A' B B' : site R) X l x y s i j :
  rsplit A X A' -> site_rmul B X = Ok B' -> y < phys A -> dr B = dl A ->
  amp (B' :: A' :: l) (x :: y :: s) i j = amp (B :: A :: l) (x :: y :: s) i j.
Proof.
  intros (H1 & H2 & H3 & H4 & H5) HB Hy HBA.
  unfold site_rmul in HB. destruct (Nat.eqb_spec (dr B) (mr X)) as [H|]; [|discriminate].
  injection HB as <-. simpl. rewrite H3.
  transitivity (sum (dl A') (fun k => sum (dr B) (fun p => ent B x i p * (me X p k *
     sum (dr A') (fun q => ent A' y k q * amp l s q j))))).
  - apply sum_ext. intros k _. rewrite <- sum_mul_r. apply sum_ext. intros; ring.
  - rewrite sum_swap. apply sum_ext. intros p Hp. rewrite sum_mul_l. f_equal.
    rewrite H2.
    transitivity (sum (dl A') (fun k => sum (dr A) (fun q => me X p k * ent A' y k q * amp l s q j))).
    + apply sum_ext. intros k _. rewrite <- sum_mul_l. apply sum_ext. intros; ring.
    + rewrite sum_swap. apply sum_ext. intros q Hq. rewrite sum_mul_r, H5 by (assumption || lia).
      reflexivity.
Qed.

Lemma amp_ctx_r (r l l' : list (site R)) i k s x y :
  chain i r k -> dims l = dims l' -> incfg (dims (r ++ l)) s -> x < i ->
  (forall t p, incfg (dims l) t -> p < k -> amp l t p y = amp l' t p y) ->
  amp (r ++ l) s x y = amp (r ++ l') s x y.
Proof.
  intros Hc Hd Hs Hx H. rewrite dims_app in Hs. apply incfg_app_inv in Hs as (s1 & s2 & -> & H1 & H2).
  assert (Hl : length s1 = length r) by (apply incfg_length in H1; rewrite dims_length in H1; exact H1).
  erewrite !amp_app by eassumption. apply sum_ext. intros p Hp. rewrite H by assumption. reflexivity.
Qed.

Lemma amp_ctx_l (r r' l : list (site R)) i k s x y :
  chain i r k -> chain i r' k -> dims r = dims r' -> incfg (dims (r ++ l)) s -> x < i ->
  (forall t p, incfg (dims r) t -> p < k -> amp r t x p = amp r' t x p) ->
  amp (r ++ l) s x y = amp (r' ++ l) s x y.
Proof.
  intros Hc Hc' Hd Hs Hx H. rewrite dims_app in Hs. apply incfg_app_inv in Hs as (s1 & s2 & -> & H1 & H2).
  assert (Hl : length s1 = length r) by (apply incfg_length in H1; rewrite dims_length in H1; exact H1).
  assert (Hl' : length s1 = length r') by (rewrite Hl, <- !dims_length, Hd; reflexivity).
  rewrite (amp_app _ _ _ _ _ _ _ Hl Hc Hx), (amp_app _ _ _ _ _ _ _ Hl' Hc' Hx).
  apply sum_ext. intros p Hp. rewrite H by assumption. reflexivity.
Qed.

Lemma right_loop_ok (O : lapack R) : lapack_ok O ->
  forall n rest q nrm i j,
  chain i rest j -> pos rest -> n < length rest ->
  match right_orth_loop O (rev (seq (length rest - n) n)) (rest ++ q) nrm with
  | Err e => e = LinAlgError
  | Ok (data, nrm') => exists rest', data = rest' ++ q /\ nrm' = nrm /\
      chain i rest' j /\ pos rest' /\ dims rest' = dims rest /\
      (forall k A, (length rest - n <= k)%nat -> nth_error rest' k = Some A -> right_iso A) /\
      (forall k, (S k + n < length rest)%nat -> nth_error rest' k = nth_error rest k) /\
      (forall s x y, incfg (dims rest) s -> x < i -> y < j -> amp rest' s x y = amp rest s x y)
  end.
Proof.
  intros HO n. induction n as [|n IH]; intros rest q nrm i j Hc Hp Hn.
  - simpl. exists rest. repeat split; auto. intros k A Hk HA.
    assert (k < length rest) by (apply nth_error_Some; congruence). lia.
  - destruct (exists_last (l := rest)) as (r1 & A & ->); [intros ->; simpl in Hn; lia|].
    rewrite app_length in Hn; simpl in Hn.
    destruct (exists_last (l := r1)) as (r & B & ->); [intros ->; simpl in Hn; lia|].
    rewrite app_length in Hn; simpl in Hn.
    rewrite seq_S, rev_app_distr. cbn [rev app].
    replace (length ((r ++ [B]) ++ [A]) - S n + n)%nat with (length (r ++ [B]))
      by (rewrite !app_length; simpl; lia).
    replace (length ((r ++ [B]) ++ [A]) - S n)%nat with (length (r ++ [B]) - n)%nat
      by (rewrite !app_length; simpl; lia).
    cbn [right_orth_loop].
    rewrite <- (app_assoc (r ++ [B])). cbn [app]. rewrite getitem_app. cbn [bind].
    destruct (la_rq O (rgroup A)) as [[Rm Q]|] eqn:EQ; [|reflexivity].
    destruct HO as (HQR & HRQ & HN). pose proof (HRQ _ _ _ EQ) as Hq.
    rewrite setitem_app. cbn [bind].
    assert (Hm : negb (Nat.eqb (length (r ++ [B])) 0) = true).
    { apply negb_true_iff, Nat.eqb_neq. rewrite app_length; simpl; lia. }
    rewrite Hm. rewrite <- app_assoc. cbn [app].
    assert (Hidx : (length (r ++ [B]) - 1)%nat = length r) by (rewrite app_length; simpl; lia).
    rewrite Hidx, getitem_app. cbn [bind].
    pose proof (rq_rsplit A Q Rm Hq) as Hs. pose proof (rq_right_iso A Q Rm Hq) as Hiso.
    set (A' := rungroup (phys A) (dr A) Q) in *.
    destruct (chain_app_last _ _ _ _ Hc) as (k1 & Hc1 & Hk1 & HrA).
    destruct (chain_app_last _ _ _ _ Hc1) as (k2 & Hc2 & Hk2 & HrB).
    assert (HX : dr B = mr Rm).
    { destruct Hs as (_ & _ & _ & Hs & _). congruence. }
    unfold site_rmul at 1. rewrite HX, Nat.eqb_refl. cbn [bind].
    match goal with |- context [setitem _ _ ?b] => set (B' := b) end.
    assert (EB : site_rmul B Rm = Ok B').
    { unfold site_rmul. rewrite HX, Nat.eqb_refl. reflexivity. }
    rewrite setitem_app. cbn [bind].
    replace (r ++ B' :: A' :: q) with ((r ++ [B']) ++ A' :: q) by (rewrite <- app_assoc; reflexivity).
    replace (length (r ++ [B])) with (length (r ++ [B'])) by (rewrite !app_length; reflexivity).
    apply Forall_app in Hp as [Hp1 HpA]. apply Forall_app in Hp1 as [Hpr HpB].
    inversion HpA as [|? ? HA0 _]; subst. inversion HpB as [|? ? HB0 _]; subst.
    assert (HdlA : 0 < dl A').
    { unfold A'. simpl. destruct Hq as (_ & Hq & _). rewrite Hq. simpl.
      apply Nat.min_glb_lt; [apply HA0|]. destruct HA0 as (? & ? & ?). nia. }
    assert (HmX : mc Rm = dl A') by apply Hs.
    specialize (IH (r ++ [B']) (A' :: q) nrm i (mc Rm)).
    match type of IH with ?P -> _ => assert (H1 : P) end.
    { eapply chain_app_mk; [exact Hc2|reflexivity|reflexivity]. }
    match type of IH with _ -> ?P -> _ => assert (H2 : P) end.
    { apply Forall_app; split; [exact Hpr|]. constructor; [|constructor].
      destruct HB0 as (? & ? & ?). split; [assumption|].
      split; [assumption|]. change (0 < mc Rm). lia. }
    specialize (IH H1 H2).
    match type of IH with ?P -> _ => assert (H3 : P) by (rewrite app_length; simpl; lia) end.
    specialize (IH H3).
    destruct (right_orth_loop _ _ _ _) as [[data nrm']|e]; [|exact IH].
    destruct IH as (rest' & -> & -> & I1 & I2 & I3 & I4 & I5 & I6).
    assert (Hlr : length rest' = length (r ++ [B'])) by (rewrite <- !dims_length, I3; reflexivity).
    rewrite app_length in Hlr; simpl in Hlr.
    exists (rest' ++ [A']). rewrite <- app_assoc. split; [reflexivity|]. split; [reflexivity|].
    split; [eapply chain_app_mk; [exact I1|congruence|reflexivity]|].
    split; [apply Forall_app; split; [exact I2|]; constructor; [|constructor]; repeat split;
            try apply HA0; exact HdlA|].
    assert (Hdr : dims (rest' ++ [A']) = dims ((r ++ [B]) ++ [A])).
    { rewrite !dims_app, I3, dims_app. reflexivity. }
    split; [exact Hdr|].
    split.
    { intros k C Hk HC. destruct (Nat.lt_ge_cases k (length rest')) as [Hlt|Hge].
      - rewrite nth_error_app1 in HC by exact Hlt. eapply I4; [|exact HC].
        rewrite !app_length in *; simpl in *; lia.
      - rewrite nth_error_app2 in HC by exact Hge.
        destruct (k - length rest')%nat as [|z] eqn:Ez; simpl in HC.
        + injection HC as <-. exact Hiso.
        + destruct z; discriminate. }
    split.
    { intros k Hk. rewrite !app_length in *; simpl in *.
      rewrite nth_error_app1 by lia. rewrite I5 by (rewrite ?app_length; simpl; lia).
      rewrite nth_error_app1 by lia. rewrite nth_error_app1 by (rewrite app_length; simpl; lia).
      rewrite nth_error_app1 by lia. reflexivity. }
    intros s x y Hsx Hx Hy.
    transitivity (amp ((r ++ [B']) ++ [A']) s x y).
    + eapply amp_ctx_l; [exact I1|exact H1|exact I3|rewrite Hdr; exact Hsx|exact Hx|].
      intros t p Ht Hpp. apply I6; try assumption. rewrite <- I3. exact Ht.
    + rewrite <- !app_assoc. eapply amp_ctx_r; [exact Hc2|reflexivity| |exact Hx|].
      * rewrite !dims_app in *. rewrite <- app_assoc in Hsx. exact Hsx.
      * intros t p Ht Hpp. destruct t as [|t0 [|t1 t]];
          [inversion Ht|inversion Ht as [|? ? ? ? ? Ht']; inversion Ht'|].
        destruct t; [|inversion Ht as [|? ? ? ? ? Ht']; inversion Ht' as [|? ? ? ? ? Ht'']; inversion Ht''].
        apply incfg_cons in Ht as [_ Ht]. apply incfg_cons in Ht as [Ht1 _].
        eapply amp_rpush; eauto; congruence.
Qed.

Lemma right_orth_loop_app (O : lapack R) a b data nrm :
  right_orth_loop O (a ++ b) data nrm
  = bind (right_orth_loop O a data nrm) (fun dn => right_orth_loop O b (fst dn) (snd dn)).
Proof.
  revert data nrm; induction a as [|m a IH]; intros data nrm; [reflexivity|].
  cbn [app right_orth_loop].
  destruct (getitem data m) as [A|]; [|reflexivity]. cbn [bind].
  destruct (la_rq O (rgroup A)) as [[Rm Q]|]; [|reflexivity].
  destruct (setitem data m _) as [d1|]; [|reflexivity]. cbn [bind].
  destruct (negb (m =? 0)); [|apply IH].
  destruct (getitem d1 (m - 1)) as [B|]; [|reflexivity]. cbn [bind].
  destruct (site_rmul B Rm) as [B'|]; [|reflexivity]. cbn [bind].
  destruct (setitem d1 (m - 1) B') as [d2|]; [|reflexivity]. cbn [bind]. apply IH.
Qed.

Lemma amp_first_split (C C' : site R) X l s x y :
  rsplit C X C' -> incfg (dims (C :: l)) s -> x < dl C ->
  amp (C :: l) s x y = sum (dl C') (fun k => me X x k * amp (C' :: l) s k y).
Proof.
  intros (H1 & H2 & H3 & H4 & H5) Hs Hx. destruct s as [|x0 s]; [inversion Hs|].
  apply incfg_cons in Hs as [Hx0 Hs]. cbn [amp]. rewrite H2.
  transitivity (sum (dr C) (fun q => sum (dl C') (fun k => me X x k * (ent C' x0 k q * amp l s q y)))).
  - apply sum_ext. intros q Hq. rewrite (H5 x0 x q Hx0 Hx Hq), <- sum_mul_r.
    apply sum_ext. intros; ring.
  - rewrite sum_swap. apply sum_ext. intros k _. apply sum_mul_l.
Qed.

Lemma right_loop_full (O : lapack R) : lapack_ok O ->
  forall rest nrm i j,
  chain i rest j -> pos rest -> rest <> [] ->
  match right_orth_loop O (rev (seq 0 (length rest))) rest nrm with
  | Err e => e = LinAlgError
  | Ok (data, nrm') => exists X, nrm' = Some X /\
      chain (mc X) data j /\ mr X = i /\ (0 < mc X <= i)%nat /\
      pos data /\ dims data = dims rest /\
      Forall right_iso data /\
      (forall s x y, incfg (dims rest) s -> x < i -> y < j ->
         amp rest s x y = sum (mc X) (fun k => me X x k * amp data s k y))
  end.
Proof.
  intros HO rest nrm i j Hc Hp Hne.
  assert (Hpos : 0 < length rest) by (destruct rest; [congruence|simpl; lia]).
  assert (Hseq : rev (seq 0 (length rest))
          = rev (seq (length rest - (length rest - 1)) (length rest - 1)) ++ [0%nat]).
  { replace (length rest) with (S (length rest - 1)) at 1 by lia.
    cbn [seq rev]. replace (length rest - (length rest - 1))%nat with 1%nat by lia. reflexivity. }
  rewrite Hseq, right_orth_loop_app.
  pose proof (right_loop_ok O HO (length rest - 1) rest [] nrm i j Hc Hp ltac:(lia)) as H.
  rewrite app_nil_r in H.
  destruct (right_orth_loop O (rev (seq (length rest - (length rest - 1)) (length rest - 1))) rest nrm)
    as [[data nrm']|e]; [|exact H].
  destruct H as (r & -> & -> & I1 & I2 & I3 & I4 & I5 & I6). cbn [bind fst snd].
  rewrite app_nil_r.
  assert (Hlen : length r = length rest) by (rewrite <- !dims_length, I3; reflexivity).
  destruct r as [|C r]; [simpl in Hlen; lia|].
  change (C :: r) with ([] ++ C :: r). cbn [right_orth_loop].
  rewrite (getitem_app [] C r : getitem ([] ++ C :: r) 0 = Ok C). cbn [bind].
  destruct (la_rq O (rgroup C)) as [[Rm Q]|] eqn:EQ; [|reflexivity].
  destruct HO as (HQR & HRQ & HN). pose proof (HRQ _ _ _ EQ) as Hq.
  cbn [app setitem bind Nat.eqb negb].
  pose proof (rq_rsplit C Q Rm Hq) as Hs. pose proof (rq_right_iso C Q Rm Hq) as Hiso.
  set (C' := rungroup (phys C) (dr C) Q) in *.
  destruct I1 as [HlC I1].
  exists Rm. split; [reflexivity|].
  assert (HmX : mc Rm = dl C') by apply Hs. assert (HmC : mr Rm = dl C) by apply Hs.
  split; [split; [auto|exact I1]|]. split; [congruence|].
  inversion I2 as [|? ? HpC Hpr]; subst.
  assert (HX : 0 < mc Rm <= dl C).
  { destruct Hq as (_ & _ & Hq & _). rewrite Hq. simpl.
    split; [apply Nat.min_glb_lt; [apply HpC|]; destruct HpC as (? & ? & ?); nia|].
    apply Nat.le_min_l. }
  split; [exact HX|].
  split; [constructor; [|exact Hpr]; repeat split; try apply HpC; change (0 < dl C'); lia|].
  split; [rewrite <- I3; reflexivity|].
  split.
  { constructor; [exact Hiso|]. apply Forall_forall. intros B HB. apply In_nth_error in HB as (q & HB).
    apply (I4 (S q)); [lia|exact HB]. }
  intros s x y Hsc Hx Hy. rewrite <- I6 by assumption. rewrite HmX.
  apply amp_first_split; [exact Hs|rewrite I3; exact Hsc|exact Hx].
Qed.

End Proofs.
