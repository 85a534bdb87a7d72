From Verif Require Import Alg ModelMPS SpecMPS ProofMPS ProofMPS2 ModelOrth SpecOrth ProofOrth ProofOrth2.

Section Proofs.
Context {R : sring}.
Add Ring Rr : (s_th R).
Local Open Scope sr_scope.

Lemma seq_app_len {A} (p : list A) n : seq (length p) n = seq (length p + 0) n.
Proof. rewrite Nat.add_0_r. reflexivity. Qed.

Lemma pos_app (p q : list (site R)) : pos (p ++ q) <-> pos p /\ pos q.
Proof. apply Forall_app. Qed.

(** The left sweep over sites fr..to-1 of a closed chain, to < L. *)
Lemma left_orth_partial (O : lapack R) (m : fmps R) fr to :
  lapack_ok O -> wf m -> pos (fdata m) -> fr <= to -> to < fL m ->
  match left_orthogonalise O m fr (Some to) with
  | Err e => e = LinAlgError
  | Ok m' => wf m' /\ pos (fdata m') /\ dims (fdata m') = dims (fdata m) /\
      fL m' = fL m /\ fd m' = fd m /\ fD m' = fD m /\
      fcan m' = fcan m /\ forth m' = forth m /\ foc m' = foc m /\ fnorm m' = fnorm m /\
      (forall k A, (fr <= k < to)%nat -> nth_error (fdata m') k = Some A -> left_iso A) /\
      (forall k, (k < fr \/ to < k)%nat -> nth_error (fdata m') k = nth_error (fdata m) k) /\
      (forall s, incfg (dims (fdata m)) s -> psi m' s = psi m s)
  end.
Proof.
  intros HO (Hc & HL & Hne) Hp Hfr Hto. unfold left_orthogonalise.
  set (p := firstn fr (fdata m)). set (rest := skipn fr (fdata m)).
  assert (Hd : fdata m = p ++ rest) by (symmetry; apply firstn_skipn).
  assert (Hlp : length p = fr) by (unfold p; rewrite firstn_length; lia).
  assert (Hlr : length rest = (length (fdata m) - fr)%nat) by (unfold rest; apply skipn_length).
  unfold closed in Hc. rewrite Hd in Hc. apply chain_app in Hc as (a & Hc1 & Hc2).
  rewrite Hd in Hp. apply pos_app in Hp as [Hp1 Hp2].
  pose proof (left_loop_ok O (fL m) HO (to - fr) p rest (fnorm m) a 1 Hc2 Hp2) as H.
  specialize (H ltac:(lia) ltac:(lia)). rewrite Hlp, <- Hd in H.
  destruct (left_orth_loop O (fL m) (seq fr (to - fr)) (fdata m) (fnorm m)) as [[data nrm]|e];
    [|exact H].
  destruct H as (r & -> & -> & I1 & I2 & I3 & I4 & I5 & I6). cbn [bind fst snd].
  assert (Hfull : Nat.eqb fr 0 && Nat.eqb to (fL m) = false).
  { apply andb_false_iff. right. apply Nat.eqb_neq. lia. }
  rewrite Hfull. simpl.
  assert (Hdr : dims (p ++ r) = dims (fdata m)) by (rewrite Hd, !dims_app, I3; reflexivity).
  assert (Hlen : length (p ++ r) = length (fdata m)) by (rewrite <- !dims_length, Hdr; reflexivity).
  split; [split; [apply chain_app; exists a; auto|split; simpl; [congruence|]]|].
  { intros E. rewrite E in Hlen. simpl in Hlen. lia. }
  split; [apply pos_app; auto|]. split; [exact Hdr|].
  do 7 (split; [reflexivity|]).
  split.
  { intros k A Hk HA. rewrite nth_error_app2 in HA by lia. eapply I4; [|exact HA]. lia. }
  split.
  { intros k Hk. rewrite Hd. destruct (Nat.lt_ge_cases k fr) as [Hlt|Hge].
    - rewrite !nth_error_app1 by lia. reflexivity.
    - rewrite !nth_error_app2 by lia. apply I5. lia. }
  intros s Hs. unfold psi. simpl. rewrite Hd. symmetry.
  eapply amp_ctx_r; [exact Hc1|auto| |lia|].
  - rewrite Hd in Hs. exact Hs.
  - intros t q Ht Hq. symmetry. apply I6; assumption.
Qed.

(** The full left sweep. *)
Lemma left_orth_full (O : lapack R) (m : fmps R) :
  lapack_ok O -> wf m -> pos (fdata m) ->
  match left_orthogonalise O m 0 None with
  | Err e => e = LinAlgError
  | Ok m' => wf m' /\ pos (fdata m') /\ dims (fdata m') = dims (fdata m) /\
      fL m' = fL m /\ fd m' = fd m /\ fD m' = fD m /\
      fcan m' = fcan m /\ forth m' = Some true /\ foc m' = Some (fL m) /\
      Forall left_iso (fdata m') /\
      exists X, fnorm m' = Some X /\ mr X = 1%nat /\ mc X = 1%nat /\
      (forall s, incfg (dims (fdata m)) s -> psi m s = psi m' s * me X 0 0)
  end.
Proof.
  intros HO (Hc & HL & Hne) Hp. unfold left_orthogonalise. rewrite Nat.sub_0_r.
  pose proof (left_loop_full O (fL m) HO [] (fdata m) (fnorm m) 1 1 Hc Hp Hne HL) as H.
  cbn [length app] in H. rewrite <- HL in H.
  destruct (left_orth_loop O (fL m) (seq 0 (fL m)) (fdata m) (fnorm m)) as [[data nrm]|e];
    [|exact H].
  destruct H as (r & X & -> & -> & I1 & I2 & I3 & I4 & I5 & I6 & I7). cbn [bind fst snd].
  rewrite !Nat.eqb_refl. simpl.
  assert (HX1 : mr X = 1%nat) by lia. rewrite HX1 in *.
  assert (Hlen : length r = length (fdata m)) by (rewrite <- !dims_length, I5; reflexivity).
  split; [split; [exact I1|split; simpl; [congruence|]]|].
  { intros E. rewrite E in Hlen. destruct (fdata m); [congruence|discriminate]. }
  split; [exact I4|]. split; [exact I5|]. do 6 (split; [reflexivity|]).
  split; [exact I6|]. exists X. split; [reflexivity|]. split; [exact HX1|]. split; [exact I2|].
  intros s Hs. unfold psi. simpl. rewrite (I7 s 0%nat 0%nat Hs) by lia. simpl. ring.
Qed.

(** The left sweep up to the last site, not starting at the first. *)
Lemma left_orth_tail (O : lapack R) (m : fmps R) fr :
  lapack_ok O -> wf m -> pos (fdata m) -> 0 < fr -> fr < fL m ->
  match left_orthogonalise O m fr None with
  | Err e => e = LinAlgError
  | Ok m' => wf m' /\ pos (fdata m') /\ dims (fdata m') = dims (fdata m) /\
      forth m' = forth m /\ foc m' = foc m /\
      (forall k A, (fr <= k)%nat -> nth_error (fdata m') k = Some A -> left_iso A) /\
      (forall k, (k < fr)%nat -> nth_error (fdata m') k = nth_error (fdata m) k) /\
      exists X, fnorm m' = Some X /\ mr X = 1%nat /\ mc X = 1%nat /\
      (forall s, incfg (dims (fdata m)) s -> psi m s = psi m' s * me X 0 0)
  end.
Proof.
  intros HO (Hc & HL & Hne) Hp Hfr0 Hfr. unfold left_orthogonalise.
  set (p := firstn fr (fdata m)). set (rest := skipn fr (fdata m)).
  assert (Hd : fdata m = p ++ rest) by (symmetry; apply firstn_skipn).
  assert (Hlp : length p = fr) by (unfold p; rewrite firstn_length; lia).
  assert (Hlr : length rest = (length (fdata m) - fr)%nat) by (unfold rest; apply skipn_length).
  unfold closed in Hc. rewrite Hd in Hc. apply chain_app in Hc as (a & Hc1 & Hc2).
  rewrite Hd in Hp. apply pos_app in Hp as [Hp1 Hp2].
  assert (Hrne : rest <> []) by (intros E; rewrite E in Hlr; simpl in Hlr; lia).
  pose proof (left_loop_full O (fL m) HO p rest (fnorm m) a 1 Hc2 Hp2 Hrne ltac:(lia)) as H.
  rewrite Hlp, <- Hd, Hlr, <- HL in H.
  destruct (left_orth_loop O (fL m) (seq fr (fL m - fr)) (fdata m) (fnorm m)) as [[data nrm]|e];
    [|exact H].
  destruct H as (r & X & -> & -> & I1 & I2 & I3 & I4 & I5 & I6 & I7). cbn [bind fst snd].
  assert (Hfull : Nat.eqb fr 0 = false) by (apply Nat.eqb_neq; lia).
  rewrite Hfull. simpl.
  assert (HX1 : mr X = 1%nat) by lia. rewrite HX1 in *.
  assert (Hdr : dims (p ++ r) = dims (fdata m)) by (rewrite Hd, !dims_app, I5; reflexivity).
  assert (Hlen : length (p ++ r) = length (fdata m)) by (rewrite <- !dims_length, Hdr; reflexivity).
  split; [split; [apply chain_app; exists a; auto|split; simpl; [congruence|]]|].
  { intros E. rewrite E in Hlen. simpl in Hlen. lia. }
  split; [apply pos_app; auto|]. split; [exact Hdr|]. do 2 (split; [reflexivity|]).
  split.
  { intros k A Hk HA. rewrite nth_error_app2 in HA by lia. apply nth_error_In in HA.
    rewrite Forall_forall in I6. auto. }
  split.
  { intros k Hk. rewrite Hd. rewrite !nth_error_app1 by lia. reflexivity. }
  exists X. split; [reflexivity|]. split; [exact HX1|]. split; [exact I2|].
  intros s Hs. unfold psi. simpl. rewrite Hd in *. rewrite dims_app in Hs.
  apply incfg_app_inv in Hs as (s1 & s2 & -> & H1 & H2).
  assert (Hl1 : length s1 = length p) by (apply incfg_length in H1; rewrite dims_length in H1; exact H1).
  rewrite (amp_app _ _ _ _ _ _ _ Hl1 Hc1) by lia. rewrite (amp_app _ _ _ _ _ _ _ Hl1 Hc1) by lia.
  rewrite <- sum_mul_r. apply sum_ext. intros q Hq. rewrite (I7 s2 q 0%nat H2 Hq) by lia. simpl. ring.
Qed.

(** The right sweep over sites fr..L-1, fr > 0. *)
Lemma right_orth_partial (O : lapack R) (m : fmps R) fr to :
  lapack_ok O -> wf m -> pos (fdata m) -> 0 < fr -> fr <= to -> to <= fL m ->
  match right_orthogonalise O m fr (Some to) with
  | Err e => e = LinAlgError
  | Ok m' => wf m' /\ pos (fdata m') /\ dims (fdata m') = dims (fdata m) /\
      fL m' = fL m /\ fd m' = fd m /\ fD m' = fD m /\
      fcan m' = fcan m /\ forth m' = forth m /\ foc m' = foc m /\ fnorm m' = fnorm m /\
      (forall k A, (fr <= k < to)%nat -> nth_error (fdata m') k = Some A -> right_iso A) /\
      (forall k, (S k < fr \/ to <= k)%nat -> nth_error (fdata m') k = nth_error (fdata m) k) /\
      (forall s, incfg (dims (fdata m)) s -> psi m' s = psi m s)
  end.
Proof.
  intros HO (Hc & HL & Hne) Hp Hfr0 Hfr Hto. unfold right_orthogonalise.
  set (rest := firstn to (fdata m)). set (q := skipn to (fdata m)).
  assert (Hd : fdata m = rest ++ q) by (symmetry; apply firstn_skipn).
  assert (Hlr : length rest = to) by (unfold rest; rewrite firstn_length; lia).
  unfold closed in Hc. rewrite Hd in Hc. apply chain_app in Hc as (a & Hc1 & Hc2).
  rewrite Hd in Hp. apply pos_app in Hp as [Hp1 Hp2].
  pose proof (right_loop_ok O HO (to - fr) rest q (fnorm m) 1 a Hc1 Hp1 ltac:(lia)) as H.
  rewrite Hlr, <- Hd in H. replace (to - (to - fr))%nat with fr in H by lia.
  destruct (right_orth_loop O (rev (seq fr (to - fr))) (fdata m) (fnorm m)) as [[data nrm]|e];
    [|exact H].
  destruct H as (r & -> & -> & I1 & I2 & I3 & I4 & I5 & I6). cbn [bind fst snd].
  assert (Hfull : Nat.eqb fr 0 = false) by (apply Nat.eqb_neq; lia).
  rewrite Hfull. simpl.
  assert (Hdr : dims (r ++ q) = dims (fdata m)) by (rewrite Hd, !dims_app, I3; reflexivity).
  assert (Hlen : length (r ++ q) = length (fdata m)) by (rewrite <- !dims_length, Hdr; reflexivity).
  assert (Hlr' : length r = to) by (rewrite <- Hlr, <- !dims_length, I3; reflexivity).
  split; [split; [apply chain_app; exists a; auto|split; simpl; [congruence|]]|].
  { intros E. rewrite E in Hlen. simpl in Hlen. destruct (fdata m); [congruence|discriminate]. }
  split; [apply pos_app; auto|]. split; [exact Hdr|].
  do 7 (split; [reflexivity|]).
  split.
  { intros k A Hk HA. rewrite nth_error_app1 in HA by lia. eapply I4; [|exact HA]. lia. }
  split.
  { intros k Hk. rewrite Hd. destruct (Nat.lt_ge_cases k to) as [Hlt|Hge].
    - rewrite !nth_error_app1 by lia. apply I5. lia.
    - rewrite !nth_error_app2 by lia. f_equal. lia. }
  intros s Hs. unfold psi. simpl. rewrite Hd.
  eapply amp_ctx_l; [exact I1|exact Hc1|auto| |lia|].
  - rewrite Hdr. exact Hs.
  - intros t y Ht Hy. apply I6; try assumption; try lia. rewrite <- I3. exact Ht.
Qed.

(** The full right sweep. *)
Lemma right_orth_full (O : lapack R) (m : fmps R) :
  lapack_ok O -> wf m -> pos (fdata m) ->
  match right_orthogonalise O m 0 None with
  | Err e => e = LinAlgError
  | Ok m' => wf m' /\ pos (fdata m') /\ dims (fdata m') = dims (fdata m) /\
      fL m' = fL m /\ fd m' = fd m /\ fD m' = fD m /\
      fcan m' = fcan m /\ forth m' = Some true /\ foc m' = Some 0%nat /\
      Forall right_iso (fdata m') /\
      exists X, fnorm m' = Some X /\ mr X = 1%nat /\ mc X = 1%nat /\
      (forall s, incfg (dims (fdata m)) s -> psi m s = me X 0 0 * psi m' s)
  end.
Proof.
  intros HO (Hc & HL & Hne) Hp. unfold right_orthogonalise. rewrite Nat.sub_0_r.
  pose proof (right_loop_full O HO (fdata m) (fnorm m) 1 1 Hc Hp Hne) as H.
  rewrite <- HL in H.
  destruct (right_orth_loop O (rev (seq 0 (fL m))) (fdata m) (fnorm m)) as [[data nrm]|e];
    [|exact H].
  destruct H as (X & -> & I1 & I2 & I3 & I4 & I5 & I6 & I7). cbn [bind fst snd].
  rewrite !Nat.eqb_refl. simpl.
  assert (HX1 : mc X = 1%nat) by lia. rewrite HX1 in *.
  assert (Hlen : length data = length (fdata m)) by (rewrite <- !dims_length, I5; reflexivity).
  split; [split; [exact I1|split; simpl; [congruence|]]|].
  { intros E. rewrite E in Hlen. destruct (fdata m); [congruence|discriminate]. }
  split; [exact I4|]. split; [exact I5|]. do 6 (split; [reflexivity|]).
  split; [exact I6|]. exists X. split; [reflexivity|]. split; [exact I2|]. split; [exact HX1|].
  intros s Hs. unfold psi. simpl. rewrite (I7 s 0%nat 0%nat Hs) by lia. simpl. ring.
Qed.

(** The right sweep from site to-1 down to the first site, to < L. *)
Lemma right_orth_head (O : lapack R) (m : fmps R) to :
  lapack_ok O -> wf m -> pos (fdata m) -> 0 < to -> to < fL m ->
  match right_orthogonalise O m 0 (Some to) with
  | Err e => e = LinAlgError
  | Ok m' => wf m' /\ pos (fdata m') /\ dims (fdata m') = dims (fdata m) /\
      forth m' = forth m /\ foc m' = foc m /\
      (forall k A, (k < to)%nat -> nth_error (fdata m') k = Some A -> right_iso A) /\
      (forall k, (to <= k)%nat -> nth_error (fdata m') k = nth_error (fdata m) k) /\
      exists X, fnorm m' = Some X /\ mr X = 1%nat /\ mc X = 1%nat /\
      (forall s, incfg (dims (fdata m)) s -> psi m s = me X 0 0 * psi m' s)
  end.
Proof.
  intros HO (Hc & HL & Hne) Hp Hto0 Hto. unfold right_orthogonalise. rewrite Nat.sub_0_r.
  set (rest := firstn to (fdata m)). set (q := skipn to (fdata m)).
  assert (Hd : fdata m = rest ++ q) by (symmetry; apply firstn_skipn).
  assert (Hlr : length rest = to) by (unfold rest; rewrite firstn_length; lia).
  unfold closed in Hc. rewrite Hd in Hc. apply chain_app in Hc as (a & Hc1 & Hc2).
  rewrite Hd in Hp. apply pos_app in Hp as [Hp1 Hp2].
  assert (Hrne : rest <> []) by (intros E; rewrite E in Hlr; simpl in Hlr; lia).
  pose proof (right_loop_full O HO rest (fnorm m) 1 a Hc1 Hp1 Hrne) as H. rewrite Hlr in H.
  assert (Hframe : forall ms d n q, (forall k, In k ms -> (k < length d)%nat) ->
     right_orth_loop O ms (d ++ q) n
     = match right_orth_loop O ms d n with Ok (d', n') => Ok (d' ++ q, n') | Err e => Err e end).
  { clear. induction ms as [|k ms IH]; intros d n q Hk; [reflexivity|].
    assert (Hk0 : k < length d) by (apply Hk; left; reflexivity).
    cbn [right_orth_loop]. destruct (split_at d k Hk0) as (p & x & p' & -> & Hp). subst k.
    rewrite <- app_assoc. cbn [app]. rewrite !getitem_app. cbn [bind].
    destruct (la_rq O (rgroup x)) as [[Rm Q]|]; [|reflexivity].
    rewrite !setitem_app. cbn [bind]. set (x' := rungroup _ _ _).
    assert (Hl' : length (p ++ x' :: p') = length (p ++ x :: p')) by (rewrite !app_length; reflexivity).
    assert (Hz' : forall z, In z ms -> z < length (p ++ x' :: p')).
    { intros z Hz. rewrite Hl'. apply Hk. right; exact Hz. }
    change (p ++ x' :: p' ++ q) with (p ++ (x' :: p') ++ q). rewrite app_assoc.
    destruct (negb (length p =? 0)) eqn:E0; [|apply IH; exact Hz'].
    assert (Hk1 : (length p - 1 < length (p ++ x' :: p'))%nat) by (rewrite Hl'; lia).
    destruct (split_at (p ++ x' :: p') (length p - 1) Hk1) as (r & y & r' & Er & Hr).
    rewrite Er in *. rewrite <- Hr. rewrite <- app_assoc. cbn [app]. rewrite !getitem_app. cbn [bind].
    destruct (site_rmul y Rm) as [y'|]; [|reflexivity]. cbn [bind].
    rewrite !setitem_app. cbn [bind].
    change (r ++ y' :: r' ++ q) with (r ++ (y' :: r') ++ q). rewrite app_assoc.
    apply IH. intros z Hz. specialize (Hz' z Hz). rewrite app_length in *. exact Hz'. }
  rewrite Hd, Hframe.
  2: { intros k Hk. apply in_rev in Hk. apply in_seq in Hk. lia. }
  destruct (right_orth_loop O (rev (seq 0 to)) rest (fnorm m)) as [[data nrm]|e]; [|exact H].
  destruct H as (X & -> & I1 & I2 & I3 & I4 & I5 & I6 & I7). cbn [bind fst snd].
  assert (Hfull : Nat.eqb to (fL m) = false) by (apply Nat.eqb_neq; lia).
  rewrite Hfull. simpl.
  assert (HX1 : mc X = 1%nat) by lia. rewrite HX1 in *.
  assert (Hdr : dims (data ++ q) = dims (fdata m)) by (rewrite Hd, !dims_app, I5; reflexivity).
  assert (Hlen : length (data ++ q) = length (fdata m)) by (rewrite <- !dims_length, Hdr; reflexivity).
  assert (Hld : length data = to) by (rewrite <- Hlr, <- !dims_length, I5; reflexivity).
  split; [split; [apply chain_app; exists a; auto|split; simpl; [congruence|]]|].
  { intros E. rewrite E in Hlen. simpl in Hlen. lia. }
  split; [apply pos_app; auto|]. split; [rewrite !dims_app, I5; reflexivity|]. do 2 (split; [reflexivity|]).
  split.
  { intros k A Hk HA. rewrite nth_error_app1 in HA by lia. apply nth_error_In in HA.
    rewrite Forall_forall in I6. auto. }
  split.
  { intros k Hk. rewrite !nth_error_app2 by lia. f_equal. lia. }
  exists X. split; [reflexivity|]. split; [exact I2|]. split; [exact HX1|].
  intros s Hs. unfold psi. simpl. rewrite Hd. rewrite dims_app in Hs.
  apply incfg_app_inv in Hs as (s1 & s2 & -> & H1 & H2).
  assert (Hl1 : length s1 = length rest) by (apply incfg_length in H1; rewrite dims_length in H1; exact H1).
  assert (Hl2 : length s1 = length data) by lia.
  rewrite (amp_app _ _ _ _ _ _ _ Hl1 Hc1) by lia. rewrite (amp_app _ _ _ _ _ _ _ Hl2 I1) by lia.
  rewrite <- sum_mul_l. apply sum_ext. intros y Hy. rewrite (I7 s1 0%nat y H1) by lia. simpl. ring.
Qed.

(** ** mixed_orthogonalise *)
Lemma chain_replace (p q : list (site R)) A A' i j :
  dl A' = dl A -> dr A' = dr A -> chain i (p ++ A :: q) j -> chain i (p ++ A' :: q) j.
Proof.
  intros H1 H2 H. apply chain_app in H as (k & Ha & Hb). apply chain_app. exists k. split; [exact Ha|].
  destruct Hb as [Hb1 Hb2]. split; congruence.
Qed.

Lemma amp_scale_at (p q : list (site R)) A c s x y i j :
  chain i (p ++ A :: q) j -> incfg (dims (p ++ A :: q)) s -> x < i ->
  amp (p ++ site_scale c A :: q) s x y = c * amp (p ++ A :: q) s x y.
Proof.
  intros Hc Hs Hx. apply chain_app in Hc as (k & Ha & Hb).
  rewrite dims_app in Hs. apply incfg_app_inv in Hs as (s1 & s2 & -> & H1 & H2).
  assert (Hl1 : length s1 = length p) by (apply incfg_length in H1; rewrite dims_length in H1; exact H1).
  rewrite !(amp_app _ _ _ _ _ _ _ Hl1 Ha) by exact Hx. rewrite <- sum_mul_l.
  apply sum_ext. intros z Hz. destruct s2 as [|x2 s2]; [inversion H2|]. cbn [amp].
  simpl. transitivity (amp p s1 x z * (c * sum (dr A) (fun k0 => ent A x2 z k0 * amp q s2 k0 y))); [|ring].
  f_equal. rewrite <- sum_mul_l. apply sum_ext. intros; ring.
Qed.

Lemma inv_real (n ninv : R) : sconj n = n -> n * ninv = 1 -> sconj ninv = ninv.
Proof.
  intros H1 H2. assert (H3 : n * sconj ninv = 1).
  { rewrite <- H1 at 1. rewrite <- conj_mul, H2. apply conj_1. }
  transitivity (sconj ninv * (n * ninv)); [rewrite H2; ring|].
  transitivity (n * sconj ninv * ninv); [ring|]. rewrite H3. ring.
Qed.

Lemma frob_scale (A : site R) c : frob (site_scale c A) = c * sconj c * frob A.
Proof.
  unfold frob. simpl. rewrite <- sum_mul_l. apply sum_ext; intros s _.
  rewrite <- sum_mul_l. apply sum_ext; intros i _.
  rewrite <- sum_mul_l. apply sum_ext; intros j _. rewrite conj_mul. ring.
Qed.

(** Norm of a state in mixed form. *)
Lemma mixed_norm (p q : list (site R)) A :
  closed (p ++ A :: q) -> Forall left_iso p -> Forall right_iso q ->
  sumcfg (dims (p ++ A :: q)) (fun s => amp (p ++ A :: q) s 0 0 * sconj (amp (p ++ A :: q) s 0 0))
  = frob A.
Proof.
  intros Hc Hp Hq. apply chain_app in Hc as (a & Ha & Hb & Hc).
  pose proof (gram_collapse p [A] q a (dr A)) as G. cbn [app] in G.
  rewrite dims_app, sumcfg_app. unfold dims at 2. cbn [map]. fold (dims q). cbn [sumcfg].
  rewrite sumcfg_sum. unfold frob. apply sum_ext; intros w _.
  specialize (G [w] [w] Ha (conj Hb eq_refl) Hc Hp Hq eq_refl eq_refl). cbn [app] in G.
  transitivity (sumcfg (dims p) (fun u => sumcfg (dims q) (fun v =>
     sconj (amp (p ++ A :: q) (u ++ w :: v) 0 0) * amp (p ++ A :: q) (u ++ w :: v) 0 0))).
  { apply sumcfg_ext; intros; apply sumcfg_ext; intros; ring. }
  rewrite G, Hb. apply sum_ext; intros i _. apply sum_ext; intros j Hj. cbn [amp].
  rewrite sum_dlt_r by exact Hj. ring.
Qed.

Lemma mixed_orth_ok (O : lapack R) (m : fmps R) k :
  lapack_ok O -> wf m -> pos (fdata m) -> k < fL m ->
  match mixed_orthogonalise O m k with
  | Err e => e = LinAlgError \/ e = Exception_
  | Ok m' => wf m' /\ pos (fdata m') /\ dims (fdata m') = dims (fdata m) /\
      fL m' = fL m /\ fd m' = fd m /\ fD m' = fD m /\ fcan m' = fcan m /\
      forth m' = Some true /\ foc m' = Some k /\
      mixed_at k (fdata m') /\
      sumcfg (dims (fdata m)) (fun s => psi m' s * sconj (psi m' s)) = 1 /\
      exists c n, fnorm m' = Some (mkMat 1 1 (fun _ _ => n)) /\
        (forall s, incfg (dims (fdata m)) s -> psi m s = c * psi m' s) /\
        ((0 < k)%nat -> c = n) /\ (k = 0%nat -> n * n = 1)
  end.
Proof.
  intros HO Hwf Hp Hk. unfold mixed_orthogonalise.
  (* right sweep *)
  assert (HR : match right_orthogonalise O m k None with
     | Err e => e = LinAlgError
     | Ok m1 => wf m1 /\ pos (fdata m1) /\ dims (fdata m1) = dims (fdata m) /\ fL m1 = fL m /\
        fd m1 = fd m /\ fD m1 = fD m /\ fcan m1 = fcan m /\
        (forall i A, (k <= i)%nat -> nth_error (fdata m1) i = Some A -> right_iso A) /\
        exists x, (forall s, incfg (dims (fdata m)) s -> psi m s = x * psi m1 s) /\
          ((0 < k)%nat -> x = 1) end).
  { destruct k as [|k].
    - pose proof (right_orth_full O m HO Hwf Hp) as H.
      destruct (right_orthogonalise O m 0 None) as [m1|e]; [|exact H].
      destruct H as (H1 & H2 & H3 & H4 & H5 & H6 & H7 & _ & _ & H8 & X & _ & _ & _ & H9).
      repeat (split; [assumption|]). split.
      { intros i A _ HA. apply nth_error_In in HA. rewrite Forall_forall in H8. auto. }
      exists (me X 0 0). split; [exact H9|lia].
    - pose proof (right_orth_partial O m (S k) (fL m) HO Hwf Hp ltac:(lia) ltac:(lia) ltac:(lia)) as H.
      change (right_orthogonalise O m (S k) None) with (right_orthogonalise O m (S k) (Some (fL m))).
      destruct (right_orthogonalise O m (S k) (Some (fL m))) as [m1|e]; [|exact H].
      destruct H as (H1 & H2 & H3 & H4 & H5 & H6 & H7 & _ & _ & _ & H8 & _ & H9).
      repeat (split; [assumption|]). split.
      { intros i A Hi HA. apply (H8 i); [|exact HA].
        assert (i < length (fdata m1)) by (apply nth_error_Some; congruence).
        rewrite <- dims_length, H3, dims_length in H. destruct Hwf as (_ & HL & _). lia. }
      exists 1. split; [|reflexivity]. intros s Hs. rewrite (H9 s Hs). ring. }
  destruct (right_orthogonalise O m k None) as [m1|e]; [|left; exact HR].
  cbn [bind]. destruct HR as (W1 & P1 & D1 & L1 & d1 & DD1 & C1 & I1 & x & X1 & X2).
  (* left sweep *)
  pose proof (left_orth_partial O m1 0 k HO W1 P1 ltac:(lia) ltac:(lia)) as HLft.
  assert (Hk0 : forall m2, left_orthogonalise O m1 0 (Some k) = Ok m2 -> k = 0%nat -> fdata m2 = fdata m1).
  { intros m2 E ->. unfold left_orthogonalise in E. cbn in E. injection E as <-. reflexivity. }
  destruct (left_orthogonalise O m1 0 (Some k)) as [m2|e]; [|left; exact HLft].
  specialize (Hk0 m2 eq_refl).
  cbn [bind]. destruct HLft as (W2 & P2 & D2 & L2 & d2 & DD2 & C2 & _ & _ & _ & J1 & J2 & J3).
  assert (Hk2 : k < length (fdata m2)) by (destruct W2 as (_ & ? & _); lia).
  destruct (split_at (fdata m2) k Hk2) as (p & A & q & Hd2 & Hlp).
  assert (Hget : getitem (fdata m2) k = Ok A) by (rewrite Hd2, <- Hlp; apply getitem_app).
  rewrite Hget. cbn [bind].
  destruct (la_nrm O A) as [[n ninv]|] eqn:EN; [|right; reflexivity].
  destruct HO as (HQR & HRQ & HN). destruct (HN _ _ _ EN) as (N1 & N2 & N3).
  assert (Hset : setitem (fdata m2) k (site_scale ninv A) = Ok (p ++ site_scale ninv A :: q))
    by (rewrite Hd2, <- Hlp; apply setitem_app).
  rewrite Hset. cbn [bind]. cbn [fdata fL fd fD fcan forth foc fnorm].
  assert (Hclosed : closed (p ++ A :: q)) by (rewrite <- Hd2; apply W2).
  assert (Hclosed' : closed (p ++ site_scale ninv A :: q)).
  { eapply chain_replace; [| |exact Hclosed]; reflexivity. }
  assert (Hdims : dims (p ++ site_scale ninv A :: q) = dims (fdata m)).
  { rewrite <- D1, <- D2, Hd2, !dims_app. reflexivity. }
  assert (Hmix : mixed_at k (p ++ A :: q)).
  { intros i B HB. split; intros Hi.
    - apply (J1 i); [lia|]. rewrite Hd2. exact HB.
    - apply (I1 i); [lia|]. rewrite <- J2 by lia. rewrite Hd2. exact HB. }
  assert (Hlp' : Forall left_iso p).
  { apply Forall_forall. intros B HB. apply In_nth_error in HB as (i & HB).
    assert (i < length p) by (apply nth_error_Some; congruence).
    apply (Hmix i); [|lia]. rewrite nth_error_app1; assumption. }
  assert (Hrq : Forall right_iso q).
  { apply Forall_forall. intros B HB. apply In_nth_error in HB as (i & HB).
    apply (Hmix (length p + S i)%nat); [|lia]. rewrite nth_error_app2 by lia.
    replace (length p + S i - length p)%nat with (S i) by lia. exact HB. }
  assert (Hlen : length (p ++ site_scale ninv A :: q) = length (fdata m2)).
  { rewrite Hd2, !app_length. reflexivity. }
  split. { split; [exact Hclosed'|]. split; simpl; [rewrite Hlen; apply W2|destruct p; discriminate]. }
  split. { rewrite Hd2 in P2. apply pos_app in P2 as [Pa Pb]. inversion Pb; subst.
           apply pos_app. split; [exact Pa|]. constructor; assumption. }
  split; [exact Hdims|]. split; [congruence|]. split; [congruence|]. split; [congruence|].
  split; [congruence|].
  split; [reflexivity|]. split; [reflexivity|].
  split.
  { intros i B HB. destruct (Nat.eq_dec i (length p)) as [->|Hne]; [lia|].
    apply (Hmix i). destruct (Nat.lt_ge_cases i (length p)).
    - rewrite nth_error_app1 in * by assumption. exact HB.
    - rewrite nth_error_app2 in * by assumption.
      destruct (i - length p)%nat eqn:E; [lia|]. exact HB. }
  split.
  { unfold psi. cbn [fdata]. rewrite <- Hdims. rewrite (mixed_norm p q (site_scale ninv A)) by assumption.
    rewrite frob_scale, (inv_real n ninv N1 N3), <- N2.
    transitivity ((n * ninv) * (n * ninv)); [ring|]. rewrite N3. ring. }
  exists (x * n), n. split; [reflexivity|]. split.
  { intros s Hs. rewrite (X1 s Hs), <- (J3 s) by (rewrite D1; exact Hs).
    unfold psi. cbn [fdata]. rewrite Hd2.
    rewrite (amp_scale_at p q A ninv s 0 0 1 1) by
      (try lia; try exact Hclosed; rewrite <- Hd2, D2, D1; exact Hs).
    transitivity (x * ((n * ninv) * amp (p ++ A :: q) s 0 0)); [rewrite N3|]; ring. }
  split; [intros Hkp; rewrite (X2 Hkp); ring|].
  intros ->. destruct p as [|? ?]; [|discriminate].
  rewrite N2.
  (* the first tensor is a right isometry with one row *)
  assert (HA : right_iso A).
  { apply (I1 0%nat); [lia|]. rewrite <- (Hk0 eq_refl), Hd2. reflexivity. }
  assert (HdA : dl A = 1%nat) by (destruct Hclosed; assumption).
  unfold frob. rewrite HdA. simpl.
  specialize (HA 0%nat 0%nat ltac:(lia) ltac:(lia)). rewrite dlt_eq in HA. rewrite <- HA.
  apply sum_ext; intros w _. ring.
Qed.

End Proofs.
