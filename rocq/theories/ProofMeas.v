From Verif Require Import Alg ModelMPS SpecMPS ProofMPS ProofMPS2 ModelOrth SpecOrth
  ProofOrth ProofOrth2 ProofOrth3.

Section Proofs.
Context {R : sring}.
Add Ring Rr : (s_th R).
Local Open Scope sr_scope.

Lemma nth_mid {A} (u : list A) x v d : nth (length u) (u ++ x :: v) d = x.
Proof. induction u as [|y u IH]; simpl; auto. Qed.

Lemma upd_mid u x v t : upd (u ++ x :: v) (length u) t = u ++ t :: v.
Proof. induction u as [|y u IH]; simpl; [reflexivity|]. rewrite IH. reflexivity. Qed.

(** One-site expectation values are block expectation values. *)
Lemma expect1_expect du d dv (f : list nat -> R) op :
  expect1 (du ++ d :: dv) f (length du) op
  = expect du [d] dv f (fun b b' => op (hd 0%nat b) (hd 0%nat b')).
Proof.
  unfold expect1, expect. rewrite sumcfg_app. apply sumcfg_ext; intros u Hu.
  apply incfg_length in Hu. cbn [sumcfg]. apply sum_ext; intros w _.
  rewrite nth_mid.
  transitivity (sumcfg dv (fun v => sum d (fun t =>
    sconj (f (u ++ w :: v)) * op w t * f (u ++ t :: v)))).
  - apply sumcfg_ext; intros v _. apply sum_ext; intros t _.
    rewrite <- Hu, nth_mid, upd_mid. reflexivity.
  - rewrite sumcfg_sum. apply sum_ext; intros t _. cbn [hd app]. reflexivity.
Qed.

Lemma expect1_scale ds (f g : list nat -> R) c k op :
  (forall s, incfg ds s -> f s = c * g s) -> k < length ds ->
  expect1 ds f k op = c * sconj c * expect1 ds g k op.
Proof.
  intros H Hk. unfold expect1. rewrite <- sumcfg_mul_l. apply sumcfg_ext; intros s Hs.
  rewrite <- sum_mul_l. apply sum_ext; intros t Ht. rewrite (H s Hs).
  rewrite (H (upd s k t)).
  - rewrite conj_mul. ring.
  - clear -Hs Ht Hk. revert k Hk Ht. unfold incfg in *. induction Hs as [|x d s ds Hx Hs IH]; intros k Hk Ht.
    + simpl in Hk; lia.
    + destruct k as [|k]; simpl in *; constructor; auto. apply IH; [lia|exact Ht].
Qed.

Lemma norm_scale ds (f g : list nat -> R) c :
  (forall s, incfg ds s -> f s = c * g s) ->
  sumcfg ds (fun s => f s * sconj (f s)) = c * sconj c * sumcfg ds (fun s => g s * sconj (g s)).
Proof.
  intros H. rewrite <- sumcfg_mul_l. apply sumcfg_ext; intros s Hs. rewrite (H s Hs), conj_mul. ring.
Qed.

(** The chain split at the centre. *)
Lemma mixed_split (l : list (site R)) k :
  mixed_at k l -> k < length l ->
  exists p A q, l = p ++ A :: q /\ length p = k /\ Forall left_iso p /\ Forall right_iso q.
Proof.
  intros Hm Hk. destruct (split_at l k Hk) as (p & A & q & -> & Hp).
  exists p, A, q. split; [reflexivity|]. split; [exact Hp|]. split.
  - apply Forall_forall. intros B HB. apply In_nth_error in HB as (i & HB).
    assert (i < length p) by (apply nth_error_Some; congruence).
    apply (Hm i); [|lia]. rewrite nth_error_app1; assumption.
  - apply Forall_forall. intros B HB. apply In_nth_error in HB as (i & HB).
    apply (Hm (length p + S i)%nat); [|lia]. rewrite nth_error_app2 by lia.
    replace (length p + S i - length p)%nat with (S i) by lia. exact HB.
Qed.

(** The local contraction at the centre is the global expectation value. *)
Lemma centre_value (l : list (site R)) k A op :
  closed l -> mixed_at k l -> nth_error l k = Some A ->
  expect1 (dims l) (fun s => amp l s 0 0) k op
  = sum (phys A) (fun s => sum (phys A) (fun t => op s t *
      sum (dl A) (fun i => sum (dr A) (fun j => sconj (ent A s i j) * ent A t i j)))).
Proof.
  intros Hc Hm HA.
  assert (Hk : k < length l) by (apply nth_error_Some; congruence).
  destruct (mixed_split l k Hm Hk) as (p & A' & q & -> & Hp & Hl & Hr).
  rewrite <- Hp, nth_error_app2, Nat.sub_diag in HA by lia. simpl in HA. injection HA as ->.
  apply chain_app in Hc as (a & Ha & Hb & Hc).
  rewrite dims_app. unfold dims at 2. cbn [map]. fold (dims q).
  rewrite <- Hp, <- (dims_length p), expect1_expect.
  rewrite (expect_block p [A] q a (dr A) _ Ha (conj Hb eq_refl) Hc Hl Hr : expect (dims p) [phys A] (dims q) _ _ = _).
  unfold block_value, dims. cbn [map sumcfg hd].
  apply sum_ext; intros s _. apply sum_ext; intros t _. f_equal. rewrite Hb.
  apply sum_ext; intros i _. apply sum_ext; intros j Hj. cbn [amp].
  rewrite !sum_dlt_r by exact Hj. reflexivity.
Qed.

(** E contracts op with the indices swapped: it measures the transpose. *)
Lemma E_local_value (l : list (site R)) k A op v :
  closed l -> mixed_at k l -> nth_error l k = Some A -> E_local A op = Ok v ->
  v = sre (expect1 (dims l) (fun s => amp l s 0 0) k (fun s t => me op t s)).
Proof.
  intros Hc Hm HA E. unfold E_local in E. destruct (_ && _); [|discriminate]. injection E as <-.
  rewrite (centre_value l k A _ Hc Hm HA). f_equal.
  rewrite sum_swap. apply sum_ext; intros s _. apply sum_ext; intros t _.
  rewrite <- sum_mul_l. apply sum_ext; intros i _. rewrite <- sum_mul_l.
  apply sum_ext; intros j _. ring.
Qed.

Lemma E_ok (O : lapack R) (m : fmps R) op k :
  lapack_ok O -> wf m -> pos (fdata m) -> flags_set m -> flags_true m -> k < fL m ->
  mr op = nth k (dims (fdata m)) 0%nat -> mc op = nth k (dims (fdata m)) 0%nat ->
  match mps_E O m op k with
  | Err e => e = LinAlgError \/ e = Exception_
  | Ok (v, m') => wf m' /\ pos (fdata m') /\ dims (fdata m') = dims (fdata m) /\
      flags_set m' /\ flags_true m' /\ foc m' = Some k /\ fL m' = fL m /\ fd m' = fd m /\
      mixed_at k (fdata m') /\
      sumcfg (dims (fdata m)) (fun s => psi m' s * sconj (psi m' s)) = 1 /\
      (exists c, forall s, incfg (dims (fdata m)) s -> psi m s = c * psi m' s) /\
      v * sumcfg (dims (fdata m)) (fun s => psi m s * sconj (psi m s))
      = sre (expect1 (dims (fdata m)) (psi m) k (fun s t => me op t s))
  end.
Proof.
  intros HO Hwf Hp (c & o & Hfc & Hfo & Hco) Ht Hk H1 H2.
  unfold mps_E, needs_centre. rewrite Hfc. cbn [flag bind].
  assert (Hb : exists b, (if c then Ok false else do o0 <- flag (forth m); Ok (negb o0)) = Ok b
     /\ b = negb (c || o)).
  { rewrite Hfo. destruct c, o; eexists; split; reflexivity. }
  destruct Hb as (b & -> & Hb). cbn [bind].
  set (g := b || _).
  (* the object after the guard *)
  assert (HM : match (if g then mixed_orthogonalise O m k else Ok m) with
     | Err e => e = LinAlgError \/ e = Exception_
     | Ok m' => wf m' /\ pos (fdata m') /\ dims (fdata m') = dims (fdata m) /\
        flags_set m' /\ flags_true m' /\ foc m' = Some k /\ fL m' = fL m /\ fd m' = fd m /\
        mixed_at k (fdata m') /\
        sumcfg (dims (fdata m)) (fun s => psi m' s * sconj (psi m' s)) = 1 /\
        exists c, forall s, incfg (dims (fdata m)) s -> psi m s = c * psi m' s end).
  { destruct g eqn:Eg.
    - pose proof (mixed_orth_ok O m k HO Hwf Hp Hk) as HM.
      destruct (mixed_orthogonalise O m k) as [m'|e]; [|exact HM].
      destruct HM as (M1 & M2 & M3 & M4 & M5 & M6 & M7 & M8 & M9 & M10 & M11 & c' & n & _ & M12 & _).
      repeat (split; [assumption|]).
      split. { exists c, true. rewrite M7, M8. repeat split; auto. intros _. exists k; exact M9. }
      split. { intros c0 o0 Hc0 Ho0 _ k0 Hk0. rewrite M9 in Hk0. injection Hk0 as <-.
               split; [exact M10|]. rewrite M3. exact M11. }
      repeat (split; [assumption|]). exists c'; exact M12.
    - unfold g in Eg. apply orb_false_iff in Eg as [Eb Eo]. subst b.
      apply negb_false_iff in Eb. destruct (Hco Eb) as (k0 & Hk0). rewrite Hk0 in Eo.
      assert (k0 = k).
      { apply negb_false_iff in Eo. simpl in Eo. rewrite orb_false_r in Eo.
        apply Nat.eqb_eq in Eo. exact Eo. }
      subst k0. destruct (Ht c o Hfc Hfo Eb k Hk0) as [Hmix Hn].
      repeat (split; [first [assumption|reflexivity]|]).
      split. { exists c, o. auto. }
      repeat (split; [first [assumption|reflexivity]|]). exists 1. intros; ring. }
  destruct (if g then mixed_orthogonalise O m k else Ok m) as [m'|e]; [|exact HM].
  destruct HM as (M1 & M2 & M3 & M4 & M5 & M6 & M7 & M7' & M8 & M9 & c' & M10). cbn [bind].
  assert (Hk' : k < length (fdata m')) by (destruct M1 as (_ & ? & _); lia).
  destruct (nth_error (fdata m') k) as [A|] eqn:EA; [|apply nth_error_None in EA; lia].
  unfold getitem. rewrite EA. cbn [bind].
  assert (HphA : phys A = nth k (dims (fdata m)) 0%nat).
  { rewrite <- M3. symmetry. apply nth_error_nth. unfold dims. apply map_nth_error. exact EA. }
  destruct (E_local A op) as [v|e] eqn:EE.
  2: { unfold E_local in EE. rewrite H1, H2, <- HphA, Nat.eqb_refl in EE. discriminate. }
  cbn [bind]. repeat (split; [assumption|]). split; [exists c'; exact M10|].
  assert (Hc' : closed (fdata m')) by apply M1.
  rewrite (E_local_value (fdata m') k A op v Hc' M8 EA EE).
  rewrite M3. rewrite (norm_scale _ _ _ c' M10), M9.
  rewrite (expect1_scale _ _ _ c' k _ M10) by (rewrite dims_length; destruct Hwf as (_ & ? & _); lia).
  rewrite re_mul by (rewrite conj_mul, conj_conj; ring). unfold psi. ring.
Qed.

End Proofs.
