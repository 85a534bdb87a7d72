(** Proofs about left_from_state and right_from_state. *)
From Verif Require Import Alg ModelMPS SpecMPS ProofMPS ProofMPS2 ModelOrth SpecOrth ProofOrth
  ProofOrth2 ModelCanon SpecCanon ProofTwo ModelState SpecState.

Definition idxC (d : nat) (s : list nat) : nat := fold_left (fun a x => a * d + x) s 0.
Fixpoint idxF (d : nat) (s : list nat) : nat :=
  match s with [] => 0 | x :: s => x + d * idxF d s end.

Lemma idxC_app d s x : idxC d (s ++ [x]) = idxC d s * d + x.
Proof. unfold idxC. rewrite fold_left_app. reflexivity. Qed.

Lemma incfg_repeat_snoc d n s x : incfg (repeat d n) s -> x < d -> incfg (repeat d (S n)) (s ++ [x]).
Proof.
  intros H Hx. replace (repeat d (S n)) with (repeat d n ++ [d]).
  - apply incfg_app; [exact H|]. constructor; [exact Hx|constructor].
  - clear. induction n; cbn; [reflexivity|]. rewrite IHn. reflexivity.
Qed.

Lemma incfg_repeat_last d n s : incfg (repeat d (S n)) s ->
  exists s' x, s = s' ++ [x] /\ incfg (repeat d n) s' /\ x < d.
Proof.
  revert s. induction n as [|n IH]; intros s H.
  - inversion H as [|x ? s' ? Hx Hs]; subst. inversion Hs; subst. exists [], x.
    split; [reflexivity|]. split; [constructor|exact Hx].
  - inversion H as [|y ? s' ? Hy Hs]; subst. destruct (IH s' Hs) as (t & x & -> & Ht & Hx).
    exists (y :: t), x. split; [reflexivity|]. split; [constructor; assumption|exact Hx].
Qed.

Lemma idxC_lt d n s : incfg (repeat d n) s -> idxC d s < Nat.pow d n.
Proof.
  revert s. induction n as [|n IH]; intros s H.
  - inversion H; subst. cbn. lia.
  - apply incfg_repeat_last in H as (s' & x & -> & Hs & Hx). rewrite idxC_app.
    specialize (IH _ Hs). cbn [Nat.pow]. nia.
Qed.

Lemma idxF_lt d n s : incfg (repeat d n) s -> idxF d s < Nat.pow d n.
Proof.
  revert s. induction n as [|n IH]; intros s H; inversion H as [|x ? s' ? Hx Hs]; subst; cbn; [lia|].
  specialize (IH _ Hs). nia.
Qed.

Lemma digitsC_idx d n s : incfg (repeat d n) s -> digitsC d n (idxC d s) = s.
Proof.
  revert s. induction n as [|n IH]; intros s H.
  - inversion H; subst. reflexivity.
  - apply incfg_repeat_last in H as (s' & x & -> & Hs & Hx). rewrite idxC_app. cbn [digitsC].
    rewrite Nat.div_add_l, (Nat.div_small x), Nat.add_0_r by lia.
    rewrite (Nat.add_comm _ x), Nat.mod_add, Nat.mod_small by lia. rewrite IH by exact Hs. reflexivity.
Qed.

Lemma digitsF_idx d n s : incfg (repeat d n) s -> digitsF d n (idxF d s) = s.
Proof.
  revert s. induction n as [|n IH]; intros s H; inversion H as [|x ? s' ? Hx Hs]; subst; [reflexivity|].
  cbn [idxF digitsF]. rewrite (Nat.mul_comm d), Nat.mod_add, Nat.mod_small by lia.
  rewrite Nat.div_add, (Nat.div_small x) by lia. cbn [Nat.add]. rewrite IH by exact Hs. reflexivity.
Qed.

Section Proofs.
Context {R : sring}.
Add Ring Rring : (s_th R).
Local Open Scope sr_scope.

Lemma sum_idxC d n (g : nat -> R) :
  sumcfg (repeat d n) (fun s => g (idxC d s)) = sum (Nat.pow d n) g.
Proof.
  revert g. induction n as [|n IH]; intros g.
  - cbn. ring.
  - replace (repeat d (S n)) with (repeat d n ++ [d]).
    2:{ clear. induction n; cbn; [reflexivity|]. rewrite IHn. reflexivity. }
    rewrite sumcfg_app. cbn [sumcfg Nat.pow].
    transitivity (sumcfg (repeat d n) (fun s => sum d (fun x => g (idxC d s * d + x)%nat))).
    { apply sumcfg_ext. intros s _. apply sum_ext. intros x _. rewrite idxC_app. reflexivity. }
    rewrite (IH (fun r => sum d (fun x => g (r * d + x)%nat))).
    rewrite Nat.mul_comm, sum_mul. reflexivity.
Qed.

Lemma sum_idxF d n (g : nat -> R) :
  sumcfg (repeat d n) (fun s => g (idxF d s)) = sum (Nat.pow d n) g.
Proof.
  revert g. induction n as [|n IH]; intros g; cbn [repeat sumcfg idxF Nat.pow].
  - cbn. ring.
  - transitivity (sum d (fun x => sum (Nat.pow d n) (fun r => g (x + d * r)%nat))).
    { apply sum_ext. intros x _. apply (IH (fun r => g (x + d * r)%nat)). }
    rewrite sum_swap, Nat.mul_comm, sum_mul. apply sum_ext. intros r _. apply sum_ext. intros x _.
    f_equal. lia.
Qed.

Lemma reshapeC_ok d n (Psi : mat R) : 0 < d -> 0 < mc Psi -> mr Psi = Nat.pow d (S n) ->
  exists M, reshapeC (Nat.pow d n) Psi = Ok M /\ mr M = Nat.pow d n /\ mc M = (d * mc Psi)%nat /\
  forall r x a, x < d -> a < mc Psi -> me M r (x * mc Psi + a)%nat = me Psi (r * d + x)%nat a.
Proof.
  intros Hd Hk Hr. unfold reshapeC. assert (Hp : Nat.pow d n <> 0%nat) by (apply Nat.pow_nonzero; lia).
  replace (mr Psi * mc Psi)%nat with (d * mc Psi * Nat.pow d n)%nat by (rewrite Hr; cbn [Nat.pow]; lia).
  rewrite Nat.mod_mul, Nat.div_mul by exact Hp.
  replace (Nat.eqb (Nat.pow d n) 0) with false by (symmetry; apply Nat.eqb_neq; exact Hp). cbn [negb andb Nat.eqb].
  eexists. split; [reflexivity|]. split; [reflexivity|]. split; [reflexivity|].
  intros r x a Hx Ha. cbn [me].
  replace (r * (d * mc Psi) + (x * mc Psi + a))%nat with ((r * d + x) * mc Psi + a)%nat by lia.
  rewrite Nat.div_add_l, (Nat.div_small a), Nat.add_0_r by lia.
  rewrite (Nat.add_comm _ a), Nat.mod_add, Nat.mod_small by lia. reflexivity.
Qed.

Lemma reshapeF_ok d n (Psi : mat R) : 0 < d -> 0 < mr Psi -> mc Psi = Nat.pow d (S n) ->
  exists M, reshapeF (Nat.pow d n) Psi = Ok M /\ mc M = Nat.pow d n /\ mr M = (d * mr Psi)%nat /\
  forall c x a, x < d -> a < mr Psi -> me M (x * mr Psi + a)%nat c = me Psi a (x + d * c)%nat.
Proof.
  intros Hd Hk Hr. unfold reshapeF. assert (Hp : Nat.pow d n <> 0%nat) by (apply Nat.pow_nonzero; lia).
  replace (mr Psi * mc Psi)%nat with (d * mr Psi * Nat.pow d n)%nat by (rewrite Hr; cbn [Nat.pow]; lia).
  rewrite Nat.mod_mul, Nat.div_mul by exact Hp.
  replace (Nat.eqb (Nat.pow d n) 0) with false by (symmetry; apply Nat.eqb_neq; exact Hp). cbn [negb andb Nat.eqb].
  eexists. split; [reflexivity|]. split; [reflexivity|]. split; [reflexivity|].
  intros c x a Hx Ha. cbn [me].
  replace (x * mr Psi + a + d * mr Psi * c)%nat with ((x + d * c) * mr Psi + a)%nat by lia.
  rewrite Nat.div_add_l, (Nat.div_small a), Nat.add_0_r by lia.
  rewrite (Nat.add_comm _ a), Nat.mod_add, Nat.mod_small by lia. reflexivity.
Qed.

(** Everything known after the tensors of the last sites are made. *)
Definition r_inv (f : list nat -> R) (d L n : nat) (Psi : mat R)
    (acc : list (site R * (nat * (nat -> R)))) : Prop :=
  let rest := map fst acc in
  mr Psi = Nat.pow d n /\ 0 < mc Psi <= Nat.pow d n /\ chain (mc Psi) rest 1 /\ dims rest = repeat d (L - n) /\
  length acc = (L - n)%nat /\ Forall right_iso rest /\ Forall (fun A => 0 < phys A /\ 0 < dl A /\ 0 < dr A) rest /\
  (forall s t, incfg (repeat d n) s -> incfg (repeat d (L - n)) t ->
     f (s ++ t) = sum (mc Psi) (fun a => me Psi (idxC d s) a * amp rest t a 0)) /\
  (forall i k Sv, nth_error (map snd acc) i = Some (k, Sv) -> schmidt d L (n + i) f k Sv).

Lemma right_split_ok (O : lapack2 R) (f : list nat -> R) d L : svd_ok O -> 0 < d ->
  forall n Psi acc, n <= L -> r_inv f d L n Psi acc ->
  match right_split O d n Psi acc with
  | Err e => e = LinAlgError /\ exists M, la_svd O M = None
  | Ok (Psi', acc') => r_inv f d L 0 Psi' acc'
  end.
Proof.
  intros HO Hd. induction n as [|n IH]; intros Psi acc Hn Hi; [exact Hi|].
  destruct Hi as (i1 & [i2 _] & i3 & i4 & i5 & i6 & i7 & i8 & i9).
  cbn [right_split]. destruct (reshapeC_ok d n Psi Hd i2 i1) as (M & -> & m1 & m2 & m3). cbn [bind].
  destruct (la_svd O M) as [[[U Sv] V]|] eqn:E; [|split; [reflexivity|eexists; exact E]].
  apply HO in E. destruct E as (e1 & e2 & e3 & e4 & e5 & e6 & e7 & e8).
  set (k := Nat.min (mr M) (mc M)) in *.
  assert (Hp : 0 < Nat.pow d n) by (apply Nat.neq_0_lt_0, Nat.pow_nonzero; lia).
  assert (Hk : 0 < k) by (unfold k; rewrite m1, m2; nia).
  unfold mdot. rewrite e2. cbn [mr mc mdiag]. rewrite Nat.eqb_refl. cbn [bind].
  unfold chop1. rewrite e4, m2. replace (Nat.eqb d 0) with false by (symmetry; apply Nat.eqb_neq; lia).
  rewrite Nat.mul_comm, Nat.mod_mul, Nat.div_mul by lia. cbn [negb andb Nat.eqb bind].
  apply IH; [lia|]. unfold r_inv. cbn [map fst snd mr mc me length].
  set (B := rungroup d (mc Psi) V). set (rest := map fst acc) in *.
  assert (HB : right_iso B).
  { apply rung_iso; [rewrite e4, m2; reflexivity|]. rewrite e3, e4. exact e8. }
  assert (Hch : chain k (B :: rest) 1) by (cbn; rewrite e3; auto).
  assert (Hdm : dims (B :: rest) = repeat d (L - n)).
  { change (dims (B :: rest)) with (phys B :: dims rest). rewrite i4.
    replace (L - n)%nat with (S (L - S n)) by lia. reflexivity. }
  assert (Hdec : forall s t, incfg (repeat d n) s -> incfg (repeat d (L - n)) t ->
     f (s ++ t) = sum k (fun x => me U (idxC d s) x * Sv x * amp (B :: rest) t x 0)).
  { intros s t Hs Ht. replace (L - n)%nat with (S (L - S n)) in Ht by lia.
    inversion Ht as [|x ? t' ? Hx Ht']; subst.
    replace (s ++ x :: t') with ((s ++ [x]) ++ t') by (rewrite <- app_assoc; reflexivity).
    rewrite i8; [|apply incfg_repeat_snoc; assumption|exact Ht'].
    rewrite idxC_app. pose proof (idxC_lt _ _ _ Hs) as Hlt.
    transitivity (sum (mc Psi) (fun a => sum k (fun b => me U (idxC d s) b * Sv b * me V b (x * mc Psi + a)%nat) * amp rest t' a 0)).
    { apply sum_ext. intros a Ha. rewrite <- m3 by assumption. rewrite e6; [reflexivity|lia|].
      rewrite m2. apply ragged; assumption. }
    transitivity (sum (mc Psi) (fun a => sum k (fun b => me U (idxC d s) b * Sv b * (me V b (x * mc Psi + a)%nat * amp rest t' a 0)))).
    { apply sum_ext. intros a Ha. rewrite <- sum_mul_r. apply sum_ext. intros b _. ring. }
    rewrite sum_swap. apply sum_ext. intros b _. rewrite sum_mul_l. reflexivity. }
  split; [congruence|]. split; [split; [exact Hk|unfold k; rewrite m1, m2; lia]|].
  split; [exact Hch|].
  split; [exact Hdm|]. split; [lia|].
  split; [constructor; assumption|]. split; [constructor; [cbn; rewrite e3; auto|assumption]|]. split.
  - intros s t Hs Ht. rewrite (Hdec s t Hs Ht). apply sum_ext. intros x Hx.
    cbn [mdiag me]. rewrite (sum_diag_r k k Sv (fun y => me U (idxC d s) y) x Hx eq_refl). reflexivity.
  - intros [|i] k' Sv' Hi; cbn in Hi.
    + injection Hi as <- <-. rewrite Nat.add_0_r. split; [apply e5|].
      exists (fun x s => me U (idxC d s) x), (fun x t => amp (B :: rest) t x 0).
      split; [|split].
      * intros x y Hx Hy. rewrite (sum_idxC d n (fun r => sconj (me U r x) * me U r y)).
        rewrite <- m1. apply e7; assumption.
      * intros x y Hx Hy. pose proof (right_collapse (B :: rest) k 1 Hch
          ltac:(constructor; assumption) y x Hy Hx) as Hc.
        rewrite Hdm in Hc. rewrite (dlt_sym x y), <- Hc. apply sumcfg_ext. intros t _. rewrite sum_one. ring.
      * exact Hdec.
    + replace (n + S i)%nat with (S n + i)%nat by lia. apply i9, Hi.
Qed.

Definition l_inv (f : list nat -> R) (d L n : nat) (Psi : mat R)
    (acc : list (site R * (nat * (nat -> R)))) : Prop :=
  let done := map fst acc in
  mc Psi = Nat.pow d n /\ 0 < mr Psi <= Nat.pow d n /\ chain 1 done (mr Psi) /\ dims done = repeat d (L - n) /\
  length acc = (L - n)%nat /\ Forall left_iso done /\ Forall (fun A => 0 < phys A /\ 0 < dl A /\ 0 < dr A) done /\
  (forall s t, incfg (repeat d (L - n)) s -> incfg (repeat d n) t ->
     f (s ++ t) = sum (mr Psi) (fun a => amp done s 0 a * me Psi a (idxF d t))) /\
  (forall i k Sv, nth_error (map snd acc) i = Some (k, Sv) -> schmidt d L (i + 1) f k Sv).

Lemma repeat_snoc {A} (x : A) n : repeat x n ++ [x] = repeat x (S n).
Proof. induction n; cbn; [reflexivity|]. rewrite IHn. reflexivity. Qed.

Lemma left_split_ok (O : lapack2 R) (f : list nat -> R) d L : svd_ok O -> 0 < d ->
  forall n Psi acc, n <= L -> l_inv f d L n Psi acc ->
  match left_split O d n Psi acc with
  | Err e => e = LinAlgError /\ exists M, la_svd O M = None
  | Ok (Psi', acc') => l_inv f d L 0 Psi' acc'
  end.
Proof.
  intros HO Hd. induction n as [|n IH]; intros Psi acc Hn Hi; [exact Hi|].
  destruct Hi as (i1 & [i2 _] & i3 & i4 & i5 & i6 & i7 & i8 & i9).
  cbn [left_split]. destruct (reshapeF_ok d n Psi Hd i2 i1) as (M & -> & m1 & m2 & m3). cbn [bind].
  destruct (la_svd O M) as [[[U Sv] V]|] eqn:E; [|split; [reflexivity|eexists; exact E]].
  apply HO in E. destruct E as (e1 & e2 & e3 & e4 & e5 & e6 & e7 & e8).
  set (k := Nat.min (mr M) (mc M)) in *.
  assert (Hp : 0 < Nat.pow d n) by (apply Nat.neq_0_lt_0, Nat.pow_nonzero; lia).
  assert (Hk : 0 < k) by (unfold k; rewrite m1, m2; nia).
  unfold chop0. rewrite e1, m2. replace (Nat.eqb d 0) with false by (symmetry; apply Nat.eqb_neq; lia).
  rewrite Nat.mul_comm, Nat.mod_mul, Nat.div_mul by lia. cbn [negb andb Nat.eqb bind].
  unfold mdot. rewrite e3. cbn [mr mc mdiag]. rewrite Nat.eqb_refl. cbn [bind].
  apply IH; [lia|]. unfold l_inv. rewrite !map_app, app_length. cbn [map fst snd mr mc me length].
  set (B := lungroup d (mr Psi) U). set (done := map fst acc) in *.
  assert (HB : left_iso B).
  { apply lung_iso; [rewrite e1, m2; reflexivity|]. rewrite e2, e1. exact e7. }
  assert (Hch : chain 1 (done ++ [B]) k).
  { apply chain_app. exists (mr Psi). split; [exact i3|]. cbn. split; [reflexivity|exact e2]. }
  assert (Hdm : dims (done ++ [B]) = repeat d (L - n)).
  { rewrite dims_app, i4. replace (L - n)%nat with (S (L - S n)) by lia. apply repeat_snoc. }
  assert (HF : Forall left_iso (done ++ [B])) by (apply Forall_app; auto).
  assert (Hdec : forall s t, incfg (repeat d (L - n)) s -> incfg (repeat d n) t ->
     f (s ++ t) = sum k (fun x => amp (done ++ [B]) s 0 x * Sv x * me V x (idxF d t))).
  { intros s t Hs Ht. replace (L - n)%nat with (S (L - S n)) in Hs by lia.
    apply incfg_repeat_last in Hs as (s' & x & -> & Hs & Hx).
    replace ((s' ++ [x]) ++ t) with (s' ++ x :: t) by (rewrite <- app_assoc; reflexivity).
    rewrite i8; [|exact Hs|constructor; assumption].
    cbn [idxF]. pose proof (idxF_lt _ _ _ Ht) as Hlt.
    transitivity (sum (mr Psi) (fun a => amp done s' 0 a * sum k (fun b => me U (x * mr Psi + a)%nat b * Sv b * me V b (idxF d t)))).
    { apply sum_ext. intros a Ha. f_equal. rewrite <- m3 by assumption. rewrite e6; [reflexivity| |lia].
      rewrite m2. apply ragged; assumption. }
    transitivity (sum (mr Psi) (fun a => sum k (fun b => amp done s' 0 a * me U (x * mr Psi + a)%nat b * (Sv b * me V b (idxF d t))))).
    { apply sum_ext. intros a Ha. rewrite <- sum_mul_l. apply sum_ext. intros b _. ring. }
    rewrite sum_swap. apply sum_ext. intros b Hb. rewrite sum_mul_r.
    assert (Hl : length s' = length done).
    { rewrite (incfg_length _ _ Hs), repeat_length. unfold done. rewrite map_length. lia. }
    rewrite (amp_app done [B] s' [x] 0 (mr Psi) 1 Hl i3 ltac:(lia) b).
    transitivity (sum (mr Psi) (fun i => amp done s' 0 i * me U (x * mr Psi + i)%nat b) * Sv b * me V b (idxF d t)); [ring|].
    do 2 f_equal. apply sum_ext. intros a Ha. f_equal. cbn [amp]. cbn [dr B lungroup].
    rewrite e2. rewrite (sum_dlt_r k b (fun y => ent B x a y) Hb). reflexivity. }
  split; [congruence|]. split; [split; [exact Hk|unfold k; rewrite m1, m2; lia]|].
  split; [exact Hch|].
  split; [exact Hdm|]. split; [lia|].
  split; [exact HF|]. split; [apply Forall_app; split; [assumption|]; constructor; [cbn; rewrite e2; auto|constructor]|]. split.
  - intros s t Hs Ht. rewrite (Hdec s t Hs Ht). apply sum_ext. intros x Hx.
    cbn [mdiag me]. rewrite (sum_diag_l k k Sv (fun y => me V y (idxF d t)) x Hx eq_refl). ring.
  - intros i k' Sv' Hi.
    destruct (Nat.lt_ge_cases i (length acc)) as [Hlt|Hge].
    + rewrite nth_error_app1 in Hi by (rewrite map_length; exact Hlt). apply i9, Hi.
    + rewrite nth_error_app2 in Hi by (rewrite map_length; exact Hge). rewrite map_length in Hi.
      destruct (i - length acc)%nat as [|z] eqn:Ez; cbn in Hi; [|destruct z; discriminate].
      injection Hi as <- <-. replace (i + 1)%nat with (L - n)%nat by lia. split; [apply e5|].
      exists (fun x s => amp (done ++ [B]) s 0 x), (fun x t => me V x (idxF d t)).
      split; [|split].
      * intros x y Hx Hy. pose proof (left_collapse (done ++ [B]) 1 k Hch HF x y Hx Hy) as Hc.
        rewrite Hdm, sum_one in Hc. exact Hc.
      * intros x y Hx Hy. replace (L - (L - n))%nat with n by lia.
        rewrite (sum_idxF d n (fun r => sconj (me V x r) * me V y r)).
        rewrite (dlt_sym x y), <- (e8 y x Hy Hx), m1. apply sum_ext. intros r _. ring.
      * intros s t Hs Ht. replace (L - (L - n))%nat with n in Ht by lia. apply Hdec; assumption.
Qed.

Lemma max_bond_ok (l : list (site R)) : l <> [] ->
  max_bond l = Ok (list_max (map (fun x => Nat.max (dl x) (dr x)) l)).
Proof. destruct l; [contradiction|reflexivity]. Qed.

Lemma max_bond_ge (l : list (site R)) : Forall (fun A => dl A <= list_max (map (fun x => Nat.max (dl x) (dr x)) l) /\
    dr A <= list_max (map (fun x => Nat.max (dl x) (dr x)) l)) l.
Proof.
  apply Forall_forall. intros A HA.
  pose proof (proj1 (list_max_le (map (fun x => Nat.max (dl x) (dr x)) l) _) (le_n _)) as H.
  rewrite Forall_forall in H. specialize (H (Nat.max (dl A) (dr A)) (in_map (fun x => Nat.max (dl x) (dr x)) _ _ HA)). lia.
Qed.

Lemma norm_of (ds : list nat) (f g : list nat -> R) c :
  (forall s, incfg ds s -> f s = c * g s) -> sumcfg ds (fun s => g s * sconj (g s)) = 1 ->
  c * sconj c = sumcfg ds (fun s => f s * sconj (f s)).
Proof.
  intros H H1. transitivity (c * sconj c * sumcfg ds (fun s => g s * sconj (g s))); [rewrite H1; ring|].
  rewrite <- sumcfg_mul_l. apply sumcfg_ext. intros s Hs. rewrite (H s Hs), conj_mul. ring.
Qed.

Lemma right_from_state_ok (O : lapack2 R) (st : state R) : svd_ok O -> 0 < std st -> 0 < stL st ->
  match right_from_state O st with
  | Err e => e = LinAlgError /\ exists M, la_svd O M = None
  | Ok (m, Ls) => (exists c, state_ok st m c) /\ Forall right_iso (fdata m) /\
      fcan m = Some false /\ forth m = Some true /\ foc m = Some 0%nat /\
      length Ls = stL st /\
      (forall i k Sv, nth_error Ls i = Some (k, Sv) -> schmidt (std st) (stL st) i (ste st) k Sv)
  end.
Proof.
  intros HO Hd HL. destruct st as [L d f]. cbn [stL std ste] in *. unfold right_from_state. cbn [stL std ste].
  replace (Nat.eqb L 0) with false by (symmetry; apply Nat.eqb_neq; lia).
  set (P0 := mkMat (Nat.pow d L) 1 (fun r _ => f (digitsC d L r))).
  assert (Hp : 0 < Nat.pow d L) by (apply Nat.neq_0_lt_0, Nat.pow_nonzero; lia).
  assert (H0 : r_inv f d L L P0 []).
  { unfold r_inv. cbn [map length mr mc me P0 chain dims]. rewrite Nat.sub_diag.
    do 5 (split; [auto; lia|]). split; [constructor|]. split; [constructor|]. split.
    - intros s t Hs Ht. inversion Ht; subst. rewrite app_nil_r, sum_one, digitsC_idx by exact Hs. cbn. rewrite dlt_eq. ring.
    - intros i k Sv Hi. destruct i; discriminate. }
  pose proof (right_split_ok O f d L HO Hd L P0 [] (le_n _) H0) as H.
  destruct (right_split O d L P0 []) as [[Psi acc]|e]; cbn [bind]; [|exact H].
  destruct H as (i1 & i2 & i3 & i4 & i5 & i6 & i7 & i8 & i9). cbn [snd].
  rewrite Nat.sub_0_r in *. set (l := map fst acc) in *.
  assert (Hl : length l = L) by (unfold l; rewrite map_length; exact i5).
  assert (Hne : l <> []) by (intros E; rewrite E in Hl; cbn in Hl; lia).
  rewrite max_bond_ok by exact Hne. cbn [bind].
  assert (HP1 : mc Psi = 1%nat) by (cbn [Nat.pow] in i2; lia). rewrite HP1 in *.
  assert (Hpsi : forall s, incfg (repeat d L) s -> f s = me Psi 0 0 * amp l s 0 0).
  { intros s Hs. change (f s) with (f ([] ++ s)). rewrite (i8 [] s) by (try constructor; exact Hs). rewrite sum_one. reflexivity. }
  split; [|split; [exact i6|]; split; [reflexivity|]; split; [reflexivity|]; split; [reflexivity|]; split; [rewrite map_length; exact i5|exact i9]].
  exists (me Psi 0%nat 0%nat). unfold state_ok. cbn [fdata fL fd fD stL std ste].
  split; [split; [exact i3|]; split; [symmetry; exact Hl|exact Hne]|].
  split; [exact i7|]. split; [reflexivity|]. split; [reflexivity|]. split; [exact i4|].
  split; [exact Hpsi|]. split; [|apply max_bond_ge].
  apply (norm_of _ _ (fun s => amp l s 0 0) _ Hpsi). rewrite <- i4. apply right_iso_normalised; assumption.
Qed.

Lemma left_from_state_ok (O : lapack2 R) (st : state R) : svd_ok O -> 0 < std st -> 0 < stL st ->
  match left_from_state O st with
  | Err e => e = LinAlgError /\ exists M, la_svd O M = None
  | Ok (m, Ls) => (exists c, state_ok st m c) /\ Forall left_iso (fdata m) /\
      fcan m = Some false /\ forth m = Some true /\ foc m = Some (stL st) /\
      length Ls = stL st /\
      (forall i k Sv, nth_error Ls i = Some (k, Sv) -> schmidt (std st) (stL st) (i + 1) (ste st) k Sv)
  end.
Proof.
  intros HO Hd HL. destruct st as [L d f]. cbn [stL std ste] in *. unfold left_from_state. cbn [stL std ste].
  replace (Nat.eqb L 0) with false by (symmetry; apply Nat.eqb_neq; lia).
  set (P0 := mkMat 1 (Nat.pow d L) (fun _ c => f (digitsF d L c))).
  assert (Hp : 0 < Nat.pow d L) by (apply Nat.neq_0_lt_0, Nat.pow_nonzero; lia).
  assert (H0 : l_inv f d L L P0 []).
  { unfold l_inv. cbn [map length mr mc me P0 chain dims]. rewrite Nat.sub_diag.
    do 5 (split; [auto; lia|]). split; [constructor|]. split; [constructor|]. split.
    - intros s t Hs Ht. inversion Hs; subst. cbn [app]. rewrite sum_one, digitsF_idx by exact Ht. cbn. rewrite dlt_eq. ring.
    - intros i k Sv Hi. destruct i; discriminate. }
  pose proof (left_split_ok O f d L HO Hd L P0 [] (le_n _) H0) as H.
  destruct (left_split O d L P0 []) as [[Psi acc]|e]; cbn [bind]; [|exact H].
  destruct H as (i1 & i2 & i3 & i4 & i5 & i6 & i7 & i8 & i9). cbn [snd].
  rewrite Nat.sub_0_r in *. set (l := map fst acc) in *.
  assert (Hl : length l = L) by (unfold l; rewrite map_length; exact i5).
  assert (Hne : l <> []) by (intros E; rewrite E in Hl; cbn in Hl; lia).
  rewrite max_bond_ok by exact Hne. cbn [bind].
  assert (HP1 : mr Psi = 1%nat) by (cbn [Nat.pow] in i2; lia). rewrite HP1 in *.
  assert (Hpsi : forall s, incfg (repeat d L) s -> f s = me Psi 0 0 * amp l s 0 0).
  { intros s Hs. rewrite <- (app_nil_r s) at 1. rewrite (i8 s []) by (try constructor; exact Hs). rewrite sum_one. cbn [idxF]. ring. }
  split; [|split; [exact i6|]; split; [reflexivity|]; split; [reflexivity|]; split; [reflexivity|]; split; [rewrite map_length; exact i5|exact i9]].
  exists (me Psi 0%nat 0%nat). unfold state_ok. cbn [fdata fL fd fD stL std ste].
  split; [split; [exact i3|]; split; [symmetry; exact Hl|exact Hne]|].
  split; [exact i7|]. split; [reflexivity|]. split; [reflexivity|]. split; [exact i4|].
  split; [exact Hpsi|]. split; [|apply max_bond_ge].
  apply (norm_of _ _ (fun s => amp l s 0 0) _ Hpsi). rewrite <- i4. apply left_iso_normalised; assumption.
Qed.

End Proofs.
