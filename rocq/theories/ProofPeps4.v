(** The state vector of a PEPS. *)
From Verif Require Import Alg ModelMPS ModelNcon ModelEk ModelNp ModelTensor ModelPeps SpecTensor SpecPeps ProofEk4 ProofTrace ProofTrace2 ProofNp ProofPeps ProofPeps2 ProofPeps3.
Import ListNotations.
Local Notation prod_ := (fold_right Nat.mul 1%nat).

Lemma position_inj ds s t : incfg ds s -> incfg ds t -> position ds s = position ds t -> s = t.
Proof.
  intros Hs Ht E. rewrite !position_ravel in E by (eapply incfg_length; eassumption).
  destruct (unravel_ravel ds s Hs) as [<- _]. destruct (unravel_ravel ds t Ht) as [<- _]. now rewrite E.
Qed.

Lemma position_groups gs ss : ingrid gs ss -> position (concat gs) (concat ss) = position (map prod_ gs) (map (fun gs => position (fst gs) (snd gs)) (combine gs ss)) /\ incfg (concat gs) (concat ss).
Proof.
  intros H. assert (HL : incfg (concat gs) (concat ss)).
  { induction H as [|s g ss gs Hs H IH]; cbn [concat]; [constructor|]. now apply Forall2_app. }
  split; [|exact HL]. rewrite position_ravel by (eapply incfg_length; exact HL).
  rewrite position_ravel.
  - clear HL. induction H as [|s g ss gs Hs H IH]; cbn [concat map combine fst snd ravel]; [reflexivity|].
    rewrite ravel_app by (eapply incfg_length; exact Hs). rewrite IH. rewrite position_ravel by (eapply incfg_length; exact Hs). f_equal. f_equal.
    clear. induction gs as [|g gs IH]; cbn [concat map fold_right]; [reflexivity|]. now rewrite prod_app, IH.
  - rewrite !map_length, combine_length. rewrite (ingrid_length _ _ H). lia.
Qed.

Lemma position_zeros ds s : Forall (fun d => d = 1%nat) ds -> incfg ds s -> position ds s = 0%nat.
Proof.
  intros H Hs. assert (K : (position ds s < prod_ ds)%nat) by (now apply position_lt).
  assert (prod_ ds = 1%nat) by (clear - H; induction H; cbn [fold_right]; subst; auto; lia). lia.
Qed.

Section State.
Context {R : sring}.
Local Open Scope sr_scope.
Add Ring Rr : (s_th R).

Lemma dltl_position ds us vs : incfg ds us -> incfg ds vs -> (dlt (position ds us) (position ds vs) : R) = dltl us vs.
Proof.
  intros Hu Hv. assert (E : forall ds us vs, incfg ds us -> incfg ds vs -> (dltl us vs : R) = if list_eq_dec Nat.eq_dec us vs then 1 else 0).
  { clear. intros ds us vs Hu. revert vs. induction Hu as [|u d us ds Hu _ IH]; intros vs Hv; [inversion Hv; subst; destruct (list_eq_dec Nat.eq_dec [] []); [reflexivity|contradiction]|].
    inversion Hv as [|v d' vs' ds' Hv0 Hv1 Ev]; subst. cbn [dltl]. rewrite IH by assumption.
    destruct (list_eq_dec Nat.eq_dec us vs') as [->|Hn]; destruct (Nat.eq_dec u v) as [->|Hm];
      destruct (list_eq_dec Nat.eq_dec _ _); try congruence; rewrite ?dlt_eq; try (rewrite dlt_neq by assumption); ring. }
  rewrite (E ds) by assumption. destruct (list_eq_dec Nat.eq_dec us vs) as [->|Hn]; [apply dlt_eq|].
  apply dlt_neq. intros K. apply Hn. eapply position_inj; eassumption.
Qed.

Lemma rows_reduce rows : forall us ds, rows_ok us rows ds -> Forall (fun r => r <> []) rows ->
  exists Ts, mapM (reduce row_contract) rows = Ok Ts /\ Forall2 (fun row T => @isrow R 1 row 1 T) rows Ts.
Proof.
  induction rows as [|row rows IH]; intros us ds H HF; [exists []; split; [reflexivity|constructor]|].
  inversion HF; subst. destruct H as (Hr & _ & H). destruct (row_reduce 1 row 1) as (T & E & HT); auto.
  destruct (IH _ _ H H3) as (Ts & E' & HTs). exists (T :: Ts). cbn [mapM]. rewrite E. cbn [bind]. rewrite E'. split; [reflexivity|]. now constructor.
Qed.

Lemma isrow_legs l row r (T : tens R) : isrow l row r T -> length (tsh T) = 5%nat /\ leg 0 T = prod_ (map (leg 0) row) /\ leg 1 T = prod_ (map (leg 1) row) /\
  leg 2 T = r /\ leg 3 T = prod_ (map (leg 3) row) /\ leg 4 T = l.
Proof. intros [H _]. unfold leg. rewrite H. cbn. auto 10. Qed.

Lemma col_of_rows rows : forall us ds Ts, rows_ok us rows ds -> Forall2 (fun row T => @isrow R 1 row 1 T) rows Ts -> col_ok (prod_ us) Ts (prod_ ds).
Proof.
  induction rows as [|row rows IH]; intros us ds Ts H HT; inversion HT as [|x T y Ts' HT0 HT1]; subst; [cbn in *; congruence|].
  destruct H as (Hr & <- & H). apply isrow_legs in HT0. destruct HT0 as (H5 & H0 & H1 & H2 & H3 & H4). cbn [col_ok]. rewrite H1, H3. auto.
Qed.

Lemma grid_of_col W rows : forall Ts s us0 ds0 us ds, rows_ok us0 rows ds0 -> Forall (fun r => length r = W) rows -> Forall2 (fun row T => @isrow R 1 row 1 T) rows Ts ->
  ingrid (legs_of 0 rows) s -> incfg us0 us -> incfg ds0 ds ->
  rowS (tcells Ts (map (fun gs => position (fst gs) (snd gs)) (combine (legs_of 0 rows) s))) (repeat 0%nat (length rows)) (repeat 0%nat (length rows)) (position us0 us) (position ds0 ds)
  = gridS (cellss rows s) us ds (repeat 0%nat (length rows)) (repeat 0%nat (length rows)).
Proof.
  induction rows as [|row rows IH]; intros Ts s us0 ds0 us ds Hok HF HT Hs Hu Hd.
  - inversion HT; subst. inversion Hs; subst. cbn in Hok. subst. cbn [cellss combine map legs_of length repeat gridS]. unfold tcells. cbn [cells combine map rowS]. now apply dltl_position.
  - inversion HT as [|x T y Ts' HT0 HT1]; subst. inversion Hs as [|x yy ss dss' Hx Hs']; subst. inversion HF; subst.
    destruct Hok as (Hr & <- & Hok). cbn [legs_of map combine fst snd length repeat]. unfold cellss. cbn [combine map fst snd]. fold (cellss rows ss).
    rewrite tcells_cons. cbn [rowS gridS tc cellof cd cr ce]. destruct (isrow_legs _ _ _ _ HT0) as (H5 & H0 & H1 & H2' & H3' & H4). rewrite H3'.
    assert (Ls := incfg_length _ _ Hx). rewrite map_length in Ls.
    rewrite (cells_cd row x) by assumption. rewrite sum_position. apply sumcfg_ext. intros w Hw.
    rewrite <- (IH Ts' ss (map (leg 3) row) ds0 w ds) by assumption. f_equal. destruct HT0 as [_ HT0]. rewrite HT0; auto.
Qed.

Lemma ingrid_concat_length dss s : ingrid dss s -> length (combine dss s) = length dss.
Proof. intros H. rewrite combine_length, (ingrid_length _ _ H). lia. Qed.

Lemma grid_nonempty W (rows : list (list (tens R))) : (0 < W)%nat -> Forall (fun r => length r = W) rows -> Forall (fun r => r <> []) rows.
Proof. intros HW H. eapply Forall_impl; [|exact H]. intros r <- ->. cbn in HW. lia. Qed.

Lemma prod_ones W : prod_ (repeat 1%nat W) = 1%nat.
Proof. induction W; cbn [repeat fold_right]; lia. Qed.

Lemma legs0_rows rows Ts : Forall2 (fun row T => @isrow R 1 row 1 T) rows Ts -> map (leg 0) Ts = map prod_ (legs_of 0 rows).
Proof. induction 1 as [|row T rows Ts HT _ IH]; [reflexivity|]. cbn [map legs_of]. apply isrow_legs in HT. destruct HT as (_ & -> & _). f_equal. exact IH. Qed.
Lemma legs1_rows rows Ts k : (k = 2 \/ k = 4)%nat -> Forall2 (fun row T => @isrow R 1 row 1 T) rows Ts -> map (leg k) Ts = repeat 1%nat (length rows).
Proof. intros Hk. induction 1 as [|row T rows Ts HT _ IH]; [reflexivity|]. cbn [map length repeat]. apply isrow_legs in HT. destruct HT as (_ & _ & _ & H2 & _ & H4). destruct Hk; subst k; congruence. Qed.

Lemma flat_squeeze (T : tens R) N n : tsh T = [N; 1; 1; 1; 1]%nat -> (n < N)%nat -> flat (squeeze T) n = te T [n; 0; 0; 0; 0]%nat /\ tsh (squeeze T) = (if Nat.eqb N 1 then [] else [N]).
Proof.
  intros H Hn. unfold flat, squeeze. cbn [tsh te]. rewrite H. cbn [filter Nat.eqb negb]. destruct (Nat.eqb N 1) eqn:E; cbn [negb].
  - apply Nat.eqb_eq in E. subst N. cbn. assert (n = 0%nat) as -> by lia. auto.
  - cbn [nth_index fold_right unsqueeze]. rewrite E. cbn [hd tl unsqueeze Nat.eqb]. now rewrite Nat.div_1_r.
Qed.

Lemma size_squeeze (T : tens R) : size (squeeze T) = size T.
Proof.
  unfold size, squeeze. cbn [tsh]. induction (tsh T) as [|d sh IH]; [reflexivity|]. cbn [filter fold_right]. destruct (Nat.eqb d 1) eqn:E; cbn [negb fold_right].
  - apply Nat.eqb_eq in E. subst. rewrite IH. lia.
  - now rewrite IH.
Qed.

Lemma prod_concat gs : prod_ (concat gs) = prod_ (map prod_ gs).
Proof. induction gs as [|g gs IH]; cbn [concat map fold_right]; [reflexivity|]. now rewrite prod_app, IH. Qed.

(** Rows given as arrays, then contracted from top to bottom. *)
Lemma rows_to_state W rows Ts : (0 < length rows)%nat -> rows_ok (repeat 1%nat W) rows (repeat 1%nat W) -> Forall (fun r => length r = W) rows ->
  Forall2 (fun row T => @isrow R 1 row 1 T) rows Ts ->
  exists T, reduce col_contract Ts = Ok T /\ tsh T = [prod_ (concat (legs_of 0 rows)); 1; 1; 1; 1]%nat /\
    forall s, ingrid (legs_of 0 rows) s -> te T [position (concat (legs_of 0 rows)) (concat s); 0; 0; 0; 0]%nat
      = gridS (cellss rows s) (repeat 0%nat W) (repeat 0%nat W) (repeat 0%nat (length rows)) (repeat 0%nat (length rows)).
Proof.
  intros HL Hok HF HT. assert (Hc := col_of_rows _ _ _ _ Hok HT). rewrite !prod_ones in Hc.
  destruct (col_reduce 1 Ts 1) as (T & E & HsT & HeT); auto.
  { intros ->. inversion HT; subst. cbn in HL. lia. }
  exists T. split; [exact E|]. rewrite (legs0_rows _ _ HT), (legs1_rows _ _ 2 (or_introl eq_refl) HT), (legs1_rows _ _ 4 (or_intror eq_refl) HT), !prod_ones, <- prod_concat in HsT.
  split; [exact HsT|]. intros s Hs. rewrite (legs0_rows _ _ HT), (legs1_rows _ _ 2 (or_introl eq_refl) HT), (legs1_rows _ _ 4 (or_intror eq_refl) HT) in HeT.
  destruct (position_groups _ _ Hs) as [-> _].
  rewrite <- (grid_of_col W rows Ts s (repeat 1%nat W) (repeat 1%nat W)) by (auto using incfg_zeros).
  assert (Z : forall n, position (repeat 1%nat n) (repeat 0%nat n) = 0%nat).
  { intros n. apply position_zeros; [|apply incfg_zeros]. apply Forall_forall. intros x Hx. now apply repeat_spec in Hx. }
  rewrite Z. rewrite <- (HeT _ (repeat 0%nat (length rows)) (repeat 0%nat (length rows)) 0%nat 0%nat); auto using incfg_zeros.
  - now rewrite !Z.
  - clear - Hs. induction Hs as [|t ds s dss Ht Hs IH]; cbn [map combine]; [constructor|]. constructor; [|exact IH]. cbn [fst snd]. now apply position_lt.
Qed.

Lemma recombine_ok H W (p : peps R) : peps_ok H W (pdata p) ->
  exists T, peps_recombine p = Ok T /\ tsh T = (if Nat.eqb (prod_ (concat (legs_of 0 (pdata p)))) 1 then [] else [prod_ (concat (legs_of 0 (pdata p)))]) /\
    forall s, ingrid (legs_of 0 (pdata p)) s -> flat T (position (concat (legs_of 0 (pdata p))) (concat s)) = pamp H W (pdata p) s.
Proof.
  intros Hp. assert (Hp' := Hp). apply peps_rec in Hp'. destruct Hp' as (HH & HW & HG & Hok). assert (HG' := HG). destruct HG' as [HL HF].
  destruct (rows_reduce _ _ _ Hok (grid_nonempty W _ HW HF)) as (Ts & E & HT).
  destruct (rows_to_state W (pdata p) Ts) as (T & E' & HsT & HeT); auto; [lia|].
  exists (squeeze T). unfold peps_recombine. rewrite E. cbn [bind]. rewrite E'. split; [reflexivity|]. split.
  - unfold squeeze. cbn [tsh]. rewrite HsT. cbn [filter Nat.eqb negb]. now destruct (Nat.eqb _ 1).
  - intros s Hs. destruct (position_groups _ _ Hs) as [_ Hi].
    destruct (flat_squeeze T _ (position (concat (legs_of 0 (pdata p))) (concat s)) HsT) as [-> _]; [now apply position_lt|].
    rewrite HeT by assumption. assert (Gs : grid H W s) by (apply (ingrid_grid _ _ (legs_of 0 (pdata p))); [apply legs_grid; exact HG|exact Hs]).
    rewrite (pamp_gridS H W) by assumption. now rewrite HL.
Qed.
End State.
