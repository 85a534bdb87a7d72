(** Operators applied to a PEPS and their expectation values. *)
From Verif Require Import Alg ModelMPS SpecMPS ModelNcon SpecNcon ModelEk ModelNp ModelTensor ModelPeps SpecTensor ProofEk4 ProofTrace ProofTrace2 ProofNp SpecPeps ProofPeps ProofPeps2 ProofPeps3 ProofPeps5 ProofPeps12.
Import ListNotations.
Local Notation prod_ := (fold_right Nat.mul 1%nat).

Section Apply.
Context {R : sring}.
Local Open Scope sr_scope.
Add Ring Rr : (s_th R).
Notation T0 := (mkT [] (fun _ => 0 : R)).

Lemma upd_nth (l : list nat) : forall i x k, nth k (upd l i x) 0%nat = if Nat.eqb k i then (if Nat.ltb i (length l) then x else 0%nat) else nth k l 0%nat.
Proof.
  induction l as [|y l IH]; intros i x k.
  - cbn [upd length]. destruct (Nat.eqb k i); destruct k; reflexivity.
  - destruct i as [|i].
    + cbn [upd length]. destruct k; reflexivity.
    + cbn [upd]. destruct k as [|k]; [reflexivity|]. cbn [nth]. rewrite IH. reflexivity.
Qed.
Lemma upd_length (l : list nat) : forall i x, length (upd l i x) = length l.
Proof. induction l as [|y l IH]; intros [|i] x; cbn [upd length]; auto. Qed.

Lemma put_grid H W : forall s j i x, grid H W s -> grid H W (put s j i x).
Proof.
  intros s j i x [HL HF]. subst H. unfold grid. revert j. induction HF as [|r s Hr HF IH]; intros j; [destruct j; cbn; auto|]. destruct j as [|j].
  - cbn [put length]. split; [reflexivity|]. constructor; [now rewrite upd_length|assumption].
  - cbn [put length]. destruct (IH j) as [H1 H2]. split; [congruence|]. now constructor.
Qed.
Lemma put_at s : forall H W j i x j' i', grid H W s -> (j < H)%nat -> (i < W)%nat ->
  at_ 0%nat (put s j i x) j' i' = if Nat.eqb j' j && Nat.eqb i' i then x else at_ 0%nat s j' i'.
Proof.
  unfold at_. induction s as [|r s IH]; intros H W j i x j' i' [HL HF] Hj Hi; [cbn in HL; lia|]. inversion HF as [|? ? Hr HF']; subst. destruct j as [|j]; cbn [put].
  - destruct j' as [|j']; [|reflexivity]. cbn [nth Nat.eqb andb]. rewrite upd_nth. destruct (Nat.eqb i' i); [|reflexivity]. now destruct (Nat.ltb_spec i (length r)); [|lia].
  - destruct j' as [|j']; [reflexivity|]. cbn [nth Nat.eqb]. apply (IH (length s) (length r)); [split; auto|cbn in Hj; lia|assumption].
Qed.

Lemma prodl_linear n (c : nat -> R) (f : nat -> R) (F : nat -> nat -> R) k : forall l, NoDup l -> In k l ->
  f k = sum n (fun x => c x * F x k) -> (forall x m, m <> k -> F x m = f m) ->
  prodl (map f l) = sum n (fun x => c x * prodl (map (F x) l)).
Proof.
  induction l as [|m l IH]; intros HN Hk E1 E2; [contradiction|]. inversion HN as [|? ? HN1 HN2]; subst. cbn [map prodl]. destruct (Nat.eq_dec m k) as [->|Hm].
  - rewrite E1, <- sum_mul_r. apply sum_ext. intros x _. rewrite (map_ext_in (F x) f); [ring|]. intros m Hm. apply E2. intros ->. contradiction.
  - destruct Hk as [Hk|Hk]; [contradiction|]. rewrite (IH HN2 Hk E1 E2), <- sum_mul_l. apply sum_ext. intros x _. rewrite E2 by assumption. ring.
Qed.
Lemma prodgrid_linear H W n (c : nat -> R) (f : nat -> nat -> R) (F : nat -> nat -> nat -> R) j i : (j < H)%nat -> (i < W)%nat ->
  f j i = sum n (fun x => c x * F x j i) -> (forall x j' i', (j', i') <> (j, i) -> F x j' i' = f j' i') ->
  prodgrid H W f = sum n (fun x => c x * prodgrid H W (F x)).
Proof.
  intros Hj Hi E1 E2. unfold prodgrid. apply (prodl_linear n c (fun j => prodl (map (f j) (seq 0 W))) (fun x j => prodl (map (F x j) (seq 0 W))) j); [apply seq_NoDup|apply in_seq; lia| |].
  - apply (prodl_linear n c (f j) (fun x => F x j) i); [apply seq_NoDup|apply in_seq; lia|exact E1|]. intros x m Hm. apply E2. congruence.
  - intros x m Hm. f_equal. apply map_ext. intros i'. apply E2. congruence.
Qed.

Lemma apply_site_ok (op : mat R) (A : tens R) a0 a1 a2 a3 a4 : tsh A = [a0; a1; a2; a3; a4] -> mc op = a0 ->
  exists B, con (tens_mat op) A [1%nat] [0%nat] = Ok B /\ tsh B = [mr op; a1; a2; a3; a4] /\
    forall s u r d l, te B [s; u; r; d; l] = sum a0 (fun x => me op s x * te A [x; u; r; d; l]).
Proof.
  intros HA Hop. unfold con, tens_mat. cbn [tsh]. rewrite HA. cbn [mapM getitem nth_error bind]. unfold nlist_eqb. cbn. rewrite Hop, Nat.eqb_refl. cbn. eexists. split; [reflexivity|]. split; [reflexivity|]. intros s u r d l. cbn. reflexivity.
Qed.

Lemma getitem_nth {A} (l : list A) i d : (i < length l)%nat -> getitem l i = Ok (nth i l d).
Proof. intros Hi. unfold getitem. destruct (nth_error l i) as [x|] eqn:E; [now rewrite (nth_error_nth l i d E)|]. apply nth_error_None in E. lia. Qed.

Lemma apply_ok H W (p : peps R) (op : mat R) i j : peps_ok H W (pdata p) -> (j < H)%nat -> (i < W)%nat -> mc op = leg 0 (site_at (pdata p) j i) ->
  exists q, peps_apply p op i j = Ok q /\ peps_ok H W (pdata q) /\ pLx q = H /\ pLy q = W /\ pd q = pd p /\ pX q = pX p /\ poc q = poc p /\
    (forall j' i', (j' < H)%nat -> (i' < W)%nat -> (j', i') <> (j, i) -> site_at (pdata q) j' i' = site_at (pdata p) j' i') /\
    leg 0 (site_at (pdata q) j i) = mr op /\
    (forall s, grid H W s -> pamp H W (pdata q) s = sum (mc op) (fun x => me op (at_ 0%nat s j i) x * pamp H W (pdata p) (put s j i x))).
Proof.
  intros Hok Hj Hi Hop. assert (Hok' := Hok). destruct Hok' as (HH & HW & [HL HF] & HI).
  unfold peps_apply, peps_copy. rewrite (init_ok H W (pdata p) Hok). cbn [bind]. unfold keep_Xd. cbn [pdata pLx pLy pd pX poc].
  rewrite (getitem_nth (pdata p) j []) by lia. cbn [bind]. set (row := nth j (pdata p) []).
  assert (Lr : length row = W) by (rewrite Forall_forall in HF; apply HF; unfold row; apply nth_In; lia).
  rewrite (getitem_nth row i T0) by lia. cbn [bind]. change (nth i row T0) with (site_at (pdata p) j i). set (A := site_at (pdata p) j i) in *.
  assert (A5 : length (tsh A) = 5%nat) by (apply HI; assumption). assert (SA := shape5 A A5).
  destruct (apply_site_ok op A _ _ _ _ _ SA Hop) as (B & EB & SB & VB). rewrite EB. cbn [bind].
  destruct (setitem_ok row i B ltac:(lia)) as (row' & E1 & L1 & N1 & N1'). rewrite E1. cbn [bind].
  destruct (setitem_ok (pdata p) j row' ltac:(lia)) as (data & E2 & L2 & N2 & N2'). rewrite E2. cbn [bind]. eexists. split; [reflexivity|]. cbn [pdata pLx pLy pd pX poc].
  assert (SJ : site_at data j i = B) by (unfold site_at, at_; rewrite N2; apply N1).
  assert (SO : forall j' i', (j', i') <> (j, i) -> site_at data j' i' = site_at (pdata p) j' i').
  { intros j' i' Hne. unfold site_at, at_. destruct (Nat.eq_dec j' j) as [->|Hn]; [|now rewrite N2']. rewrite N2. apply N1'. congruence. }
  assert (GQ : grid H W data).
  { split; [congruence|]. apply Forall_forall. intros r Hr. destruct (In_nth _ _ [] Hr) as (k & Hk & <-). destruct (Nat.eq_dec k j) as [->|Hn]; [rewrite N2; congruence|]. rewrite N2' by assumption. rewrite Forall_forall in HF. apply HF, nth_In. congruence. }
  assert (LK : forall k j' i', (0 < k)%nat -> leg k (site_at data j' i') = leg k (site_at (pdata p) j' i')).
  { intros k j' i' Hk. destruct (Nat.eq_dec j' j) as [->|Hn]; [destruct (Nat.eq_dec i' i) as [->|Hn']|]; [|rewrite SO by congruence; reflexivity|rewrite SO by congruence; reflexivity].
    rewrite SJ. fold A. unfold leg. rewrite SB, SA. destruct k as [|k]; [lia|reflexivity]. }
  assert (LG : forall k, (0 < k)%nat -> legs_of k data = legs_of k (pdata p)).
  { intros k Hk. assert (G1 := legs_grid k _ _ _ GQ). assert (G2 := legs_grid k H W (pdata p) (conj HL HF)). destruct G1 as [G1 F1], G2 as [G2 F2].
    apply (nth_ext _ _ [] []); [congruence|]. intros n Hn. rewrite G1 in Hn. rewrite Forall_forall in F1, F2. apply (nth_ext _ _ 0%nat 0%nat).
    - rewrite F1, F2; [reflexivity| |]; apply nth_In; lia.
    - intros m _. unfold legs_of.
      assert (X : forall (d : list (list (tens R))), nth m (nth n (map (map (leg k)) d) []) 0%nat = leg k (site_at d n m)).
      { intros d. unfold site_at, at_. change (@nil nat) with (map (@leg R k) []). rewrite map_nth. replace 0%nat with (@leg R k T0) by (unfold leg; cbn; now destruct k). apply map_nth. }
      rewrite !X. apply LK, Hk. }
  split; [|do 5 (split; [reflexivity|]); split; [intros; now apply SO|split]].
  - split; [exact HH|]. split; [exact HW|]. split; [exact GQ|]. intros j' i' Hj' Hi'. cbv zeta. rewrite !LK by lia. destruct (HI j' i' Hj' Hi') as (Q1 & Q2 & Q3 & Q4 & Q5). split; [|split; [exact Q2|split; [exact Q3|split; assumption]]].
    destruct (Nat.eq_dec j' j) as [->|Hn]; [destruct (Nat.eq_dec i' i) as [->|Hn']|]; [rewrite SJ, SB; reflexivity|rewrite SO by congruence; assumption|rewrite SO by congruence; assumption].
  - rewrite SJ. unfold leg. now rewrite SB.
  - intros s Gs. unfold pamp. rewrite !LG by lia.
    transitivity (sumgrid (legs_of 2 (pdata p)) (fun h => sum (mc op) (fun x => me op (at_ 0%nat s j i) x * sumgrid (legs_of 3 (pdata p)) (fun v => prodgrid H W (fun j' i' =>
       te (site_at (pdata p) j' i') [at_ 0%nat (put s j i x) j' i'; (if Nat.eqb j' 0 then 0%nat else at_ 0%nat v (j' - 1) i'); at_ 0%nat h j' i'; at_ 0%nat v j' i'; (if Nat.eqb i' 0 then 0%nat else at_ 0%nat h j' (i' - 1))]))))).
    + apply sumgrid_ext. intros h _. rewrite (sum_ext _ _ (fun x => sumgrid (legs_of 3 (pdata p)) (fun v => me op (at_ 0%nat s j i) x * prodgrid H W (fun j' i' =>
       te (site_at (pdata p) j' i') [at_ 0%nat (put s j i x) j' i'; (if Nat.eqb j' 0 then 0%nat else at_ 0%nat v (j' - 1) i'); at_ 0%nat h j' i'; at_ 0%nat v j' i'; (if Nat.eqb i' 0 then 0%nat else at_ 0%nat h j' (i' - 1))])))) by (intros; now rewrite sumgrid_mul_l).
      rewrite sumgrid_sum. apply sumgrid_ext. intros v _. apply (prodgrid_linear H W _ _ _ _ j i Hj Hi).
      * rewrite SJ, VB, <- Hop. apply sum_ext. intros x _. rewrite (put_at s H W) by assumption. rewrite !Nat.eqb_refl. reflexivity.
      * intros x j' i' Hne. rewrite SO by assumption. rewrite (put_at s H W) by assumption. destruct (Nat.eqb_spec j' j) as [->|]; [|reflexivity]. destruct (Nat.eqb_spec i' i) as [->|]; [contradiction|reflexivity].
    + rewrite <- sumgrid_sum. apply sum_ext. intros x _. apply sumgrid_mul_l.
Qed.

Lemma E_ok S H W (p : peps R) (op : mat R) i j : setio_ok S -> peps_ok H W (pdata p) -> (1 < W)%nat -> (j < H)%nat -> (i < W)%nat ->
  mr op = leg 0 (site_at (pdata p) j i) -> mc op = leg 0 (site_at (pdata p) j i) ->
  peps_E S p op i j = Ok (sre (sumgrid (legs_of 0 (pdata p)) (fun s => sconj (pamp H W (pdata p) s)
    * sum (mc op) (fun x => me op (at_ 0%nat s j i) x * pamp H W (pdata p) (put s j i x))))).
Proof.
  intros HS Hok HW Hj Hi H1 H2. destruct (apply_ok H W p op i j Hok Hj Hi H2) as (q & Eq & Oq & _ & _ & _ & _ & _ & So & Sj & V).
  assert (GL : grid H W (legs_of 0 (pdata p))) by (apply legs_grid; apply Hok). assert (GL' : grid H W (legs_of 0 (pdata q))) by (apply legs_grid; apply Oq).
  assert (LG : legs_of 0 (pdata q) = legs_of 0 (pdata p)).
  { destruct GL as [G1 F1], GL' as [G2 F2]. apply (nth_ext _ _ [] []); [congruence|]. intros n Hn. rewrite G2 in Hn. rewrite Forall_forall in F1, F2.
    assert (Ln : length (nth n (legs_of 0 (pdata q)) []) = W) by (apply F2, nth_In; lia). apply (nth_ext _ _ 0%nat 0%nat).
    - rewrite Ln. symmetry. apply F1, nth_In. lia.
    - intros m Hm. rewrite Ln in Hm. unfold legs_of.
      assert (X : forall (d : list (list (tens R))), nth m (nth n (map (map (leg 0)) d) []) 0%nat = leg 0 (site_at d n m)).
      { intros d. unfold site_at, at_. change (@nil nat) with (map (@leg R 0) []). rewrite map_nth. change 0%nat with (@leg R 0 T0). apply map_nth. }
      rewrite !X. destruct (Nat.eq_dec n j) as [->|Hne]; [destruct (Nat.eq_dec m i) as [->|Hne]|]; [rewrite Sj; congruence|rewrite So by congruence; reflexivity|rewrite So by congruence; reflexivity]. }
  destruct (overlap_ok S H W q p HS Oq Hok LG HW) as (M & EM & M1 & M2 & VM). unfold peps_E. rewrite Eq. cbn [bind]. rewrite EM. cbn [bind]. rewrite M1, M2. cbn [Nat.ltb Nat.leb andb]. rewrite VM, LG. f_equal.
  rewrite <- (re_conj R (sumgrid (legs_of 0 (pdata p)) _)), sumgrid_conj. f_equal. apply sumgrid_ext. intros s Hs. rewrite conj_mul, conj_conj. rewrite V by (apply (ingrid_grid _ _ _ _ GL Hs)). ring.
Qed.
End Apply.
