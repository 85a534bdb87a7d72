(** The amplitude of a PEPS as a sum over its rows. *)
From Verif Require Import Alg ModelMPS ModelNcon SpecTensor SpecPeps ProofPeps.
Import ListNotations.

Section Grid.
Context {R : sring}.
Local Open Scope sr_scope.
Add Ring Rr : (s_th R).

(** * Shapes by recursion *)
Fixpoint row_ok (l : nat) (row : list (tens R)) (r : nat) : Prop :=
  match row with
  | [] => l = r
  | A :: row => length (tsh A) = 5%nat /\ leg 4 A = l /\ row_ok (leg 2 A) row r
  end.
Fixpoint rows_ok (us : list nat) (rows : list (list (tens R))) (ds : list nat) : Prop :=
  match rows with
  | [] => us = ds
  | row :: rows => row_ok 1 row 1 /\ map (leg 1) row = us /\ rows_ok (map (leg 3) row) rows ds
  end.

Notation T0 := (mkT [] (fun _ => 0 : R)).

Lemma row_ok_index row : forall l r, row_ok l row r <->
  ((row = [] -> l = r) /\ forall i, (i < length row)%nat -> length (tsh (nth i row T0)) = 5%nat /\
     leg 4 (nth i row T0) = (if Nat.eqb i 0 then l else leg 2 (nth (i - 1) row T0)) /\
     (S i = length row -> leg 2 (nth i row T0) = r)).
Proof.
  induction row as [|A row IH]; intros l r; cbn [row_ok].
  - split; [intros ->; split; [auto|cbn; lia]|intros [H _]; auto].
  - rewrite IH. split.
    + intros (H5 & H4 & Hn & H). split; [discriminate|]. intros [|i] Hi; cbn [nth Nat.eqb].
      * split; [assumption|]. split; [assumption|]. intros He. apply Hn. destruct row; [reflexivity|cbn in He; lia].
      * destruct (H i) as (K5 & K4 & Kr); [cbn in Hi; lia|]. split; [assumption|].
        replace (S i - 1)%nat with i by lia. split.
        -- rewrite K4. destruct i; cbn [Nat.eqb nth]; [reflexivity|]. now replace (S i - 1)%nat with i by lia.
        -- intros He. apply Kr. cbn in He. lia.
    + intros [_ H]. destruct (H 0%nat) as (K5 & K4 & Kr); [cbn; lia|]. cbn [nth Nat.eqb] in K5, K4, Kr.
      split; [assumption|]. split; [assumption|]. split.
      * intros ->. apply Kr. reflexivity.
      * intros i Hi. destruct (H (S i)) as (L5 & L4 & Lr); [cbn; lia|]. cbn [nth Nat.eqb] in L5, L4, Lr.
        replace (S i - 1)%nat with i in L4 by lia. split; [assumption|]. split.
        -- rewrite L4. destruct i; cbn [Nat.eqb nth]; [reflexivity|]. now replace (S i - 1)%nat with i by lia.
        -- intros He. apply Lr. cbn. lia.
Qed.

Lemma nth_leg k (row : list (tens R)) i : nth i (map (leg k) row) 0%nat = leg k (nth i row T0).
Proof.
  destruct (Nat.lt_ge_cases i (length row)) as [Hi|Hi].
  - rewrite (nth_indep _ _ (leg k T0)) by (now rewrite map_length). apply map_nth.
  - rewrite nth_overflow by (now rewrite map_length). rewrite (nth_overflow row) by assumption.
    unfold leg. cbn. now destruct k.
Qed.

Lemma nth_ones n i : (i < n)%nat -> nth i (repeat 1%nat n) 0%nat = 1%nat.
Proof. revert i. induction n as [|n IH]; intros [|i] Hi; cbn; try lia. apply IH. lia. Qed.

Lemma list_eq_nth (a b : list nat) : length a = length b -> (forall i, (i < length a)%nat -> nth i a 0%nat = nth i b 0%nat) -> a = b.
Proof. intros Hl H. apply (nth_ext _ _ 0%nat 0%nat Hl H). Qed.

Lemma rows_ok_index W rows : (0 < W)%nat -> Forall (fun r => length r = W) rows -> forall us ds, length us = W -> length ds = W ->
  (rows_ok us rows ds <->
   ((rows = [] -> us = ds) /\ (forall j, (j < length rows)%nat -> row_ok 1 (nth j rows []) 1 /\
      (forall i, (i < W)%nat -> leg 1 (site_at rows j i) = (if Nat.eqb j 0 then nth i us 0%nat else leg 3 (site_at rows (j - 1) i))) /\
      (S j = length rows -> forall i, (i < W)%nat -> leg 3 (site_at rows j i) = nth i ds 0%nat)))).
Proof.
  intros HW. induction 1 as [|row rows Hr HF IH]; intros us ds Hu Hd; cbn [rows_ok].
  - split; [intros ->; split; [auto|cbn; lia]|intros [H _]; auto].
  - rewrite IH; [|now rewrite map_length|assumption]. unfold site_at, at_. split.
    + intros (H1 & H2 & Hn & H). split; [discriminate|]. intros [|j] Hj; cbn [nth Nat.eqb].
      * split; [assumption|]. split.
        -- intros i Hi. rewrite <- nth_leg. now rewrite H2.
        -- intros He i Hi. rewrite <- nth_leg. rewrite Hn; [reflexivity|]. destruct rows; [reflexivity|cbn in He; lia].
      * destruct (H j) as (K1 & K2 & K3); [cbn in Hj; lia|]. split; [assumption|].
        replace (S j - 1)%nat with j by lia. split.
        -- intros i Hi. rewrite K2 by assumption. destruct j; cbn [Nat.eqb nth]; [apply nth_leg|]. now replace (S j - 1)%nat with j by lia.
        -- intros He i Hi. apply K3; [cbn in He; lia|assumption].
    + intros [_ H]. destruct (H 0%nat) as (K1 & K2 & K3); [cbn; lia|]. cbn [nth Nat.eqb] in K1, K2, K3.
      split; [assumption|]. split.
      * apply list_eq_nth; [now rewrite map_length, Hu|]. intros i Hi. rewrite map_length in Hi. rewrite nth_leg. apply K2. lia.
      * split.
        -- intros ->. apply list_eq_nth; [now rewrite map_length, Hd|]. intros i Hi. rewrite map_length in Hi. rewrite nth_leg. apply K3; [reflexivity|lia].
        -- intros j Hj. destruct (H (S j)) as (L1 & L2 & L3); [cbn; lia|]. cbn [nth Nat.eqb] in L1, L2, L3.
           split; [assumption|]. replace (S j - 1)%nat with j in L2 by lia. split.
           ++ intros i Hi. rewrite L2 by assumption. destruct j; cbn [Nat.eqb nth]; [now rewrite nth_leg|]. now replace (S j - 1)%nat with j by lia.
           ++ intros He i Hi. apply L3; [cbn; lia|assumption].
Qed.

Lemma peps_rec H W data : peps_ok H W data <->
  ((0 < H)%nat /\ (0 < W)%nat /\ grid H W data /\ rows_ok (repeat 1%nat W) data (repeat 1%nat W)).
Proof.
  unfold peps_ok. split.
  - intros (HH & HW & HG & HI). split; [assumption|]. split; [assumption|]. split; [assumption|]. destruct HG as [HL HF].
    apply (rows_ok_index W); try assumption; try (apply repeat_length). split; [now intros ->|].
    intros j Hj. rewrite HL in Hj. assert (HR : length (nth j data []) = W).
    { rewrite Forall_forall in HF. apply HF. apply nth_In. lia. }
    split; [|split].
    + apply row_ok_index. split; [intros E; rewrite E in HR; cbn in HR; lia|]. rewrite HR. intros i Hi.
      destruct (HI j i Hj Hi) as (K5 & K1 & K4 & K3 & K2). auto.
    + intros i Hi. destruct (HI j i Hj Hi) as (K5 & K1 & K4 & K3 & K2). rewrite nth_ones by assumption. exact K1.
    + intros He i Hi. destruct (HI j i Hj Hi) as (K5 & K1 & K4 & K3 & K2). rewrite nth_ones by assumption. apply K3. lia.
  - intros (HH & HW & HG & HR). split; [assumption|]. split; [assumption|]. split; [assumption|]. destruct HG as [HL HF].
    apply (rows_ok_index W) in HR; try assumption; try (apply repeat_length). destruct HR as [_ HR].
    intros j i Hj Hi. rewrite HL in HR. destruct (HR j Hj) as (K1 & K2 & K3).
    assert (HRl : length (nth j data []) = W). { rewrite Forall_forall in HF. apply HF. apply nth_In. lia. }
    apply row_ok_index in K1. destruct K1 as [_ K1]. rewrite HRl in K1. destruct (K1 i Hi) as (L5 & L4 & L2).
    split; [assumption|]. split.
    + unfold site_at in *. rewrite K2 by assumption. destruct j; cbn [Nat.eqb]; [now apply nth_ones|reflexivity].
    + split; [exact L4|]. split; [|exact L2]. intros He. rewrite K3 by assumption. now apply nth_ones.
Qed.

(** * Cells of a PEPS *)
Definition cellof (A : tens R) (s : nat) : cell R := mkC (leg 2 A) (leg 3 A) (fun u r d l => te A [s; u; r; d; l]).
Definition cells (row : list (tens R)) (s : list nat) : list (cell R) := map (fun As => cellof (fst As) (snd As)) (combine row s).
Definition cellss (data : list (list (tens R))) (s : list (list nat)) : list (list (cell R)) := map (fun rs => cells (fst rs) (snd rs)) (combine data s).

Lemma cells_cons A row x s : cells (A :: row) (x :: s) = cellof A x :: cells row s.
Proof. reflexivity. Qed.
Lemma cells_length row s : length s = length row -> length (cells row s) = length row.
Proof. intros H. unfold cells. rewrite map_length, combine_length. lia. Qed.
Lemma cells_cr row s : length s = length row -> map cr (cells row s) = map (leg 2) row.
Proof. revert s. induction row as [|A row IH]; intros [|x s] H; try discriminate; [reflexivity|]. rewrite cells_cons. cbn [map cellof cr]. now rewrite IH by (cbn in H; lia). Qed.
Lemma cells_cd row s : length s = length row -> map cd (cells row s) = map (leg 3) row.
Proof. revert s. induction row as [|A row IH]; intros [|x s] H; try discriminate; [reflexivity|]. rewrite cells_cons. cbn [map cellof cd]. now rewrite IH by (cbn in H; lia). Qed.

Fixpoint rprod (cs : list (cell R)) (us ds : list nat) (l : nat) (h : list nat) : R :=
  match cs, us, ds, h with
  | c :: cs, u :: us, d :: ds, k :: h => ce c u k d l * rprod cs us ds k h
  | _, _, _, _ => 1
  end.
Fixpoint gprod (rows : list (list (cell R))) (us : list nat) (v h : list (list nat)) : R :=
  match rows, v, h with
  | row :: rows, ds :: v, k :: h => rprod row us ds 0 k * gprod rows ds v h
  | _, _, _ => 1
  end.
Fixpoint vprod (rows : list (list (cell R))) (us : list nat) (v : list (list nat)) : R :=
  match rows, v with
  | row :: rows, ds :: v => rowS row us ds 0 0 * vprod rows ds v
  | _, _ => 1
  end.

Lemma row_index row : forall s us ds h l, length s = length row -> length us = length row -> length ds = length row -> length h = length row ->
  prodl (map (fun i => te (nth i row T0) [nth i s 0%nat; nth i us 0%nat; nth i h 0%nat; nth i ds 0%nat; (if Nat.eqb i 0 then l else nth (i - 1) h 0%nat)]) (seq 0 (length row)))
  = rprod (cells row s) us ds l h.
Proof.
  induction row as [|A row IH]; intros s us ds h l Hs Hu Hd Hh; [reflexivity|].
  destruct s as [|x s]; [discriminate|]. destruct us as [|u us]; [discriminate|]. destruct ds as [|d ds]; [discriminate|].
  destruct h as [|k h]; [discriminate|]. rewrite cells_cons. cbn [length seq map prodl rprod nth Nat.eqb cellof ce].
  f_equal. rewrite <- (IH s us ds h k) by (cbn in *; lia). rewrite <- seq_shift, map_map. f_equal. apply map_ext_in. intros i Hi.
  cbn [nth Nat.eqb]. replace (S i - 1)%nat with i by lia. destruct i; cbn [Nat.eqb nth]; [reflexivity|]. now replace (S i - 1)%nat with i by lia.
Qed.

Lemma grid_index W data : forall s us v h, Forall (fun r => length r = W) data -> grid (length data) W s -> length us = W ->
  grid (length data) W v -> grid (length data) W h ->
  prodl (map (fun j => prodl (map (fun i => te (site_at data j i)
    [at_ 0%nat s j i; (if Nat.eqb j 0 then nth i us 0%nat else at_ 0%nat v (j - 1) i); at_ 0%nat h j i; at_ 0%nat v j i; (if Nat.eqb i 0 then 0%nat else at_ 0%nat h j (i - 1))]) (seq 0 W))) (seq 0 (length data)))
  = gprod (cellss data s) us v h.
Proof.
  induction data as [|row data IH]; intros s us v h HF [Ls Fs] Hu [Lv Fv] [Lh Fh]; [reflexivity|].
  destruct s as [|x s]; [discriminate|]. destruct v as [|d v]; [discriminate|]. destruct h as [|k h]; [discriminate|].
  inversion HF; inversion Fs; inversion Fv; inversion Fh; subst.
  unfold cellss. cbn [combine map fst snd]. fold (cellss data s). cbn [length seq map prodl gprod]. f_equal.
  - rewrite <- (row_index row x us d k 0) by congruence. rewrite H1. reflexivity.
  - rewrite <- (IH s d v h) by (auto; split; cbn in *; auto; lia). rewrite <- seq_shift, map_map. f_equal. apply map_ext_in. intros j Hj. f_equal.
    apply map_ext_in. intros i Hi. unfold site_at, at_. cbn [nth Nat.eqb]. replace (S j - 1)%nat with j by lia.
    destruct j; cbn [Nat.eqb nth]; [reflexivity|]. now replace (S j - 1)%nat with j by lia.
Qed.

Lemma sumgrid_ext dss : forall (f g : list (list nat) -> R), (forall s, ingrid dss s -> f s = g s) -> sumgrid dss f = sumgrid dss g.
Proof.
  induction dss as [|ds dss IH]; intros f g H; cbn [sumgrid]; [apply H; constructor|].
  apply sumcfg_ext. intros c Hc. apply IH. intros cs Hcs. apply H. constructor; assumption.
Qed.
Lemma sumgrid_mul_l dss c (f : list (list nat) -> R) : sumgrid dss (fun s => c * f s) = c * sumgrid dss f.
Proof. revert f. induction dss as [|ds dss IH]; intros f; cbn [sumgrid]; [reflexivity|]. rewrite <- sumcfg_mul_l. apply sumcfg_ext. intros x _. apply IH. Qed.
Lemma sumgrid_sumcfg dss es (f : list (list nat) -> list nat -> R) : sumgrid dss (fun s => sumcfg es (f s)) = sumcfg es (fun c => sumgrid dss (fun s => f s c)).
Proof.
  revert f. induction dss as [|ds dss IH]; intros f; cbn [sumgrid]; [reflexivity|].
  rewrite sumcfg_swap. apply sumcfg_ext. intros x _. apply IH.
Qed.
Lemma sumgrid_swap dss ess (f : list (list nat) -> list (list nat) -> R) : sumgrid dss (fun s => sumgrid ess (f s)) = sumgrid ess (fun t => sumgrid dss (fun s => f s t)).
Proof.
  revert f. induction dss as [|ds dss IH]; intros f; cbn [sumgrid]; [reflexivity|].
  rewrite sumgrid_sumcfg. apply sumcfg_ext. intros x _. apply IH.
Qed.
Lemma sumgrid_add dss (f g : list (list nat) -> R) : sumgrid dss (fun s => f s + g s) = sumgrid dss f + sumgrid dss g.
Proof. revert f g. induction dss as [|ds dss IH]; intros f g; cbn [sumgrid]; [reflexivity|]. rewrite <- sumcfg_add. apply sumcfg_ext. intros x _. apply IH. Qed.

Lemma ingrid_length dss s : ingrid dss s -> length s = length dss.
Proof. induction 1; cbn; congruence. Qed.
Lemma ingrid_grid H W dss s : grid H W dss -> ingrid dss s -> grid H W s.
Proof.
  intros [HL HF] HI. split; [now rewrite (ingrid_length _ _ HI)|]. clear HL. induction HI as [|t ds s dss Ht HI IH]; [constructor|].
  inversion HF; subst. constructor; [now apply incfg_length in Ht|auto].
Qed.
Lemma legs_grid k H W data : grid H W data -> grid H W (@legs_of R k data).
Proof. intros [HL HF]. unfold legs_of. split; [now rewrite map_length|]. clear HL. induction HF; constructor; auto. now rewrite map_length. Qed.

Lemma rprod_sum cs : forall us ds l x, length us = length cs -> length ds = length cs -> (l < x)%nat ->
  sumcfg (map cr cs) (fun h => rprod cs us ds l h) = sum (lastR x cs) (fun r => rowS cs us ds l r).
Proof.
  induction cs as [|c cs IH]; intros us ds l x Hu Hd Hl.
  - destruct us; [|discriminate]. destruct ds; [|discriminate]. cbn [map sumcfg rprod lastR rowS].
    rewrite (sum_ext _ _ (fun r => dlt l r * 1)) by (intros; ring). now rewrite sum_dlt_l.
  - destruct us as [|u us]; [discriminate|]. destruct ds as [|d ds]; [discriminate|]. cbn [map sumcfg rprod lastR rowS].
    rewrite sum_swap. apply sum_ext. intros k Hk. rewrite sumcfg_mul_l, sum_mul_l. f_equal. apply IH; cbn in *; lia.
Qed.

Lemma gprod_sum rows : forall us v, Forall (fun row => length row = length us) rows -> grid (length rows) (length us) v -> Forall (fun row => lastR 1 row = 1%nat) rows ->
  sumgrid (map (map cr) rows) (fun h => gprod rows us v h) = vprod rows us v.
Proof.
  induction rows as [|row rows IH]; intros us v HF [Lv Fv] H1; [reflexivity|].
  destruct v as [|d v]; [discriminate|]. inversion HF; inversion Fv; inversion H1; subst. cbn [map sumgrid gprod vprod].
  transitivity (sumcfg (map cr row) (fun k => rprod row us d 0 k * vprod rows d v)).
  - apply sumcfg_ext. intros k _. rewrite sumgrid_mul_l. f_equal. apply IH; auto.
    + apply (Forall_impl (P := fun row => length row = length us)); [intros ? ?; congruence|assumption].
    + split; [cbn in Lv; lia|]. apply (Forall_impl (P := fun row => length row = length us)); [intros ? ?; congruence|assumption].
  - rewrite sumcfg_mul_r. f_equal. transitivity (sum (lastR 1 row) (fun r => rowS row us d 0 r)).
    + apply rprod_sum; [congruence|congruence|lia].
    + match goal with H : lastR 1 row = 1%nat |- _ => rewrite H end. apply sum_one.
Qed.

Lemma vprod_sum rows : forall us x, incfg x us ->
  sumgrid (map (map cd) rows) (fun v => vprod rows us v) = sumcfg (lastD x rows) (fun w => gridS rows us w (repeat 0%nat (length rows)) (repeat 0%nat (length rows))).
Proof.
  induction rows as [|row rows IH]; intros us x Hx.
  - cbn [map sumgrid vprod lastD gridS length repeat]. rewrite (sumcfg_ext _ _ (fun w => dltl us w * 1)) by (intros; ring).
    now rewrite (dltl_sum x us (fun _ => 1)).
  - cbn [map sumgrid vprod lastD gridS length repeat]. rewrite sumcfg_swap. apply sumcfg_ext. intros d Hd.
    rewrite sumgrid_mul_l, sumcfg_mul_l. f_equal. now apply IH.
Qed.

Lemma row_ok_lastR row : forall s l r, length s = length row -> row_ok l row r -> lastR l (cells row s) = r.
Proof.
  induction row as [|A row IH]; intros [|x s] l r Hs H; try discriminate; [exact H|].
  destruct H as (_ & _ & H). rewrite cells_cons. cbn [lastR cellof cr]. apply IH; [cbn in Hs; lia|assumption].
Qed.
Lemma rows_ok_lastD W rows : forall s us ds, Forall (fun r => length r = W) rows -> grid (length rows) W s -> rows_ok us rows ds -> lastD us (cellss rows s) = ds.
Proof.
  induction rows as [|row rows IH]; intros s us ds HF [Ls Fs] H.
  - destruct s; [|discriminate]. exact H.
  - destruct s as [|x s]; [discriminate|]. inversion HF; inversion Fs; subst. destruct H as (_ & _ & H).
    unfold cellss. cbn [combine map fst snd lastD]. fold (cellss rows s). rewrite cells_cd by congruence. apply IH; auto. split; [cbn in Ls; lia|assumption].
Qed.
Lemma incfg_zeros W : incfg (repeat 1%nat W) (repeat 0%nat W).
Proof. induction W; cbn; constructor; auto. Qed.
Lemma sumcfg_ones W (f : list nat -> R) : sumcfg (repeat 1%nat W) f = f (repeat 0%nat W).
Proof. revert f. induction W as [|W IH]; intros f; [reflexivity|]. cbn [repeat sumcfg]. rewrite sum_one. apply IH. Qed.

Lemma cellss_map (g : cell R -> nat) k data : forall s, (forall A x, g (cellof A x) = leg k A) -> forall W, Forall (fun r => length r = W) data -> grid (length data) W s ->
  map (map g) (cellss data s) = legs_of k data.
Proof.
  intros s Hg W. revert s. induction data as [|row data IH]; intros s HF [Ls Fs]; [destruct s; [reflexivity|discriminate]|].
  destruct s as [|x s]; [discriminate|]. inversion HF; inversion Fs; subst. unfold cellss. cbn [combine map fst snd legs_of]. fold (cellss data s). f_equal.
  - assert (H : length x = length row) by congruence. clear - Hg H. revert x H. induction row as [|A row IH]; intros [|y x] H; try discriminate; [reflexivity|]. rewrite cells_cons. cbn [map].
    rewrite Hg. f_equal. apply IH. cbn in H. lia.
  - apply IH; auto. split; [cbn in Ls; lia|assumption].
Qed.
Lemma cellss_length data s : length s = length data -> length (cellss data s) = length data.
Proof. intros H. unfold cellss. rewrite map_length, combine_length. lia. Qed.
Lemma cellss_forall W data s : Forall (fun r => length r = W) data -> grid (length data) W s -> Forall (fun row => length row = W) (cellss data s).
Proof.
  revert s. induction data as [|row data IH]; intros s HF [Ls Fs]; [destruct s; [constructor|discriminate]|].
  destruct s as [|x s]; [discriminate|]. inversion HF; inversion Fs; subst. unfold cellss. cbn [combine map fst snd]. constructor.
  - now rewrite cells_length by congruence.
  - apply IH; auto. split; [cbn in Ls; lia|assumption].
Qed.
Lemma cellss_lastR W data s us ds : Forall (fun r => length r = W) data -> grid (length data) W s -> rows_ok us data ds -> Forall (fun row => lastR 1 row = 1%nat) (cellss data s).
Proof.
  revert s us. induction data as [|row data IH]; intros s us HF [Ls Fs] H; [destruct s; [constructor|discriminate]|].
  destruct s as [|x s]; [discriminate|]. inversion HF; inversion Fs; subst. destruct H as (Hr & _ & H). unfold cellss. cbn [combine map fst snd]. constructor.
  - apply row_ok_lastR; [congruence|assumption].
  - apply (IH s (map (leg 3) row)); auto. split; [cbn in Ls; lia|assumption].
Qed.

(** The amplitude is the sum over the rows. *)
Lemma pamp_gridS H W data s : peps_ok H W data -> grid H W s ->
  pamp H W data s = gridS (cellss data s) (repeat 0%nat W) (repeat 0%nat W) (repeat 0%nat H) (repeat 0%nat H).
Proof.
  intros Hok Gs. apply peps_rec in Hok. destruct Hok as (HH & HW & [HL HF] & HR). rewrite <- HL in Gs.
  unfold pamp. rewrite sumgrid_swap.
  transitivity (sumgrid (legs_of 3 data) (fun v => vprod (cellss data s) (repeat 0%nat W) v)).
  - apply sumgrid_ext. intros v Hv.
    assert (Gv : grid (length data) W v). { apply (ingrid_grid _ _ (legs_of 3 data)); [|assumption]. apply legs_grid. split; auto. }
    rewrite <- gprod_sum.
    + rewrite (cellss_map cr 2 data s (fun A x => eq_refl) W) by assumption. apply sumgrid_ext. intros h Hh.
      assert (Gh : grid (length data) W h). { apply (ingrid_grid _ _ (legs_of 2 data)); [|assumption]. apply legs_grid. split; auto. }
      rewrite <- (grid_index W data s (repeat 0%nat W) v h) by (auto; apply repeat_length).
      unfold prodgrid. rewrite <- HL. f_equal. apply map_ext_in. intros j Hj. f_equal. apply map_ext_in. intros i Hi.
      destruct (Nat.eqb j 0); [|reflexivity]. now rewrite nth_repeat.
    + rewrite repeat_length. now apply cellss_forall.
    + rewrite repeat_length. rewrite cellss_length; [assumption|]. apply Gs.
    + eapply cellss_lastR; eassumption.
  - rewrite <- (cellss_map cd 3 data s (fun A x => eq_refl) W) by assumption.
    rewrite (vprod_sum _ _ (repeat 1%nat W)) by apply incfg_zeros.
    rewrite (rows_ok_lastD W data s _ (repeat 1%nat W)) by assumption. rewrite sumcfg_ones.
    rewrite cellss_length by apply Gs. now rewrite HL.
Qed.
End Grid.
