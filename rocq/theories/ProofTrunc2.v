(** Each truncation cuts the bonds it names. *)
From Verif Require Import Alg ModelMPS SpecMPS ModelNcon SpecTensor ModelPeps SpecPeps ProofPeps2 ProofPeps5 ProofPeps9 ProofPeps15 ModelTrunc SpecTrunc ProofTrunc ProofNp.
Local Open Scope nat_scope.

Section Proofs.
Context {R : sring}.
Local Open Scope sr_scope.
Notation T0 := (mkT [] (fun _ => 0 : R)).

Definition sl (axs : list nat) (D : nat) (A : tens R) : tens R := mkT (fold_left (fun sh ax => cut_leg sh ax D) axs (tsh A)) (te A).
Lemma slice5_ok axs D (A : tens R) : length (tsh A) = 5%nat -> slice5 axs D A = Ok (sl axs D A).
Proof. intros E. unfold slice5. rewrite E. reflexivity. Qed.

Definition five (data : list (list (tens R))) : Prop := Forall (Forall (fun A => length (tsh A) = 5%nat)) data.

Lemma mapM_sl axs D (row : list (tens R)) : Forall (fun A => length (tsh A) = 5%nat) row -> mapM (slice5 axs D) row = Ok (map (sl axs D) row).
Proof. intros HF. induction HF as [|A row HA HF IH]; [reflexivity|]. cbn [mapM map]. rewrite (slice5_ok axs D A HA). cbn [bind]. rewrite IH. reflexivity. Qed.

(** the rows a to a+n-1 go through f *)
Lemma each_row_ok W (f : list (tens R) -> res (list (tens R))) n : forall a (data : list (list (tens R))), (a + n <= length data)%nat ->
  Forall (fun r => length r = W) data ->
  (forall j, (a <= j < a + n)%nat -> exists row', f (nth j data []) = Ok row' /\ length row' = W) ->
  exists data', each_row f (seq a n) data = Ok data' /\ grid (length data) W data' /\
    forall j, (j < length data)%nat -> if (Nat.leb a j && Nat.ltb j (a + n))%bool then f (nth j data []) = Ok (nth j data' []) else nth j data' [] = nth j data [].
Proof.
  induction n as [|n IH]; intros a data Ha HW Hf; cbn [seq each_row].
  - exists data. split; [reflexivity|]. split; [split; [reflexivity|exact HW]|]. intros j _. destruct (Nat.leb_spec a j), (Nat.ltb_spec j (a + 0)); cbn; try lia; reflexivity.
  - destruct (Hf a ltac:(lia)) as (row' & E & L). unfold getitem. rewrite (nth_error_nth' data []) by lia. cbn [bind]. rewrite E. cbn [bind].
    destruct (setitem_ok data a row' ltac:(lia)) as (d1 & E1 & L1 & N1 & N2). rewrite E1. cbn [bind].
    assert (HW1 : Forall (fun r => length r = W) d1).
    { apply Forall_nth. intros i d Hi. rewrite (nth_indep d1 d []) by exact Hi. destruct (Nat.eq_dec i a) as [->|Ne]; [rewrite N1; exact L|].
      rewrite N2 by exact Ne. rewrite Forall_nth in HW. apply HW. lia. }
    destruct (IH (S a) d1 ltac:(lia) HW1) as (d2 & E2 & G2 & N3).
    { intros j Hj. rewrite N2 by lia. apply Hf. lia. }
    exists d2. split; [exact E2|]. split; [rewrite <- L1; exact G2|]. intros j Hj. specialize (N3 j ltac:(lia)).
    destruct (Nat.eq_dec j a) as [->|Ne].
    + replace (Nat.leb a a && Nat.ltb a (a + S n))%bool with true by (symmetry; apply andb_true_iff; split; [apply Nat.leb_le; lia|apply Nat.ltb_lt; lia]).
      replace (Nat.leb (S a) a) with false in N3 by (symmetry; apply Nat.leb_gt; lia). cbn in N3. rewrite N3, N1. exact E.
    + rewrite N2 in N3 by exact Ne. replace (Nat.leb a j && Nat.ltb j (a + S n))%bool with (Nat.leb (S a) j && Nat.ltb j (S a + n))%bool; [exact N3|].
      destruct (Nat.leb_spec (S a) j), (Nat.leb_spec a j), (Nat.ltb_spec j (S a + n)), (Nat.ltb_spec j (a + S n)); cbn; try lia; reflexivity.
Qed.

Lemma grid_five H W (data : list (list (tens R))) : grid H W data -> (forall j i, (j < H)%nat -> (i < W)%nat -> length (tsh (site_at data j i)) = 5%nat) ->
  forall j, (j < H)%nat -> Forall (fun A => length (tsh A) = 5%nat) (nth j data []).
Proof.
  intros [HL HF] Hs j Hj. apply Forall_nth. intros i d Hi. assert (Lr : length (nth j data []) = W). { rewrite Forall_nth in HF. apply HF. lia. }
  rewrite (nth_indep _ d T0) by exact Hi. apply (Hs j i Hj). lia.
Qed.

Lemma row_len H W (data : list (list (tens R))) j : grid H W data -> (j < H)%nat -> length (nth j data []) = W.
Proof. intros [HL HF] Hj. rewrite Forall_nth in HF. apply HF. lia. Qed.

(** mapM on one row *)
Lemma one_row H W (data : list (list (tens R))) axs D r : grid H W data -> (forall j i, (j < H)%nat -> (i < W)%nat -> length (tsh (site_at data j i)) = 5%nat) -> (r < H)%nat ->
  exists data', each_row (mapM (slice5 axs D)) [r] data = Ok data' /\ grid H W data' /\
    forall j i, (j < H)%nat -> (i < W)%nat -> site_at data' j i = if Nat.eqb j r then sl axs D (site_at data j i) else site_at data j i.
Proof.
  intros Hg Hs Hr. pose proof (grid_five H W data Hg Hs) as F.
  destruct (each_row_ok W (mapM (slice5 axs D)) 1 r data) as (d' & E & G & N).
  - rewrite (proj1 Hg). lia.
  - apply Hg.
  - intros j Hj. assert (j = r) by lia. subst j. rewrite (mapM_sl axs D _ (F r Hr)). eexists. split; [reflexivity|]. rewrite map_length. now apply (row_len H).
  - exists d'. split; [exact E|]. rewrite (proj1 Hg) in G. split; [exact G|]. intros j i Hj Hi. specialize (N j ltac:(rewrite (proj1 Hg); lia)).
    destruct (Nat.eqb_spec j r) as [->|Ne].
    + replace (Nat.leb r r && Nat.ltb r (r + 1))%bool with true in N by (symmetry; apply andb_true_iff; split; [apply Nat.leb_le; lia|apply Nat.ltb_lt; lia]).
      rewrite (mapM_sl axs D _ (F r Hr)) in N. injection N as N. unfold site_at, at_. rewrite <- N.
      rewrite (nth_indep _ T0 (sl axs D T0)) by (rewrite map_length, (row_len H W data r Hg Hr); exact Hi). apply map_nth.
    + replace (Nat.leb r j && Nat.ltb j (r + 1))%bool with false in N by (symmetry; destruct (Nat.leb_spec r j), (Nat.ltb_spec j (r + 1)); cbn; try lia; reflexivity).
      unfold site_at, at_. now rewrite N.
Qed.

(** a function on each row *)
Lemma all_rows H W (data : list (list (tens R))) f (g : nat -> tens R -> tens R) : grid H W data ->
  (forall j, (j < H)%nat -> exists row', f (nth j data []) = Ok row' /\ length row' = W /\ forall i, (i < W)%nat -> nth i row' T0 = g i (nth i (nth j data []) T0)) ->
  exists data', each_row f (seq 0 H) data = Ok data' /\ grid H W data' /\ forall j i, (j < H)%nat -> (i < W)%nat -> site_at data' j i = g i (site_at data j i).
Proof.
  intros Hg Hf. destruct (each_row_ok W f H 0 data) as (d' & E & G & N).
  - rewrite (proj1 Hg). lia.
  - apply Hg.
  - intros j Hj. destruct (Hf j ltac:(lia)) as (r & Er & Lr & _). now exists r.
  - exists d'. split; [exact E|]. rewrite (proj1 Hg) in G. split; [exact G|]. intros j i Hj Hi. specialize (N j ltac:(rewrite (proj1 Hg); lia)).
    replace (Nat.leb 0 j && Nat.ltb j (0 + H))%bool with true in N by (symmetry; apply andb_true_iff; split; [reflexivity|apply Nat.ltb_lt; lia]).
    destruct (Hf j Hj) as (r & Er & _ & Nr). rewrite Er in N. injection N as N. unfold site_at, at_. rewrite <- N. now apply Nr.
Qed.

Lemma five_of (A : tens R) : length (tsh A) = 5%nat -> tsh A = [leg 0 A; leg 1 A; leg 2 A; leg 3 A; leg 4 A].
Proof. unfold leg. destruct (tsh A) as [|a [|b [|c [|d [|e [|]]]]]]; intros H; try discriminate H. reflexivity. Qed.

Lemma sl_tsh axs D (A : tens R) : length (tsh A) = 5%nat -> tsh (sl axs D A) = fold_left (fun sh ax => cut_leg sh ax D) axs [leg 0 A; leg 1 A; leg 2 A; leg 3 A; leg 4 A].
Proof. intros H. unfold sl. cbn [tsh]. now rewrite <- (five_of A H). Qed.

Ltac borders := unfold row_cap, col_cap, no_cap; intros; repeat (match goal with |- context [Nat.eqb ?a ?b] => destruct (Nat.eqb_spec a b) end); cbn [capf]; lia.

Lemma below_cut H W (p : peps R) row D (data1 data2 : list (list (tens R))) : peps_ok H W (pdata p) -> (0 < D)%nat -> (S row < H)%nat ->
  grid H W data2 ->
  (forall j i, (j < H)%nat -> (i < W)%nat -> site_at data1 j i = if Nat.eqb j row then sl [3]%nat D (site_at (pdata p) j i) else site_at (pdata p) j i) ->
  (forall j i, (j < H)%nat -> (i < W)%nat -> site_at data2 j i = if Nat.eqb j (S row) then sl [1]%nat D (site_at data1 j i) else site_at data1 j i) ->
  cut_of H W no_cap (row_cap row D) (pdata p) data2.
Proof.
  intros (H0 & W0 & Hg & Hok) HD Hr G N1 N2. split; [exact G|]. intros j i Hj Hi. cbn zeta. rewrite (N2 j i Hj Hi), (N1 j i Hj Hi).
  destruct (Hok j i Hj Hi) as (L5 & U & L & _). cbn zeta in U, L. unfold no_cap, row_cap. cbn [capf].
  assert (Lf : leg 4 (site_at (pdata p) j i) = (if Nat.eqb i 0 then 1%nat else leg 4 (site_at (pdata p) j i))) by (destruct (Nat.eqb i 0); [exact L|reflexivity]).
  destruct (Nat.eqb_spec j (S row)) as [->|Ne1].
  - replace (Nat.eqb (S row) row) with false by (symmetry; apply Nat.eqb_neq; lia). replace (Nat.eqb (S row - 1) row) with true by (symmetry; apply Nat.eqb_eq; lia).
    split; [reflexivity|]. rewrite (sl_tsh _ _ _ L5). cbn [fold_left cut_leg Nat.eqb capf]. now rewrite <- Lf.
  - destruct (Nat.eqb_spec j row) as [->|Ne2].
    + split; [reflexivity|]. rewrite (sl_tsh _ _ _ L5). cbn [fold_left cut_leg capf]. rewrite <- Lf. repeat f_equal.
      destruct (Nat.eqb_spec row 0); [exact U|]. replace (Nat.eqb (row - 1) row) with false by (symmetry; apply Nat.eqb_neq; lia). reflexivity.
    + split; [reflexivity|]. rewrite (five_of _ L5) at 1. cbn [capf]. rewrite <- Lf. repeat f_equal.
      destruct (Nat.eqb_spec j 0) as [E|Ne]; [exact U|]. replace (Nat.eqb (j - 1) row) with false by (symmetry; apply Nat.eqb_neq; lia). reflexivity.
Qed.

Lemma peps_five H W (p : peps R) : peps_ok H W (pdata p) -> forall j i, (j < H)%nat -> (i < W)%nat -> length (tsh (site_at (pdata p) j i)) = 5%nat.
Proof. intros (_ & _ & _ & Hok) j i Hj Hi. apply (Hok j i Hj Hi). Qed.
Lemma sl_len ax D (A : tens R) : length (tsh A) = 5%nat -> length (tsh (sl [ax] D A)) = 5%nat.
Proof. intros H. unfold sl. cbn [tsh fold_left]. revert ax. destruct (tsh A) as [|a [|b [|c [|d [|e [|]]]]]]; try discriminate H. intros [|[|[|[|[|[|]]]]]]; reflexivity. Qed.

Lemma two_rows H W (p : peps R) row D : peps_ok H W (pdata p) -> (0 < D)%nat -> (S row < H)%nat ->
  exists d1 d2, each_row (mapM (slice5 [3]%nat D)) [row] (pdata p) = Ok d1 /\ each_row (mapM (slice5 [1]%nat D)) [S row] d1 = Ok d2 /\
    truncated H W no_cap (row_cap row D) p (with_data p d2).
Proof.
  intros Hp HD Hr. pose proof (peps_five H W p Hp) as F. assert (Hg : grid H W (pdata p)) by apply Hp.
  destruct (one_row H W (pdata p) [3]%nat D row Hg F ltac:(lia)) as (d1 & E1 & G1 & N1).
  destruct (one_row H W d1 [1]%nat D (S row) G1) as (d2 & E2 & G2 & N2).
  { intros j i Hj Hi. rewrite N1 by assumption. destruct (Nat.eqb j row); [apply sl_len|]; now apply F. }
  { exact Hr. }
  exists d1, d2. split; [exact E1|]. split; [exact E2|]. apply cut_truncated; [exact Hp| |borders|borders].
  now apply (below_cut H W p row D d1 d2).
Qed.

Lemma truncate_below_ok H W (p : peps R) row D : peps_ok H W (pdata p) -> pLx p = H -> (0 < D)%nat -> (S row < H)%nat ->
  exists q, truncate_below p row D = Ok q /\ truncated H W no_cap (row_cap row D) p q.
Proof.
  intros Hp HL HD Hr. destruct (two_rows H W p row D Hp HD Hr) as (d1 & d2 & E1 & E2 & T). exists (with_data p d2). split; [|exact T].
  unfold truncate_below. replace (Nat.eqb (row + 1) (pLx p)) with false by (symmetry; apply Nat.eqb_neq; lia). rewrite E1. cbn [bind].
  replace (row + 1)%nat with (S row) by lia. rewrite E2. reflexivity.
Qed.

Lemma truncate_above_ok H W (p : peps R) row D : peps_ok H W (pdata p) -> (0 < D)%nat -> (0 < row < H)%nat ->
  exists q, truncate_above p row D = Ok q /\ truncated H W no_cap (row_cap (row - 1) D) p q.
Proof.
  intros Hp HD Hr. destruct (two_rows H W p (row - 1) D Hp HD ltac:(lia)) as (d1 & d2 & E1 & E2 & T). exists (with_data p d2). split; [|exact T].
  unfold truncate_above. replace (Nat.eqb row 0) with false by (symmetry; apply Nat.eqb_neq; lia). rewrite E1. cbn [bind].
  replace (S (row - 1))%nat with row in E2 by lia. rewrite E2. reflexivity.
Qed.

Lemma truncate_along_row_ok H W (p : peps R) row D : peps_ok H W (pdata p) -> (0 < D)%nat -> (row < H)%nat ->
  exists q, truncate_along_row p row D = Ok q /\ truncated H W (row_cap row D) no_cap p q.
Proof.
  intros Hp HD Hr. pose proof (peps_five H W p Hp) as F. assert (Hg : grid H W (pdata p)) by apply Hp.
  destruct (one_row H W (pdata p) [2; 4]%nat D row Hg F Hr) as (d1 & E1 & G1 & N1).
  exists (with_data p d1). split; [unfold truncate_along_row; rewrite E1; reflexivity|].
  apply cut_truncated; [exact Hp| |borders|borders]. split; [exact G1|]. intros j i Hj Hi. cbn zeta. rewrite (N1 j i Hj Hi).
  destruct Hp as (H0 & W0 & _ & Hok). destruct (Hok j i Hj Hi) as (L5 & U & L & _). cbn zeta in U, L. unfold no_cap, row_cap. cbn [capf].
  assert (Uf : leg 1 (site_at (pdata p) j i) = (if Nat.eqb j 0 then 1%nat else leg 1 (site_at (pdata p) j i))) by (destruct (Nat.eqb j 0); [exact U|reflexivity]).
  destruct (Nat.eqb_spec j row) as [Ej|Ne].
  - split; [reflexivity|]. rewrite (sl_tsh _ _ _ L5). cbn [fold_left cut_leg capf]. rewrite <- Uf. repeat f_equal.
    destruct (Nat.eqb_spec i 0); [rewrite L; lia|reflexivity].
  - split; [reflexivity|]. rewrite (five_of _ L5) at 1. cbn [capf]. rewrite <- Uf. repeat f_equal. destruct (Nat.eqb_spec i 0); [exact L|reflexivity].
Qed.

Lemma truncate_along_column_ok H W (p : peps R) col D : peps_ok H W (pdata p) -> (0 < D)%nat -> (col < W)%nat ->
  exists q, truncate_along_column p col D = Ok q /\ truncated H W no_cap (col_cap col D) p q.
Proof.
  intros Hp HD Hc. pose proof (peps_five H W p Hp) as F. assert (Hg : grid H W (pdata p)) by apply Hp.
  destruct (all_rows H W (pdata p) (column_row col D) (fun i A => if Nat.eqb i col then sl [1; 3]%nat D A else A) Hg) as (d1 & E1 & G1 & N1).
  { intros j Hj. pose proof (row_len H W (pdata p) j Hg Hj) as Lr. unfold column_row, getitem. rewrite (nth_error_nth' _ T0) by lia. cbn [bind].
    rewrite slice5_ok by (apply (F j col Hj Hc)). cbn [bind]. destruct (setitem_ok (nth j (pdata p) []) col (sl [1; 3]%nat D (nth col (nth j (pdata p) []) T0)) ltac:(lia)) as (r & Er & Lr' & Na & Nb).
    exists r. split; [exact Er|]. split; [lia|]. intros i Hi. destruct (Nat.eqb_spec i col) as [->|Ne]; [apply Na|now apply Nb]. }
  exists (with_data p d1). split; [unfold truncate_along_column; rewrite (proj1 Hg), E1; reflexivity|].
  apply cut_truncated; [exact Hp| |borders|borders]. split; [exact G1|]. intros j i Hj Hi. cbn zeta. rewrite (N1 j i Hj Hi).
  destruct Hp as (H0 & W0 & _ & Hok). destruct (Hok j i Hj Hi) as (L5 & U & L & _). cbn zeta in U, L. unfold no_cap, col_cap. cbn [capf].
  assert (Lf : leg 4 (site_at (pdata p) j i) = (if Nat.eqb i 0 then 1%nat else leg 4 (site_at (pdata p) j i))) by (destruct (Nat.eqb i 0); [exact L|reflexivity]).
  destruct (Nat.eqb_spec i col) as [Ei|Ne].
  - split; [reflexivity|]. rewrite (sl_tsh _ _ _ L5). cbn [fold_left cut_leg capf]. rewrite <- Lf. repeat f_equal.
    destruct (Nat.eqb_spec j 0); [rewrite U; lia|reflexivity].
  - split; [reflexivity|]. rewrite (five_of _ L5) at 1. cbn [capf]. rewrite <- Lf. repeat f_equal. destruct (Nat.eqb_spec j 0); [exact U|reflexivity].
Qed.

Lemma truncate_left_ok H W (p : peps R) col D : peps_ok H W (pdata p) -> pLx p = H -> (0 < D)%nat -> (0 < col < W)%nat ->
  exists q, truncate_left p col D = Ok q /\ truncated H W (col_cap (col - 1) D) no_cap p q.
Proof.
  intros Hp HL HD Hc. pose proof (peps_five H W p Hp) as F. assert (Hg : grid H W (pdata p)) by apply Hp.
  destruct (all_rows H W (pdata p) (left_row col D) (fun i A => if Nat.eqb i col then sl [4]%nat D A else if Nat.eqb i (col - 1) then sl [2]%nat D A else A) Hg) as (d1 & E1 & G1 & N1).
  { intros j Hj. pose proof (row_len H W (pdata p) j Hg Hj) as Lr. set (row := nth j (pdata p) []) in *. unfold left_row, getitem. rewrite (nth_error_nth' _ T0) by lia. cbn [bind].
    rewrite slice5_ok by (apply (F j col Hj); lia). cbn [bind]. destruct (setitem_ok row col (sl [4]%nat D (nth col row T0)) ltac:(lia)) as (r & Er & Lr' & Na & Nb).
    rewrite Er. cbn [bind]. rewrite (nth_error_nth' _ T0) by lia. cbn [bind]. rewrite Nb by lia. rewrite slice5_ok by (apply (F j (col - 1)%nat Hj); lia). cbn [bind].
    destruct (setitem_ok r (col - 1) (sl [2]%nat D (nth (col - 1) row T0)) ltac:(lia)) as (r2 & Er2 & Lr2 & Nc & Nd).
    exists r2. split; [exact Er2|]. split; [lia|]. intros i Hi. destruct (Nat.eqb_spec i col) as [->|Ne]; [rewrite Nd by lia; apply Na|].
    destruct (Nat.eqb_spec i (col - 1)) as [->|Ne']; [apply Nc|]. rewrite Nd, Nb by assumption. reflexivity. }
  exists (with_data p d1). split; [unfold truncate_left; replace (Nat.eqb col 0) with false by (symmetry; apply Nat.eqb_neq; lia); rewrite HL, E1; reflexivity|].
  apply cut_truncated; [exact Hp| |borders|borders]. split; [exact G1|]. intros j i Hj Hi. cbn zeta. rewrite (N1 j i Hj Hi).
  destruct Hp as (H0 & W0 & _ & Hok). destruct (Hok j i Hj Hi) as (L5 & U & L & _). cbn zeta in U, L. unfold no_cap, col_cap. cbn [capf].
  assert (Uf : leg 1 (site_at (pdata p) j i) = (if Nat.eqb j 0 then 1%nat else leg 1 (site_at (pdata p) j i))) by (destruct (Nat.eqb j 0); [exact U|reflexivity]).
  destruct (Nat.eqb_spec i col) as [->|Ne1].
  - replace (Nat.eqb col (col - 1)) with false by (symmetry; apply Nat.eqb_neq; lia). replace (Nat.eqb col 0) with false by (symmetry; apply Nat.eqb_neq; lia). rewrite Nat.eqb_refl.
    split; [reflexivity|]. rewrite (sl_tsh _ _ _ L5). cbn [fold_left cut_leg capf]. now rewrite <- Uf.
  - destruct (Nat.eqb_spec i (col - 1)) as [Ei|Ne2].
    + split; [reflexivity|]. rewrite (sl_tsh _ _ _ L5). cbn [fold_left cut_leg capf]. rewrite <- Uf. repeat f_equal.
      destruct (Nat.eqb_spec i 0); [exact L|]. replace (Nat.eqb (i - 1) (col - 1)) with false by (symmetry; apply Nat.eqb_neq; lia). reflexivity.
    + split; [reflexivity|]. rewrite (five_of _ L5) at 1. cbn [capf]. rewrite <- Uf. repeat f_equal.
      destruct (Nat.eqb_spec i 0) as [E|Ne]; [exact L|]. replace (Nat.eqb (i - 1) (col - 1)) with false by (symmetry; apply Nat.eqb_neq; lia). reflexivity.
Qed.
End Proofs.
