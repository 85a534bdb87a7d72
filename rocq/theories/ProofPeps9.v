(** Contracting some rows or columns of a PEPS. *)
From Verif Require Import Alg ModelMPS ModelNcon ModelEk ModelNp ModelTensor ModelPeps SpecTensor SpecPeps ProofEk4 ProofTrace ProofTrace2 ProofNp ProofPeps ProofPeps2 ProofPeps3 ProofPeps4 ProofPeps5 ProofPeps6 ProofPeps7.
From Coq Require Import Permutation.
Import ListNotations.
Local Notation prod_ := (fold_right Nat.mul 1%nat).

(** The entries of column i in the rows fr, ..., to-1. *)
Definition column (fr to i : nat) (s : list (list nat)) : list nat := map (fun j => at_ 0 s j i) (seq fr (to - fr)).

(** The grid t has the rows fr, ..., to-1 of s merged to one row, whose entries are the
    positions of the columns among all columns within the sizes dss. *)
Definition rows_merged (H W fr to : nat) (dss s t : list (list nat)) : Prop :=
  grid (H - (to - fr) + 1) W t /\
  (forall j i, j < fr -> i < W -> at_ 0 t j i = at_ 0 s j i) /\
  (forall i, i < W -> at_ 0 t fr i = position (column fr to i dss) (column fr to i s)) /\
  (forall j i, to <= j < H -> i < W -> at_ 0 t (j - (to - fr) + 1) i = at_ 0 s j i).

Section Merge.
Context {R : sring}.
Local Open Scope sr_scope.
Add Ring Rr : (s_th R).
Notation T0 := (mkT [] (fun _ => 0 : R)).

Fixpoint cols_ok (ls : list nat) (cols : list (list (tens R))) (rs us ds : list nat) : Prop :=
  match cols, us, ds with
  | [], [], [] => ls = rs
  | col :: cols, u :: us, d :: ds => col_ok u col d /\ map (leg 4) col = ls /\ cols_ok (map (leg 2) col) cols rs us ds
  | _, _, _ => False
  end.

Lemma addcol_ok row : forall cols l r ls rs ds, row_ok l row r -> length cols = length row -> cols_ok ls cols rs (map (leg 3) row) ds ->
  cols_ok (l :: ls) (addcol row cols) (r :: rs) (map (leg 1) row) ds.
Proof.
  induction row as [|A row IH]; intros [|col cols] l r ls rs ds Hr HL Hc; try discriminate.
  - destruct ds; [|contradiction]. cbn in *. now subst.
  - destruct Hr as (H5 & H4 & Hr). destruct ds as [|d ds]; [contradiction|]. cbn [map cols_ok] in Hc. destruct Hc as (C1 & C2 & C3).
    unfold addcol. cbn [combine map fst snd cols_ok col_ok]. fold (addcol row cols). split; [auto|]. split; [congruence|]. apply IH; auto.
Qed.

Lemma rows_cols W rows : forall us ds, Forall (fun r => length r = W) rows -> length us = W -> rows_ok us rows ds ->
  cols_ok (repeat 1%nat (length rows)) (trW W rows) (repeat 1%nat (length rows)) us ds.
Proof.
  induction rows as [|row rows IH]; intros us ds HF Hu Hok.
  - cbn in Hok. subst ds. cbn [trW length repeat]. subst W. clear HF. induction us as [|u us IH]; [reflexivity|]. cbn [length repeat cols_ok map col_ok]. auto.
  - inversion HF as [|? ? H1 H2]. destruct Hok as (Hr & <- & Hok). cbn [trW length repeat]. apply addcol_ok; auto.
    + rewrite trW_length by assumption. congruence.
    + apply IH; auto. rewrite map_length. congruence.
Qed.

Inductive iscols : list (list (tens R)) -> list (tens R) -> list nat -> list nat -> Prop :=
| iscols_nil : iscols [] [] [] []
| iscols_cons col cols T Ts u us d ds : iscol u col d T -> iscols cols Ts us ds -> iscols (col :: cols) (T :: Ts) (u :: us) (d :: ds).

Lemma cols_reduce cols : forall ls rs us ds, cols_ok ls cols rs us ds -> Forall (fun c => c <> []) cols ->
  exists Ts, mapM (reduce col_contract) cols = Ok Ts /\ iscols cols Ts us ds.
Proof.
  induction cols as [|col cols IH]; intros ls rs us ds H HF; destruct us as [|u us]; try contradiction; destruct ds as [|d ds]; try contradiction.
  - exists []. split; [reflexivity|constructor].
  - inversion HF; subst. destruct H as (C1 & _ & C3). destruct (col_reduce u col d) as (T & E & HT); auto. destruct (IH _ _ _ _ C3 H3) as (Ts & E' & HTs).
    exists (T :: Ts). cbn [mapM]. rewrite E. cbn [bind]. rewrite E'. split; [reflexivity|]. now constructor.
Qed.

Lemma iscol_legs u col d (T : tens R) : iscol u col d T -> length (tsh T) = 5%nat /\ leg 0 T = prod_ (map (leg 0) col) /\ leg 1 T = u /\
  leg 2 T = prod_ (map (leg 2) col) /\ leg 3 T = d /\ leg 4 T = prod_ (map (leg 4) col).
Proof. intros [H _]. unfold leg. rewrite H. cbn. auto 10. Qed.

Lemma cols_row cols Ts us ds : iscols cols Ts us ds -> forall ls rs, cols_ok ls cols rs us ds -> row_ok (prod_ ls) Ts (prod_ rs) /\ map (leg 1) Ts = us /\ map (leg 3) Ts = ds /\ map (leg 0) Ts = map (fun c => prod_ (map (leg 0) c)) cols /\ length Ts = length cols.
Proof.
  induction 1 as [|col cols T Ts u us d ds HT HTs IH]; intros ls rs H; cbn [cols_ok] in H.
  - subst. cbn. auto.
  - destruct H as (C1 & <- & C3). destruct (IH _ _ C3) as (P1 & P2 & P3 & P4 & P5). destruct (iscol_legs _ _ _ _ HT) as (L5 & L0 & L1 & L2 & L3 & L4). cbn [row_ok map length].
    rewrite L0, L1, L2, L3, P2, P3, P4, P5. auto.
Qed.

Lemma cols_value cols Ts us ds : iscols cols Ts us ds -> forall ls0 rs0 ss ls rs vu vd, cols_ok ls0 cols rs0 us ds -> ingrid (map (map (leg 0)) cols) ss ->
  incfg ls0 ls -> incfg rs0 rs -> incfg us vu -> incfg ds vd ->
  rowS (cells Ts (map (fun gs => position (fst gs) (snd gs)) (combine (map (map (leg 0)) cols) ss))) vu vd (position ls0 ls) (position rs0 rs)
  = gridS (map (fun cs => tcells (fst cs) (snd cs)) (combine cols ss)) ls rs vu vd.
Proof.
  induction 1 as [|col cols T Ts u us d ds HT HTs IH]; intros ls0 rs0 ss ls rs vu vd Hc Hs Hl Hr Hu Hd; cbn [cols_ok] in Hc.
  - subst. inversion Hs; subst. inversion Hu; subst. inversion Hd; subst. cbn. now apply dltl_position.
  - destruct Hc as (C1 & <- & C3). inversion Hs as [|s ? ss' ? Hs0 Hs']; subst. inversion Hu as [|x ? vu' ? Hx Hu']; subst. inversion Hd as [|y ? vd' ? Hy Hd']; subst.
    cbn [map combine fst snd]. rewrite cells_cons. cbn [rowS gridS cellof cr ce]. destruct (iscol_legs _ _ _ _ HT) as (L5 & L0 & L1 & L2 & L3 & L4). rewrite L2, sum_position.
    assert (Ls := incfg_length _ _ Hs0). rewrite map_length in Ls.
    replace (map cd (tcells col s)) with (map (leg 2) col) by (unfold tcells; rewrite map_map; symmetry; exact (cells_cr col s Ls)).
    apply sumcfg_ext. intros w Hw. rewrite (IH _ _ _ w rs _ _ C3) by assumption. f_equal. destruct HT as [_ HT]. apply HT; assumption.
Qed.

Lemma trW_map {A B} (f : A -> B) W rows : Forall (fun r => length r = W) rows -> trW W (map (map f) rows) = map (map f) (trW W rows).
Proof.
  induction 1 as [|row rows Hr HF IH]; cbn [map trW]; [clear; induction W; cbn; congruence|]. rewrite IH. unfold addcol. generalize (trW W rows) as g. clear. induction row as [|x row IH]; intros [|c g]; try reflexivity. cbn [map combine fst snd]. f_equal. apply IH.
Qed.

Lemma trW_cells W M : forall s, Forall (fun r => length r = W) M -> grid (length M) W s ->
  trW W (map (map (@tc R)) (cellss M s)) = map (fun cs => tcells (fst cs) (snd cs)) (combine (trW W M) (trW W s)).
Proof.
  induction M as [|row M IH]; intros s HF [Ls Fs].
  - destruct s; [|discriminate]. cbn. clear. induction W; cbn; congruence.
  - destruct s as [|x s]; [discriminate|]. inversion HF as [|? ? HW H2]; subst. inversion Fs as [|? ? H3 H4]; subst. unfold cellss. cbn [combine map fst snd trW]. fold (cellss M s).
    assert (Gs' : grid (length M) (length row) s) by (split; [cbn in Ls; lia|assumption]). rewrite IH by assumption. assert (LM := trW_length _ _ H2). assert (LS := trW_length _ _ H4).
    revert LM LS. generalize (trW (length row) M) as g. generalize (trW (length row) s) as g'. intros g' g LM LS. clear - H3 LM LS. revert x H3 g g' LM LS. induction row as [|A row IH]; intros [|y x] Hx g g' LM LS; try discriminate; destruct g as [|c g]; try discriminate; destruct g' as [|c' g']; try discriminate; [reflexivity|].
    unfold addcol in *. cbn [combine map fst snd]. rewrite cells_cons. cbn [combine map fst snd]. f_equal. apply IH; cbn in *; lia.
Qed.

Lemma gridS_merged W M us0 ds0 Ts s us ds : Forall (fun r => length r = W) M -> M <> [] -> length us0 = W -> rows_ok us0 M ds0 -> iscols (trW W M) Ts us0 ds0 ->
  ingrid (legs_of 0 M) s -> incfg us0 us -> incfg ds0 ds ->
  rowS (cells Ts (map (fun gs => position (fst gs) (snd gs)) (combine (trW W (legs_of 0 M)) (trW W s)))) us ds 0 0
  = gridS (cellss M s) us ds (repeat 0%nat (length M)) (repeat 0%nat (length M)).
Proof.
  intros HF HN Lu Hok HT Hs Hu Hd. assert (Gs : grid (length M) W s).
  { apply (ingrid_grid _ _ (legs_of 0 M)); [apply legs_grid; now split|assumption]. }
  assert (Hc := rows_cols W M us0 ds0 HF Lu Hok).
  assert (Ld : length ds0 = W). { clear - Hc HF. assert (L := trW_length W M HF). rewrite <- L. clear L HF. revert Hc. generalize (repeat 1%nat (length M)) at 1 as a. generalize (repeat 1%nat (length M)) as b. generalize (trW W M) as g. intros g b a. revert a us0 ds0. induction g as [|c g IH]; intros a [|u us0] [|d ds0] Hc; try contradiction; [reflexivity|]. destruct Hc as (_ & _ & Hc). cbn. f_equal. eapply IH. exact Hc. }
  assert (Lu' := incfg_length _ _ Hu). assert (Ld' := incfg_length _ _ Hd).
  rewrite (gridS_tr W) by (rewrite ?repeat_length, ?cellss_length; try apply Gs; try congruence; now apply cellss_forall).
  rewrite trW_cells by assumption.
  assert (E : trW W (legs_of 0 M) = map (map (leg 0)) (trW W M)) by (apply trW_map; exact HF). rewrite E.
  assert (Z : position (repeat 1%nat (length M)) (repeat 0%nat (length M)) = 0%nat).
  { apply position_zeros; [|apply incfg_zeros]. apply Forall_forall. intros x Hx. now apply repeat_spec in Hx. }
  assert (It : ingrid (map (map (leg 0)) (trW W M)) (trW W s)).
  { rewrite <- E. clear - Hs HF Gs. revert s Hs Gs. induction HF as [|row M Hr HF IH]; intros s Hs [Ls Fs]; inversion Hs as [|x ? s' ? Hx Hs']; subst; cbn [legs_of map trW]; [clear; induction W; cbn; constructor; auto; constructor|].
    inversion Fs as [|? ? Fx Fs']; subst. fold (legs_of 0 M). assert (Gs' : grid (length M) (length row) s') by (split; [cbn in Ls; lia|assumption]). assert (IH' := IH s' Hs' Gs'). clear IH.
    assert (L1 : length (trW (length row) s') = length row) by (now apply trW_length). assert (L2 := forall2_length _ _ _ IH'). revert Hx IH' L1 L2. generalize (trW (length row) (legs_of 0 M)) as g'. generalize (trW (length row) s') as g. clear. intros g g'.
    revert x g g'. induction row as [|A row IH]; intros x g g' Hx Hg L1 L2; inversion Hx; subst; destruct g as [|c g]; try discriminate; destruct g' as [|c' g']; try discriminate; [constructor|]. unfold addcol. cbn [map combine fst snd]. inversion Hg; subst. constructor; [constructor; assumption|]. apply IH; auto. }
  assert (V := cols_value _ _ _ _ HT _ _ (trW W s) (repeat 0%nat (length M)) (repeat 0%nat (length M)) us ds Hc It (incfg_zeros _) (incfg_zeros _) Hu Hd). rewrite Z in V. exact V.
Qed.

Lemma rows_ok_app a : forall b us (vs : list nat) ds, Forall (fun r => r <> []) a -> rows_ok us (a ++ b) ds -> exists vs, rows_ok us a vs /\ @rows_ok R vs b ds.
Proof. clear. induction a as [|row a IH]; intros b us vs ds HF H; [exists us; split; [reflexivity|exact H]|]. inversion HF; subst. destruct H as (H1 & H2' & H). destruct (IH b _ vs _ H3 H) as (v & Ha & Hb). exists v. cbn [rows_ok]. auto. Qed.
Lemma rows_ok_app_mk a : forall b us vs ds, rows_ok us a vs -> rows_ok vs b ds -> @rows_ok R us (a ++ b) ds.
Proof. induction a as [|row a IH]; intros b us vs ds Ha Hb; cbn [app rows_ok] in *; [now subst|]. destruct Ha as (H1 & H2 & Ha). eauto. Qed.

Lemma rows_ok_len W (rows : list (list (tens R))) : forall us ds, Forall (fun r => length r = W) rows -> length us = W -> rows_ok us rows ds -> @length nat ds = W.
Proof. induction rows as [|row rows IH]; intros us ds HF Hu H; [cbn in H; congruence|]. inversion HF; subst. destruct H as (_ & _ & H). apply (IH (map (leg 3) row)); auto. now rewrite map_length. Qed.

(** Blocks of rows put one above the other. *)
Lemma gridS_three A M B : forall s1 s2 s3 W us ds v1 v2, Forall (fun r => length r = W) (A ++ M ++ B) -> rows_ok us A v1 -> rows_ok v1 M v2 -> rows_ok v2 B ds ->
  grid (length A) W s1 -> grid (length M) W s2 -> grid (length B) W s3 -> forall u d, incfg us u -> 
  gridS (@cellss R (A ++ M ++ B) (s1 ++ s2 ++ s3)) u d (repeat 0%nat (length A + (length M + length B))) (repeat 0%nat (length A + (length M + length B)))
  = sumcfg v1 (fun w => gridS (cellss A s1) u w (repeat 0%nat (length A)) (repeat 0%nat (length A)) * sumcfg v2 (fun w' => gridS (cellss M s2) w w' (repeat 0%nat (length M)) (repeat 0%nat (length M)) * gridS (cellss B s3) w' d (repeat 0%nat (length B)) (repeat 0%nat (length B)))).
Proof.
  intros s1 s2 s3 W us ds v1 v2 HF HA HM HB G1 G2 G3 u d Hu. assert (L1 : length s1 = length A) by apply G1. assert (L2 : length s2 = length M) by apply G2.
  apply Forall_app in HF. destruct HF as [FA HF]. apply Forall_app in HF. destruct HF as [FM FB].
  rewrite cellss_app, repeat_app by exact L1. rewrite (gridS_app _ _ _ _ _ _ _ _ us) by (rewrite ?repeat_length, ?cellss_length; auto).
  rewrite (rows_ok_lastD W A s1 us v1) by assumption. apply sumcfg_ext. intros w Hw. f_equal.
  rewrite cellss_app, repeat_app by exact L2. rewrite (gridS_app _ _ _ _ _ _ _ _ v1) by (rewrite ?repeat_length, ?cellss_length; auto). now rewrite (rows_ok_lastD W M s2 v1 v2) by assumption.
Qed.

Lemma gridS_single (cs : list (cell R)) us ds l r : incfg (map cd cs) ds -> gridS [cs] us ds [l] [r] = rowS cs us ds l r.
Proof.
  intros Hd. cbn [gridS]. rewrite (sumcfg_ext _ _ (fun w => dltl ds w * rowS cs us w l r)) by (intros; rewrite dltl_sym; ring). now apply (dltl_sum _ _ (fun w => rowS cs us w l r)).
Qed.

Lemma merge_rows W (A M B : list (list (tens R))) s1 s2 s3 mid : (0 < W)%nat -> Forall (fun r => length r = W) (A ++ M ++ B) -> M <> [] -> rows_ok (repeat 1%nat W) (A ++ M ++ B) (repeat 1%nat W) ->
  mapM (reduce col_contract) (trW W M) = Ok mid -> ingrid (legs_of 0 A) s1 -> ingrid (legs_of 0 M) s2 -> ingrid (legs_of 0 B) s3 ->
  gridS (cellss (A ++ [mid] ++ B) (s1 ++ [map (fun gs => position (fst gs) (snd gs)) (combine (trW W (legs_of 0 M)) (trW W s2))] ++ s3)) (repeat 0%nat W) (repeat 0%nat W) (repeat 0%nat (length A + (1 + length B))) (repeat 0%nat (length A + (1 + length B)))
  = gridS (cellss (A ++ M ++ B) (s1 ++ s2 ++ s3)) (repeat 0%nat W) (repeat 0%nat W) (repeat 0%nat (length A + (length M + length B))) (repeat 0%nat (length A + (length M + length B))) /\
  rows_ok (repeat 1%nat W) (A ++ [mid] ++ B) (repeat 1%nat W) /\ Forall (fun r => length r = W) (A ++ [mid] ++ B).
Proof.
  intros HW HF HN Hok E I1 I2 I3. assert (HNE := grid_nonempty W _ HW HF). apply Forall_app in HNE. destruct HNE as [NA HNE]. apply Forall_app in HNE. destruct HNE as [NM NB].
  destruct (rows_ok_app A (M ++ B) _ [] _ NA Hok) as (v1 & OA & Hok'). destruct (rows_ok_app M B _ [] _ NM Hok') as (v2 & OM & OB).
  assert (HF' := HF). apply Forall_app in HF'. destruct HF' as [FA HF']. apply Forall_app in HF'. destruct HF' as [FM FB].
  assert (L1 := rows_ok_len W A _ _ FA (repeat_length _ _) OA). assert (L2 := rows_ok_len W M _ _ FM L1 OM).
  assert (NC : Forall (fun c => c <> []) (trW W M)).
  { destruct (trW_grid W M FM) as [_ GF]. eapply Forall_impl; [|exact GF]. intros c Hc ->. destruct M; [congruence|discriminate]. }
  assert (HC := rows_cols W M v1 v2 FM L1 OM). destruct (cols_reduce _ _ _ _ _ HC NC) as (Ts & E' & HTs). rewrite E in E'. inversion E'; subst Ts. clear E'.
  destruct (cols_row _ _ _ _ HTs _ _ HC) as (P1 & P2 & P3 & P4 & P5). rewrite !prod_ones in P1. rewrite trW_length in P5 by assumption.
  assert (OM' : rows_ok v1 [mid] v2) by (cbn [rows_ok]; auto).
  assert (F' : Forall (fun r => length r = W) (A ++ [mid] ++ B)) by (apply Forall_app; split; [assumption|]; constructor; assumption).
  assert (G1 : grid (length A) W s1) by (apply (ingrid_grid _ _ (legs_of 0 A)); [apply legs_grid; now split|assumption]).
  assert (G2 : grid (length M) W s2) by (apply (ingrid_grid _ _ (legs_of 0 M)); [apply legs_grid; now split|assumption]).
  assert (G3 : grid (length B) W s3) by (apply (ingrid_grid _ _ (legs_of 0 B)); [apply legs_grid; now split|assumption]).
  set (x := map (fun gs => position (fst gs) (snd gs)) (combine (trW W (legs_of 0 M)) (trW W s2))).
  assert (Lx : length x = W).
  { unfold x. rewrite map_length, combine_length, !trW_length; [lia| |]; [apply G2|]. assert (GM : grid (length M) W (legs_of 0 M)) by (apply legs_grid; now split). apply GM. }
  assert (G2' : grid (length [mid]) W [x]) by (split; [reflexivity|constructor; auto]).
  split; [|split; [|exact F']].
  - change (1 + length B)%nat with (length [mid] + length B)%nat.
    rewrite (gridS_three A [mid] B s1 [x] s3 W _ _ v1 v2 F' OA OM' OB G1 G2' G3) by apply incfg_zeros. rewrite (gridS_three A M B s1 s2 s3 W _ _ v1 v2 HF OA OM OB G1 G2 G3) by apply incfg_zeros.
    apply sumcfg_ext. intros w Hw. f_equal. apply sumcfg_ext. intros w' Hw'. f_equal. unfold cellss. cbn [combine map fst snd length repeat]. rewrite gridS_single by (rewrite cells_cd by congruence; now rewrite P3).
    apply (gridS_merged W M v1 v2); auto.
  - apply (rows_ok_app_mk _ _ _ v1); [exact OA|]. apply (rows_ok_app_mk _ _ _ v2); [exact OM'|exact OB].
Qed.

(** * fPEPS.row_contract *)
Lemma skipn_nth {A} (d : A) l n i : nth i (skipn n l) d = nth (n + i) l d.
Proof. revert l. induction n as [|n IH]; intros l; [reflexivity|]. destruct l; [destruct i; reflexivity|]. apply IH. Qed.
Lemma firstn_nth {A} (d : A) l n i : (i < n)%nat -> nth i (firstn n l) d = nth i l d.
Proof. revert l i. induction n as [|n IH]; intros l i Hi; [lia|]. destruct l; [reflexivity|]. destruct i; [reflexivity|]. cbn [firstn nth]. apply IH. lia. Qed.

Lemma three_parts {A} (l : list A) fr to : (fr <= to)%nat -> l = firstn fr l ++ firstn (to - fr) (skipn fr l) ++ skipn to l.
Proof.
  intros H. rewrite <- (firstn_skipn fr l) at 1. f_equal. rewrite <- (firstn_skipn (to - fr) (skipn fr l)) at 1. f_equal. clear - H. revert l to H. induction fr as [|fr IH]; intros l to H; [cbn [skipn]; now rewrite Nat.sub_0_r|].
  destruct to; [lia|]. destruct l; [now rewrite !skipn_nil|]. cbn [skipn Nat.sub]. apply IH. lia.
Qed.

Lemma ingrid_firstn n : forall dss s, ingrid dss s -> ingrid (firstn n dss) (firstn n s).
Proof. induction n as [|n IH]; intros dss s H; [constructor|]. inversion H; subst; [constructor|]. cbn [firstn]. constructor; [assumption|]. now apply IH. Qed.
Lemma ingrid_skipn n : forall dss s, ingrid dss s -> ingrid (skipn n dss) (skipn n s).
Proof. induction n as [|n IH]; intros dss s H; [exact H|]. inversion H; subst; [constructor|]. cbn [skipn]. now apply IH. Qed.


Lemma forall_parts {A} (P : A -> Prop) l fr to : (fr <= to)%nat -> Forall P l -> Forall P (firstn fr l) /\ Forall P (firstn (to - fr) (skipn fr l)) /\ Forall P (skipn to l).
Proof. intros H HF. rewrite (three_parts l fr to H) in HF. apply Forall_app in HF. destruct HF as [H1 HF]. apply Forall_app in HF. tauto. Qed.

Lemma column_trW W s fr to i : (fr <= to)%nat -> (to <= length s)%nat -> (i < W)%nat -> Forall (fun r => length r = W) s -> column fr to i s = nth i (trW W (firstn (to - fr) (skipn fr s))) [].
Proof.
  intros Hft Hto Hi HF. destruct (forall_parts _ _ fr to Hft HF) as (_ & FM & _). set (M := firstn (to - fr) (skipn fr s)) in *.
  assert (LM : length M = (to - fr)%nat) by (unfold M; rewrite firstn_length, skipn_length; lia). assert (GT := trW_grid W M FM). assert (GR := grid_row _ _ _ i GT Hi).
  apply (nth_ext _ _ 0%nat 0%nat).
  - unfold column. rewrite map_length, seq_length. rewrite GR. now symmetry.
  - unfold column. rewrite map_length, seq_length. intros j Hj. rewrite (nth_map_ (fun j => at_ 0%nat s j i)) by (rewrite seq_length; lia). rewrite seq_nth by assumption.
    change (nth j (nth i (trW W M) []) 0%nat) with (at_ 0%nat (trW W M) i j). rewrite trW_at by assumption. unfold at_, M. rewrite firstn_nth by assumption. now rewrite skipn_nth.
Qed.

Lemma row_contract_merged H W (p : peps R) fr to : peps_ok H W (pdata p) -> (fr < to)%nat -> (to <= H)%nat ->
  exists q, peps_row_contract p fr to = Ok q /\ peps_ok (H - (to - fr) + 1) W (pdata q) /\ pLx q = (H - (to - fr) + 1)%nat /\ pLy q = W /\ poc q = None /\
    (forall j i, (j < fr)%nat -> (i < W)%nat -> site_at (pdata q) j i = site_at (pdata p) j i) /\
    (forall i, (i < W)%nat -> leg 0 (site_at (pdata q) fr i) = prod_ (column fr to i (legs_of 0 (pdata p)))) /\
    (forall j i, (to <= j < H)%nat -> (i < W)%nat -> site_at (pdata q) (j - (to - fr) + 1) i = site_at (pdata p) j i) /\
    (forall s t, ingrid (legs_of 0 (pdata p)) s -> rows_merged H W fr to (legs_of 0 (pdata p)) s t -> pamp (H - (to - fr) + 1) W (pdata q) t = pamp H W (pdata p) s).
Proof.
  intros Hok Hft Hto. assert (Hok' := Hok). apply peps_rec in Hok'. destruct Hok' as (HH & HW & HG & Hrows). assert (HG' := HG). destruct HG' as [HL HF].
  set (A := firstn fr (pdata p)). set (M := firstn (to - fr) (skipn fr (pdata p))). set (B := skipn to (pdata p)).
  assert (ED : pdata p = A ++ M ++ B) by (apply three_parts; lia).
  assert (LA : length A = fr) by (unfold A; rewrite firstn_length; lia). assert (LM : length M = (to - fr)%nat) by (unfold M; rewrite firstn_length, skipn_length; lia). assert (LB : length B = (H - to)%nat) by (unfold B; rewrite skipn_length; lia).
  assert (HN : M <> []) by (intros E; rewrite E in LM; cbn in LM; lia).
  assert (FM : Forall (fun r => length r = W) M) by (apply (forall_parts _ _ fr to); auto; lia).
  assert (HFA : Forall (fun r => length r = W) (A ++ M ++ B)) by (rewrite <- ED; exact HF). assert (Hrows' := Hrows). rewrite ED in Hrows'.
  assert (EX : exists mid, mapM (reduce col_contract) (trW W M) = Ok mid /\ length mid = W /\ map (leg 0) mid = map (fun c => prod_ (map (leg 0) c)) (trW W M)).
  { assert (HNE := grid_nonempty W _ HW HFA). apply Forall_app in HNE. destruct HNE as [NA HNE]. apply Forall_app in HNE. destruct HNE as [NM NB].
    assert (HFA' := HFA). apply Forall_app in HFA'. destruct HFA' as [FA HF']. 
    destruct (rows_ok_app A (M ++ B) _ [] _ NA Hrows') as (v1 & OA & Hok'). destruct (rows_ok_app M B _ [] _ NM Hok') as (v2 & OM & OB).
    assert (L1 := rows_ok_len W A _ _ FA (repeat_length _ _) OA).
    assert (HC := rows_cols W M v1 v2 FM L1 OM). assert (NC : Forall (fun c => c <> []) (trW W M)).
    { destruct (trW_grid W M FM) as [_ GF]. eapply Forall_impl; [|exact GF]. intros c Hc ->. destruct M; [congruence|discriminate]. }
    destruct (cols_reduce _ _ _ _ _ HC NC) as (Ts & E' & HTs). exists Ts. split; [exact E'|]. destruct (cols_row _ _ _ _ HTs _ _ HC) as (P1 & P2 & P3 & P4 & P5). split; [|exact P4]. now rewrite P5, trW_length. }
  destruct EX as (mid & Emid & Lmid & E0).
  assert (MR := fun s1 s2 s3 I1 I2 I3 => merge_rows W A M B s1 s2 s3 mid HW HFA HN Hrows' Emid I1 I2 I3).
  assert (OK2 : rows_ok (repeat 1%nat W) (A ++ [mid] ++ B) (repeat 1%nat W) /\ Forall (fun r => length r = W) (A ++ [mid] ++ B)).
  { clear MR. assert (HNE := grid_nonempty W _ HW HFA). apply Forall_app in HNE. destruct HNE as [NA HNE]. apply Forall_app in HNE. destruct HNE as [NM NB].
    assert (HFA' := HFA). apply Forall_app in HFA'. destruct HFA' as [FA HF'].
    destruct (rows_ok_app A (M ++ B) _ [] _ NA Hrows') as (v1 & OA & Hok'). destruct (rows_ok_app M B _ [] _ NM Hok') as (v2 & OM & OB).
    assert (L1 := rows_ok_len W A _ _ FA (repeat_length _ _) OA).
    assert (HC := rows_cols W M v1 v2 FM L1 OM). assert (NC : Forall (fun c => c <> []) (trW W M)).
    { destruct (trW_grid W M FM) as [_ GF]. eapply Forall_impl; [|exact GF]. intros c Hc ->. destruct M; [congruence|discriminate]. }
    destruct (cols_reduce _ _ _ _ _ HC NC) as (Ts & E' & HTs). rewrite Emid in E'. inversion E'; subst Ts. destruct (cols_row _ _ _ _ HTs _ _ HC) as (P1 & P2 & P3 & P4 & P5). rewrite !prod_ones in P1. split.
    - apply (rows_ok_app_mk _ _ _ v1); [exact OA|]. apply (rows_ok_app_mk _ _ _ v2); [cbn [rows_ok]; auto|exact OB].
    - apply Forall_app. split; [assumption|]. constructor; [assumption|]. apply Forall_app in HF'. tauto. }
  destruct OK2 as [OK2 F2]. set (H' := (H - (to - fr) + 1)%nat) in *. set (data := A ++ [mid] ++ B) in *.
  assert (Ldata : length data = H') by (unfold data, H'; rewrite !app_length; cbn [length]; lia).
  assert (G' : grid H' W data) by (now split).
  assert (Hq : peps_ok H' W data) by (apply peps_rec; split; [unfold H'; lia|auto]).
  unfold peps_row_contract. fold A M B. rewrite (zips_tr W) by assumption. rewrite Emid. cbn [bind]. fold data. rewrite (init_ok H' W data Hq).
  eexists. split; [reflexivity|]. cbn [pdata pLx pLy poc]. split; [exact Hq|]. do 3 (split; [reflexivity|]).
  assert (GLEG := legs_grid 0 _ _ _ HG). split; [|split; [|split]].
  - intros j i Hj Hi. unfold site_at, at_, data. rewrite app_nth1 by lia. unfold A. now rewrite firstn_nth.
  - intros i Hi. unfold site_at, at_, data. rewrite app_nth2 by lia. rewrite LA, Nat.sub_diag. cbn [app nth].
    rewrite (column_trW W) by (auto; try lia; destruct GLEG as [GL1 GL2]; try (rewrite GL1; lia); assumption).
    transitivity (nth i (map (leg 0) mid) (leg 0 T0)); [symmetry; apply map_nth|]. rewrite E0. change (leg 0 T0) with 0%nat.
    replace (firstn (to - fr) (skipn fr (legs_of 0 (pdata p)))) with (map (map (leg 0)) M) by (unfold M, legs_of; now rewrite skipn_map, firstn_map).
    rewrite trW_map by assumption. assert (LT := trW_length W M FM).
    rewrite (nth_indep _ 0%nat (prod_ (map (@leg R 0) []))) by (rewrite map_length; lia). rewrite (map_nth (fun c => prod_ (map (@leg R 0) c))).
    f_equal. symmetry. exact (map_nth (map (@leg R 0)) (trW W M) [] i).
  - intros j i Hj Hi. unfold site_at, at_, data. rewrite app_nth2 by lia. rewrite LA. replace (j - (to - fr) + 1 - fr)%nat with (S (j - to)) by lia. cbn [app nth]. unfold B. rewrite skipn_nth. now replace (to + (j - to))%nat with j by lia.
  - intros s t Hs (Gt & M1 & M2 & M3). assert (Gs : grid H W s) by (apply (ingrid_grid _ _ _ _ GLEG Hs)). assert (Ls : length s = H) by apply Gs.
    rewrite (pamp_gridS H') by assumption. rewrite (pamp_gridS H) by assumption.
    set (s1 := firstn fr s). set (s2 := firstn (to - fr) (skipn fr s)). set (s3 := skipn to s). assert (ES : s = s1 ++ s2 ++ s3) by (apply three_parts; lia).
    assert (I1 : ingrid (legs_of 0 A) s1) by (unfold A, s1, legs_of; rewrite <- firstn_map; now apply ingrid_firstn).
    assert (I2 : ingrid (legs_of 0 M) s2) by (unfold M, s2, legs_of; rewrite <- firstn_map, <- skipn_map; now apply ingrid_firstn, ingrid_skipn).
    assert (I3 : ingrid (legs_of 0 B) s3) by (unfold B, s3, legs_of; rewrite <- skipn_map; now apply ingrid_skipn).
    destruct (MR s1 s2 s3 I1 I2 I3) as [V _]. rewrite <- ED, <- ES in V. rewrite LA, LM, LB in V.
    assert (EH : (fr + (to - fr + (H - to)) = H)%nat) by lia. assert (EH' : (fr + (1 + (H - to)) = H')%nat) by (unfold H'; lia). rewrite EH, EH' in V. fold data in V. rewrite <- V. f_equal. f_equal.
    assert (L1 : length s1 = fr) by (unfold s1; rewrite firstn_length; lia). destruct Gs as [_ FS]. assert (Gs : grid H W s) by (now split).
    destruct (forall_parts _ _ fr to ltac:(lia) FS) as (FS1 & FS2 & FS3). set (x := map _ _).
    assert (Lx : length x = W). { unfold x. rewrite map_length, combine_length, !trW_length; auto; [lia|]. assert (GM : grid (length M) W (legs_of 0 M)) by (apply legs_grid; now split). apply GM. }
    apply (grid_ext 0%nat H' W); [exact Gt| |].
    { split; [rewrite !app_length; cbn [length]; unfold s3; rewrite skipn_length; unfold H'; lia|]. apply Forall_app. split; [exact FS1|]. constructor; [exact Lx|exact FS3]. }
    intros j i Hj Hi. destruct (lt_eq_lt_dec j fr) as [[Hjf|Hjf]|Hjf].
    + rewrite M1 by assumption. unfold at_. rewrite app_nth1 by lia. unfold s1. now rewrite firstn_nth.
    + subst j. rewrite M2 by assumption. unfold at_. rewrite app_nth2 by lia. rewrite L1, Nat.sub_diag. cbn [app nth].
      rewrite (column_trW W (legs_of 0 (pdata p))) by (auto; try lia; destruct GLEG as [GL1 GL2]; try (rewrite GL1; lia); assumption). rewrite (column_trW W s) by (auto; lia).
      replace (firstn (to - fr) (skipn fr (legs_of 0 (pdata p)))) with (legs_of 0 M) by (unfold M, legs_of; now rewrite skipn_map, firstn_map). fold s2.
      unfold x. rewrite (nth_indep _ 0%nat ((fun gs => position (fst gs) (snd gs)) ([], []))) by (fold x; lia). rewrite (map_nth (fun gs => position (fst gs) (snd gs))). 
      assert (GM : grid (length M) W (legs_of 0 M)) by (apply legs_grid; now split). rewrite combine_nth by (rewrite !trW_length; auto; apply GM). reflexivity.
    + assert (Hj2 : (to <= j + (to - fr) - 1 < H)%nat) by (unfold H' in Hj; lia). assert (K := M3 _ i Hj2 Hi). replace (j + (to - fr) - 1 - (to - fr) + 1)%nat with j in K by lia. rewrite K.
      unfold at_. rewrite app_nth2 by lia. rewrite L1. destruct (j - fr)%nat as [|k] eqn:Ek; [lia|]. cbn [app nth]. unfold s3. rewrite skipn_nth. f_equal. f_equal. lia.
Qed.

Lemma column_legs fr to i (data : list (list (tens R))) : column fr to i (legs_of 0 data) = map (fun j => leg 0 (site_at data j i)) (seq fr (to - fr)).
Proof. unfold column. apply map_ext. intros j. unfold at_, legs_of, site_at, at_. change (@nil nat) with (map (@leg R 0) []). rewrite map_nth. change 0%nat with (@leg R 0 T0). apply map_nth. Qed.

Lemma at_legs k (data : list (list (tens R))) j i : at_ 0%nat (legs_of k data) j i = leg k (site_at data j i).
Proof. unfold at_, legs_of, site_at, at_. change (@nil nat) with (map (@leg R k) []). rewrite map_nth. replace 0%nat with (@leg R k T0) by (unfold leg; cbn; now destruct k). apply map_nth. Qed.

Lemma group_one fr k : group fr 1 k = [k].
Proof. unfold group. destruct (Nat.ltb_spec k fr); [reflexivity|]. destruct (Nat.eqb_spec k fr); [now subst|]. now replace (k + 1 - 1)%nat with k by lia. Qed.

(** Row contraction, in terms of merging. *)
Lemma row_contract_ok' H W (p : peps R) fr h : peps_ok H W (pdata p) -> (0 < h)%nat -> (fr + h <= H)%nat ->
  exists q, peps_row_contract p fr (fr + h) = Ok q /\ peps_ok (H - h + 1) W (pdata q) /\ pLx q = (H - h + 1)%nat /\ pLy q = W /\ poc q = None /\
    (forall j i, (j < H - h + 1)%nat -> (i < W)%nat -> leg 0 (site_at (pdata q) j i) = prod_ (entries (group fr h j) [i] (legs_of 0 (pdata p)))) /\
    (forall j k i, (j < H - h + 1)%nat -> (i < W)%nat -> j <> fr -> group fr h j = [k] -> site_at (pdata q) j i = site_at (pdata p) k i) /\
    (forall s t, ingrid (legs_of 0 (pdata p)) s -> merged H W 0 fr 1 h (legs_of 0 (pdata p)) s t -> pamp (H - h + 1) W (pdata q) t = pamp H W (pdata p) s).
Proof.
  intros Hok Hh Hto. destruct (row_contract_merged H W p fr (fr + h) Hok ltac:(lia) Hto) as (q & E & Hq & Q1 & Q2 & Q3 & S1 & S2 & S3 & V).
  replace (fr + h - fr)%nat with h in * by lia. exists q. do 5 (split; [assumption|]). split; [|split].
  - intros j i Hj Hi. unfold entries. cbn [flat_map]. rewrite app_nil_r. unfold group. destruct (Nat.ltb_spec j fr) as [H1|H1].
    + cbn [map fold_right]. rewrite S1 by assumption. rewrite at_legs. lia.
    + destruct (Nat.eqb_spec j fr) as [->|H2].
      * rewrite S2 by assumption. unfold column. now replace (fr + h - fr)%nat with h by lia.
      * assert (K := S3 (j + h - 1)%nat i ltac:(lia) Hi). replace (j + h - 1 - h + 1)%nat with j in K by lia. rewrite K. cbn [map fold_right]. rewrite at_legs. lia.
  - intros j k i Hj Hi Hn. unfold group. destruct (Nat.ltb_spec j fr) as [H1|H1].
    + intros e. inversion e; subst. now apply S1.
    + destruct (Nat.eqb_spec j fr); [contradiction|]. intros e. inversion e; subst. assert (K := S3 (j + h - 1)%nat i ltac:(lia) Hi). now replace (j + h - 1 - h + 1)%nat with j in K by lia.
  - intros s t Hs [Gt Ht]. apply V; [assumption|]. assert (HW : (0 < W)%nat) by apply Hok. replace (W - 1 + 1)%nat with W in * by lia. unfold rows_merged. replace (fr + h - fr)%nat with h by lia. split; [exact Gt|].
    assert (X : forall j i, (j < H - h + 1)%nat -> (i < W)%nat -> at_ 0%nat t j i = position (map (fun j => at_ 0%nat (legs_of 0 (pdata p)) j i) (group fr h j)) (map (fun j => at_ 0%nat s j i) (group fr h j))).
    { intros j i Hj Hi. rewrite Ht by assumption. rewrite group_one. unfold entries. cbn [flat_map]. now rewrite !app_nil_r. }
    split; [|split].
    + intros j i Hj Hi. rewrite X by lia. unfold group. destruct (Nat.ltb_spec j fr); [|lia]. cbn [map]. apply position_one.
    + intros i Hi. rewrite X by lia. unfold group, column. destruct (Nat.ltb_spec fr fr); [lia|]. rewrite Nat.eqb_refl. now replace (fr + h - fr)%nat with h by lia.
    + intros j i Hj Hi. rewrite X by lia. unfold group. destruct (Nat.ltb_spec (j - h + 1) fr); [lia|]. destruct (Nat.eqb_spec (j - h + 1) fr); [lia|]. cbn [map]. rewrite position_one. f_equal. lia.
Qed.

(** Grids given by a function. *)
Definition mkgrid {A} (H W : nat) (f : nat -> nat -> A) : list (list A) := map (fun j => map (f j) (seq 0 W)) (seq 0 H).
Lemma mkgrid_grid {A} H W (f : nat -> nat -> A) : grid H W (mkgrid H W f).
Proof. unfold mkgrid. split; [now rewrite map_length, seq_length|]. apply Forall_forall. intros r Hr. apply in_map_iff in Hr. destruct Hr as (j & <- & _). now rewrite map_length, seq_length. Qed.
Lemma mkgrid_at {A} (d : A) H W f j i : (j < H)%nat -> (i < W)%nat -> at_ d (mkgrid H W f) j i = f j i.
Proof.
  intros Hj Hi. unfold at_, mkgrid. rewrite (nth_map_ (fun j => map (f j) (seq 0 W))) by (now rewrite seq_length). rewrite seq_nth by assumption. cbn [Nat.add]. rewrite nth_map_ by (now rewrite seq_length). now rewrite seq_nth.
Qed.

Lemma ingrid_at H W dss s : grid H W dss -> grid H W s -> (ingrid dss s <-> forall j i, (j < H)%nat -> (i < W)%nat -> (at_ 0%nat s j i < at_ 0%nat dss j i)%nat).
Proof. intros Gd Gs. exact (forall2_grid (fun x d => (x < d)%nat) 0%nat 0%nat H W s dss Gs Gd). Qed.

Lemma entries_row g l (j : nat) : entries [j] l g = map (fun i => at_ 0%nat g j i) l.
Proof. unfold entries. induction l as [|i l IH]; [reflexivity|]. cbn [flat_map map app]. now rewrite <- IH. Qed.

Lemma col_contract_ok' H W (p : peps R) fr w : peps_ok H W (pdata p) -> (0 < w)%nat -> (fr + w <= W)%nat ->
  exists q, peps_col_contract p fr (fr + w) = Ok q /\ peps_ok H (W - w + 1) (pdata q) /\ pLx q = H /\ pLy q = (W - w + 1)%nat /\ poc q = None /\
    (forall j i, (j < H)%nat -> (i < W - w + 1)%nat -> leg 0 (site_at (pdata q) j i) = prod_ (entries [j] (group fr w i) (legs_of 0 (pdata p)))) /\
    (forall s t, ingrid (legs_of 0 (pdata p)) s -> merged H W fr 0 w 1 (legs_of 0 (pdata p)) s t -> pamp H (W - w + 1) (pdata q) t = pamp H W (pdata p) s).
Proof.
  intros Hok Hw Hto. destruct (T_ok H W p Hok) as (q1 & E1 & O1 & X1 & Y1 & D1 & B1 & C1 & P1 & V1).
  destruct (row_contract_ok' W H q1 fr w O1 Hw Hto) as (q2 & E2 & O2 & X2 & Y2 & C2 & L2 & _ & V2).
  destruct (T_ok _ _ q2 O2) as (q & E3 & O3 & X3 & Y3 & D3 & B3 & C3 & P3 & V3).
  assert (LP1 : forall j i, (j < H)%nat -> (i < W)%nat -> leg 0 (site_at (pdata q1) i j) = leg 0 (site_at (pdata p) j i)).
  { intros j i Hj Hi. destruct (P1 j i Hj Hi) as [HS _]. unfold leg at 1. now rewrite HS. }
  assert (GB : forall k x, (k < W - w + 1)%nat -> In x (group fr w k) -> (x < W)%nat).
  { intros k x Hk. unfold group. destruct (Nat.ltb_spec k fr); [intros [<-|[]]; lia|]. destruct (Nat.eqb_spec k fr); [intros Hx; apply in_seq in Hx; lia|]. intros [<-|[]]. lia. }
  assert (FM : forall g l (j : nat), entries [j] l g = map (fun i => at_ 0%nat g j i) l) by (intros; apply entries_row).
  exists q. unfold peps_col_contract. rewrite E1. cbn [bind]. rewrite E2. cbn [bind]. split; [exact E3|]. split; [exact O3|]. split; [exact X3|]. split; [exact Y3|]. split; [now rewrite C3, C2|]. split.
  - intros j i Hj Hi. destruct (P3 i j Hi Hj) as [HS _]. unfold leg at 1. rewrite HS. cbn [map nth]. rewrite L2 by assumption. rewrite FM. unfold entries. cbn [flat_map]. rewrite app_nil_r. f_equal. apply map_ext_in. intros i' Hi'.
    rewrite !at_legs. apply LP1; eauto.
  - intros s t Hs [Gt Ht]. assert (HHp : (0 < H)%nat) by apply Hok. replace (H - 1 + 1)%nat with H in * by lia. assert (GL : grid H W (legs_of 0 (pdata p))) by (apply legs_grid; apply Hok).
    assert (Gs : grid H W s) by (apply (ingrid_grid _ _ _ _ GL Hs)). set (s' := mkgrid W H (fun i j => at_ 0%nat s j i)). set (t' := mkgrid (W - w + 1) H (fun i j => at_ 0%nat t j i)).
    rewrite (V3 t' t); [|apply mkgrid_grid|split; [exact Gt|]; intros i j Hi Hj; unfold t'; now rewrite mkgrid_at].
    rewrite (V2 s' t').
    + apply V1; [exact Gs|]. split; [apply mkgrid_grid|]. intros j i Hj Hi. unfold s'. now rewrite mkgrid_at.
    + assert (GL1 : grid W H (legs_of 0 (pdata q1))) by (apply legs_grid; apply O1). apply (ingrid_at W H); [exact GL1|apply mkgrid_grid|]. intros i j Hi Hj. unfold s'. rewrite mkgrid_at by assumption. rewrite at_legs, LP1 by assumption. rewrite <- at_legs.
      apply (ingrid_at H W); assumption.
    + split; [replace (H - 1 + 1)%nat with H by lia; apply mkgrid_grid|]. replace (H - 1 + 1)%nat with H by lia. intros i j Hi Hj. unfold t'. rewrite mkgrid_at by assumption. rewrite Ht by assumption. rewrite !group_one, !FM.
      unfold entries. cbn [flat_map]. rewrite !app_nil_r. f_equal; apply map_ext_in; intros i' Hi'; assert (i' < W)%nat by eauto.
      * rewrite !at_legs. symmetry. now apply LP1.
      * unfold s'. now rewrite mkgrid_at.
Qed.

(** contract *)
Lemma contract_ok H W (p : peps R) x y w h : peps_ok H W (pdata p) -> (0 < w)%nat -> (0 < h)%nat -> (x + w <= W)%nat -> (y + h <= H)%nat ->
  exists q, peps_contract p x y w h = Ok q /\ peps_ok (H - h + 1) (W - w + 1) (pdata q) /\
    (forall j i, (j < H - h + 1)%nat -> (i < W - w + 1)%nat -> leg 0 (site_at (pdata q) j i) = prod_ (entries (group y h j) (group x w i) (legs_of 0 (pdata p)))) /\
    (forall s t, ingrid (legs_of 0 (pdata p)) s -> merged H W x y w h (legs_of 0 (pdata p)) s t -> pamp (H - h + 1) (W - w + 1) (pdata q) t = pamp H W (pdata p) s).
Proof.
  intros Hok Hw Hh Hx Hy. destruct (row_contract_ok' H W p y h Hok Hh Hy) as (q1 & E1 & O1 & _ & _ & _ & L1 & _ & V1). destruct (col_contract_ok' _ W q1 x w O1 Hw Hx) as (q & E2 & O2 & _ & _ & _ & L2 & V2).
  exists q. unfold peps_contract. rewrite E1. cbn [bind]. split; [exact E2|]. split; [exact O2|].
  assert (GBW : forall k i, (k < W - w + 1)%nat -> In i (group x w k) -> (i < W)%nat).
  { intros k i Hk. unfold group. destruct (Nat.ltb_spec k x); [intros [<-|[]]; lia|]. destruct (Nat.eqb_spec k x); [intros Hi; apply in_seq in Hi; lia|]. intros [<-|[]]. lia. }
  assert (GBH : forall k i, (k < H - h + 1)%nat -> In i (group y h k) -> (i < H)%nat).
  { intros k i Hk. unfold group. destruct (Nat.ltb_spec k y); [intros [<-|[]]; lia|]. destruct (Nat.eqb_spec k y); [intros Hi; apply in_seq in Hi; lia|]. intros [<-|[]]. lia. }
  assert (FM : forall g l (j : nat), entries [j] l g = map (fun i => at_ 0%nat g j i) l) by (intros; apply entries_row).
  assert (EC : forall g rows cols, entries rows cols g = concat (map (fun i => entries rows [i] g) cols)).
  { intros g rows cols. unfold entries. rewrite flat_map_concat_map. f_equal. apply map_ext. intros i. cbn [flat_map]. now rewrite app_nil_r. }
  assert (GL : grid H W (legs_of 0 (pdata p))) by (apply legs_grid; apply Hok). assert (GL1 : grid (H - h + 1) W (legs_of 0 (pdata q1))) by (apply legs_grid; apply O1).
  split.
  - intros j i Hj Hi. rewrite L2 by assumption. rewrite FM, EC, prod_concat, map_map. f_equal. apply map_ext_in. intros i' Hi'. rewrite at_legs. apply L1; eauto.
  - intros s t Hs [Gt Ht]. assert (Gs : grid H W s) by (apply (ingrid_grid _ _ _ _ GL Hs)).
    set (t1 := mkgrid (H - h + 1) W (fun j i => position (entries (group y h j) [i] (legs_of 0 (pdata p))) (entries (group y h j) [i] s))).
    assert (IE : forall j i, (j < H - h + 1)%nat -> (i < W)%nat -> incfg (entries (group y h j) [i] (legs_of 0 (pdata p))) (entries (group y h j) [i] s)).
    { intros j i Hj Hi. unfold entries. cbn [flat_map]. rewrite !app_nil_r. assert (B := fun k => GBH j k Hj). revert B. generalize (group y h j) as l. induction l as [|k l IH]; intros B; [constructor|]. cbn [map]. constructor; [|apply IH; intros; apply B; now right].
      apply (ingrid_at H W); auto. apply B. now left. }
    assert (M1 : merged H W 0 y 1 h (legs_of 0 (pdata p)) s t1).
    { assert (HW : (0 < W)%nat) by apply Hok. unfold merged. replace (W - 1 + 1)%nat with W by lia. split; [apply mkgrid_grid|]. intros j i Hj Hi. unfold t1. rewrite mkgrid_at by assumption. now rewrite group_one. }
    rewrite <- (V1 s t1 Hs M1). apply V2.
    + apply (ingrid_at (H - h + 1) W); [exact GL1|apply mkgrid_grid|]. intros j i Hj Hi. unfold t1. rewrite mkgrid_at by assumption. rewrite at_legs, L1 by assumption. apply position_lt. auto.
    + unfold merged. assert (HE : (H - h + 1 - 1 + 1 = H - h + 1)%nat) by lia. rewrite HE. split; [exact Gt|]. intros j i Hj Hi. rewrite Ht by assumption. rewrite group_one, !FM. rewrite (EC (legs_of 0 (pdata p))), (EC s).
      assert (IG : ingrid (map (fun i => entries (group y h j) [i] (legs_of 0 (pdata p))) (group x w i)) (map (fun i => entries (group y h j) [i] s) (group x w i))).
      { assert (B := fun k => GBW i k Hi). revert B. generalize (group x w i) as l. induction l as [|k l IH]; intros B; [constructor|]. cbn [map]. constructor; [|apply IH; intros; apply B; now right]. apply IE; auto. apply B. now left. }
      rewrite (proj1 (position_groups _ _ IG)). clear IG. f_equal.
      * rewrite map_map. apply map_ext_in. intros i' Hi'. rewrite at_legs. symmetry. apply L1; eauto.
      * assert (B := fun k => GBW i k Hi). revert B. generalize (group x w i) as l. induction l as [|k l IH]; intros B; [reflexivity|]. cbn [map combine fst snd]. f_equal; [|apply IH; intros; apply B; now right]. unfold t1. rewrite mkgrid_at by (auto; apply B; now left). reflexivity.
Qed.
End Merge.
