(** Transposing and flipping a PEPS. *)
From Verif Require Import Alg ModelMPS ModelNcon ModelEk ModelNp ModelTensor ModelPeps SpecTensor SpecPeps ProofEk4 ProofTrace ProofTrace2 ProofNp ProofPeps ProofPeps2 ProofPeps3 ProofPeps4.
From Coq Require Import Permutation.
Import ListNotations.
Local Notation prod_ := (fold_right Nat.mul 1%nat).

(** * Grids *)
Lemma trW_at {A} (d : A) W rows : Forall (fun r => length r = W) rows -> forall i j, (i < W)%nat -> at_ d (trW W rows) i j = at_ d rows j i.
Proof.
  unfold at_. induction 1 as [|row rows Hr HF IH]; intros i j Hi.
  - cbn [trW]. rewrite nth_repeat. now destruct j, i.
  - cbn [trW]. unfold addcol.
    assert (HL := trW_length W rows HF).
    rewrite (nth_indep _ [] (fst (d, @nil A) :: snd (d, @nil A))) by (rewrite map_length, combine_length; lia).
    rewrite (map_nth (fun xr => fst xr :: snd xr)). rewrite combine_nth by lia. cbn [fst snd]. destruct j; cbn [nth]; [reflexivity|]. now apply IH.
Qed.
Lemma trW_grid {A} W (rows : list (list A)) : Forall (fun r => length r = W) rows -> grid W (length rows) (trW W rows).
Proof.
  intros HF. split; [now apply trW_length|]. induction HF as [|row rows Hr HF IH]; cbn [trW length].
  - apply Forall_forall. intros x Hx. apply repeat_spec in Hx. now subst.
  - unfold addcol. apply Forall_forall. intros x Hx. apply in_map_iff in Hx. destruct Hx as [[a c] [<- Hx]]. apply in_combine_r in Hx. cbn [fst snd length].
    rewrite Forall_forall in IH. now rewrite IH.
Qed.
Lemma zips_tr {A} W (rows : list (list A)) : rows <> [] -> Forall (fun r => length r = W) rows -> zips rows = trW W rows.
Proof.
  intros Hn HF. induction HF as [|row rows Hr HF IH]; [congruence|]. destruct rows as [|row' rows].
  - cbn [zips trW]. unfold addcol. subst W. clear. induction row as [|x row IH]; [reflexivity|]. cbn [length repeat combine map fst snd]. now f_equal.
  - change (zips (row :: row' :: rows)) with (addcol row (zips (row' :: rows))). rewrite IH by congruence. reflexivity.
Qed.
Lemma grid_ext {A} (d : A) H W g g' : grid H W g -> grid H W g' -> (forall j i, (j < H)%nat -> (i < W)%nat -> at_ d g j i = at_ d g' j i) -> g = g'.
Proof.
  intros [HL HF] [HL' HF'] HE. apply (nth_ext _ _ [] []); [congruence|]. intros j Hj. rewrite HL in Hj.
  rewrite Forall_forall in HF, HF'. assert (length (nth j g []) = W) by (apply HF, nth_In; lia). assert (length (nth j g' []) = W) by (apply HF', nth_In; lia).
  apply (nth_ext _ _ d d); [congruence|]. intros i Hi. apply HE; lia.
Qed.
Lemma grid_row {A} H W (g : list (list A)) j : grid H W g -> (j < H)%nat -> length (nth j g []) = W.
Proof. intros [HL HF] Hj. rewrite Forall_forall in HF. apply HF, nth_In. lia. Qed.
Lemma rev_grid {A} H W (g : list (list A)) : grid H W g -> grid H W (rev g).
Proof. intros [HL HF]. split; [now rewrite rev_length|]. now apply Forall_rev. Qed.
Lemma maprev_grid {A} H W (g : list (list A)) : grid H W g -> grid H W (map (@rev A) g).
Proof. intros [HL HF]. split; [now rewrite map_length|]. clear HL. induction HF; constructor; auto. now rewrite rev_length. Qed.
Lemma rev_at {A} (d : A) H W g j i : grid H W g -> (j < H)%nat -> at_ d (rev g) (H - 1 - j) i = at_ d g j i.
Proof. intros [HL HF] Hj. unfold at_. rewrite rev_nth by lia. f_equal. f_equal. lia. Qed.
Lemma maprev_at {A} (d : A) H W g j i : grid H W g -> (j < H)%nat -> (i < W)%nat -> at_ d (map (@rev A) g) j (W - 1 - i) = at_ d g j i.
Proof.
  intros HG Hj Hi. unfold at_. change (@nil A) with (rev (@nil A)) at 1. rewrite map_nth. assert (HR := grid_row _ _ _ _ HG Hj). rewrite rev_nth by lia. f_equal. lia.
Qed.

Section Flip.
Context {R : sring}.
Local Open Scope sr_scope.
Add Ring Rr : (s_th R).
Notation T0 := (mkT [] (fun _ => 0 : R)).

Lemma transpose_perm perm (A : tens R) : Permutation perm (seq 0 5) -> length (tsh A) = 5%nat -> exists B, transpose_ perm A = Ok B /\ permuted perm A B.
Proof.
  intros Hp H5. destruct (transpose_ok perm A) as (B & E & Hs & He); [now rewrite H5|]. exists B. split; [exact E|]. split; [exact Hs|].
  intros idx Hi. apply He. rewrite H5. apply Permutation_length in Hp. now rewrite Hi.
Qed.

Lemma mapM_rel {X Y} (f : X -> res Y) (P : X -> Prop) (Q : X -> Y -> Prop) l : (forall x, P x -> exists y, f x = Ok y /\ Q x y) -> Forall P l -> exists l', mapM f l = Ok l' /\ Forall2 Q l l'.
Proof.
  intros Hf. induction 1 as [|x l Hx HF IH]; [exists []; split; [reflexivity|constructor]|].
  destruct (Hf x Hx) as (y & E & Hy). destruct IH as (l' & E' & H'). exists (y :: l'). cbn [mapM]. rewrite E. cbn [bind]. rewrite E'. split; [reflexivity|]. now constructor.
Qed.

Definition five (data : list (list (tens R))) : Prop := Forall (Forall (fun A => length (tsh A) = 5%nat)) data.
Lemma peps_five H W data : peps_ok H W data -> five data.
Proof.
  intros (HH & HW & HG & HI). apply Forall_forall. intros row Hr. apply Forall_forall. intros A HA.
  apply In_nth with (d := []) in Hr. destruct Hr as (j & Hj & <-). apply In_nth with (d := T0) in HA. destruct HA as (i & Hi & <-).
  destruct HG as [HL HF]. rewrite HL in Hj. rewrite (grid_row H W data j (conj HL HF) Hj) in Hi. apply (HI j i Hj Hi).
Qed.

Lemma init_ok H W (data : list (list (tens R))) : peps_ok H W data -> peps_init data = Ok (mkPeps data H W (leg 0 (site_at data 0 0)) (list_max (concat (map (fun x => tl (tsh x)) (concat data)))) None).
Proof.
  intros Hok. assert (Hf := peps_five _ _ _ Hok). destruct Hok as (HH & HW & [HL HF] & HI). unfold peps_init. destruct data as [|row data]; [cbn in HL; lia|].
  inversion HF; subst. destruct row as [|A row]; [cbn in HW; lia|]. cbn [getitem nth_error bind].
  inversion Hf as [|? ? Hr Hf']; subst. inversion Hr as [|? ? HA Hr']; subst.
  assert (HA' := shape5 A HA). rewrite HA'. cbn [getitem nth_error bind].
  match goal with |- context [existsb ?f ?l] => replace (existsb f l) with false end.
  - unfold site_at, at_. cbn [nth]. reflexivity.
  - symmetry. apply not_true_is_false. intros E. apply existsb_exists in E. destruct E as (x & Hx & Ex). apply in_concat in Hx. destruct Hx as (r & Hr1 & Hx).
    unfold five in Hf. rewrite Forall_forall in Hf. specialize (Hf _ Hr1). rewrite Forall_forall in Hf. rewrite (Hf _ Hx) in Ex. discriminate.
Qed.

(** * Equal cells give equal sums *)
Definition ceq (c c' : cell R) : Prop := cr c = cr c' /\ cd c = cd c' /\ forall u r d l, ce c u r d l = ce c' u r d l.
Lemma rowS_ext cs cs' : Forall2 ceq cs cs' -> forall us ds l r, rowS cs us ds l r = rowS cs' us ds l r.
Proof.
  induction 1 as [|c c' cs cs' (H1 & H2 & H3) HF IH]; intros us ds l r; [reflexivity|]. destruct us; [reflexivity|]. destruct ds; [reflexivity|]. cbn [rowS]. rewrite H1.
  apply sum_ext. intros k _. now rewrite H3, IH.
Qed.
Lemma ceq_cd cs cs' : Forall2 ceq cs cs' -> map cd cs = map cd cs'.
Proof. induction 1 as [|c c' cs cs' (H1 & H2 & H3) HF IH]; [reflexivity|]. cbn [map]. congruence. Qed.
Lemma gridS_ext rows rows' : Forall2 (Forall2 ceq) rows rows' -> forall us ds ls rs, gridS rows us ds ls rs = gridS rows' us ds ls rs.
Proof.
  induction 1 as [|row row' rows rows' H HF IH]; intros us ds ls rs; [reflexivity|]. destruct ls; [reflexivity|]. destruct rs; [reflexivity|]. cbn [gridS]. rewrite (ceq_cd _ _ H).
  apply sumcfg_ext. intros w _. rewrite IH. now rewrite (rowS_ext _ _ H).
Qed.

Lemma forall2_at {X Y} (P : X -> Y -> Prop) dx dy l l' : length l = length l' -> (forall i, (i < length l)%nat -> P (nth i l dx) (nth i l' dy)) -> Forall2 P l l'.
Proof.
  revert l'. induction l as [|x l IH]; intros [|y l'] HL HP; try discriminate; constructor.
  - apply (HP 0%nat). cbn. lia.
  - apply IH; [cbn in HL; lia|]. intros i Hi. apply (HP (S i)). cbn. lia.
Qed.
Lemma forall2_nth {X Y} (P : X -> Y -> Prop) dx dy l l' : Forall2 P l l' -> length l = length l' /\ forall i, (i < length l)%nat -> P (nth i l dx) (nth i l' dy).
Proof.
  induction 1 as [|x y l l' Hx HF [IH1 IH2]]; [split; [reflexivity|cbn; lia]|]. split; [cbn; lia|]. intros [|i] Hi; cbn [nth]; [assumption|]. apply IH2. cbn in Hi. lia.
Qed.
Lemma forall2_grid {X Y} (P : X -> Y -> Prop) dx dy H W g g' : grid H W g -> grid H W g' ->
  (Forall2 (Forall2 P) g g' <-> forall j i, (j < H)%nat -> (i < W)%nat -> P (at_ dx g j i) (at_ dy g' j i)).
Proof.
  intros HG HG'. unfold at_. split.
  - intros HF j i Hj Hi. apply (forall2_nth _ [] []) in HF. destruct HF as [_ HF]. specialize (HF j). destruct HG as [HL HG]. rewrite HL in HF. specialize (HF Hj).
    apply (forall2_nth _ dx dy) in HF. destruct HF as [_ HF]. apply HF. rewrite (grid_row H W g j) by (auto; split; auto). assumption.
  - intros HP. apply (forall2_at _ [] []); [destruct HG, HG'; congruence|]. intros j Hj. assert (Hj' : (j < H)%nat) by (destruct HG; lia).
    apply (forall2_at _ dx dy); [now rewrite !(grid_row H W) by assumption|]. intros i Hi. rewrite (grid_row H W) in Hi by assumption. now apply HP.
Qed.
Lemma forall2_grid_same {X Y} (P : X -> Y -> Prop) H W g g' : grid H W g -> Forall2 (Forall2 P) g g' -> grid H W g'.
Proof.
  intros [HL HF] H2. assert (L : length g' = length g) by (clear - H2; induction H2; cbn; congruence). split; [congruence|]. clear HL L.
  induction H2 as [|r r' g g' Hr H2 IH]; [constructor|]. inversion HF; subst. constructor; [|auto]. clear - Hr. induction Hr; cbn; congruence.
Qed.

Lemma nth_cells row s i : length s = length row -> (i < length row)%nat -> nth i (cells row s) (cellof T0 0) = cellof (nth i row T0) (nth i s 0%nat).
Proof.
  intros HL Hi. unfold cells. rewrite (nth_indep _ _ ((fun As => cellof (fst As) (snd As)) (T0, 0%nat))) by (rewrite map_length, combine_length; lia).
  rewrite (map_nth (fun As => @cellof R (fst As) (snd As))). now rewrite combine_nth by lia.
Qed.
Lemma at_cellss H W data s j i : grid H W data -> grid H W s -> (j < H)%nat -> (i < W)%nat -> at_ (cellof T0 0) (cellss data s) j i = cellof (site_at data j i) (at_ 0%nat s j i).
Proof.
  intros HG Hs Hj Hi. unfold at_, site_at, at_, cellss. assert (L1 : length data = H) by apply HG. assert (L2 : length s = H) by apply Hs.
  rewrite (nth_indep _ [] ((fun rs => cells (fst rs) (snd rs)) ([], []))) by (rewrite map_length, combine_length; lia).
  rewrite (map_nth (fun rs => @cells R (fst rs) (snd rs))). rewrite combine_nth by lia. cbn [fst snd].
  assert (L3 := grid_row _ _ _ _ HG Hj). assert (L4 := grid_row _ _ _ _ Hs Hj). apply nth_cells; lia.
Qed.
Lemma cellss_grid H W data s : grid H W data -> grid H W s -> grid H W (@cellss R data s).
Proof. intros [L F] Hs. split; [rewrite cellss_length; [assumption|destruct Hs; congruence]|]. apply cellss_forall; [assumption|now rewrite L]. Qed.

(** * Transposition *)
Lemma T_ok H W (p : peps R) : peps_ok H W (pdata p) ->
  exists q, peps_T p = Ok q /\ peps_ok W H (pdata q) /\ pLx q = W /\ pLy q = H /\ pd q = pd p /\ pX q = pX p /\
    poc q = match poc p with Some (i, j) => Some (j, i) | None => None end /\
    (forall j i, (j < H)%nat -> (i < W)%nat -> permuted [0; 4; 3; 2; 1]%nat (site_at (pdata p) j i) (site_at (pdata q) i j)) /\
    (forall s t, grid H W s -> transposed H W s t -> pamp W H (pdata q) t = pamp H W (pdata p) s).
Proof.
  intros Hok. assert (Hok' := Hok). destruct Hok' as (HH & HW & HG & HI). assert (HG' := HG). destruct HG' as [HL HF].
  unfold peps_T. rewrite (zips_tr W) by (auto; intros E; rewrite E in HL; cbn in HL; lia).
  assert (Gt := trW_grid W (pdata p) HF). rewrite HL in Gt.
  destruct (mapM_rel (mapM transpose_peps_tensor) (Forall (fun A => length (tsh A) = 5%nat)) (Forall2 (permuted [0; 4; 3; 2; 1]%nat)) (trW W (pdata p))) as (data & E & HT).
  { intros row Hrow. apply (mapM_rel transpose_peps_tensor (fun A => length (tsh A) = 5%nat)); [|assumption]. intros A HA. apply transpose_perm; [|assumption].
    cbn [seq]. apply perm_skip. exact (Permutation_rev [4; 3; 2; 1]%nat). }
  { apply Forall_forall. intros row Hr. apply Forall_forall. intros A HA. apply In_nth with (d := []) in Hr. destruct Hr as (i & Hi & <-).
    apply In_nth with (d := T0) in HA. destruct HA as (j & Hj & <-). destruct Gt as [Gt1 Gt2]. rewrite Gt1 in Hi. rewrite (grid_row W H _ i (conj Gt1 Gt2) Hi) in Hj.
    change (length (tsh (at_ T0 (trW W (pdata p)) i j)) = 5%nat). rewrite trW_at by assumption. apply (HI j i Hj Hi). }
  rewrite E. cbn [bind]. assert (Gd := forall2_grid_same _ _ _ _ _ Gt HT).
  assert (HP : forall j i, (j < H)%nat -> (i < W)%nat -> permuted [0; 4; 3; 2; 1]%nat (site_at (pdata p) j i) (site_at data i j)).
  { intros j i Hj Hi. assert (K := proj1 (forall2_grid _ T0 T0 W H _ _ Gt Gd) HT i j Hi Hj). rewrite trW_at in K by assumption. exact K. }
  assert (Hq : peps_ok W H data).
  { split; [assumption|]. split; [assumption|]. split; [assumption|]. intros i j Hi Hj. destruct (HI j i Hj Hi) as (K5 & K1 & K4 & K3 & K2).
    assert (PL : forall j i, (j < H)%nat -> (i < W)%nat -> length (tsh (site_at data i j)) = 5%nat /\ leg 1 (site_at data i j) = leg 4 (site_at (pdata p) j i) /\
        leg 2 (site_at data i j) = leg 3 (site_at (pdata p) j i) /\ leg 3 (site_at data i j) = leg 2 (site_at (pdata p) j i) /\ leg 4 (site_at data i j) = leg 1 (site_at (pdata p) j i)).
    { clear - HP. intros j i Hj Hi. destruct (HP j i Hj Hi) as [HS _]. unfold leg at 1 3 5 7. rewrite HS. cbn. auto. }
    destruct (PL j i Hj Hi) as (L5 & L1 & L2 & L3 & L4). split; [assumption|]. rewrite L1, L4, L3, L2. split; [|split].
    - rewrite K4. destruct (Nat.eqb_spec i 0); [reflexivity|]. symmetry. apply PL; lia.
    - rewrite K1. destruct (Nat.eqb_spec j 0); [reflexivity|]. symmetry. apply PL; lia.
    - split; assumption. }
  rewrite (init_ok W H data Hq). cbn [bind]. eexists. split; [reflexivity|]. unfold keep_Xd. cbn [pdata pLx pLy pd pX poc].
  split; [assumption|]. do 4 (split; [reflexivity|]). split; [destruct (poc p) as [[? ?]|]; reflexivity|]. split; [assumption|].
  intros s t Hs [Ht Hst]. rewrite (pamp_gridS H W) by assumption. rewrite (pamp_gridS W H) by assumption.
  rewrite (gridS_tr W (cellss (pdata p) s)).
  - apply gridS_ext. assert (Gc : grid H W (map (map tc) (cellss (pdata p) s))).
    { destruct (cellss_grid H W (pdata p) s HG Hs) as [C1 C2]. split; [now rewrite map_length|]. clear - C2. induction C2; constructor; auto. now rewrite map_length. }
    apply (forall2_grid ceq (cellof T0 0) (tc (cellof T0 0)) W H).
    + now apply cellss_grid.
    + destruct Gc as [C1 C2]. rewrite <- C1. now apply trW_grid.
    + intros i j Hi Hj. rewrite trW_at by (try apply Gc; assumption). rewrite (at_cellss W H) by assumption.
      replace (at_ (tc (cellof T0 0)) (map (map tc) (cellss (pdata p) s)) j i) with (tc (cellof (site_at (pdata p) j i) (at_ 0%nat s j i))).
      * rewrite Hst by assumption. destruct (HP j i Hj Hi) as [HS HE]. unfold ceq, tc, cellof. cbn [cr cd ce].
        split; [unfold leg at 1; rewrite HS; reflexivity|]. split; [unfold leg at 1; rewrite HS; reflexivity|].
        intros u r d l. exact (HE [at_ 0%nat s j i; l; d; r; u] eq_refl).
      * rewrite <- (at_cellss H W) by assumption. unfold at_. change (@nil (cell R)) with (map (@tc R) []) at 2. rewrite map_nth. now rewrite map_nth.
  - apply (cellss_grid H W); assumption.
  - apply repeat_length.
  - apply repeat_length.
  - rewrite repeat_length. symmetry. apply (cellss_grid H W); assumption.
  - rewrite repeat_length. symmetry. apply (cellss_grid H W); assumption.
Qed.
End Flip.
