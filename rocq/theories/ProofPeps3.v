(** Contraction of the rows and columns of a PEPS. *)
From Verif Require Import Alg ModelMPS ModelNcon ModelEk ModelNp ModelTensor ModelPeps SpecTensor SpecPeps ProofEk4 ProofTrace ProofTrace2 ProofPeps ProofPeps2.
Import ListNotations.
Local Notation prod_ := (fold_right Nat.mul 1%nat).

Section Contract.
Context {R : sring}.
Local Open Scope sr_scope.
Add Ring Rr : (s_th R).

Lemma row_contract_ok (a b : tens R) a0 a1 a2 a3 a4 b0 b1 b2 b3 :
  tsh a = [a0; a1; a2; a3; a4] -> tsh b = [b0; b1; b2; b3; a2] ->
  exists T, row_contract a b = Ok T /\ tsh T = [a0 * b0; a1 * b1; b2; a3 * b3; a4]%nat /\
    forall p1 p2 u1 u2 r d1 d2 l, (p1 < a0)%nat -> (p2 < b0)%nat -> (u1 < a1)%nat -> (u2 < b1)%nat -> (r < b2)%nat -> (d1 < a3)%nat -> (d2 < b3)%nat -> (l < a4)%nat ->
      te T [p1 * b0 + p2; u1 * b1 + u2; r; d1 * b3 + d2; l]%nat
      = sum a2 (fun k => te a [p1; u1; k; d1; l] * te b [p2; u2; r; d2; k]).
Proof.
  intros Ha Hb. unfold row_contract, con. rewrite Ha, Hb. cbn [mapM getitem nth_error bind].
  unfold nlist_eqb. cbn. rewrite Nat.eqb_refl. cbn.
  unfold reshape_. cbn [tsh fold_right].
  match goal with |- context [Nat.eqb ?x ?y] => replace (Nat.eqb x y) with true by (symmetry; apply Nat.eqb_eq; ring) end.
  eexists. split; [reflexivity|]. split; [reflexivity|]. intros p1 p2 u1 u2 r d1 d2 l Hp1 Hp2 Hu1 Hu2 Hr Hd1 Hd2 Hl. cbn [te tsh].
  match goal with |- context [unravel ?sh ?n] => replace (unravel sh n) with [p1; p2; u1; u2; r; d1; d2; l] end.
  - cbn. reflexivity.
  - transitivity (unravel [a0; b0; a1; b1; b2; a3; b3; a4] (ravel [a0; b0; a1; b1; b2; a3; b3; a4] [p1; p2; u1; u2; r; d1; d2; l])).
    + symmetry. apply unravel_ravel. repeat constructor; assumption.
    + f_equal. cbn [ravel fold_right]. ring.
Qed.

Lemma col_contract_ok (a b : tens R) a0 a1 a2 a3 a4 b0 b2 b3 b4 :
  tsh a = [a0; a1; a2; a3; a4] -> tsh b = [b0; a3; b2; b3; b4] ->
  exists T, col_contract a b = Ok T /\ tsh T = [a0 * b0; a1; a2 * b2; b3; a4 * b4]%nat /\
    forall p1 p2 u r1 r2 d l1 l2, (p1 < a0)%nat -> (p2 < b0)%nat -> (u < a1)%nat -> (r1 < a2)%nat -> (r2 < b2)%nat -> (d < b3)%nat -> (l1 < a4)%nat -> (l2 < b4)%nat ->
      te T [p1 * b0 + p2; u; r1 * b2 + r2; d; l1 * b4 + l2]%nat
      = sum a3 (fun k => te a [p1; u; r1; k; l1] * te b [p2; k; r2; d; l2]).
Proof.
  intros Ha Hb. unfold col_contract, con. rewrite Ha, Hb. cbn [mapM getitem nth_error bind].
  unfold nlist_eqb. cbn. rewrite Nat.eqb_refl. cbn.
  unfold reshape_. cbn [tsh fold_right].
  match goal with |- context [Nat.eqb ?x ?y] => replace (Nat.eqb x y) with true by (symmetry; apply Nat.eqb_eq; ring) end.
  eexists. split; [reflexivity|]. split; [reflexivity|]. intros p1 p2 u r1 r2 d l1 l2 Hp1 Hp2 Hu Hr1 Hr2 Hd Hl1 Hl2. cbn [te tsh].
  match goal with |- context [unravel ?sh ?n] => replace (unravel sh n) with [p1; p2; u; r1; r2; d; l1; l2] end.
  - cbn. reflexivity.
  - transitivity (unravel [a0; b0; a1; a2; b2; b3; a4; b4] (ravel [a0; b0; a1; a2; b2; b3; a4; b4] [p1; p2; u; r1; r2; d; l1; l2])).
    + symmetry. apply unravel_ravel. repeat constructor; assumption.
    + f_equal. cbn [ravel fold_right]. ring.
Qed.

Lemma shape5 (A : tens R) : length (tsh A) = 5%nat -> tsh A = [leg 0 A; leg 1 A; leg 2 A; leg 3 A; leg 4 A].
Proof. unfold leg. destruct (tsh A) as [|a [|b [|c [|d [|e [|]]]]]]; cbn; try discriminate. reflexivity. Qed.

Lemma position_snoc ds d s x : length s = length ds -> position (ds ++ [d]) (s ++ [x]) = (position ds s * d + x)%nat.
Proof.
  intros H. unfold position. assert (combine (s ++ [x]) (ds ++ [d]) = combine s ds ++ [(x, d)]) as ->.
  { revert s H. induction ds as [|e ds IH]; intros [|y s] H; try discriminate; [reflexivity|]. cbn. f_equal. apply IH. cbn in H. lia. }
  now rewrite fold_left_app.
Qed.
Lemma position_one d x : position [d] [x] = x.
Proof. unfold position. cbn. lia. Qed.

Lemma prod_snoc ds d : prod_ (ds ++ [d]) = (prod_ ds * d)%nat.
Proof. rewrite prod_app. cbn. lia. Qed.

Lemma incfg_snoc ds d s : incfg (ds ++ [d]) s -> exists t x, s = t ++ [x] /\ incfg ds t /\ (x < d)%nat.
Proof.
  revert s. induction ds as [|e ds IH]; intros [|y s] H; try (now inversion H).
  - cbn [app] in H. apply incfg_cons in H. destruct H as [Hy H]. inversion H; subst. exists [], y. repeat split; auto.
  - cbn [app] in H. apply incfg_cons in H. destruct H as [Hy H]. destruct (IH s H) as (t & x & -> & Ht & Hx).
    exists (y :: t), x. repeat split; auto. constructor; assumption.
Qed.

Lemma cells_app row row' s s' : length s = length row -> cells (row ++ row') (s ++ s') = cells row s ++ @cells R row' s'.
Proof. revert s. induction row as [|A row IH]; intros [|x s] H; try discriminate; [reflexivity|]. cbn [app]. rewrite !cells_cons. cbn [app]. f_equal. apply IH. cbn in H. lia. Qed.

(** T is the row contracted to one array. *)
Definition isrow (l : nat) (row : list (tens R)) (r : nat) (T : tens R) : Prop :=
  tsh T = [prod_ (map (leg 0) row); prod_ (map (leg 1) row); r; prod_ (map (leg 3) row); l] /\
  forall s us ds x y, incfg (map (leg 0) row) s -> incfg (map (leg 1) row) us -> incfg (map (leg 3) row) ds -> (x < l)%nat -> (y < r)%nat ->
    te T [position (map (leg 0) row) s; position (map (leg 1) row) us; y; position (map (leg 3) row) ds; x] = rowS (cells row s) us ds x y.

Lemma rowS_one A x u d l r : (r < leg 2 A)%nat -> rowS [@cellof R A x] [u] [d] l r = te A [x; u; r; d; l].
Proof. intros H. cbn [rowS cellof cr ce]. exact (sum_dlt_r _ r (fun k => te A [x; u; k; d; l]) H). Qed.

Lemma isrow_one (A : tens R) : length (tsh A) = 5%nat -> isrow (leg 4 A) [A] (leg 2 A) A.
Proof.
  intros H5. split.
  - rewrite (shape5 A H5) at 1. cbn [map fold_right]. now rewrite !Nat.mul_1_r.
  - cbn [map]. intros s us ds x y Hs Hu Hd Hx Hy.
    destruct s as [|s [|]]; [now inversion Hs| |inversion Hs; subst; now inversion H4].
    destruct us as [|u [|]]; [now inversion Hu| |inversion Hu; subst; now inversion H4].
    destruct ds as [|d [|]]; [now inversion Hd| |inversion Hd; subst; now inversion H4].
    rewrite !position_one. rewrite cells_cons. now rewrite rowS_one.
Qed.

Lemma row_snoc l row r T b : row_ok l row r -> isrow l row r T -> length (tsh b) = 5%nat -> leg 4 b = r ->
  exists T', row_contract T b = Ok T' /\ isrow l (row ++ [b]) (leg 2 b) T'.
Proof.
  intros Hrow [Hsh HT] H5 H4. assert (Hb := shape5 b H5). rewrite H4 in Hb.
  destruct (row_contract_ok T b _ _ _ _ _ _ _ _ _ Hsh Hb) as (T' & E & Hsh' & HT').
  exists T'. split; [exact E|]. split.
  - rewrite Hsh', !map_app. cbn [map]. now rewrite !prod_snoc.
  - intros s us ds x y Hs Hu Hd Hx Hy. rewrite !map_app in Hs, Hu, Hd. cbn [map] in Hs, Hu, Hd.
    apply incfg_snoc in Hs. destruct Hs as (s' & s0 & -> & Hs & Hs0).
    apply incfg_snoc in Hu. destruct Hu as (u' & u0 & -> & Hu & Hu0).
    apply incfg_snoc in Hd. destruct Hd as (d' & d0 & -> & Hd & Hd0).
    assert (Ls := incfg_length _ _ Hs). assert (Lu := incfg_length _ _ Hu). assert (Ld := incfg_length _ _ Hd).
    rewrite !map_app. cbn [map]. rewrite !position_snoc by assumption. rewrite map_length in Ls, Lu, Ld.
    rewrite HT' by (auto using position_lt).
    rewrite cells_app by assumption. rewrite (rowS_app _ _ _ _ _ _ l x y) by (rewrite ?cells_length; assumption).
    rewrite (row_ok_lastR row s' l r) by assumption. apply sum_ext. intros k Hk.
    rewrite HT by assumption. f_equal. rewrite cells_cons. now rewrite rowS_one.
Qed.

Lemma row_fold rest : forall l row r T r', row_ok l row r -> isrow l row r T -> row_ok r rest r' ->
  exists T', foldM row_contract rest T = Ok T' /\ isrow l (row ++ rest) r' T'.
Proof.
  induction rest as [|b rest IH]; intros l row r T r' Hrow HT Hrest.
  - cbn in Hrest. subst. exists T. rewrite app_nil_r. split; [reflexivity|assumption].
  - destruct Hrest as (H5 & H4 & Hrest). destruct (row_snoc l row r T b Hrow HT H5 H4) as (T' & E & HT').
    cbn [foldM]. rewrite E. cbn [bind]. destruct (IH l (row ++ [b]) (leg 2 b) T' r') as (T'' & E' & HT''); auto.
    + clear - Hrow H5 H4. revert l Hrow. induction row as [|A row IH]; intros l Hrow; cbn [app row_ok] in *; [now rewrite H4, Hrow|].
      destruct Hrow as (K5 & K4 & Hrow). auto.
    + exists T''. split; [exact E'|]. now rewrite <- app_assoc in HT''.
Qed.

Lemma row_reduce l row r : row <> [] -> row_ok l row r -> exists T, reduce row_contract row = Ok T /\ isrow l row r T.
Proof.
  destruct row as [|A row]; [congruence|]. intros _ (H5 & H4 & Hrow). cbn [reduce]. subst l.
  apply (row_fold row (leg 4 A) [A] (leg 2 A) A r); auto using isrow_one. cbn. auto.
Qed.

(** * Columns *)
Fixpoint col_ok (u : nat) (col : list (tens R)) (d : nat) : Prop :=
  match col with
  | [] => u = d
  | A :: col => length (tsh A) = 5%nat /\ leg 1 A = u /\ col_ok (leg 3 A) col d
  end.
Definition tcells (col : list (tens R)) (s : list nat) : list (cell R) := map tc (cells col s).

Lemma tcells_cons A col x s : tcells (A :: col) (x :: s) = tc (cellof A x) :: tcells col s.
Proof. reflexivity. Qed.
Lemma tcells_length col s : length s = length col -> length (tcells col s) = length col.
Proof. intros H. unfold tcells. now rewrite map_length, cells_length. Qed.
Lemma tcells_app row row' s s' : length s = length row -> tcells (row ++ row') (s ++ s') = tcells row s ++ tcells row' s'.
Proof. intros H. unfold tcells. now rewrite cells_app, map_app by assumption. Qed.
Lemma col_ok_lastR col : forall s u d, length s = length col -> col_ok u col d -> lastR u (tcells col s) = d.
Proof.
  induction col as [|A row IH]; intros [|x s] l r Hs H; try discriminate; [exact H|].
  destruct H as (_ & _ & H). rewrite tcells_cons. cbn [lastR tc cellof cr cd]. apply IH; [cbn in Hs; lia|assumption].
Qed.

(** T is the column contracted to one array. *)
Definition iscol (u : nat) (col : list (tens R)) (d : nat) (T : tens R) : Prop :=
  tsh T = [prod_ (map (leg 0) col); u; prod_ (map (leg 2) col); d; prod_ (map (leg 4) col)] /\
  forall s rs ls x y, incfg (map (leg 0) col) s -> incfg (map (leg 2) col) rs -> incfg (map (leg 4) col) ls -> (x < u)%nat -> (y < d)%nat ->
    te T [position (map (leg 0) col) s; x; position (map (leg 2) col) rs; y; position (map (leg 4) col) ls] = rowS (tcells col s) ls rs x y.

Lemma colS_one A x l r u d : (d < leg 3 A)%nat -> rowS [tc (@cellof R A x)] [l] [r] u d = te A [x; u; r; d; l].
Proof. intros H. cbn [rowS tc cellof cr cd ce]. exact (sum_dlt_r _ d (fun k => te A [x; u; r; k; l]) H). Qed.

Lemma iscol_one (A : tens R) : length (tsh A) = 5%nat -> iscol (leg 1 A) [A] (leg 3 A) A.
Proof.
  intros H5. split.
  - rewrite (shape5 A H5) at 1. cbn [map fold_right]. now rewrite !Nat.mul_1_r.
  - cbn [map]. intros s us ds x y Hs Hu Hd Hx Hy.
    destruct s as [|s [|]]; [now inversion Hs| |inversion Hs; subst; now inversion H4].
    destruct us as [|u [|]]; [now inversion Hu| |inversion Hu; subst; now inversion H4].
    destruct ds as [|d [|]]; [now inversion Hd| |inversion Hd; subst; now inversion H4].
    rewrite !position_one. rewrite tcells_cons. now rewrite colS_one.
Qed.

Lemma col_snoc u col d T b : col_ok u col d -> iscol u col d T -> length (tsh b) = 5%nat -> leg 1 b = d ->
  exists T', col_contract T b = Ok T' /\ iscol u (col ++ [b]) (leg 3 b) T'.
Proof.
  intros Hrow [Hsh HT] H5 H4. assert (Hb := shape5 b H5). rewrite H4 in Hb.
  destruct (col_contract_ok T b _ _ _ _ _ _ _ _ _ Hsh Hb) as (T' & E & Hsh' & HT').
  exists T'. split; [exact E|]. split.
  - rewrite Hsh', !map_app. cbn [map]. now rewrite !prod_snoc.
  - intros s rs ls x y Hs Hu Hd Hx Hy. rewrite !map_app in Hs, Hu, Hd. cbn [map] in Hs, Hu, Hd.
    apply incfg_snoc in Hs. destruct Hs as (s' & s0 & -> & Hs & Hs0).
    apply incfg_snoc in Hu. destruct Hu as (u' & u0 & -> & Hu & Hu0).
    apply incfg_snoc in Hd. destruct Hd as (d' & d0 & -> & Hd & Hd0).
    assert (Ls := incfg_length _ _ Hs). assert (Lu := incfg_length _ _ Hu). assert (Ld := incfg_length _ _ Hd).
    rewrite !map_app. cbn [map]. rewrite !position_snoc by assumption. rewrite map_length in Ls, Lu, Ld.
    rewrite HT' by (auto using position_lt).
    rewrite tcells_app by assumption. rewrite (rowS_app _ _ _ _ _ _ u x y) by (rewrite ?tcells_length; assumption).
    rewrite (col_ok_lastR col s' u d) by assumption. apply sum_ext. intros k Hk.
    rewrite HT by assumption. f_equal. rewrite tcells_cons. now rewrite colS_one.
Qed.

Lemma col_fold rest : forall u col d T d', col_ok u col d -> iscol u col d T -> col_ok d rest d' ->
  exists T', foldM col_contract rest T = Ok T' /\ iscol u (col ++ rest) d' T'.
Proof.
  induction rest as [|b rest IH]; intros l row r T r' Hrow HT Hrest.
  - cbn in Hrest. subst. exists T. rewrite app_nil_r. split; [reflexivity|assumption].
  - destruct Hrest as (H5 & H4 & Hrest). destruct (col_snoc l row r T b Hrow HT H5 H4) as (T' & E & HT').
    cbn [foldM]. rewrite E. cbn [bind]. destruct (IH l (row ++ [b]) (leg 3 b) T' r') as (T'' & E' & HT''); auto.
    + clear - Hrow H5 H4. revert l Hrow. induction row as [|A row IH]; intros l Hrow; cbn [app col_ok] in *; [now rewrite H4, Hrow|].
      destruct Hrow as (K5 & K4 & Hrow). auto.
    + exists T''. split; [exact E'|]. now rewrite <- app_assoc in HT''.
Qed.

Lemma col_reduce u col d : col <> [] -> col_ok u col d -> exists T, reduce col_contract col = Ok T /\ iscol u col d T.
Proof.
  destruct col as [|A col]; [congruence|]. intros _ (H5 & H4 & Hcol). cbn [reduce]. subst u.
  apply (col_fold col (leg 1 A) [A] (leg 3 A) A d); auto using iscol_one. cbn. auto.
Qed.
End Contract.
