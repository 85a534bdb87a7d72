(** Reading a PEPS along a snake; flipping twice. *)
From Verif Require Import Alg ModelMPS ModelNcon ModelEk ModelNp ModelTensor ModelPeps SpecTensor SpecPeps ProofEk4 ProofTrace ProofTrace2 ProofNp ProofPeps ProofPeps2 ProofPeps3 ProofPeps4 ProofPeps5 ProofPeps6.
From Coq Require Import Permutation.
Import ListNotations.
Local Notation prod_ := (fold_right Nat.mul 1%nat).

Definition thinl (ds : list nat) : Prop := forall i k, i <> k -> nth i ds 1%nat = 1%nat \/ nth k ds 1%nat = 1%nat.

Lemma thinl_cons d ds : thinl (d :: ds) -> thinl ds /\ (d = 1%nat \/ Forall (fun x => x = 1%nat) ds).
Proof.
  intros H. split.
  - intros i k Hik. exact (H (S i) (S k) ltac:(lia)).
  - destruct (Nat.eq_dec d 1) as [|n]; [now left|]. right. apply Forall_forall. intros x Hx. destruct (In_nth _ _ 1%nat Hx) as (i & Hi & <-).
    destruct (H 0%nat (S i)) as [K|K]; [lia| |exact K]. cbn in K. contradiction.
Qed.

Lemma position_thin ds : forall w, thinl ds -> incfg ds w -> position (rev ds) (rev w) = position ds w.
Proof.
  induction ds as [|d ds IH]; intros w Ht Hw; inversion Hw as [|x d' w' ds' Hx Hw']; subst; [reflexivity|].
  apply thinl_cons in Ht. destruct Ht as [Ht Hc]. cbn [rev]. assert (Lw := incfg_length _ _ Hw'). rewrite position_snoc by (rewrite !rev_length; exact Lw).
  rewrite IH by assumption. rewrite (position_ravel (d :: ds)) by (cbn; lia). cbn [ravel]. rewrite <- position_ravel by exact Lw. destruct Hc as [-> | Hc].
  - assert (x = 0%nat) by lia. subst. lia.
  - rewrite (position_zeros ds) by assumption. assert (prod_ ds = 1%nat) as -> by (clear - Hc; induction Hc; cbn [fold_right]; subst; auto; lia). lia.
Qed.

Section Snake.
Context {R : sring}.
Local Open Scope sr_scope.
Add Ring Rr : (s_th R).
Notation T0 := (mkT [] (fun _ => 0 : R)).

Definition turn {A} (b : bool) (l : list A) : list A := if b then l else rev l.

(** T is the contracted row, its physical index read forwards or backwards. *)
Definition isturn (b : bool) (row : list (tens R)) (T : tens R) : Prop :=
  tsh T = [prod_ (map (leg 0) row); prod_ (map (leg 1) row); 1%nat; prod_ (map (leg 3) row); 1%nat] /\
  forall s us ds, incfg (map (leg 0) row) s -> incfg (map (leg 1) row) us -> incfg (map (leg 3) row) ds ->
    te T [position (turn b (map (leg 0) row)) (turn b s); position (map (leg 1) row) us; 0%nat; position (map (leg 3) row) ds; 0%nat] = rowS (cells row s) us ds 0 0.

Lemma prod_rev ds : prod_ (rev ds) = prod_ ds.
Proof. induction ds as [|d ds IH]; [reflexivity|]. cbn [rev]. rewrite prod_snoc, IH. cbn [fold_right]. lia. Qed.

Lemma turn_length {A} b (l : list A) : length (turn b l) = length l.
Proof. destruct b; cbn; [reflexivity|apply rev_length]. Qed.
Lemma turn_incfg b ds s : incfg ds s -> incfg (turn b ds) (turn b s).
Proof. destruct b; cbn; auto using incfg_rev. Qed.
Lemma prod_turn b ds : prod_ (turn b ds) = prod_ ds.
Proof. destruct b; cbn [turn]; auto using prod_rev. Qed.

Lemma turn_fwd (row : list (tens R)) T : isrow 1 row 1 T -> isturn true row T.
Proof. intros [HS HT]. split; [exact HS|]. intros s us ds Hs Hu Hd. cbn [turn]. apply HT; auto. Qed.

Lemma flipped_rev_legs k (row row1 : list (tens R)) : (k = 0 \/ k = 1 \/ k = 3)%nat -> Forall2 (permuted [0; 1; 4; 3; 2]%nat) row row1 -> map (leg k) (rev row1) = rev (map (leg k) row).
Proof.
  intros Hk HF. rewrite map_rev. f_equal. induction HF as [|A B row row1 HA HF IH]; [reflexivity|]. cbn [map]. f_equal; [|assumption].
  destruct (flipped_legs A B HA) as (K5 & K0 & K1 & K2 & K3 & K4). destruct Hk as [->|[->| ->]]; assumption.
Qed.

Lemma turn_back (row row1 : list (tens R)) T : Forall2 (permuted [0; 1; 4; 3; 2]%nat) row row1 -> row_ok 1 row 1 -> thinl (map (leg 1) row) -> thinl (map (leg 3) row) ->
  isrow 1 (rev row1) 1 T -> isturn false row T.
Proof.
  intros HF Hrow T1 T3 [HS HT]. rewrite !(flipped_rev_legs _ row row1) in HS by (auto; exact HF).
  split; [rewrite !prod_rev in HS; exact HS|]. intros s us ds Hs Hu Hd. rewrite !(flipped_rev_legs _ row row1) in HT by (auto; exact HF).
  assert (Ls := incfg_length _ _ Hs). assert (Lu := incfg_length _ _ Hu). assert (Ld := incfg_length _ _ Hd). rewrite map_length in Ls, Lu, Ld.
  cbn [turn]. rewrite <- (position_thin (map (leg 1) row) us), <- (position_thin (map (leg 3) row) ds) by assumption.
  rewrite HT by (auto using incfg_rev). apply (rowS_rev row row1 HF 1 1); auto.
Qed.

Inductive turns : list bool -> list (list (tens R)) -> list (tens R) -> Prop :=
| turns_nil : turns [] [] []
| turns_cons b bs row rows T Ts : isturn b row T -> turns bs rows Ts -> turns (b :: bs) (row :: rows) (T :: Ts).

Fixpoint turnl {A} (bs : list bool) (g : list (list A)) : list (list A) :=
  match bs, g with b :: bs, r :: g => turn b r :: turnl bs g | _, _ => [] end.

Lemma isturn_legs b row (T : tens R) : isturn b row T -> length (tsh T) = 5%nat /\ leg 0 T = prod_ (map (leg 0) row) /\ leg 1 T = prod_ (map (leg 1) row) /\
  leg 2 T = 1%nat /\ leg 3 T = prod_ (map (leg 3) row) /\ leg 4 T = 1%nat.
Proof. intros [H _]. unfold leg. rewrite H. cbn. auto 10. Qed.

Lemma col_of_turns rows : forall bs us ds Ts, rows_ok us rows ds -> turns bs rows Ts -> col_ok (prod_ us) Ts (prod_ ds).
Proof.
  induction rows as [|row rows IH]; intros bs us ds Ts H HT; inversion HT as [|b bs' row' rows' T Ts' HT0 HT1]; subst; [cbn in *; congruence|].
  destruct H as (Hr & <- & H). apply isturn_legs in HT0. destruct HT0 as (H5 & H0 & H1 & H2 & H3 & H4). cbn [col_ok]. rewrite H1, H3. eauto.
Qed.

Lemma grid_of_turns W rows : forall bs Ts s us0 ds0 us ds, rows_ok us0 rows ds0 -> Forall (fun r => length r = W) rows -> turns bs rows Ts ->
  ingrid (legs_of 0 rows) s -> incfg us0 us -> incfg ds0 ds ->
  rowS (tcells Ts (map (fun gs => position (fst gs) (snd gs)) (combine (turnl bs (legs_of 0 rows)) (turnl bs s)))) (repeat 0%nat (length rows)) (repeat 0%nat (length rows)) (position us0 us) (position ds0 ds)
  = gridS (cellss rows s) us ds (repeat 0%nat (length rows)) (repeat 0%nat (length rows)).
Proof.
  induction rows as [|row rows IH]; intros bs Ts s us0 ds0 us ds Hok HF HT Hs Hu Hd.
  - inversion HT; subst. inversion Hs; subst. cbn in Hok. subst. cbn [cellss combine map legs_of length repeat gridS turnl]. unfold tcells. cbn [cells combine map rowS]. now apply dltl_position.
  - inversion HT as [|b bs' row' rows' T Ts' HT0 HT1]; subst. inversion Hs as [|x yy ss dss' Hx Hs']; subst. inversion HF; subst.
    destruct Hok as (Hr & <- & Hok). cbn [legs_of map turnl combine fst snd length repeat]. unfold cellss. cbn [combine map fst snd]. fold (cellss rows ss).
    rewrite tcells_cons. cbn [rowS gridS tc cellof cd cr ce]. destruct (isturn_legs _ _ _ HT0) as (H5 & H0 & H1 & H2' & H3' & H4). rewrite H3'.
    assert (Ls := incfg_length _ _ Hx). rewrite map_length in Ls.
    rewrite (cells_cd row x) by assumption. rewrite sum_position. apply sumcfg_ext. intros w Hw.
    rewrite <- (IH bs' Ts' ss (map (leg 3) row) ds0 w ds) by assumption. f_equal. destruct HT0 as [_ HT0]. rewrite HT0; auto.
Qed.

Lemma legs0_turns bs rows Ts : turns bs rows Ts -> map (leg 0) Ts = map prod_ (turnl bs (legs_of 0 rows)).
Proof. induction 1 as [|b bs row rows T Ts HT _ IH]; [reflexivity|]. cbn [map legs_of turnl]. apply isturn_legs in HT. destruct HT as (_ & -> & _). rewrite prod_turn. f_equal. exact IH. Qed.
Lemma legs1_turns bs rows Ts k : (k = 2 \/ k = 4)%nat -> turns bs rows Ts -> map (leg k) Ts = repeat 1%nat (length rows).
Proof. intros Hk. induction 1 as [|b bs row rows T Ts HT _ IH]; [reflexivity|]. cbn [map length repeat]. apply isturn_legs in HT. destruct HT as (_ & _ & _ & H2 & _ & H4). destruct Hk; subst k; congruence. Qed.

Lemma turnl_ingrid bs : forall dss s, length bs = length dss -> ingrid dss s -> ingrid (turnl bs dss) (turnl bs s).
Proof.
  induction bs as [|b bs IH]; intros dss s HL Hs; [constructor|]. inversion Hs as [|x yy ss dss' Hx Hs']; subst; [discriminate|]. cbn [turnl]. constructor; [now apply turn_incfg|]. apply IH; auto.
Qed.

Lemma turns_length bs rows Ts : turns bs rows Ts -> length bs = length rows.
Proof. induction 1; cbn; congruence. Qed.

Lemma turns_to_state W rows bs Ts : (0 < length rows)%nat -> rows_ok (repeat 1%nat W) rows (repeat 1%nat W) -> Forall (fun r => length r = W) rows ->
  turns bs rows Ts ->
  exists T, reduce col_contract Ts = Ok T /\ tsh T = [prod_ (concat (turnl bs (legs_of 0 rows))); 1; 1; 1; 1]%nat /\
    forall s, ingrid (legs_of 0 rows) s -> te T [position (concat (turnl bs (legs_of 0 rows))) (concat (turnl bs s)); 0; 0; 0; 0]%nat
      = gridS (cellss rows s) (repeat 0%nat W) (repeat 0%nat W) (repeat 0%nat (length rows)) (repeat 0%nat (length rows)).
Proof.
  intros HL Hok HF HT. assert (Hc := col_of_turns _ _ _ _ _ Hok HT). rewrite !prod_ones in Hc.
  destruct (col_reduce 1 Ts 1) as (T & E & HsT & HeT); auto.
  { intros ->. inversion HT; subst. cbn in HL. lia. }
  exists T. split; [exact E|]. rewrite (legs0_turns _ _ _ HT), (legs1_turns _ _ _ 2 (or_introl eq_refl) HT), (legs1_turns _ _ _ 4 (or_intror eq_refl) HT), !prod_ones, <- prod_concat in HsT.
  split; [exact HsT|]. intros s Hs. rewrite (legs0_turns _ _ _ HT), (legs1_turns _ _ _ 2 (or_introl eq_refl) HT), (legs1_turns _ _ _ 4 (or_intror eq_refl) HT) in HeT.
  assert (Hs' : ingrid (turnl bs (legs_of 0 rows)) (turnl bs s)). { apply turnl_ingrid; [|exact Hs]. unfold legs_of. rewrite map_length. exact (turns_length _ _ _ HT). }
  destruct (position_groups _ _ Hs') as [-> _].
  rewrite <- (grid_of_turns W rows bs Ts s (repeat 1%nat W) (repeat 1%nat W)) by (auto using incfg_zeros).
  assert (Z : forall n, position (repeat 1%nat n) (repeat 0%nat n) = 0%nat).
  { intros n. apply position_zeros; [|apply incfg_zeros]. apply Forall_forall. intros x Hx. now apply repeat_spec in Hx. }
  rewrite Z. rewrite <- (HeT _ (repeat 0%nat (length rows)) (repeat 0%nat (length rows)) 0%nat 0%nat); auto using incfg_zeros.
  - now rewrite !Z.
  - clear - Hs'. revert Hs'. generalize (turnl bs s) as g'. generalize (turnl bs (legs_of 0 rows)) as g. intros g g' Hs'. induction Hs' as [|t ds ss dss Ht Hss IH]; cbn [map combine]; [constructor|]. constructor; [|exact IH]. cbn [fst snd]. now apply position_lt.
Qed.

Fixpoint snakeb (i n : nat) : list bool := match n with O => [] | S n => Nat.even i :: snakeb (S i) n end.

Lemma mapM_rev' {X Y} (f : X -> res Y) l : forall l', mapM f l = Ok l' -> mapM f (rev l) = Ok (rev l').
Proof.
  assert (A : forall a b c d, mapM f a = Ok b -> mapM f c = Ok d -> mapM f (a ++ c) = Ok (b ++ d)).
  { induction a as [|x a IH]; intros b c d E1 E2; cbn [mapM app] in *; [inversion E1; subst; exact E2|]. destruct (f x); cbn [bind] in *; [|discriminate].
    destruct (mapM f a) as [t|]; cbn [bind] in *; [|discriminate]. inversion E1; subst. now rewrite (IH _ _ _ eq_refl E2). }
  induction l as [|x l IH]; intros l' E; cbn [mapM] in *; [now inversion E|]. destruct (f x) as [y|] eqn:Ex; cbn [bind] in *; [|discriminate].
  destruct (mapM f l) as [t|]; cbn [bind] in *; [|discriminate]. inversion E; subst. cbn [rev]. apply A; auto. cbn [mapM]. now rewrite Ex.
Qed.

Lemma snake_rows_ok rows : forall i us ds, rows_ok us rows ds -> thinl us -> Forall (fun r => r <> []) rows -> Forall (fun r => thinl (map (leg 3) r)) rows ->
  exists Ts, snake_rows i rows = Ok Ts /\ turns (snakeb i (length rows)) rows Ts.
Proof.
  induction rows as [|row rows IH]; intros i us ds H Hu HF HT; [exists []; split; [reflexivity|constructor]|].
  inversion HF; subst. inversion HT; subst. destruct H as (Hr & Eu & H). destruct (IH (S i) _ _ H) as (Ts & E' & HTs); auto.
  cbn [snake_rows length snakeb]. destruct (Nat.even i) eqn:Ei.
  - destruct (row_reduce 1 row 1) as (T & E & HT'); auto. exists (T :: Ts). rewrite E. cbn [bind]. rewrite E'. split; [reflexivity|]. constructor; [now apply turn_fwd|assumption].
  - assert (F5 : Forall (fun A => length (tsh A) = 5%nat) row).
    { clear - Hr. revert Hr. generalize 1%nat at 1. induction row as [|A row IH]; intros n Hr; constructor; destruct Hr as (K & _ & Hr); eauto. }
    destruct (mapM_rel (transpose_ [0; 1; 4; 3; 2]%nat) (fun A : tens R => length (tsh A) = 5%nat) (permuted [0; 1; 4; 3; 2]%nat)) with (l := row) as (row1 & E1 & HF1); auto.
    { intros A HA. apply transpose_perm; auto using perm_flip. }
    rewrite (mapM_rev' _ _ _ E1). cbn [bind]. destruct (row_reduce 1 (rev row1) 1) as (T & E & HT').
    { intros K. apply (f_equal (@length _)) in K. rewrite rev_length in K. rewrite <- (forall2_length _ _ _ HF1) in K. destruct row; [contradiction|discriminate]. }
    { apply (flip_row_ok row); assumption. }
    exists (T :: Ts). rewrite E. cbn [bind]. rewrite E'. split; [reflexivity|]. constructor; [|assumption]. apply (turn_back row row1); auto. now rewrite Eu.
Qed.

Lemma thinl_ones n : thinl (repeat 1%nat n).
Proof. intros i k _. left. revert i. induction n as [|n IH]; intros [|i]; cbn; auto. Qed.

Lemma snakeb_length n : forall i, length (snakeb i n) = n.
Proof. induction n; intros; cbn; congruence. Qed.
Lemma snakeb_nth n : forall i j, (j < n)%nat -> nth j (snakeb i n) true = Nat.even (i + j).
Proof. induction n as [|n IH]; intros i [|j] H; try lia; cbn [snakeb nth]; [now rewrite Nat.add_0_r|]. rewrite IH by lia. f_equal. lia. Qed.

Lemma turnl_nth {A} (bs : list bool) : forall (g : list (list A)) j, length bs = length g -> (j < length g)%nat -> nth j (turnl bs g) [] = turn (nth j bs true) (nth j g []).
Proof. induction bs as [|b bs IH]; intros [|r g] j HL Hj; cbn in HL, Hj; try lia. destruct j; cbn [turnl nth]; [reflexivity|]. apply IH; lia. Qed.

Lemma turnl_grid {A} H W bs (g : list (list A)) : length bs = H -> grid H W g -> grid H W (turnl bs g).
Proof.
  intros Hb [HL HF]. subst H. split.
  - revert g HL HF. induction bs as [|b bs IH]; intros [|r g] HL HF; try discriminate; [reflexivity|]. cbn [turnl length]. inversion HF; subst. cbn in HL. f_equal. apply IH; auto; lia.
  - revert g HL HF. induction bs as [|b bs IH]; intros [|r g] HL HF; try discriminate; [constructor|]. cbn [turnl]. inversion HF; subst. constructor; [apply turn_length|]. apply IH; auto.
Qed.

Lemma snaked_turnl H W s t : grid H W s -> snaked H W s t -> t = turnl (snakeb 0 H) s.
Proof.
  intros Hs [Ht Hst]. apply (grid_ext 0%nat H W); [assumption|apply turnl_grid; auto using snakeb_length|]. intros j i Hj Hi. assert (Hs' := Hs). destruct Hs' as [HL HF].
  unfold at_ at 2. rewrite turnl_nth by (rewrite ?snakeb_length; lia). rewrite snakeb_nth by assumption. cbn [Nat.add].
  assert (Lr : length (nth j s []) = W) by (rewrite Forall_forall in HF; apply HF, nth_In; lia).
  destruct (Nat.even j) eqn:E; cbn [turn].
  - specialize (Hst j i Hj Hi). rewrite E in Hst. exact Hst.
  - specialize (Hst j (W - 1 - i)%nat Hj ltac:(lia)). rewrite E in Hst. replace (W - 1 - (W - 1 - i))%nat with i in Hst by lia. rewrite Hst. unfold at_. rewrite rev_nth by lia. f_equal. lia.
Qed.

Lemma thin_rows H W (data : list (list (tens R))) : peps_ok H W data -> thin H W data -> Forall (fun r => thinl (map (leg 3) r)) data.
Proof.
  intros (HH & HW & [HL HF] & HI) Ht. apply Forall_forall. intros r Hr. destruct (In_nth _ _ [] Hr) as (j & Hj & Ej). rewrite HL in Hj.
  assert (Lr : length r = W) by (rewrite Forall_forall in HF; auto).
  assert (E : forall i, (i < W)%nat -> nth i (map (leg 3) r) 1%nat = leg 3 (site_at data j i)).
  { intros i Hi. unfold site_at, at_. rewrite Ej. rewrite (nth_indep _ _ (leg 3 T0)) by (rewrite map_length; lia). apply map_nth. }
  intros i k Hik. destruct (le_lt_dec W i) as [Hi|Hi]; [left; apply nth_overflow; rewrite map_length; lia|]. destruct (le_lt_dec W k) as [Hk|Hk]; [right; apply nth_overflow; rewrite map_length; lia|].
  rewrite !E by assumption. destruct (Nat.eq_dec (S j) H) as [e|n].
  - left. destruct (HI j i Hj Hi) as (_ & _ & _ & K3 & _). auto.
  - apply Ht; auto; lia.
Qed.

Lemma snake_ok H W (p : peps R) : peps_ok H W (pdata p) -> thin H W (pdata p) ->
  exists T, peps_recombine_snake p = Ok T /\ size T = prod_ (concat (legs_of 0 (pdata p))) /\
    forall s t dss, ingrid (legs_of 0 (pdata p)) s -> snaked H W s t -> snaked H W (legs_of 0 (pdata p)) dss -> flat T (position (concat dss) (concat t)) = pamp H W (pdata p) s.
Proof.
  intros Hp Ht. assert (HT := thin_rows _ _ _ Hp Ht). assert (Hp' := Hp). apply peps_rec in Hp'. destruct Hp' as (HH & HW & HG & Hok). assert (HG' := HG). destruct HG' as [HL HF].
  destruct (snake_rows_ok (pdata p) 0 _ _ Hok (thinl_ones W) (grid_nonempty W _ HW HF) HT) as (Ts & E & HTs). rewrite HL in HTs.
  destruct (turns_to_state W (pdata p) _ Ts ltac:(lia) Hok HF HTs) as (T & E' & HsT & HeT).
  exists (squeeze T). unfold peps_recombine_snake. rewrite E. cbn [bind]. rewrite E'. split; [reflexivity|]. split.
  - rewrite size_squeeze. unfold size. rewrite HsT. cbn [fold_right]. rewrite !Nat.mul_1_r. rewrite !prod_concat. f_equal.
    assert (LL : length (snakeb 0 H) = length (legs_of 0 (pdata p))) by (rewrite snakeb_length; unfold legs_of; now rewrite map_length). revert LL. generalize (snakeb 0 H) as bs. generalize (legs_of 0 (pdata p)) as g.
    clear. induction g as [|r g IH]; intros [|b bs] LL; try discriminate; [reflexivity|]. cbn [turnl map]. rewrite prod_turn. f_equal. apply IH. cbn in LL. lia.
  - intros s t dss Hs Hst Hd. assert (GL := legs_grid 0 _ _ _ HG). assert (Gs : grid H W s) by (apply (ingrid_grid _ _ (legs_of 0 (pdata p))); assumption).
    rewrite (snaked_turnl _ _ _ _ Gs Hst), (snaked_turnl _ _ _ _ GL Hd).
    assert (Hs' : ingrid (turnl (snakeb 0 H) (legs_of 0 (pdata p))) (turnl (snakeb 0 H) s)). { apply turnl_ingrid; [|exact Hs]. unfold legs_of. rewrite map_length, snakeb_length. now symmetry. }
    destruct (position_groups _ _ Hs') as [_ Hi].
    destruct (flat_squeeze T _ _ HsT (position_lt _ _ Hi)) as [-> _].
    rewrite HeT by assumption. rewrite (pamp_gridS H W) by assumption. now rewrite HL.
Qed.

(** * Flipping twice *)
Lemma twice_T H W (p : peps R) : peps_ok H W (pdata p) -> exists q r, peps_T p = Ok q /\ peps_T q = Ok r /\ peps_ok H W (pdata r) /\ pLx r = H /\ pLy r = W /\ pd r = pd p /\ pX r = pX p /\ poc r = poc p /\
  forall j i, (j < H)%nat -> (i < W)%nat -> tsh (site_at (pdata r) j i) = tsh (site_at (pdata p) j i) /\ forall idx, length idx = 5%nat -> te (site_at (pdata r) j i) idx = te (site_at (pdata p) j i) idx.
Proof.
  intros Hp. destruct (T_ok H W p Hp) as (q & E & Hq & Lx & Ly & Hd & HX & Hoc & HP & HA). destruct (T_ok W H q Hq) as (r & E' & Hr & Lx' & Ly' & Hd' & HX' & Hoc' & HP' & HA').
  exists q, r. do 3 (split; [assumption|]). do 2 (split; [assumption|]). split; [congruence|]. split; [congruence|]. split.
  { rewrite Hoc', Hoc. now destruct (poc p) as [[? ?]|]. }
  intros j i Hj Hi. specialize (HP j i Hj Hi). specialize (HP' i j Hi Hj). destruct HP as [S1 P1]. destruct HP' as [S2 P2]. split.
  - rewrite S2. unfold leg. rewrite S1. cbn. destruct Hp as (_ & _ & _ & HI). destruct (HI j i Hj Hi) as (H5 & _). now rewrite (shape5 _ H5).
  - intros idx Hi5. destruct idx as [|a [|b [|c [|d [|e [|]]]]]]; try discriminate. exact (eq_trans (P2 [a; e; d; c; b] eq_refl) (P1 [a; b; c; d; e] eq_refl)).
Qed.

Lemma twice_R H W (p : peps R) : peps_ok H W (pdata p) -> exists q r, peps_R p = Ok q /\ peps_R q = Ok r /\ peps_ok H W (pdata r) /\ pLx r = H /\ pLy r = W /\ pd r = pd p /\ pX r = pX p /\ (pLx p = H -> poc r = poc p) /\
  forall j i, (j < H)%nat -> (i < W)%nat -> tsh (site_at (pdata r) j i) = tsh (site_at (pdata p) j i) /\ forall idx, length idx = 5%nat -> te (site_at (pdata r) j i) idx = te (site_at (pdata p) j i) idx.
Proof.
  intros Hp. destruct (R_ok H W p Hp) as (q & E & Hq & Lx & Ly & Hd & HX & Hoc & HP & HA). destruct (R_ok H W q Hq) as (r & E' & Hr & Lx' & Ly' & Hd' & HX' & Hoc' & HP' & HA').
  exists q, r. do 3 (split; [assumption|]). do 2 (split; [assumption|]). split; [congruence|]. split; [congruence|]. split.
  { intros HL. rewrite Hoc', Hoc. destruct (poc p) as [[? ?]|]; [|reflexivity]. rewrite Lx, HL. f_equal. f_equal. lia. }
  intros j i Hj Hi. specialize (HP j i Hj Hi). specialize (HP' j (W - 1 - i)%nat Hj ltac:(lia)). replace (W - 1 - (W - 1 - i))%nat with i in HP' by lia.
  destruct HP as [S1 P1]. destruct HP' as [S2 P2]. split.
  - rewrite S2. unfold leg. rewrite S1. cbn. destruct Hp as (_ & _ & _ & HI). destruct (HI j i Hj Hi) as (H5 & _). now rewrite (shape5 _ H5).
  - intros idx Hi5. destruct idx as [|a [|b [|c [|d [|e [|]]]]]]; try discriminate. exact (eq_trans (P2 [a; b; e; d; c] eq_refl) (P1 [a; b; c; d; e] eq_refl)).
Qed.

Lemma twice_U H W (p : peps R) : peps_ok H W (pdata p) -> exists q r, peps_U p = Ok q /\ peps_U q = Ok r /\ peps_ok H W (pdata r) /\ pLx r = H /\ pLy r = W /\ pd r = pd p /\ pX r = pX p /\ (pLy p = W -> poc r = poc p) /\
  forall j i, (j < H)%nat -> (i < W)%nat -> tsh (site_at (pdata r) j i) = tsh (site_at (pdata p) j i) /\ forall idx, length idx = 5%nat -> te (site_at (pdata r) j i) idx = te (site_at (pdata p) j i) idx.
Proof.
  intros Hp. destruct (U_ok H W p Hp) as (q & E & Hq & Lx & Ly & Hd & HX & Hoc & HP & HA). destruct (U_ok H W q Hq) as (r & E' & Hr & Lx' & Ly' & Hd' & HX' & Hoc' & HP' & HA').
  exists q, r. do 3 (split; [assumption|]). do 2 (split; [assumption|]). split; [congruence|]. split; [congruence|]. split.
  { intros HL. rewrite Hoc', Hoc. destruct (poc p) as [[? ?]|]; [|reflexivity]. rewrite Ly, HL. f_equal. f_equal. lia. }
  intros j i Hj Hi. specialize (HP j i Hj Hi). specialize (HP' (H - 1 - j)%nat i ltac:(lia) Hi). replace (H - 1 - (H - 1 - j))%nat with j in HP' by lia.
  destruct HP as [S1 P1]. destruct HP' as [S2 P2]. split.
  - rewrite S2. unfold leg. rewrite S1. cbn. destruct Hp as (_ & _ & _ & HI). destruct (HI j i Hj Hi) as (H5 & _). now rewrite (shape5 _ H5).
  - intros idx Hi5. destruct idx as [|a [|b [|c [|d [|e [|]]]]]]; try discriminate. exact (eq_trans (P2 [a; d; c; b; e] eq_refl) (P1 [a; b; c; d; e] eq_refl)).
Qed.
End Snake.
