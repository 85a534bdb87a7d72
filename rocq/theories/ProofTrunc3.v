(** fix_neighbours on a square grid. *)
From Verif Require Import Alg ModelMPS SpecMPS ModelNcon SpecTensor ModelPeps SpecPeps ProofPeps2 ProofPeps5 ProofPeps9 ProofPeps15 ModelTrunc SpecTrunc ProofTrunc ProofTrunc2 ProofNp.
Local Open Scope nat_scope.

Section Proofs.
Context {R : sring}.
Local Open Scope sr_scope.
Notation T0 := (mkT [] (fun _ => 0 : R)).

Definition here (j i k a b l : nat) : bool := (Nat.eqb a j && Nat.eqb b i && Nat.eqb l k)%bool.

Lemma sl_leg ax D (A : tens R) l : length (tsh A) = 5%nat -> (ax < 5)%nat -> leg l (sl [ax] D A) = if Nat.eqb l ax then Nat.min D (leg ax A) else leg l A.
Proof.
  intros H Ha. unfold leg, sl. cbn [tsh fold_left]. destruct (tsh A) as [|n0 [|n1 [|n2 [|n3 [|n4 [|]]]]]]; try discriminate H.
  do 5 (destruct ax as [|ax]; [do 6 (destruct l as [|l]; [reflexivity|]); reflexivity|]). lia.
Qed.

Lemma shape_at_ok H W (data : list (list (tens R))) j i : five_legs H W data -> (j < H)%nat -> (i < W)%nat -> shape_at data j i = Ok (tsh (site_at data j i)).
Proof.
  intros [Hg F] Hj Hi. unfold shape_at, getitem. rewrite (nth_error_nth' data []) by (rewrite (proj1 Hg); exact Hj). cbn [bind].
  rewrite (nth_error_nth' _ T0) by (rewrite (row_len H W) by assumption; exact Hi). cbn [bind]. fold (at_ T0 data j i). fold (site_at data j i). rewrite F by assumption. reflexivity.
Qed.

Lemma get_leg (A : tens R) k : length (tsh A) = 5%nat -> (k < 5)%nat -> getitem (tsh A) k = Ok (leg k A).
Proof. intros H Hk. unfold getitem. rewrite (nth_error_nth' _ 0%nat) by lia. reflexivity. Qed.

Definition step_of (H W : nat) (data data' : list (list (tens R))) (f : nat -> nat -> nat -> nat -> nat) : Prop :=
  five_legs H W data' /\ forall a b, (a < H)%nat -> (b < W)%nat -> te (site_at data' a b) = te (site_at data a b) /\
    forall l, leg l (site_at data' a b) = f a b l (leg l (site_at data a b)).

Lemma cut_site_ok H W (data : list (list (tens R))) j i ax D : five_legs H W data -> (j < H)%nat -> (i < W)%nat -> (ax < 5)%nat ->
  exists data', cut_site data j i ax D = Ok data' /\ step_of H W data data' (fun a b l n => if here j i ax a b l then Nat.min D n else n).
Proof.
  intros [Hg F] Hj Hi Ha. unfold cut_site. pose proof (row_len H W data j Hg Hj) as Lr.
  destruct (setitem_ok (nth j data []) i (sl [ax] D (nth i (nth j data []) T0)) ltac:(lia)) as (r & Er & Lr' & Na & Nb).
  set (f := fun row : list (tens R) => do A <- getitem row i; do A <- slice5 [ax] D A; setitem row i A). assert (Ef : f (nth j data []) = Ok r).
  { unfold f, getitem. rewrite (nth_error_nth' _ T0) by lia. cbn [bind]. rewrite slice5_ok by (apply (F j i Hj Hi)). exact Er. }
  destruct (each_row_ok W f 1 j data) as (d' & E & G & N).
  - rewrite (proj1 Hg). lia.
  - apply Hg.
  - intros a Ha'. assert (a = j) by lia. subst a. exists r. split; [exact Ef|lia].
  - exists d'. split; [exact E|]. rewrite (proj1 Hg) in G.
    assert (V : forall a b, (a < H)%nat -> (b < W)%nat -> site_at d' a b = if (Nat.eqb a j && Nat.eqb b i)%bool then sl [ax] D (site_at data a b) else site_at data a b).
    { intros a b Haa Hbb. specialize (N a ltac:(rewrite (proj1 Hg); lia)). unfold site_at, at_. destruct (Nat.eqb_spec a j) as [->|Ne]; cbn [andb].
      - replace (Nat.leb j j && Nat.ltb j (j + 1))%bool with true in N by (symmetry; apply andb_true_iff; split; [apply Nat.leb_le; lia|apply Nat.ltb_lt; lia]).
        rewrite Ef in N. injection N as N. rewrite <- N. destruct (Nat.eqb_spec b i) as [->|Nb']; [apply Na|now apply Nb].
      - replace (Nat.leb j a && Nat.ltb a (j + 1))%bool with false in N by (symmetry; destruct (Nat.leb_spec j a), (Nat.ltb_spec a (j + 1)); cbn; try lia; reflexivity). now rewrite N. }
    split; [split; [exact G|]|].
    + intros a b Haa Hbb. rewrite V by assumption. destruct (_ && _)%bool; [apply sl_len|]; now apply F.
    + intros a b Haa Hbb. rewrite V by assumption. unfold here. destruct (Nat.eqb a j && Nat.eqb b i)%bool; cbn [andb]; [|split; reflexivity].
      split; [reflexivity|]. intros l. rewrite sl_leg by (try assumption; now apply F). destruct (Nat.eqb_spec l ax) as [->|]; reflexivity.
Qed.

Lemma fix_pair_ok H W (data : list (list (tens R))) j i ax j' i' ax' n : five_legs H W data -> (j < H)%nat -> (i < W)%nat -> (j' < H)%nat -> (i' < W)%nat ->
  (ax < 5)%nat -> (ax' < 5)%nat -> (j <> j' \/ i <> i') -> n = leg ax (site_at data j i) ->
  exists data', fix_pair data j i ax n j' i' ax' = Ok data' /\
    step_of H W data data' (fun a b l m => if (here j i ax a b l || here j' i' ax' a b l)%bool then Nat.min n (leg ax' (site_at data j' i')) else m).
Proof.
  intros F Hj Hi Hj' Hi' Ha Ha' Hne Hn. unfold fix_pair. rewrite (shape_at_ok H W data j' i' F Hj' Hi'). cbn [bind]. rewrite get_leg by (try assumption; now apply F). cbn [bind].
  set (m := Nat.min n _). destruct (cut_site_ok H W data j' i' ax' m F Hj' Hi' Ha') as (d1 & E1 & F1 & V1). rewrite E1. cbn [bind].
  destruct (cut_site_ok H W d1 j i ax m F1 Hj Hi Ha) as (d2 & E2 & F2 & V2). rewrite E2. cbn [bind].
  rewrite (shape_at_ok H W d2 j' i' F2 Hj' Hi'). cbn [bind]. rewrite get_leg by (try assumption; now apply F2). cbn [bind].
  rewrite (shape_at_ok H W d2 j i F2 Hj Hi). cbn [bind]. rewrite get_leg by (try assumption; now apply F2). cbn [bind].
  assert (V : forall a b, (a < H)%nat -> (b < W)%nat -> te (site_at d2 a b) = te (site_at data a b) /\
    forall l, leg l (site_at d2 a b) = if (here j i ax a b l || here j' i' ax' a b l)%bool then m else leg l (site_at data a b)).
  { intros a b Haa Hbb. destruct (V1 a b Haa Hbb) as [T1 L1]. destruct (V2 a b Haa Hbb) as [T2 L2]. split; [congruence|]. intros l. rewrite L2, L1. unfold here.
    destruct (Nat.eqb_spec a j), (Nat.eqb_spec b i), (Nat.eqb_spec l ax), (Nat.eqb_spec a j'), (Nat.eqb_spec b i'), (Nat.eqb_spec l ax'); cbn [andb orb]; try reflexivity; subst; unfold m; lia. }
  assert (X1 : leg ax' (site_at d2 j' i') = m). { rewrite (proj2 (V j' i' Hj' Hi')). unfold here. rewrite !Nat.eqb_refl. cbn [andb]. now rewrite Bool.orb_true_r. }
  assert (X2 : leg ax (site_at d2 j i) = m). { rewrite (proj2 (V j i Hj Hi)). unfold here. rewrite !Nat.eqb_refl. reflexivity. }
  rewrite X1, X2, Nat.eqb_refl. exists d2. split; [reflexivity|]. split; [exact F2|exact V].
Qed.

(** the next bond, when the leg of (j, i) is still as it was *)
Lemma fix_opt H W (c : bool) (data : list (list (tens R))) j i ax j' i' ax' n : five_legs H W data -> (j < H)%nat -> (i < W)%nat -> (c = true -> (j' < H)%nat /\ (i' < W)%nat /\ (j <> j' \/ i <> i')) ->
  (ax < 5)%nat -> (ax' < 5)%nat -> n = leg ax (site_at data j i) ->
  exists data', (if c then fix_pair data j i ax n j' i' ax' else Ok data) = Ok data' /\
    step_of H W data data' (fun a b l m => if (c && (here j i ax a b l || here j' i' ax' a b l))%bool then Nat.min n (leg ax' (site_at data j' i')) else m).
Proof.
  intros F Hj Hi Hc Ha Ha' Hn. destruct c; cbn [andb].
  - destruct (Hc eq_refl) as (A1 & A2 & A3). now apply fix_pair_ok.
  - exists data. split; [reflexivity|]. split; [exact F|]. intros a b _ _. split; reflexivity.
Qed.

Lemma here_k j i k l : l <> k -> forall a b, here j i k a b l = false.
Proof. intros Hl a b. unfold here. apply Nat.eqb_neq in Hl. rewrite Hl. now rewrite Bool.andb_false_r. Qed.
Lemma here_p j i k a b l : (a <> j \/ b <> i) -> here j i k a b l = false.
Proof. intros [Hl|Hl]; apply Nat.eqb_neq in Hl; unfold here; rewrite Hl; [reflexivity|]. now rewrite Bool.andb_false_r. Qed.
Lemma here_y j i k : here j i k j i k = true.
Proof. unfold here. now rewrite !Nat.eqb_refl. Qed.

Ltac casesl i j C := destruct (Nat.ltb_spec 0 i), (Nat.ltb_spec 0 j); try (exfalso; lia); cbn [andb]; repeat (match goal with |- context [here ?x ?y ?k ?a ?b ?l] => first [rewrite (here_k x y k l ltac:(lia) a b) | rewrite (here_p x y k a b l ltac:(lia)) | rewrite (here_y x y k)] end);
  apply Nat.ltb_lt in C; try rewrite C; cbn [andb orb]; rewrite ?Bool.andb_false_r, ?Bool.orb_true_r; cbn [andb orb]; reflexivity.
Lemma here_true j i k a b l : here j i k a b l = true -> a = j /\ b = i /\ l = k.
Proof. unfold here. intros E. apply andb_true_iff in E. destruct E as [E1 E3]. apply andb_true_iff in E1. destruct E1 as [E1 E2]. apply Nat.eqb_eq in E1, E2, E3. auto. Qed.
Ltac noplace Hk := match goal with |- (if (?c && ?h)%bool then _ else _) = _ => let E := fresh in destruct (c && h)%bool eqn:E;
  [exfalso; apply andb_true_iff in E; let E1 := fresh in let E2 := fresh in destruct E as [E1 E2]; apply Nat.ltb_lt in E1; apply orb_true_iff in E2; destruct E2 as [E2|E2]; apply here_true in E2; apply Hk; unfold of_place; lia|] end.

Lemma fix_neighbours_ok H W (p : peps R) i j : five_legs H W (pdata p) -> pLx p = W -> pLy p = H -> (j < H)%nat -> (i < W)%nat ->
  exists q, fix_neighbours p i j = Ok q /\ five_legs H W (pdata q) /\
    (0 < j -> matched (pdata p) (pdata q) j i 1 (j - 1) i 3)%nat /\ (i + 1 < W -> matched (pdata p) (pdata q) j i 2 j (i + 1) 4)%nat /\
    (j + 1 < H -> matched (pdata p) (pdata q) j i 3 (j + 1) i 1)%nat /\ (0 < i -> matched (pdata p) (pdata q) j i 4 j (i - 1) 2)%nat /\
    forall a b, (a < H)%nat -> (b < W)%nat -> te (site_at (pdata q) a b) = te (site_at (pdata p) a b) /\
      forall k, ~ of_place j i a b k -> leg k (site_at (pdata q) a b) = leg k (site_at (pdata p) a b).
Proof.
  intros F Lx Ly Hj Hi. unfold fix_neighbours. set (data := pdata p) in *. rewrite Lx, Ly.
  rewrite (shape_at_ok H W data j i F Hj Hi). cbn [bind]. rewrite !get_leg by (try lia; now apply F). cbn [bind].
  destruct (fix_opt H W (Nat.ltb 0 j) data j i 1 (j - 1) i 3 (leg 1 (site_at data j i)) F Hj Hi) as (d1 & E1 & F1 & V1); try lia.
  { intros C. apply Nat.ltb_lt in C. lia. }
  rewrite E1. cbn [bind].
  destruct (fix_opt H W (Nat.ltb (i + 1) W) d1 j i 2 j (i + 1) 4 (leg 2 (site_at data j i)) F1 Hj Hi) as (d2 & E2 & F2 & V2); try lia.
  { intros C. apply Nat.ltb_lt in C. lia. } { rewrite (proj2 (V1 j i Hj Hi)). rewrite !here_k by lia. cbn. now rewrite Bool.andb_false_r. }
  rewrite E2. cbn [bind].
  destruct (fix_opt H W (Nat.ltb (j + 1) H) d2 j i 3 (j + 1) i 1 (leg 3 (site_at data j i)) F2 Hj Hi) as (d3 & E3 & F3 & V3); try lia.
  { intros C. apply Nat.ltb_lt in C. lia. }
  { rewrite (proj2 (V2 j i Hj Hi)), (proj2 (V1 j i Hj Hi)). rewrite !(here_k j i 1), !(here_k j i 2), !(here_k j (i + 1) 4) by lia. cbn [orb]. rewrite Bool.andb_false_r.
    destruct (Nat.ltb_spec 0 j); cbn [andb]; [|reflexivity]. rewrite here_p by lia. reflexivity. }
  rewrite E3. cbn [bind].
  destruct (fix_opt H W (Nat.ltb 0 i) d3 j i 4 j (i - 1) 2 (leg 4 (site_at data j i)) F3 Hj Hi) as (d4 & E4 & F4 & V4); try lia.
  { intros C. apply Nat.ltb_lt in C. lia. }
  { rewrite (proj2 (V3 j i Hj Hi)), (proj2 (V2 j i Hj Hi)), (proj2 (V1 j i Hj Hi)). rewrite !(here_k _ _ 1), !(here_k j i 2), !(here_k _ _ 3) by lia. cbn [orb]. rewrite !Bool.andb_false_r.
    rewrite (here_p j (i + 1)) by lia. now rewrite Bool.andb_false_r. }
  rewrite E4. cbn [bind]. exists (with_data p d4). split; [reflexivity|]. cbn [with_data pdata]. fold data.
  assert (N1 : (i + 1 < W)%nat -> leg 4 (site_at d1 j (i + 1)) = leg 4 (site_at data j (i + 1))).
  { intros C. rewrite (proj2 (V1 j (i + 1) Hj C))%nat. rewrite !here_k by lia. cbn. now rewrite Bool.andb_false_r. }
  assert (N2 : (j + 1 < H)%nat -> leg 1 (site_at d2 (j + 1) i) = leg 1 (site_at data (j + 1) i)).
  { intros C. rewrite (proj2 (V2 (j + 1) i C Hi))%nat, (proj2 (V1 (j + 1) i C Hi))%nat. rewrite !(here_k _ _ 2), !(here_k _ _ 4), !(here_k _ _ 3) by lia. rewrite here_p by lia. cbn. now rewrite !Bool.andb_false_r. }
  assert (N3 : (0 < i)%nat -> leg 2 (site_at d3 j (i - 1)) = leg 2 (site_at data j (i - 1))).
  { intros C. assert (Hi1 : (i - 1 < W)%nat) by lia. rewrite (proj2 (V3 j (i - 1) Hj Hi1))%nat, (proj2 (V2 j (i - 1) Hj Hi1))%nat, (proj2 (V1 j (i - 1) Hj Hi1))%nat.
    rewrite !(here_k _ _ 1), !(here_k _ _ 3), !(here_k _ _ 4) by lia. rewrite here_p by lia. cbn. now rewrite !Bool.andb_false_r. }
  assert (V : forall a b, (a < H)%nat -> (b < W)%nat -> te (site_at d4 a b) = te (site_at data a b) /\ forall l, leg l (site_at d4 a b) =
     if (Nat.ltb 0 i && (here j i 4 a b l || here j (i - 1) 2 a b l))%bool then Nat.min (leg 4 (site_at data j i)) (leg 2 (site_at data j (i - 1))) else
     if (Nat.ltb (j + 1) H && (here j i 3 a b l || here (j + 1) i 1 a b l))%bool then Nat.min (leg 3 (site_at data j i)) (leg 1 (site_at data (j + 1) i)) else
     if (Nat.ltb (i + 1) W && (here j i 2 a b l || here j (i + 1) 4 a b l))%bool then Nat.min (leg 2 (site_at data j i)) (leg 4 (site_at data j (i + 1))) else
     if (Nat.ltb 0 j && (here j i 1 a b l || here (j - 1) i 3 a b l))%bool then Nat.min (leg 1 (site_at data j i)) (leg 3 (site_at data (j - 1) i)) else leg l (site_at data a b)).
  { intros a b Ha Hb. destruct (V1 a b Ha Hb) as [T1 L1]. destruct (V2 a b Ha Hb) as [T2 L2]. destruct (V3 a b Ha Hb) as [T3 L3]. destruct (V4 a b Ha Hb) as [T4 L4].
    split; [congruence|]. intros l. rewrite L4, L3, L2, L1.
    destruct (Nat.ltb_spec 0 i), (Nat.ltb_spec (j + 1) H), (Nat.ltb_spec (i + 1) W); cbn [andb]; rewrite ?N1, ?N2, ?N3 by assumption; reflexivity. }
  clearbody data. clear V1 V2 V3 V4 N1 N2 N3 E1 E2 E3 E4 F1 F2 F3.
  split; [exact F4|]. unfold matched.
  assert (Bj : (0 < j)%nat -> (j - 1 < H)%nat) by lia. assert (Bi : (0 < i)%nat -> (i - 1 < W)%nat) by lia.
  split; [|split; [|split; [|split]]].
  - intros C. split; [rewrite (proj2 (V j i Hj Hi))|rewrite (proj2 (V (j - 1) i (Bj C) Hi)%nat)]; casesl i j C.
  - intros C. split; [rewrite (proj2 (V j i Hj Hi))|rewrite (proj2 (V j (i + 1) Hj C)%nat)]; casesl i j C.
  - intros C. split; [rewrite (proj2 (V j i Hj Hi))|rewrite (proj2 (V (j + 1) i C Hi)%nat)]; casesl i j C.
  - intros C. split; [rewrite (proj2 (V j i Hj Hi))|rewrite (proj2 (V j (i - 1) Hj (Bi C))%nat)]; casesl i j C.
  - intros a b Ha Hb. destruct (V a b Ha Hb) as [T L]. split; [exact T|]. intros k Hk. rewrite L. do 4 noplace Hk. reflexivity.
Qed.
End Proofs.

Section More.
Context {R : sring}.
Lemma truncated_same H W hcap vcap (p q : peps R) s : truncated H W hcap vcap p q -> zero_beyond H W hcap vcap (pdata p) -> pamp H W (pdata q) s = pamp H W (pdata p) s.
Proof. intros (_ & _ & _ & _ & _ & _ & _ & _ & T) Z. rewrite T. now apply pamp_within_all. Qed.
Lemma truncate_border (p : peps R) D :
  truncate_above p 0 D = Err Exception_ /\ truncate_left p 0 D = Err Exception_ /\ (forall row, row + 1 = pLx p -> truncate_below p row D = Err Exception_).
Proof. split; [reflexivity|]. split; [reflexivity|]. intros row E. unfold truncate_below. rewrite E, Nat.eqb_refl. reflexivity. Qed.
End More.
