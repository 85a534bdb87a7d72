(** The index check and the default orders. *)
From Coq Require Import Permutation Sorted.
From Verif Require Import Alg ModelMPS ModelNcon SpecNcon ProofMPS2 ProofNcon ProofNcon2 ProofNcon3.

(** * Default orders *)
Lemma in_zinsert x y l : In y (zinsert x l) <-> y = x \/ In y l.
Proof.
  induction l as [|z l IH]; cbn [zinsert].
  - cbn. split; [intros [H|[]]; auto|intros [H|[]]; auto].
  - destruct (Z.ltb x z); [cbn; split; intros H; intuition auto|].
    destruct (Z.eqb_spec x z) as [->|]; [cbn; split; intros H; intuition auto|].
    cbn [In]. rewrite IH. tauto.
Qed.

Lemma zinsert_sorted x l : StronglySorted Z.lt l -> StronglySorted Z.lt (zinsert x l).
Proof.
  induction 1 as [|z l Hs IH Hf]; cbn [zinsert]; [repeat constructor|].
  destruct (Z.ltb_spec x z).
  - constructor; [constructor; assumption|]. constructor; [assumption|]. rewrite Forall_forall in *. intros y Hy. specialize (Hf y Hy). lia.
  - destruct (Z.eqb_spec x z) as [->|]; [constructor; assumption|]. constructor; [assumption|].
    rewrite Forall_forall in *. intros y Hy. apply in_zinsert in Hy as [->|Hy]; [lia|auto].
Qed.

Lemma sort_ok l : StronglySorted Z.lt (fold_right zinsert [] l) /\ forall x, In x (fold_right zinsert [] l) <-> In x l.
Proof.
  induction l as [|x l [IH1 IH2]]; cbn [fold_right].
  - split; [constructor|reflexivity].
  - split; [apply zinsert_sorted, IH1|]. intros y. rewrite in_zinsert, IH2. cbn. split; intros [H|H]; auto.
Qed.

Lemma sorted_nodup l : StronglySorted Z.lt l -> NoDup l.
Proof. induction 1 as [|z l Hs IH Hf]; constructor; [|assumption]. intros H. rewrite Forall_forall in Hf. specialize (Hf z H). lia. Qed.

Lemma create_order_ok v : NoDup (create_order v) /\ forall l, In l (create_order v) <-> In l (concat v) /\ (0 < l)%Z.
Proof.
  unfold create_order. destruct (sort_ok (filter (fun i => Z.ltb 0 i) (concat v))) as [H1 H2].
  split; [apply sorted_nodup, H1|]. intros l. rewrite H2, filter_In, Z.ltb_lt. reflexivity.
Qed.

Lemma sorted_rev l : StronglySorted Z.lt l -> StronglySorted Z.gt (rev l).
Proof.
  induction 1 as [|z l Hs IH Hf]; cbn; [constructor|].
  assert (G : forall (a : list Z) b, StronglySorted Z.gt a -> Forall (fun x => (b < x)%Z) a -> StronglySorted Z.gt (a ++ [b])).
  { intros a b Ha Hb. induction Ha as [|y a Ha IHa Hf']; cbn; [repeat constructor|].
    inversion Hb; subst. constructor; [apply IHa; assumption|]. apply Forall_app. split; [assumption|]. repeat constructor. lia. }
  apply G; [exact IH|]. apply Forall_rev. exact Hf.
Qed.

Lemma create_forder_ok v : StronglySorted Z.gt (create_forder v) /\ forall l, In l (create_forder v) <-> In l (concat v) /\ (l < 0)%Z.
Proof.
  unfold create_forder. destruct (sort_ok (filter (fun i => Z.ltb i 0) (concat v))) as [H1 H2].
  split; [apply sorted_rev, H1|]. intros l. rewrite <- in_rev, H2, filter_In, Z.ltb_lt. reflexivity.
Qed.

Lemma sortedg_nodup l : StronglySorted Z.gt l -> NoDup l.
Proof. induction 1 as [|z l Hs IH Hf]; constructor; [|assumption]. intros H. rewrite Forall_forall in Hf. specialize (Hf z H). lia. Qed.

Lemma sorted_unique a : forall b, StronglySorted Z.gt a -> StronglySorted Z.gt b -> (forall x, In x a <-> In x b) -> a = b.
Proof.
  induction a as [|x a IH]; intros [|y b] Ha Hb H.
  - reflexivity.
  - destruct (proj2 (H y) (or_introl eq_refl)).
  - destruct (proj1 (H x) (or_introl eq_refl)).
  - inversion Ha as [|? ? Ha1 Ha2]; inversion Hb as [|? ? Hb1 Hb2]; subst. rewrite Forall_forall in Ha2, Hb2.
    assert (x = y).
    { destruct (proj1 (H x) (or_introl eq_refl)) as [G|G]; [congruence|].
      destruct (proj2 (H y) (or_introl eq_refl)) as [G'|G']; [congruence|].
      specialize (Hb2 x G). specialize (Ha2 y G'). lia. }
    subst y. f_equal. apply IH; auto. intros z. split; intros Hz.
    + destruct (proj1 (H z) (or_intror Hz)) as [->|G]; [|exact G]. specialize (Ha2 z Hz). lia.
    + destruct (proj2 (H z) (or_intror Hz)) as [->|G]; [|exact G]. specialize (Hb2 z Hz). lia.
Qed.

Section Check.
Context {R : sring}.
Local Open Scope sr_scope.
Notation cnt := (count_occ Z.eq_dec).

(** * The check *)
Lemma combine_seq {A} (l : list A) : forall k i x, In (i, x) (combine (seq k (length l)) l) <-> (k <= i)%nat /\ nth_error l (i - k) = Some x.
Proof.
  induction l as [|y l IH]; intros k i x; cbn [length seq combine In].
  - split; [intros []|]. intros [_ H]. destruct (i - k)%nat; discriminate.
  - rewrite IH. split.
    + intros [H|[H1 H2]].
      * injection H as -> ->. rewrite Nat.sub_diag. auto.
      * split; [lia|]. replace (i - k)%nat with (S (i - S k)) by lia. exact H2.
    + intros [H1 H2]. destruct (Nat.eq_dec i k) as [->|N].
      * rewrite Nat.sub_diag in H2. injection H2 as ->. auto.
      * right. split; [lia|]. replace (i - k)%nat with (S (i - S k)) in H2 by lia. exact H2.
Qed.

Lemma in_legs v i j l : In (i, j, l) (legs v) <-> exists w, nth_error v i = Some w /\ nth_error w j = Some l.
Proof.
  unfold legs. rewrite in_flat_map. split.
  - intros ([i' w] & H1 & H2). apply combine_seq in H1 as [_ H1]. rewrite Nat.sub_0_r in H1. cbn [fst snd] in H2.
    apply in_map_iff in H2 as ([j' l'] & E & H2). cbn in E. injection E as -> -> ->.
    apply combine_seq in H2 as [_ H2]. rewrite Nat.sub_0_r in H2. eauto.
  - intros (w & H1 & H2). exists (i, w). split; [apply combine_seq; rewrite Nat.sub_0_r; split; [lia|exact H1]|].
    cbn [fst snd]. apply in_map_iff. exists (j, l). split; [reflexivity|]. apply combine_seq. rewrite Nat.sub_0_r. split; [lia|exact H2].
Qed.

Lemma legs_labels v : map snd (legs v) = concat v.
Proof.
  unfold legs. assert (G : forall k, map snd (flat_map (fun is_ : nat * list Z => map (fun jl : nat * Z => (fst is_, fst jl, snd jl))
     (combine (seq 0 (length (snd is_))) (snd is_))) (combine (seq k (length v)) v)) = concat v).
  { induction v as [|w v IH]; intros k; [reflexivity|]. cbn [length seq combine flat_map concat fst snd]. rewrite map_app, IH. f_equal.
    rewrite map_map. cbn [snd]. assert (H : forall m, map (fun x : nat * Z => snd x) (combine (seq m (length w)) w) = w).
    { induction w as [|x w IHw]; intros m; [reflexivity|]. cbn. rewrite IHw. reflexivity. }
    apply H. }
  apply G.
Qed.

Lemma filter_count {A} (f : A -> Z) e l : length (filter (fun t => Z.eqb (f t) e) l) = cnt (map f l) e.
Proof.
  induction l as [|x l IH]; [reflexivity|]. cbn [filter map count_occ]. destruct (Z.eqb_spec (f x) e) as [E|N].
  - cbn. rewrite IH. destruct (Z.eq_dec (f x) e); [reflexivity|contradiction].
  - destruct (Z.eq_dec (f x) e); [contradiction|exact IH].
Qed.

Lemma leg_legs (AA : list (tens R)) v i j l d : leg AA v i j l d -> In (i, j, l) (legs v) /\ leg_dim AA i j = Some d.
Proof.
  intros (A & w & H1 & H2 & H3 & H4). split; [apply in_legs; eauto|]. unfold leg_dim. rewrite H1. exact H4.
Qed.

Lemma nth_Forall2 {A B} (P : A -> B -> Prop) la lb : Forall2 P la lb -> forall i b, nth_error lb i = Some b ->
  exists a, nth_error la i = Some a /\ P a b.
Proof.
  induction 1 as [|a b' la lb Hp HF IH]; intros [|i] b Hb; try discriminate Hb.
  - injection Hb as <-. exists a. auto.
  - apply IH. exact Hb.
Qed.

Lemma legs_leg (AA : list (tens R)) v i j l : Forall2 (fun A w => length w = length (tsh A)) AA v ->
  In (i, j, l) (legs v) -> exists d, leg AA v i j l d /\ leg_dim AA i j = Some d.
Proof.
  intros HF H. apply in_legs in H as (w & H1 & H2). destruct (nth_Forall2 _ _ _ HF i w H1) as (A & HA & HL).
  destruct (nth_error (tsh A) j) as [d|] eqn:E.
  - exists d. split; [exists A, w; auto|]. unfold leg_dim. rewrite HA. exact E.
  - apply nth_error_None in E. assert (j < length w)%nat by (apply nth_error_Some; congruence). lia.
Qed.

Lemma ranks_ok (AA : list (tens R)) : forall v : list (list Z), (length AA = length v /\
   forallb (fun Av => Nat.eqb (length (snd Av)) (length (tsh (fst Av)))) (combine AA v) = true) <->
  Forall2 (fun A w => length w = length (tsh A)) AA v.
Proof.
  induction AA as [|A AA IH]; intros [|w v].
  - cbn. split; [constructor|auto].
  - cbn. split; [intros [H _]; discriminate|intros H; inversion H].
  - cbn. split; [intros [H _]; discriminate|intros H; inversion H].
  - cbn [length combine forallb fst snd]. rewrite Bool.andb_true_iff, Nat.eqb_eq. split.
    + intros (H1 & H2 & H3). constructor; [exact H2|]. apply IH. split; [lia|exact H3].
    + intros H. inversion H; subst. apply IH in H5. destruct H5. repeat split; auto.
Qed.

Lemma check_iff (AA : list (tens R)) v order forder :
  (consistent AA v order forder -> do_check_indices AA v order forder = Ok tt) /\
  (~ consistent AA v order forder -> do_check_indices AA v order forder = Err ValueError).
Proof.
  assert (G : (do_check_indices AA v order forder = Ok tt /\ consistent AA v order forder) \/
              (do_check_indices AA v order forder = Err ValueError /\ ~ consistent AA v order forder)).
  { unfold do_check_indices. destruct (Nat.eqb_spec (length AA) (length v)) as [HL|N]; cbn [negb].
    2:{ right. split; [reflexivity|]. intros [H _]. apply ranks_ok in H. tauto. }
    destruct (forallb (fun Av => Nat.eqb (length (snd Av)) (length (tsh (fst Av)))) (combine AA v)) eqn:ER; cbn [negb].
    2:{ right. split; [reflexivity|]. intros [H _]. apply ranks_ok in H. rewrite ER in H. destruct H. discriminate. }
    assert (HR : Forall2 (fun A w => length w = length (tsh A)) AA v) by (apply ranks_ok; auto).
    match goal with |- context [forallb ?f order] => destruct (forallb f order) eqn:EO end; cbn [negb].
    2:{ right. split; [reflexivity|]. intros (_ & H & _). rewrite <- Bool.not_true_iff_false in EO. apply EO.
        apply forallb_forall. intros e He. destruct (H e He) as [Hc Hd].
        rewrite <- legs_labels, <- filter_count in Hc.
        destruct (filter (fun t => Z.eqb (snd t) e) (legs v)) as [|[[i j] l] [|[[i' j'] l'] [|]]] eqn:EF; try discriminate Hc.
        assert (M1 : In (i, j, l) (legs v) /\ Z.eqb l e = true).
        { apply (filter_In (fun t : nat * nat * Z => Z.eqb (snd t) e)). rewrite EF. left. reflexivity. }
        assert (M2 : In (i', j', l') (legs v) /\ Z.eqb l' e = true).
        { apply (filter_In (fun t : nat * nat * Z => Z.eqb (snd t) e)). rewrite EF. right. left. reflexivity. }
        destruct M1 as [M1 E1], M2 as [M2 E2]. apply Z.eqb_eq in E1, E2. subst l l'.
        destruct (legs_leg AA v i j e HR M1) as (d & D1 & D2). destruct (legs_leg AA v i' j' e HR M2) as (d' & D1' & D2').
        cbn [fst snd]. rewrite D2, D2'. apply Nat.eqb_eq. apply (Hd _ _ _ _ _ _ D1 D1'). }
    rewrite forallb_forall in EO.
    match goal with |- context [forallb ?f forder] => destruct (forallb f forder) eqn:EFo end; cbn [negb].
    2:{ right. split; [reflexivity|]. intros (_ & _ & H). rewrite <- Bool.not_true_iff_false in EFo. apply EFo.
        apply forallb_forall. intros e He. rewrite (filter_count (fun t => t)), map_id, (H e He). reflexivity. }
    rewrite forallb_forall in EFo. left. split; [reflexivity|]. split; [exact HR|]. split.
    - intros e He. specialize (EO e He).
      assert (Hc : cnt (concat v) e = length (filter (fun t => Z.eqb (snd t) e) (legs v))).
      { rewrite <- legs_labels. symmetry. apply filter_count. }
      destruct (filter (fun t => Z.eqb (snd t) e) (legs v)) as [|[[i j] l] [|[[i' j'] l'] [|]]] eqn:EF; try discriminate EO.
      split; [exact Hc|]. cbn [fst snd] in EO.
      assert (GL : forall a b d, leg AA v a b e d -> (a = i /\ b = j) \/ (a = i' /\ b = j')).
      { intros a b d Hl. apply leg_legs in Hl as [Hl _].
        assert (M : In (a, b, e) (filter (fun t => Z.eqb (snd t) e) (legs v))) by (apply filter_In; split; [exact Hl|apply Z.eqb_refl]).
        rewrite EF in M. destruct M as [M|[M|[]]]; injection M as -> -> _; auto. }
      destruct (leg_dim AA i j) as [d1|] eqn:D1; [|discriminate EO].
      destruct (leg_dim AA i' j') as [d2|] eqn:D2; [|discriminate EO]. apply Nat.eqb_eq in EO. subst d2.
      assert (GD : forall a b d, leg AA v a b e d -> d = d1).
      { intros a b d Hl. pose proof (leg_legs _ _ _ _ _ _ Hl) as [_ Hd]. destruct (GL a b d Hl) as [[-> ->]|[-> ->]]; congruence. }
      intros a b d a' b' d' H1 H2. rewrite (GD _ _ _ H1), (GD _ _ _ H2). reflexivity.
    - intros e He. specialize (EFo e He). apply Nat.eqb_eq in EFo. rewrite (filter_count (fun t => t)), map_id in EFo. exact EFo. }
  destruct G as [[G1 G2]|[G1 G2]]; split; intros H; auto; contradiction.
Qed.

Lemma wf_consistent ld (AA : list (tens R)) v order forder : well_formed ld AA v order forder -> consistent AA v order forder.
Proof.
  intros (H1 & H2 & H3 & H4 & H5 & H6 & H7).
  assert (HD : forall i j l d, leg AA v i j l d -> d = ld l).
  { intros i j l d (A & w & G1 & G2 & G3 & G4). destruct (nth_Forall2 _ _ _ H2 i w G2) as (A' & G5 & G6).
    assert (A' = A) by congruence. subst A'. rewrite G6, nth_error_map, G3 in G4. cbn in G4. congruence. }
  split; [|split].
  - clear - H2. induction H2 as [|A w AA v H HF IH]; constructor; auto. rewrite H, map_length. reflexivity.
  - intros l Hl. split; [apply (H5 l Hl)|]. intros i j d i' j' d' G1 G2. rewrite (HD _ _ _ _ G1), (HD _ _ _ _ G2). reflexivity.
  - intros l Hl. apply (H6 l Hl).
Qed.

Lemma consistent_wf (AA : list (tens R)) v order forder : v <> [] -> NoDup order -> NoDup forder ->
  (forall l, In l order -> (0 < l)%Z) -> (forall l, In l forder -> (l < 0)%Z) ->
  (forall l, In l (concat v) -> In l order \/ In l forder) ->
  consistent AA v order forder -> exists ld, well_formed ld AA v order forder.
Proof.
  intros Hne HN HNf Hp Hn Hall (H1 & H2 & H3).
  exists (fun l => match find (fun t => Z.eqb (snd t) l) (legs v) with
                   | Some t => match leg_dim AA (fst (fst t)) (snd (fst t)) with Some d => d | None => 0%nat end
                   | None => 0%nat end).
  split; [exact Hne|]. split; [|repeat split; auto].
  2:{ apply (H2 l H). }
  assert (G : forall i A w, nth_error AA i = Some A -> nth_error v i = Some w ->
     tsh A = map (fun l => match find (fun t => Z.eqb (snd t) l) (legs v) with
                   | Some t => match leg_dim AA (fst (fst t)) (snd (fst t)) with Some d => d | None => 0%nat end
                   | None => 0%nat end) w).
  { intros i A w HA Hw. destruct (nth_Forall2 _ _ _ H1 i w Hw) as (A' & HA' & HL). assert (A' = A) by congruence. subst A'.
    apply nth_ext with (d := 0%nat) (d' := 0%nat); [rewrite map_length; auto|]. intros j Hj.
    destruct (nth_error w j) as [l|] eqn:El; [|apply nth_error_None in El; lia].
    rewrite (nth_error_nth (map _ w) j 0%nat (x := match find (fun t => Z.eqb (snd t) l) (legs v) with
                   | Some t => match leg_dim AA (fst (fst t)) (snd (fst t)) with Some d => d | None => 0%nat end
                   | None => 0%nat end)) by (rewrite nth_error_map, El; reflexivity).
    destruct (nth_error (tsh A) j) as [d|] eqn:Ed; [|apply nth_error_None in Ed; lia].
    rewrite (nth_error_nth _ _ 0%nat Ed).
    assert (Hleg : leg AA v i j l d) by (exists A, w; auto).
    assert (Hin : In (i, j, l) (legs v)) by (apply in_legs; eauto).
    destruct (find (fun t => Z.eqb (snd t) l) (legs v)) as [[[i' j'] l']|] eqn:EF.
    2:{ apply find_none with (x := (i, j, l)) in EF; [|exact Hin]. cbn in EF. rewrite Z.eqb_refl in EF. discriminate. }
    apply find_some in EF as [EF1 EF2]. cbn in EF2. apply Z.eqb_eq in EF2. subst l'. cbn [fst snd].
    destruct (legs_leg AA v i' j' l H1 EF1) as (d' & D1 & D2). rewrite D2.
    assert (Hc : In l (concat v)) by (apply in_concat; exists w; split; [apply nth_error_In with i|apply nth_error_In with j]; assumption).
    destruct (Hall l Hc) as [Ho|Hf].
    - destruct (H2 l Ho) as [_ Hd]. apply (Hd _ _ _ _ _ _ Hleg D1).
    - specialize (H3 l Hf). rewrite <- legs_labels, <- filter_count in H3.
      assert (M1 : In (i, j, l) (filter (fun t => Z.eqb (snd t) l) (legs v))) by (apply filter_In; split; [exact Hin|apply Z.eqb_refl]).
      assert (M2 : In (i', j', l) (filter (fun t => Z.eqb (snd t) l) (legs v))) by (apply filter_In; split; [exact EF1|apply Z.eqb_refl]).
      destruct (filter (fun t => Z.eqb (snd t) l) (legs v)) as [|t [|]]; try discriminate H3.
      destruct M1 as [M1|[]], M2 as [M2|[]]. assert (E : (i, j) = (i', j')) by congruence. injection E as <- <-.
      apply leg_legs in Hleg as [_ Hleg]. congruence. }
  clear - G H1. induction H1 as [|A w AA v HL HF IH]; [constructor|].
  assert (G' := G 0%nat A w eq_refl eq_refl). constructor; [exact G'|].
  revert G. generalize (fun l => match find (fun t => Z.eqb (snd t) l) (legs (w :: v)) with
                   | Some t => match leg_dim (A :: AA) (fst (fst t)) (snd (fst t)) with Some d => d | None => 0%nat end
                   | None => 0%nat end). intros f G.
  clear - HF G. assert (G2 : forall i B u, nth_error AA i = Some B -> nth_error v i = Some u -> tsh B = map f u) by (intros i; apply (G (S i))).
  clear G. induction HF as [|B u AA v HL HF IH]; constructor.
  - apply (G2 0%nat); reflexivity.
  - apply IH. intros i. apply (G2 (S i)).
Qed.

(** * Both versions of ncon *)
Lemma wf_ne ld (AA : list (tens R)) v order forder : well_formed ld AA v order forder -> v <> [].
Proof. intros H. apply H. Qed.

Lemma ncon_checked O ld (AA : list (tens R)) v order forder chk : setio_ok O -> well_formed ld AA v order forder ->
  exists T, ncon O AA v (Some order) (Some forder) chk = Ok T /\ tsh T = map ld forder /\
    forall idx, length idx = length forder -> te T idx = esum ld order (tprod AA v) (assign forder idx).
Proof.
  intros HO H. destruct (ncon_ok O ld AA v order forder HO H) as (T & E & HT). exists T. split; [|exact HT].
  rewrite <- E. destruct chk; [|reflexivity]. unfold ncon. destruct v; [reflexivity|].
  rewrite (proj1 (check_iff AA _ order forder) (wf_consistent ld _ _ _ _ H)). reflexivity.
Qed.

Lemma ncon_defaults O (AA : list (tens R)) v chk :
  ncon O AA v None None chk = ncon O AA v (Some (create_order v)) (Some (create_forder v)) chk.
Proof. destruct v; reflexivity. Qed.

Lemma wf_default ld (AA : list (tens R)) v order forder : well_formed ld AA v order forder ->
  well_formed ld AA v (create_order v) (create_forder v) /\ Permutation order (create_order v) /\
  Permutation forder (create_forder v).
Proof.
  intros (H1 & H2 & H3 & H4 & H5 & H6 & H7). destruct (create_order_ok v) as [HN Ho]. destruct (create_forder_ok v) as [HS Hf].
  assert (Eo : forall l, In l (create_order v) <-> In l order).
  { intros l. rewrite Ho. split.
    - intros [G1 G2]. destruct (H7 l G1) as [|G]; [assumption|]. destruct (H6 l G). lia.
    - intros G. destruct (H5 l G) as [G1 G2]. split; [|exact G1]. apply (count_occ_In Z.eq_dec). lia. }
  assert (Ef : forall l, In l (create_forder v) <-> In l forder).
  { intros l. rewrite Hf. split.
    - intros [G1 G2]. destruct (H7 l G1) as [G|]; [|assumption]. destruct (H5 l G). lia.
    - intros G. destruct (H6 l G) as [G1 G2]. split; [|exact G1]. apply (count_occ_In Z.eq_dec). lia. }
  pose proof (sortedg_nodup _ HS) as HNf.
  split; [|split; apply NoDup_Permutation; auto; intros l; symmetry; auto].
  repeat split; auto.
  - apply H5, Eo, H.
  - apply H5, Eo, H.
  - apply H6, Ef, H.
  - apply H6, Ef, H.
  - intros l Hl. rewrite Eo, Ef. apply H7, Hl.
Qed.

Lemma tprod_proper (AA : list (tens R)) v : proper (tprod AA v).
Proof. intros e e' H. unfold tprod. f_equal. apply map_ext. intros Tv. f_equal. apply map_ext. exact H. Qed.

Lemma ncon_default_ok O ld (AA : list (tens R)) v order forder chk : setio_ok O -> well_formed ld AA v order forder ->
  StronglySorted Z.gt forder ->
  exists T, ncon O AA v None None chk = Ok T /\ tsh T = map ld forder /\
    forall idx, length idx = length forder -> te T idx = esum ld order (tprod AA v) (assign forder idx).
Proof.
  intros HO H HS. destruct (wf_default ld AA v order forder H) as (H' & Po & Pf).
  assert (Ef : create_forder v = forder).
  { apply sorted_unique; [apply create_forder_ok|exact HS|]. intros x. split; apply Permutation_in; [symmetry|]; exact Pf. }
  rewrite ncon_defaults, Ef. rewrite Ef in H'.
  destruct (ncon_checked O ld AA v _ _ chk HO H') as (T & E & S1 & V). exists T. split; [exact E|]. split; [exact S1|].
  intros idx Hi. rewrite (V idx Hi). symmetry. apply esum_perm; [apply tprod_proper|exact Po|]. apply H.
Qed.

Lemma ncon_independent O O' ld ld' (AA : list (tens R)) v order order' forder chk chk' : setio_ok O -> setio_ok O' ->
  well_formed ld AA v order forder -> well_formed ld' AA v order' forder ->
  exists T T', ncon O AA v (Some order) (Some forder) chk = Ok T /\ ncon O' AA v (Some order') (Some forder) chk' = Ok T' /\
    tsh T = tsh T' /\ forall idx, length idx = length forder -> te T idx = te T' idx.
Proof.
  intros HO HO' H H'.
  destruct (ncon_checked O ld AA v order forder chk HO H) as (T & E & S1 & V).
  destruct (ncon_checked O' ld' AA v order' forder chk' HO' H') as (T' & E' & S' & V').
  assert (HL : forall l, In l (concat v) -> ld l = ld' l).
  { intros l Hl. apply in_concat in Hl as (w & Hw & Hl). apply In_nth_error in Hw as (i & Hw). apply In_nth_error in Hl as (j & Hl).
    destruct (nth_Forall2 _ _ _ (proj1 (proj2 H)) i w Hw) as (A & HA & G1).
    destruct (nth_Forall2 _ _ _ (proj1 (proj2 H')) i w Hw) as (A' & HA' & G2). assert (A' = A) by congruence. subst A'.
    rewrite G1 in G2. apply (f_equal (fun l => nth_error l j)) in G2. rewrite !nth_error_map, Hl in G2. cbn in G2. congruence. }
  exists T, T'. split; [exact E|]. split; [exact E'|]. split.
  - rewrite S1, S'. apply map_ext_in. intros l Hl. apply HL.
    destruct H as (_ & _ & _ & _ & _ & H & _). destruct (H l Hl) as [_ G]. apply (count_occ_In Z.eq_dec). lia.
  - intros idx Hi. rewrite V, V' by exact Hi.
    rewrite (esum_ld ld ld' order).
    + apply esum_perm; [apply tprod_proper| |apply H].
      etransitivity; [apply (wf_default ld AA v order forder H)|]. symmetry. apply (wf_default ld' AA v order' forder H').
    + intros l Hl. apply HL. destruct H as (_ & _ & _ & _ & H & _). destruct (H l Hl) as [_ G]. apply (count_occ_In Z.eq_dec). lia.
Qed.

(** with the default orders and no label 0, the check decides *)
Lemma ncon_accepts O (AA : list (tens R)) v : setio_ok O -> v <> [] -> ~ In 0%Z (concat v) ->
  (consistent AA v (create_order v) (create_forder v) -> exists T, ncon O AA v None None true = Ok T) /\
  (~ consistent AA v (create_order v) (create_forder v) -> ncon O AA v None None true = Err ValueError).
Proof.
  intros HO Hne H0. destruct (create_order_ok v) as [HN Ho]. destruct (create_forder_ok v) as [HS Hf]. split; intros H.
  - destruct (consistent_wf AA v (create_order v) (create_forder v)) as (ld & Hwf); auto.
    + apply sortedg_nodup, HS.
    + intros l Hl. apply Ho, Hl.
    + intros l Hl. apply Hf, Hl.
    + intros l Hl. rewrite Ho, Hf. assert (l <> 0%Z) by (intros ->; contradiction).
      destruct (Z.lt_trichotomy l 0) as [G|[G|G]]; auto; contradiction.
    + rewrite ncon_defaults. destruct (ncon_checked O ld AA v _ _ true HO Hwf) as (T & E & _). exists T. exact E.
  - rewrite ncon_defaults. unfold ncon. destruct v; [contradiction|].
    rewrite (proj2 (check_iff AA _ _ _) H). reflexivity.
Qed.
End Check.
