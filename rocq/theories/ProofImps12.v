(** Arithmetic, copies and comparison of infinite MPS (iMPS.py:195-265, 802-804). *)
From Verif Require Import Alg ModelMPS SpecMPS ProofMPS ModelOrth SpecOrth ModelDecomp SpecDecomp ModelStruct ModelImps SpecImps
  SpecTraj ProofRK ProofAttr ProofImps3 SpecImpsA.

Section Proofs.
Context {R : sring}.
Local Open Scope sr_scope.
Add Ring Rr : (s_th R).

Lemma init_ok (l : list (site R)) : l <> [] -> exists m, iMPS_init l None = Ok m /\ i_data m = l /\ cell_attrs m /\ no_memory m.
Proof.
  destruct l as [|A l]; [easy|]. intros _. eexists. split; [reflexivity|]. cbn [i_data]. split; [reflexivity|]. split.
  - exists A, l. cbn. auto.
  - repeat split.
Qed.

Lemma shapes_ne (l a : list (site R)) : shapes l = shapes a -> a <> [] -> l <> [].
Proof. intros H Ha ->. destruct a; [easy|discriminate]. Qed.

Lemma imps_add_ok (a b : imps R) : i_data a <> [] -> shapes (i_data a) = shapes (i_data b) ->
  exists m, imps_add a b = Ok m /\ shapes (i_data m) = shapes (i_data a) /\ cell_attrs m /\ no_memory m /\
    forall p, entries (i_data m) p = entries (i_data a) p + entries (i_data b) p.
Proof.
  intros Hn Hs. destruct (zip_ok _ _ Hs) as (l & E & Hl & He). unfold imps_add. rewrite E. cbn [bind].
  destruct (init_ok l (shapes_ne _ _ Hl Hn)) as (m & Em & Hd & Hc & Hm). exists m. rewrite Hd. auto.
Qed.

Lemma imps_sub_ok (a b : imps R) : i_data a <> [] -> shapes (i_data a) = shapes (i_data b) ->
  exists m, imps_sub a b = Ok m /\ shapes (i_data m) = shapes (i_data a) /\ cell_attrs m /\ no_memory m /\
    forall p, entries (i_data m) p = entries (i_data a) p - entries (i_data b) p.
Proof.
  intros Hn Hs. destruct (zip_sub_ok _ _ Hs) as (l & E & Hl & He). unfold imps_sub. rewrite E. cbn [bind].
  destruct (init_ok l (shapes_ne _ _ Hl Hn)) as (m & Em & Hd & Hc & Hm). exists m. rewrite Hd. auto.
Qed.

Lemma imps_mul_ok (a : imps R) c : i_data a <> [] ->
  exists m, imps_mul a c = Ok m /\ shapes (i_data m) = shapes (i_data a) /\ cell_attrs m /\ no_memory m /\
    forall p, entries (i_data m) p = c * entries (i_data a) p.
Proof.
  intros Hn. unfold imps_mul. destruct (init_ok (map (site_scale c) (i_data a))) as (m & Em & Hd & Hc & Hm).
  { destruct (i_data a); easy. }
  exists m. rewrite Hd. split; [exact Em|]. split; [apply scale_shapes|]. split; [exact Hc|]. split; [exact Hm|].
  intros p. apply scale_entries.
Qed.

Lemma imps_div_ok nonneg (C : icalls R) (a m : imps R) c : icalls_ok nonneg C -> imps_div C a c = Ok m ->
  shapes (i_data m) = shapes (i_data a) /\ cell_attrs m /\ no_memory m /\
    forall p, c * entries (i_data m) p = entries (i_data a) p.
Proof.
  intros HC H. unfold imps_div in H. destruct (quot C 1 c) as [x|] eqn:Ex; [|discriminate]. cbn [bind] in H.
  apply (quot_ok nonneg C HC) in Ex. destruct (i_data a) as [|A l] eqn:Ea.
  { unfold imps_mul in H. rewrite Ea in H. discriminate. }
  destruct (imps_mul_ok a x) as (m' & Em & Hs & Hc & Hm & He); [rewrite Ea; easy|]. rewrite Em in H. injection H as <-.
  rewrite Ea in *. split; [exact Hs|]. split; [exact Hc|]. split; [exact Hm|]. intros p. rewrite He.
  transitivity ((x * c) * entries (A :: l) p); [ring|]. rewrite Ex. ring.
Qed.

Lemma imps_mul_transfer (a m : imps R) c A : i_data a = [A] -> imps_mul a c = Ok m ->
  exists B, i_data m = [B] /\
    (forall eta x, right_eigen A eta x -> right_eigen B (c * sconj c * eta) x) /\
    (forall eta x, left_eigen A eta x -> left_eigen B (c * sconj c * eta) x).
Proof.
  intros Ha H. unfold imps_mul in H. rewrite Ha in H. cbn in H. injection H as <-. cbn [i_data]. eexists. split; [reflexivity|].
  assert (D : dl (site_scale c A) = dl A /\ dr (site_scale c A) = dr A) by auto. destruct D as (D1 & D2).
  split; intros eta x (H1 & H2 & H3); unfold right_eigen, left_eigen; rewrite ?D1, ?D2; split; auto; split; auto; intros i j Hi Hj.
  - unfold tright. cbn [phys dr ent site_scale]. transitivity ((c * sconj c) * tright A A (me x) i j); [|rewrite H3 by assumption; ring].
    unfold tright. rewrite <- sum_mul_l. apply sum_ext; intros s _. rewrite <- sum_mul_l. apply sum_ext; intros k _.
    rewrite <- sum_mul_l. apply sum_ext; intros e _. rewrite conj_mul. ring.
  - unfold tleft. cbn [phys dl ent site_scale]. transitivity ((c * sconj c) * tleft A A (me x) i j); [|rewrite H3 by assumption; ring].
    unfold tleft. rewrite <- sum_mul_l. apply sum_ext; intros s _. rewrite <- sum_mul_l. apply sum_ext; intros k _.
    rewrite <- sum_mul_l. apply sum_ext; intros e _. rewrite conj_mul. ring.
Qed.

Lemma imps_copy_ok (a : imps R) : i_data a <> [] ->
  (forall m, imps_copy a = Ok m -> i_data m = i_data a /\ i_l m = i_l a /\ i_r m = i_r a /\ cell_attrs m /\
     i_can m = None /\ i_L m = None) /\
  (imps_copy a = Err AttributeError <-> ((i_l a = None) <-> (i_r a <> None))) /\
  ((exists m, imps_copy a = Ok m) <-> ((i_l a = None) <-> (i_r a = None))).
Proof.
  intros Hn. unfold imps_copy. destruct (init_ok _ Hn) as (n & En & Hd & (A & l & C1 & C2 & C3 & C4) & (M1 & M2 & M3 & M4)).
  rewrite En. cbn [bind].
  destruct (i_l a) as [x|] eqn:El, (i_r a) as [y|] eqn:Er.
  - split; [|split].
    + intros m H. injection H as <-. cbn [i_data i_l i_r i_can i_L]. repeat split; auto. exists A, l. cbn [i_data i_period i_d i_D]. auto.
    + split; [discriminate|]. intros [H1 H2]. assert (N : Some y <> None) by easy. apply H2 in N. discriminate.
    + split; [intros _; split; discriminate|eauto].
  - split; [discriminate|]. split; [split; auto; intros _; split; [discriminate|congruence]|].
    split; [intros (m & E); discriminate|]. intros [H1 H2]. specialize (H2 eq_refl). discriminate.
  - split; [discriminate|]. split; [split; auto; intros _; split; easy|].
    split; [intros (m & E); discriminate|]. intros [H1 H2]. specialize (H1 eq_refl). discriminate.
  - split; [|split].
    + intros m H. injection H as <-. repeat split; auto. exists A, l. auto.
    + split; [discriminate|]. intros [H1 H2]. specialize (H1 eq_refl). congruence.
    + split; [intros _; tauto|eauto].
Qed.

Lemma imps_eq_ok (close : site R -> site R -> option bool) (a b : imps R) x :
  length (i_data a) = length (i_data b) -> imps_eq close a b = Ok x ->
  (x = true <-> pairs_all (fun A B => close A B = Some true) (i_data a) (i_data b)) /\
  imps_ne close a b = Ok (negb x).
Proof.
  intros Hl H. split; [|unfold imps_ne; rewrite H; reflexivity].
  unfold imps_eq in H. revert x H Hl. generalize (i_data b). generalize (i_data a). clear a b.
  unfold pyzip. induction l as [|A l IH]; intros [|B l'] x H Hl; try discriminate.
  - cbn in H. injection H as <-. split; auto. intros _ n u v Hu. destruct n; discriminate.
  - cbn [combine mapM fst snd] in H. destruct (close A B) as [c|] eqn:Ec; [|discriminate]. cbn [lib bind] in H.
    destruct (mapM _ (combine l l')) as [bs|] eqn:E; [|discriminate]. cbn [bind] in H. injection H as <-.
    cbn [forallb]. injection Hl as Hl.
    assert (I := IH l' (forallb (fun x => x) bs)). rewrite E in I. specialize (I eq_refl Hl).
    split.
    + intros Hx. apply andb_prop in Hx as [Hc Hb]. subst c. intros [|n] u v Hu Hv; cbn in Hu, Hv.
      * congruence.
      * rewrite I in Hb. exact (Hb n u v Hu Hv).
    + intros Hp. assert (c = true) as ->. { specialize (Hp 0%nat A B eq_refl eq_refl). congruence. }
      cbn [andb]. apply I. intros n u v Hu Hv. exact (Hp (Datatypes.S n) u v Hu Hv).
Qed.

Lemma to_iMPS_ok D (G : site R) L : vidal_form D G L ->
  exists m A, to_iMPS [(G, L)] = Ok m /\ i_data m = [A] /\ cell_attrs m /\ phys A = phys G /\ square_site D A /\
    right_iso A /\ left_eigen A 1 (square L) /\
    (forall s i j, i < D -> j < D -> ent A s i j = ent G s i j * me L j j).
Proof.
  intros ((G1 & G2) & (L1 & L2 & L3 & L4) & HN & HR & HL).
  unfold to_iMPS. cbn [mapM fst snd]. unfold site_rmul at 1. rewrite G2, L1, Nat.eqb_refl. cbn [bind].
  set (A := mkSite (phys G) (dl G) (mc L) _). destruct (init_ok [A]) as (m & Em & Hd & Hc & _); [easy|].
  assert (HE : forall s i j, i < D -> j < D -> ent A s i j = ent G s i j * me L j j).
  { intros s i j Hi Hj. cbn [A ent]. rewrite (sum_single D j) by (auto; intros k Hk Hne; rewrite L3 by assumption; ring). reflexivity. }
  exists m, A. split; [exact Em|]. split; [exact Hd|]. split; [exact Hc|]. split; [reflexivity|].
  split; [split; assumption|]. split; [|split; [|exact HE]].
  - unfold right_iso. cbn [A phys dl dr]. rewrite G1, L2. intros i j Hi Hj. rewrite <- HR by assumption.
    apply sum_ext; intros s _. apply sum_ext; intros k Hk. fold A. rewrite !HE by assumption. rewrite conj_mul, L4 by assumption. ring.
  - unfold left_eigen, square. cbn [A dr mr mc me]. rewrite L1, L2. split; [reflexivity|]. split; [reflexivity|].
    intros i j Hi Hj. unfold tleft. cbn [A phys dl]. rewrite G1. fold A.
    transitivity (me L i i * me L j j * sconj (sum (phys G) (fun s => sum D (fun k => sconj (ent G s k i) * (me L k k * me L k k) * ent G s k j)))).
    + rewrite sum_conj. rewrite <- sum_mul_l. apply sum_ext; intros s _. rewrite sum_conj, <- sum_mul_l. apply sum_ext; intros k Hk.
      rewrite (sum_single D k) by (auto; intros e He Hne; rewrite (L3 k e) by congruence; ring).
      rewrite !HE by assumption. rewrite !conj_mul, !conj_conj, !L4 by assumption. ring.
    + rewrite HL by assumption. rewrite dlt_conj. destruct (Nat.eq_dec i j) as [->|Hne].
      * rewrite dlt_eq. ring.
      * rewrite dlt_neq by assumption. rewrite (L3 i j) by assumption. ring.
Qed.
End Proofs.
