(** Einstein sums, contraction and trace of labelled tensors. *)
From Coq Require Import Permutation.
From Verif Require Import Alg ModelMPS ModelNcon SpecNcon.

Lemma zmem_In x l : zmem x l = true <-> In x l.
Proof.
  unfold zmem. rewrite existsb_exists. split.
  - intros (y & H & E). apply Z.eqb_eq in E. subst. exact H.
  - intros H. exists x. rewrite Z.eqb_refl. auto.
Qed.

Lemma zmem_nIn x l : zmem x l = false <-> ~ In x l.
Proof. rewrite <- zmem_In. destruct (zmem x l); split; congruence. Qed.

Lemma nmem_In x l : nmem x l = true <-> In x l.
Proof.
  unfold nmem. rewrite existsb_exists. split.
  - intros (y & H & E). apply Nat.eqb_eq in E. subst. exact H.
  - intros H. exists x. rewrite Nat.eqb_refl. auto.
Qed.

Lemma nmem_nIn x l : nmem x l = false <-> ~ In x l.
Proof. rewrite <- nmem_In. destruct (nmem x l); split; congruence. Qed.

(** positions *)
Lemma where_shift {A} (p : A -> bool) l : forall k, where_ k p l = map (Nat.add k) (where_ 0 p l).
Proof.
  induction l as [|x l IH]; intros k; cbn [where_]; [reflexivity|].
  rewrite (IH (S k)), (IH 1). destruct (p x); cbn [map]; rewrite ?map_map; [f_equal; [lia|]|];
    apply map_ext; intros; lia.
Qed.

Lemma where_cons {A} (p : A -> bool) l i ps : where_ 0 p l = i :: ps ->
  exists l1 x l2, l = l1 ++ x :: l2 /\ length l1 = i /\ p x = true /\ Forall (fun y => p y = false) l1 /\
    ps = where_ (S i) p l2.
Proof.
  revert i ps. induction l as [|y l IH]; intros i ps H; [discriminate|]. cbn [where_] in H.
  destruct (p y) eqn:E.
  - injection H as <- <-. exists [], y, l. auto.
  - rewrite where_shift in H. destruct (where_ 0 p l) as [|j qs] eqn:G; [discriminate|]. injection H as <- <-.
    destruct (IH j qs eq_refl) as (l1 & x & l2 & -> & H1 & H2 & H3 & ->).
    exists (y :: l1), x, l2. cbn. split; [reflexivity|]. split; [lia|]. split; [exact H2|]. split; [constructor; auto|].
    rewrite (where_shift p l2 (S j)), (where_shift p l2 (S (S j))), map_map. apply map_ext. intros; lia.
Qed.

Lemma where_nil {A} (p : A -> bool) l k : where_ k p l = [] -> Forall (fun y => p y = false) l.
Proof.
  revert k. induction l as [|y l IH]; intros k H; [constructor|]. cbn in H. destruct (p y) eqn:E; [discriminate|].
  constructor; [exact E|]. exact (IH _ H).
Qed.

Lemma in_where {A} (p : A -> bool) l : forall k q, In q (where_ k p l) <-> exists x, nth_error l (q - k) = Some x /\ p x = true /\ k <= q.
Proof.
  induction l as [|y l IH]; intros k q; cbn [where_].
  - split; [intros []|]. intros (x & H & _). destruct (q - k); discriminate.
  - assert (G : In q (where_ (S k) p l) <-> exists x, nth_error (y :: l) (q - k) = Some x /\ p x = true /\ k < q).
    { rewrite IH. split; intros (x & H1 & H2 & H3); exists x.
      - replace (q - k) with (S (q - S k)) by lia. auto.
      - replace (q - k) with (S (q - S k)) in H1 by lia. auto. }
    destruct (p y) eqn:E; [cbn [In]|]; rewrite G.
    + split.
      * intros [->|(x & H1 & H2 & H3)]; [exists y; rewrite Nat.sub_diag; auto|exists x; split; [auto|split; [auto|lia]]].
      * intros (x & H1 & H2 & H3). destruct (Nat.eq_dec k q) as [->|]; [left; reflexivity|right; exists x; split; [auto|split; [auto|lia]]].
    + split; intros (x & H1 & H2 & H3); exists x; split; auto; split; auto; try lia.
      destruct (Nat.eq_dec k q) as [->|]; [|lia]. rewrite Nat.sub_diag in H1. injection H1 as <-. congruence.
Qed.

Lemma where_count e l k : length (where_ k (Z.eqb e) l) = count_occ Z.eq_dec l e.
Proof.
  revert k. induction l as [|y l IH]; intros k; [reflexivity|]. cbn [where_ count_occ].
  destruct (Z.eq_dec y e) as [->|N].
  - rewrite Z.eqb_refl. cbn. rewrite IH. reflexivity.
  - destruct (Z.eqb_spec e y); [congruence|]. apply IH.
Qed.

(** merge rebuilds an index list *)
Lemma index_of_nat k ps q : index_of Nat.eqb k ps = Some q -> nth_error ps q = Some k.
Proof.
  revert q. induction ps as [|p ps IH]; intros q H; [discriminate|]. cbn in H.
  destruct (Nat.eqb_spec k p) as [->|]; [injection H as <-; reflexivity|].
  destruct (index_of Nat.eqb k ps); [|discriminate]. injection H as <-. cbn. apply IH. reflexivity.
Qed.

Lemma index_of_none k ps : index_of Nat.eqb k ps = None <-> nmem k ps = false.
Proof.
  induction ps as [|p ps IH]; cbn; [tauto|]. destruct (Nat.eqb k p); cbn; [split; discriminate|].
  unfold nmem in IH. destruct (index_of Nat.eqb k ps); cbn; [|exact IH].
  split; [discriminate|]. intros H. apply IH in H. discriminate.
Qed.

Lemma merge_ok (ps : list nat) (l : list nat) : forall k (full : list nat), skipn k full = l ->
  merge k (length l) ps (map (fun p => nth p full 0) ps) (drop_pos k ps l) = l.
Proof.
  induction l as [|x l IH]; intros k full Hf; [reflexivity|]. cbn [length merge drop_pos].
  assert (Hx : nth k full 0 = x).
  { transitivity (nth 0 (skipn k full) 0); [|rewrite Hf; reflexivity].
    clear. revert full. induction k as [|k IH]; intros [|y full]; cbn; try reflexivity. apply IH. }
  assert (Hf' : skipn (S k) full = l).
  { clear -Hf. revert full Hf. induction k as [|k IH]; intros [|y full] Hf; cbn in *; try congruence. apply IH. exact Hf. }
  destruct (index_of Nat.eqb k ps) as [q|] eqn:E.
  - assert (nmem k ps = true).
    { destruct (nmem k ps) eqn:G; [reflexivity|]. apply index_of_none in G. congruence. }
    rewrite H. f_equal; [|apply IH; exact Hf'].
    apply index_of_nat in E. rewrite (nth_indep _ 0 (nth 0 full 0)).
    + rewrite (map_nth (fun p => nth p full 0)). rewrite (nth_error_nth ps q 0 E). exact Hx.
    + rewrite map_length. apply nth_error_Some. congruence.
  - apply index_of_none in E. rewrite E. cbn [hd tl]. f_equal. apply IH. exact Hf'.
Qed.

Lemma merge_env (e : Z -> nat) ps (v : list Z) (Hps : forall p, In p ps -> p < length v) (d : Z) :
  merge 0 (length v) ps (map e (map (fun p => nth p v d) ps)) (map e (drop_pos 0 ps v)) = map e v.
Proof.
  assert (D : forall k (l : list Z), map e (drop_pos k ps l) = drop_pos k ps (map e l)).
  { intros k l. revert k. induction l as [|x l IH]; intros k; cbn; [reflexivity|].
    destruct (nmem k ps); cbn; rewrite IH; reflexivity. }
  rewrite D, map_map. rewrite <- (merge_ok ps (map e v) 0 (map e v) eq_refl) at 2. rewrite map_length. f_equal.
  apply map_ext_in. intros p Hp. rewrite (nth_indep _ 0 (e d)) by (rewrite map_length; auto). symmetry. apply map_nth.
Qed.

(** find_newv drops the positions found by get_pos *)
Lemma in_get_pos inds icon p : In p (get_pos inds icon) <-> exists l, nth_error inds p = Some l /\ In l icon.
Proof.
  unfold get_pos. rewrite in_flat_map. split.
  - intros (e & He & Hp). apply in_where in Hp as (x & H1 & H2 & _). apply Z.eqb_eq in H2. subst x.
    rewrite Nat.sub_0_r in H1. exists e. auto.
  - intros (l & H1 & H2). exists l. split; [exact H2|]. apply in_where. exists l. rewrite Nat.sub_0_r, Z.eqb_refl. repeat split; auto; lia.
Qed.

Lemma drop_newv (v icon : list Z) : drop_pos 0 (get_pos v icon) v = find_newv v icon.
Proof.
  assert (G : forall l k, (forall i x, nth_error l i = Some x -> nth_error v (k + i) = Some x) ->
     drop_pos k (get_pos v icon) l = find_newv l icon).
  { induction l as [|x l IH]; intros k H; [reflexivity|]. cbn [drop_pos find_newv filter].
    rewrite (IH (S k)) by (intros i y Hy; replace (S k + i) with (k + S i) by lia; apply H; exact Hy).
    assert (Hx : nth_error v k = Some x) by (rewrite <- (Nat.add_0_r k); apply H; reflexivity).
    destruct (zmem x icon) eqn:E.
    - replace (nmem k (get_pos v icon)) with true; [reflexivity|]. symmetry. apply nmem_In, in_get_pos.
      exists x. split; [exact Hx|]. apply zmem_In, E.
    - replace (nmem k (get_pos v icon)) with false; [reflexivity|]. symmetry. apply nmem_nIn. intros HI.
      apply in_get_pos in HI as (l' & H1 & H2). rewrite Hx in H1. injection H1 as <-. apply zmem_nIn in E. contradiction. }
  apply G. intros i x H. exact H.
Qed.

(** labels at the positions of labels occurring once *)
Lemma get_pos_labels (v icon : list Z) d : (forall l, In l icon -> count_occ Z.eq_dec v l = 1) ->
  map (fun p => nth p v d) (get_pos v icon) = icon.
Proof.
  induction icon as [|e icon IH]; intros H; [reflexivity|]. unfold get_pos. cbn [flat_map]. rewrite map_app.
  fold (get_pos v icon). rewrite IH by (intros l Hl; apply H; right; exact Hl).
  pose proof (where_count e v 0) as C. rewrite (H e (or_introl eq_refl)) in C.
  destruct (where_ 0 (Z.eqb e) v) as [|p [|q ps]] eqn:E; try discriminate. cbn.
  assert (I : In p (where_ 0 (Z.eqb e) v)) by (rewrite E; left; reflexivity).
  apply in_where in I as (x & H1 & H2 & _). apply Z.eqb_eq in H2. subst x. rewrite Nat.sub_0_r in H1.
  rewrite (nth_error_nth v p d H1). reflexivity.
Qed.

Lemma get_pos_lt (v icon : list Z) p : In p (get_pos v icon) -> p < length v.
Proof. intros H. apply in_get_pos in H as (l & H & _). apply nth_error_Some. congruence. Qed.

Lemma drop_pos_map {A B} (f : A -> B) ps : forall l k, drop_pos k ps (map f l) = map f (drop_pos k ps l).
Proof. induction l as [|x l IH]; intros k; cbn; [reflexivity|]. destruct (nmem k ps); cbn; rewrite IH; reflexivity. Qed.

(** assignments *)
Lemma eupd_same e l x : eupd e l x l = x.
Proof. unfold eupd. rewrite Z.eqb_refl. reflexivity. Qed.
Lemma eupd_other e l x k : k <> l -> eupd e l x k = e k.
Proof. intros H. unfold eupd. destruct (Z.eqb_spec k l); [contradiction|reflexivity]. Qed.

Fixpoint eupds (e : Z -> nat) (ls : list Z) (xs : list nat) : Z -> nat :=
  match ls, xs with
  | l :: ls, x :: xs => eupds (eupd e l x) ls xs
  | _, _ => e
  end.

Lemma eupds_other ls : forall xs e k, ~ In k ls -> eupds e ls xs k = e k.
Proof.
  induction ls as [|l ls IH]; intros [|x xs] e k H; try reflexivity. cbn. rewrite IH by (intros G; apply H; right; exact G).
  apply eupd_other. intros ->. apply H. left. reflexivity.
Qed.

Lemma eupds_map ls : forall xs e, NoDup ls -> length xs = length ls -> map (eupds e ls xs) ls = xs.
Proof.
  induction ls as [|l ls IH]; intros [|x xs] e HN HL; try discriminate; [reflexivity|]. inversion HN; subst.
  cbn [eupds map]. rewrite eupds_other, eupd_same by assumption. f_equal. apply IH; [assumption|]. cbn in HL. lia.
Qed.

Lemma assign_map ls : forall xs, NoDup ls -> length xs = length ls -> map (assign ls xs) ls = xs.
Proof.
  induction ls as [|l ls IH]; intros [|x xs] HN HL; try discriminate; [reflexivity|]. inversion HN; subst.
  cbn [assign map]. rewrite eupd_same. f_equal. transitivity (map (assign ls xs) ls); [|apply IH; [assumption|cbn in HL; lia]].
  apply map_ext_in. intros k Hk. apply eupd_other. intros ->. contradiction.
Qed.

Section Sums.
Context {R : sring}.
Local Open Scope sr_scope.
Add Ring Rr : (s_th R).

(** does not depend on labels outside a set: respects pointwise equality *)
Definition proper (f : (Z -> nat) -> R) : Prop := forall e e', (forall l, e l = e' l) -> f e = f e'.

Lemma esum_ext ld ls (f g : (Z -> nat) -> R) : (forall e, f e = g e) -> forall e, esum ld ls f e = esum ld ls g e.
Proof. intros H. induction ls as [|l ls IH]; intros e; cbn; [apply H|]. apply sum_ext. intros x _. apply IH. Qed.

Lemma esum_proper ld ls (f : (Z -> nat) -> R) : proper f -> proper (esum ld ls f).
Proof.
  intros H. induction ls as [|l ls IH]; intros e e' He; cbn; [apply H, He|]. apply sum_ext. intros x _. apply IH.
  intros k. unfold eupd. destruct (Z.eqb k l); [reflexivity|apply He].
Qed.

Lemma esum_app ld a b (f : (Z -> nat) -> R) : forall e, esum ld (a ++ b) f e = esum ld a (esum ld b f) e.
Proof. induction a as [|l a IH]; intros e; cbn; [reflexivity|]. apply sum_ext. intros x _. apply IH. Qed.

Lemma esum_perm ld (f : (Z -> nat) -> R) a b : proper f -> Permutation a b -> NoDup a ->
  forall e, esum ld a f e = esum ld b f e.
Proof.
  intros Hf HP. induction HP as [|l a b HP IH|k l a|a b c H1 IH1 H2 IH2]; intros HN e.
  - reflexivity.
  - cbn. apply sum_ext. intros x _. apply IH. inversion HN; assumption.
  - cbn. rewrite sum_swap. apply sum_ext. intros x _. apply sum_ext. intros y _.
    apply (esum_proper ld a f Hf). intros m. unfold eupd. inversion HN as [|? ? HI _]; subst.
    destruct (Z.eqb_spec m k), (Z.eqb_spec m l); subst; try reflexivity. exfalso. apply HI. left. reflexivity.
  - rewrite IH1 by assumption. apply IH2. apply (Permutation_NoDup H1), HN.
Qed.

Lemma esum_factor ld (f g : (Z -> nat) -> R) ls : (forall e l x, In l ls -> g (eupd e l x) = g e) ->
  forall e, esum ld ls (fun e => f e * g e) e = esum ld ls f e * g e.
Proof.
  induction ls as [|l ls IH]; intros Hg e; cbn; [reflexivity|].
  rewrite <- sum_mul_r. apply sum_ext. intros x _.
  rewrite IH by (intros e' l' x' H; apply Hg; right; exact H). rewrite Hg by (left; reflexivity). reflexivity.
Qed.

Lemma esum_cfg ld (f : (Z -> nat) -> R) ls : forall e,
  esum ld ls f e = sumcfg (map ld ls) (fun c => f (eupds e ls c)).
Proof. induction ls as [|l ls IH]; intros e; cbn; [reflexivity|]. apply sum_ext. intros x _. apply IH. Qed.

(** value of a labelled tensor *)
Definition tval (Tv : tens R * list Z) (e : Z -> nat) : R := te (fst Tv) (map e (snd Tv)).

Lemma tval_proper Tv : proper (tval Tv).
Proof. intros e e' H. unfold tval. f_equal. apply map_ext. exact H. Qed.

Lemma tval_free Tv e l x : ~ In l (snd Tv) -> tval Tv (eupd e l x) = tval Tv e.
Proof.
  intros H. unfold tval. f_equal. apply map_ext_in. intros k Hk. apply eupd_other. intros ->. contradiction.
Qed.

Lemma nlist_eqb_refl a : nlist_eqb a a = true.
Proof. induction a; cbn; [reflexivity|]. rewrite Nat.eqb_refl. exact IHa. Qed.

Lemma mapM_dims (ld : Z -> nat) (v : list Z) ps d : (forall p, In p ps -> p < length v) ->
  mapM (getitem (map ld v)) ps = Ok (map ld (map (fun p => nth p v d) ps)).
Proof.
  intros H. induction ps as [|p ps IH]; [reflexivity|]. cbn [mapM map]. unfold getitem at 1.
  rewrite nth_error_map. destruct (nth_error v p) as [l|] eqn:E.
  - cbn [option_map bind]. rewrite IH by (intros q Hq; apply H; right; exact Hq). cbn [bind].
    rewrite (nth_error_nth v p d E). reflexivity.
  - apply nth_error_None in E. specialize (H p (or_introl eq_refl)). lia.
Qed.

(** contraction of two labelled tensors *)
Lemma con_ok ld (A B : tens R) (v w icon : list Z) : tsh A = map ld v -> tsh B = map ld w -> NoDup icon ->
  (forall l, In l icon -> count_occ Z.eq_dec v l = 1%nat) -> (forall l, In l icon -> count_occ Z.eq_dec w l = 1%nat) ->
  exists T, con A B (get_pos v icon) (get_pos w icon) = Ok T /\
    tsh T = map ld (find_newv (v ++ w) icon) /\
    forall e, te T (map e (find_newv (v ++ w) icon)) = esum ld icon (fun e => tval (A, v) e * tval (B, w) e) e.
Proof.
  intros HA HB HN Hv Hw. unfold con. rewrite HA, HB.
  rewrite (mapM_dims ld v (get_pos v icon) 0%Z (get_pos_lt v icon)). cbn [bind].
  rewrite (mapM_dims ld w (get_pos w icon) 0%Z (get_pos_lt w icon)). cbn [bind].
  rewrite !get_pos_labels by assumption. rewrite nlist_eqb_refl. eexists. split; [reflexivity|]. cbn [tsh te].
  rewrite !drop_pos_map, !drop_newv.
  assert (Hf : find_newv (v ++ w) icon = find_newv v icon ++ find_newv w icon) by (unfold find_newv; apply filter_app).
  split; [rewrite Hf, map_app; reflexivity|].
  intros e. rewrite esum_cfg. apply sumcfg_ext. intros c Hc. rewrite Hf, map_app, !map_length.
  rewrite firstn_app, firstn_all2, map_length, Nat.sub_diag by (rewrite map_length; lia). cbn [firstn]. rewrite app_nil_r.
  rewrite skipn_app, skipn_all2, map_length, Nat.sub_diag by (rewrite map_length; lia). cbn [skipn app].
  apply incfg_length in Hc. rewrite map_length in Hc.
  assert (G : forall u, (forall l, In l icon -> count_occ Z.eq_dec u l = 1%nat) ->
    merge 0 (length u) (get_pos u icon) c (map e (find_newv u icon)) = map (eupds e icon c) u).
  { intros u Hu. rewrite <- (merge_env (eupds e icon c) (get_pos u icon) u (get_pos_lt u icon) 0%Z).
    rewrite get_pos_labels by assumption. rewrite eupds_map by assumption. f_equal. rewrite drop_newv.
    apply map_ext_in. intros k Hk. symmetry. apply eupds_other. unfold find_newv in Hk. apply filter_In in Hk as [_ Hk].
    apply Bool.negb_true_iff in Hk. apply zmem_nIn, Hk. }
  rewrite !G by assumption. reflexivity.
Qed.

(** trace of a labelled tensor *)
Lemma trace_ok ld (A : tens R) (v : list Z) o : tsh A = map ld v -> count_occ Z.eq_dec v o = 2%nat ->
  exists T, trace A (get_pos v [o]) = Ok T /\ tsh T = map ld (find_newv v [o]) /\
    forall e, te T (map e (find_newv v [o])) = esum ld [o] (tval (A, v)) e.
Proof.
  intros HA Hc. pose proof (where_count o v 0) as C. rewrite Hc in C.
  assert (HP : get_pos v [o] = where_ 0 (Z.eqb o) v) by (unfold get_pos; cbn [flat_map]; apply app_nil_r).
  destruct (where_ 0 (Z.eqb o) v) as [|p [|q [|]]] eqn:E; try discriminate.
  assert (Hp : forall r, In r [p; q] -> nth_error v r = Some o).
  { intros r Hr. rewrite <- E in Hr. apply in_where in Hr as (x & H1 & H2 & _). rewrite Nat.sub_0_r in H1.
    apply Z.eqb_eq in H2. congruence. }
  unfold trace. rewrite HP, HA. unfold getitem. rewrite !nth_error_map.
  rewrite (Hp p), (Hp q) by (cbn; auto). cbn [option_map bind]. eexists. split; [reflexivity|]. cbn [tsh te].
  rewrite drop_pos_map. rewrite <- HP, drop_newv. split; [reflexivity|].
  intros e. cbn [esum]. rewrite Nat.min_id. apply sum_ext. intros x _. unfold tval. cbn [fst snd]. f_equal.
  rewrite map_length.
  assert (Hlt : forall r, In r (get_pos v [o]) -> r < length v) by (apply get_pos_lt).
  rewrite <- (merge_env (eupd e o x) (get_pos v [o]) v Hlt 0%Z). rewrite HP. cbn [map].
  rewrite (nth_error_nth v p 0%Z (Hp p (or_introl eq_refl))), (nth_error_nth v q 0%Z (Hp q (or_intror (or_introl eq_refl)))), eupd_same.
  f_equal. rewrite <- HP, drop_newv. apply map_ext_in. intros k Hk. symmetry. apply eupd_other. intros ->.
  unfold find_newv in Hk. apply filter_In in Hk as [_ Hk]. cbn in Hk. rewrite Z.eqb_refl in Hk. discriminate.
Qed.

End Sums.
