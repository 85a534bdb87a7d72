(** The main loop of ncon keeps the Einstein sum and ends with one tensor. *)
From Coq Require Import Permutation.
From Verif Require Import Alg ModelMPS ModelNcon SpecNcon ProofNcon.

Lemma filter_length_le' {A} (p : A -> bool) l : length (filter p l) <= length l.
Proof. induction l as [|x l IH]; cbn; [lia|]. destruct (p x); cbn; lia. Qed.

Lemma NoDup_app_ {A} (a b : list A) : NoDup a -> NoDup b -> (forall x, In x a -> ~ In x b) -> NoDup (a ++ b).
Proof.
  induction a as [|x a IH]; intros Ha Hb H; [exact Hb|]. inversion Ha; subst. cbn. constructor.
  - rewrite in_app_iff. intros [G|G]; [contradiction|]. apply (H x); [left; reflexivity|exact G].
  - apply IH; auto. intros y Hy. apply H. right. exact Hy.
Qed.

Section Loop.
Context {R : sring}.
Local Open Scope sr_scope.
Add Ring Rr : (s_th R).

Notation net := (@net R).
Definition labels (n : net) : list Z := flat_map snd n.
Definition nval (n : net) (e : Z -> nat) : R := prodl (map (fun Tv => tval Tv e) n).
Notation cnt := (count_occ Z.eq_dec).

Lemma prodl_perm (a b : list R) : Permutation a b -> prodl a = prodl b.
Proof. intros H. induction H; cbn; try congruence; ring. Qed.

Lemma nval_perm n n' e : Permutation n n' -> nval n e = nval n' e.
Proof. intros H. apply prodl_perm. apply Permutation_map, H. Qed.

Lemma prodl_app' (a b : list R) : prodl (a ++ b) = prodl a * prodl b.
Proof. induction a as [|x a IH]; cbn; [ring|rewrite IH; ring]. Qed.

Lemma nval_app n n' e : nval (n ++ n') e = nval n e * nval n' e.
Proof. unfold nval. rewrite map_app. apply prodl_app'. Qed.

Lemma nval_proper n : proper (nval n).
Proof. intros e e' H. unfold nval. f_equal. apply map_ext. intros Tv. apply tval_proper, H. Qed.

Lemma nval_free n e l x : ~ In l (labels n) -> nval n (eupd e l x) = nval n e.
Proof.
  intros H. unfold nval. f_equal. apply map_ext_in. intros Tv HT. apply tval_free. intros G. apply H.
  unfold labels. apply in_flat_map. exists Tv. auto.
Qed.

Lemma labels_app n n' : labels (n ++ n') = labels n ++ labels n'.
Proof. apply flat_map_app. Qed.

Lemma labels_perm n n' : Permutation n n' -> Permutation (labels n) (labels n').
Proof.
  intros H. unfold labels. rewrite !flat_map_concat_map. induction H; cbn.
  - constructor.
  - apply Permutation_app_head, IHPermutation.
  - rewrite !app_assoc. apply Permutation_app_tail, Permutation_app_comm.
  - etransitivity; eassumption.
Qed.

Lemma cnt_perm a b l : Permutation a b -> cnt a l = cnt b l.
Proof. intros H. apply (proj1 (Permutation_count_occ Z.eq_dec a b) H). Qed.

(** every division of the network into two parts cuts a label *)
Definition connected (n : net) : Prop :=
  forall X Y, Permutation n (X ++ Y) -> X <> [] -> Y <> [] -> exists l, In l (labels X) /\ In l (labels Y).

Lemma connected_perm n n' : Permutation n n' -> connected n -> connected n'.
Proof. intros H HC X Y HP. apply HC. etransitivity; eassumption. Qed.

Record inv (ld : Z -> nat) (forder : list Z) (n : net) (order : list Z) : Prop := mkInv
  { i_dims : Forall (fun Tv => tsh (fst Tv) = map ld (snd Tv)) n;
    i_nd : NoDup order;
    i_ord : forall l, In l order -> cnt (labels n) l = 2%nat;
    i_ford : forall l, In l forder -> cnt (labels n) l = 1%nat;
    i_all : forall l, In l (labels n) -> In l order \/ In l forder;
    i_con : connected n;
    i_ne : n <> [] }.

Lemma inv_perm ld forder n n' order : Permutation n n' -> inv ld forder n order -> inv ld forder n' order.
Proof.
  intros HP [H1 H2 H3 H4 H5 H6 H7]. constructor.
  - rewrite Forall_forall in *. intros x Hx. apply H1. apply (Permutation_in x (Permutation_sym HP) Hx).
  - exact H2.
  - intros l Hl. rewrite <- (H3 l Hl). apply cnt_perm, labels_perm, Permutation_sym, HP.
  - intros l Hl. rewrite <- (H4 l Hl). apply cnt_perm, labels_perm, Permutation_sym, HP.
  - intros l Hl. apply H5. apply (Permutation_in l (Permutation_sym (labels_perm _ _ HP)) Hl).
  - apply (connected_perm n n' HP H6).
  - intros ->. apply H7. apply Permutation_nil, Permutation_sym, HP.
Qed.

Lemma inv_in ld forder n order l : inv ld forder n order -> In l (labels n) -> (2 <= cnt (labels n) l)%nat -> In l order.
Proof. intros HI Hl Hc. destruct (i_all _ _ _ _ HI l Hl) as [|H]; [assumption|]. rewrite (i_ford _ _ _ _ HI l H) in Hc. lia. Qed.

Lemma order_split order icon : NoDup order -> NoDup icon -> (forall l, In l icon -> In l order) ->
  Permutation order (renew_order order icon ++ icon).
Proof.
  intros H1 H2 H3. apply NoDup_Permutation; [exact H1| |].
  - apply NoDup_app_; [apply NoDup_filter, H1|exact H2|]. intros l Hl. unfold renew_order in Hl.
    apply filter_In in Hl as [_ Hl]. apply Bool.negb_true_iff in Hl. apply zmem_nIn, Hl.
  - intros l. rewrite in_app_iff. unfold renew_order. rewrite filter_In, Bool.negb_true_iff, zmem_nIn. split.
    + intros H. destruct (in_dec Z.eq_dec l icon); auto.
    + intros [[H _]|H]; auto.
Qed.

(** one step, for the tensors a (and b) that are contracted *)
Lemma step_inv ld forder (n : net) order (as_ : net) rest (new : tens R * list Z) icon :
  inv ld forder n order -> Permutation n (as_ ++ rest) -> as_ <> [] ->
  NoDup icon -> (forall l, In l icon -> In l order) ->
  (forall l, In l icon -> ~ In l (labels rest)) ->
  tsh (fst new) = map ld (snd new) ->
  (forall l, cnt (snd new) l = if zmem l icon then 0%nat else cnt (labels as_) l) ->
  (forall e, tval new e = esum ld icon (nval as_) e) ->
  inv ld forder (rest ++ [new]) (renew_order order icon) /\
  forall e, esum ld (renew_order order icon) (nval (rest ++ [new])) e = esum ld order (nval n) e.
Proof.
  intros HI HP Hne HN Hio Hir Hd Hc Hv.
  assert (HI' : inv ld forder (as_ ++ rest) order) by (apply (inv_perm _ _ _ _ _ HP HI)).
  assert (Hlab : forall l, cnt (labels (rest ++ [new])) l = if zmem l icon then 0%nat else cnt (labels (as_ ++ rest)) l).
  { intros l. rewrite !labels_app, !count_occ_app. cbn [labels flat_map]. rewrite app_nil_r, Hc.
    destruct (zmem l icon) eqn:E; [|lia]. apply zmem_In in E. specialize (Hir l E).
    rewrite (count_occ_not_In Z.eq_dec) in Hir. rewrite Hir. reflexivity. }
  split.
  - constructor.
    + apply Forall_app. split; [|repeat constructor; exact Hd]. pose proof (i_dims _ _ _ _ HI') as H. apply Forall_app in H. apply H.
    + apply NoDup_filter, (i_nd _ _ _ _ HI).
    + intros l Hl. unfold renew_order in Hl. apply filter_In in Hl as [Hl Hl']. apply Bool.negb_true_iff in Hl'.
      rewrite Hlab, Hl'. apply (i_ord _ _ _ _ HI'), Hl.
    + intros l Hl. rewrite Hlab. destruct (zmem l icon) eqn:E; [|apply (i_ford _ _ _ _ HI'), Hl].
      apply zmem_In, Hio in E. pose proof (i_ord _ _ _ _ HI' l E). pose proof (i_ford _ _ _ _ HI' l Hl). lia.
    + intros l Hl. assert (Hl' := Hl). apply (count_occ_In Z.eq_dec) in Hl. rewrite Hlab in Hl.
      destruct (zmem l icon) eqn:E; [lia|]. apply (count_occ_In Z.eq_dec) in Hl.
      destruct (i_all _ _ _ _ HI' l Hl) as [H|H]; [left|right; exact H].
      unfold renew_order. apply filter_In. rewrite E. auto.
    + intros X Y HXY HX HY.
      assert (Hin : In new (X ++ Y)) by (apply (Permutation_in new HXY), in_or_app; right; left; reflexivity).
      assert (G : forall X Y, In new X -> Permutation (rest ++ [new]) (X ++ Y) -> Y <> [] ->
                exists l, In l (labels X) /\ In l (labels Y)).
      { clear X Y HXY HX HY Hin. intros X Y Hin HXY HY.
        apply in_split in Hin as (X1 & X2 & ->).
        assert (HP' : Permutation rest ((X1 ++ X2) ++ Y)).
        { apply (Permutation_cons_inv (a := new)). etransitivity; [|etransitivity; [exact HXY|]].
          - change (new :: rest) with ([new] ++ rest). apply Permutation_app_comm.
          - rewrite <- !app_assoc. cbn. symmetry. apply Permutation_middle. }
        destruct (i_con _ _ _ _ HI' (as_ ++ X1 ++ X2) Y) as (l & H1 & H2).
        - rewrite <- !app_assoc. rewrite <- !app_assoc in HP'. apply Permutation_app_head, HP'.
        - destruct as_; [contradiction|discriminate].
        - exact HY.
        - exists l. split; [|exact H2].
          assert (Hni : zmem l icon = false).
          { apply zmem_nIn. intros Hl. apply (Hir l Hl). apply (Permutation_in l (labels_perm _ _ (Permutation_sym HP'))).
            rewrite labels_app. apply in_or_app. right. exact H2. }
          rewrite labels_app in H1. rewrite labels_app. cbn [labels flat_map]. fold (labels X2).
          apply in_app_or in H1 as [H1|H1].
          + apply in_or_app. right. apply in_or_app. left. apply (count_occ_In Z.eq_dec). rewrite Hc, Hni.
            apply (count_occ_In Z.eq_dec), H1.
          + rewrite labels_app in H1. apply in_or_app. apply in_app_or in H1 as [H1|H1]; [left; exact H1|right].
            apply in_or_app. right. exact H1. }
      apply in_app_or in Hin as [Hin|Hin].
      * apply G; auto.
      * destruct (G Y X Hin) as (l & H1 & H2); [|exact HX|exists l; auto].
        etransitivity; [exact HXY|apply Permutation_app_comm].
    + destruct rest; discriminate.
  - intros e. rewrite (esum_perm ld (nval n) order (renew_order order icon ++ icon) (nval_proper n)
      (order_split order icon (i_nd _ _ _ _ HI) HN Hio) (i_nd _ _ _ _ HI)).
    rewrite esum_app. apply esum_ext. clear e. intros e.
    rewrite (esum_ext ld icon (nval n) (fun e => nval as_ e * nval rest e)).
    2:{ intros e'. rewrite (nval_perm n _ e' HP). apply nval_app. }
    rewrite esum_factor by (intros e' l x Hl; apply nval_free, Hir, Hl).
    rewrite nval_app. unfold nval at 2. cbn [map prodl]. rewrite Hv. ring.
Qed.

Lemma cnt_newv v icon l : cnt (find_newv v icon) l = if zmem l icon then 0%nat else cnt v l.
Proof.
  unfold find_newv. induction v as [|x v IH]; cbn [filter count_occ]; [destruct (zmem l icon); reflexivity|].
  destruct (Z.eq_dec x l) as [->|N].
  - destruct (zmem l icon) eqn:E; cbn [negb].
    + rewrite IH. reflexivity.
    + cbn [count_occ]. destruct (Z.eq_dec l l); [|contradiction]. rewrite IH. reflexivity.
  - destruct (negb (zmem x icon)); cbn [count_occ]; [|exact IH]. destruct (Z.eq_dec x l); [contradiction|exact IH].
Qed.

Lemma cnt_mem v o : cnt v o = 0%nat <-> zmem o v = false.
Proof. rewrite zmem_nIn. symmetry. apply count_occ_not_In. Qed.

Lemma labels_none (n : net) o : Forall (fun y => zmem o y = false) (map snd n) -> cnt (labels n) o = 0%nat.
Proof.
  induction n as [|a n IH]; intros H; [reflexivity|]. inversion H; subst. cbn [labels flat_map].
  rewrite count_occ_app. rewrite (proj2 (cnt_mem _ _) H2). apply IH, H3.
Qed.

(** the tensors holding a label that occurs twice *)
Lemma get_tcon_ok (n : net) o : cnt (labels n) o = 2%nat ->
  (exists n1 a n2, n = n1 ++ a :: n2 /\ get_tcon (map snd n) o = Ok [length n1] /\ cnt (snd a) o = 2%nat) \/
  (exists n1 a n2 b n3, n = n1 ++ a :: n2 ++ b :: n3 /\
     get_tcon (map snd n) o = Ok [length n1; length n1 + S (length n2)]%nat /\
     cnt (snd a) o = 1%nat /\ cnt (snd b) o = 1%nat).
Proof.
  intros Hc. unfold get_tcon. destruct (where_ 0 (zmem o) (map snd n)) as [|i ps] eqn:E.
  { apply where_nil, labels_none in E. lia. }
  apply where_cons in E as (l1 & x & l2 & El & Hi & Hx & H1 & Hps).
  apply map_eq_app in El as (n1 & n2 & -> & <- & El). apply map_eq_cons in El as (a & n2' & -> & <- & <-).
  rewrite map_length in Hi. subst i. apply labels_none in H1.
  rewrite labels_app, count_occ_app, H1 in Hc. cbn [labels flat_map Nat.add] in Hc. rewrite count_occ_app in Hc. fold (labels n2') in Hc.
  assert (Ha : cnt (snd a) o <> 0%nat) by (rewrite cnt_mem, Hx; discriminate).
  rewrite where_shift in Hps. destruct (where_ 0 (zmem o) (map snd n2')) as [|j qs] eqn:E2.
  - subst ps. cbn [map]. apply where_nil, labels_none in E2. left. exists n1, a, n2'. split; [reflexivity|].
    rewrite map_app, app_nth2 by (rewrite map_length; lia). rewrite map_length, Nat.sub_diag. cbn [map nth].
    rewrite where_count. replace (cnt (snd a) o) with 2%nat by lia. split; [reflexivity|lia].
  - apply where_cons in E2 as (l1' & x' & l2' & El & Hj & Hx' & H2 & Hqs).
    apply map_eq_app in El as (m1 & m2 & -> & <- & El). apply map_eq_cons in El as (b & m2' & -> & <- & <-).
    rewrite map_length in Hj. subst j. apply labels_none in H2.
    rewrite labels_app, count_occ_app, H2 in Hc. cbn [labels flat_map Nat.add] in Hc. rewrite count_occ_app in Hc. fold (labels m2') in Hc.
    assert (Hb : cnt (snd b) o <> 0%nat) by (rewrite cnt_mem, Hx'; discriminate).
    assert (H : qs = []).
    { destruct qs as [|k qs]; [reflexivity|]. exfalso. rewrite where_shift in Hqs.
      destruct (where_ 0 (zmem o) (map snd m2')) as [|k' qs'] eqn:E3; [discriminate|].
      apply where_cons in E3 as (l1 & x & l2 & El & _ & Hx'' & _).
      apply map_eq_app in El as (p1 & p2 & -> & <- & El). apply map_eq_cons in El as (c & p2' & -> & <- & <-).
      rewrite labels_app, count_occ_app in Hc. cbn [labels flat_map] in Hc. rewrite count_occ_app in Hc.
      assert (cnt (snd c) o <> 0%nat) by (rewrite cnt_mem, Hx''; discriminate). lia. }
    rewrite H in Hps. subst ps. right. exists n1, a, m1, b, m2'. split; [reflexivity|]. cbn [map].
    replace (S (length n1) + length m1)%nat with (length n1 + S (length m1))%nat by lia. split; [reflexivity|]. lia.
Qed.

Lemma del_at_app {A} (l1 : list A) x l2 : del_at (length l1) (l1 ++ x :: l2) = l1 ++ l2.
Proof.
  unfold del_at. rewrite firstn_app, firstn_all, Nat.sub_diag. cbn [firstn]. rewrite app_nil_r.
  rewrite skipn_app. rewrite skipn_all2 by lia. replace (S (length l1) - length l1)%nat with 1%nat by lia. reflexivity.
Qed.

Lemma getitem_mid {A} (l1 : list A) x l2 : getitem (l1 ++ x :: l2) (length l1) = Ok x.
Proof. unfold getitem. rewrite nth_error_app2, Nat.sub_diag by lia. reflexivity. Qed.

Lemma cnt_in v l : In l v -> cnt v l <> 0%nat.
Proof. intros H. apply (count_occ_In Z.eq_dec) in H. lia. Qed.

Lemma loop_ok (O : setio) ld forder : setio_ok O -> forall fuel (n : net) order, (length order <= fuel)%nat ->
  inv ld forder n order ->
  exists T v, ncon_loop O fuel n order = Ok [(T, v)] /\ tsh T = map ld v /\
    (forall l, cnt v l = if zmem l forder then 1%nat else 0%nat) /\
    forall e, te T (map e v) = esum ld order (nval n) e.
Proof.
  intros [HS _]. induction fuel as [|fuel IH]; intros n order Hf HI.
  { destruct order as [|o order]; [|cbn in Hf; lia]. cbn [ncon_loop].
    assert (G : exists Tv, n = [Tv]).
    { destruct n as [|a [|b n]]; [destruct (i_ne _ _ _ _ HI eq_refl)|eauto|]. exfalso.
      destruct (i_con _ _ _ _ HI [a] (b :: n)) as (l & H1 & H2); try discriminate; [reflexivity|].
      assert (Hc : (2 <= cnt (labels (a :: b :: n)) l)%nat).
      { change (a :: b :: n) with ([a] ++ (b :: n)). rewrite labels_app, count_occ_app.
        apply cnt_in in H1, H2. lia. }
      apply (inv_in _ _ _ _ l HI) in Hc; [destruct Hc|]. change (a :: b :: n) with ([a] ++ (b :: n)).
      rewrite labels_app. apply in_or_app. auto. }
    destruct G as ([T v] & ->). exists T, v. split; [reflexivity|].
    pose proof (i_dims _ _ _ _ HI) as Hd. inversion Hd; subst. split; [assumption|]. split.
    - intros l. assert (El : labels [(T, v)] = v) by (cbn; apply app_nil_r).
      destruct (zmem l forder) eqn:E.
      + apply zmem_In in E. rewrite <- (i_ford _ _ _ _ HI l E), El. reflexivity.
      + apply cnt_mem, zmem_nIn. intros Hl. apply zmem_nIn in E. rewrite <- El in Hl.
        destruct (i_all _ _ _ _ HI l Hl) as [[]|]. contradiction.
    - intros e. cbn. unfold nval, tval. cbn. ring. }
  destruct order as [|o order].
  { replace (ncon_loop O (S fuel) n []) with (ncon_loop O fuel n []) by (destruct fuel; reflexivity).
    apply (IH n []); [cbn; lia|exact HI]. }
  assert (Ho : cnt (labels n) o = 2%nat) by (apply (i_ord _ _ _ _ HI); left; reflexivity).
  cbn [ncon_loop].
  assert (Hlen : forall icon, In o icon -> (length (renew_order (o :: order) icon) <= fuel)%nat).
  { intros icon Hi. unfold renew_order. cbn [filter]. replace (zmem o icon) with true by (symmetry; apply zmem_In, Hi).
    cbn [negb]. etransitivity; [apply filter_length_le'|]. cbn in Hf. lia. }
  destruct (get_tcon_ok n o Ho) as [(n1 & a & n2 & -> & Et & Ha)|(n1 & a & n2 & b & n3 & -> & Et & Ha & Hb)].
  - rewrite Et. cbn [bind]. rewrite getitem_mid. cbn [bind].
    pose proof (i_dims _ _ _ _ HI) as Hd. apply Forall_app in Hd as [_ Hd]. inversion Hd as [|? ? Hda _]; subst.
    destruct (trace_ok ld (fst a) (snd a) o Hda Ha) as (T & ET & HT1 & HT2). rewrite ET. cbn [bind].
    rewrite <- app_assoc. cbn [app]. rewrite del_at_app.
    assert (HP : Permutation (n1 ++ a :: n2) ([a] ++ (n1 ++ n2))) by (symmetry; cbn [app]; apply Permutation_middle).
    rewrite labels_app, count_occ_app in Ho. cbn [labels flat_map] in Ho. rewrite count_occ_app in Ho. fold (labels n2) in Ho.
    destruct (step_inv ld forder _ (o :: order) [a] (n1 ++ n2) (T, find_newv (snd a) [o]) [o] HI HP) as [HI' HV].
    + discriminate.
    + repeat constructor. intros [].
    + intros l [<-|[]]. left. reflexivity.
    + intros l [<-|[]]. rewrite labels_app. rewrite (count_occ_not_In Z.eq_dec), count_occ_app. lia.
    + exact HT1.
    + intros l. cbn [snd]. rewrite cnt_newv. cbn [labels flat_map]. rewrite app_nil_r. reflexivity.
    + intros e. unfold tval at 1. cbn [fst snd]. rewrite HT2. apply esum_ext. intros e'. unfold nval. cbn. destruct a. cbn. ring.
    + rewrite <- app_assoc in HI', HV. destruct (IH _ _ (Hlen [o] (or_introl eq_refl)) HI') as (T' & v' & E1 & E2 & E3 & E4).
      exists T', v'. rewrite E1. split; [reflexivity|]. split; [exact E2|]. split; [exact E3|].
      intros e. rewrite E4. apply HV.
  - rewrite Et. cbn [bind]. rewrite getitem_mid. cbn [bind].
    assert (Hj : (length n1 + S (length n2))%nat = length (n1 ++ a :: n2)) by (rewrite app_length; reflexivity).
    assert (Hgj : getitem (n1 ++ a :: n2 ++ b :: n3) (length n1 + S (length n2)) = Ok b).
    { rewrite Hj. replace (n1 ++ a :: n2 ++ b :: n3) with ((n1 ++ a :: n2) ++ b :: n3) by (rewrite <- app_assoc; reflexivity).
      apply getitem_mid. }
    rewrite Hgj. cbn [bind]. rewrite Hj.
    pose proof (i_dims _ _ _ _ HI) as Hd. apply Forall_app in Hd as [_ Hd]. inversion Hd as [|? ? Hda Hd']; subst.
    apply Forall_app in Hd' as [_ Hd']. inversion Hd' as [|? ? Hdb _]; subst.
    set (icon := get_icon O (snd a) (snd b)).
    destruct (HS (filter (fun l => zmem l (snd b)) (snd a))) as [HN Hin]. fold (get_icon O (snd a) (snd b)) in HN, Hin. fold icon in HN, Hin.
    assert (Hin' : forall l, In l icon <-> In l (snd a) /\ In l (snd b)).
    { intros l. rewrite Hin, filter_In, zmem_In. reflexivity. }
    assert (HP : Permutation (n1 ++ a :: n2 ++ b :: n3) ([a; b] ++ (n1 ++ n2 ++ n3))).
    { etransitivity; [symmetry; apply Permutation_middle|]. cbn. constructor. rewrite app_assoc.
      etransitivity; [symmetry; apply Permutation_middle|]. rewrite <- app_assoc. reflexivity. }
    assert (Hcnt : forall l, cnt (labels (n1 ++ a :: n2 ++ b :: n3)) l
              = (cnt (snd a) l + cnt (snd b) l + cnt (labels (n1 ++ n2 ++ n3)) l)%nat).
    { intros l. rewrite (cnt_perm _ _ l (labels_perm _ _ HP)), labels_app, count_occ_app. cbn [labels flat_map].
      rewrite app_nil_r, count_occ_app. reflexivity. }
    assert (Hord : forall l, In l icon -> In l (o :: order)).
    { intros l Hl. apply Hin' in Hl as [H1 H2]. apply (inv_in _ _ _ _ l HI).
      - rewrite labels_app. apply in_or_app. right. cbn [labels flat_map]. apply in_or_app. left. exact H1.
      - rewrite Hcnt. apply cnt_in in H1, H2. lia. }
    assert (Hone : forall l, In l icon -> cnt (snd a) l = 1%nat /\ cnt (snd b) l = 1%nat /\ cnt (labels (n1 ++ n2 ++ n3)) l = 0%nat).
    { intros l Hl. pose proof (i_ord _ _ _ _ HI l (Hord l Hl)) as H. rewrite Hcnt in H.
      apply Hin' in Hl as [H1 H2]. apply cnt_in in H1, H2. lia. }
    destruct (con_ok ld (fst a) (fst b) (snd a) (snd b) icon Hda Hdb HN) as (T & ET & HT1 & HT2).
    { intros l Hl. apply (Hone l Hl). } { intros l Hl. apply (Hone l Hl). }
    rewrite ET. cbn [bind].
    replace ((n1 ++ a :: n2 ++ b :: n3) ++ [(T, find_newv (snd a ++ snd b) icon)])
      with ((n1 ++ a :: n2) ++ b :: (n3 ++ [(T, find_newv (snd a ++ snd b) icon)]))
      by (rewrite <- !app_assoc; cbn; rewrite <- !app_assoc; reflexivity).
    rewrite del_at_app. rewrite <- app_assoc. cbn [app]. rewrite del_at_app.
    assert (Hoi : In o icon).
    { apply Hin'. split; apply (count_occ_In Z.eq_dec); lia. }
    destruct (step_inv ld forder _ (o :: order) [a; b] (n1 ++ n2 ++ n3) (T, find_newv (snd a ++ snd b) icon) icon HI HP) as [HI' HV].
    + discriminate.
    + exact HN.
    + exact Hord.
    + intros l Hl. rewrite (count_occ_not_In Z.eq_dec). apply (Hone l Hl).
    + exact HT1.
    + intros l. cbn [snd]. rewrite cnt_newv. cbn [labels flat_map]. rewrite app_nil_r. reflexivity.
    + intros e. unfold tval at 1. cbn [fst snd]. rewrite HT2. apply esum_ext. intros e'. unfold nval. cbn.
      destruct a, b. cbn. ring.
    + rewrite <- !app_assoc in HI', HV. destruct (IH _ _ (Hlen icon Hoi) HI') as (T' & v' & E1 & E2 & E3 & E4).
      exists T', v'. rewrite E1. split; [reflexivity|]. split; [exact E2|]. split; [exact E3|].
      intros e. rewrite E4. apply HV.
Qed.

End Loop.
