(** Connecting the graph, the final permutation, and the whole of ncon. *)
From Coq Require Import Permutation.
From Verif Require Import Alg ModelMPS ModelNcon SpecNcon ProofMPS2 ProofNcon ProofNcon2.

(** * The components *)
Definition share (v : list (list Z)) (i j : nat) : Prop := exists l, In l (nth i v []) /\ In l (nth j v []).
Definition even (v : list (list Z)) (P : nat -> bool) : Prop := forall i j, share v i j -> P i = P j.

Lemma nth_in_lt (v : list (list Z)) i l : In l (nth i v []) -> i < length v.
Proof. intros H. destruct (Nat.lt_ge_cases i (length v)); [assumption|]. rewrite nth_overflow in H by assumption. destruct H. Qed.

Lemma in_neighs v i j : In j (neighs v i) <-> share v i j.
Proof.
  unfold neighs. rewrite in_where. split.
  - intros (x & H1 & H2 & _). rewrite Nat.sub_0_r in H1. apply existsb_exists in H2 as (l & H2 & H3). apply zmem_In in H3.
    exists l. split; [exact H2|]. apply nth_error_nth with (d := []) in H1. rewrite H1. exact H3.
  - intros (l & H1 & H2). exists (nth j v []). rewrite Nat.sub_0_r. split; [|split; [|lia]].
    + apply nth_error_nth'. apply (nth_in_lt v j l H2).
    + apply existsb_exists. exists l. split; [exact H1|]. apply zmem_In, H2.
Qed.

Lemma in_nadd x y l : In y (nadd x l) <-> y = x \/ In y l.
Proof.
  unfold nadd. destruct (nmem x l) eqn:E.
  - apply nmem_In in E. split; [auto|]. intros [->|H]; assumption.
  - rewrite in_app_iff. cbn. split; [intros [H|[H|[]]]; auto|intros [H|H]; auto].
Qed.

Lemma in_nrem x y l : In y (nrem x l) <-> y <> x /\ In y l.
Proof.
  unfold nrem. rewrite filter_In, Bool.negb_true_iff, Nat.eqb_neq. split; intros [H1 H2]; split; auto.
Qed.

Lemma fold_nadd vis : forall js tv y, In y (fold_left (fun tv j => if nmem j vis then tv else nadd j tv) js tv)
  <-> In y tv \/ (In y js /\ ~ In y vis).
Proof.
  induction js as [|j js IH]; intros tv y; cbn [fold_left].
  - cbn. tauto.
  - rewrite IH. destruct (nmem j vis) eqn:E.
    + apply nmem_In in E. cbn. split.
      * intros [H|[H1 H2]]; auto.
      * intros [H|[[->|H1] H2]]; auto. contradiction.
    + apply nmem_nIn in E. rewrite in_nadd. cbn. split.
      * intros [[->|H]|[H1 H2]]; auto.
      * intros [H|[[->|H1] H2]]; auto.
Qed.

(** positions not yet visited *)
Definition left_over (N : nat) (vis : list nat) : nat := length (filter (fun x => negb (nmem x vis)) (seq 0 N)).

Lemma filter_len_le {A} (p q : A -> bool) l : (forall x, In x l -> p x = true -> q x = true) ->
  length (filter p l) <= length (filter q l).
Proof.
  induction l as [|x l IH]; intros H; [reflexivity|]. cbn.
  assert (G : length (filter p l) <= length (filter q l)) by (apply IH; intros y Hy; apply H; right; exact Hy).
  pose proof (H x (or_introl eq_refl)) as Hx. destruct (p x), (q x); cbn; try lia; discriminate (Hx eq_refl).
Qed.

Lemma filter_len_lt {A} (p q : A -> bool) l z : (forall x, In x l -> p x = true -> q x = true) ->
  In z l -> p z = false -> q z = true -> length (filter p l) < length (filter q l).
Proof.
  induction l as [|x l IH]; intros H Hz Hp Hq; [destruct Hz|]. cbn.
  assert (G : length (filter p l) <= length (filter q l)) by (apply filter_len_le; intros y Hy; apply H; right; exact Hy).
  destruct Hz as [->|Hz].
  - rewrite Hp, Hq. cbn. lia.
  - assert (G' : length (filter p l) < length (filter q l)).
    { apply IH; auto. intros y Hy. apply H. right. exact Hy. }
    pose proof (H x (or_introl eq_refl)) as Hx. destruct (p x), (q x); cbn; try lia; discriminate (Hx eq_refl).
Qed.

Lemma left_over_add N vis i : i < N -> ~ In i vis -> left_over N (nadd i vis) < left_over N vis.
Proof.
  intros H1 H2. unfold left_over. apply filter_len_lt with (z := i).
  - intros x _. rewrite !Bool.negb_true_iff, !nmem_nIn, in_nadd. tauto.
  - apply in_seq. lia.
  - rewrite Bool.negb_false_iff, nmem_In, in_nadd. auto.
  - rewrite Bool.negb_true_iff, nmem_nIn. exact H2.
Qed.

Record vinv (v : list (list Z)) (vis0 : list nat) (r : nat) (tv vis unv comp : list nat) : Prop := mkV
  { v_lt : forall x, In x tv -> x < length v;
    v_tv : forall x, In x tv -> ~ In x vis;
    v_vis : forall x, In x vis <-> In x vis0 \/ In x comp;
    v_dis : forall x, In x comp -> ~ In x vis0;
    v_clt : forall x, In x comp -> x < length v;
    v_root : In r tv \/ In r comp;
    v_min : forall P, even v P -> forall x, In x tv \/ In x comp -> P x = P r;
    v_unv : forall x, In x unv <-> x < length v /\ ~ In x vis /\ x <> r }.

Lemma visit_ok O v vis0 r : setio_ok O -> forall fuel tv vis unv comp,
  left_over (length v) vis <= fuel -> vinv v vis0 r tv vis unv comp ->
  let '(comp', vis', unv') := visit O v fuel tv vis unv comp in vinv v vis0 r [] vis' unv' comp'.
Proof.
  intros [_ HO]. induction fuel as [|fuel IH]; intros tv vis unv comp Hf HI.
  - destruct tv as [|t tv]; [exact HI|]. exfalso.
    assert (Ht : In t (t :: tv)) by (left; reflexivity).
    pose proof (left_over_add (length v) vis t (v_lt _ _ _ _ _ _ _ HI t Ht) (v_tv _ _ _ _ _ _ _ HI t Ht)). lia.
  - destruct tv as [|t tv]; [exact HI|]. cbn [visit]. set (i := s_pop O (t :: tv)).
    assert (Hi : In i (t :: tv)) by (apply HO; discriminate). set (tv0 := t :: tv) in *. clearbody i tv0. clear t tv.
    destruct HI as [H1 H2 H3 H4 H5 H6 H7 H8].
    apply IH.
    + pose proof (left_over_add (length v) vis i (H1 i Hi) (H2 i Hi)). lia.
    + constructor.
      * intros x Hx. apply fold_nadd in Hx as [Hx|[Hx _]].
        -- apply in_nrem in Hx as [_ Hx]. apply H1, Hx.
        -- apply in_neighs in Hx as (l & _ & Hl). apply (nth_in_lt v x l Hl).
      * intros x Hx. apply fold_nadd in Hx as [Hx|[_ Hx]]; [|exact Hx]. apply in_nrem in Hx as [Hx Hx'].
        rewrite in_nadd. intros [->|G]; [apply Hx; reflexivity|apply (H2 x Hx' G)].
      * intros x. rewrite !in_nadd, H3. tauto.
      * intros x Hx. apply in_nadd in Hx as [->|Hx]; [|apply H4, Hx]. intros G. apply (H2 i Hi), H3. left. exact G.
      * intros x Hx. apply in_nadd in Hx as [->|Hx]; [apply H1, Hi|apply H5, Hx].
      * rewrite in_nadd, fold_nadd, in_nrem. destruct (Nat.eq_dec r i) as [->|N]; [auto|]. destruct H6 as [H6|H6]; auto.
      * intros P HP x [Hx|Hx].
        -- apply fold_nadd in Hx as [Hx|[Hx _]].
           ++ apply in_nrem in Hx as [_ Hx]. apply H7; auto.
           ++ apply in_neighs in Hx. rewrite <- (HP i x Hx). apply H7; auto.
        -- apply in_nadd in Hx as [->|Hx]; apply H7; auto.
      * intros x. rewrite in_nrem, H8, in_nadd. split.
        -- intros (G1 & G2 & G3 & G4). repeat split; auto. intros [->|G5]; auto.
        -- intros (G1 & G2 & G3). repeat split; auto.
Qed.

(** what is known about a component *)
Definition good (v : list (list Z)) (comp : list nat) : Prop :=
  exists r, In r comp /\ (forall x, In x comp -> x < length v) /\
    forall P, even v P -> forall x, In x comp -> P x = P r.

Lemma components_ok O v : setio_ok O -> forall fuel unv vis acc,
  left_over (length v) vis <= fuel ->
  (forall x, In x unv <-> x < length v /\ ~ In x vis) ->
  (forall x, In x vis <-> In x (concat acc)) ->
  Forall (good v) acc -> ForallOrdPairs (fun a b => forall x, In x a -> ~ In x b) acc ->
  let C := components O v fuel unv vis acc in
  Forall (good v) C /\ ForallOrdPairs (fun a b => forall x, In x a -> ~ In x b) C /\
  forall x, x < length v -> In x (concat C).
Proof.
  intros HO. induction fuel as [|fuel IH]; intros unv vis acc Hf Hu Hv Hg Hd.
  - destruct unv as [|u unv].
    + cbn. repeat split; auto. intros x Hx. apply Hv. destruct (in_dec Nat.eq_dec x vis); [assumption|].
      assert (G : In x []) by (apply Hu; auto). destruct G.
    + exfalso. destruct (proj1 (Hu u) (or_introl eq_refl)) as [G1 G2].
      pose proof (left_over_add (length v) vis u G1 G2). lia.
  - destruct unv as [|u unv].
    + cbn. repeat split; auto. intros x Hx. apply Hv. destruct (in_dec Nat.eq_dec x vis); [assumption|].
      assert (G : In x []) by (apply Hu; auto). destruct G.
    + cbn [components]. assert (Hr : In (s_pop O (u :: unv)) (u :: unv)) by (apply HO; discriminate).
      set (r := s_pop O (u :: unv)) in *. set (unv0 := u :: unv) in *. clearbody r unv0. clear u unv.
      destruct (proj1 (Hu r) Hr) as [G1 G2].
      pose proof (visit_ok O v vis r HO (length v) [r] vis (nrem r unv0) []) as HV.
      destruct (visit O v (length v) [r] vis (nrem r unv0) []) as [[comp vis'] unv'].
      destruct HV as [H1 H2 H3 H4 H5 H6 H7 H8].
      * unfold left_over. etransitivity; [apply filter_length_le'|]. rewrite seq_length. reflexivity.
      * constructor.
        -- intros x [<-|[]]. exact G1.
        -- intros x [<-|[]]. exact G2.
        -- intros x. cbn. tauto.
        -- intros x [].
        -- intros x [].
        -- left. left. reflexivity.
        -- intros P _ x [[<-|[]]|[]]. reflexivity.
        -- intros x. rewrite in_nrem, Hu. tauto.
      * assert (Hrc : In r comp) by (destruct H6 as [[]|H6]; exact H6).
        apply IH.
        -- enough (left_over (length v) vis' < left_over (length v) vis) by lia.
           unfold left_over. apply filter_len_lt with (z := r).
           ++ intros x _. rewrite !Bool.negb_true_iff, !nmem_nIn, H3. tauto.
           ++ apply in_seq. lia.
           ++ rewrite Bool.negb_false_iff, nmem_In, H3. auto.
           ++ rewrite Bool.negb_true_iff, nmem_nIn. exact G2.
        -- intros x. rewrite H8. split; [tauto|]. intros [A B]. repeat split; auto. intros ->. apply B, H3. auto.
        -- intros x. rewrite H3, concat_app, in_app_iff, Hv. cbn. rewrite app_nil_r. reflexivity.
        -- apply Forall_app. split; [exact Hg|]. repeat constructor. exists r. repeat split; auto.
        -- assert (G : forall x, In x (concat acc) -> ~ In x comp).
           { intros x Hx Hx'. apply (H4 x Hx'), Hv, Hx. }
           clear - Hd G. induction Hd as [|a acc Ha Hd IH]; cbn.
           ++ repeat constructor.
           ++ constructor.
              ** apply Forall_app. split; [exact Ha|]. repeat constructor. intros x Hx. apply G. cbn. apply in_or_app. auto.
              ** apply IH. intros x Hx. apply G. cbn. apply in_or_app. auto.
Qed.

Section Connect.
Context {R : sring}.
Local Open Scope sr_scope.
Add Ring Rr : (s_th R).
Notation net := (@net R).
Notation cnt := (count_occ Z.eq_dec).

(** * From the positions to the network *)
Lemma perm_mask {A} (n : list A) : forall X Y, Permutation n (X ++ Y) ->
  exists bs, length bs = length n /\
    Permutation X (map fst (filter (fun ab => snd ab) (combine n bs))) /\
    Permutation Y (map fst (filter (fun ab => negb (snd ab)) (combine n bs))).
Proof.
  induction n as [|a n IH]; intros X Y H.
  - apply Permutation_nil in H. apply app_eq_nil in H as [-> ->]. exists []. repeat split; constructor.
  - assert (Hin : In a (X ++ Y)) by (apply (Permutation_in a H); left; reflexivity).
    apply in_app_or in Hin as [Hin|Hin]; apply in_split in Hin as (Z1 & Z2 & ->).
    + destruct (IH (Z1 ++ Z2) Y) as (bs & H1 & H2 & H3).
      { apply (Permutation_cons_inv (a := a)). etransitivity; [exact H|]. rewrite <- !app_assoc. cbn. symmetry. apply Permutation_middle. }
      exists (true :: bs). cbn. repeat split; auto. etransitivity; [symmetry; apply Permutation_middle|]. constructor. exact H2.
    + destruct (IH X (Z1 ++ Z2)) as (bs & H1 & H2 & H3).
      { apply (Permutation_cons_inv (a := a)). etransitivity; [exact H|]. rewrite !app_assoc. symmetry. apply Permutation_middle. }
      exists (false :: bs). cbn. repeat split; auto. etransitivity; [symmetry; apply Permutation_middle|]. constructor. exact H3.
Qed.

Lemma in_mask {A} (p : bool -> bool) (n : list A) : forall bs x, length bs = length n ->
  (In x (map fst (filter (fun ab => p (snd ab)) (combine n bs))) <->
   exists i, nth_error n i = Some x /\ exists b, nth_error bs i = Some b /\ p b = true).
Proof.
  induction n as [|a n IH]; intros [|b bs] x H; try discriminate H; cbn.
  - split; [intros []|]. intros ([|i] & G & _); discriminate G.
  - injection H as H. specialize (IH bs x H). destruct (p b) eqn:E; cbn; rewrite IH; split.
    + intros [->|(i & G1 & G2)]; [exists O; cbn; eauto|exists (S i); auto].
    + intros ([|i] & G1 & c & G2 & G3); cbn in *; [left; congruence|right; eauto].
    + intros (i & G1 & G2). exists (S i). auto.
    + intros ([|i] & G1 & c & G2 & G3); cbn in *; [congruence|eauto].
Qed.

Lemma nth_labels (n : net) i Tv : nth_error n i = Some Tv -> nth i (map snd n) [] = snd Tv.
Proof.
  intros H. change (@nil Z) with (snd (mkT (R := R) [] (fun _ => 0), @nil Z)). rewrite map_nth.
  f_equal. apply nth_error_nth, H.
Qed.

Lemma connected_of (n : net) :
  (forall P, even (map snd n) P -> forall i j, i < length n -> j < length n -> P i = P j) -> connected n.
Proof.
  intros H X Y HP HX HY. destruct (perm_mask n X Y HP) as (bs & Hb & H1 & H2).
  pose proof (fun x => in_mask (fun b => b) n bs x Hb) as M1. pose proof (fun x => in_mask negb n bs x Hb) as M2. cbn beta in M1.
  destruct X as [|x X]; [contradiction|]. destruct Y as [|y Y]; [contradiction|].
  destruct (proj1 (M1 x) (Permutation_in x H1 (or_introl eq_refl))) as (i & Hi & bi & Ebi & Ti).
  destruct (proj1 (M2 y) (Permutation_in y H2 (or_introl eq_refl))) as (j & Hj & bj & Ebj & Tj).
  set (LX := labels (x :: X)) in *. set (LY := labels (y :: Y)) in *.
  destruct (existsb (fun l => zmem l LY) LX) eqn:E.
  { apply existsb_exists in E as (l & E1 & E2). apply zmem_In in E2. exists l. auto. }
  exfalso. assert (Hev : even (map snd n) (fun k => nth k bs false)).
  { intros a b (l & Ha & Hb').
    pose proof (nth_in_lt _ _ _ Ha) as La. pose proof (nth_in_lt _ _ _ Hb') as Lb. rewrite map_length in La, Lb.
    destruct (nth_error n a) as [A|] eqn:Ea; [|apply nth_error_None in Ea; lia].
    destruct (nth_error n b) as [B|] eqn:Eb; [|apply nth_error_None in Eb; lia].
    rewrite (nth_labels n a A Ea) in Ha. rewrite (nth_labels n b B Eb) in Hb'.
    assert (GX : forall k K, nth_error n k = Some K -> nth k bs false = true -> In l (snd K) -> In l LX).
    { intros k K Hk Hbk Hl. unfold LX. apply in_flat_map. exists K. split; [|exact Hl].
      apply (Permutation_in K (Permutation_sym H1)), M1. exists k. split; [exact Hk|]. exists true. split; [|reflexivity].
      rewrite <- Hbk. apply nth_error_nth'. rewrite Hb. apply nth_error_Some. congruence. }
    assert (GY : forall k K, nth_error n k = Some K -> nth k bs false = false -> In l (snd K) -> In l LY).
    { intros k K Hk Hbk Hl. unfold LY. apply in_flat_map. exists K. split; [|exact Hl].
      apply (Permutation_in K (Permutation_sym H2)), M2. exists k. split; [exact Hk|]. exists false. split; [|reflexivity].
      rewrite <- Hbk. apply nth_error_nth'. rewrite Hb. apply nth_error_Some. congruence. }
    assert (F : In l LX -> In l LY -> False).
    { intros F1 F2. rewrite <- Bool.not_true_iff_false in E. apply E. apply existsb_exists. exists l.
      split; [exact F1|apply zmem_In, F2]. }
    destruct (nth a bs false) eqn:Na, (nth b bs false) eqn:Nb; try reflexivity; exfalso; eauto. }
  assert (Li : i < length n) by (apply nth_error_Some; congruence).
  assert (Lj : j < length n) by (apply nth_error_Some; congruence).
  specialize (H _ Hev i j Li Lj). cbn beta in H.
  rewrite (nth_error_nth _ _ false Ebi), (nth_error_nth _ _ false Ebj) in H. subst bj. rewrite Ti in Tj. discriminate Tj.
Qed.

(** * Joining the components *)
Record jinv (ld : Z -> nat) (forder : list Z) (n : net) (order : list Z) : Prop := mkJ
  { j_dims : Forall (fun Tv => tsh (fst Tv) = map ld (snd Tv)) n;
    j_nd : NoDup order;
    j_ord : forall l, In l order -> (0 < l)%Z /\ cnt (labels n) l = 2%nat;
    j_ford : forall l, In l forder -> (l < 0)%Z /\ cnt (labels n) l = 1%nat;
    j_all : forall l, In l (labels n) -> In l order \/ In l forder }.

Lemma zmax_ge l : forall d, (d <= zmax l d)%Z /\ forall x, In x l -> (x <= zmax l d)%Z.
Proof.
  unfold zmax. induction l as [|y l IH]; intros d; cbn [fold_left].
  - split; [lia|intros x []].
  - destruct (IH (Z.max d y)) as [H1 H2]. split; [lia|]. intros x [<-|Hx]; [lia|apply H2, Hx].
Qed.

Lemma del_at_end {A} (l : list A) x : del_at (length l) (l ++ [x]) = l.
Proof. rewrite del_at_app. apply app_nil_r. Qed.

(** giving one tensor one more leg of size one *)
Lemma ext_ok ld (n : net) c l : (c < length n)%nat -> Forall (fun Tv => tsh (fst Tv) = map ld (snd Tv)) n -> ld l = 1%nat ->
  exists a A n', getitem n c = Ok a /\ expand_dims (fst a) (length (snd a)) = Ok A /\
    setitem n c (A, snd a ++ [l]) = Ok n' /\ length n' = length n /\
    nth_error n' c = Some (A, snd a ++ [l]) /\ (forall i, i <> c -> nth_error n' i = nth_error n i) /\
    Permutation (labels n') (l :: labels n) /\
    Forall (fun Tv => tsh (fst Tv) = map ld (snd Tv)) n' /\
    (forall e, nval n' e = nval n e).
Proof.
  intros Hc Hd Hl. destruct (nth_error n c) as [a|] eqn:Ea; [|apply nth_error_None in Ea; lia].
  destruct (nth_error_split n c Ea) as (n1 & n2 & -> & <-). exists a.
  assert (Hda : tsh (fst a) = map ld (snd a)) by (apply Forall_app in Hd as [_ Hd]; inversion Hd; assumption).
  assert (Ex : exists A, expand_dims (fst a) (length (snd a)) = Ok A /\ tsh A = map ld (snd a ++ [l]) /\
            forall e, te A (map e (snd a ++ [l])) = te (fst a) (map e (snd a))).
  { unfold expand_dims. assert (El : length (tsh (fst a)) = length (snd a)) by (rewrite Hda; apply map_length).
    rewrite El, Nat.leb_refl. eexists. split; [reflexivity|]. cbn [tsh te]. split.
    - rewrite <- El, firstn_all, skipn_all, map_app, Hda. cbn. rewrite Hl. reflexivity.
    - intros e. rewrite map_app. cbn [map]. replace (length (snd a)) with (length (map e (snd a))) by apply map_length.
      rewrite del_at_end. reflexivity. }
  destruct Ex as (A & E1 & E2 & E3). exists A, (n1 ++ (A, snd a ++ [l]) :: n2).
  split; [apply getitem_app|]. split; [exact E1|]. split; [apply setitem_app|].
  split; [rewrite !app_length; reflexivity|].
  split; [rewrite nth_error_app2, Nat.sub_diag by lia; reflexivity|].
  split.
  { intros i Hi. destruct (Nat.lt_ge_cases i (length n1)).
    - rewrite !nth_error_app1 by assumption. reflexivity.
    - rewrite !nth_error_app2 by assumption. destruct (i - length n1)%nat eqn:E; [lia|reflexivity]. }
  split.
  { rewrite !labels_app. cbn [labels flat_map snd]. fold (labels n2). rewrite <- (app_assoc (snd a)). cbn [app].
    rewrite !(app_assoc (labels n1)). symmetry. apply Permutation_middle. }
  split.
  { apply Forall_app in Hd as [Hd1 Hd2]. inversion Hd2; subst. apply Forall_app. split; [assumption|]. constructor; assumption. }
  intros e. rewrite !nval_app. f_equal. unfold nval. cbn. f_equal. unfold tval. cbn. apply E3.
Qed.

Lemma esum_ld ld ld' ls (f : (Z -> nat) -> R) : (forall l, In l ls -> ld l = ld' l) -> forall e, esum ld ls f e = esum ld' ls f e.
Proof.
  induction ls as [|l ls IH]; intros H e; [reflexivity|]. cbn. rewrite (H l (or_introl eq_refl)).
  apply sum_ext. intros x _. apply IH. intros k Hk. apply H. right. exact Hk.
Qed.

Lemma join_ok O ld forder (n : net) order c comp : In (s_pop O comp) comp ->
  (c < length n)%nat -> (forall x, In x comp -> (x < length n)%nat /\ x <> c) -> jinv ld forder n order ->
  exists n' order' ld', join O c (n, order) comp = Ok (n', order') /\ jinv ld' forder n' order' /\
    length n' = length n /\ (forall l, In l forder -> ld' l = ld l) /\
    (forall i l, In l (nth i (map snd n) []) -> In l (nth i (map snd n') [])) /\
    share (map snd n') c (s_pop O comp) /\
    (forall e, esum ld' order' (nval n') e = esum ld order (nval n) e).
Proof.
  intros Hp Hc Hcomp HJ. destruct (Hcomp _ Hp) as [Hd Hdc]. set (d := s_pop O comp) in *.
  set (l := match order with [] => 1%Z | x :: l => (zmax l x + 1)%Z end).
  assert (Hl : (0 < l)%Z /\ forall x, In x order -> (x < l)%Z).
  { unfold l. destruct order as [|x o]; [split; [lia|intros ? []]|].
    destruct (zmax_ge o x) as [G1 G2]. destruct (j_ord _ _ _ _ HJ x (or_introl eq_refl)) as [G3 _].
    split; [lia|]. intros y [<-|Hy]; [lia|]. specialize (G2 y Hy). lia. }
  destruct Hl as [Hl0 Hlo].
  assert (Hno : ~ In l order) by (intros G; apply Hlo in G; lia).
  assert (Hnf : ~ In l forder) by (intros G; destruct (j_ford _ _ _ _ HJ l G); lia).
  assert (Hnl : ~ In l (labels n)) by (intros G; destruct (j_all _ _ _ _ HJ l G); contradiction).
  set (ld' := fun k => if Z.eqb k l then 1%nat else ld k).
  assert (Hld' : forall k, k <> l -> ld' k = ld k) by (intros k Hk; unfold ld'; destruct (Z.eqb_spec k l); [contradiction|reflexivity]).
  assert (Hl1 : ld' l = 1%nat) by (unfold ld'; rewrite Z.eqb_refl; reflexivity).
  assert (Hdim : Forall (fun Tv => tsh (fst Tv) = map ld' (snd Tv)) n).
  { pose proof (j_dims _ _ _ _ HJ) as G. rewrite Forall_forall in *. intros Tv HT. rewrite (G Tv HT).
    apply map_ext_in. intros k Hk. symmetry. apply Hld'. intros ->. apply Hnl. apply in_flat_map. eauto. }
  destruct (ext_ok ld' n c l Hc Hdim Hl1) as (a & A & n1 & F1 & F2 & F3 & F4 & F5 & F6 & F7 & F8 & F9).
  rewrite <- F4 in Hd. destruct (ext_ok ld' n1 d l Hd F8 Hl1) as (b & B & n2 & K1 & K2 & K3 & K4 & K5 & K6 & K7 & K8 & K9).
  exists n2, (order ++ [l]), ld'.
  assert (Hlab : Permutation (labels n2) (l :: l :: labels n)) by (etransitivity; [exact K7|]; constructor; exact F7).
  assert (Hcl : forall k, cnt (labels n2) k = if Z.eq_dec l k then 2%nat else cnt (labels n) k).
  { intros k. rewrite (cnt_perm _ _ k Hlab). cbn [count_occ]. destruct (Z.eq_dec l k) as [<-|]; [|reflexivity].
    rewrite (count_occ_not_In Z.eq_dec) in Hnl. rewrite Hnl. reflexivity. }
  assert (Hgd : getitem n d = Ok b).
  { unfold getitem in K1 |- *. rewrite <- F6 by exact Hdc. exact K1. }
  split; [|split; [|split; [|split; [|split; [|split]]]]].
  - unfold join. cbn [fst snd]. fold d. rewrite F1. cbn [bind]. rewrite Hgd. cbn [bind]. rewrite F2. cbn [bind].
    rewrite K2. cbn [bind]. fold l. rewrite F3. cbn [bind]. rewrite K3. cbn [bind]. reflexivity.
  - constructor.
    + exact K8.
    + apply NoDup_app_; [apply (j_nd _ _ _ _ HJ)|repeat constructor; intros []|]. intros x Hx [<-|[]]. contradiction.
    + intros k Hk. rewrite Hcl. apply in_app_or in Hk as [Hk|[<-|[]]].
      * destruct (Z.eq_dec l k) as [<-|]; [contradiction|]. apply (j_ord _ _ _ _ HJ), Hk.
      * destruct (Z.eq_dec l l); [auto|contradiction].
    + intros k Hk. rewrite Hcl. destruct (Z.eq_dec l k) as [<-|]; [contradiction|]. apply (j_ford _ _ _ _ HJ), Hk.
    + intros k Hk. apply (Permutation_in k Hlab) in Hk. destruct Hk as [<-|[<-|Hk]].
      * left. apply in_or_app. right. left. reflexivity.
      * left. apply in_or_app. right. left. reflexivity.
      * destruct (j_all _ _ _ _ HJ k Hk); [left; apply in_or_app; auto|auto].
  - rewrite K4, F4. reflexivity.
  - intros k Hk. apply Hld'. intros ->. contradiction.
  - assert (G : forall (m m' : net) c' a' A' k, getitem m c' = Ok a' -> nth_error m' c' = Some (A', snd a' ++ [k]) ->
              (forall i, i <> c' -> nth_error m' i = nth_error m i) ->
              forall i x, In x (nth i (map snd m) []) -> In x (nth i (map snd m') [])).
    { intros m m' c' a' A' k G1 G2 G3 i x Hx. destruct (Nat.eq_dec i c') as [->|N].
      - rewrite (nth_labels _ _ _ G2). cbn. apply in_or_app. left. unfold getitem in G1.
        destruct (nth_error m c') as [a''|] eqn:E; [|discriminate]. injection G1 as ->. rewrite (nth_labels _ _ _ E) in Hx. exact Hx.
      - specialize (G3 i N). destruct (nth_error m i) as [q|] eqn:E.
        + rewrite (nth_labels _ _ _ E) in Hx. rewrite (nth_labels _ _ _ G3). exact Hx.
        + apply nth_error_None in E. rewrite nth_overflow in Hx by (rewrite map_length; exact E). destruct Hx. }
    intros i x Hx. apply (G n1 n2 d b B l K1 K5 K6). apply (G n n1 c a A l F1 F5 F6). exact Hx.
  - exists l. rewrite (nth_labels _ _ _ K5). split.
    + assert (E : nth_error n2 c = Some (A, snd a ++ [l])) by (rewrite K6 by auto; exact F5).
      rewrite (nth_labels _ _ _ E). cbn. apply in_or_app. right. left. reflexivity.
    + cbn. apply in_or_app. right. left. reflexivity.
  - intros e. rewrite esum_app. rewrite (esum_ld ld' ld order) by (intros k Hk; apply Hld'; intros ->; contradiction).
    apply esum_ext. clear e. intros e. cbn [esum]. rewrite Hl1, sum_one, K9, F9. apply nval_free, Hnl.
Qed.

Lemma joins_ok O : setio_ok O -> forall comps ld forder (n : net) order c, 
  (c < length n)%nat -> Forall (fun comp => comp <> [] /\ forall x, In x comp -> (x < length n)%nat /\ x <> c) comps ->
  jinv ld forder n order ->
  exists n' order' ld', joins O c (n, order) comps = Ok (n', order') /\ jinv ld' forder n' order' /\
    length n' = length n /\ (forall l, In l forder -> ld' l = ld l) /\
    (forall i l, In l (nth i (map snd n) []) -> In l (nth i (map snd n') [])) /\
    Forall (fun comp => share (map snd n') c (s_pop O comp)) comps /\
    (forall e, esum ld' order' (nval n') e = esum ld order (nval n) e).
Proof.
  intros HO. induction comps as [|comp comps IH]; intros ld forder n order c Hc HF HJ.
  - exists n, order, ld. cbn. repeat split; auto; apply HJ; assumption.
  - inversion HF as [|? ? [Hne Hcomp] HF']; subst.
    destruct (join_ok O ld forder n order c comp (proj2 HO comp Hne) Hc Hcomp HJ) as (n1 & o1 & ld1 & E1 & J1 & L1 & D1 & S1 & H1 & V1).
    destruct (IH ld1 forder n1 o1 c) as (n2 & o2 & ld2 & E2 & J2 & L2 & D2 & S2 & H2 & V2).
    + rewrite L1. exact Hc.
    + rewrite L1. exact HF'.
    + exact J1.
    + exists n2, o2, ld2. cbn [joins]. rewrite E1. cbn [bind]. split; [exact E2|]. split; [exact J2|].
      split; [congruence|]. split; [intros l Hl; rewrite D2, D1 by assumption; reflexivity|].
      split; [intros i l Hl; apply S2, S1, Hl|]. split.
      * constructor; [|exact H2]. destruct H1 as (l & G1 & G2). exists l. split; apply S2; assumption.
      * intros e. rewrite V2, V1. reflexivity.
Qed.

Lemma connect_ok O ld forder (n : net) order : setio_ok O -> n <> [] -> jinv ld forder n order ->
  exists n' order' ld', connect_graph O n order = Ok (n', order') /\ inv ld' forder n' order' /\
    (forall l, In l forder -> ld' l = ld l) /\
    (forall e, esum ld' order' (nval n') e = esum ld order (nval n) e).
Proof.
  intros HO Hne HJ. unfold connect_graph.
  pose proof (components_ok O (map snd n) HO (length n) (seq 0 (length n)) [] []) as HC. cbv zeta in HC.
  set (C := components O (map snd n) (length n) (seq 0 (length n)) [] []) in *. clearbody C.
  destruct HC as (Hg & Hd & Hcov).
  { unfold left_over. etransitivity; [apply filter_length_le'|]. rewrite seq_length, map_length. reflexivity. }
  { intros x. rewrite in_seq, map_length. cbn. split; [intros H; split; [lia|intros []]|lia]. }
  { intros x. cbn. reflexivity. }
  { constructor. } { constructor. }
  rewrite map_length in Hcov.
  destruct (rev C) as [|comp comps] eqn:E.
  { exfalso. destruct n as [|a n]; [contradiction|]. assert (In 0%nat (concat C)) by (apply Hcov; cbn; lia).
    apply (f_equal (@rev _)) in E. rewrite rev_involutive in E. cbn in E. subst C. destruct H. }
  assert (HCe : C = rev comps ++ [comp]) by (rewrite <- (rev_involutive C), E; reflexivity).
  assert (Hg' : good (map snd n) comp /\ Forall (good (map snd n)) comps).
  { rewrite HCe in Hg. apply Forall_app in Hg as [Hg1 Hg2]. inversion Hg2; subst. split; [assumption|].
    rewrite <- (rev_involutive comps). apply Forall_rev. exact Hg1. }
  destruct Hg' as [Hgc Hgs].
  assert (Hdis : forall k x, In k comps -> In x k -> ~ In x comp).
  { intros k x Hk Hx. rewrite HCe in Hd. clear - Hd Hk Hx. apply in_rev in Hk.
    induction (rev comps) as [|q l IH]; [destruct Hk|]. inversion Hd; subst. destruct Hk as [->|Hk].
    - rewrite Forall_forall in H1. apply (H1 comp); [apply in_or_app; right; left; reflexivity|exact Hx].
    - apply IH; assumption. }
  assert (Hpc : In (s_pop O comp) comp) by (apply HO; destruct Hgc as (r & Hr & _); intros ->; destruct Hr).
  assert (Hclt : forall k, good (map snd n) k -> forall x, In x k -> (x < length n)%nat).
  { intros k (r & _ & H & _) x Hx. specialize (H x Hx). rewrite map_length in H. exact H. }
  destruct (joins_ok O HO comps ld forder n order (s_pop O comp)) as (n' & o' & ld' & E1 & J1 & L1 & D1 & S1 & H1 & V1).
  - apply (Hclt comp Hgc), Hpc.
  - rewrite Forall_forall in *. intros k Hk. split.
    + destruct (Hgs k Hk) as (r & Hr & _). intros ->. destruct Hr.
    + intros x Hx. split; [apply (Hclt k (Hgs k Hk) x Hx)|]. intros ->. apply (Hdis k _ Hk Hx). exact Hpc.
  - exact HJ.
  - exists n', o', ld'. split; [exact E1|]. split; [|split; [exact D1|exact V1]].
    constructor.
    + apply (j_dims _ _ _ _ J1).
    + apply (j_nd _ _ _ _ J1).
    + intros l Hl. apply (j_ord _ _ _ _ J1 l Hl).
    + intros l Hl. apply (j_ford _ _ _ _ J1 l Hl).
    + apply (j_all _ _ _ _ J1).
    + apply connected_of. intros P HP. rewrite L1.
      assert (HPn : even (map snd n) P).
      { intros i j (l & G1 & G2). apply HP. exists l. split; apply S1; assumption. }
      assert (G : forall i, (i < length n)%nat -> P i = P (s_pop O comp)).
      { intros i Hi. specialize (Hcov i Hi). apply in_concat in Hcov as (k & Hk & Hik). rewrite HCe in Hk.
        apply in_app_or in Hk as [Hk|[<-|[]]].
        - apply in_rev in Hk. rewrite Forall_forall in Hgs, H1. pose proof (H1 k Hk) as Hs. apply HP in Hs.
          destruct (Hgs k Hk) as (r & Hr & _ & Hmin). rewrite Hs.
          rewrite (Hmin P HPn i Hik). symmetry. apply (Hmin P HPn). apply HO. intros ->. destruct Hr.
        - destruct Hgc as (r & Hr & _ & Hmin). rewrite (Hmin P HPn i Hik). symmetry. apply (Hmin P HPn), Hpc. }
      intros i j Hi Hj. rewrite (G i Hi), (G j Hj). reflexivity.
    + intros ->. destruct n; [contradiction|discriminate L1].
Qed.

(** * The final permutation *)
Lemma index_of_Z x l : NoDup l -> forall k, nth_error l k = Some x -> index_of Z.eqb x l = Some k.
Proof.
  induction l as [|y l IH]; intros HN [|k] H; try discriminate H.
  - injection H as ->. cbn. rewrite Z.eqb_refl. reflexivity.
  - inversion HN; subst. cbn. destruct (Z.eqb_spec x y) as [->|].
    + exfalso. apply H2. apply nth_error_In with k. exact H.
    + rewrite (IH H3 k H). reflexivity.
Qed.

Lemma permute_ok ld (A : tens R) v forder : tsh A = map ld v -> NoDup v -> Permutation v forder ->
  exists T, permute_final A v forder = Ok T /\ tsh T = map ld forder /\
    forall idx, length idx = length forder -> te T idx = te A (map (assign forder idx) v).
Proof.
  intros Hd HN HP.
  assert (HNf : NoDup forder) by (apply (Permutation_NoDup HP HN)).
  set (pos := fun i => match index_of Z.eqb i v with Some k => k | None => 0%nat end).
  assert (Hpos : forall i, In i forder -> index_of Z.eqb i v = Some (pos i) /\ nth_error v (pos i) = Some i).
  { intros i Hi. apply (Permutation_in i (Permutation_sym HP)) in Hi. apply In_nth_error in Hi as (k & Hk).
    unfold pos. rewrite (index_of_Z i v HN k Hk). auto. }
  assert (Hm : mapM (fun i => match index_of Z.eqb i v with Some k => Ok k | None => Err ValueError end) forder = Ok (map pos forder)).
  { clear HP HNf. induction forder as [|f fs IH]; [reflexivity|]. cbn [mapM].
    rewrite (proj1 (Hpos f (or_introl eq_refl))). cbn [bind].
    rewrite IH by (intros i Hi; apply Hpos; right; exact Hi). reflexivity. }
  unfold permute_final. rewrite Hm. cbn [bind].
  assert (HL : length (tsh A) = length v) by (rewrite Hd; apply map_length).
  assert (Hlf : length forder = length v) by (symmetry; apply Permutation_length, HP).
  assert (Hin : forall a, (a < length v)%nat -> exists k i, nth_error v a = Some i /\ nth_error forder k = Some i /\ pos i = a
                  /\ index_of Nat.eqb a (map pos forder) = Some k).
  { intros a Ha. destruct (nth_error v a) as [i|] eqn:Ei; [|apply nth_error_None in Ei; lia].
    assert (Hi : In i forder) by (apply (Permutation_in i HP), nth_error_In with a; exact Ei).
    assert (Hpi : pos i = a).
    { unfold pos. rewrite (index_of_Z i v HN a Ei). reflexivity. }
    destruct (index_of Nat.eqb a (map pos forder)) as [k|] eqn:Ek.
    - exists k, i. split; [reflexivity|]. split; [|auto]. apply index_of_nat in Ek.
      rewrite nth_error_map in Ek. destruct (nth_error forder k) as [j|] eqn:Ej; [|discriminate]. injection Ek as Ek.
      destruct (Hpos j (nth_error_In _ _ Ej)) as [_ Hj]. rewrite Ek in Hj. congruence.
    - exfalso. apply index_of_none, nmem_nIn in Ek. apply Ek. apply in_map_iff. exists i. auto. }
  assert (Hcond : Nat.eqb (length (map pos forder)) (length (tsh A)) && forallb (fun a => nmem a (map pos forder)) (seq 0 (length (tsh A))) = true).
  { rewrite map_length, HL, Hlf, Nat.eqb_refl. cbn [andb]. apply forallb_forall. intros a Ha. apply in_seq in Ha.
    destruct (Hin a ltac:(lia)) as (k & i & _ & Hk & Hp & _). apply nmem_In, in_map_iff. exists i. split; [exact Hp|].
    apply nth_error_In with k. exact Hk. }
  rewrite Hcond. eexists. split; [reflexivity|]. cbn [tsh te]. split.
  - rewrite map_map. apply map_ext_in. intros i Hi. rewrite Hd. destruct (Hpos i Hi) as [_ Hi'].
    apply nth_error_nth. rewrite nth_error_map, Hi'. reflexivity.
  - intros idx Hidx. f_equal. rewrite HL. apply nth_ext with (d := 0%nat) (d' := 0%nat); [rewrite !map_length, seq_length; reflexivity|].
    rewrite map_length, seq_length. intros a Ha.
    destruct (Hin a Ha) as (k & i & Hv & Hk & Hp & Hx).
    transitivity (nth k idx 0%nat).
    + apply nth_error_nth. rewrite nth_error_map. rewrite (nth_error_nth' (seq 0 (length v)) 0%nat) by (rewrite seq_length; exact Ha).
      rewrite seq_nth by exact Ha. cbn. rewrite Hx. reflexivity.
    + symmetry. apply nth_error_nth. rewrite nth_error_map, Hv. cbn. f_equal.
      pose proof (assign_map forder idx HNf Hidx) as Ha'.
      assert (E : nth_error (map (assign forder idx) forder) k = Some (assign forder idx i)) by (rewrite nth_error_map, Hk; reflexivity).
      rewrite Ha' in E. symmetry. apply nth_error_nth, E.
Qed.

(** * The whole function *)
Lemma labels_combine (AA : list (tens R)) v : length AA = length v -> labels (combine AA v) = concat v.
Proof.
  revert v. induction AA as [|A AA IH]; intros [|w v] H; try discriminate H; [reflexivity|].
  cbn. rewrite <- IH by (injection H as H; exact H). reflexivity.
Qed.

Lemma wf_jinv ld (AA : list (tens R)) v order forder : well_formed ld AA v order forder ->
  length AA = length v /\ combine AA v <> [] /\ jinv ld forder (combine AA v) order.
Proof.
  intros (H1 & H2 & H3 & H4 & H5 & H6 & H7). assert (HL : length AA = length v) by (clear - H2; induction H2; cbn; congruence).
  split; [exact HL|]. split.
  - destruct AA, v; try discriminate; contradiction.
  - constructor; rewrite ?labels_combine by exact HL; auto.
    clear - H2. induction H2; cbn; constructor; auto.
Qed.

Lemma ncon_ok O ld (AA : list (tens R)) v order forder : setio_ok O -> well_formed ld AA v order forder ->
  exists T, ncon O AA v (Some order) (Some forder) false = Ok T /\ tsh T = map ld forder /\
    forall idx, length idx = length forder -> te T idx = esum ld order (tprod AA v) (assign forder idx).
Proof.
  intros HO Hwf. destruct (wf_jinv ld AA v order forder Hwf) as (HL & Hne & HJ).
  unfold ncon. destruct v as [|w v]; [destruct Hwf as [H _]; contradiction|]. cbn [bind].
  rewrite HL, Nat.eqb_refl. cbn [negb].
  destruct (connect_ok O ld forder _ order HO Hne HJ) as (n' & o' & ld' & E1 & I1 & D1 & V1). rewrite E1. cbn [bind fst snd].
  destruct (loop_ok O ld' forder HO (length o') n' o' (le_n _) I1) as (T & u & E2 & S2 & C2 & V2). rewrite E2. cbn [bind].
  destruct Hwf as (_ & _ & _ & HNf & _).
  assert (HNu : NoDup u).
  { apply (NoDup_count_occ Z.eq_dec). intros l. rewrite C2. destruct (zmem l forder); lia. }
  assert (HPu : Permutation u forder).
  { apply NoDup_Permutation; [exact HNu|exact HNf|]. intros l. rewrite (count_occ_In Z.eq_dec), C2.
    destruct (zmem l forder) eqn:E; [apply zmem_In in E|apply zmem_nIn in E]; split; intros H; auto; try lia; contradiction. }
  destruct (permute_ok ld' T u forder S2 HNu HPu) as (T' & E3 & S3 & V3). exists T'. split; [exact E3|]. split.
  - rewrite S3. apply map_ext_in. exact D1.
  - intros idx Hidx. rewrite V3 by exact Hidx. rewrite V2, V1. apply esum_ext. intros e. reflexivity.
Qed.

End Connect.
