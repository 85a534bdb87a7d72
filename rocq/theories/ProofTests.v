(** Proofs about the predicates of tests.py. *)
From Verif Require Import Alg ModelMPS SpecMPS ModelTests SpecTests.

Section P.
Context {R : sring}.
Local Open Scope sr_scope.
Add Ring Rr : (s_th R).
Variable V : absval R.
Hypothesis HV : absval_ok V.

Lemma avlt_false a b : avlt V a b = false <-> avle V b a = true.
Proof. unfold avlt. destruct (avle V b a); cbn; split; congruence. Qed.
Lemma avle_lt a b c : avle V a b = true -> avlt V b c = true -> avlt V a c = true.
Proof.
  destruct HV as (_ & Ht & _). unfold avlt. intros H1 H2. destruct (avle V c a) eqn:E; [|reflexivity]. cbn. rewrite (Ht c a b E H1) in H2. discriminate.
Qed.
Lemma avlt_le a b : avlt V a b = true -> avle V a b = true.
Proof. destruct HV as (_ & _ & To & _). unfold avlt. destruct (To a b) as [->|E]; [reflexivity|]. rewrite E. discriminate. Qed.

Lemma avsum_nonneg n f : (forall i, (i < n)%nat -> avle V (av0 V) (f i) = true) -> avle V (av0 V) (avsum V n f) = true.
Proof.
  destruct HV as (Hr & Ht & _ & Ha & _). induction n as [|n IH]; intros H; cbn [avsum]; [apply Hr|].
  eapply Ht; [apply IH; intros i Hi; apply H; lia|]. apply Ha, H. lia.
Qed.
Lemma avsum_member n f : (forall i, (i < n)%nat -> avle V (av0 V) (f i) = true) -> forall i, (i < n)%nat -> avle V (f i) (avsum V n f) = true.
Proof.
  destruct HV as (Hr & Ht & _ & Ha & Hb & _). induction n as [|n IH]; intros H i Hi; [lia|]. cbn [avsum].
  destruct (Nat.eq_dec i n) as [->|Hn].
  - apply Hb. apply avsum_nonneg. intros j Hj. apply H. lia.
  - eapply Ht; [apply IH; [intros j Hj; apply H; lia|lia]|]. apply Ha, H. lia.
Qed.
Lemma avsum_zero n f : (forall i, (i < n)%nat -> f i = av0 V) -> avsum V n f = av0 V.
Proof.
  destruct HV as (_ & _ & _ & _ & _ & _ & H0 & _). induction n as [|n IH]; intros H; cbn [avsum]; [reflexivity|].
  rewrite IH by (intros; apply H; lia). rewrite H by lia. exact H0.
Qed.

Lemma clip_nonneg z v : avle V (av0 V) v = true -> avle V (av0 V) (clip_av V z v) = true.
Proof. intros H. unfold clip_av. destruct (avlt V v z); [apply HV|exact H]. Qed.

(** the test of one matrix *)
Lemma close_sound z c (G : mat R) : mr G = mc G -> avle V z (avabs V 1) = true -> avlt V c (avabs V 1) = true ->
  avle V (close_to_id V z (clip_mat V z G)) c = true ->
  forall i j, (i < mr G)%nat -> (j < mr G)%nat -> avlt V (avabs V (me G i j - dlt i j)) z = true \/ avle V (avabs V (me G i j - dlt i j)) c = true.
Proof.
  intros Hsq Hz Hc H i j Hi Hj. pose proof HV as (Hr & Ht & To & Ha & Hb & _ & _ & H0 & Hn & Ho & Htri).
  unfold close_to_id in H. cbn [clip_mat mr mc me] in H.
  set (e := fun i j => clip_av V z (avabs V (dlt i j - (if avlt V (avabs V (me G i j)) z then 0 else me G i j)))) in H.
  assert (En : forall i j, avle V (av0 V) (e i j) = true) by (intros; apply clip_nonneg, Hn).
  assert (Ee : avle V (e i j) c = true).
  { eapply Ht; [|exact H]. eapply Ht; [apply (avsum_member (mc G) (e i)); [intros; apply En|lia]|].
    apply (avsum_member (mr G) (fun i => avsum V (mc G) (e i))); [|lia]. intros k Hk. apply avsum_nonneg. intros; apply En. }
  assert (Sym : forall x y : R, avabs V (x - y) = avabs V (y - x)) by (intros x y; rewrite <- Ho; f_equal; ring).
  rewrite Sym. unfold e in Ee. destruct (avlt V (avabs V (me G i j)) z) eqn:E1.
  - unfold dlt in *. destruct (Nat.eqb i j).
    + exfalso. replace (1 - 0) with (1 : R) in Ee by ring. unfold clip_av in Ee. rewrite (proj2 (avlt_false _ _) Hz) in Ee.
      unfold avlt in Hc. rewrite Ee in Hc. discriminate.
    + left. replace (0 - me G i j) with (- me G i j) by ring. now rewrite Ho.
  - unfold clip_av in Ee. destruct (avlt V (avabs V (dlt i j - me G i j)) z) eqn:E2; [now left|now right].
Qed.

Lemma close_complete z c (G : mat R) : mr G = mc G -> avle V (avadd V z z) (avabs V 1) = true -> avle V (av0 V) c = true ->
  (forall i j, (i < mr G)%nat -> (j < mr G)%nat -> avlt V (avabs V (me G i j - dlt i j)) z = true) ->
  avle V (close_to_id V z (clip_mat V z G)) c = true.
Proof.
  intros Hsq Hz Hc H. pose proof HV as (Hr & Ht & To & Ha & Hb & Hlt & _ & H0 & Hn & Ho & Htri).
  assert (Sym : forall x y : R, avabs V (x - y) = avabs V (y - x)) by (intros x y; rewrite <- Ho; f_equal; ring).
  unfold close_to_id. cbn [clip_mat mr mc me]. rewrite avsum_zero; [exact Hc|]. intros i Hi. apply avsum_zero. intros j Hj.
  rewrite <- Hsq in Hj. specialize (H i j Hi Hj). unfold clip_av. rewrite Sym in H.
  destruct (avlt V (avabs V (me G i j)) z) eqn:E1.
  - unfold dlt in *. destruct (Nat.eqb i j).
    + exfalso. specialize (Hlt _ _ _ _ H E1).
      assert (L1 : avle V (avabs V 1) (avadd V (avabs V (1 - me G i j)) (avabs V (me G i j))) = true).
      { eapply Ht; [|apply Htri]. replace (1 - me G i j + me G i j) with (1 : R) by ring. apply Hr. }
      pose proof (Ht _ _ _ Hz L1) as L2. unfold avlt in Hlt. rewrite L2 in Hlt. discriminate.
    + replace (0 - 0) with (0 : R) by ring. rewrite H0. destruct (avlt V (av0 V) z); reflexivity.
  - now rewrite H.
Qed.

Lemma right_sound z c mats : avle V z (avabs V 1) = true -> avlt V c (avabs V 1) = true -> is_right_canonical V c z mats = true ->
  forall A i j, In A mats -> (i < dl A)%nat -> (j < dl A)%nat ->
    avlt V (avabs V (right_defect A i j)) z = true \/ avle V (avabs V (right_defect A i j)) c = true.
Proof.
  intros Hz Hc H A i j HA Hi Hj. unfold is_right_canonical in H. rewrite forallb_forall in H.
  exact (close_sound z c (gram_right A) eq_refl Hz Hc (H A HA) i j Hi Hj).
Qed.
Lemma right_complete z c mats : avle V (avadd V z z) (avabs V 1) = true -> avle V (av0 V) c = true ->
  (forall A i j, In A mats -> (i < dl A)%nat -> (j < dl A)%nat -> avlt V (avabs V (right_defect A i j)) z = true) ->
  is_right_canonical V c z mats = true.
Proof.
  intros Hz Hc H. unfold is_right_canonical. apply forallb_forall. intros A HA.
  apply (close_complete z c (gram_right A) eq_refl Hz Hc). intros i j Hi Hj. exact (H A i j HA Hi Hj).
Qed.
Lemma left_sound z c mats : avle V z (avabs V 1) = true -> avlt V c (avabs V 1) = true -> is_left_canonical V c z mats = true ->
  forall A i j, In A mats -> (i < dr A)%nat -> (j < dr A)%nat ->
    avlt V (avabs V (left_defect A i j)) z = true \/ avle V (avabs V (left_defect A i j)) c = true.
Proof.
  intros Hz Hc H A i j HA Hi Hj. unfold is_left_canonical in H. rewrite forallb_forall in H.
  exact (close_sound z c (gram_left A) eq_refl Hz Hc (H A HA) i j Hi Hj).
Qed.
Lemma left_complete z c mats : avle V (avadd V z z) (avabs V 1) = true -> avle V (av0 V) c = true ->
  (forall A i j, In A mats -> (i < dr A)%nat -> (j < dr A)%nat -> avlt V (avabs V (left_defect A i j)) z = true) ->
  is_left_canonical V c z mats = true.
Proof.
  intros Hz Hc H. unfold is_left_canonical. apply forallb_forall. intros A HA.
  apply (close_complete z c (gram_left A) eq_refl Hz Hc). intros i j Hi Hj. exact (H A i j HA Hi Hj).
Qed.
End P.

Section E.
Context {R : sring}.
Local Open Scope sr_scope.
Add Ring Rr2 : (s_th R).
Variable close : R -> R -> bool.

Lemma forallb_seq2 n m (f : nat -> nat -> bool) :
  forallb (fun i => forallb (fun j => f i j) (seq 0 m)) (seq 0 n) = true <-> (forall i j, (i < n)%nat -> (j < m)%nat -> f i j = true).
Proof.
  rewrite forallb_forall. split.
  - intros H i j Hi Hj. assert (Hin : In i (seq 0 n)) by (apply in_seq; lia). specialize (H i Hin). rewrite forallb_forall in H. apply H, in_seq. lia.
  - intros H i Hi. apply forallb_forall. intros j Hj. apply in_seq in Hi, Hj. apply H; lia.
Qed.

(** the comparison of neighbouring environments *)
Lemma compare_ok (Ls Xs : list (mat R)) : (forall i l x, nth_error Ls i = Some l -> nth_error Xs i = Some x -> mr l = mr x /\ mc l = mc x) ->
  exists cl, mapM (fun lx => allclose_mat close (fst lx) (snd lx)) (combine Ls Xs) = Ok cl /\
    (forallb (fun b => b) cl = true <-> forall i l x, nth_error Ls i = Some l -> nth_error Xs i = Some x ->
       forall a b, (a < mr l)%nat -> (b < mc l)%nat -> close (me l a b) (me x a b) = true).
Proof.
  revert Xs. induction Ls as [|l Ls IH]; intros Xs H.
  - exists []. split; [reflexivity|]. split; [intros _ [|]; discriminate|reflexivity].
  - destruct Xs as [|x Xs].
    + exists []. split; [reflexivity|]. split; [intros _ [|] ? ?; discriminate|reflexivity].
    + destruct (IH Xs) as (cl & E & Hcl). { intros i l' x' Hl Hx. exact (H (S i) l' x' Hl Hx). }
      destruct (H 0%nat l x eq_refl eq_refl) as [Hr Hc]. cbn [combine mapM fst snd]. unfold allclose_mat at 1. rewrite Hr, Hc, !Nat.eqb_refl. cbn [andb bind].
      rewrite E. cbn [bind]. eexists. split; [reflexivity|]. cbn [forallb]. rewrite andb_true_iff, Hcl, forallb_seq2. split.
      * intros [H1 H2] [|i] l' x' Hl Hx.
        -- cbn in Hl, Hx. injection Hl as <-. injection Hx as <-. intros a b Ha Hb. apply H1; [now rewrite <- Hr|now rewrite <- Hc].
        -- exact (H2 i l' x' Hl Hx).
      * intros G. split; [intros a b Ha Hb; apply (G 0%nat l x eq_refl eq_refl); [now rewrite Hr|now rewrite Hc]|]. intros i l' x' Hl Hx. exact (G (S i) l' x' Hl Hx).
Qed.

Lemma mapM_nth {A B} (f : A -> res B) l : (forall x, In x l -> exists y, f x = Ok y) ->
  exists ys, mapM f l = Ok ys /\ length ys = length l /\ forall i x y, nth_error l i = Some x -> nth_error ys i = Some y -> f x = Ok y.
Proof.
  induction l as [|x l IH]; intros H.
  - exists []. repeat split. intros [|]; discriminate.
  - destruct (H x (or_introl eq_refl)) as [y Hy]. destruct IH as (ys & E & Hl & Hn). { intros z Hz. apply H. now right. }
    exists (y :: ys). cbn [mapM]. rewrite Hy. cbn [bind]. rewrite E. cbn [bind]. split; [reflexivity|]. split; [cbn; congruence|].
    intros [|i] a b Ha Hb; cbn in Ha, Hb; [congruence|]. exact (Hn i a b Ha Hb).
Qed.

Lemma nth_removelast {A} (l : list A) i : nth_error (removelast l) i = if Nat.ltb (S i) (length l) then nth_error l i else None.
Proof.
  revert i. induction l as [|x l IH]; intros i; [now destruct i|]. destruct l as [|y l]; [now destruct i|].
  change (removelast (x :: y :: l)) with (x :: removelast (y :: l)). destruct i as [|i]; [reflexivity|]. cbn [nth_error]. rewrite IH. reflexivity.
Qed.
Lemma nth_tl {A} (l : list A) i : nth_error (tl l) i = nth_error l (S i).
Proof. destruct l; [now destruct i|reflexivity]. Qed.
Lemma nth_combine {A B} (l : list A) (m : list B) i x y : nth_error l i = Some x -> nth_error m i = Some y -> nth_error (combine l m) i = Some (x, y).
Proof.
  revert m i. induction l as [|a l IH]; intros m i Hx Hy; [now destruct i|]. destruct m as [|b m]; [now destruct i|].
  destruct i as [|i]; cbn in *; [congruence|]. now apply IH.
Qed.
Lemma nth_combine_inv {A B} (l : list A) (m : list B) i x y : nth_error (combine l m) i = Some (x, y) -> nth_error l i = Some x /\ nth_error m i = Some y.
Proof.
  revert m i. induction l as [|a l IH]; intros m i H; [now destruct i|]. destruct m as [|b m]; [now destruct i|].
  destruct i as [|i]; cbn in *; [injection H as -> ->; now split|]. now apply IH.
Qed.

Lemma push_right_ok (A : site R) L : mr L = dl A -> mc L = dl A -> exists M, push_right (A, L) = Ok M /\ mr M = dr A /\ mc M = dr A /\
  forall i j, me M i j = env_right A L i j.
Proof.
  intros Hr Hc. unfold push_right. rewrite Hr, Hc, !Nat.eqb_refl. cbn [andb]. eexists. split; [reflexivity|]. split; [reflexivity|]. split; [reflexivity|].
  intros i j. cbn [me]. unfold env_right. apply sum_ext. intros s _. rewrite sum_swap. apply sum_ext. intros l _. rewrite <- sum_mul_r. reflexivity.
Qed.
Lemma push_left_ok (A : site R) L : mr L = dr A -> mc L = dr A -> exists M, push_left (A, L) = Ok M /\ mr M = dl A /\ mc M = dl A /\
  forall i j, me M i j = env_left A L i j.
Proof.
  intros Hr Hc. unfold push_left. rewrite Hr, Hc, !Nat.eqb_refl. cbn [andb]. eexists. split; [reflexivity|]. split; [reflexivity|]. split; [reflexivity|].
  intros i j. cbn [me]. unfold env_left. apply sum_ext. intros s _. rewrite sum_swap. apply sum_ext. intros l _. rewrite <- sum_mul_r. reflexivity.
Qed.

Lemma right_env_ok (mats : list (site R)) sings :
  (forall i A L, nth_error mats i = Some A -> nth_error sings i = Some L -> mr L = dl A /\ mc L = dl A) ->
  (forall i A L, nth_error mats i = Some A -> nth_error sings (S i) = Some L -> mr L = dr A /\ mc L = dr A) ->
  exists b, is_right_env_canonical close mats sings = Ok b /\
    (b = true <-> forall i A L L', (S i < length mats)%nat -> nth_error mats i = Some A -> nth_error sings i = Some L -> nth_error sings (S i) = Some L' ->
       forall a a', (a < dr A)%nat -> (a' < dr A)%nat -> close (env_right A L a a') (me L' a a') = true).
Proof.
  intros H1 H2. unfold is_right_env_canonical.
  destruct (mapM_nth push_right (combine mats sings)) as (Ls & E & Hl & Hn).
  { intros [A L] Hi. apply In_nth_error in Hi. destruct Hi as [i Hi]. apply nth_combine_inv in Hi. destruct Hi as [HA HL].
    destruct (push_right_ok A L) as (M & EM & _); [now apply (H1 i)|now apply (H1 i)|now exists M]. }
  rewrite E. cbn [bind].
  assert (K : forall i l x, nth_error (removelast Ls) i = Some l -> nth_error (tl sings) i = Some x ->
    exists A L, (S i < length mats)%nat /\ nth_error mats i = Some A /\ nth_error sings i = Some L /\ nth_error sings (S i) = Some x /\ push_right (A, L) = Ok l).
  { intros i l x Hi Hx. rewrite nth_removelast in Hi. destruct (Nat.ltb_spec (S i) (length Ls)) as [Hlt|]; [|discriminate].
    destruct (nth_error (combine mats sings) i) as [[A L]|] eqn:EC; [|apply nth_error_None in EC; lia].
    pose proof (nth_combine_inv _ _ _ _ _ EC) as [HA HL]. exists A, L. rewrite nth_tl in Hx.
    rewrite Hl, combine_length in Hlt. repeat split; try assumption; [lia|]. exact (Hn i (A, L) l EC Hi). }
  destruct (compare_ok (removelast Ls) (tl sings)) as (cl & Ec & Hcl).
  { intros i l x Hi Hx. destruct (K i l x Hi Hx) as (A & L & _ & HA & HL & HL' & EM).
    destruct (push_right_ok A L) as (M & EM' & Mr & Mc & _); [now apply (H1 i)|now apply (H1 i)|]. rewrite EM in EM'. injection EM' as <-.
    destruct (H2 i A x HA HL') as [-> ->]. now split. }
  rewrite Ec. cbn [bind]. eexists. split; [reflexivity|]. rewrite Hcl. split.
  - intros G i A L L' Hi HA HL HL' a a' Ha Ha'.
    pose proof (nth_combine mats sings i A L HA HL) as EC.
    destruct (push_right_ok A L) as (M & EM & Mr & Mc & Me); [now apply (H1 i)|now apply (H1 i)|].
    assert (HM : nth_error Ls i = Some M).
    { destruct (nth_error Ls i) as [M'|] eqn:E'; [|apply nth_error_None in E'; rewrite Hl, combine_length in E'; assert (nth_error mats i <> None) by congruence; assert (nth_error sings i <> None) by congruence; apply nth_error_Some in H, H0; lia].
      pose proof (Hn i (A, L) M' EC E') as E2. congruence. }
    assert (HR : nth_error (removelast Ls) i = Some M).
    { rewrite nth_removelast, Hl, combine_length. assert (nth_error sings (S i) <> None) by congruence. apply nth_error_Some in H.
      destruct (Nat.ltb_spec (S i) (Nat.min (length mats) (length sings))); [exact HM|lia]. }
    rewrite <- Me. apply (G i M L' HR); [now rewrite nth_tl|lia|lia].
  - intros G i l x Hi Hx a b Ha Hb. destruct (K i l x Hi Hx) as (A & L & Hlt & HA & HL & HL' & EM).
    destruct (push_right_ok A L) as (M & EM' & Mr & Mc & Me); [now apply (H1 i)|now apply (H1 i)|]. rewrite EM in EM'. injection EM' as <-.
    rewrite Me. apply (G i A L x); try assumption; lia.
Qed.

Lemma left_env_ok (mats : list (site R)) sings :
  (forall i A L, nth_error mats i = Some A -> nth_error sings i = Some L -> mr L = dl A /\ mc L = dl A) ->
  (forall i A L, nth_error mats i = Some A -> nth_error sings (S i) = Some L -> mr L = dr A /\ mc L = dr A) ->
  exists b, is_left_env_canonical close mats sings = Ok b /\
    (b = true <-> forall i A L L', (S i < length mats)%nat -> (S (S i) < length sings)%nat ->
       nth_error mats i = Some A -> nth_error sings i = Some L -> nth_error sings (S i) = Some L' ->
       forall a a', (a < dl A)%nat -> (a' < dl A)%nat -> close (env_left A L' a a') (me L a a') = true).
Proof.
  intros H1 H2. unfold is_left_env_canonical.
  destruct (mapM_nth push_left (combine mats (tl sings))) as (Ls & E & Hl & Hn).
  { intros [A L] Hi. apply In_nth_error in Hi. destruct Hi as [i Hi]. apply nth_combine_inv in Hi. destruct Hi as [HA HL]. rewrite nth_tl in HL.
    destruct (push_left_ok A L) as (M & EM & _); [now apply (H2 i)|now apply (H2 i)|now exists M]. }
  rewrite E. cbn [bind].
  assert (Ltl : length (tl sings) = (length sings - 1)%nat) by (destruct sings; cbn; lia).
  assert (K : forall i l x, nth_error (removelast Ls) i = Some l -> nth_error (removelast sings) i = Some x ->
    exists A L', (S i < length mats)%nat /\ (S (S i) < length sings)%nat /\ nth_error mats i = Some A /\ nth_error sings i = Some x /\ nth_error sings (S i) = Some L' /\ push_left (A, L') = Ok l).
  { intros i l x Hi Hx. rewrite nth_removelast in Hi, Hx. destruct (Nat.ltb_spec (S i) (length Ls)) as [Hlt|]; [|discriminate].
    destruct (Nat.ltb_spec (S i) (length sings)) as [Hlt2|]; [|discriminate].
    destruct (nth_error (combine mats (tl sings)) i) as [[A L]|] eqn:EC; [|apply nth_error_None in EC; lia].
    pose proof (nth_combine_inv _ _ _ _ _ EC) as [HA HL]. exists A, L. rewrite nth_tl in HL.
    rewrite Hl, combine_length in Hlt. repeat split; try assumption; [lia|lia|]. exact (Hn i (A, L) l EC Hi). }
  destruct (compare_ok (removelast Ls) (removelast sings)) as (cl & Ec & Hcl).
  { intros i l x Hi Hx. destruct (K i l x Hi Hx) as (A & L & _ & _ & HA & HL & HL' & EM).
    destruct (push_left_ok A L) as (M & EM' & Mr & Mc & _); [now apply (H2 i)|now apply (H2 i)|]. rewrite EM in EM'. injection EM' as <-.
    destruct (H1 i A x HA HL) as [-> ->]. now split. }
  rewrite Ec. cbn [bind]. eexists. split; [reflexivity|]. rewrite Hcl. split.
  - intros G i A L L' Hi Hi2 HA HL HL' a a' Ha Ha'.
    assert (HT : nth_error (tl sings) i = Some L') by (now rewrite nth_tl).
    pose proof (nth_combine mats (tl sings) i A L' HA HT) as EC.
    destruct (push_left_ok A L') as (M & EM & Mr & Mc & Me); [now apply (H2 i)|now apply (H2 i)|].
    assert (HM : nth_error Ls i = Some M).
    { destruct (nth_error Ls i) as [M'|] eqn:E'; [|apply nth_error_None in E'; rewrite Hl, combine_length in E'; lia].
      pose proof (Hn i (A, L') M' EC E') as E2. congruence. }
    assert (HR : nth_error (removelast Ls) i = Some M).
    { rewrite nth_removelast, Hl, combine_length. destruct (Nat.ltb_spec (S i) (Nat.min (length mats) (length (tl sings)))); [exact HM|lia]. }
    assert (HS : nth_error (removelast sings) i = Some L).
    { rewrite nth_removelast. destruct (Nat.ltb_spec (S i) (length sings)); [exact HL|lia]. }
    rewrite <- Me. apply (G i M L HR HS); lia.
  - intros G i l x Hi Hx a b Ha Hb. destruct (K i l x Hi Hx) as (A & L & Hlt & Hlt2 & HA & HL & HL' & EM).
    destruct (push_left_ok A L) as (M & EM' & Mr & Mc & Me); [now apply (H2 i)|now apply (H2 i)|]. rewrite EM in EM'. injection EM' as <-.
    rewrite Me. apply (G i A x L); try assumption; lia.
Qed.

(** * Ranks and traces *)
Lemma filter_full {A} (f : A -> bool) l : length (filter f l) <= length l /\ (length (filter f l) = length l <-> forallb f l = true).
Proof.
  induction l as [|x l [IH1 IH2]]; cbn; [split; [lia|tauto]|]. destruct (f x); cbn [length andb]; split; [lia| |lia|].
  - rewrite <- IH2. split; intros; lia.
  - split; [intros; lia|discriminate].
Qed.

Lemma full_rank_ok iszero (sings : list (mat R)) : (forall x, iszero x = true <-> x = 0) ->
  is_full_rank iszero sings = true <-> (forall M i, In M sings -> (i < Nat.min (mr M) (mc M))%nat -> me M i i <> 0).
Proof.
  intros Hz. unfold is_full_rank. rewrite Nat.eqb_eq. induction sings as [|M sings IH]; [cbn; split; [intros _ ? ? []|reflexivity]|].
  cbn [map list_sum fold_right]. fold (list_sum (map (fun M => let n := Nat.min (mr M) (mc M) in (n - length (filter (fun i => negb (iszero (me M i i))) (seq 0 n)))%nat) sings)).
  set (n := Nat.min (mr M) (mc M)). cbv zeta. destruct (filter_full (fun i => negb (iszero (me M i i))) (seq 0 n)) as [Hle Hiff]. rewrite seq_length in Hle, Hiff.
  split.
  - intros H M' i [<-|Hi] Hlt.
    + assert (E : length (filter (fun i => negb (iszero (me M i i))) (seq 0 n)) = n) by lia. apply Hiff in E. rewrite forallb_forall in E.
      intros E0. apply Hz in E0. assert (Hin : In i (seq 0 n)) by (apply in_seq; unfold n; lia). specialize (E i Hin). rewrite E0 in E. discriminate.
    + apply IH; try assumption. lia.
  - intros H. rewrite (proj2 IH) by (intros M' i Hi; apply H; now right).
    assert (E : forallb (fun i => negb (iszero (me M i i))) (seq 0 n) = true).
    { apply forallb_forall. intros i Hi. apply in_seq in Hi. destruct (iszero (me M i i)) eqn:E; [|reflexivity]. apply Hz in E.
      exfalso. apply (H M i (or_introl eq_refl)); [unfold n in Hi; lia|exact E]. }
    apply Hiff in E. lia.
Qed.

Lemma trace_1_ok (sings : list (mat R)) : (forall x, close x 0 = true <-> x = 0) ->
  has_trace_1 close sings = true <-> (forall M, In M sings -> sum (Nat.min (mr M) (mc M)) (fun i => me M i i) = 1).
Proof.
  intros Hc. unfold has_trace_1. rewrite forallb_forall. split; intros H M HM.
  - specialize (H M HM). apply Hc in H. set (t := sum _ _) in *. transitivity (t - 1 + 1); [ring|]. rewrite H. ring.
  - apply Hc. rewrite (H M HM). ring.
Qed.
End E.
