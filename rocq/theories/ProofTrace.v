(** Partial traces. *)
From Verif Require Import Alg ModelMPS SpecMPS ModelNcon SpecNcon ModelEk ModelTensor SpecTensor ProofNcon ProofEk4 ProofTensor.
From Coq Require Import Permutation.

Local Notation prod_ := (fold_right Nat.mul 1).

Lemma prod_app (a b : list nat) : prod_ (a ++ b) = prod_ a * prod_ b.
Proof. induction a as [|x a IH]; cbn; [lia|]. rewrite IH. lia. Qed.

Lemma prod_perm (a b : list nat) : Permutation a b -> prod_ a = prod_ b.
Proof. induction 1; cbn; lia. Qed.

Lemma position_ravel_gen ds : forall s n, length s = length ds ->
  fold_left (fun n xd => n * snd xd + fst xd) (combine s ds) n = n * prod_ ds + ravel ds s.
Proof.
  induction ds as [|d ds IH]; intros [|x s] n H; try discriminate; cbn; [lia|].
  rewrite IH by (cbn in H; lia). lia.
Qed.
Lemma position_ravel ds s : length s = length ds -> position ds s = ravel ds s.
Proof. intros H. unfold position. rewrite position_ravel_gen by exact H. lia. Qed.

Lemma ravel_app a b : forall s t, length s = length a -> ravel (a ++ b) (s ++ t) = ravel a s * prod_ b + ravel b t.
Proof.
  induction a as [|d a IH]; intros [|x s] t H; try discriminate; cbn [app ravel]; [lia|].
  rewrite IH by (cbn in H; lia). rewrite prod_app. lia.
Qed.

Lemma position_lt ds s : incfg ds s -> position ds s < prod_ ds.
Proof. intros H. rewrite position_ravel by (eapply incfg_length; exact H). apply unravel_ravel, H. Qed.

(** lookup *)
Definition envl (ks vs : list nat) (l : nat) : nat := match index_of Nat.eqb l ks with Some k => nth k vs 0 | None => 0 end.

Lemma index_of_app l ks ks' : index_of Nat.eqb l (ks ++ ks') =
  match index_of Nat.eqb l ks with Some k => Some k | None => option_map (fun k => length ks + k) (index_of Nat.eqb l ks') end.
Proof.
  induction ks as [|x ks IH]; cbn [app index_of length]; [destruct (index_of Nat.eqb l ks'); reflexivity|].
  destruct (Nat.eqb l x); [reflexivity|]. rewrite IH. destruct (index_of Nat.eqb l ks); [reflexivity|].
  destruct (index_of Nat.eqb l ks'); reflexivity.
Qed.

Lemma index_of_lt l ks k : index_of Nat.eqb l ks = Some k -> k < length ks.
Proof. intros H. apply index_of_nat in H. apply nth_error_Some. congruence. Qed.

Lemma index_of_in l ks : In l ks -> index_of Nat.eqb l ks <> None.
Proof. intros H E. apply index_of_none in E. apply nmem_nIn in E. contradiction. Qed.

Lemma envl_in ks vs ks' vs' l : length ks = length vs -> In l ks -> envl (ks ++ ks') (vs ++ vs') l = envl ks vs l.
Proof.
  intros HL Hin. unfold envl. rewrite index_of_app. destruct (index_of Nat.eqb l ks) as [k|] eqn:E; [|destruct (index_of_in l ks Hin E)].
  apply index_of_lt in E. apply app_nth1. lia.
Qed.
Lemma envl_out ks vs ks' vs' l : length ks = length vs -> ~ In l ks -> envl (ks ++ ks') (vs ++ vs') l = envl ks' vs' l.
Proof.
  intros HL Hin. unfold envl. rewrite index_of_app. replace (index_of Nat.eqb l ks) with (@None nat).
  - destruct (index_of Nat.eqb l ks') as [k|]; cbn [option_map]; [|reflexivity]. rewrite app_nth2 by lia. f_equal. lia.
  - symmetry. apply index_of_none, nmem_nIn, Hin.
Qed.
Lemma envl_shift N ks vs i : envl (map (Nat.add N) ks) vs (N + i) = envl ks vs i.
Proof.
  unfold envl. replace (index_of Nat.eqb (N + i) (map (Nat.add N) ks)) with (index_of Nat.eqb i ks); [reflexivity|].
  induction ks as [|x ks IH]; cbn [map index_of]; [reflexivity|].
  replace (Nat.eqb (N + i) (N + x)) with (Nat.eqb i x).
  - destruct (Nat.eqb i x); [reflexivity|]. rewrite IH. reflexivity.
  - destruct (Nat.eqb_spec i x); destruct (Nat.eqb_spec (N + i) (N + x)); auto; lia.
Qed.

Lemma envl_cons_ne a ks v vs i : i <> a -> envl (a :: ks) (v :: vs) i = envl ks vs i.
Proof.
  intros H. unfold envl. cbn [index_of]. destruct (Nat.eqb_spec i a); [contradiction|].
  destruct (index_of Nat.eqb i ks); reflexivity.
Qed.
Lemma envl_cons_eq a ks v vs : envl (a :: ks) (v :: vs) a = v.
Proof. unfold envl. cbn [index_of]. rewrite Nat.eqb_refl. reflexivity. Qed.

Section Mask.
Variable p : nat -> bool.
Let F a n := filter p (seq a n).
Let G a n := filter (fun i => negb (p i)) (seq a n).

Lemma weave_env n : forall a s c, length s = length (F a n) -> length c = length (G a n) ->
  weave (map p (seq a n)) s c = map (fun i => if p i then envl (F a n) s i else envl (G a n) c i) (seq a n).
Proof.
  unfold F, G. induction n as [|n IH]; intros a s c Hs Hc; [reflexivity|]. cbn [seq map filter weave] in *.
  destruct (p a) eqn:Ep; cbn [negb length] in *.
  - destruct s as [|x s]; [discriminate|]. cbn [hd tl]. rewrite envl_cons_eq. f_equal. rewrite IH by (cbn in *; lia). apply map_ext_in.
    intros i Hi. apply in_seq in Hi. destruct (p i); [|reflexivity]. rewrite envl_cons_ne by lia. reflexivity.
  - destruct c as [|x c]; [discriminate|]. cbn [hd tl]. rewrite envl_cons_eq. f_equal. rewrite IH by (cbn in *; lia). apply map_ext_in.
    intros i Hi. apply in_seq in Hi. destruct (p i); [reflexivity|]. rewrite envl_cons_ne by lia. reflexivity.
Qed.

Lemma pick_filter (b : bool) n : forall a (l : list nat), length l = n ->
  pick b (map p (seq a n)) l = map (fun i => nth (i - a) l 0) (filter (fun i => Bool.eqb b (p i)) (seq a n)).
Proof.
  induction n as [|n IH]; intros a l Hl; [reflexivity|]. destruct l as [|x l]; [discriminate|].
  cbn [seq map pick filter]. assert (E : pick b (map p (seq (S a) n)) l = map (fun i => nth (i - a) (x :: l) 0) (filter (fun i => Bool.eqb b (p i)) (seq (S a) n))).
  { rewrite IH by (cbn in Hl; lia). apply map_ext_in. intros i Hi. apply filter_In in Hi as [Hi _]. apply in_seq in Hi.
    replace (i - a) with (S (i - S a)) by lia. reflexivity. }
  destruct (Bool.eqb b (p a)); [|exact E]. cbn [map]. rewrite Nat.sub_diag. cbn [nth]. f_equal. exact E.
Qed.

Lemma incfg_weave (ds : list nat) : forall mask s u, length mask = length ds -> incfg (pick true mask ds) s -> incfg (pick false mask ds) u ->
  incfg ds (weave mask s u).
Proof.
  induction ds as [|d ds IH]; intros [|b mask] s u Hl Hs Hu; try discriminate; [constructor|].
  cbn in Hs, Hu. destruct b; cbn in Hs, Hu |- *.
  - inversion Hs; subst. cbn. constructor; [assumption|]. apply IH; auto.
  - inversion Hu; subst. cbn. constructor; [assumption|]. apply IH; auto.
Qed.
End Mask.

Lemma filter_seq_cut (P : nat -> bool) n m : n <= m -> (forall l, n <= l -> P l = false) -> filter P (seq 0 m) = filter P (seq 0 n).
Proof.
  intros H HP. replace m with (n + (m - n)) by lia. rewrite seq_app, filter_app. cbn [Nat.add].
  replace (filter P (seq n (m - n))) with (@nil nat); [apply app_nil_r|].
  symmetry. assert (Hk : forall k a, n <= a -> filter P (seq a k) = []).
  { induction k as [|k IH]; intros a Ha; [reflexivity|]. cbn. rewrite HP by lia. apply IH. lia. }
  apply Hk. lia.
Qed.

Section Trace.
Context {R : sring}.
Local Open Scope sr_scope.
Add Ring Rr : (s_th R).

Variables keep dims_ : list nat.
Let N := length dims_.
Hypothesis Hk : forall i, In i keep -> (i < N)%nat.
Hypothesis Hnd : NoDup keep.
Hypothesis Hne : keep <> [].
Let p i := existsb (Nat.eqb i) keep.
Let mask := mask_of N keep.
Let Fk := filter p (seq 0 N).
Let Gk := filter (fun i => negb (p i)) (seq 0 N).
Let K := pick true mask dims_.
Let C := pick false mask dims_.
Let labels := seq 0 N ++ idx2 keep N.
Let LD l := if Nat.ltb l N then nth l dims_ 0%nat else nth (l - N) dims_ 0%nat.

Lemma p_in i : p i = true <-> In i keep.
Proof.
  unfold p. rewrite existsb_exists. split; [intros (x & Hx & E); apply Nat.eqb_eq in E; subst; exact Hx|].
  intros H. exists i. split; [exact H|apply Nat.eqb_refl].
Qed.

Lemma mask_p : mask = map p (seq 0 N).
Proof.
  unfold mask, mask_of. apply map_ext. intros i. destruct (in_dec Nat.eq_dec i keep) as [H|H].
  - symmetry. apply p_in, H.
  - destruct (p i) eqn:E; [|reflexivity]. apply p_in in E. contradiction.
Qed.

Lemma K_F : K = map (fun i => nth i dims_ 0%nat) Fk.
Proof.
  unfold K. rewrite mask_p, (pick_filter p true N 0 dims_ eq_refl). unfold Fk.
  assert (E : filter (fun i => Bool.eqb true (p i)) (seq 0 N) = filter p (seq 0 N)) by (apply filter_ext; intros i; destruct (p i); reflexivity).
  rewrite E. apply map_ext. intros i. rewrite Nat.sub_0_r. reflexivity.
Qed.
Lemma C_G : C = map (fun i => nth i dims_ 0%nat) Gk.
Proof.
  unfold C. rewrite mask_p, (pick_filter p false N 0 dims_ eq_refl). unfold Gk.
  assert (E : filter (fun i => Bool.eqb false (p i)) (seq 0 N) = filter (fun i => negb (p i)) (seq 0 N)) by (apply filter_ext; intros i; destruct (p i); reflexivity).
  rewrite E. apply map_ext. intros i. rewrite Nat.sub_0_r. reflexivity.
Qed.

Lemma count_seq l : count_occ Nat.eq_dec (seq 0 N) l = if Nat.ltb l N then 1%nat else 0%nat.
Proof.
  destruct (Nat.ltb_spec l N) as [H|H].
  - apply (proj1 (NoDup_count_occ' Nat.eq_dec (seq 0 N)) (seq_NoDup N 0)). apply in_seq. lia.
  - apply count_occ_not_In. rewrite in_seq. lia.
Qed.

Lemma count_idx2 l : count_occ Nat.eq_dec (idx2 keep N) l =
  if Nat.ltb l N then (if p l then 0%nat else 1%nat) else (if p (l - N) then 1%nat else 0%nat).
Proof.
  assert (ND : NoDup (idx2 keep N)).
  { unfold idx2.
    assert (H : forall a n, (a + n <= N)%nat -> NoDup (map (fun i => if existsb (Nat.eqb i) keep then (N + i)%nat else i) (seq a n))).
    { intros a n. revert a. induction n as [|n IH]; intros a H; cbn [seq map]; constructor; [|apply IH; lia].
      rewrite in_map_iff. intros (i & E & Hi). apply in_seq in Hi. fold (p i) (p a) in E.
      destruct (p i), (p a); lia. }
    apply H. lia. }
  assert (IN : In l (idx2 keep N) <-> (if Nat.ltb l N then p l = false else p (l - N) = true)).
  { unfold idx2. rewrite in_map_iff. split.
    - intros (i & E & Hi). apply in_seq in Hi. fold (p i) in E. destruct (p i) eqn:Ep; subst l.
      + destruct (Nat.ltb_spec (N + i) N); [lia|]. replace (N + i - N)%nat with i by lia. exact Ep.
      + destruct (Nat.ltb_spec i N); [|lia]. exact Ep.
    - destruct (Nat.ltb_spec l N) as [H|H]; intros E.
      + exists l. fold (p l). rewrite E. split; [reflexivity|apply in_seq; lia].
      + exists (l - N)%nat. fold (p (l - N)). rewrite E. split; [lia|]. apply p_in, Hk in E. apply in_seq. lia. }
  rewrite NoDup_count_occ' in ND.
  destruct (in_dec Nat.eq_dec l (idx2 keep N)) as [H|H].
  - rewrite (ND l H). apply IN in H. destruct (Nat.ltb l N); rewrite H; reflexivity.
  - rewrite (proj1 (count_occ_not_In Nat.eq_dec _ _) H). destruct (Nat.ltb l N).
    + destruct (p l); [reflexivity|]. exfalso. apply H, IN. reflexivity.
    + destruct (p (l - N)); [|reflexivity]. exfalso. apply H, IN. reflexivity.
Qed.

Lemma count_labels l : count_occ Nat.eq_dec labels l =
  if Nat.ltb l N then (if p l then 1%nat else 2%nat) else (if p (l - N) then 1%nat else 0%nat).
Proof.
  unfold labels. rewrite count_occ_app, count_seq, count_idx2. destruct (Nat.ltb l N); [destruct (p l); reflexivity|reflexivity].
Qed.

Lemma list_max_ge l (x : nat) : In x l -> (x <= list_max l)%nat.
Proof. intros H. pose proof (proj1 (list_max_le l (list_max l)) (le_n _)) as HF. rewrite Forall_forall in HF. apply HF, H. Qed.

Lemma cut (P : nat -> bool) : (forall l, count_occ Nat.eq_dec labels l = 0%nat -> P l = false) ->
  filter P (seq 0 (S (list_max labels))) = filter P (seq 0 (N + N)).
Proof.
  intros HP.
  assert (H1 : forall l, (S (list_max labels) <= l)%nat -> P l = false).
  { intros l Hl. apply HP, count_occ_not_In. intros Hin. apply list_max_ge in Hin. lia. }
  assert (H2 : forall l, (N + N <= l)%nat -> P l = false).
  { intros l Hl. apply HP. rewrite count_labels. destruct (Nat.ltb_spec l N); [lia|].
    destruct (p (l - N)) eqn:E; [|reflexivity]. apply p_in, Hk in E. lia. }
  destruct (le_lt_dec (S (list_max labels)) (N + N)) as [H|H].
  - symmetry. apply filter_seq_cut; assumption.
  - apply filter_seq_cut; [lia|assumption].
Qed.

Lemma filter_map_comm {A B} (f : A -> B) (P : B -> bool) l : filter P (map f l) = map f (filter (fun x => P (f x)) l).
Proof. induction l as [|x l IH]; cbn; [reflexivity|]. destruct (P (f x)); cbn; congruence. Qed.

Lemma seq_shift_map a n : seq a n = map (Nat.add a) (seq 0 n).
Proof.
  induction n as [|n IH]; [reflexivity|]. rewrite !seq_S, map_app, IH. reflexivity.
Qed.

Lemma out_ok : filter (fun l => Nat.eqb (count_occ Nat.eq_dec labels l) 1) (seq 0 (S (list_max labels))) = Fk ++ map (Nat.add N) Fk.
Proof.
  rewrite cut by (intros l ->; reflexivity). rewrite seq_app, filter_app. cbn [Nat.add]. f_equal.
  - apply filter_ext_in. intros l Hl. apply in_seq in Hl. rewrite count_labels. destruct (Nat.ltb_spec l N); [|lia].
    destruct (p l); reflexivity.
  - rewrite (seq_shift_map N N), filter_map_comm. f_equal. apply filter_ext_in. intros i Hi. apply in_seq in Hi.
    rewrite count_labels. destruct (Nat.ltb_spec (N + i) N); [lia|]. replace (N + i - N)%nat with i by lia. destruct (p i); reflexivity.
Qed.

Lemma rep_ok : filter (fun l => Nat.ltb 1 (count_occ Nat.eq_dec labels l)) (seq 0 (S (list_max labels))) = Gk.
Proof.
  rewrite cut by (intros l ->; reflexivity). rewrite seq_app, filter_app. cbn [Nat.add].
  transitivity (Gk ++ []); [|apply app_nil_r]. f_equal.
  - apply filter_ext_in. intros l Hl. apply in_seq in Hl. rewrite count_labels. destruct (Nat.ltb_spec l N); [|lia].
    destruct (p l); reflexivity.
  - rewrite (seq_shift_map N N), filter_map_comm.
    replace (filter (fun x => Nat.ltb 1 (count_occ Nat.eq_dec labels (N + x)%nat)) (seq 0 N)) with (@nil nat); [reflexivity|].
    symmetry. generalize (seq 0 N). intros l. induction l as [|x l IH]; [reflexivity|]. cbn [filter]. rewrite count_labels.
    destruct (Nat.ltb_spec (N + x) N); [lia|]. destruct (p (N + x - N)); exact IH.
Qed.

(** the environment *)
Lemma env_seq s t c : length s = length Fk -> length t = length Fk -> length c = length Gk ->
  map (envl ((Fk ++ map (Nat.add N) Fk) ++ Gk) ((s ++ t) ++ c)) (seq 0 N) = weave mask s c /\
  map (envl ((Fk ++ map (Nat.add N) Fk) ++ Gk) ((s ++ t) ++ c)) (idx2 keep N) = weave mask t c.
Proof.
  intros Hs Ht Hc. rewrite mask_p, !(weave_env p N 0) by assumption.
  assert (InF : forall i, In i Fk <-> (i < N)%nat /\ p i = true).
  { intros i. unfold Fk. rewrite filter_In, in_seq. intuition lia. }
  assert (InN : forall i, In (N + i)%nat (map (Nat.add N) Fk) <-> In i Fk).
  { intros i. rewrite in_map_iff. split; [intros (j & E & Hj); replace i with j by lia; exact Hj|]. intros H. exists i. auto. }
  assert (NoN : forall i, (i < N)%nat -> ~ In i (map (Nat.add N) Fk)).
  { intros i Hi. rewrite in_map_iff. intros (j & E & Hj). lia. }
  assert (L2 : length (Fk ++ map (Nat.add N) Fk) = length (s ++ t)) by (rewrite !app_length, map_length; lia).
  assert (Ev : forall i, (i < N)%nat -> envl ((Fk ++ map (Nat.add N) Fk) ++ Gk) ((s ++ t) ++ c) i = if p i then envl Fk s i else envl Gk c i).
  { intros i Hi. destruct (p i) eqn:Ep.
    - rewrite envl_in by (auto; apply in_or_app; left; apply InF; auto). apply envl_in; [auto|]. apply InF; auto.
    - apply envl_out; [exact L2|]. intros H. apply in_app_or in H as [H|H].
      + apply InF in H as [_ H]. congruence.
      + exact (NoN i Hi H). }
  split.
  - apply map_ext_in. intros i Hi. apply in_seq in Hi. apply Ev. lia.
  - unfold idx2. rewrite map_map. apply map_ext_in. intros i Hi. apply in_seq in Hi. fold (p i).
    destruct (p i) eqn:Ep; [|rewrite Ev by lia; rewrite Ep; reflexivity].
    rewrite envl_in; [|exact L2|].
    + rewrite envl_out; [apply envl_shift|auto|]. intros H. apply InF in H. lia.
    + apply in_or_app. right. apply InN, InF. split; [lia|exact Ep].
Qed.

(** sizes of the labels *)
Lemma LD_seq : map LD (seq 0 N) = dims_.
Proof.
  apply (nth_ext _ _ 0%nat 0%nat); [rewrite map_length, seq_length; reflexivity|]. intros i Hi. rewrite map_length, seq_length in Hi.
  rewrite (nth_indep _ 0%nat (LD 0)) by (rewrite map_length, seq_length; exact Hi). rewrite map_nth, seq_nth by exact Hi. cbn [Nat.add].
  unfold LD. destruct (Nat.ltb_spec i N); [reflexivity|lia].
Qed.
Lemma LD_idx2 : map LD (idx2 keep N) = dims_.
Proof.
  transitivity (map LD (seq 0 N)); [|apply LD_seq]. unfold idx2. rewrite map_map. apply map_ext_in. intros i Hi. apply in_seq in Hi.
  unfold LD. destruct (existsb (Nat.eqb i) keep); [|reflexivity].
  destruct (Nat.ltb_spec (N + i) N); [lia|]. destruct (Nat.ltb_spec i N); [|lia]. f_equal. lia.
Qed.

Lemma find_leg (legs : list (nat * nat)) l : (forall x, In x legs -> snd x = LD (fst x)) -> In l (map fst legs) ->
  match find (fun x => Nat.eqb (fst x) l) legs with Some x => snd x | None => 0%nat end = LD l.
Proof.
  induction legs as [|x legs IH]; intros H Hin; [contradiction|]. cbn [find]. destruct (Nat.eqb_spec (fst x) l) as [<-|Hx].
  - apply H. left. reflexivity.
  - apply IH; [intros y Hy; apply H; right; exact Hy|]. destruct Hin as [E|Hin]; [contradiction|exact Hin].
Qed.

Lemma combine_LD ls : Forall (fun x => snd x = LD (fst x)) (combine ls (map LD ls)).
Proof. induction ls as [|x ls IH]; cbn; constructor; auto. Qed.
Lemma fst_combine (ls : list nat) : map fst (combine ls (map LD ls)) = ls.
Proof. induction ls as [|x ls IH]; cbn; congruence. Qed.

Lemma einsum_trace (ops : list (tens R * list nat)) : concat (map snd ops) = labels ->
  Forall (fun o => tsh (fst o) = map LD (snd o)) ops ->
  exists T, einsum ops = Ok T /\ tsh T = K ++ K /\
    forall s t, incfg K s -> incfg K t ->
      te T (s ++ t) = sumcfg C (fun c => prodl (map (fun o => te (fst o) (map (envl ((Fk ++ map (Nat.add N) Fk) ++ Gk) ((s ++ t) ++ c)) (snd o))) ops)).
Proof.
  intros HL HF. unfold einsum. rewrite HL, out_ok, rep_ok.
  assert (HD : forall l, In l labels -> label_dim l ops = LD l).
  { intros l Hin. unfold label_dim. apply find_leg.
    - apply Forall_forall. clear HL. induction HF as [|o ops Ho _ IH]; cbn [map concat]; [constructor|].
      apply Forall_app. split; [rewrite Ho; apply combine_LD|exact IH].
    - replace (map fst (concat (map (fun o => combine (snd o) (tsh (fst o))) ops))) with labels; [exact Hin|].
      rewrite <- HL. clear HL. induction HF as [|o ops Ho _ IH]; cbn [map concat]; [reflexivity|].
      rewrite map_app, Ho, fst_combine, IH. reflexivity. }
  assert (InL : forall o l, In o ops -> In l (snd o) -> In l labels).
  { intros o l Ho Hl. rewrite <- HL. apply in_concat. exists (snd o). split; [apply in_map, Ho|exact Hl]. }
  replace (forallb _ ops) with true.
  2: { symmetry. apply forallb_forall. intros o Ho. rewrite Forall_forall in HF. rewrite (HF o Ho).
       rewrite (map_ext_in (fun l => label_dim l ops) LD); [apply nlist_eqb_refl|]. intros l Hl. apply HD. eapply InL; eassumption. }
  assert (InF : forall i, In i Fk <-> (i < N)%nat /\ p i = true).
  { intros i. unfold Fk. rewrite filter_In, in_seq. intuition lia. }
  assert (EK : map (fun l => label_dim l ops) (Fk ++ map (Nat.add N) Fk) = K ++ K).
  { rewrite map_app, map_map, K_F. f_equal.
    - apply map_ext_in. intros i Hi. apply InF in Hi as [Hi Hp]. rewrite HD.
      + unfold LD. destruct (Nat.ltb_spec i N); [reflexivity|lia].
      + apply in_or_app. left. apply in_seq. lia.
    - apply map_ext_in. intros i Hi. apply InF in Hi as [Hi Hp]. rewrite HD.
      + unfold LD. destruct (Nat.ltb_spec (N + i) N); [lia|]. f_equal. lia.
      + apply in_or_app. right. unfold idx2. apply in_map_iff. exists i. fold (p i). rewrite Hp. split; [reflexivity|]. apply in_seq. lia. }
  assert (EC : map (fun l => label_dim l ops) Gk = C).
  { rewrite C_G. apply map_ext_in. intros i Hi. unfold Gk in Hi. apply filter_In in Hi as [Hi _]. rewrite HD.
    - apply in_seq in Hi. unfold LD. destruct (Nat.ltb_spec i N); [reflexivity|lia].
    - apply in_or_app. left. exact Hi. }
  eexists. split; [reflexivity|]. cbn [tsh te]. split; [exact EK|]. intros s t Hs Ht. rewrite EC. reflexivity.
Qed.

Lemma kd_ok : exists kd, mapM (getitem dims_) keep = Ok kd /\ fold_right Nat.mul 1%nat kd = fold_right Nat.mul 1%nat K.
Proof.
  exists (map (fun i => nth i dims_ 0%nat) keep). split.
  - clear Hnd Hne. induction keep as [|i l IH]; [reflexivity|]. cbn [mapM map]. unfold getitem at 1.
    rewrite (nth_error_nth' _ 0%nat) by (apply Hk; left; reflexivity). cbn [bind]. rewrite IH; [reflexivity|].
    intros j Hj. apply Hk. right. exact Hj.
  - apply prod_perm. rewrite K_F. apply Permutation_map. apply NoDup_Permutation; [exact Hnd|apply NoDup_filter, seq_NoDup|].
    intros i. unfold Fk. rewrite filter_In, in_seq, p_in. split; [intros H; split; [split; [lia|apply Hk, H]|exact H]|intros [_ H]; exact H].
Qed.

Lemma lenK : length K = length Fk. Proof. rewrite K_F, map_length. reflexivity. Qed.
Lemma lenC : length C = length Gk. Proof. rewrite C_G, map_length. reflexivity. Qed.
Lemma lenM : length mask = length dims_. Proof. rewrite mask_p, map_length, seq_length. reflexivity. Qed.

Lemma square_ok (T : tens R) n : tsh T = K ++ K -> n = fold_right Nat.mul 1%nat K ->
  exists r, reshape_square n T = Ok r /\ mr r = n /\ mc r = n /\
    forall s t, incfg K s -> incfg K t -> me r (position K s) (position K t) = te T (s ++ t).
Proof.
  intros ET ->. unfold reshape_square. rewrite ET, prod_app, Nat.eqb_refl. eexists. split; [reflexivity|].
  split; [reflexivity|]. split; [reflexivity|]. intros s t Hs Ht. cbn [me].
  rewrite !position_ravel by (eapply incfg_length; eassumption).
  rewrite <- ravel_app by (eapply incfg_length; eassumption).
  destruct (unravel_ravel (K ++ K) (s ++ t)) as [-> _]; [|reflexivity]. apply Forall2_app; assumption.
Qed.

Theorem partial_trace_ok (rho : mat R) : mr rho = fold_right Nat.mul 1%nat dims_ -> mc rho = fold_right Nat.mul 1%nat dims_ ->
  exists r, partial_trace rho keep dims_ = Ok r /\ mr r = fold_right Nat.mul 1%nat K /\ mc r = fold_right Nat.mul 1%nat K /\
    forall s t, incfg K s -> incfg K t -> me r (position K s) (position K t)
      = sumcfg C (fun c => me rho (position dims_ (weave mask s c)) (position dims_ (weave mask t c))).
Proof.
  intros H1 H2. unfold partial_trace. fold N.
  destruct (Nat.eqb_spec (length keep) 0) as [E|_]; [destruct keep; [contradiction|discriminate]|].
  destruct kd_ok as (kd & E1 & E2). rewrite E1. cbn [bind]. unfold reshape_mat.
  rewrite H1, H2, prod_app, Nat.eqb_refl. cbn [bind].
  match goal with |- context [einsum [(?T0, _)]] => destruct (einsum_trace [(T0, seq 0 N ++ idx2 keep N)]) as (T & ET & ST & VT) end.
  { cbn. apply app_nil_r. }
  { constructor; [|constructor]. cbn [fst snd tsh]. rewrite map_app, LD_seq, LD_idx2. reflexivity. }
  rewrite ET. cbn [bind]. destruct (square_ok T (fold_right Nat.mul 1%nat kd) ST E2) as (r & Er & R1 & R2 & VR).
  exists r. split; [exact Er|]. rewrite R1, R2, E2. split; [reflexivity|]. split; [reflexivity|].
  intros s t Hs Ht. rewrite VR, VT by assumption. apply sumcfg_ext. intros c Hc. cbn [map fst snd prodl fold_right].
  rewrite map_app. destruct (env_seq s t c) as [-> ->].
  { rewrite <- lenK. eapply incfg_length; exact Hs. }
  { rewrite <- lenK. eapply incfg_length; exact Ht. }
  { rewrite <- lenC. eapply incfg_length; exact Hc. }
  cbn [te]. assert (Ws := incfg_weave dims_ mask s c lenM Hs Hc). assert (Wt := incfg_weave dims_ mask t c lenM Ht Hc).
  rewrite ravel_app by (eapply incfg_length; eassumption).
  rewrite !position_ravel by (eapply incfg_length; eassumption).
  destruct (unravel_ravel dims_ _ Wt) as [_ Hlt].
  rewrite Nat.div_add_l, (Nat.div_small (ravel dims_ (weave mask t c))), Nat.add_0_r by lia.
  rewrite (Nat.add_comm (_ * _)), Nat.mod_add, Nat.mod_small by lia. ring.
Qed.

Theorem rhoA_ok (u : list R) : length u = fold_right Nat.mul 1%nat dims_ ->
  exists r, rhoA u keep dims_ = Ok r /\ mr r = fold_right Nat.mul 1%nat K /\ mc r = fold_right Nat.mul 1%nat K /\
    forall s t, incfg K s -> incfg K t -> me r (position K s) (position K t)
      = sumcfg C (fun c => nth (position dims_ (weave mask s c)) u 0 * sconj (nth (position dims_ (weave mask t c)) u 0)).
Proof.
  intros H1. unfold rhoA. fold N.
  destruct (Nat.eqb_spec (length keep) 0) as [E|_]; [destruct keep; [contradiction|discriminate]|].
  destruct kd_ok as (kd & E1 & E2). rewrite E1. cbn [bind]. unfold reshape_vec.
  rewrite H1, Nat.eqb_refl. cbn [bind].
  match goal with |- context [einsum [(?T0, _); (?T1, _)]] => destruct (einsum_trace [(T0, seq 0 N); (T1, idx2 keep N)]) as (T & ET & ST & VT) end.
  { cbn. rewrite app_nil_r. reflexivity. }
  { constructor; [|constructor; [|constructor]]; cbn [fst snd tsh tC]; [rewrite LD_seq|rewrite LD_idx2]; reflexivity. }
  rewrite ET. cbn [bind]. destruct (square_ok T (fold_right Nat.mul 1%nat kd) ST E2) as (r & Er & R1 & R2 & VR).
  exists r. split; [exact Er|]. rewrite R1, R2, E2. split; [reflexivity|]. split; [reflexivity|].
  intros s t Hs Ht. rewrite VR, VT by assumption. apply sumcfg_ext. intros c Hc. cbn [map fst snd prodl fold_right].
  destruct (env_seq s t c) as [-> ->].
  { rewrite <- lenK. eapply incfg_length; exact Hs. }
  { rewrite <- lenK. eapply incfg_length; exact Ht. }
  { rewrite <- lenC. eapply incfg_length; exact Hc. }
  cbn [te tC]. assert (Ws := incfg_weave dims_ mask s c lenM Hs Hc). assert (Wt := incfg_weave dims_ mask t c lenM Ht Hc).
  rewrite !position_ravel by (eapply incfg_length; eassumption). ring.
Qed.
End Trace.
