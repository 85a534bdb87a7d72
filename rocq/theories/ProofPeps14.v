(** Expectation values of operators on a block of a PEPS. *)
From Verif Require Import Alg ModelMPS SpecMPS ModelNcon SpecNcon ModelEk ModelNp ModelTensor ModelPeps SpecTensor ProofEk4 ProofTrace ProofTrace2 ProofNp SpecPeps ProofPeps ProofPeps2 ProofPeps3 ProofPeps4 ProofPeps5 ProofPeps9 ProofPeps12 ProofPeps13.
From Coq Require Import Permutation.
Import ListNotations.
Local Notation prod_ := (fold_right Nat.mul 1%nat).

(** All configurations. *)
Fixpoint allcfg (ds : list nat) : list (list nat) :=
  match ds with [] => [[]] | d :: ds => flat_map (fun x => map (cons x) (allcfg ds)) (seq 0 d) end.
Fixpoint allgrid (dss : list (list nat)) : list (list (list nat)) :=
  match dss with [] => [[]] | ds :: dss => flat_map (fun c => map (cons c) (allgrid dss)) (allcfg ds) end.

Lemma nodup_flat {A B} (f : A -> list B) l : NoDup l -> (forall a, NoDup (f a)) -> (forall a b x, In x (f a) -> In x (f b) -> a = b) -> NoDup (flat_map f l).
Proof.
  intros HN Hf Hd. induction HN as [|a l Ha HN IH]; [constructor|]. cbn [flat_map]. 
  assert (G : forall x, In x (f a) -> ~ In x (flat_map f l)). { intros x Hx G. apply in_flat_map in G. destruct G as (b & Hb & Hxb). rewrite (Hd a b x Hx Hxb) in Ha. contradiction. }
  revert G. generalize (Hf a). generalize (f a) as m. induction m as [|x m IHm]; intros Hm G; [exact IH|]. inversion Hm as [|? ? Hx Hm']; subst. cbn [app]. constructor.
  - intros K. apply in_app_or in K. destruct K as [K|K]; [contradiction|]. apply (G x); [now left|assumption].
  - apply IHm; [assumption|]. intros z Hz. apply G. now right.
Qed.
Lemma nodup_cons_map {A} (x : A) l : NoDup l -> NoDup (map (cons x) l).
Proof. induction 1 as [|y l Hy HN IH]; cbn [map]; constructor; auto. intros G. apply in_map_iff in G. destruct G as (z & E & Hz). injection E as ->. contradiction. Qed.
Lemma cons_map_head {A} (x y : A) l m z : In z (map (cons x) l) -> In z (map (cons y) m) -> x = y.
Proof. intros H1 H2. apply in_map_iff in H1, H2. destruct H1 as (u & <- & _), H2 as (v & E & _). now injection E. Qed.

Lemma allcfg_nodup ds : NoDup (allcfg ds).
Proof. induction ds as [|d ds IH]; cbn [allcfg]; [repeat constructor; auto|]. apply nodup_flat; [apply seq_NoDup|intros; now apply nodup_cons_map|intros a b x; apply cons_map_head]. Qed.
Lemma allcfg_in ds : forall s, In s (allcfg ds) <-> incfg ds s.
Proof.
  induction ds as [|d ds IH]; intros s; cbn [allcfg].
  - split; [intros [<-|[]]; constructor|intros H; inversion H; now left].
  - rewrite in_flat_map. split.
    + intros (x & Hx & H). apply in_map_iff in H. destruct H as (t & <- & Ht). apply in_seq in Hx. constructor; [lia|now apply IH].
    + intros H. inversion H as [|x ? t ? Hx Ht]; subst. exists x. split; [apply in_seq; lia|]. apply in_map. now apply IH.
Qed.
Lemma flat_len {A B} (f : A -> list B) n l : (forall a, length (f a) = n) -> length (flat_map f l) = (length l * n)%nat.
Proof. intros H. induction l as [|a l IH]; [reflexivity|]. cbn [flat_map length]. rewrite app_length, H, IH. lia. Qed.
Lemma allcfg_length ds : length (allcfg ds) = prod_ ds.
Proof. induction ds as [|d ds IH]; [reflexivity|]. cbn [allcfg fold_right]. rewrite (flat_len _ (prod_ ds)) by (intros; rewrite map_length; exact IH). now rewrite seq_length. Qed.
Lemma allgrid_nodup dss : NoDup (allgrid dss).
Proof. induction dss as [|ds dss IH]; cbn [allgrid]; [repeat constructor; auto|]. apply nodup_flat; [apply allcfg_nodup|intros; now apply nodup_cons_map|intros a b x; apply cons_map_head]. Qed.
Lemma allgrid_in dss : forall s, In s (allgrid dss) <-> ingrid dss s.
Proof.
  induction dss as [|ds dss IH]; intros s; cbn [allgrid].
  - split; [intros [<-|[]]; constructor|intros H; inversion H; now left].
  - rewrite in_flat_map. split.
    + intros (x & Hx & H). apply in_map_iff in H. destruct H as (t & <- & Ht). constructor; [now apply allcfg_in|now apply IH].
    + intros H. inversion H as [|x ? t ? Hx Ht]; subst. exists x. split; [now apply allcfg_in|]. apply in_map. now apply IH.
Qed.
Lemma allgrid_length dss : length (allgrid dss) = prod_ (map prod_ dss).
Proof. induction dss as [|ds dss IH]; [reflexivity|]. cbn [allgrid map fold_right]. rewrite (flat_len _ (prod_ (map prod_ dss))) by (intros; rewrite map_length; exact IH). now rewrite allcfg_length. Qed.

(** Products of sizes. *)
Lemma np_flat {A B} (g : A -> list B) (f : B -> nat) l : prod_ (map f (flat_map g l)) = prod_ (map (fun k => prod_ (map f (g k))) l).
Proof. induction l as [|k l IH]; [reflexivity|]. cbn [flat_map map fold_right]. rewrite map_app, prod_app, IH. reflexivity. Qed.
Lemma np_mul {A} (f g : A -> nat) l : prod_ (map (fun a => f a * g a)%nat l) = (prod_ (map f l) * prod_ (map g l))%nat.
Proof. induction l as [|k l IH]; [reflexivity|]. cbn [map fold_right]. rewrite IH. lia. Qed.
Lemma np_swap {A B} (F : A -> B -> nat) l m : prod_ (map (fun a => prod_ (map (F a) m)) l) = prod_ (map (fun b => prod_ (map (fun a => F a b) l)) m).
Proof.
  induction l as [|a l IH]; cbn [map fold_right].
  - induction m as [|b m IHm]; [reflexivity|]. cbn [map fold_right]. rewrite <- IHm. reflexivity.
  - rewrite IH, <- np_mul. reflexivity.
Qed.

Lemma group_all fr n N : (0 < n)%nat -> (fr + n <= N)%nat -> flat_map (group fr n) (seq 0 (N - n + 1)) = seq 0 N.
Proof.
  intros Hn HN. replace (N - n + 1)%nat with (fr + (1 + (N - n - fr)))%nat by lia. rewrite !seq_app, !flat_map_app. cbn [Nat.add]. replace N with (fr + (n + (N - n - fr)))%nat at 2 by lia. rewrite !seq_app. cbn [Nat.add]. f_equal; [|f_equal].
  - rewrite <- (map_id (seq 0 fr)) at 2. rewrite flat_map_concat_map. rewrite (map_ext_in _ (fun k => [k])).
    + clear. induction (seq 0 fr) as [|k l IH]; [reflexivity|]. cbn [map concat app]. now rewrite IH.
    + intros k Hk. apply in_seq in Hk. unfold group. now destruct (Nat.ltb_spec k fr); [|lia].
  - cbn [seq flat_map]. unfold group. destruct (Nat.ltb_spec fr fr); [lia|]. rewrite Nat.eqb_refl. apply app_nil_r.
  - rewrite flat_map_concat_map. rewrite (map_ext_in _ (fun k => [(k + n - 1)%nat])).
    + replace (fr + n)%nat with (fr + 1 + (n - 1))%nat by lia. generalize (N - n - fr)%nat as m. generalize (fr + 1)%nat as a. intros a m. revert a. induction m as [|m IH]; intros a; [reflexivity|]. cbn [seq map concat app]. rewrite IH. replace (a + n - 1)%nat with (a + (n - 1))%nat by lia. reflexivity.
    + intros k Hk. apply in_seq in Hk. unfold group. destruct (Nat.ltb_spec k fr); [lia|]. destruct (Nat.eqb_spec k fr); [lia|]. reflexivity.
Qed.
Lemma group_in fr n N k : (0 < n)%nat -> (fr + n <= N)%nat -> (k < N)%nat -> exists g, (g < N - n + 1)%nat /\ In k (group fr n g).
Proof. intros Hn HN Hk. assert (G : In k (flat_map (group fr n) (seq 0 (N - n + 1)))) by (rewrite group_all by assumption; apply in_seq; lia). apply in_flat_map in G. destruct G as (g & Hg & Hk'). exists g. split; [apply in_seq in Hg; lia|assumption]. Qed.
Lemma group_lt fr n N g k : (0 < n)%nat -> (fr + n <= N)%nat -> (g < N - n + 1)%nat -> In k (group fr n g) -> (k < N)%nat.
Proof. intros Hn HN Hg Hk. assert (G : In k (flat_map (group fr n) (seq 0 (N - n + 1)))) by (apply in_flat_map; exists g; split; [apply in_seq; lia|assumption]). rewrite group_all in G by assumption. apply in_seq in G. lia. Qed.
Lemma group_other fr n g k : (0 < n)%nat -> g <> fr -> In k (group fr n g) -> ~ (fr <= k < fr + n)%nat.
Proof. intros Hn Hg. unfold group. destruct (Nat.ltb_spec g fr); [intros [<-|[]]; lia|]. destruct (Nat.eqb_spec g fr); [contradiction|]. intros [<-|[]]. lia. Qed.

Lemma prod_grid H W dss : grid H W dss -> prod_ (map prod_ dss) = prod_ (map (fun j => prod_ (map (fun i => at_ 0%nat dss j i) (seq 0 W))) (seq 0 H)).
Proof.
  intros [HL HF]. subst H. induction HF as [|ds dss Hd HF IH]; [reflexivity|]. cbn [length seq map fold_right]. f_equal.
  - unfold at_. cbn [nth]. subst W. f_equal. symmetry. clear. induction ds as [|x ds IH]; [reflexivity|]. cbn [length seq map nth]. f_equal. rewrite <- seq_shift, map_map. exact IH.
  - rewrite IH, <- seq_shift, map_map. reflexivity.
Qed.

Section Block.
Context {R : sring}.
Local Open Scope sr_scope.
Add Ring Rr : (s_th R).

Lemma suml_perm (a b : list R) : Permutation a b -> suml a = suml b.
Proof. induction 1 as [|x a b _ IH|x y a|a b c _ IH1 _ IH2]; cbn [suml]; [reflexivity|now rewrite IH|ring|congruence]. Qed.
Lemma suml_app (a b : list R) : suml (a ++ b) = suml a + suml b.
Proof. induction a as [|x a IH]; cbn [suml app]; [ring|]. rewrite IH. ring. Qed.
Lemma suml_flat {A} (f : list A -> R) (g : A -> list (list A)) l : suml (map f (flat_map g l)) = suml (map (fun x => suml (map f (g x))) l).
Proof. induction l as [|x l IH]; [reflexivity|]. cbn [flat_map map suml]. now rewrite map_app, suml_app, IH. Qed.
Lemma suml_seq (f : nat -> R) n : suml (map f (seq 0 n)) = sum n f.
Proof. induction n as [|n IH]; [reflexivity|]. rewrite seq_S, map_app, suml_app, IH. cbn [map suml sum Nat.add]. ring. Qed.
Lemma sumcfg_all ds : forall (f : list nat -> R), sumcfg ds f = suml (map f (allcfg ds)).
Proof.
  induction ds as [|d ds IH]; intros f; cbn [sumcfg allcfg]; [cbn; ring|]. rewrite suml_flat, suml_seq. apply sum_ext. intros x _. rewrite IH, map_map. reflexivity.
Qed.
Lemma sumgrid_all dss : forall (f : list (list nat) -> R), sumgrid dss f = suml (map f (allgrid dss)).
Proof.
  induction dss as [|ds dss IH]; intros f; cbn [sumgrid allgrid]; [cbn; ring|]. rewrite suml_flat, sumcfg_all. f_equal. apply map_ext. intros c. rewrite IH, map_map. reflexivity.
Qed.

Lemma sumgrid_inj dss ess (phi : list (list nat) -> list (list nat)) (g : list (list nat) -> R) :
  (forall s, ingrid dss s -> ingrid ess (phi s)) -> (forall s s', ingrid dss s -> ingrid dss s' -> phi s = phi s' -> s = s') ->
  prod_ (map prod_ dss) = prod_ (map prod_ ess) -> sumgrid ess g = sumgrid dss (fun s => g (phi s)).
Proof.
  intros H1 H2 H3. rewrite !sumgrid_all. rewrite <- (map_map phi g). apply suml_perm, Permutation_map. symmetry.
  assert (N1 : NoDup (map phi (allgrid dss))).
  { assert (G : forall s, In s (allgrid dss) -> ingrid dss s) by (intros; now apply allgrid_in). revert G. generalize (allgrid_nodup dss). generalize (allgrid dss) as l. induction 1 as [|s l Hs HN IH]; intros G; [constructor|]. cbn [map]. constructor; [|apply IH; intros; apply G; now right].
    intros K. apply in_map_iff in K. destruct K as (s' & E & Hs'). apply Hs. rewrite (H2 s s'); auto; [apply G; now left|apply G; now right]. }
  assert (I1 : incl (map phi (allgrid dss)) (allgrid ess)). { intros t Ht. apply in_map_iff in Ht. destruct Ht as (s & <- & Hs). apply allgrid_in, H1. now apply allgrid_in. }
  apply NoDup_Permutation; [assumption|apply allgrid_nodup|]. intros t. split; [apply I1|]. apply (NoDup_length_incl N1); [|exact I1]. now rewrite map_length, !allgrid_length, H3.
Qed.

Definition merge_grid (H W x y w h : nat) (dss s : list (list nat)) : list (list nat) :=
  mkgrid (H - h + 1) (W - w + 1) (fun j i => position (entries (group y h j) (group x w i) dss) (entries (group y h j) (group x w i) s)).

Lemma position_inj ds s t : incfg ds s -> incfg ds t -> position ds s = position ds t -> s = t.
Proof.
  intros Hs Ht. rewrite !position_ravel by (eapply incfg_length; eassumption). intros E. rewrite <- (proj1 (unravel_ravel ds s Hs)), <- (proj1 (unravel_ravel ds t Ht)). now rewrite E.
Qed.

Lemma entries_in H W dss s rows cols : grid H W dss -> ingrid dss s -> (forall j, In j rows -> (j < H)%nat) -> (forall i, In i cols -> (i < W)%nat) -> incfg (entries rows cols dss) (entries rows cols s).
Proof.
  intros Gd Hs Hr Hc. assert (Gs := ingrid_grid _ _ _ _ Gd Hs). unfold entries. induction cols as [|i cols IH]; [constructor|]. cbn [flat_map]. apply Forall2_app; [|apply IH; intros; apply Hc; now right]. clear IH.
  assert (Hi : (i < W)%nat) by (apply Hc; now left). clear Hc. induction rows as [|j rows IH]; [constructor|]. cbn [map]. constructor; [|apply IH; intros; apply Hr; now right]. apply (ingrid_at H W); auto. apply Hr. now left.
Qed.

Lemma entries_ext g g' rows cols : entries rows cols g = entries rows cols g' <-> forall j i, In j rows -> In i cols -> at_ 0%nat g j i = at_ 0%nat g' j i.
Proof.
  unfold entries. induction cols as [|i cols IH]; [split; [intros _ j i _ []|reflexivity]|]. cbn [flat_map].
  assert (M : map (fun j => at_ 0%nat g j i) rows = map (fun j => at_ 0%nat g' j i) rows <-> forall j, In j rows -> at_ 0%nat g j i = at_ 0%nat g' j i).
  { clear. induction rows as [|j rows IH]; [split; [intros _ j []|reflexivity]|]. cbn [map]. split.
    - intros E. injection E as E1 E2. intros k [<-|Hk]; [assumption|]. now apply IH.
    - intros E. rewrite (E j) by (now left). f_equal. apply IH. intros k Hk. apply E. now right. }
  split.
  - intros E. assert (HL : length (map (fun j => at_ 0%nat g j i) rows) = length (map (fun j => at_ 0%nat g' j i) rows)) by (now rewrite !map_length).
    assert (E1 : forall (a b c d : list nat), length a = length b -> a ++ c = b ++ d -> a = b /\ c = d).
    { induction a as [|z a IHa]; intros [|z' b] c d Hab Eab; try discriminate; [auto|]. cbn in Eab. injection Eab as -> Eab. destruct (IHa b c d) as [-> ->]; auto. }
    destruct (E1 _ _ _ _ HL E) as [Ea Eb]. intros j k Hj [<-|Hk]; [now apply (proj1 M Ea)|]. now apply (proj1 IH Eb).
  - intros E. f_equal; [apply M; intros; apply E; auto; now left|apply IH; intros; apply E; auto; now right].
Qed.

Lemma grid_ext H W (s t : list (list nat)) : grid H W s -> grid H W t -> (forall j i, (j < H)%nat -> (i < W)%nat -> at_ 0%nat s j i = at_ 0%nat t j i) -> s = t.
Proof.
  intros [L1 F1] [L2 F2] E. apply (nth_ext _ _ [] []); [congruence|]. intros j Hj. rewrite Forall_forall in F1, F2. assert (N1 : length (nth j s []) = W) by (apply F1, nth_In; lia). assert (N2 : length (nth j t []) = W) by (apply F2, nth_In; lia).
  apply (nth_ext _ _ 0%nat 0%nat); [congruence|]. intros i Hi. apply E; lia.
Qed.

Lemma sum_merged H W x y w h dss ess (g : list (list nat) -> R) : grid H W dss -> grid (H - h + 1) (W - w + 1) ess -> (0 < w)%nat -> (0 < h)%nat -> (x + w <= W)%nat -> (y + h <= H)%nat ->
  (forall j i, (j < H - h + 1)%nat -> (i < W - w + 1)%nat -> at_ 0%nat ess j i = prod_ (entries (group y h j) (group x w i) dss)) ->
  sumgrid ess g = sumgrid dss (fun s => g (merge_grid H W x y w h dss s)).
Proof.
  intros Gd Ge Hw Hh Hx Hy HE. apply sumgrid_inj.
  - intros s Hs. apply (ingrid_at (H - h + 1) (W - w + 1)); [exact Ge|apply mkgrid_grid|]. intros j i Hj Hi. unfold merge_grid. rewrite mkgrid_at, HE by assumption. apply position_lt. apply (entries_in H W); auto.
    + intros k Hk. eapply group_lt; [| | |exact Hk]; eassumption.
    + intros k Hk. eapply group_lt; [| | |exact Hk]; eassumption.
  - intros s s' Hs Hs' E. assert (Gs := ingrid_grid _ _ _ _ Gd Hs). assert (Gs' := ingrid_grid _ _ _ _ Gd Hs'). apply (grid_ext H W); auto. intros j i Hj Hi.
    destruct (group_in y h H j Hh Hy Hj) as (gj & Hgj & Ij). destruct (group_in x w W i Hw Hx Hi) as (gi & Hgi & Ii).
    assert (P : at_ 0%nat (merge_grid H W x y w h dss s) gj gi = at_ 0%nat (merge_grid H W x y w h dss s') gj gi) by (now rewrite E). unfold merge_grid in P. rewrite !mkgrid_at in P by assumption.
    apply position_inj in P; [apply (proj1 (entries_ext s s' _ _) P j i Ij Ii)| |].
    + apply (entries_in H W); auto; intros k Hk; eapply group_lt; [| | |exact Hk| | | |exact Hk]; eassumption.
    + apply (entries_in H W); auto; intros k Hk; eapply group_lt; [| | |exact Hk| | | |exact Hk]; eassumption.
  - rewrite (prod_grid _ _ _ Gd), (prod_grid _ _ _ Ge).
    transitivity (prod_ (map (fun j => prod_ (map (fun i => prod_ (entries (group y h j) (group x w i) dss)) (seq 0 (W - w + 1)))) (seq 0 (H - h + 1)))).
    + transitivity (prod_ (map (fun j => prod_ (map (fun j' => prod_ (map (fun i => at_ 0%nat dss j' i) (seq 0 W))) (group y h j))) (seq 0 (H - h + 1)))).
      { rewrite <- (np_flat (group y h)), group_all by assumption. reflexivity. }
      f_equal. apply map_ext. intros j. rewrite np_swap. rewrite <- (group_all x w W) at 1 by assumption. rewrite np_flat. f_equal. apply map_ext. intros i. unfold entries.
      rewrite <- (map_id (flat_map _ _)). rewrite np_flat. f_equal. apply map_ext. intros i'. now rewrite map_id.
    + f_equal. apply map_ext_in. intros j Hj. apply in_seq in Hj. f_equal. apply map_ext_in. intros i Hi. apply in_seq in Hi. symmetry. apply HE; lia.
Qed.

Lemma seq_block h : forall w, seq 0 (w * h) = flat_map (fun i => map (fun j => i * h + j)%nat (seq 0 h)) (seq 0 w).
Proof.
  induction w as [|w IH]; [reflexivity|]. rewrite seq_S, flat_map_app, <- IH. cbn [flat_map]. rewrite app_nil_r. cbn [Nat.add]. replace (S w * h)%nat with (w * h + h)%nat by lia. rewrite seq_app. cbn [Nat.add]. f_equal. apply seq_shift_map.
Qed.

Lemma entries_block H W x y w h s b : (x + w <= W)%nat -> (y + h <= H)%nat -> length b = (w * h)%nat -> entries (seq y h) (seq x w) (put_block H W x y w h s b) = b.
Proof.
  intros Hx Hy Hb. unfold entries. transitivity (map (fun n => nth n b 0%nat) (seq 0 (w * h))).
  - rewrite seq_block. rewrite (flat_map_concat_map _ (seq 0 w)), concat_map, map_map, <- flat_map_concat_map.
    rewrite (seq_shift_map x w). rewrite !flat_map_concat_map, map_map. f_equal. apply map_ext_in. intros i Hi. apply in_seq in Hi. rewrite (seq_shift_map y h), !map_map. apply map_ext_in. intros j Hj. apply in_seq in Hj.
    unfold put_block. change (map (fun j => map (fun i => if (Nat.leb y j && Nat.ltb j (y + h)) && (Nat.leb x i && Nat.ltb i (x + w)) then nth ((i - x) * h + (j - y)) b 0%nat else at_ 0%nat s j i) (seq 0 W)) (seq 0 H))
      with (mkgrid H W (fun j i => if (Nat.leb y j && Nat.ltb j (y + h)) && (Nat.leb x i && Nat.ltb i (x + w)) then nth ((i - x) * h + (j - y)) b 0%nat else at_ 0%nat s j i)).
    rewrite mkgrid_at by lia. destruct (Nat.leb_spec y (y + j)); [|lia]. destruct (Nat.ltb_spec (y + j) (y + h)); [|lia]. destruct (Nat.leb_spec x (x + i)); [|lia]. destruct (Nat.ltb_spec (x + i) (x + w)); [|lia]. cbn [andb]. f_equal. f_equal; [f_equal; lia|lia].
  - rewrite <- Hb. clear. induction b as [|z b IH]; [reflexivity|]. cbn [length seq map nth]. f_equal. rewrite <- seq_shift, map_map. exact IH.
Qed.

Lemma entries_len rows cols g : length (entries rows cols g) = (length cols * length rows)%nat.
Proof. unfold entries. apply flat_len. intros. apply map_length. Qed.

Lemma put_block_ingrid H W x y w h dss s b : grid H W dss -> ingrid dss s -> (x + w <= W)%nat -> (y + h <= H)%nat -> incfg (entries (seq y h) (seq x w) dss) b -> ingrid dss (put_block H W x y w h s b).
Proof.
  intros Gd Hs Hx Hy Hb. apply (ingrid_at H W); [exact Gd|apply mkgrid_grid|]. intros j i Hj Hi.
  assert (Hb' := Hb). apply incfg_length in Hb'. rewrite entries_len, !seq_length in Hb'.
  assert (E := entries_block H W x y w h s b Hx Hy Hb').
  destruct ((Nat.leb y j && Nat.ltb j (y + h)) && (Nat.leb x i && Nat.ltb i (x + w))) eqn:C.
  - apply Bool.andb_true_iff in C. destruct C as [C1 C2]. apply Bool.andb_true_iff in C1, C2. destruct C1 as [C1 C1'], C2 as [C2 C2']. apply Nat.leb_le in C1, C2. apply Nat.ltb_lt in C1', C2'.
    rewrite <- E in Hb. clear E Hb'. unfold entries in Hb. revert Hb. assert (Ij : In j (seq y h)) by (apply in_seq; lia). assert (Ii : In i (seq x w)) by (apply in_seq; lia). revert Ij Ii. generalize (seq y h) (seq x w). clear. intros rows cols Ij Ii.
    induction cols as [|k cols IH]; [contradiction|]. cbn [flat_map]. intros Hb. apply Forall2_app_inv_r in Hb. destruct Hb as (l1 & l2 & H1 & H2 & E).
    assert (E1 : forall (a b c d : list nat), length a = length b -> a ++ c = b ++ d -> a = b /\ c = d).
    { clear. induction a as [|z a IHa]; intros [|z' b] c d Hab Eab; try discriminate; [auto|]. cbn in Eab. injection Eab as -> Eab. destruct (IHa b c d) as [-> ->]; auto. }
    assert (L1 := incfg_length _ _ H1). rewrite map_length in L1. apply E1 in E; [|now rewrite map_length, L1]. destruct E as [<- <-]. destruct Ii as [->|Ii]; [|now apply IH].
    clear -H1 Ij. induction rows as [|j' rows IH]; [contradiction|]. inversion H1; subst. destruct Ij as [->|Ij]; [assumption|]. now apply IH.
  - unfold put_block. change (map (fun j => map (fun i => if (Nat.leb y j && Nat.ltb j (y + h)) && (Nat.leb x i && Nat.ltb i (x + w)) then nth ((i - x) * h + (j - y)) b 0%nat else at_ 0%nat s j i) (seq 0 W)) (seq 0 H))
      with (mkgrid H W (fun j i => if (Nat.leb y j && Nat.ltb j (y + h)) && (Nat.leb x i && Nat.ltb i (x + w)) then nth ((i - x) * h + (j - y)) b 0%nat else at_ 0%nat s j i)).
    rewrite mkgrid_at by assumption. rewrite C. apply (ingrid_at H W); auto. apply (ingrid_grid _ _ _ _ Gd Hs).
Qed.

Lemma put_block_outside H W x y w h s b j i : (j < H)%nat -> (i < W)%nat -> ~ ((y <= j < y + h)%nat /\ (x <= i < x + w)%nat) -> at_ 0%nat (put_block H W x y w h s b) j i = at_ 0%nat s j i.
Proof.
  intros Hj Hi Hn. unfold put_block. change (map (fun j => map (fun i => if (Nat.leb y j && Nat.ltb j (y + h)) && (Nat.leb x i && Nat.ltb i (x + w)) then nth ((i - x) * h + (j - y)) b 0%nat else at_ 0%nat s j i) (seq 0 W)) (seq 0 H))
      with (mkgrid H W (fun j i => if (Nat.leb y j && Nat.ltb j (y + h)) && (Nat.leb x i && Nat.ltb i (x + w)) then nth ((i - x) * h + (j - y)) b 0%nat else at_ 0%nat s j i)).
  rewrite mkgrid_at by assumption. destruct (Nat.leb_spec y j), (Nat.ltb_spec j (y + h)), (Nat.leb_spec x i), (Nat.ltb_spec i (x + w)); cbn [andb]; try reflexivity. exfalso. apply Hn. lia.
Qed.

Lemma E_k_ok S H W (p : peps R) (op : mat R) x y w h : setio_ok S -> peps_ok H W (pdata p) -> (0 < w)%nat -> (0 < h)%nat -> (x + w <= W)%nat -> (y + h <= H)%nat -> (w < W)%nat ->
  let dss := legs_of 0 (pdata p) in let bd := entries (seq y h) (seq x w) dss in
  mr op = prod_ bd -> mc op = prod_ bd ->
  peps_E_k S p op x y w h = Ok (sre (sumgrid dss (fun s => sconj (pamp H W (pdata p) s)
    * sumcfg bd (fun b => me op (position bd (entries (seq y h) (seq x w) s)) (position bd b) * pamp H W (pdata p) (put_block H W x y w h s b))))).
Proof.
  intros HS Hok Hw Hh Hx Hy HwW dss bd H1 H2. destruct (contract_ok H W p x y w h Hok Hw Hh Hx Hy) as (q & Eq & Oq & Lq & Vq). unfold peps_E_k. rewrite Eq. cbn [bind].
  assert (GB : group y h y = seq y h /\ group x w x = seq x w). { unfold group. destruct (Nat.ltb_spec y y); [lia|]. destruct (Nat.ltb_spec x x); [lia|]. now rewrite !Nat.eqb_refl. }
  destruct GB as [GB1 GB2]. assert (L0 : leg 0 (site_at (pdata q) y x) = prod_ bd) by (rewrite Lq by lia; now rewrite GB1, GB2).
  rewrite (E_ok S (H - h + 1) (W - w + 1) q op x y HS Oq) by (try lia; congruence). f_equal. f_equal.
  assert (Gd : grid H W dss) by (apply legs_grid; apply Hok). assert (Ge : grid (H - h + 1) (W - w + 1) (legs_of 0 (pdata q))) by (apply legs_grid; apply Oq).
  rewrite (sum_merged H W x y w h dss (legs_of 0 (pdata q)) _ Gd Ge Hw Hh Hx Hy) by (intros; rewrite at_legs; now apply Lq).
  apply sumgrid_ext. intros s Hs. assert (Gs := ingrid_grid _ _ _ _ Gd Hs).
  assert (M : merged H W x y w h dss s (merge_grid H W x y w h dss s)) by (split; [apply mkgrid_grid|]; intros j i Hj Hi; unfold merge_grid; now rewrite mkgrid_at).
  rewrite (Vq s _ Hs M). f_equal. rewrite H2, sum_position. apply sumcfg_ext. intros b Hb.
  assert (Hb' := incfg_length _ _ Hb). unfold bd in Hb'. rewrite entries_len, !seq_length in Hb'. f_equal.
  - f_equal. unfold merge_grid. rewrite mkgrid_at by lia. now rewrite GB1, GB2.
  - apply Vq; [now apply put_block_ingrid|]. split; [apply put_grid; apply mkgrid_grid|]. intros j i Hj Hi. rewrite (put_at _ (H - h + 1) (W - w + 1)) by (try lia; apply mkgrid_grid).
    fold dss. destruct (Nat.eqb_spec j y) as [->|Nj].
    + destruct (Nat.eqb_spec i x) as [->|Ni]; cbn [andb].
      * rewrite GB1, GB2. f_equal. symmetry. now apply entries_block.
      * unfold merge_grid. rewrite mkgrid_at by assumption. f_equal. apply entries_ext. intros j' i' Hj' Hi'. symmetry. apply put_block_outside; [eapply group_lt; [| | |exact Hj']; eassumption|eapply group_lt; [| | |exact Hi']; eassumption|].
        intros [_ K]. exact (group_other x w i i' Hw Ni Hi' K).
    + cbn [andb]. unfold merge_grid. rewrite mkgrid_at by assumption. f_equal. apply entries_ext. intros j' i' Hj' Hi'. symmetry. apply put_block_outside; [eapply group_lt; [| | |exact Hj']; eassumption|eapply group_lt; [| | |exact Hi']; eassumption|].
      intros [K _]. exact (group_other y h j j' Hh Nj Hj' K).
Qed.
End Block.
