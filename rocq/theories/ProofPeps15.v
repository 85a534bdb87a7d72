(** Full overlaps and sums of PEPS. *)
From Verif Require Import Alg ModelMPS SpecMPS ModelNcon SpecNcon ModelEk ModelNp ModelTensor ModelPeps SpecTensor ProofEk4 ProofTrace ProofTrace2 ProofNp SpecPeps ProofPeps ProofPeps2 ProofPeps3 ProofPeps4 ProofPeps5 ProofPeps9 ProofPeps12 ProofPeps13 ProofPeps14.
From Coq Require Import Permutation.
Import ListNotations.
Local Notation prod_ := (fold_right Nat.mul 1%nat).

Definition low (b : bool) (n x : nat) : bool := negb b || Nat.ltb x n.
Definition high (b : bool) (n x : nat) : bool := negb b || Nat.leb n x.
Definition off (b : bool) (n : nat) : nat := if b then n else 0%nat.
Lemma low_not_high n x : low true n x = true -> high true n x = true -> False.
Proof. unfold low, high. cbn [negb orb]. intros H1 H2. apply Nat.ltb_lt in H1. apply Nat.leb_le in H2. lia. Qed.

Section FullAdd.
Context {R : sring}.
Local Open Scope sr_scope.
Add Ring Rr : (s_th R).

Lemma unravel_nth_index sh : forall n, unravel sh n = nth_index sh n.
Proof. induction sh as [|x sh IH]; intros n; cbn [unravel nth_index]; [reflexivity|]. now rewrite IH. Qed.
Lemma flat_vec_flat (A : tens R) : flat_vec A = map (flat A) (seq 0 (size A)).
Proof. unfold flat_vec, flat, size. apply map_ext. intros n. now rewrite unravel_nth_index. Qed.
Lemma sumgrid_concat dss (F : list nat -> R) : sumgrid dss (fun s => F (concat s)) = sumcfg (concat dss) F.
Proof. revert F. induction dss as [|ds dss IH]; intros F; cbn [sumgrid concat]; [reflexivity|]. rewrite sumcfg_app. apply sumcfg_ext. intros c _. now rewrite (IH (fun t => F (c ++ t))). Qed.

Lemma full_overlap_ok H W (p q : peps R) : peps_ok H W (pdata p) -> peps_ok H W (pdata q) -> legs_of 0 (pdata q) = legs_of 0 (pdata p) ->
  peps_full_overlap p q = Ok (sumgrid (legs_of 0 (pdata p)) (fun s => sconj (pamp H W (pdata p) s) * pamp H W (pdata q) s)).
Proof.
  intros Hp Hq HL. destruct (recombine_ok H W p Hp) as (A & EA & SA & VA). destruct (recombine_ok H W q Hq) as (B & EB & SB & VB). rewrite HL in SB, VB.
  assert (ZA : size A = prod_ (concat (legs_of 0 (pdata p)))). { unfold size. rewrite SA. destruct (Nat.eqb_spec (prod_ (concat (legs_of 0 (pdata p)))) 1) as [E|_]; cbn [fold_right]; lia. }
  assert (ZB : size B = prod_ (concat (legs_of 0 (pdata p)))). { unfold size. rewrite SB. destruct (Nat.eqb_spec (prod_ (concat (legs_of 0 (pdata p)))) 1) as [E|_]; cbn [fold_right]; lia. }
  unfold peps_full_overlap. rewrite EA, EB. cbn [bind]. rewrite !flat_vec_flat, !map_length, !seq_length, ZA, ZB, Nat.eqb_refl. f_equal.
  transitivity (suml (map (fun n => sconj (flat A n) * flat B n) (seq 0 (prod_ (concat (legs_of 0 (pdata p))))))).
  { generalize (prod_ (concat (legs_of 0 (pdata p)))) as N. intros N. f_equal. generalize (seq 0 N) as l. induction l as [|n l IH]; [reflexivity|]. cbn [map combine]. rewrite IH. reflexivity. }
  rewrite suml_seq, sum_position, <- sumgrid_concat. apply sumgrid_ext. intros s Hs. now rewrite VA, VB.
Qed.

(** One site of the sum. *)
Lemma pad_axes_eq Lx Ly i j : (1 < Lx)%nat -> (1 < Ly)%nat -> (i < Lx)%nat -> (j < Ly)%nat ->
  pad_axes Lx Ly i j = [false; Nat.ltb 0 j; Nat.ltb (S i) Lx; Nat.ltb (S j) Ly; Nat.ltb 0 i].
Proof.
  intros H1 H2 H3 H4. unfold pad_axes. destruct (Nat.eqb_spec i (Lx - 1)), (Nat.eqb_spec j (Ly - 1)), (Nat.eqb_spec j 0), (Nat.eqb_spec i 0), (Nat.ltb_spec 0 j), (Nat.ltb_spec 0 i), (Nat.ltb_spec (S i) Lx), (Nat.ltb_spec (S j) Ly); try lia; reflexivity.
Qed.

Definition bsz (b : bool) (m n : nat) : nat := if b then (m + n)%nat else 1%nat.

Lemma bidx_id sh idx : incfg sh idx -> bidx sh idx = idx.
Proof. intros H. unfold bidx. induction H as [|x d s ds Hx H IH]; [reflexivity|]. cbn [combine map fst snd]. rewrite IH. destruct (Nat.eqb_spec d 1); [f_equal; lia|reflexivity]. Qed.
Lemma bshape_id sh : bshape sh sh = Ok sh.
Proof. induction sh as [|x sh IH]; cbn [bshape]; [reflexivity|]. rewrite IH. cbn [bind]. now rewrite Nat.eqb_refl. Qed.
Lemma if_ext {A} (b c : bool) (x y z w : A) : b = c -> (c = true -> x = y) -> z = w -> (if b then x else z) = (if c then y else w).
Proof. intros -> H1 ->. destruct c; auto. Qed.

Lemma add_site_ok Lx Ly i j (a b : tens R) d a1 a2 a3 a4 b1 b2 b3 b4 : (1 < Lx)%nat -> (1 < Ly)%nat -> (i < Lx)%nat -> (j < Ly)%nat ->
  tsh a = [d; a1; a2; a3; a4] -> tsh b = [d; b1; b2; b3; b4] ->
  let bu := Nat.ltb 0 j in let br := Nat.ltb (S i) Lx in let bd := Nat.ltb (S j) Ly in let bl := Nat.ltb 0 i in
  (bu = false -> a1 = 1 /\ b1 = 1)%nat -> (br = false -> a2 = 1 /\ b2 = 1)%nat -> (bd = false -> a3 = 1 /\ b3 = 1)%nat -> (bl = false -> a4 = 1 /\ b4 = 1)%nat ->
  exists c, add_site Lx Ly i j a b = Ok c /\ tsh c = [d; bsz bu a1 b1; bsz br a2 b2; bsz bd a3 b3; bsz bl a4 b4] /\
    forall s u r dn l, incfg (tsh c) [s; u; r; dn; l] ->
      te c [s; u; r; dn; l] = (if low bu a1 u && low br a2 r && low bd a3 dn && low bl a4 l then te a [s; u; r; dn; l] else 0)
        + (if high bu a1 u && high br a2 r && high bd a3 dn && high bl a4 l then te b [s; u - off bu a1; r - off br a2; dn - off bd a3; l - off bl a4]%nat else 0).
Proof.
  intros H1 H2 H3 H4 Ha Hb bu br bd bl Hu Hr Hd Hl. unfold add_site. rewrite (proj2 (Nat.ltb_lt 1 Lx) H1), (proj2 (Nat.ltb_lt 1 Ly) H2). cbn [andb]. rewrite pad_axes_eq by assumption. fold bu br bd bl. rewrite Ha, Hb.
  assert (P : forall sh0 s1 s2 s3 s4, pads 0 [false; bu; br; bd; bl] [sh0; s1; s2; s3; s4] = Ok [0%nat; off bu s1; off br s2; off bd s3; off bl s4]).
  { intros. cbn [pads]. unfold off. destruct bu, br, bd, bl; reflexivity. }
  rewrite !P. cbn [bind]. unfold pad. rewrite Ha, Hb. cbn [length repeat combine Nat.eqb bind map fst snd]. unfold badd. cbn [tsh].
  assert (S1 : [(0 + d + 0)%nat; (0 + a1 + off bu b1)%nat; (0 + a2 + off br b2)%nat; (0 + a3 + off bd b3)%nat; (0 + a4 + off bl b4)%nat] = [d; bsz bu a1 b1; bsz br a2 b2; bsz bd a3 b3; bsz bl a4 b4]).
  { unfold off, bsz. destruct bu, br, bd, bl; cbn [Nat.add]; repeat (f_equal; try lia); try (destruct (Hu eq_refl); lia); try (destruct (Hr eq_refl); lia); try (destruct (Hd eq_refl); lia); try (destruct (Hl eq_refl); lia). }
  assert (S2 : [(0 + d + 0)%nat; (off bu a1 + b1 + 0)%nat; (off br a2 + b2 + 0)%nat; (off bd a3 + b3 + 0)%nat; (off bl a4 + b4 + 0)%nat] = [d; bsz bu a1 b1; bsz br a2 b2; bsz bd a3 b3; bsz bl a4 b4]).
  { unfold off, bsz. destruct bu, br, bd, bl; cbn [Nat.add]; repeat (f_equal; try lia); try (destruct (Hu eq_refl); lia); try (destruct (Hr eq_refl); lia); try (destruct (Hd eq_refl); lia); try (destruct (Hl eq_refl); lia). }
  rewrite S1, S2, bshape_id. cbn [bind]. eexists. split; [reflexivity|]. cbn [tsh]. split; [reflexivity|]. intros s u r dn l HI. cbn [te]. rewrite !bidx_id by assumption. clear P S1 S2.
  assert (HI' := HI). inversion HI' as [|? ? ? ? Is HI1]; subst. inversion HI1 as [|? ? ? ? Iu HI2]; subst. inversion HI2 as [|? ? ? ? Ir HI3]; subst. inversion HI3 as [|? ? ? ? Id HI4]; subst. inversion HI4 as [|? ? ? ? Il HI5]; subst. clear HI HI' HI1 HI2 HI3 HI4 HI5.
  assert (LB : forall bb m n x, (bb = false -> m = 1 /\ n = 1)%nat -> (x < bsz bb m n)%nat -> (Nat.leb 0 x && Nat.ltb (x - 0) m) = low bb m x).
  { intros bb m n x E Hx. unfold low, bsz in *. rewrite Nat.sub_0_r. cbn [Nat.leb andb]. destruct bb; [reflexivity|]. destruct (E eq_refl). subst. cbn [negb orb]. now apply Nat.ltb_lt. }
  assert (HB : forall bb m n x, (bb = false -> m = 1 /\ n = 1)%nat -> (x < bsz bb m n)%nat -> (Nat.leb (off bb m) x && Nat.ltb (x - off bb m) n) = high bb m x).
  { intros bb m n x E Hx. unfold high, bsz, off in *. destruct bb; cbn [negb orb].
    - destruct (Nat.leb_spec m x); cbn [andb]; [|reflexivity]. apply Nat.ltb_lt. lia.
    - destruct (E eq_refl). subst. cbn [Nat.leb andb]. apply Nat.ltb_lt. lia. }
  cbn [combine forallb fst snd map]. f_equal.
  - apply if_ext; [|intros _; now rewrite !Nat.sub_0_r|reflexivity]. rewrite (LB bu a1 b1), (LB br a2 b2), (LB bd a3 b3), (LB bl a4 b4) by assumption. cbn [Nat.leb]. rewrite Nat.sub_0_r, (proj2 (Nat.ltb_lt _ _) Is). cbn [andb]. now rewrite Bool.andb_true_r, !Bool.andb_assoc.
  - apply if_ext; [|intros _; now rewrite !Nat.sub_0_r|reflexivity]. rewrite (HB bu a1 b1), (HB br a2 b2), (HB bd a3 b3), (HB bl a4 b4) by assumption. cbn [Nat.leb]. rewrite Nat.sub_0_r, (proj2 (Nat.ltb_lt _ _) Is). cbn [andb]. now rewrite Bool.andb_true_r, !Bool.andb_assoc.
Qed.

(** All sites. *)
Lemma add_row_ok Lx Ly j T0 : forall ab i,
  (forall n, (n < length ab)%nat -> exists c, add_site Lx Ly (i + n) j (fst (nth n ab (T0, T0))) (snd (nth n ab (T0, T0))) = Ok c) ->
  exists cs : list (tens R), add_row Lx Ly i j ab = Ok cs /\ length cs = length ab /\
    forall n, (n < length ab)%nat -> add_site Lx Ly (i + n) j (fst (nth n ab (T0, T0))) (snd (nth n ab (T0, T0))) = Ok (nth n cs T0).
Proof.
  induction ab as [|[a b] ab IH]; intros i HE; [exists []; cbn; repeat split; intros; lia|]. cbn [add_row].
  destruct (HE 0%nat ltac:(cbn; lia)) as (c & Ec). rewrite Nat.add_0_r in Ec. cbn [nth fst snd] in Ec. rewrite Ec. cbn [bind].
  destruct (IH (S i)) as (cs & E & HL & HN).
  { intros n Hn. destruct (HE (S n)) as (c' & Ec'); [cbn [length]; lia|]. exists c'. replace (S i + n)%nat with (i + S n)%nat by lia. exact Ec'. }
  rewrite E. cbn [bind]. exists (c :: cs). split; [reflexivity|]. split; [cbn [length]; lia|]. intros [|n] Hn; cbn [nth fst snd]; [now rewrite Nat.add_0_r|]. replace (i + S n)%nat with (S i + n)%nat by lia. apply HN. cbn [length] in Hn. lia.
Qed.

Lemma nth_combine {A B} (da : A) (db : B) : forall la lb n, length la = length lb -> nth n (combine la lb) (da, db) = (nth n la da, nth n lb db).
Proof. intros. apply combine_nth. assumption. Qed.

Lemma add_rows_ok Lx Ly T0 W : forall (r1 r2 : list (list (tens R))) j,
  length r1 = length r2 -> Forall (fun r => length r = W) r1 -> Forall (fun r => length r = W) r2 ->
  (forall m i, (m < length r1)%nat -> (i < W)%nat -> exists c, add_site Lx Ly i (j + m) (at_ T0 r1 m i) (at_ T0 r2 m i) = Ok c) ->
  exists cs, add_rows Lx Ly j (combine r1 r2) = Ok cs /\ grid (length r1) W cs /\
    forall m i, (m < length r1)%nat -> (i < W)%nat -> add_site Lx Ly i (j + m) (at_ T0 r1 m i) (at_ T0 r2 m i) = Ok (at_ T0 cs m i).
Proof.
  induction r1 as [|x r1 IH]; intros [|y r2] j HL F1 F2 HE; try discriminate HL; [exists []; cbn; repeat split; auto; intros; lia|]. cbn [combine add_rows].
  inversion F1 as [|? ? Hx F1']; subst. inversion F2 as [|? ? Hy F2']; subst.
  destruct (add_row_ok Lx Ly j T0 (combine x y) 0) as (c & Ec & Lc & Nc).
  { intros n Hn. rewrite combine_length in Hn. rewrite nth_combine by auto. cbn [fst snd Nat.add]. destruct (HE 0%nat n) as (c & Ec); [cbn; lia|lia|]. rewrite Nat.add_0_r in Ec. exists c. exact Ec. }
  rewrite Ec. cbn [bind]. rewrite combine_length in Lc, Nc.
  destruct (IH r2 (S j)) as (cs & E & G & N); auto.
  { intros m i Hm Hi. destruct (HE (S m) i) as (c' & Ec'); [cbn; lia|assumption|]. exists c'. replace (S j + m)%nat with (j + S m)%nat by lia. exact Ec'. }
  rewrite E. cbn [bind]. exists (c :: cs). split; [reflexivity|]. destruct G as [G1 G2]. split; [split; [cbn [length]; lia|constructor; [lia|assumption]]|].
  intros [|m] i Hm Hi.
  - rewrite Nat.add_0_r. specialize (Nc i ltac:(lia)). rewrite nth_combine in Nc by auto. cbn [fst snd Nat.add] in Nc. exact Nc.
  - replace (j + S m)%nat with (S j + m)%nat by lia. apply N; [cbn [length] in Hm; lia|assumption].
Qed.

(** Sums supported on two disjoint sets. *)
Lemma incl_rest {A} : forall (m l : list A), NoDup m -> incl m l -> exists rest, Permutation l (m ++ rest).
Proof.
  induction m as [|x m IH]; intros l HN HI; [exists l; reflexivity|]. inversion HN as [|? ? Hx HN']; subst. destruct (in_split x l) as (l1 & l2 & ->); [apply HI; now left|].
  destruct (IH (l1 ++ l2)) as (rest & HP); auto.
  - intros y Hy. assert (K := HI y (or_intror Hy)). apply in_app_or in K. apply in_or_app. destruct K as [K|[K|K]]; [now left|subst; contradiction|now right].
  - exists rest. cbn [app]. rewrite <- HP. symmetry. apply Permutation_middle.
Qed.

Lemma suml_zero {A} (F : A -> R) l : (forall x, In x l -> F x = 0) -> suml (map F l) = 0.
Proof. induction l as [|x l IH]; intros H; [reflexivity|]. cbn [map suml]. rewrite (H x) by (now left). rewrite IH by (intros; apply H; now right). ring. Qed.

Lemma suml_two {A} (F : A -> R) (l l1 l2 : list A) : NoDup l -> NoDup (l1 ++ l2) -> incl (l1 ++ l2) l -> (forall x, In x l -> ~ In x (l1 ++ l2) -> F x = 0) ->
  suml (map F l) = suml (map F l1) + suml (map F l2).
Proof.
  intros HN HN' HI HZ. destruct (incl_rest _ _ HN' HI) as (rest & HP). rewrite (suml_perm _ _ (Permutation_map F HP)). rewrite !map_app, !suml_app, (suml_zero F rest); [ring|].
  intros x Hx. apply HZ; [apply (Permutation_in _ (Permutation_sym HP)); apply in_or_app; now right|]. intros K. apply (Permutation_NoDup HP) in HN. revert HN K Hx. generalize (l1 ++ l2) as m. clear. induction m as [|y m IH]; intros HN K Hx; [contradiction|].
  cbn [app] in HN. inversion HN as [|? ? Hy HN']; subst. destruct K as [->|K]; [apply Hy, in_or_app; now right|now apply IH].
Qed.

Definition allpair (h v : list (list nat)) : list (list (list nat) * list (list nat)) := list_prod (allgrid h) (allgrid v).
Lemma sum_allpair h v (F : list (list nat) -> list (list nat) -> R) : sumgrid h (fun a => sumgrid v (F a)) = suml (map (fun ab => F (fst ab) (snd ab)) (allpair h v)).
Proof.
  rewrite sumgrid_all. unfold allpair. induction (allgrid h) as [|a l IH]; [reflexivity|]. cbn [map suml list_prod]. rewrite map_app, suml_app, IH. f_equal. rewrite sumgrid_all. f_equal. rewrite map_map. reflexivity.
Qed.
Lemma allpair_in h v a b : In (a, b) (allpair h v) <-> ingrid h a /\ ingrid v b.
Proof. unfold allpair. rewrite in_prod_iff, !allgrid_in. reflexivity. Qed.
Lemma allpair_nodup h v : NoDup (allpair h v).
Proof.
  unfold allpair. generalize (allgrid_nodup h). generalize (allgrid h) as l. induction 1 as [|x l Hx HN IH]; [constructor|]. cbn [list_prod]. 
  assert (G : forall z, In z (map (fun y => (x, y)) (allgrid v)) -> ~ In z (list_prod l (allgrid v))). { intros z Hz K. apply in_map_iff in Hz. destruct Hz as (y & <- & _). apply in_prod_iff in K. tauto. }
  assert (N : NoDup (map (fun y => (x, y)) (allgrid v))). { apply FinFun.Injective_map_NoDup; [intros y y' E; now injection E|apply allgrid_nodup]. }
  revert N G. generalize (map (fun y => (x, y)) (allgrid v)) as m. induction m as [|z m IHm]; intros N G; [exact IH|]. inversion N as [|? ? Hz N']; subst. cbn [app]. constructor.
  - intros K. apply in_app_or in K. destruct K as [K|K]; [contradiction|]. apply (G z); [now left|assumption].
  - apply IHm; [assumption|]. intros z' Hz'. apply G. now right.
Qed.

Lemma prodl_zero {A} (f : A -> R) l x : In x l -> f x = 0 -> prodl (map f l) = 0.
Proof. induction l as [|y l IH]; intros HI E; [contradiction|]. cbn [map prodl]. destruct HI as [->|HI]; [rewrite E; ring|]. rewrite IH by assumption. ring. Qed.
Lemma prodgrid_zero H W (f : nat -> nat -> R) j i : (j < H)%nat -> (i < W)%nat -> f j i = 0 -> prodgrid H W f = 0.
Proof. intros Hj Hi E. unfold prodgrid. apply (prodl_zero _ _ j); [apply in_seq; lia|]. apply (prodl_zero _ _ i); [apply in_seq; lia|exact E]. Qed.
Lemma prodgrid_ext' H W (f g : nat -> nat -> R) : (forall j i, (j < H)%nat -> (i < W)%nat -> f j i = g j i) -> prodgrid H W f = prodgrid H W g.
Proof. intros E. unfold prodgrid. f_equal. apply map_ext_in. intros j Hj. apply in_seq in Hj. f_equal. apply map_ext_in. intros i Hi. apply in_seq in Hi. apply E; lia. Qed.

Lemma find_bad (mono : nat -> nat -> bool) H W : (exists j i, (j < H)%nat /\ (i < W)%nat /\ mono j i = false) \/ (forall j i, (j < H)%nat -> (i < W)%nat -> mono j i = true).
Proof.
  assert (Row : forall j, (exists i, (i < W)%nat /\ mono j i = false) \/ (forall i, (i < W)%nat -> mono j i = true)).
  { intros j. clear H. induction W as [|W' IH]; [right; intros; lia|]. destruct IH as [(i & Hi & E)|IH]; [left; exists i; split; [lia|assumption]|]. destruct (mono j W') eqn:E; [right; intros i Hi; destruct (Nat.eq_dec i W') as [->|]; [assumption|apply IH; lia]|left; exists W'; split; [lia|assumption]]. }
  induction H as [|H IH]; [right; intros; lia|]. destruct IH as [(j & i & Hj & Hi & E)|IH]; [left; exists j, i; repeat split; auto; lia|].
  destruct (Row H) as [(i & Hi & E)|Hr]; [left; exists H, i; repeat split; auto; lia|]. right. intros j i Hj Hi. destruct (Nat.eq_dec j H) as [->|]; [now apply Hr|apply IH; [lia|assumption]].
Qed.

Lemma add_ok H W (p q : peps R) : (1 < H)%nat -> (1 < W)%nat -> peps_ok H W (pdata p) -> peps_ok H W (pdata q) -> pLx p = W -> pLy p = H -> legs_of 0 (pdata q) = legs_of 0 (pdata p) ->
  exists r, peps_add p q = Ok r /\ peps_ok H W (pdata r) /\ legs_of 0 (pdata r) = legs_of 0 (pdata p) /\
    (forall j i, (j < H)%nat -> (S i < W)%nat -> leg 2 (site_at (pdata r) j i) = (leg 2 (site_at (pdata p) j i) + leg 2 (site_at (pdata q) j i))%nat) /\
    (forall j i, (S j < H)%nat -> (i < W)%nat -> leg 3 (site_at (pdata r) j i) = (leg 3 (site_at (pdata p) j i) + leg 3 (site_at (pdata q) j i))%nat) /\
    forall s, ingrid (legs_of 0 (pdata p)) s -> pamp H W (pdata r) s = pamp H W (pdata p) s + pamp H W (pdata q) s.
Proof.
  intros HH HW Hp Hq ELx ELy HL. assert (Hp0 := Hp). assert (Hq0 := Hq). destruct Hp as (_ & _ & Gp & Ip). destruct Hq as (_ & _ & Gq & Iq).
  set (A := fun j i => site_at (pdata p) j i) in *. set (B := fun j i => site_at (pdata q) j i) in *.
  assert (L0 : forall j i, leg 0 (B j i) = leg 0 (A j i)) by (intros j i; unfold A, B; now rewrite <- !at_legs, HL).
  (* every site *)
  assert (SITE : forall j i, (j < H)%nat -> (i < W)%nat -> let bu := Nat.ltb 0 j in let br := Nat.ltb (S i) W in let bd := Nat.ltb (S j) H in let bl := Nat.ltb 0 i in
    exists c, add_site W H i j (A j i) (B j i) = Ok c /\
      tsh c = [leg 0 (A j i); bsz bu (leg 1 (A j i)) (leg 1 (B j i)); bsz br (leg 2 (A j i)) (leg 2 (B j i)); bsz bd (leg 3 (A j i)) (leg 3 (B j i)); bsz bl (leg 4 (A j i)) (leg 4 (B j i))] /\
      forall s u r dn l, incfg (tsh c) [s; u; r; dn; l] ->
      te c [s; u; r; dn; l] = (if low bu (leg 1 (A j i)) u && low br (leg 2 (A j i)) r && low bd (leg 3 (A j i)) dn && low bl (leg 4 (A j i)) l then te (A j i) [s; u; r; dn; l] else 0)
        + (if high bu (leg 1 (A j i)) u && high br (leg 2 (A j i)) r && high bd (leg 3 (A j i)) dn && high bl (leg 4 (A j i)) l then te (B j i) [s; u - off bu (leg 1 (A j i)); r - off br (leg 2 (A j i)); dn - off bd (leg 3 (A j i)); l - off bl (leg 4 (A j i))]%nat else 0)).
  { intros j i Hj Hi bu br bd bl. destruct (Ip j i Hj Hi) as (P5 & P1 & P4 & P3 & P2). destruct (Iq j i Hj Hi) as (Q5 & Q1 & Q4 & Q3 & Q2). fold (A j i) in P5, P1, P2, P3, P4. fold (B j i) in Q5, Q1, Q2, Q3, Q4.
    apply add_site_ok; try lia.
    - apply shape5. exact P5.
    - rewrite <- (L0 j i). apply shape5. exact Q5.
    - unfold bu. intros E. apply Nat.ltb_ge in E. replace j with 0%nat in * by lia. cbn [Nat.eqb] in P1, Q1. auto.
    - unfold br. intros E. apply Nat.ltb_ge in E. split; [apply P2|apply Q2]; lia.
    - unfold bd. intros E. apply Nat.ltb_ge in E. split; [apply P3|apply Q3]; lia.
    - unfold bl. intros E. apply Nat.ltb_ge in E. replace i with 0%nat in * by lia. cbn [Nat.eqb] in P4, Q4. auto. }
  assert (Gp' := Gp). assert (Gq' := Gq). destruct Gp' as [LP FP], Gq' as [LQ FQ].
  destruct (add_rows_ok W H (mkT [] (fun _ => 0)) W (pdata p) (pdata q) 0) as (cs & Ecs & Gcs & Ncs); auto; [congruence| |].
  { intros m i Hm Hi. destruct (SITE m i ltac:(lia) Hi) as (c & Ec & _). exists c. exact Ec. }
  rewrite LP in Gcs, Ncs.
  set (C := fun j i => site_at cs j i).
  assert (SC : forall j i, (j < H)%nat -> (i < W)%nat -> let bu := Nat.ltb 0 j in let br := Nat.ltb (S i) W in let bd := Nat.ltb (S j) H in let bl := Nat.ltb 0 i in
      tsh (C j i) = [leg 0 (A j i); bsz bu (leg 1 (A j i)) (leg 1 (B j i)); bsz br (leg 2 (A j i)) (leg 2 (B j i)); bsz bd (leg 3 (A j i)) (leg 3 (B j i)); bsz bl (leg 4 (A j i)) (leg 4 (B j i))] /\
      forall s u r dn l, incfg (tsh (C j i)) [s; u; r; dn; l] ->
      te (C j i) [s; u; r; dn; l] = (if low bu (leg 1 (A j i)) u && low br (leg 2 (A j i)) r && low bd (leg 3 (A j i)) dn && low bl (leg 4 (A j i)) l then te (A j i) [s; u; r; dn; l] else 0)
        + (if high bu (leg 1 (A j i)) u && high br (leg 2 (A j i)) r && high bd (leg 3 (A j i)) dn && high bl (leg 4 (A j i)) l then te (B j i) [s; u - off bu (leg 1 (A j i)); r - off br (leg 2 (A j i)); dn - off bd (leg 3 (A j i)); l - off bl (leg 4 (A j i))]%nat else 0)).
  { intros j i Hj Hi bu br bd bl. destruct (SITE j i Hj Hi) as (c & Ec & Sc & Vc). assert (E' := Ncs j i Hj Hi). cbn [Nat.add] in E'. unfold A, B, site_at in Ec. rewrite Ec in E'. injection E' as E'. unfold C, site_at. rewrite <- E'. split; assumption. }
  clear SITE Ncs.
  assert (LC : forall j i, (j < H)%nat -> (i < W)%nat -> length (tsh (C j i)) = 5%nat /\ leg 0 (C j i) = leg 0 (A j i) /\ leg 1 (C j i) = bsz (Nat.ltb 0 j) (leg 1 (A j i)) (leg 1 (B j i)) /\ leg 2 (C j i) = bsz (Nat.ltb (S i) W) (leg 2 (A j i)) (leg 2 (B j i)) /\ leg 3 (C j i) = bsz (Nat.ltb (S j) H) (leg 3 (A j i)) (leg 3 (B j i)) /\ leg 4 (C j i) = bsz (Nat.ltb 0 i) (leg 4 (A j i)) (leg 4 (B j i))).
  { intros j i Hj Hi. destruct (SC j i Hj Hi) as [Sc _]. split; [now rewrite Sc|]. repeat split; unfold leg at 1; rewrite Sc; reflexivity. }
  assert (OC : peps_ok H W cs).
  { split; [lia|]. split; [lia|]. split; [exact Gcs|]. intros j i Hj Hi. fold (C j i). destruct (LC j i Hj Hi) as (C5 & C0 & C1 & C2 & C3 & C4). destruct (Ip j i Hj Hi) as (P5 & P1 & P4 & P3 & P2). destruct (Iq j i Hj Hi) as (Q5 & Q1 & Q4 & Q3 & Q2). fold (A j i) in P5, P1, P2, P3, P4. fold (B j i) in Q5, Q1, Q2, Q3, Q4. cbv zeta. split; [exact C5|]. split; [|split; [|split]].
    - rewrite C1. destruct (Nat.eqb_spec j 0) as [->|Nj]; [reflexivity|]. destruct (Nat.ltb_spec 0 j); [|lia]. fold (C (j - 1)%nat i). destruct (LC (j - 1)%nat i ltac:(lia) Hi) as (_ & _ & _ & _ & D3 & _). rewrite D3. destruct (Nat.ltb_spec (S (j - 1)) H); [|lia]. cbn [bsz]. now rewrite P1, Q1.
    - rewrite C4. destruct (Nat.eqb_spec i 0) as [->|Ni]; [reflexivity|]. destruct (Nat.ltb_spec 0 i); [|lia]. fold (C j (i - 1)%nat). destruct (LC j (i - 1)%nat Hj ltac:(lia)) as (_ & _ & _ & D2 & _ & _). rewrite D2. destruct (Nat.ltb_spec (S (i - 1)) W); [|lia]. cbn [bsz]. now rewrite P4, Q4.
    - intros E. rewrite C3. destruct (Nat.ltb_spec (S j) H); [lia|reflexivity].
    - intros E. rewrite C2. destruct (Nat.ltb_spec (S i) W); [lia|reflexivity]. }
  unfold peps_add. rewrite ELx, ELy, Ecs. cbn [bind]. rewrite (init_ok H W cs OC). eexists. split; [reflexivity|]. cbn [pdata]. split; [exact OC|]. split; [|split; [|split]].
  { apply (grid_ext H W); [apply legs_grid; exact Gcs|apply legs_grid; exact Gp|]. intros j i Hj Hi. rewrite !at_legs. now destruct (LC j i Hj Hi) as (_ & C0 & _). }
  { intros j i Hj Hi. destruct (LC j i Hj ltac:(lia)) as (_ & _ & _ & C2 & _). fold (C j i) (A j i) (B j i). rewrite C2. now rewrite (proj2 (Nat.ltb_lt _ _) Hi). }
  { intros j i Hj Hi. destruct (LC j i ltac:(lia) Hi) as (_ & _ & _ & _ & C3 & _). fold (C j i) (A j i) (B j i). rewrite C3. now rewrite (proj2 (Nat.ltb_lt _ _) Hj). }
  intros s Hs. assert (Gs := ingrid_grid _ _ _ _ (legs_grid 0 _ _ _ Gp) Hs).
  assert (Is : forall j i, (j < H)%nat -> (i < W)%nat -> (at_ 0%nat s j i < leg 0 (A j i))%nat).
  { intros j i Hj Hi. unfold A. rewrite <- at_legs. apply (ingrid_at H W); auto. now apply legs_grid. }
  (* shifted bonds *)
  set (sh := fun h => mkgrid H W (fun j i => (off (Nat.ltb (S i) W) (leg 2 (A j i)) + at_ 0%nat h j i)%nat)).
  set (sv := fun v => mkgrid H W (fun j i => (off (Nat.ltb (S j) H) (leg 3 (A j i)) + at_ 0%nat v j i)%nat)).
  set (G := fun (h v : list (list nat)) j i => te (C j i) [at_ 0%nat s j i; (if Nat.eqb j 0 then 0%nat else at_ 0%nat v (j - 1) i); at_ 0%nat h j i; at_ 0%nat v j i; (if Nat.eqb i 0 then 0%nat else at_ 0%nat h j (i - 1))]).
  unfold pamp. fold A B. 
  transitivity (sumgrid (legs_of 2 cs) (fun h => sumgrid (legs_of 3 cs) (fun v => prodgrid H W (G h v)))); [reflexivity|].
  assert (G2c : grid H W (legs_of 2 cs)) by (apply legs_grid; exact Gcs). assert (G3c : grid H W (legs_of 3 cs)) by (apply legs_grid; exact Gcs).
  assert (G2p : grid H W (legs_of 2 (pdata p))) by (apply legs_grid; exact Gp). assert (G3p : grid H W (legs_of 3 (pdata p))) by (apply legs_grid; exact Gp).
  assert (G2q : grid H W (legs_of 2 (pdata q))) by (apply legs_grid; exact Gq). assert (G3q : grid H W (legs_of 3 (pdata q))) by (apply legs_grid; exact Gq).
  rewrite (sum_allpair (legs_of 2 cs)), (sum_allpair (legs_of 2 (pdata p))), (sum_allpair (legs_of 2 (pdata q))).
  (* bounds of bonds of the sum *)
  assert (Bh : forall h, ingrid (legs_of 2 cs) h -> forall j i, (j < H)%nat -> (i < W)%nat -> (at_ 0%nat h j i < bsz (Nat.ltb (S i) W) (leg 2 (A j i)) (leg 2 (B j i)))%nat).
  { intros h Hh j i Hj Hi. destruct (LC j i Hj Hi) as (_ & _ & _ & C2 & _). rewrite <- C2. unfold C. rewrite <- at_legs. apply (ingrid_at H W); auto. apply (ingrid_grid _ _ _ _ G2c Hh). }
  assert (Bv : forall v, ingrid (legs_of 3 cs) v -> forall j i, (j < H)%nat -> (i < W)%nat -> (at_ 0%nat v j i < bsz (Nat.ltb (S j) H) (leg 3 (A j i)) (leg 3 (B j i)))%nat).
  { intros v Hv j i Hj Hi. destruct (LC j i Hj Hi) as (_ & _ & _ & _ & C3 & _). rewrite <- C3. unfold C. rewrite <- at_legs. apply (ingrid_at H W); auto. apply (ingrid_grid _ _ _ _ G3c Hv). }
  (* the value at one site *)
  assert (VG : forall h v, ingrid (legs_of 2 cs) h -> ingrid (legs_of 3 cs) v -> forall j i, (j < H)%nat -> (i < W)%nat ->
    let u := (if Nat.eqb j 0 then 0%nat else at_ 0%nat v (j - 1) i) in let l := (if Nat.eqb i 0 then 0%nat else at_ 0%nat h j (i - 1)) in let r := at_ 0%nat h j i in let dn := at_ 0%nat v j i in
    let bu := Nat.ltb 0 j in let br := Nat.ltb (S i) W in let bd := Nat.ltb (S j) H in let bl := Nat.ltb 0 i in
    G h v j i = (if low bu (leg 1 (A j i)) u && low br (leg 2 (A j i)) r && low bd (leg 3 (A j i)) dn && low bl (leg 4 (A j i)) l then te (A j i) [at_ 0%nat s j i; u; r; dn; l] else 0)
        + (if high bu (leg 1 (A j i)) u && high br (leg 2 (A j i)) r && high bd (leg 3 (A j i)) dn && high bl (leg 4 (A j i)) l then te (B j i) [at_ 0%nat s j i; u - off bu (leg 1 (A j i)); r - off br (leg 2 (A j i)); dn - off bd (leg 3 (A j i)); l - off bl (leg 4 (A j i))]%nat else 0)).
  { intros h v Hh Hv j i Hj Hi u l r dn bu br bd bl. destruct (SC j i Hj Hi) as [Sc Vc]. unfold G. fold u l r dn. apply Vc. rewrite Sc. destruct (Ip j i Hj Hi) as (P5 & P1 & P4 & P3 & P2). destruct (Iq j i Hj Hi) as (Q5 & Q1 & Q4 & Q3 & Q2). fold (A j i) in P5, P1, P2, P3, P4. fold (B j i) in Q5, Q1, Q2, Q3, Q4.
    repeat constructor; [now apply Is| |apply Bh; assumption|apply Bv; assumption|].
    - unfold u. destruct (Nat.eqb_spec j 0) as [->|Nj]; [cbn; lia|]. destruct (Nat.ltb_spec 0 j); [|lia]. assert (K := Bv v Hv (j - 1)%nat i ltac:(lia) Hi). destruct (Nat.ltb_spec (S (j - 1)) H); [|lia]. rewrite P1, Q1. exact K.
    - unfold l. destruct (Nat.eqb_spec i 0) as [->|Ni]; [cbn; lia|]. destruct (Nat.ltb_spec 0 i); [|lia]. assert (K := Bh h Hh j (i - 1)%nat Hj ltac:(lia)). destruct (Nat.ltb_spec (S (i - 1)) W); [|lia]. rewrite P4, Q4. exact K. }
  assert (A14 : forall j i, (j < H)%nat -> (i < W)%nat -> (0 < j -> leg 1 (A j i) = leg 3 (A (j - 1) i))%nat /\ (0 < i -> leg 4 (A j i) = leg 2 (A j (i - 1)))%nat).
  { intros j i Hj Hi. destruct (Ip j i Hj Hi) as (_ & P1 & P4 & _). fold (A j i) in P1, P4. split; intros; [rewrite P1; destruct (Nat.eqb_spec j 0); [lia|reflexivity]|rewrite P4; destruct (Nat.eqb_spec i 0); [lia|reflexivity]]. }
  assert (Inp : forall h v, ingrid (legs_of 2 (pdata p)) h -> ingrid (legs_of 3 (pdata p)) v -> ingrid (legs_of 2 cs) h /\ ingrid (legs_of 3 cs) v /\
     (forall j i, (j < H)%nat -> (i < W)%nat -> (at_ 0%nat h j i < leg 2 (A j i))%nat) /\ (forall j i, (j < H)%nat -> (i < W)%nat -> (at_ 0%nat v j i < leg 3 (A j i))%nat)).
  { intros h v Hh Hv. assert (K1 : forall j i, (j < H)%nat -> (i < W)%nat -> (at_ 0%nat h j i < leg 2 (A j i))%nat) by (intros; unfold A; rewrite <- at_legs; apply (ingrid_at H W); auto; apply (ingrid_grid _ _ _ _ G2p Hh)).
    assert (K2 : forall j i, (j < H)%nat -> (i < W)%nat -> (at_ 0%nat v j i < leg 3 (A j i))%nat) by (intros; unfold A; rewrite <- at_legs; apply (ingrid_at H W); auto; apply (ingrid_grid _ _ _ _ G3p Hv)).
    split; [|split; [|auto]].
    - apply (ingrid_at H W); [exact G2c|apply (ingrid_grid _ _ _ _ G2p Hh)|]. intros j i Hj Hi. rewrite at_legs. fold (C j i). destruct (LC j i Hj Hi) as (_ & _ & _ & C2 & _). rewrite C2. assert (K := K1 j i Hj Hi). destruct (Nat.ltb_spec (S i) W); cbn [bsz]; [lia|]. destruct (Ip j i Hj Hi) as (_ & _ & _ & _ & P2). fold (A j i) in P2. rewrite P2 in K by lia. exact K.
    - apply (ingrid_at H W); [exact G3c|apply (ingrid_grid _ _ _ _ G3p Hv)|]. intros j i Hj Hi. rewrite at_legs. fold (C j i). destruct (LC j i Hj Hi) as (_ & _ & _ & _ & C3 & _). rewrite C3. assert (K := K2 j i Hj Hi). destruct (Nat.ltb_spec (S j) H); cbn [bsz]; [lia|]. destruct (Ip j i Hj Hi) as (_ & _ & _ & P3 & _). fold (A j i) in P3. rewrite P3 in K by lia. exact K. }
  assert (Inq : forall h v, ingrid (legs_of 2 (pdata q)) h -> ingrid (legs_of 3 (pdata q)) v -> ingrid (legs_of 2 cs) (sh h) /\ ingrid (legs_of 3 cs) (sv v)).
  { intros h v Hh Hv. assert (K1 : forall j i, (j < H)%nat -> (i < W)%nat -> (at_ 0%nat h j i < leg 2 (B j i))%nat) by (intros; unfold B; rewrite <- at_legs; apply (ingrid_at H W); auto; apply (ingrid_grid _ _ _ _ G2q Hh)).
    assert (K2 : forall j i, (j < H)%nat -> (i < W)%nat -> (at_ 0%nat v j i < leg 3 (B j i))%nat) by (intros; unfold B; rewrite <- at_legs; apply (ingrid_at H W); auto; apply (ingrid_grid _ _ _ _ G3q Hv)).
    split.
    - apply (ingrid_at H W); [exact G2c|apply mkgrid_grid|]. intros j i Hj Hi. unfold sh. rewrite at_legs, mkgrid_at by assumption. fold (C j i). destruct (LC j i Hj Hi) as (_ & _ & _ & C2 & _). rewrite C2. assert (K := K1 j i Hj Hi). destruct (Nat.ltb_spec (S i) W); cbn [bsz off]; [lia|]. destruct (Iq j i Hj Hi) as (_ & _ & _ & _ & Q2). fold (B j i) in Q2. rewrite Q2 in K by lia. exact K.
    - apply (ingrid_at H W); [exact G3c|apply mkgrid_grid|]. intros j i Hj Hi. unfold sv. rewrite at_legs, mkgrid_at by assumption. fold (C j i). destruct (LC j i Hj Hi) as (_ & _ & _ & _ & C3 & _). rewrite C3. assert (K := K2 j i Hj Hi). destruct (Nat.ltb_spec (S j) H); cbn [bsz off]; [lia|]. destruct (Iq j i Hj Hi) as (_ & _ & _ & Q3 & _). fold (B j i) in Q3. rewrite Q3 in K by lia. exact K. }
  (* a site has a low or a high bond, not both *)
  assert (EX : forall h v j i, (j < H)%nat -> (i < W)%nat ->
    let u := (if Nat.eqb j 0 then 0%nat else at_ 0%nat v (j - 1) i) in let l := (if Nat.eqb i 0 then 0%nat else at_ 0%nat h j (i - 1)) in let r := at_ 0%nat h j i in let dn := at_ 0%nat v j i in
    let bu := Nat.ltb 0 j in let br := Nat.ltb (S i) W in let bd := Nat.ltb (S j) H in let bl := Nat.ltb 0 i in
    low bu (leg 1 (A j i)) u && low br (leg 2 (A j i)) r && low bd (leg 3 (A j i)) dn && low bl (leg 4 (A j i)) l = true ->
    high bu (leg 1 (A j i)) u && high br (leg 2 (A j i)) r && high bd (leg 3 (A j i)) dn && high bl (leg 4 (A j i)) l = true -> False).
  { intros h v j i Hj Hi u l r dn bu br bd bl K1 K2. repeat rewrite Bool.andb_true_iff in K1, K2. destruct K1 as [[[K1 K1'] _] K1l], K2 as [[[K2 K2'] _] K2l]. destruct br eqn:E; [exact (low_not_high _ _ K1' K2')|].
    assert (El : bl = true) by (unfold br, bl in *; apply Nat.ltb_ge in E; apply Nat.ltb_lt; lia). rewrite El in K1l, K2l. exact (low_not_high _ _ K1l K2l). }
  transitivity (suml (map (fun ab => prodgrid H W (G (fst ab) (snd ab))) (allpair (legs_of 2 (pdata p)) (legs_of 3 (pdata p))))
     + suml (map (fun ab => prodgrid H W (G (fst ab) (snd ab))) (map (fun ab => (sh (fst ab), sv (snd ab))) (allpair (legs_of 2 (pdata q)) (legs_of 3 (pdata q)))))).
  - apply suml_two.
    + apply allpair_nodup.
    + assert (N2 : NoDup (map (fun ab : list (list nat) * list (list nat) => (sh (fst ab), sv (snd ab))) (allpair (legs_of 2 (pdata q)) (legs_of 3 (pdata q))))).
      { assert (IN : forall ab, In ab (allpair (legs_of 2 (pdata q)) (legs_of 3 (pdata q))) -> grid H W (fst ab) /\ grid H W (snd ab)).
        { intros [a b] Hab. apply allpair_in in Hab. destruct Hab as [Ha Hb]. split; [apply (ingrid_grid _ _ _ _ G2q Ha)|apply (ingrid_grid _ _ _ _ G3q Hb)]. }
        revert IN. generalize (allpair_nodup (legs_of 2 (pdata q)) (legs_of 3 (pdata q))). generalize (allpair (legs_of 2 (pdata q)) (legs_of 3 (pdata q))) as l. induction 1 as [|[a b] l Hx HN IH]; intros IN; [constructor|]. cbn [map]. constructor; [|apply IH; intros; apply IN; now right].
        intros K. apply in_map_iff in K. destruct K as ([a' b'] & E & Hab). cbn [fst snd] in E. injection E as E1 E2. apply Hx. destruct (IN (a, b) (or_introl eq_refl)) as [Ga Gb]. destruct (IN (a', b') (or_intror Hab)) as [Ga' Gb']. cbn [fst snd] in Ga, Gb, Ga', Gb'.
        assert (a = a'). { apply (grid_ext H W); auto. intros j i Hj Hi. assert (K : at_ 0%nat (sh a') j i = at_ 0%nat (sh a) j i) by (now rewrite E1). unfold sh in K. rewrite !mkgrid_at in K by assumption. lia. }
        assert (b = b'). { apply (grid_ext H W); auto. intros j i Hj Hi. assert (K : at_ 0%nat (sv b') j i = at_ 0%nat (sv b) j i) by (now rewrite E2). unfold sv in K. rewrite !mkgrid_at in K by assumption. lia. }
        now subst. }
      assert (D : forall x, In x (allpair (legs_of 2 (pdata p)) (legs_of 3 (pdata p))) -> ~ In x (map (fun ab : list (list nat) * list (list nat) => (sh (fst ab), sv (snd ab))) (allpair (legs_of 2 (pdata q)) (legs_of 3 (pdata q))))).
      { intros [h v] Hx K. apply allpair_in in Hx. destruct Hx as [Hh Hv]. apply in_map_iff in K. destruct K as ([a b] & E & _). cbn [fst snd] in E. injection E as E1 E2. destruct (Inp h v Hh Hv) as (_ & _ & K1 & _). assert (K := K1 0%nat 0%nat ltac:(lia) ltac:(lia)). rewrite <- E1 in K. unfold sh in K. rewrite mkgrid_at in K by lia. rewrite (proj2 (Nat.ltb_lt 1 W) HW) in K. cbn [off] in K. lia. }
      revert D. generalize (allpair_nodup (legs_of 2 (pdata p)) (legs_of 3 (pdata p))). generalize (allpair (legs_of 2 (pdata p)) (legs_of 3 (pdata p))) as l. induction 1 as [|x l Hx HN IH]; intros D; [exact N2|]. cbn [app]. constructor; [|apply IH; intros; apply D; now right].
      intros K. apply in_app_or in K. destruct K as [K|K]; [contradiction|]. apply (D x); [now left|assumption].
    + intros [h v] K. apply in_app_or in K. destruct K as [K|K].
      * apply allpair_in in K. destruct K as [Hh Hv]. apply allpair_in. destruct (Inp h v Hh Hv) as (K1 & K2 & _). auto.
      * apply in_map_iff in K. destruct K as ([a b] & E & Hab). cbn [fst snd] in E. injection E as <- <-. apply allpair_in in Hab. apply allpair_in. now apply Inq.
    + intros [h v] Hhv Hnot. cbn [fst snd]. apply allpair_in in Hhv. destruct Hhv as [Hh Hv].
      assert (Gh := ingrid_grid _ _ _ _ G2c Hh). assert (Gv := ingrid_grid _ _ _ _ G3c Hv).
      set (lows := fun j i => low (Nat.ltb 0 j) (leg 1 (A j i)) (if Nat.eqb j 0 then 0%nat else at_ 0%nat v (j - 1) i) && low (Nat.ltb (S i) W) (leg 2 (A j i)) (at_ 0%nat h j i) && low (Nat.ltb (S j) H) (leg 3 (A j i)) (at_ 0%nat v j i) && low (Nat.ltb 0 i) (leg 4 (A j i)) (if Nat.eqb i 0 then 0%nat else at_ 0%nat h j (i - 1))).
      set (highs := fun j i => high (Nat.ltb 0 j) (leg 1 (A j i)) (if Nat.eqb j 0 then 0%nat else at_ 0%nat v (j - 1) i) && high (Nat.ltb (S i) W) (leg 2 (A j i)) (at_ 0%nat h j i) && high (Nat.ltb (S j) H) (leg 3 (A j i)) (at_ 0%nat v j i) && high (Nat.ltb 0 i) (leg 4 (A j i)) (if Nat.eqb i 0 then 0%nat else at_ 0%nat h j (i - 1))).
      destruct (find_bad (fun j i => lows j i || highs j i) H W) as [(j & i & Hj & Hi & E)|MONO].
      { apply (prodgrid_zero _ _ _ j i Hj Hi). rewrite (VG h v Hh Hv j i Hj Hi). apply Bool.orb_false_iff in E. destruct E as [E1 E2]. fold (lows j i) (highs j i). rewrite E1, E2. ring. }
      exfalso. apply Hnot. apply in_or_app.
      (* neighbouring sites agree *)
      assert (RT : forall j i, (j < H)%nat -> (S i < W)%nat -> lows j i = true -> lows j (S i) = true).
      { intros j i Hj Hi K. assert (M := MONO j (S i) Hj Hi). cbv beta in M. apply Bool.orb_true_iff in M. destruct M as [M|M]; [exact M|exfalso]. unfold lows in K. unfold highs in M. repeat rewrite Bool.andb_true_iff in K, M. destruct K as [[[_ K] _] _], M as [_ M]. cbn [Nat.eqb] in M. replace (S i - 1)%nat with i in M by lia. destruct (A14 j (S i) Hj Hi) as [_ E4]. rewrite E4 in M by lia. replace (S i - 1)%nat with i in M by lia.
        rewrite (proj2 (Nat.ltb_lt _ _) Hi) in K. cbn [Nat.ltb Nat.leb] in M. exact (low_not_high _ _ K M). }
      assert (RTh : forall j i, (j < H)%nat -> (S i < W)%nat -> highs j i = true -> highs j (S i) = true).
      { intros j i Hj Hi K. assert (M := MONO j (S i) Hj Hi). cbv beta in M. apply Bool.orb_true_iff in M. destruct M as [M|M]; [exfalso|exact M]. unfold highs in K. unfold lows in M. repeat rewrite Bool.andb_true_iff in K, M. destruct K as [[[_ K] _] _], M as [_ M]. cbn [Nat.eqb] in M. replace (S i - 1)%nat with i in M by lia. destruct (A14 j (S i) Hj Hi) as [_ E4]. rewrite E4 in M by lia. replace (S i - 1)%nat with i in M by lia.
        rewrite (proj2 (Nat.ltb_lt _ _) Hi) in K. cbn [Nat.ltb Nat.leb] in M. exact (low_not_high _ _ M K). }
      assert (DN : forall j i, (S j < H)%nat -> (i < W)%nat -> lows j i = true -> lows (S j) i = true).
      { intros j i Hj Hi K. assert (M := MONO (S j) i Hj Hi). cbv beta in M. apply Bool.orb_true_iff in M. destruct M as [M|M]; [exact M|exfalso]. unfold lows in K. unfold highs in M. repeat rewrite Bool.andb_true_iff in K, M. destruct K as [[_ K] _], M as [[[M _] _] _]. cbn [Nat.eqb] in M. replace (S j - 1)%nat with j in M by lia. destruct (A14 (S j) i Hj Hi) as [E1 _]. rewrite E1 in M by lia. replace (S j - 1)%nat with j in M by lia.
        rewrite (proj2 (Nat.ltb_lt _ _) Hj) in K. cbn [Nat.ltb Nat.leb] in M. exact (low_not_high _ _ K M). }
      assert (DNh : forall j i, (S j < H)%nat -> (i < W)%nat -> highs j i = true -> highs (S j) i = true).
      { intros j i Hj Hi K. assert (M := MONO (S j) i Hj Hi). cbv beta in M. apply Bool.orb_true_iff in M. destruct M as [M|M]; [exfalso|exact M]. unfold highs in K. unfold lows in M. repeat rewrite Bool.andb_true_iff in K, M. destruct K as [[_ K] _], M as [[[M _] _] _]. cbn [Nat.eqb] in M. replace (S j - 1)%nat with j in M by lia. destruct (A14 (S j) i Hj Hi) as [E1 _]. rewrite E1 in M by lia. replace (S j - 1)%nat with j in M by lia.
        rewrite (proj2 (Nat.ltb_lt _ _) Hj) in K. cbn [Nat.ltb Nat.leb] in M. exact (low_not_high _ _ M K). }
      assert (M00 := MONO 0%nat 0%nat ltac:(lia) ltac:(lia)). cbv beta in M00. apply Bool.orb_true_iff in M00. destruct M00 as [M00|M00].
      * left. assert (ALL : forall j i, (j < H)%nat -> (i < W)%nat -> lows j i = true).
        { assert (R0 : forall i, (i < W)%nat -> lows 0%nat i = true) by (induction i as [|i IH]; intros Hi; [exact M00|apply RT; [lia|assumption|apply IH; lia]]).
          induction j as [|j IH]; intros i Hj Hi; [now apply R0|]. apply DN; auto. apply IH; [lia|assumption]. }
        apply allpair_in. split.
        -- apply (ingrid_at H W); auto. intros j i Hj Hi. rewrite at_legs. fold (A j i). assert (K := ALL j i Hj Hi). unfold lows in K. repeat rewrite Bool.andb_true_iff in K. destruct K as [[[_ K] _] _]. assert (K' := Bh h Hh j i Hj Hi). destruct (Nat.ltb_spec (S i) W); cbn [bsz low negb orb] in *; [now apply Nat.ltb_lt|]. destruct (Ip j i Hj Hi) as (_ & _ & _ & _ & P2). fold (A j i) in P2. rewrite P2 by lia. exact K'.
        -- apply (ingrid_at H W); auto. intros j i Hj Hi. rewrite at_legs. fold (A j i). assert (K := ALL j i Hj Hi). unfold lows in K. repeat rewrite Bool.andb_true_iff in K. destruct K as [[_ K] _]. assert (K' := Bv v Hv j i Hj Hi). destruct (Nat.ltb_spec (S j) H); cbn [bsz low negb orb] in *; [now apply Nat.ltb_lt|]. destruct (Ip j i Hj Hi) as (_ & _ & _ & P3 & _). fold (A j i) in P3. rewrite P3 by lia. exact K'.
      * right. assert (ALL : forall j i, (j < H)%nat -> (i < W)%nat -> highs j i = true).
        { assert (R0 : forall i, (i < W)%nat -> highs 0%nat i = true) by (induction i as [|i IH]; intros Hi; [exact M00|apply RTh; [lia|assumption|apply IH; lia]]).
          induction j as [|j IH]; intros i Hj Hi; [now apply R0|]. apply DNh; auto. apply IH; [lia|assumption]. }
        set (h' := mkgrid H W (fun j i => (at_ 0%nat h j i - off (Nat.ltb (S i) W) (leg 2 (A j i)))%nat)). set (v' := mkgrid H W (fun j i => (at_ 0%nat v j i - off (Nat.ltb (S j) H) (leg 3 (A j i)))%nat)).
        assert (Kh : forall j i, (j < H)%nat -> (i < W)%nat -> (off (Nat.ltb (S i) W) (leg 2 (A j i)) <= at_ 0%nat h j i)%nat /\ (at_ 0%nat h j i - off (Nat.ltb (S i) W) (leg 2 (A j i)) < leg 2 (B j i))%nat).
        { intros j i Hj Hi. assert (K := ALL j i Hj Hi). unfold highs in K. repeat rewrite Bool.andb_true_iff in K. destruct K as [[[_ K] _] _]. assert (K' := Bh h Hh j i Hj Hi). destruct (Nat.ltb_spec (S i) W); cbn [bsz high negb orb off] in *; [apply Nat.leb_le in K; lia|]. destruct (Iq j i Hj Hi) as (_ & _ & _ & _ & Q2). fold (B j i) in Q2. rewrite Q2 by lia. lia. }
        assert (Kv : forall j i, (j < H)%nat -> (i < W)%nat -> (off (Nat.ltb (S j) H) (leg 3 (A j i)) <= at_ 0%nat v j i)%nat /\ (at_ 0%nat v j i - off (Nat.ltb (S j) H) (leg 3 (A j i)) < leg 3 (B j i))%nat).
        { intros j i Hj Hi. assert (K := ALL j i Hj Hi). unfold highs in K. repeat rewrite Bool.andb_true_iff in K. destruct K as [[_ K] _]. assert (K' := Bv v Hv j i Hj Hi). destruct (Nat.ltb_spec (S j) H); cbn [bsz high negb orb off] in *; [apply Nat.leb_le in K; lia|]. destruct (Iq j i Hj Hi) as (_ & _ & _ & Q3 & _). fold (B j i) in Q3. rewrite Q3 by lia. lia. }
        apply in_map_iff. exists (h', v'). split; [|apply allpair_in; split].
        -- cbn [fst snd]. f_equal; (apply (grid_ext H W); [apply mkgrid_grid|assumption|]); intros j i Hj Hi; unfold sh, sv, h', v'; rewrite !mkgrid_at by assumption; [assert (K := Kh j i Hj Hi)|assert (K := Kv j i Hj Hi)]; lia.
        -- apply (ingrid_at H W); [exact G2q|apply mkgrid_grid|]. intros j i Hj Hi. rewrite at_legs. unfold h'. rewrite mkgrid_at by assumption. fold (B j i). now apply Kh.
        -- apply (ingrid_at H W); [exact G3q|apply mkgrid_grid|]. intros j i Hj Hi. rewrite at_legs. unfold v'. rewrite mkgrid_at by assumption. fold (B j i). now apply Kv.
  - f_equal.
    + f_equal. apply map_ext_in. intros [h v] Hhv. cbn [fst snd]. apply allpair_in in Hhv. destruct Hhv as [Hh Hv]. destruct (Inp h v Hh Hv) as (Hh' & Hv' & Kh & Kv). apply prodgrid_ext'. intros j i Hj Hi. rewrite (VG h v Hh' Hv' j i Hj Hi).
      assert (E := EX h v j i Hj Hi). cbv zeta in E.
      match type of E with ?a = true -> ?b = true -> False => assert (Ea : a = true); [|assert (Eb : b = false) by (destruct b; [exfalso; auto|reflexivity])] end.
      { destruct (A14 j i Hj Hi) as [E1 E4]. repeat (apply Bool.andb_true_iff; split).
        - destruct (Nat.eqb_spec j 0) as [->|Nj]; [reflexivity|]. unfold low. rewrite E1 by lia. rewrite (proj2 (Nat.ltb_lt (at_ 0%nat v (j - 1) i) _) (Kv (j - 1)%nat i ltac:(lia) Hi)). apply Bool.orb_true_r.
        - unfold low. rewrite (proj2 (Nat.ltb_lt (at_ 0%nat h j i) _) (Kh j i Hj Hi)). apply Bool.orb_true_r.
        - unfold low. rewrite (proj2 (Nat.ltb_lt (at_ 0%nat v j i) _) (Kv j i Hj Hi)). apply Bool.orb_true_r.
        - destruct (Nat.eqb_spec i 0) as [->|Ni]; [reflexivity|]. unfold low. rewrite E4 by lia. rewrite (proj2 (Nat.ltb_lt (at_ 0%nat h j (i - 1)) _) (Kh j (i - 1)%nat Hj ltac:(lia))). apply Bool.orb_true_r. }
      rewrite Ea, Eb. fold (A j i). ring.
    + rewrite map_map. cbn [fst snd]. f_equal. apply map_ext_in. intros [h v] Hhv. cbn [fst snd]. apply allpair_in in Hhv. destruct Hhv as [Hh Hv]. destruct (Inq h v Hh Hv) as (Hh' & Hv'). apply prodgrid_ext'. intros j i Hj Hi. rewrite (VG _ _ Hh' Hv' j i Hj Hi).
      assert (E := EX (sh h) (sv v) j i Hj Hi). cbv zeta in E.
      match type of E with ?a = true -> ?b = true -> False => assert (Eb : b = true); [|assert (Ea : a = false) by (destruct a; [exfalso; auto|reflexivity])] end.
      { destruct (A14 j i Hj Hi) as [E1 E4]. repeat (apply Bool.andb_true_iff; split).
        - destruct (Nat.eqb_spec j 0) as [->|Nj]; [reflexivity|]. unfold high, sv. rewrite mkgrid_at by lia. rewrite E1 by lia. rewrite (proj2 (Nat.ltb_lt (S (j - 1)) H)) by lia. cbn [off]. apply Bool.orb_true_iff. right. apply Nat.leb_le. lia.
        - unfold high, sh. rewrite mkgrid_at by lia. destruct (Nat.ltb_spec (S i) W); cbn [off negb orb]; [|reflexivity]. apply Nat.leb_le. lia.
        - unfold high, sv. rewrite mkgrid_at by lia. destruct (Nat.ltb_spec (S j) H); cbn [off negb orb]; [|reflexivity]. apply Nat.leb_le. lia.
        - destruct (Nat.eqb_spec i 0) as [->|Ni]; [reflexivity|]. unfold high, sh. rewrite mkgrid_at by lia. rewrite E4 by lia. rewrite (proj2 (Nat.ltb_lt (S (i - 1)) W)) by lia. cbn [off]. apply Bool.orb_true_iff. right. apply Nat.leb_le. lia. }
      rewrite Ea, Eb. fold (B j i). match goal with |- 0 + te ?b ?x = te ?b ?y => replace x with y; [ring|] end. destruct (A14 j i Hj Hi) as [E1 E4]. unfold sh, sv. rewrite !(mkgrid_at 0%nat H W _ j i Hj Hi). f_equal. f_equal; [|f_equal; [lia|f_equal; [lia|f_equal]]].
      * destruct (Nat.eqb_spec j 0) as [->|Nj]; [reflexivity|]. rewrite mkgrid_at by lia. rewrite E1 by lia. rewrite (proj2 (Nat.ltb_lt 0 j)) by lia. rewrite (proj2 (Nat.ltb_lt (S (j - 1)) H)) by lia. cbn [off]. lia.
      * destruct (Nat.eqb_spec i 0) as [->|Ni]; [reflexivity|]. rewrite mkgrid_at by lia. rewrite E4 by lia. rewrite (proj2 (Nat.ltb_lt 0 i)) by lia. rewrite (proj2 (Nat.ltb_lt (S (i - 1)) W)) by lia. cbn [off]. lia.
Qed.

(** A side recorded as 1 or less: AssertionError. *)
Lemma add_narrow H W (p q : peps R) : peps_ok H W (pdata p) -> peps_ok H W (pdata q) -> (pLx p <= 1 \/ pLy p <= 1)%nat -> peps_add p q = Err AssertionError.
Proof.
  intros (HH & HW & [L1 F1] & _) (_ & _ & [L2 F2] & _) HX. unfold peps_add. destruct (pdata p) as [|r1 d1]; [cbn in L1; lia|]. destruct (pdata q) as [|r2 d2]; [cbn in L2; lia|]. inversion F1; subst. inversion F2; subst.
  destruct r1 as [|a r1]; [cbn in HW; lia|]. destruct r2 as [|b r2]; [discriminate|]. cbn [combine add_rows add_row]. unfold add_site. 
  replace (Nat.ltb 1 (pLx p) && Nat.ltb 1 (pLy p)) with false; [reflexivity|]. symmetry. apply Bool.andb_false_iff. destruct HX; [left|right]; now apply Nat.ltb_ge.
Qed.
End FullAdd.
