(** The transposed, mirrored and rotated operator. *)
From Verif Require Import Alg ModelMPS SpecMPS ModelNcon SpecNcon ModelEk ModelNp ModelTensor ModelDecomp ModelPeps SpecTensor SpecPeps ProofEk4 ProofTrace ProofTrace2 ProofNp ProofNcon2 ProofPeps ProofPeps2 ProofPeps3 ProofPeps4 ProofPeps5 ProofPeps6 ProofPeps9 ProofPeps11 ProofApprox ModelMpo.
From Coq Require Import Permutation.
Import ListNotations.
Local Notation prod_ := (fold_right Nat.mul 1%nat).

Section Proofs.
Context {R : sring}.
Local Open Scope sr_scope.
Add Ring Rr : (s_th R).
Notation T0 := (mkT [] (fun _ => 0 : R)).

Definition ud (A : tens R) : tens R := mkT [leg 2 A; leg 1 A; leg 0 A; leg 3 A] (fun i => te A [nth 2 i 0; nth 1 i 0; nth 0 i 0; nth 3 i 0]%nat).
Definition lr (A : tens R) : tens R := mkT [leg 0 A; leg 3 A; leg 2 A; leg 1 A] (fun i => te A [nth 0 i 0; nth 3 i 0; nth 2 i 0; nth 1 i 0]%nat).
Definition ro (A : tens R) : tens R := mkT [leg 3 A; leg 0 A; leg 1 A; leg 2 A] (fun i => te A [nth 1 i 0; nth 2 i 0; nth 3 i 0; nth 0 i 0]%nat).
Definition un (A : tens R) : tens R := mkT [leg 1 A; leg 2 A; leg 3 A; leg 0 A] (fun i => te A [nth 3 i 0; nth 0 i 0; nth 1 i 0; nth 2 i 0]%nat).

Ltac four A := intros H; destruct A as [sh f]; cbn [tsh] in H; do 4 (destruct sh as [|? sh]; [discriminate|]); destruct sh; [|discriminate]; reflexivity.
Lemma ud_ok (A : tens R) : length (tsh A) = 4%nat -> transpose_ [2; 1; 0; 3]%nat A = Ok (ud A). Proof. four A. Qed.
Lemma lr_ok (A : tens R) : length (tsh A) = 4%nat -> transpose_ [0; 3; 2; 1]%nat A = Ok (lr A). Proof. four A. Qed.
Lemma ro_ok (A : tens R) : length (tsh A) = 4%nat -> transpose_ [3; 0; 1; 2]%nat A = Ok (ro A). Proof. four A. Qed.
Lemma un_ok (A : tens R) : length (tsh A) = 4%nat -> transpose_ [1; 2; 3; 0]%nat A = Ok (un A). Proof. four A. Qed.

Lemma map_site (f : tens R -> res (tens R)) g (l : list (tens R)) : (forall A, length (tsh A) = 4%nat -> f A = Ok (g A)) -> Forall (fun A => length (tsh A) = 4%nat) l -> mapM f l = Ok (map g l).
Proof. intros H. induction 1 as [|A l HA _ IH]; [reflexivity|]. cbn [mapM map]. rewrite (H A HA). cbn [bind]. rewrite IH. reflexivity. Qed.

Lemma ok_four (l : list (tens R)) : mpo_ok l -> Forall (fun A => length (tsh A) = 4%nat) l.
Proof. intros [_ H]. apply Forall_forall. intros A HA. apply (In_nth _ _ T0) in HA as (n & Hn & <-). apply (H n Hn). Qed.

Lemma before_lt L n : (n < L)%nat -> (before L n < L)%nat.
Proof. unfold before. intros. destruct (Nat.eqb_spec n 0); lia. Qed.

Lemma nth_map' (g : tens R -> tens R) l n : (n < length l)%nat -> nth n (map g l) T0 = g (nth n l T0).
Proof. intros Hn. rewrite (nth_indep _ T0 (g T0)) by now rewrite map_length. apply map_nth. Qed.

Lemma ud_mpo (l : list (tens R)) : mpo_ok l -> mpo_ok (map ud l).
Proof.
  intros [H1 H2]. split; [destruct l; [congruence|discriminate]|]. rewrite map_length. intros n Hn. cbv zeta. rewrite !nth_map' by auto using before_lt.
  split; [reflexivity|]. exact (proj2 (H2 n Hn)).
Qed.

Lemma ud_mop (l : list (tens R)) us ds : mop (map ud l) us ds = mop l ds us.
Proof.
  unfold mop. rewrite map_map, map_length. cbn [leg ud tsh nth]. change (fun x : tens R => leg 1 x) with (@leg R 1). apply sumcfg_ext. intros h _. f_equal. apply map_ext_in. intros n Hn. apply in_seq in Hn.
  rewrite nth_map' by lia. reflexivity.
Qed.

Theorem mpo_ud_spec (m : mpo R) : mpo_ok (odata m) ->
  exists q, mpo_transpose_ud m = Ok q /\ mpo_ok (odata q) /\ length (odata q) = length (odata m) /\ oL q = oL m /\ od q = od m /\ oX q = oX m /\
    map (leg 0) (odata q) = map (leg 2) (odata m) /\ map (leg 2) (odata q) = map (leg 0) (odata m) /\
    forall us ds, mop (odata q) us ds = mop (odata m) ds us.
Proof.
  intros H. unfold mpo_transpose_ud. rewrite (map_site _ ud _ ud_ok (ok_four _ H)). cbn [bind]. eexists. split; [reflexivity|]. cbn [odata oL od oX].
  split; [now apply ud_mpo|]. rewrite map_length, !map_map. do 4 (split; [reflexivity|]). split; [reflexivity|]. split; [reflexivity|]. apply ud_mop.
Qed.

Theorem mpo_ud_matrix S (m : mpo R) : setio_ok S -> mpo_ok (odata m) -> oL m = length (odata m) -> (1 < oL m)%nat ->
  exists q M N, mpo_transpose_ud m = Ok q /\ mpo_recombine S m = Ok M /\ mpo_recombine S q = Ok N /\ mat_eq N (mtr M).
Proof.
  intros HS H HL H1. destruct (mpo_ud_spec m H) as (q & E & Q1 & Q2 & Q3 & _ & _ & Q6 & Q7 & Q8).
  destruct (mpo_recombine_ok S m HS H HL H1) as (M & EM & M1 & M2 & VM). destruct (mpo_recombine_ok S q HS Q1 ltac:(congruence) ltac:(congruence)) as (N & EN & N1 & N2 & VN).
  exists q, M, N. do 3 (split; [assumption|]). rewrite Q6, Q7 in *. unfold mat_eq. cbn [mtr mr mc me]. split; [congruence|]. split; [congruence|]. intros i j Hi Hj.
  rewrite N1 in Hi. rewrite N2 in Hj. destruct (position_onto _ _ Hi) as (us & Hus & <-). destruct (position_onto _ _ Hj) as (ds & Hds & <-). rewrite VN, VM, Q8 by assumption. reflexivity.
Qed.

(** mirrored *)
Definition after (L n : nat) : nat := if Nat.eqb n (L - 1) then 0%nat else S n.

Lemma nth_mirror (l : list (tens R)) n : (n < length l)%nat -> nth n (rev (map lr l)) T0 = lr (nth (length l - 1 - n) l T0).
Proof. intros Hn. rewrite rev_nth by now rewrite map_length. rewrite map_length, nth_map' by lia. do 2 f_equal. lia. Qed.

Lemma mirror_ok (l : list (tens R)) : mpo_ok l -> mpo_ok (rev (map lr l)).
Proof.
  intros [H1 H2]. split; [intros K; apply (f_equal (@length _)) in K; rewrite rev_length, map_length in K; destruct l; [congruence|discriminate]|].
  rewrite rev_length, map_length. intros n Hn. cbv zeta. rewrite !nth_mirror by auto using before_lt. split; [reflexivity|]. cbn [leg lr tsh nth].
  assert (Hb := before_lt _ _ Hn). rewrite (proj2 (H2 (length l - 1 - before (length l) n)%nat ltac:(lia))). f_equal. f_equal. unfold before.
  destruct (Nat.eqb_spec n 0).
  - subst. destruct (Nat.eqb_spec (length l - 1 - (length l - 1)) 0); lia.
  - destruct (Nat.eqb_spec (length l - 1 - (n - 1)) 0); lia.
Qed.

Lemma seq_rev_perm L : Permutation (map (fun n => (L - 1 - n)%nat) (seq 0 L)) (seq 0 L).
Proof.
  assert (E : map (fun n => (L - 1 - n)%nat) (seq 0 L) = rev (seq 0 L)).
  { apply (nth_ext _ _ 0%nat 0%nat); [now rewrite map_length, rev_length|]. intros n Hn. rewrite map_length, seq_length in Hn.
    rewrite (nth_indep _ 0%nat (L - 1 - 0)%nat) by now rewrite map_length, seq_length. rewrite (map_nth (fun n => (L - 1 - n)%nat)). rewrite rev_nth by now rewrite seq_length. rewrite seq_length, !seq_nth by lia. lia. }
  rewrite E. symmetry. apply Permutation_rev.
Qed.

(** the sizes of the left legs are those of the right legs, turned by one place *)
Lemma left_legs (l : list (tens R)) a x : mpo_ok l -> map (leg 1) l = a ++ [x] -> map (leg 3) l = x :: a.
Proof.
  intros [H1 H2] E. assert (La : length l = S (length a)) by (apply (f_equal (@length _)) in E; rewrite map_length, app_length in E; cbn in E; lia).
  apply (nth_ext _ _ 0%nat 0%nat); [rewrite map_length; cbn; lia|]. intros n Hn. rewrite map_length in Hn.
  assert (G : forall k i, (i < length l)%nat -> nth i (map (leg k) l) 0%nat = leg k (nth i l T0)).
  { intros k i Hi. rewrite (nth_indep _ 0%nat (leg k T0)) by now rewrite map_length. apply map_nth. }
  rewrite G by exact Hn. rewrite (proj2 (H2 n Hn)), <- (G 1%nat) by now apply before_lt. rewrite E. unfold before. destruct n as [|n]; cbn [Nat.eqb nth].
  - replace (length l - 1)%nat with (length a) by lia. rewrite app_nth2, Nat.sub_diag by lia. reflexivity.
  - replace (S n - 1)%nat with n by lia. rewrite app_nth1 by lia. reflexivity.
Qed.

Lemma mirror_mop (l : list (tens R)) us ds : mpo_ok l -> length us = length l -> length ds = length l -> mop (rev (map lr l)) (rev us) (rev ds) = mop l us ds.
Proof.
  intros H Lu Ld. assert (Hne : l <> []) by apply H. unfold mop. rewrite rev_length, map_length.
  assert (EL : map (leg 1) (rev (map lr l)) = rev (map (leg 3) l)) by (rewrite map_rev, map_map; reflexivity).
  rewrite EL, sumcfg_rev.
  destruct (@exists_last _ (map (leg 1) l)) as (a & x & E1); [destruct l; [congruence|discriminate]|]. rewrite E1, (left_legs l a x H E1).
  assert (La : length l = S (length a)) by (apply (f_equal (@length _)) in E1; rewrite map_length, app_length in E1; cbn in E1; lia).
  change (x :: a) with ([x] ++ a). rewrite !sumcfg_app, sumcfg_swap. apply sumcfg_ext. intros s Hs. apply sumcfg_ext. intros t Ht.
  assert (Ls := incfg_length _ _ Hs). inversion Ht as [|y ? t' ? Hy Ht']; subst. inversion Ht'; subst. cbn [app].
  set (L := length l) in *.
  symmetry. etransitivity; [symmetry; apply prodl_perm, Permutation_map, (seq_rev_perm L)|]. symmetry. rewrite map_map. f_equal. apply map_ext_in. intros n Hn. apply in_seq in Hn.
  assert (B := before_lt L n ltac:(lia)).
  rewrite nth_mirror by (fold L; lia). fold L. cbn [lr te nth].
  assert (RN : forall (u : list nat) k, (k < L)%nat -> length u = L -> nth k (rev u) 0%nat = nth (L - S k) u 0%nat) by (intros u k Hk Hu; rewrite rev_nth, Hu by lia; reflexivity).
  change (rev s ++ [y]) with (rev (y :: s)). assert (Ly : length (y :: s) = L) by (cbn [length]; lia). rewrite (RN us) by lia. rewrite (RN ds) by lia. rewrite (RN (y :: s) (before L n)) by assumption. rewrite (RN (y :: s) n) by (assumption || lia).
  f_equal. f_equal; [f_equal; lia|]. f_equal; [|f_equal; [f_equal; lia|f_equal]].
  - unfold before in *. destruct (Nat.eqb_spec n 0) as [->|Hn0].
    + replace (L - S (L - 1))%nat with 0%nat by lia. cbn [nth]. rewrite app_nth2 by lia. replace (L - 1 - 0 - length s)%nat with 0%nat by lia. reflexivity.
    + replace (L - S (n - 1))%nat with (S (L - 1 - n)) by lia. cbn [nth]. now rewrite app_nth1 by lia.
  - unfold before in *. destruct (Nat.eqb_spec (L - 1 - n) 0).
    + replace (L - S n)%nat with 0%nat by lia. cbn [nth]. rewrite app_nth2 by lia. replace (L - 1 - length s)%nat with 0%nat by lia. reflexivity.
    + replace (L - S n)%nat with (S (L - 1 - n - 1)) by lia. cbn [nth]. now rewrite app_nth1 by lia.
Qed.

Theorem mpo_mirror_spec (m : mpo R) : mpo_ok (odata m) ->
  exists q, mpo_transpose_lr m = Ok q /\ mpo_ok (odata (mpo_reverse q)) /\ length (odata (mpo_reverse q)) = length (odata m) /\
    oL (mpo_reverse q) = oL m /\ od (mpo_reverse q) = od m /\ oX (mpo_reverse q) = oX m /\
    (forall us ds, length us = length (odata m) -> length ds = length (odata m) -> mop (odata (mpo_reverse q)) (rev us) (rev ds) = mop (odata m) us ds).
Proof.
  intros H. unfold mpo_transpose_lr. rewrite (map_site _ lr _ lr_ok (ok_four _ H)). cbn [bind]. eexists. split; [reflexivity|]. cbn [odata oL od oX mpo_reverse].
  split; [now apply mirror_ok|]. rewrite rev_length, map_length. do 4 (split; [reflexivity|]). intros us ds. now apply mirror_mop.
Qed.

(** turned by a right angle and back *)
Lemma init_map (g : tens R -> tens R) (l : list (tens R)) : l <> [] -> (forall A, length (tsh (g A)) = 4%nat) ->
  exists d X, mpo_init (map g l) = Ok (mkMpo (map g l) (length l) d X) /\ d = leg 0 (g (nth 0 l T0)).
Proof.
  intros Hl Hg. unfold mpo_init. destruct l as [|A l]; [congruence|]. cbn [map getitem nth_error bind].
  assert (E : forall B, existsb (fun x : tens R => Nat.leb (length (tsh x)) 1) (map g B) = false).
  { induction B as [|B Bs IH]; [reflexivity|]. cbn [map existsb]. rewrite Hg, IH. reflexivity. }
  assert (HA := Hg A). destruct (tsh (g A)) as [|d sh] eqn:Es; [discriminate|]. cbn [nth_error bind]. rewrite (E (A :: l) : existsb _ (g A :: map g l) = false). cbn [length]. rewrite map_length.
  do 2 eexists. split; [reflexivity|]. unfold leg. cbn [nth]. now rewrite Es.
Qed.

Theorem mpo_rotate_spec (m : mpo R) : mpo_ok (odata m) ->
  exists q r, mpo_rotate_90 m = Ok q /\ mpo_unrotate_90 q = Ok r /\ Forall2 (permuted [3; 0; 1; 2]%nat) (odata m) (odata q) /\
    Forall2 (fun A B => tsh B = tsh A /\ forall i, length i = 4%nat -> te B i = te A i) (odata m) (odata r) /\
    oL q = length (odata m) /\ oL r = length (odata m) /\ od q = leg 3 (nth 0 (odata m) T0) /\ od r = leg 0 (nth 0 (odata m) T0).
Proof.
  intros H. assert (H4 := ok_four _ H). unfold mpo_rotate_90. rewrite (map_site _ ro _ ro_ok H4). cbn [bind].
  destruct (init_map ro (odata m) (proj1 H) ltac:(reflexivity)) as (d & X & E & Ed). rewrite E. eexists. unfold mpo_unrotate_90.
  assert (H4' : Forall (fun A : tens R => length (tsh A) = 4%nat) (map ro (odata m))) by (apply Forall_forall; intros A HA; apply in_map_iff in HA as (B & <- & _); reflexivity).
  destruct (init_map un (map ro (odata m)) ltac:(destruct (odata m); [destruct H; congruence|discriminate]) ltac:(reflexivity)) as (d' & X' & E' & Ed').
  eexists. split; [reflexivity|]. cbn [odata oL od]. rewrite (map_site _ un _ un_ok H4'). cbn [bind]. split; [exact E'|]. cbn [odata oL od].
  split; [|split; [|rewrite map_length; split; [reflexivity|]; split; [reflexivity|]; split; [exact Ed|]]].
  - clear -H4. induction H4 as [|A l HA _ IH]; [constructor|]. constructor; [|exact IH].
    split; [reflexivity|]. intros i Hi. do 4 (destruct i as [|? i]; [discriminate|]). destruct i; [reflexivity|discriminate].
  - rewrite map_map. clear -H4. induction H4 as [|A l HA _ IH]; constructor; [|exact IH]. destruct A as [sh f]. cbn [tsh] in HA. do 4 (destruct sh as [|? sh]; [discriminate|]). destruct sh; [|discriminate].
    split; [reflexivity|]. intros i Hi. do 4 (destruct i as [|? i]; [discriminate|]). destruct i; [reflexivity|discriminate].
  - rewrite Ed'. rewrite nth_map' by (destruct H as [Hne _]; destruct (odata m); [congruence|cbn; lia]). reflexivity.
Qed.

(** random and trivial *)
Lemma structure_len L d X : length (mpo_structure L d X) = (2 + (L - 2))%nat.
Proof. unfold mpo_structure. rewrite !app_length, map_length, seq_length. cbn. lia. Qed.

Lemma structure_nth L d X n : (n < 2 + (L - 2))%nat ->
  nth n (mpo_structure L d X) [] = [d; if Nat.eqb n (L - 2 + 1) then 1 else X; d; if Nat.eqb n 0 then 1 else X]%nat.
Proof.
  intros Hn. unfold mpo_structure. destruct n as [|n]; cbn [app nth].
  - replace (Nat.eqb 0 (L - 2 + 1)) with false by (symmetry; apply Nat.eqb_neq; lia). reflexivity.
  - destruct (Nat.eqb_spec (S n) (L - 2 + 1)).
    + rewrite app_nth2 by (rewrite map_length, seq_length; lia). rewrite map_length, seq_length. replace (n - (L - 2))%nat with 0%nat by lia. reflexivity.
    + rewrite app_nth1 by (rewrite map_length, seq_length; lia). rewrite (nth_indep _ [] ((fun _ => [d; X; d; X]) 0%nat)) by (rewrite map_length, seq_length; lia). rewrite (map_nth (fun _ => [d; X; d; X]) _ 0%nat). reflexivity.
Qed.

Lemma shaped_ok L d X (l : list (tens R)) : map tsh l = mpo_structure L d X ->
  mpo_ok l /\ length l = (2 + (L - 2))%nat /\ map (leg 0) l = repeat d (length l) /\ map (leg 2) l = repeat d (length l) /\ leg 3 (nth 0 l T0) = 1%nat.
Proof.
  intros E. assert (Ll : length l = (2 + (L - 2))%nat) by (rewrite <- (map_length tsh), E; apply structure_len).
  assert (G : forall n, (n < length l)%nat -> tsh (nth n l T0) = [d; if Nat.eqb n (L - 2 + 1) then 1 else X; d; if Nat.eqb n 0 then 1 else X]%nat).
  { intros n Hn. rewrite <- (map_nth tsh l T0 n). change (tsh T0) with (@nil nat). rewrite E. apply structure_nth. lia. }
  split; [|split; [exact Ll|]].
  - split; [intros ->; discriminate|]. intros n Hn. cbv zeta. rewrite G by exact Hn. split; [reflexivity|]. unfold leg. rewrite !G by auto using before_lt. cbn [nth]. unfold before.
    destruct (Nat.eqb_spec n 0).
    + replace (Nat.eqb (length l - 1) (L - 2 + 1)) with true by (symmetry; apply Nat.eqb_eq; lia). reflexivity.
    + replace (Nat.eqb (n - 1) (L - 2 + 1)) with false by (symmetry; apply Nat.eqb_neq; lia). reflexivity.
  - assert (Q : forall k, (k = 0 \/ k = 2)%nat -> map (leg k) l = repeat d (length l)).
    { intros k Hk. apply (nth_ext _ _ 0%nat 0%nat); [now rewrite map_length, repeat_length|]. intros n Hn. rewrite map_length in Hn.
      rewrite (nth_indep _ 0%nat (leg k T0)) by now rewrite map_length. rewrite map_nth. unfold leg. rewrite G by exact Hn.
      rewrite (nth_indep (repeat d (length l)) 0%nat d) by now rewrite repeat_length. rewrite nth_repeat. destruct Hk as [-> | ->]; reflexivity. }
    split; [apply Q; auto|]. split; [apply Q; auto|]. unfold leg. rewrite G by lia. reflexivity.
Qed.

Theorem mpo_random_spec draw L d X : let m := mpo_random draw L d X in
  mpo_ok (odata m) /\ length (odata m) = Nat.max 2 L /\ oL m = L /\ od m = d /\ oX m = X /\ leg 3 (nth 0 (odata m) T0) = 1%nat /\
  map (leg 0) (odata m) = repeat d (length (odata m)) /\ map (leg 2) (odata m) = repeat d (length (odata m)).
Proof.
  intros m. assert (E : map tsh (odata m) = mpo_structure L d X).
  { unfold m, mpo_random. cbn [odata]. rewrite map_map. cbn [tsh]. generalize (mpo_structure L d X). clear. intros l. generalize 0%nat. induction l as [|x l IH]; intros k; [reflexivity|]. cbn [length seq combine map snd]. now rewrite IH. }
  destruct (shaped_ok L d X _ E) as (S1 & S2 & S3 & S4 & S5). split; [exact S1|]. split; [rewrite S2; lia|]. do 3 (split; [reflexivity|]). auto.
Qed.

Theorem mpo_trivial_spec L : let data := @mpo_trivial_data R L in
  mpo_ok data /\ length data = Nat.max 2 L /\ forall us ds, mop data us ds = 1.
Proof.
  intros data. assert (E : map tsh data = mpo_structure L 1 1) by (unfold data, mpo_trivial_data; rewrite map_map; cbn [tsh]; apply map_id).
  destruct (shaped_ok L 1 1 _ E) as (S1 & S2 & S3 & S4 & S5). split; [exact S1|]. split; [rewrite S2; lia|]. intros us ds. unfold mop.
  assert (E1 : map (leg 1) data = repeat 1%nat (length data)).
  { apply (nth_ext _ _ 0%nat 0%nat); [now rewrite map_length, repeat_length|]. intros n Hn. rewrite map_length in Hn.
    rewrite (nth_indep _ 0%nat (leg 1 T0)) by now rewrite map_length. rewrite map_nth. rewrite (nth_indep (repeat 1%nat (length data)) 0%nat 1%nat) by now rewrite repeat_length. rewrite nth_repeat.
    unfold leg. rewrite <- (map_nth tsh data T0 n). change (tsh T0) with (@nil nat). rewrite E, structure_nth by lia. cbn [nth]. now destruct (Nat.eqb n (L - 2 + 1)). }
  rewrite E1. assert (Q : forall n (f : list nat -> R), (forall h, f h = 1) -> sumcfg (repeat 1%nat n) f = 1).
  { induction n as [|n IH]; intros f Hf; [apply Hf|]. cbn [repeat sumcfg]. rewrite sum_one. apply IH. intros; apply Hf. }
  apply Q. intros h. apply prodl_ones. apply Forall_forall. intros y Hy. apply in_map_iff in Hy as (n & <- & Hn). apply in_seq in Hn.
  assert (W : In (nth n data T0) data) by (apply nth_In; lia). unfold data, mpo_trivial_data in W |- *. apply in_map_iff in W as (sh & <- & _). reflexivity.
Qed.
End Proofs.
