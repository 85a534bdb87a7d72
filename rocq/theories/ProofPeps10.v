(** Matrix product operators: recombination and product. *)
From Verif Require Import Alg ModelMPS SpecMPS ModelNcon SpecNcon ModelEk ModelNp ModelTensor ModelPeps SpecTensor ProofNcon ProofNcon3 ProofNcon4 ProofEk2 ProofEk4 ProofTrace ProofTrace2 ProofNp SpecPeps ProofPeps ProofPeps2 ProofPeps3.
From Coq Require Import Permutation Sorted.
Import ListNotations.
Local Notation prod_ := (fold_right Nat.mul 1%nat).

Section Mpo.
Context {R : sring}.
Local Open Scope sr_scope.
Add Ring Rr : (s_th R).
Notation T0 := (mkT [] (fun _ => 0 : R)).

Lemma shape4 (A : tens R) : length (tsh A) = 4%nat -> tsh A = [leg 0 A; leg 1 A; leg 2 A; leg 3 A].
Proof. unfold leg. destruct (tsh A) as [|a [|b [|c [|d [|]]]]]; cbn; try discriminate. reflexivity. Qed.

Lemma mul_site_ok S (W W_ : tens R) k a1 a2 a3 b0 b1 b3 : setio_ok S -> tsh W = [k; a1; a2; a3] -> tsh W_ = [b0; b1; k; b3] ->
  exists T, mul_site S W W_ = Ok T /\ tsh T = [b0; a1 * b1; a2; b3 * a3]%nat /\
    forall u hb ha d lb la, (u < b0)%nat -> (hb < b1)%nat -> (ha < a1)%nat -> (d < a2)%nat -> (lb < b3)%nat -> (la < a3)%nat ->
      te T [u; hb * a1 + ha; d; lb * a3 + la]%nat = sum k (fun x => te W_ [u; hb; x; lb] * te W [x; ha; d; la]).
Proof.
  intros HS HW HW'.
  set (ld := assign [1; -1; -2; -3; -4; -5; -6]%Z [k; b0; b1; a1; a2; b3; a3]).
  assert (WF : well_formed ld [W; W_] [[1; -3; -4; -6]; [-1; -2; 1; -5]]%Z [1]%Z [-1; -2; -3; -4; -5; -6]%Z).
  { split; [discriminate|]. split; [repeat constructor; assumption|]. split; [repeat constructor; cbn; tauto|].
    split; [repeat constructor; cbn; lia|]. split; [|split].
    - intros l [<-|[]]. split; [lia|reflexivity].
    - intros l Hl. cbn in Hl. repeat (destruct Hl as [<-|Hl]; [split; [lia|reflexivity]|]). contradiction.
    - intros l Hl. cbn [concat app In] in Hl. cbn [In]. tauto. }
  assert (SS : StronglySorted Z.gt [-1; -2; -3; -4; -5; -6]%Z) by (repeat constructor; lia).
  destruct (ncon_default_ok S ld _ _ _ _ false HS WF SS) as (T & E & HT & V).
  unfold mul_site. rewrite E. cbn [bind]. rewrite HW, HW'. cbn [getitem nth_error bind rev app].
  unfold reshape_. rewrite HT. cbn [map]. unfold ld. cbn [assign eupd Z.eqb Pos.eqb fold_right]. unfold eupd. cbn [Z.eqb Pos.eqb].
  match goal with |- context [Nat.eqb ?x ?y] => replace (Nat.eqb x y) with true by (symmetry; apply Nat.eqb_eq; ring) end.
  eexists. split; [reflexivity|]. split; [reflexivity|]. intros u hb ha d lb la Hu Hb Ha Hd Hl Hl'. cbn [te tsh].
  match goal with |- context [unravel ?sh ?n] => replace (unravel sh n) with [u; hb; ha; d; lb; la] end.
  - rewrite V by reflexivity. cbn [esum]. unfold ld. cbn [assign]. unfold eupd. cbn [Z.eqb Pos.eqb]. apply sum_ext. intros x _. unfold tprod. cbn [combine map prodl fst snd Z.eqb Pos.eqb]. ring.
  - transitivity (unravel [b0; b1; a1; a2; b3; a3] (ravel [b0; b1; a1; a2; b3; a3] [u; hb; ha; d; lb; la])).
    + symmetry. apply unravel_ravel. repeat constructor; assumption.
    + f_equal. cbn [ravel fold_right]. ring.
Qed.

Definition mcell (A : tens R) : cell R := mkC (leg 1 A) (leg 2 A) (fun u r d l => te A [u; r; d; l]).

Fixpoint mok (l : nat) (data : list (tens R)) (r : nat) : Prop :=
  match data with
  | [] => l = r
  | A :: data => length (tsh A) = 4%nat /\ leg 3 A = l /\ mok (leg 1 A) data r
  end.

Lemma mok_index row : forall l r, mok l row r <->
  ((row = [] -> l = r) /\ forall i, (i < length row)%nat -> length (tsh (nth i row T0)) = 4%nat /\
     leg 3 (nth i row T0) = (if Nat.eqb i 0 then l else leg 1 (nth (i - 1) row T0)) /\
     (S i = length row -> leg 1 (nth i row T0) = r)).
Proof.
  induction row as [|A row IH]; intros l r; cbn [mok].
  - split; [intros ->; split; [auto|cbn; lia]|intros [H _]; auto].
  - rewrite IH. split.
    + intros (H5 & H4 & Hn & H). split; [discriminate|]. intros [|i] Hi; cbn [nth Nat.eqb].
      * split; [assumption|]. split; [assumption|]. intros He. apply Hn. destruct row; [reflexivity|cbn in He; lia].
      * destruct (H i) as (K5 & K4 & Kr); [cbn in Hi; lia|]. split; [assumption|].
        replace (S i - 1)%nat with i by lia. split.
        -- rewrite K4. destruct i; cbn [Nat.eqb nth]; [reflexivity|]. now replace (S i - 1)%nat with i by lia.
        -- intros He. apply Kr. cbn in He. lia.
    + intros [_ H]. destruct (H 0%nat) as (K5 & K4 & Kr); [cbn; lia|]. cbn [nth Nat.eqb] in K5, K4, Kr.
      split; [assumption|]. split; [assumption|]. split.
      * intros ->. apply Kr. reflexivity.
      * intros i Hi. destruct (H (S i)) as (L5 & L4 & Lr); [cbn; lia|]. cbn [nth Nat.eqb] in L5, L4, Lr.
        replace (S i - 1)%nat with i in L4 by lia. split; [assumption|]. split.
        -- rewrite L4. destruct i; cbn [Nat.eqb nth]; [reflexivity|]. now replace (S i - 1)%nat with i by lia.
        -- intros He. apply Lr. cbn. lia.
Qed.

Definition lastleg (data : list (tens R)) : nat := leg 1 (nth (length data - 1) data T0).

Lemma mpo_mok data : mpo_ok data <-> data <> [] /\ mok (lastleg data) data (lastleg data).
Proof.
  unfold mpo_ok, before. rewrite mok_index. split; intros [Hn H].
  - split; [assumption|]. split; [contradiction|]. intros i Hi. destruct (H i Hi) as [H4 H3]. split; [assumption|]. split.
    + rewrite H3. now destruct (Nat.eqb i 0).
    + intros He. unfold lastleg. f_equal. f_equal. lia.
  - split; [assumption|]. destruct H as [_ H]. intros i Hi. destruct (H i Hi) as (H4 & H3 & _). split; [assumption|]. rewrite H3. now destruct (Nat.eqb i 0).
Qed.

Lemma lastR_leg data : forall x, data <> [] -> lastR x (map mcell data) = lastleg data.
Proof.
  induction data as [|A data IH]; intros x Hn; [contradiction|]. cbn [map lastR mcell cr]. destruct data as [|B data]; [reflexivity|].
  rewrite IH by discriminate. unfold lastleg. cbn [length Nat.sub nth]. now rewrite Nat.sub_0_r.
Qed.
Lemma mok_lastR data : forall l r, mok l data r -> lastR l (map mcell data) = r.
Proof. induction data as [|A data IH]; intros l r H; [exact H|]. destruct H as (_ & _ & H). cbn [map lastR mcell cr]. now apply IH. Qed.

Lemma mrow_index row : forall us ds h l, length us = length row -> length ds = length row -> length h = length row ->
  prodl (map (fun i => te (nth i row T0) [nth i us 0%nat; nth i h 0%nat; nth i ds 0%nat; (if Nat.eqb i 0 then l else nth (i - 1) h 0%nat)]) (seq 0 (length row)))
  = rprod (map mcell row) us ds l h.
Proof.
  induction row as [|A row IH]; intros us ds h l Hu Hd Hh; [reflexivity|].
  destruct us as [|u us]; [discriminate|]. destruct ds as [|d ds]; [discriminate|].
  destruct h as [|k h]; [discriminate|]. cbn [length seq map prodl rprod nth Nat.eqb mcell ce].
  f_equal. rewrite <- (IH us ds h k) by (cbn in *; lia). rewrite <- seq_shift, map_map. f_equal. apply map_ext_in. intros i Hi.
  cbn [nth Nat.eqb]. replace (S i - 1)%nat with i by lia. destruct i; cbn [Nat.eqb nth]; [reflexivity|]. now replace (S i - 1)%nat with i by lia.
Qed.

Lemma last_nth (h : list nat) d : last h d = nth (length h - 1) h d.
Proof. induction h as [|x h IH]; [reflexivity|]. cbn [last length Nat.sub]. destruct h as [|y h]; [reflexivity|]. rewrite IH. cbn [length Nat.sub nth]. now rewrite Nat.sub_0_r. Qed.

Lemma rprod_last cs : forall us ds l r, length us = length cs -> length ds = length cs ->
  sumcfg (map cr cs) (fun h => rprod cs us ds l h * dlt (last h l) r) = rowS (cs : list (cell R)) us ds l r.
Proof.
  induction cs as [|c cs IH]; intros us ds l r Hu Hd.
  - destruct us; [|discriminate]. destruct ds; [|discriminate]. cbn [map sumcfg rprod rowS last]. ring.
  - destruct us as [|u us]; [discriminate|]. destruct ds as [|d ds]; [discriminate|]. cbn [map sumcfg rprod rowS].
    apply sum_ext. intros k Hk. rewrite <- (IH us ds k r) by (cbn in *; lia). rewrite <- sumcfg_mul_l. apply sumcfg_ext. intros h Hh.
    assert (E : last (k :: h) l = last h k) by (clear; revert k l; induction h as [|x h IH]; intros k l; [reflexivity|]; change (last (x :: h) l = last (x :: h) k); now rewrite (IH x l), (IH x k)).
    rewrite E. ring.
Qed.

Lemma ring_sum cs us ds x : (cs : list (cell R)) <> [] -> length us = length cs -> length ds = length cs ->
  sumcfg (map cr cs) (fun h => rprod cs us ds (nth (length cs - 1) h 0%nat) h) = sum (lastR x cs) (fun r => rowS cs us ds r r).
Proof.
  intros Hn Hu Hd. rewrite (sum_ext _ _ (fun r => sumcfg (map cr cs) (fun h => rprod cs us ds r h * dlt (last h r) r))) by (intros; symmetry; now apply rprod_last).
  rewrite <- sumcfg_sum. apply sumcfg_ext. intros h Hh.
  assert (HL : length h = length cs) by (apply incfg_length in Hh; now rewrite map_length in Hh).
  assert (EL : forall r, last h r = nth (length cs - 1) h 0%nat).
  { intros r. rewrite last_nth, HL. apply nth_indep. destruct cs; [contradiction|]. rewrite HL. cbn. lia. }
  rewrite (sum_ext _ _ (fun r => dlt (nth (length cs - 1) h 0%nat) r * rprod cs us ds r h)) by (intros r _; rewrite EL; ring).
  rewrite sum_dlt_l; [reflexivity|]. clear -Hn Hh HL. revert h Hn Hh HL x. induction cs as [|c cs IH]; intros h Hn Hh HL x; [contradiction|].
  destruct h as [|k h]; [discriminate|]. inversion Hh as [|? ? ? ? Hk Hh']. subst. cbn [lastR length Nat.sub]. destruct cs as [|c' cs]; [exact Hk|]. cbn [length Nat.sub nth]. specialize (IH h ltac:(discriminate) Hh' ltac:(now injection HL) (cr c)). cbn [length Nat.sub] in IH. now rewrite Nat.sub_0_r in IH.
Qed.

Lemma mop_rowS data us ds : data <> [] -> length us = length data -> length ds = length data ->
  mop data us ds = sum (lastleg data) (fun r => rowS (map mcell data) us ds r r).
Proof.
  intros Hn Hu Hd. unfold mop. rewrite <- (lastR_leg data 0%nat Hn).
  assert (Hm : map mcell data <> []) by (destruct data; [contradiction|discriminate]).
  rewrite <- (ring_sum (map mcell data) us ds 0%nat Hm) by (now rewrite map_length).
  rewrite map_map. apply sumcfg_ext. intros h Hh. assert (HL : length h = length data) by (apply incfg_length in Hh; now rewrite map_length in Hh).
  rewrite map_length, <- mrow_index by assumption. f_equal. apply map_ext. intros n. unfold before. now destruct (Nat.eqb n 0).
Qed.

(** Recombination. *)
Definition rl (L m : nat) : Z := if Nat.eqb m (L - 1) then Z.of_nat L + 1 else Z.of_nat m + 1.
Definition ul (m : nat) : Z := - Z.of_nat m - 1.
Definition dnl (L m : nat) : Z := - Z.of_nat L - Z.of_nat m - 1.

Lemma labels_eq L : (1 < L)%nat -> mpo_labels L = map (fun m => [ul m; rl L m; dnl L m; rl L (before L m)]) (seq 0 L).
Proof.
  intros HL. unfold mpo_labels. replace (Z.to_nat (Z.of_nat L - 2)) with (L - 2)%nat by lia.
  replace (seq 0 L) with ([0%nat] ++ map S (seq 0 (L - 2)) ++ [(L - 1)%nat]).
  - rewrite !map_app, map_map. f_equal; [|f_equal].
    + cbn [map]. unfold ul, rl, dnl, before. destruct (Nat.eqb_spec 0 (L - 1)); [lia|]. rewrite !Nat.eqb_refl. repeat (f_equal; try lia).
    + apply map_ext_in. intros n Hn. apply in_seq in Hn. unfold ul, rl, dnl, before. destruct (Nat.eqb_spec (S n) 0); [lia|]. destruct (Nat.eqb_spec (S n) (L - 1)); [lia|]. replace (S n - 1)%nat with n by lia. destruct (Nat.eqb_spec n (L - 1)); [lia|]. repeat (f_equal; try lia).
    + cbn [map]. unfold ul, rl, dnl, before. rewrite Nat.eqb_refl. destruct (Nat.eqb_spec (L - 1) 0); [lia|]. destruct (Nat.eqb_spec (L - 1 - 1) (L - 1)); [lia|]. repeat (f_equal; try lia).
  - rewrite seq_shift. replace L with (1 + (L - 2) + 1)%nat at 3 by lia. rewrite !seq_app. cbn [seq Nat.add]. rewrite <- app_assoc. cbn [app]. do 3 f_equal. lia.
Qed.

Lemma cnt_quads (f1 f2 f3 f4 : nat -> Z) l ms : cnt (concat (map (fun m => [f1 m; f2 m; f3 m; f4 m]) ms)) l
  = (cnt (map f1 ms) l + cnt (map f2 ms) l + cnt (map f3 ms) l + cnt (map f4 ms) l)%nat.
Proof.
  induction ms as [|m ms IH]; [reflexivity|]. cbn [map concat app count_occ]. rewrite IH.
  destruct (Z.eq_dec (f1 m) l), (Z.eq_dec (f2 m) l), (Z.eq_dec (f3 m) l), (Z.eq_dec (f4 m) l); lia.
Qed.

Lemma before_perm L : Permutation (map (before L) (seq 0 L)) (seq 0 L).
Proof.
  destruct L as [|L]; [constructor|]. rewrite seq_S at 2. cbn [seq map]. unfold before at 1. cbn [Nat.eqb Nat.sub Nat.add]. rewrite Nat.sub_0_r.
  rewrite <- seq_shift, map_map. rewrite (map_ext _ (fun n => n)) by (intros n; unfold before; cbn [Nat.eqb]; lia). rewrite map_id. apply Permutation_cons_append.
Qed.

Lemma NoDup_map_inj {A B} (f : A -> B) l : NoDup l -> (forall x y, In x l -> In y l -> f x = f y -> x = y) -> NoDup (map f l).
Proof.
  induction 1 as [|x l Hx Hl IH]; intros Hf; [constructor|]. cbn [map]. constructor.
  - intros G. apply in_map_iff in G. destruct G as (y & E & Hy). apply Hx. rewrite (Hf x y); auto; [now left|now right].
  - apply IH. intros y z Hy Hz. apply Hf; now right.
Qed.

Definition mforder (L : nat) : list Z := map ul (seq 0 L) ++ map (dnl L) (seq 0 L).
Lemma mforder_eq L : mforder L = map ul (seq 0 (2 * L)).
Proof.
  unfold mforder. replace (2 * L)%nat with (L + L)%nat by lia. rewrite seq_app, map_app. f_equal. cbn [Nat.add]. rewrite (seq_shift_map L L), map_map. apply map_ext. intros n. unfold ul, dnl. lia.
Qed.

Lemma sorted_ul n : forall a, StronglySorted Z.gt (map ul (seq a n)).
Proof.
  induction n as [|n IH]; intros a; [constructor|]. cbn [seq map]. constructor; [apply IH|]. apply Forall_forall. intros x Hx. apply in_map_iff in Hx. destruct Hx as (m & <- & Hm). apply in_seq in Hm. unfold ul. lia.
Qed.

Definition mld (data : list (tens R)) (l : Z) : nat :=
  let L := Z.of_nat (length data) in
  if Z.ltb 0 l then (if Z.eqb l (L + 1) then leg 1 (nth (length data - 1) data T0) else leg 1 (nth (Z.to_nat (l - 1)) data T0))
  else if Z.leb (- l) L then leg 0 (nth (Z.to_nat (- l - 1)) data T0) else leg 2 (nth (Z.to_nat (- l - 1 - L)) data T0).

Lemma mld_ul data m : (m < length data)%nat -> mld data (ul m) = leg 0 (nth m data T0).
Proof. intros H. unfold mld, ul. destruct (Z.ltb_spec 0 (- Z.of_nat m - 1)); [lia|]. destruct (Z.leb_spec (- (- Z.of_nat m - 1)) (Z.of_nat (length data))); [|lia]. do 2 f_equal. lia. Qed.
Lemma mld_dnl data m : (m < length data)%nat -> mld data (dnl (length data) m) = leg 2 (nth m data T0).
Proof. intros H. unfold mld, dnl. destruct (Z.ltb_spec 0 (- Z.of_nat (length data) - Z.of_nat m - 1)); [lia|]. destruct (Z.leb_spec (- (- Z.of_nat (length data) - Z.of_nat m - 1)) (Z.of_nat (length data))); [lia|]. do 2 f_equal. lia. Qed.
Lemma mld_rl data m : (m < length data)%nat -> mld data (rl (length data) m) = leg 1 (nth m data T0).
Proof.
  intros H. unfold mld, rl. destruct (Nat.eqb_spec m (length data - 1)).
  - destruct (Z.ltb_spec 0 (Z.of_nat (length data) + 1)); [|lia]. rewrite Z.eqb_refl. now subst m.
  - destruct (Z.ltb_spec 0 (Z.of_nat m + 1)); [|lia]. destruct (Z.eqb_spec (Z.of_nat m + 1) (Z.of_nat (length data) + 1)); [lia|]. do 2 f_equal. lia.
Qed.
Lemma before_lt L m : (m < L)%nat -> (before L m < L)%nat.
Proof. unfold before. destruct (Nat.eqb_spec m 0); lia. Qed.

Lemma map_nth_seq {A B} (f : A -> B) (l : list A) d : map (fun n => f (nth n l d)) (seq 0 (length l)) = map f l.
Proof.
  induction l as [|x l IH]; [reflexivity|]. cbn [length seq map nth]. f_equal. rewrite <- seq_shift, map_map. exact IH.
Qed.

Lemma ncon_mpo S (data : list (tens R)) : setio_ok S -> mpo_ok data -> (1 < length data)%nat ->
  exists T, ncon S data (mpo_labels (length data)) None None false = Ok T /\ tsh T = map (leg 0) data ++ map (leg 2) data /\
    forall us ds, length us = length data -> length ds = length data -> te T (us ++ ds) = mop data us ds.
Proof.
  intros HS [Hn Hok] HL. set (L := length data) in *. rewrite labels_eq by exact HL.
  set (v := map (fun m => [ul m; rl L m; dnl L m; rl L (before L m)]) (seq 0 L)). set (order := map (rl L) (seq 0 L)).
  assert (NO : NoDup order). { apply NoDup_map_inj; [apply seq_NoDup|]. intros x y Hx Hy. apply in_seq in Hx, Hy. unfold rl. destruct (Nat.eqb_spec x (L - 1)), (Nat.eqb_spec y (L - 1)); lia. }
  assert (NF : NoDup (mforder L)). { rewrite mforder_eq. apply NoDup_map_inj; [apply seq_NoDup|]. intros x y _ _. unfold ul. lia. }
  assert (PO : forall l, In l order -> (0 < l)%Z). { intros l Hl. apply in_map_iff in Hl. destruct Hl as (m & <- & Hm). unfold rl. destruct (Nat.eqb m (L - 1)); lia. }
  assert (NG : forall l, In l (mforder L) -> (l < 0)%Z). { intros l Hl. rewrite mforder_eq in Hl. apply in_map_iff in Hl. destruct Hl as (m & <- & Hm). unfold ul. lia. }
  assert (HC : forall l, cnt (concat v) l = (cnt (mforder L) l + 2 * cnt order l)%nat).
  { intros l. unfold v. rewrite cnt_quads. unfold mforder. rewrite count_occ_app. unfold order.
    assert (E : cnt (map (fun m => rl L (before L m)) (seq 0 L)) l = cnt (map (rl L) (seq 0 L)) l).
    { rewrite <- (map_map (before L) (rl L)). apply (proj1 (Permutation_count_occ Z.eq_dec _ _)). apply Permutation_map, before_perm. }
    rewrite E. lia. }
  assert (WF : well_formed (mld data) data v order (mforder L)).
  { split; [|split; [|split; [exact NO|split; [exact NF|split; [|split]]]]].
    - unfold v. destruct L; [lia|]. discriminate.
    - unfold v. clear -Hok. assert (H : forall n, (n < length data)%nat -> tsh (nth n data T0) = map (mld data) [ul n; rl L n; dnl L n; rl L (before L n)]).
      { intros n Hn. destruct (Hok n Hn) as [H4 H3]. rewrite (shape4 _ H4), H3. cbn [map]. subst L. rewrite mld_ul, mld_dnl, !mld_rl; auto. now apply before_lt. }
      assert (G : Forall2 (fun A w => tsh A = map (mld data) w) (map (fun n => nth n data T0) (seq 0 (length data))) (map (fun m => [ul m; rl L m; dnl L m; rl L (before L m)]) (seq 0 (length data)))).
      { clear Hok. revert H. generalize (seq_length (length data) 0). intros _ H. assert (K : forall n, In n (seq 0 (length data)) -> (n < length data)%nat) by (intros n Hn; apply in_seq in Hn; lia).
        revert K. generalize (seq 0 (length data)) as ns. induction ns as [|n ns IH]; intros K; [constructor|]. cbn [map]. constructor; [apply H, K; now left|apply IH; intros; apply K; now right]. }
      rewrite (map_nth_seq (fun A => A)), map_id in G. exact G.
    - intros l Hl. split; [now apply PO|]. rewrite HC. rewrite (proj1 (NoDup_count_occ' Z.eq_dec _) NO) by assumption. rewrite (proj1 (count_occ_not_In Z.eq_dec _ _)); [reflexivity|]. intros G. apply NG in G. apply PO in Hl. lia.
    - intros l Hl. split; [now apply NG|]. rewrite HC. rewrite (proj1 (NoDup_count_occ' Z.eq_dec _) NF) by assumption. rewrite (proj1 (count_occ_not_In Z.eq_dec order l)); [reflexivity|]. intros G. apply PO in G. apply NG in Hl. lia.
    - intros l Hl. apply (count_occ_In Z.eq_dec) in Hl. rewrite HC in Hl. destruct (in_dec Z.eq_dec l (mforder L)) as [G|G]; [now right|left]. apply (count_occ_not_In Z.eq_dec) in G. apply (count_occ_In Z.eq_dec). lia. }
  destruct (ncon_default_ok S (mld data) data v order (mforder L) false HS WF) as (T & E & HT & V); [rewrite mforder_eq; apply sorted_ul|].
  exists T. split; [exact E|]. split.
  - rewrite HT. unfold mforder. rewrite map_app, !map_map. f_equal.
    + rewrite <- (map_nth_seq (leg 0) data T0). apply map_ext_in. intros n Hn'. apply in_seq in Hn'. apply mld_ul. lia.
    + rewrite <- (map_nth_seq (leg 2) data T0). apply map_ext_in. intros n Hn'. apply in_seq in Hn'. apply mld_dnl. lia.
  - intros us ds Hu Hd. assert (HLn : length (us ++ ds) = length (mforder L)) by (rewrite app_length, mforder_eq, map_length, seq_length; lia).
    rewrite V by exact HLn. rewrite esum_cfg. unfold mop. fold L.
    replace (map (mld data) order) with (map (leg 1) data).
    2:{ unfold order. rewrite map_map. rewrite <- (map_nth_seq (leg 1) data T0). apply map_ext_in. intros n Hn'. apply in_seq in Hn'. symmetry. apply mld_rl. lia. }
    apply sumcfg_ext. intros h Hh. assert (Lh : length h = L) by (apply incfg_length in Hh; now rewrite map_length in Hh).
    set (e := assign (mforder L) (us ++ ds)). unfold tprod. f_equal.
    assert (EU : forall n, (n < L)%nat -> e (ul n) = nth n us 0%nat /\ e (dnl L n) = nth n ds 0%nat).
    { assert (HE : map e (mforder L) = us ++ ds) by (apply assign_map; assumption). unfold mforder in HE. rewrite map_app in HE. apply app_inv_len in HE; [|rewrite !map_length, seq_length; lia].
      destruct HE as [H1 H2]. intros n Hn'. split; [rewrite <- H1|rewrite <- H2]; rewrite map_map; rewrite (nth_map_ (fun x => e (_ x))) by (now rewrite seq_length); now rewrite seq_nth by assumption. }
    assert (ER : forall n, (n < L)%nat -> eupds e order h (rl L n) = nth n h 0%nat).
    { assert (HE : map (eupds e order h) order = h) by (apply eupds_map; [exact NO|unfold order; rewrite map_length, seq_length; exact Lh]).
      intros n Hn'. transitivity (nth n (map (eupds e order h) order) 0%nat); [|now rewrite HE]. transitivity (nth n (map (fun x => eupds e order h (rl L x)) (seq 0 L)) 0%nat); [|unfold order at 3; now rewrite map_map].
      rewrite (nth_map_ (fun x => eupds e order h (rl L x))) by (now rewrite seq_length). now rewrite seq_nth by assumption. }
    assert (EF : forall l, (l < 0)%Z -> eupds e order h l = e l) by (intros l Hl; apply eupds_other; intros G; apply PO in G; lia).
    assert (K : forall ns, (forall n, In n ns -> (n < L)%nat) ->
      map (fun Tv => te (fst Tv) (map (eupds e order h) (snd Tv))) (combine (map (fun n => nth n data T0) ns) (map (fun m => [ul m; rl L m; dnl L m; rl L (before L m)]) ns))
      = map (fun n => te (nth n data T0) [nth n us 0%nat; nth n h 0%nat; nth n ds 0%nat; nth (before L n) h 0%nat]) ns).
    { clear -EU ER EF HL. induction ns as [|n ns IH]; intros K; [reflexivity|]. cbn [map combine fst snd]. assert (Hn : (n < L)%nat) by (apply K; now left). f_equal; [|apply IH; intros; apply K; now right].
      rewrite (EF (ul n)), (EF (dnl L n)), (proj1 (EU n Hn)), (proj2 (EU n Hn)), !ER by (auto using before_lt; unfold ul, dnl; lia). reflexivity. }
    rewrite <- (K (seq 0 L)) by (intros n Hn'; apply in_seq in Hn'; lia). unfold L at 1. rewrite (map_nth_seq (fun A => A) data T0), map_id. reflexivity.
Qed.
End Mpo.
