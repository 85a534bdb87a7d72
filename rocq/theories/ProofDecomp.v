(** Proofs about uqr, urq. *)
From Verif Require Import Alg ModelMPS SpecMPS ModelOrth SpecOrth ModelCanon SpecCanon ModelDecomp SpecDecomp.

Section Proof.
Context {R : sring}.
Add Ring Rr : (s_th R).
Local Open Scope sr_scope.

Section Sign.
Variable nonneg : R -> Prop.
Variable O : decomp R.
Hypothesis HO : decomp_ok nonneg O.

Lemma sgn_at x : sconj x = x -> sconj (de_sgn O x) = de_sgn O x /\ nonneg (de_sgn O x * x) /\ (x <> 0 -> de_sgn O x * de_sgn O x = 1).
Proof. intros H. destruct HO as (_ & _ & _ & (_ & Hs) & _). exact (Hs x H). Qed.

(** The value of the two products in all cases. *)
Lemma uqr_run A q r : de_qr O A = Some (q, r) ->
  exists q' r', uqr O A = Ok (q', r') /\ mr q' = mr q /\ mc q' = mc q /\ mr r' = mr r /\ mc r' = mc r /\
    (forall i k, k < mc q -> me q' i k = me q i k * de_sgn O (me r k k)) /\
    (forall k j, k < mr r -> me r' k j = de_sgn O (me r k k) * me r k j).
Proof.
  intros E. unfold uqr. rewrite E. destruct HO as (Hq & _). destruct (Hq _ _ _ E) as (Hk & (P1 & P2 & P3 & P4) & _).
  unfold mprod, signs. cbn [mr mc mdiag].
  assert (Hm : Nat.min (mr r) (mc r) = mr r) by lia. rewrite Hm.
  rewrite P1, !Nat.eqb_refl. cbn [bind]. eexists. eexists. split; [reflexivity|]. cbn [mr mc me mdiag].
  repeat split.
  - intros i k Hk'. cbn. rewrite (sum_single _ k); [|lia|].
    + now rewrite Nat.eqb_refl.
    + intros l Hl Hne. destruct (Nat.eqb_spec l k); [contradiction|ring].
  - intros k j Hk'. cbn. rewrite (sum_single _ k); [|lia|].
    + now rewrite Nat.eqb_refl.
    + intros l Hl Hne. destruct (Nat.eqb_spec k l); [now subst|ring].
Qed.

(** A = q r with orthonormal q, triangular r with non-negative diagonal. *)
Lemma uqr_ok A q r : de_qr O A = Some (q, r) -> nz_diag r ->
  exists q' r', uqr O A = Ok (q', r') /\ posqr nonneg A q' r'.
Proof.
  intros E Hnz. destruct (uqr_run A q r E) as (q' & r' & E' & D1 & D2 & D3 & D4 & V1 & V2).
  exists q', r'. split; [exact E'|].
  destruct HO as (Hq & _). destruct (Hq _ _ _ E) as (Hk & (P1 & P2 & P3 & P4) & Hor & Htri & Hreal).
  assert (Hs : forall k, k < mr r -> de_sgn O (me r k k) * de_sgn O (me r k k) = 1).
  { intros k H. apply sgn_at; [now apply Hreal|]. apply Hnz. lia. }
  assert (Hsr : forall k, k < mr r -> sconj (de_sgn O (me r k k)) = de_sgn O (me r k k)).
  { intros k H. now apply sgn_at, Hreal. }
  split; [split; [|split; [|split; [|split]]]|].
  - congruence.
  - split; [congruence|]. split; [congruence|]. split; [congruence|]. intros i j Hi Hj. rewrite (P4 i j Hi Hj), D2.
    apply sum_ext. intros k Hk'. rewrite V1, V2 by lia.
    transitivity (de_sgn O (me r k k) * de_sgn O (me r k k) * (me q i k * me r k j)); [rewrite Hs by lia; ring|ring].
  - intros i j Hi Hj. rewrite D2 in Hi, Hj. rewrite D1.
    rewrite (sum_ext _ _ (fun k => de_sgn O (me r i i) * de_sgn O (me r j j) * (sconj (me q k i) * me q k j))).
    2:{ intros k _. rewrite !V1 by lia. rewrite conj_mul, Hsr by lia. ring. }
    rewrite sum_mul_l, Hor by lia. unfold dlt. destruct (Nat.eqb_spec i j).
    + subst. rewrite Hs by lia. ring.
    + ring.
  - intros i j Hij Hi. rewrite V2 by lia. rewrite (Htri i j) by lia. ring.
  - intros i Hi. rewrite V2 by lia. rewrite conj_mul, Hsr, Hreal by lia. reflexivity.
  - intros i Hi. rewrite V2 by lia. split.
    + apply sgn_at, Hreal. lia.
    + intros E0. assert (me r i i = 0).
      { transitivity (de_sgn O (me r i i) * (de_sgn O (me r i i) * me r i i)); [|rewrite E0; ring].
        transitivity (de_sgn O (me r i i) * de_sgn O (me r i i) * me r i i); [rewrite Hs by lia; ring|ring]. }
      apply (Hnz i); [lia|assumption].
Qed.

(** A zero on the diagonal: the column of q and the row of r are erased. *)
Lemma uqr_zero A q r i : de_qr O A = Some (q, r) -> i < mr r -> me r i i = 0 ->
  exists q' r', uqr O A = Ok (q', r') /\ (forall x, me q' x i = 0) /\ (forall j, me r' i j = 0).
Proof.
  intros E Hi Hz. destruct (uqr_run A q r E) as (q' & r' & E' & D1 & D2 & D3 & D4 & V1 & V2).
  exists q', r'. split; [exact E'|]. destruct HO as (Hq & _ & _ & (Hs0 & _) & _). destruct (Hq _ _ _ E) as (Hk & (P1 & _) & _).
  split.
  - intros x. rewrite V1 by lia. rewrite Hz, Hs0. ring.
  - intros j. rewrite V2 by lia. rewrite Hz, Hs0. ring.
Qed.

Lemma urq_run A r q qr2 : de_rq O A = Some (r, q) -> de_qr O A = Some qr2 ->
  exists r' q', urq O A = Ok (r', q') /\ mr q' = mr q /\ mc q' = mc q /\ mr r' = mr r /\ mc r' = mc r /\
    (forall i k, k < mc r -> me r' i k = me r i k * de_sgn O (me r k k)) /\
    (forall k j, k < mr q -> me q' k j = de_sgn O (me r k k) * me q k j).
Proof.
  intros E E2. unfold urq. rewrite E, E2. destruct HO as (_ & Hq & _). destruct (Hq _ _ _ E) as (Hk & (P1 & P2 & P3 & P4) & _).
  unfold mprod, signs. cbn [mr mc mdiag].
  assert (Hm : Nat.min (mr r) (mc r) = mc r) by lia. rewrite Hm.
  rewrite P1, !Nat.eqb_refl. cbn [bind]. eexists. eexists. split; [reflexivity|]. cbn [mr mc me mdiag].
  repeat split; auto.
  - intros i k Hk'. cbn. rewrite (sum_single _ k); [|lia|].
    + now rewrite Nat.eqb_refl.
    + intros l Hl Hne. destruct (Nat.eqb_spec l k); [contradiction|ring].
  - intros k j Hk'. cbn. rewrite (sum_single _ k); [|lia|].
    + now rewrite Nat.eqb_refl.
    + intros l Hl Hne. destruct (Nat.eqb_spec k l); [now subst|ring].
Qed.

(** Wide or square A: A = r q with orthonormal rows of q, triangular r with
    non-negative diagonal. *)
Lemma urq_ok A r q qr2 : (mr A <= mc A)%nat -> de_rq O A = Some (r, q) -> de_qr O A = Some qr2 -> nz_diag r ->
  exists r' q', urq O A = Ok (r', q') /\ posrq nonneg A r' q'.
Proof.
  intros Hw E E2 Hnz. destruct (urq_run A r q qr2 E E2) as (r' & q' & E' & D1 & D2 & D3 & D4 & V1 & V2).
  exists r', q'. split; [exact E'|].
  destruct HO as (_ & Hq & _). destruct (Hq _ _ _ E) as (Hk & (P1 & P2 & P3 & P4) & Hor & Htri & Hreal0).
  assert (Hsq : (mr r - mc r = 0)%nat) by lia.
  assert (Hreal : forall i, i < mc r -> sconj (me r i i) = me r i i).
  { intros i Hi. pose proof (Hreal0 i Hi) as H. now rewrite Hsq, Nat.add_0_r in H. }
  assert (Hs : forall k, k < mc r -> de_sgn O (me r k k) * de_sgn O (me r k k) = 1).
  { intros k H. apply sgn_at; [now apply Hreal|]. apply Hnz. lia. }
  assert (Hsr : forall k, k < mc r -> sconj (de_sgn O (me r k k)) = de_sgn O (me r k k)).
  { intros k H. now apply sgn_at, Hreal. }
  split; [split; [|split; [|split; [|split]]]|].
  - congruence.
  - split; [congruence|]. split; [congruence|]. split; [congruence|]. intros i j Hi Hj. rewrite (P4 i j Hi Hj), D4.
    apply sum_ext. intros k Hk'. rewrite V1, V2 by lia.
    transitivity (de_sgn O (me r k k) * de_sgn O (me r k k) * (me r i k * me q k j)); [rewrite Hs by lia; ring|ring].
  - intros i j Hi Hj. rewrite D1 in Hi, Hj. rewrite D2.
    rewrite (sum_ext _ _ (fun k => de_sgn O (me r i i) * de_sgn O (me r j j) * (me q i k * sconj (me q j k)))).
    2:{ intros k _. rewrite !V2 by lia. rewrite conj_mul, Hsr by lia. ring. }
    rewrite sum_mul_l, Hor by lia. unfold dlt. destruct (Nat.eqb_spec i j).
    + subst. rewrite Hs by lia. ring.
    + ring.
  - intros i j Hj Hi Hij. rewrite V1 by lia. rewrite (Htri i j) by lia. ring.
  - intros i Hi. rewrite D3, D4, Hsq, Nat.add_0_r, V1 by lia. rewrite conj_mul, Hsr, Hreal by lia. reflexivity.
  - intros i Hi. rewrite V1 by lia. split.
    + replace (me r i i * de_sgn O (me r i i)) with (de_sgn O (me r i i) * me r i i) by ring. apply sgn_at, Hreal. lia.
    + intros E0. assert (me r i i = 0).
      { transitivity (me r i i * de_sgn O (me r i i) * de_sgn O (me r i i)); [|rewrite E0; ring].
        transitivity (de_sgn O (me r i i) * de_sgn O (me r i i) * me r i i); [rewrite Hs by lia; ring|ring]. }
      apply (Hnz i); [lia|assumption].
Qed.
End Sign.

(** * Uniqueness *)
Section Unique.
Variable nonneg : R -> Prop.
Hypothesis Hord : order_ok nonneg.
Hypothesis Hint : @integral R.

Lemma cancel (a x y : R) : a <> 0 -> a * x = a * y -> x = y.
Proof.
  intros Ha E. assert (a * (x - y) = 0) as H by (transitivity (a * x - a * y); [ring|rewrite E; ring]).
  destruct (Hint _ _ H) as [|H']; [contradiction|]. transitivity (x - y + y); [ring|rewrite H'; ring].
Qed.

(** r^dagger r = A^dagger A. *)
Lemma qr_gram (A q r : mat R) : qr_tri A q r -> forall i j, i < mc A -> j < mc A ->
  sum (mr r) (fun k => sconj (me r k i) * me r k j) = sum (mr A) (fun x => sconj (me A x i) * me A x j).
Proof.
  intros (Hk & (P1 & P2 & P3 & P4) & Hor & _) i j Hi Hj. symmetry.
  rewrite (sum_ext _ _ (fun x => sum (mc q) (fun k => sum (mc q) (fun l => sconj (me r k i) * me r l j * (sconj (me q x k) * me q x l))))).
  2:{ intros x Hx. rewrite (P4 x i), (P4 x j) by lia. rewrite sum_conj, <- sum_mul_r. apply sum_ext. intros k _.
      rewrite <- sum_mul_l. apply sum_ext. intros l _. rewrite conj_mul. ring. }
  rewrite sum_swap. rewrite P1. apply sum_ext. intros k Hk'. rewrite sum_swap.
  rewrite (sum_ext _ _ (fun l => sconj (me r k i) * me r l j * dlt k l)).
  2:{ intros l Hl. rewrite sum_mul_l. rewrite P2. rewrite Hor by lia. reflexivity. }
  rewrite (sum_single _ k); [|lia|].
  - rewrite dlt_eq. ring.
  - intros l Hl Hne. rewrite dlt_neq by congruence. ring.
Qed.

Lemma sum_upto (n i : nat) (f : nat -> R) : i < n -> (forall k, i < k -> k < n -> f k = 0) -> sum n f = sum i f + f i.
Proof.
  intros Hi H. replace n with (S i + (n - S i))%nat by lia. rewrite sum_split.
  rewrite (sum_zero (n - S i)); [cbn; ring|]. intros k Hk. apply H; lia.
Qed.

Lemma posqr_r A q r q2 r2 : posqr nonneg A q r -> posqr nonneg A q2 r2 ->
  forall i j, i < mr r -> j < mc A -> me r i j = me r2 i j.
Proof.
  intros (H1 & Hp1) (H2 & Hp2). pose proof (qr_gram A q r H1) as G1. pose proof (qr_gram A q2 r2 H2) as G2.
  destruct H1 as (K1 & (P1 & P2 & P3 & P4) & _ & T1 & D1). destruct H2 as (K2 & (Q1 & Q2 & Q3 & Q4) & _ & T2 & D2).
  assert (Hm : mr r2 = mr r) by lia.
  induction i as [i IH] using lt_wf_ind. intros j Hi Hj.
  assert (Hrow : forall j, (j < mc A)%nat -> sconj (me r i i) * me r i j = sconj (me r2 i i) * me r2 i j).
  { clear j Hj. intros j Hj. pose proof (G1 i j ltac:(lia) Hj) as E. rewrite <- (G2 i j ltac:(lia) Hj), Hm in E.
    rewrite (sum_upto (mr r) i) in E; [|lia|intros k ? ?; rewrite (T1 k i) by lia; rewrite conj_0; ring].
    rewrite (sum_upto (mr r) i) in E; [|lia|intros k ? ?; rewrite (T2 k i) by lia; rewrite conj_0; ring].
    rewrite (sum_ext i _ (fun k => sconj (me r2 k i) * me r2 k j)) in E.
    2:{ intros k Hk. rewrite (IH k Hk i), (IH k Hk j) by lia. reflexivity. }
    match type of E with ?s + ?a = _ + ?b => transitivity (s + a - s); [ring|rewrite E; ring] end. }
  assert (Hd : me r i i = me r2 i i).
  { apply Hord; [apply Hp1; lia|apply Hp2; lia|]. pose proof (Hrow i ltac:(lia)) as E. rewrite D1, D2 in E by lia. exact E. }
  apply (cancel (me r i i)); [apply Hp1; lia|]. pose proof (Hrow j Hj) as E. rewrite D1, D2 in E by lia. rewrite E, Hd. reflexivity.
Qed.

Lemma posqr_q A q r q2 r2 : posqr nonneg A q r -> posqr nonneg A q2 r2 ->
  forall k x, x < mr A -> k < mc q -> me q x k = me q2 x k.
Proof.
  intros H1 H2. pose proof (posqr_r A q r q2 r2 H1 H2) as Er. destruct H1 as (H1 & Hp1). destruct H2 as (H2 & Hp2).
  destruct H1 as (K1 & (P1 & P2 & P3 & P4) & _ & T1 & D1). destruct H2 as (K2 & (Q1 & Q2 & Q3 & Q4) & _ & T2 & D2).
  induction k as [k IH] using lt_wf_ind. intros x Hx Hk.
  pose proof (P4 x k ltac:(lia) ltac:(lia)) as E. rewrite (Q4 x k) in E by lia.
  rewrite (sum_upto (mc q2) k) in E; [|lia|intros l ? ?; rewrite (T2 l k) by lia; ring].
  rewrite (sum_upto (mc q) k) in E; [|lia|intros l ? ?; rewrite (T1 l k) by lia; ring].
  rewrite (sum_ext k _ (fun l => me q x l * me r l k)) in E.
  2:{ intros l Hl. rewrite (IH l Hl x) by lia. rewrite (Er l k) by lia. reflexivity. }
  apply (cancel (me r k k)); [apply Hp1; lia|]. rewrite <- (Er k k) in E by lia.
  match type of E with ?s + ?a = _ + ?b => transitivity (s + b - s); [ring|rewrite <- E; ring] end.
Qed.

Lemma posqr_unique A q r q2 r2 : posqr nonneg A q r -> posqr nonneg A q2 r2 -> mat_eq q q2 /\ mat_eq r r2.
Proof.
  intros H1 H2. pose proof (posqr_r A q r q2 r2 H1 H2) as Er. pose proof (posqr_q A q r q2 r2 H1 H2) as Eq.
  destruct H1 as ((K1 & (P1 & P2 & P3 & P4) & _) & _). destruct H2 as ((K2 & (Q1 & Q2 & Q3 & Q4) & _) & _).
  split.
  - split; [congruence|]. split; [congruence|]. intros i j Hi Hj. apply Eq; lia.
  - split; [lia|]. split; [congruence|]. intros i j Hi Hj. apply Er; lia.
Qed.
End Unique.
End Proof.
