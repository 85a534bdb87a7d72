(** Uniqueness of urq; embed, direct_sum, unitary_extension, get_null_space,
    rotate_to_hermitian. *)
From Verif Require Import Alg ModelMPS SpecMPS ModelOrth SpecOrth ModelCanon SpecCanon ModelDecomp SpecDecomp ProofDecomp.

Section Proof.
Context {R : sring}.
Add Ring Rr : (s_th R).
Local Open Scope sr_scope.

Lemma sum_rev n (f : nat -> R) : sum n (fun k => f (n - 1 - k)%nat) = sum n f.
Proof.
  induction n as [|n IH]; [reflexivity|]. rewrite sum_S_l. cbn [sum]. replace (S n - 1 - 0)%nat with n by lia.
  rewrite <- IH. rewrite (sum_ext n (fun i => f (S n - 1 - S i)%nat) (fun k => f (n - 1 - k)%nat)); [ring|].
  intros k Hk. f_equal. lia.
Qed.

(** Reversal turns an RQ factorisation of a wide matrix into a QR factorisation. *)
Definition flip (M : mat R) : mat R := mkMat (mc M) (mr M) (fun x i => sconj (me M (mr M - 1 - i)%nat x)).
Definition flip2 (r : mat R) : mat R := mkMat (mc r) (mr r) (fun k i => sconj (me r (mr r - 1 - i)%nat (mc r - 1 - k)%nat)).

Lemma flip_qr nonneg (A r q : mat R) : (mr A <= mc A)%nat -> posrq nonneg A r q -> posqr nonneg (flip A) (flip q) (flip2 r).
Proof.
  intros Hw ((K & (P1 & P2 & P3 & P4) & Hor & T & D) & Hp).
  assert (Hs : (mr r - mc r = 0)%nat) by lia.
  assert (Hreal : forall i, (i < mc r)%nat -> sconj (me r i i) = me r i i).
  { intros i Hi. pose proof (D i Hi) as H. now rewrite Hs, Nat.add_0_r in H. }
  split; [split; [|split; [|split; [|split]]]|]; cbn [mr mc me flip flip2].
  - lia.
  - split; [cbn; lia|]. split; [cbn; lia|]. split; [cbn; lia|]. cbn [mr mc me flip flip2]. intros x i Hx Hi.
    rewrite P4 by lia. rewrite sum_conj, P1, <- sum_rev. apply sum_ext. intros k Hk. rewrite conj_mul, P2. ring.
  - intros i j Hi Hj. cbn [mr mc me flip] in *. rewrite (sum_ext _ _ (fun k => me q (mr q - 1 - i)%nat k * sconj (me q (mr q - 1 - j)%nat k))).
    2:{ intros k _. rewrite conj_conj. reflexivity. }
    rewrite Hor by lia. unfold dlt. destruct (Nat.eqb_spec i j), (Nat.eqb_spec (mr q - 1 - i) (mr q - 1 - j)); try reflexivity; lia.
  - intros i j Hij Hi. rewrite T by lia. apply conj_0.
  - intros i Hi. rewrite conj_conj. replace (mr r - 1 - i)%nat with (mc r - 1 - i)%nat by lia. rewrite Hreal by lia. reflexivity.
  - intros i Hi. replace (mr r - 1 - i)%nat with (mc r - 1 - i)%nat by lia. rewrite Hreal by lia. apply Hp. lia.
Qed.

Lemma posrq_unique nonneg (A r q r2 q2 : mat R) : order_ok nonneg -> @integral R -> (mr A <= mc A)%nat ->
  posrq nonneg A r q -> posrq nonneg A r2 q2 -> mat_eq r r2 /\ mat_eq q q2.
Proof.
  intros Ho Hi Hw H1 H2.
  destruct (posqr_unique nonneg Ho Hi _ _ _ _ _ (flip_qr _ _ _ _ Hw H1) (flip_qr _ _ _ _ Hw H2)) as [(_ & _ & Eq) (_ & _ & Er)].
  destruct H1 as ((K & (P1 & P2 & P3 & P4) & _) & _). destruct H2 as ((K2 & (Q1 & Q2 & Q3 & Q4) & _) & _).
  cbn [mr mc me flip flip2] in *.
  split; (split; [lia|split; [lia|]]); intros i j H1 H2.
  - pose proof (Er (mc r - 1 - j)%nat (mr r - 1 - i)%nat ltac:(lia) ltac:(lia)) as E.
    replace (mr r - 1 - (mr r - 1 - i))%nat with i in E by lia. replace (mc r - 1 - (mc r - 1 - j))%nat with j in E by lia.
    replace (mr r2 - 1 - (mr r - 1 - i))%nat with i in E by lia. replace (mc r2 - 1 - (mc r - 1 - j))%nat with j in E by lia.
    rewrite <- (conj_conj R (me r i j)), <- (conj_conj R (me r2 i j)), E. reflexivity.
  - pose proof (Eq j (mr q - 1 - i)%nat ltac:(lia) ltac:(lia)) as E.
    replace (mr q - 1 - (mr q - 1 - i))%nat with i in E by lia. replace (mr q2 - 1 - (mr q - 1 - i))%nat with i in E by lia.
    rewrite <- (conj_conj R (me q i j)), <- (conj_conj R (me q2 i j)), E. reflexivity.
Qed.

(** * Direct sums *)
Lemma hcat_ok (A B : mat R) : mr A = mr B -> exists M, hcat A B = Ok M /\ mr M = mr A /\ mc M = (mc A + mc B)%nat /\
  (forall i j, j < mc A -> me M i j = me A i j) /\ (forall i j, me M i (mc A + j)%nat = me B i j).
Proof.
  intros H. unfold hcat. rewrite H, Nat.eqb_refl. eexists. split; [reflexivity|]. cbn [mr mc me]. repeat split.
  - intros i j Hj. apply Nat.ltb_lt in Hj. now rewrite Hj.
  - intros i j. destruct (Nat.ltb_spec (mc A + j) (mc A)); [lia|]. f_equal. lia.
Qed.

Lemma vcat_ok (A B : mat R) : mc A = mc B -> exists M, vcat A B = Ok M /\ mr M = (mr A + mr B)%nat /\ mc M = mc A /\
  (forall i j, i < mr A -> me M i j = me A i j) /\ (forall i j, me M (mr A + i)%nat j = me B i j).
Proof.
  intros H. unfold vcat. rewrite H, Nat.eqb_refl. eexists. split; [reflexivity|]. cbn [mr mc me]. repeat split.
  - intros i j Hj. apply Nat.ltb_lt in Hj. now rewrite Hj.
  - intros i j. destruct (Nat.ltb_spec (mr A + i) (mr A)); [lia|]. f_equal. lia.
Qed.

Lemma direct_sum_ok (A B : mat R) n m : mr A = n -> mc A = n -> mr B = m -> mc B = m ->
  exists M, direct_sum A B = Ok M /\ mr M = (n + m)%nat /\ mc M = (n + m)%nat /\
    (forall i j, i < n -> j < n -> me M i j = me A i j) /\
    (forall i j, i < n -> j < m -> me M i (n + j)%nat = 0) /\
    (forall i j, i < m -> j < n -> me M (n + i)%nat j = 0) /\
    (forall i j, i < m -> j < m -> me M (n + i)%nat (n + j)%nat = me B i j).
Proof.
  intros H1 H2 H3 H4. unfold direct_sum.
  destruct (hcat_ok A (mkMat (mc A) (mr B) (fun _ _ => 0))) as (T & ET & T1 & T2 & T3 & T4); [cbn; lia|].
  rewrite ET. cbn [bind].
  destruct (hcat_ok (mtr (mkMat (mc A) (mr B) (fun _ _ => 0))) B) as (U & EU & U1 & U2 & U3 & U4); [reflexivity|].
  rewrite EU. cbn [bind]. cbn [mr mc me mtr] in *.
  destruct (vcat_ok T U) as (M & EM & M1 & M2 & M3 & M4); [lia|]. exists M. split; [exact EM|].
  split; [lia|]. split; [lia|]. rewrite T1, H1 in M3, M4. rewrite H2 in T3, T4, U3, U4. repeat split; intros i j Hi Hj.
  - rewrite M3 by lia. apply T3. lia.
  - rewrite M3 by lia. apply T4.
  - rewrite M4. apply U3. lia.
  - rewrite M4. apply U4.
Qed.

Lemma direct_sum_err (A B : mat R) : mr A <> mc A \/ mr B <> mc B -> direct_sum A B = Err ValueError.
Proof.
  intros H. unfold direct_sum. unfold hcat at 1. cbn [mr mc].
  destruct (Nat.eqb_spec (mr A) (mc A)) as [E|]; [|reflexivity]. cbn [bind].
  unfold hcat. cbn [mr mc mtr]. rewrite Nat.eqb_refl. cbn [bind]. unfold vcat. cbn [mr mc].
  destruct (Nat.eqb_spec (mc A + mr B) (mc A + mc B)); [|reflexivity]. lia.
Qed.

(** * Squareness from the trace *)
Lemma sum_const n : sum n (fun _ => 1) = sofnat n :> R.
Proof. induction n; cbn; [reflexivity|]. now rewrite IHn. Qed.

(** U of shape a x b with orthonormal columns and rows is square. *)
Lemma unitary_square (U : mat R) : char0 R -> orth_cols U -> orth_rows U -> mr U = mc U.
Proof.
  intros Hc H1 H2. apply Hc. rewrite <- !sum_const.
  transitivity (sum (mr U) (fun i => sum (mc U) (fun k => me U i k * sconj (me U i k)))).
  { apply sum_ext. intros i Hi. rewrite H2 by lia. now rewrite dlt_eq. }
  rewrite sum_swap. apply sum_ext. intros k Hk.
  rewrite (sum_ext _ _ (fun i => sconj (me U i k) * me U i k)); [|intros; ring].
  rewrite H1 by lia. apply dlt_eq.
Qed.

(** * Completion of an isometry *)
Lemma complete_cols (Q N M : mat R) : orth_cols Q -> is_kernel (mct Q) N -> hcat Q N = Ok M ->
  orth_cols M /\ orth_rows M /\ mr M = mr Q /\ mc M = (mc Q + mc N)%nat /\ (forall i j, j < mc Q -> me M i j = me Q i j).
Proof.
  intros HQ (K1 & K2 & K3 & K4) E. cbn [mr mc me mct] in *.
  destruct (hcat_ok Q N) as (M' & E' & M1 & M2 & M3 & M4); [lia|]. rewrite E' in E. injection E as ->.
  assert (HQN : forall i k, i < mc Q -> k < mc N -> sum (mr Q) (fun x => sconj (me Q x i) * me N x k) = 0) by (intros; now apply K3).
  assert (HNQ : forall i k, i < mc Q -> k < mc N -> sum (mr Q) (fun x => sconj (me N x k) * me Q x i) = 0).
  { intros i k Hi Hk. rewrite <- conj_0, <- (HQN i k Hi Hk), sum_conj. apply sum_ext. intros x _. rewrite conj_mul, conj_conj. ring. }
  split; [|split; [|split; [exact M1|split; [exact M2|exact M3]]]].
  - intros i j Hi Hj. rewrite M1. rewrite M2 in Hi, Hj.
    destruct (Nat.ltb_spec i (mc Q)) as [Hi'|Hi'], (Nat.ltb_spec j (mc Q)) as [Hj'|Hj'].
    + rewrite (sum_ext _ _ (fun k => sconj (me Q k i) * me Q k j)); [now apply HQ|]. intros k _. now rewrite !M3.
    + replace j with (mc Q + (j - mc Q))%nat by lia.
      rewrite (sum_ext _ _ (fun k => sconj (me Q k i) * me N k (j - mc Q)%nat)); [|intros k _; now rewrite M4, M3].
      rewrite HQN by lia. rewrite dlt_neq by lia. reflexivity.
    + replace i with (mc Q + (i - mc Q))%nat by lia.
      rewrite (sum_ext _ _ (fun k => sconj (me N k (i - mc Q)%nat) * me Q k j)); [|intros k _; now rewrite M4, M3].
      rewrite HNQ by lia. rewrite dlt_neq by lia. reflexivity.
    + replace j with (mc Q + (j - mc Q))%nat by lia. replace i with (mc Q + (i - mc Q))%nat by lia.
      rewrite (sum_ext _ _ (fun k => sconj (me N k (i - mc Q)%nat) * me N k (j - mc Q)%nat)); [|intros k _; now rewrite !M4].
      rewrite <- K1, K2 by lia. unfold dlt. destruct (Nat.eqb_spec (i - mc Q) (j - mc Q)), (Nat.eqb_spec (mc Q + (i - mc Q)) (mc Q + (j - mc Q))); try reflexivity; lia.
  - intros x y Hx Hy. rewrite M1 in Hx, Hy. rewrite M2, sum_split.
    rewrite (sum_ext _ _ (fun k => me Q x k * sconj (me Q y k))) by (intros k Hk; now rewrite !M3).
    rewrite (sum_ext (mc N) _ (fun k => me N x k * sconj (me N y k))) by (intros k Hk; now rewrite !M4).
    set (w := fun z => dlt z y - sum (mc Q) (fun k => me Q z k * sconj (me Q y k))).
    assert (Hw : forall i, i < mc Q -> sum (mr Q) (fun j => sconj (me Q j i) * w j) = 0).
    { intros i Hi. unfold w. rewrite (sum_ext _ _ (fun j => sconj (me Q j i) * dlt j y - sum (mc Q) (fun k => sconj (me Q y k) * (sconj (me Q j i) * me Q j k)))).
      2:{ intros j _. transitivity (sconj (me Q j i) * dlt j y - sconj (me Q j i) * sum (mc Q) (fun k => me Q j k * sconj (me Q y k))); [ring|].
          f_equal. rewrite <- sum_mul_l. apply sum_ext. intros k _. ring. }
      rewrite sum_sub, (sum_single _ y) by (try lia; intros z Hz Hne; rewrite dlt_neq by congruence; ring).
      rewrite dlt_eq, sum_swap. rewrite (sum_ext (mc Q) _ (fun k => sconj (me Q y k) * dlt i k)).
      2:{ intros k Hk. rewrite sum_mul_l, HQ by lia. reflexivity. }
      rewrite (sum_single _ i) by (try lia; intros z Hz Hne; rewrite dlt_neq by congruence; ring). rewrite dlt_eq. ring. }
    pose proof (K4 w Hw x Hx) as E.
    rewrite (sum_ext _ _ (fun k => me N x k * sconj (me N y k))) in E.
    2:{ intros k Hk. f_equal. unfold w.
        rewrite (sum_ext _ _ (fun l => sconj (me N l k) * dlt l y - sum (mc Q) (fun a => sconj (me Q y a) * (sconj (me N l k) * me Q l a)))).
        2:{ intros l _. transitivity (sconj (me N l k) * dlt l y - sconj (me N l k) * sum (mc Q) (fun a => me Q l a * sconj (me Q y a))); [ring|].
            f_equal. rewrite <- sum_mul_l. apply sum_ext. intros a _. ring. }
        rewrite sum_sub, (sum_single _ y) by (try lia; intros z Hz Hne; rewrite dlt_neq by congruence; ring).
        rewrite dlt_eq, sum_swap. rewrite (sum_zero (mc Q)); [ring|]. intros a Ha. rewrite sum_mul_l, HNQ by lia. ring. }
    rewrite <- E. unfold w. ring.
Qed.

Lemma mct_orth (M : mat R) : orth_cols M -> orth_rows (mct M).
Proof.
  intros H i j Hi Hj. cbn [mr mc me mct] in *. rewrite <- (H i j Hi Hj). apply sum_ext. intros k _. now rewrite conj_conj.
Qed.
Lemma mct_orth' (M : mat R) : orth_rows M -> orth_cols (mct M).
Proof.
  intros H i j Hi Hj. cbn [mr mc me mct] in *. rewrite <- (H i j Hi Hj). apply sum_ext. intros k _. now rewrite conj_conj.
Qed.

(** Identity appended: still unitary. *)
Lemma direct_sum_unitary (U : mat R) n k M : unitary_mat n U -> direct_sum U (mid k) = Ok M -> unitary_mat (n + k) M.
Proof.
  intros (U1 & U2 & Uc & Ur) E. destruct (direct_sum_ok U (mid k) n k) as (M' & E' & D1 & D2 & V1 & V2 & V3 & V4); try assumption; try reflexivity.
  rewrite E in E'. injection E' as <-. split; [exact D1|]. split; [exact D2|].
  assert (Hd : forall a b c : nat, dlt (a + b) (a + c) = dlt b c :> R).
  { intros a b c. unfold dlt. destruct (Nat.eqb_spec (a + b) (a + c)), (Nat.eqb_spec b c); try reflexivity; lia. }
  split; intros i j Hi Hj.
  - rewrite D1. rewrite D2 in Hi, Hj. rewrite sum_split.
    destruct (Nat.ltb_spec i n) as [Hi'|Hi'], (Nat.ltb_spec j n) as [Hj'|Hj'].
    + rewrite (sum_ext n _ (fun x => sconj (me U x i) * me U x j)) by (intros x Hx; now rewrite !V1 by lia).
      rewrite (sum_zero k) by (intros x Hx; rewrite !V3 by lia; ring). rewrite <- U1, Uc by lia. ring.
    + replace j with (n + (j - n))%nat by lia. rewrite sum_zero by (intros x Hx; rewrite V2 by lia; ring).
      rewrite sum_zero by (intros x Hx; rewrite V3 by lia; rewrite conj_0; ring). rewrite dlt_neq by lia. ring.
    + replace i with (n + (i - n))%nat by lia. rewrite sum_zero by (intros x Hx; rewrite V2 by lia; rewrite conj_0; ring).
      rewrite sum_zero by (intros x Hx; rewrite (V3 x j) by lia; ring). rewrite dlt_neq by lia. ring.
    + replace j with (n + (j - n))%nat by lia. replace i with (n + (i - n))%nat by lia.
      rewrite sum_zero by (intros x Hx; rewrite V2 by lia; rewrite conj_0; ring).
      rewrite (sum_ext k _ (fun x => dlt x (i - n) * dlt x (j - n))) by (intros x Hx; rewrite !V4 by lia; cbn; now rewrite dlt_conj).
      rewrite (sum_single _ (i - n)) by (try lia; intros z Hz Hne; rewrite dlt_neq by congruence; ring).
      rewrite dlt_eq, Hd. ring.
  - rewrite D2. rewrite D1 in Hi, Hj. rewrite sum_split.
    destruct (Nat.ltb_spec i n) as [Hi'|Hi'], (Nat.ltb_spec j n) as [Hj'|Hj'].
    + rewrite (sum_ext n _ (fun x => me U i x * sconj (me U j x))) by (intros x Hx; now rewrite !V1 by lia).
      rewrite (sum_zero k) by (intros x Hx; rewrite !V2 by lia; ring). rewrite <- U2, Ur by lia. ring.
    + replace j with (n + (j - n))%nat by lia. rewrite sum_zero by (intros x Hx; rewrite (V3 (j - n)%nat) by lia; rewrite conj_0; ring).
      rewrite sum_zero by (intros x Hx; rewrite V2 by lia; ring). rewrite dlt_neq by lia. ring.
    + replace i with (n + (i - n))%nat by lia. rewrite sum_zero by (intros x Hx; rewrite (V3 (i - n)%nat) by lia; ring).
      rewrite sum_zero by (intros x Hx; rewrite (V2 j) by lia; rewrite conj_0; ring). rewrite dlt_neq by lia. ring.
    + replace j with (n + (j - n))%nat by lia. replace i with (n + (i - n))%nat by lia.
      rewrite sum_zero by (intros x Hx; rewrite (V3 (i - n)%nat) by lia; ring).
      rewrite (sum_ext k _ (fun x => dlt x (i - n) * dlt x (j - n))) by (intros x Hx; rewrite !V4 by lia; cbn; rewrite dlt_conj; now rewrite (dlt_sym (i - n)), (dlt_sym (j - n))).
      rewrite (sum_single _ (i - n)) by (try lia; intros z Hz Hne; rewrite dlt_neq by congruence; ring).
      rewrite dlt_eq, Hd. ring.
Qed.

Section Ext.
Variable nonneg : R -> Prop.
Variable O : decomp R.
Hypothesis HO : decomp_ok nonneg O.
Hypothesis Hc : char0 R.

Lemma null_ok A N : de_null O A = Some N -> is_kernel A N.
Proof. destruct HO as (_ & _ & _ & _ & H & _). apply H. Qed.

(** The core: without D. *)
Lemma extension_core (Q U : mat R) : (mc Q <= mr Q)%nat /\ orth_cols Q \/ (mr Q <= mc Q)%nat /\ orth_rows Q ->
  unitary_extension O Q None = Ok U ->
  let n := Nat.max (mr Q) (mc Q) in unitary_mat n U /\ forall i j, i < mr Q -> j < mc Q -> me U i j = me Q i j.
Proof.
  intros HQ E n. unfold unitary_extension in E.
  destruct (de_null O Q) as [N1|] eqn:E1; [|discriminate]. destruct (de_null O (mct Q)) as [N2|] eqn:E2; [|discriminate].
  apply null_ok in E1. apply null_ok in E2.
  destruct (Nat.ltb_spec (mc Q) (mr Q)) as [Hlt|Hlt].
  - assert (HQ' : orth_cols Q) by (destruct HQ as [[_ H]|[H _]]; [exact H|lia]).
    destruct (hcat Q N2) as [M|] eqn:EM; [|discriminate]. cbn in E. injection E as <-.
    destruct (complete_cols Q N2 M HQ' E2 EM) as (H1 & H2 & H3 & H4 & H5).
    pose proof (unitary_square M Hc H1 H2) as Hs. split; [|intros i j Hi Hj; now apply H5].
    split; [unfold n; lia|]. split; [unfold n; lia|]. split; assumption.
  - destruct (Nat.ltb_spec (mr Q) (mc Q)) as [Hlt'|Hlt'].
    + assert (HQ' : orth_rows Q) by (destruct HQ as [[H _]|[_ H]]; [lia|exact H]).
      destruct (hcat (mct Q) N1) as [M|] eqn:EM; [|discriminate]. cbn [bind] in E. injection E as <-.
      assert (E1' : is_kernel (mct (mct Q)) N1).
      { destruct E1 as (K1 & K2 & K3 & K4). split; [exact K1|]. split; [exact K2|]. cbn [mr mc me mct]. split.
        - intros i k Hi Hk. rewrite <- (K3 i k Hi Hk). apply sum_ext. intros j _. now rewrite conj_conj.
        - intros w Hw j Hj. apply K4; [|exact Hj]. intros i Hi. rewrite <- (Hw i Hi). apply sum_ext. intros l _. now rewrite conj_conj. }
      destruct (complete_cols (mct Q) N1 M (mct_orth' _ HQ') E1' EM) as (H1 & H2 & H3 & H4 & H5).
      pose proof (unitary_square M Hc H1 H2) as Hs. cbn [mr mc me mct] in *.
      split; [|intros i j Hi Hj; cbn; rewrite H5 by lia; apply conj_conj].
      split; [cbn; unfold n; lia|]. split; [cbn; unfold n; lia|]. split; [now apply mct_orth'|now apply mct_orth].
    + cbn in E. injection E as <-. assert (Hsq : mr Q = mc Q) by lia. split; [|reflexivity].
      split; [unfold n; lia|]. split; [unfold n; lia|].
      assert (Hone : forall (P N : mat R), mr P = mc P -> orth_cols P -> is_kernel (mct P) N -> orth_rows P).
      { intros P N HP HPc HN. destruct (hcat_ok P N) as (M & EM & M1 & M2 & M3 & M4).
        { destruct HN as (K1 & _). cbn in K1. lia. }
        destruct (complete_cols P N M HPc HN EM) as (H1 & H2 & H3 & H4 & H5).
        pose proof (unitary_square M Hc H1 H2) as Hs. assert (mc N = 0)%nat by lia.
        intros i j Hi Hj. rewrite <- (H2 i j) by lia. replace (mc M) with (mc P) by lia.
        apply sum_ext. intros k Hk. now rewrite !H5. }
      destruct HQ as [[_ HQ]|[_ HQ]].
      * split; [exact HQ|]. now apply (Hone Q N2).
      * split; [|exact HQ].
        assert (E1' : is_kernel (mct (mct Q)) N1).
        { destruct E1 as (K1 & K2 & K3 & K4). split; [exact K1|]. split; [exact K2|]. cbn [mr mc me mct]. split.
          - intros i k Hi Hk. rewrite <- (K3 i k Hi Hk). apply sum_ext. intros j _. now rewrite conj_conj.
          - intros w Hw j Hj. apply K4; [|exact Hj]. intros i Hi. rewrite <- (Hw i Hi). apply sum_ext. intros l _. now rewrite conj_conj. }
        pose proof (Hone (mct Q) N1 ltac:(cbn; lia) (mct_orth' _ HQ) E1') as H.
        intros i j Hi Hj. specialize (H i j ltac:(cbn; lia) ltac:(cbn; lia)). cbn in H. rewrite <- H.
        apply sum_ext. intros k _. now rewrite conj_conj.
Qed.

Lemma extension_ok (Q U : mat R) D : (mc Q <= mr Q)%nat /\ orth_cols Q \/ (mr Q <= mc Q)%nat /\ orth_rows Q ->
  unitary_extension O Q D = Ok U ->
  let n := Nat.max (mr Q) (mc Q) in
  unitary_mat (match D with Some D => Nat.max n D | None => n end) U /\ forall i j, i < mr Q -> j < mc Q -> me U i j = me Q i j.
Proof.
  intros HQ E n. destruct D as [D|]; [|exact (extension_core Q U HQ E)].
  assert (Hcore : exists U0, unitary_extension O Q None = Ok U0 /\
    (if Nat.ltb (mr U0) D then direct_sum U0 (mid (D - mr U0)) else Ok U0) = Ok U).
  { unfold unitary_extension in *. destruct (de_null O Q) as [N1|]; [|discriminate]. destruct (de_null O (mct Q)) as [N2|]; [|discriminate].
    match type of E with (do Q' <- ?e; _) = _ => destruct e as [U0|]; [|discriminate] end. cbn [bind] in *. exists U0. split; [reflexivity|exact E]. }
  destruct Hcore as (U0 & E0 & E1). destruct (extension_core Q U0 HQ E0) as [HU HV]. fold n in HU.
  destruct HU as (U1 & U2 & Uc & Ur). rewrite U1 in E1.
  destruct (Nat.ltb_spec n D) as [Hlt|Hge].
  - assert (HU : unitary_mat n U0) by (repeat split; assumption).
    split.
    + replace (Nat.max n D) with (n + (D - n))%nat by lia. exact (direct_sum_unitary U0 n (D - n) U HU E1).
    + intros i j Hi Hj. destruct (direct_sum_ok U0 (mid (D - n)) n (D - n)) as (M' & E' & _ & _ & V1 & _); try assumption; try reflexivity.
      rewrite E1 in E'. injection E' as <-. rewrite V1 by (unfold n; lia). now apply HV.
  - injection E1 as <-. rewrite Nat.max_l by lia. split; [repeat split; assumption|exact HV].
Qed.

(** When the two null spaces are computed the function returns (no other error). *)
Lemma extension_total (Q N1 N2 : mat R) D : (mc Q <= mr Q)%nat /\ orth_cols Q \/ (mr Q <= mc Q)%nat /\ orth_rows Q ->
  de_null O Q = Some N1 -> de_null O (mct Q) = Some N2 -> exists U, unitary_extension O Q D = Ok U.
Proof.
  intros HQ E1 E2. assert (HN : exists U0, unitary_extension O Q None = Ok U0).
  { unfold unitary_extension. rewrite E1, E2. apply null_ok in E1 as (K1 & _). apply null_ok in E2 as (K2 & _). cbn in K2.
    destruct (Nat.ltb (mc Q) (mr Q)).
    - destruct (hcat_ok Q N2) as (M & EM & _); [lia|]. rewrite EM. cbn. eauto.
    - destruct (Nat.ltb (mr Q) (mc Q)).
      + destruct (hcat_ok (mct Q) N1) as (M & EM & _); [cbn; lia|]. rewrite EM. cbn. eauto.
      + cbn. eauto. }
  destruct HN as [U0 E0]. destruct (extension_core Q U0 HQ E0) as [(U1 & U2 & _) _].
  unfold unitary_extension in *. rewrite E1, E2 in *.
  match type of E0 with (do Q' <- ?e; _) = _ => destruct e as [U0'|]; [|discriminate] end. cbn [bind] in *.
  injection E0 as ->. destruct D as [D|]; [|eauto]. destruct (Nat.ltb (mr U0) D); [|eauto].
  destruct (direct_sum_ok U0 (mid (D - mr U0)) (mr U0) (D - mr U0)) as (M & EM & _); try reflexivity; try lia. eauto.
Qed.
End Ext.
End Proof.
