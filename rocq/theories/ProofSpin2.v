(** Proofs about spins, ladders and paulis. *)
From Coq Require Import ZArith.
From Verif Require Import Alg ModelMPS SpecMPS ModelNcon ModelEk ModelTensor SpecTensor ModelSpin SpecSpin ProofSpin.

Section Proof.
Context {R : sring}.
Add Ring Rr : (s_th R).
Local Open Scope sr_scope.

Lemma sofnat_add a b : sofnat (a + b) = sofnat a + sofnat b :> R.
Proof. induction a; cbn; [ring|]. rewrite IHa. ring. Qed.
Lemma sofnat_mul a b : sofnat (a * b) = sofnat a * sofnat b :> R.
Proof. induction a; cbn; [ring|]. rewrite sofnat_add, IHa. ring. Qed.
Lemma sofnat_sub a b : (b <= a)%nat -> sofnat (a - b) = sofnat a - sofnat b :> R.
Proof. intros H. replace (sofnat a : R) with (sofnat (a - b + b) : R) by (f_equal; lia). rewrite sofnat_add. ring. Qed.
Lemma sofnat_conj a : sconj (sofnat a) = sofnat a :> R.
Proof. induction a; cbn; [apply conj_0|]. rewrite conj_add, conj_1, IHa. reflexivity. Qed.

(** Bilinear expansion. *)
Lemma sum_bil n (c d e : R) (f f' g g' : nat -> R) :
  sum n (fun k => c * (f k + e * f' k) * (d * (g k - g' k))) =
  c * d * (sum n (fun k => f k * g k) - sum n (fun k => f k * g' k)
           + e * (sum n (fun k => f' k * g k) - sum n (fun k => f' k * g' k))).
Proof. rewrite <- !sum_sub, <- !sum_mul_l, <- sum_add, <- sum_mul_l. apply sum_ext. intros; ring. Qed.

Section Spin.
Variable C : consts R.
Variable n : nat.
Hypothesis HC : consts_ok C (spin_roots n).

Let P := Sp C n.
Let M := Sm C n.
Let Z := Sz C n.
Let N := S n.

Lemma up_sq a : (a < n)%nat -> ladder_up C n a * ladder_dn C n a = sofnat (a + 1) * sofnat (n - a) :> R.
Proof.
  intros Ha. unfold ladder_up, ladder_dn. rewrite (Nat.mul_comm (n - a)). destruct HC as (_ & _ & _ & _ & Hr).
  destruct (Hr ((a + 1) * (n - a))%nat) as [H _]; [exists a; split; [exact Ha|reflexivity]|]. rewrite H. apply sofnat_mul.
Qed.
Lemma up_dn a : ladder_up C n a = ladder_dn C n a.
Proof. unfold ladder_up, ladder_dn. f_equal. apply Nat.mul_comm. Qed.
Lemma up_conj a : (a < n)%nat -> sconj (ladder_up C n a) = ladder_up C n a.
Proof.
  intros Ha. destruct HC as (_ & _ & _ & _ & Hr). apply (Hr ((a + 1) * (n - a))%nat). exists a; split; [exact Ha|reflexivity].
Qed.

Lemma PM_entry a b : (a < N)%nat -> (b < N)%nat ->
  sum N (fun k => me P a k * me M k b) = if Nat.eqb a b then sofnat (a + 1) * (sofnat n - sofnat a) else 0.
Proof.
  intros Ha Hb. unfold P, M. cbn [Sp Sm me].
  destruct (Nat.ltb_spec a n) as [H|H].
  - rewrite (sum_single N (S a)).
    + rewrite Nat.eqb_refl. cbn [Nat.eqb]. destruct (Nat.eqb_spec a b) as [<-|]; [|ring]. rewrite up_sq by exact H. rewrite sofnat_sub by lia. reflexivity.
    + unfold N; lia.
    + intros k Hk Hne. destruct (Nat.eqb_spec k (S a)); [lia|ring].
  - assert (a = n) as -> by (unfold N in *; lia). rewrite sum_zero.
    + destruct (Nat.eqb n b); [ring|reflexivity].
    + intros k Hk. destruct (Nat.eqb_spec k (S n)); [unfold N in *; lia|ring].
Qed.

Lemma MP_entry a b : (a < N)%nat -> (b < N)%nat ->
  sum N (fun k => me M a k * me P k b) = if Nat.eqb a b then sofnat a * (sofnat n - sofnat a + 1) else 0.
Proof.
  intros Ha Hb. unfold P, M. cbn [Sp Sm me]. destruct a as [|a].
  - rewrite sum_zero; [cbn [sofnat]; destruct (Nat.eqb 0 b); [ring|reflexivity]|]. intros k Hk. cbn. ring.
  - rewrite (sum_single N a).
    + rewrite Nat.eqb_refl. rewrite (Nat.eqb_sym b). destruct (Nat.eqb_spec (S a) b) as [<-|]; [|ring].
      replace (ladder_dn C n a * ladder_up C n a) with (ladder_up C n a * ladder_dn C n a) by ring.
      unfold N in Ha, Hb |- *. rewrite up_sq by lia. rewrite sofnat_sub by lia. rewrite Nat.add_1_r. cbn [sofnat]. ring.
    + unfold N in *; lia.
    + intros k Hk Hne. destruct (Nat.eqb_spec (S a) (S k)); [lia|ring].
Qed.

Lemma ZX_entry (X : mat R) a b : (a < N)%nat -> sum N (fun k => me Z a k * me X k b) = (c_half C * sofnat n - sofnat a) * me X a b.
Proof.
  intros Ha. unfold Z. cbn [Sz me]. rewrite (sum_single N a) by (first [exact Ha | intros k Hk Hne; destruct (Nat.eqb_spec a k); [lia|ring]]).
  now rewrite Nat.eqb_refl.
Qed.
Lemma XZ_entry (X : mat R) a b : (b < N)%nat -> sum N (fun k => me X a k * me Z k b) = me X a b * (c_half C * sofnat n - sofnat b).
Proof.
  intros Hb. unfold Z. cbn [Sz me]. rewrite (sum_single N b) by (first [exact Hb | intros k Hk Hne; destruct (Nat.eqb_spec k b); [lia|ring]]).
  now rewrite Nat.eqb_refl.
Qed.

Lemma half2 : c_half C * (1 + 1) = 1.
Proof. destruct HC as (H & _). transitivity (c_half C + c_half C); [ring|exact H]. Qed.

Lemma comm_xy : mat_eq (mcomm (Sx C n) (Sy C n)) (mscale (c_im C) (Sz C n)).
Proof.
  split; [reflexivity|]. split; [reflexivity|]. cbn [mcomm mminus mmul mscale mr mc me Sx Sy]. intros a b Ha Hb. fold N P M in Ha, Hb |- *.
  transitivity (sum N (fun k => c_half C * (me P a k + 1 * me M a k) * (c_half C * (- c_im C) * (me P k b - me M k b)))
    - sum N (fun k => c_half C * (- c_im C) * (me P a k + - (1) * me M a k) * (c_half C * (me P k b - - me M k b)))).
  { f_equal; apply sum_ext; intros; ring. }
  rewrite (sum_bil N (c_half C) _ 1 (me P a) (me M a) (fun k => me P k b) (fun k => me M k b)).
  rewrite (sum_bil N _ (c_half C) (- (1)) (me P a) (me M a) (fun k => me P k b) (fun k => - me M k b)).
  assert (E : forall g h : nat -> R, sum N (fun k => g k * - h k) = - sum N (fun k => g k * h k)).
  { intros g h. rewrite <- sum_opp. apply sum_ext; intros; ring. }
  rewrite !E, PM_entry, MP_entry by assumption.
  destruct HC as (Hh & _). unfold Z; cbn [Sz me].
  destruct (Nat.eqb_spec a b) as [<-|].
  - rewrite sofnat_add. cbn [sofnat].
    set (PP := sum N _). set (MM := sum N _).
    transitivity (c_half C * (1 + 1) * (c_im C * (c_half C * (sofnat n - (1 + 1) * sofnat a)))); [ring|]. rewrite half2.
    transitivity (c_im C * (c_half C * sofnat n - c_half C * (1 + 1) * sofnat a)); [ring|]. rewrite half2. ring.
  - ring.
Qed.

Lemma P_shift a b : (c_half C * sofnat n - sofnat a) * me P a b - me P a b * (c_half C * sofnat n - sofnat b) = me P a b.
Proof. unfold P; cbn [Sp me]. destruct (Nat.eqb_spec b (S a)) as [->|]; [cbn [sofnat]|]; ring. Qed.
Lemma M_shift a b : (c_half C * sofnat n - sofnat a) * me M a b - me M a b * (c_half C * sofnat n - sofnat b) = - me M a b.
Proof. unfold M; cbn [Sm me]. destruct (Nat.eqb_spec a (S b)) as [->|]; [cbn [sofnat]|]; ring. Qed.

Lemma comm_z (X : mat R) a b : (a < N)%nat -> (b < N)%nat -> mr X = N -> mc X = N ->
  me (mcomm (Sz C n) X) a b = (c_half C * sofnat n - sofnat a) * me X a b - me X a b * (c_half C * sofnat n - sofnat b).
Proof.
  intros Ha Hb Hr Hc. cbn [mcomm mminus mmul me mc]. rewrite Hc. fold Z. change (mc Z) with N. rewrite ZX_entry, XZ_entry by assumption. reflexivity.
Qed.

Lemma comm_yz : mat_eq (mcomm (Sy C n) (Sz C n)) (mscale (c_im C) (Sx C n)).
Proof.
  split; [reflexivity|]. split; [reflexivity|]. intros a b Ha Hb. change (mr (mcomm (Sy C n) (Sz C n))) with N in Ha. change (mc (mcomm (Sy C n) (Sz C n))) with N in Hb.
  transitivity (- me (mcomm (Sz C n) (Sy C n)) a b). { cbn [mcomm mminus mmul me mc Sz Sy Sx]. ring. }
  rewrite comm_z by (assumption || reflexivity). cbn [mscale me Sy Sx]. fold P M.
  transitivity (c_half C * c_im C * (((c_half C * sofnat n - sofnat a) * me P a b - me P a b * (c_half C * sofnat n - sofnat b))
      - ((c_half C * sofnat n - sofnat a) * me M a b - me M a b * (c_half C * sofnat n - sofnat b)))); [ring|].
  rewrite P_shift, M_shift. ring.
Qed.

Lemma comm_zx : mat_eq (mcomm (Sz C n) (Sx C n)) (mscale (c_im C) (Sy C n)).
Proof.
  split; [reflexivity|]. split; [reflexivity|]. intros a b Ha Hb. change (mr (mcomm (Sz C n) (Sx C n))) with N in Ha. change (mc (mcomm (Sz C n) (Sx C n))) with N in Hb.
  rewrite comm_z by (assumption || reflexivity). cbn [mscale me Sy Sx]. fold P M.
  transitivity (c_half C * (((c_half C * sofnat n - sofnat a) * me P a b - me P a b * (c_half C * sofnat n - sofnat b))
      + ((c_half C * sofnat n - sofnat a) * me M a b - me M a b * (c_half C * sofnat n - sofnat b)))); [ring|].
  rewrite P_shift, M_shift. transitivity (- (c_im C * c_im C) * (c_half C * (me P a b - me M a b))); [|ring].
  destruct HC as (_ & _ & Hi & _). rewrite Hi. ring.
Qed.

Lemma casimir : mat_eq (mplus (mplus (mmul (Sx C n) (Sx C n)) (mmul (Sy C n) (Sy C n))) (mmul (Sz C n) (Sz C n)))
  (mscale (c_half C * sofnat n * (c_half C * sofnat n + 1)) (mone N)).
Proof.
  split; [reflexivity|]. split; [reflexivity|]. cbn [mplus mmul mscale mone mr mc me]. intros a b Ha Hb. fold N in Ha, Hb |- *.
  change (mc (Sz C n)) with N. fold Z. rewrite ZX_entry by assumption. cbn [Sx Sy me mc]. fold N P M.
  assert (E : forall g h : nat -> R, sum N (fun k => g k * - h k) = - sum N (fun k => g k * h k)).
  { intros g h. rewrite <- sum_opp. apply sum_ext; intros; ring. }
  transitivity (sum N (fun k => c_half C * (me P a k + 1 * me M a k) * (c_half C * (me P k b - - me M k b)))
    + sum N (fun k => c_half C * (- c_im C) * (me P a k + - (1) * me M a k) * (c_half C * (- c_im C) * (me P k b - me M k b)))
    + (c_half C * sofnat n - sofnat a) * me Z a b).
  { f_equal. f_equal; apply sum_ext; intros; ring. }
  rewrite (sum_bil N (c_half C) _ 1 (me P a) (me M a) (fun k => me P k b) (fun k => - me M k b)).
  rewrite (sum_bil N _ (c_half C * - c_im C) (- (1)) (me P a) (me M a) (fun k => me P k b) (fun k => me M k b)).
  rewrite !E, PM_entry, MP_entry by assumption. unfold dlt, Z; cbn [Sz me].
  set (PP := sum N _). set (MM := sum N _).
  destruct HC as (_ & _ & Hi & _).
  destruct (Nat.eqb_spec a b) as [<-|].
  - rewrite sofnat_add. cbn [sofnat]. set (x := sofnat a). set (y := sofnat n). set (h := c_half C) in *. set (i := c_im C) in *.
    match goal with |- ?l = _ => transitivity (h * h * (PP + MM + ((x + (1 + 0)) * (y - x) + x * (y - x + 1)))
       + (i * i) * (h * h) * (PP + MM - ((x + (1 + 0)) * (y - x) + x * (y - x + 1))) + (h * y - x) * (h * y - x)); [ring|] end.
    rewrite Hi. transitivity (h * (h * (1 + 1)) * (y + (1 + 1) * (x * (y - x))) + (h * y - x) * (h * y - x)); [ring|].
    unfold h. rewrite half2. fold h. transitivity (h * y + (h * (1 + 1)) * (x * (y - x)) + h * h * y * y - (h * (1 + 1)) * (x * y) + x * x); [ring|].
    unfold h. rewrite half2. ring.
  - match goal with |- ?l = _ => transitivity (c_half C * c_half C * (PP + MM) + (c_im C * c_im C) * (c_half C * c_half C) * (PP + MM)); [ring|] end.
    rewrite Hi. ring.
Qed.

(** Hermitian. *)
Lemma P_adj a b : (a < N)%nat -> (b < N)%nat -> sconj (me P b a) = me M a b.
Proof.
  intros Ha Hb. unfold P, M, N in *. cbn [Sp Sm me]. destruct (Nat.eqb_spec a (S b)) as [->|]; [|apply conj_0].
  rewrite up_conj by lia. apply up_dn.
Qed.
Lemma M_adj a b : (a < N)%nat -> (b < N)%nat -> sconj (me M b a) = me P a b.
Proof. intros Ha Hb. rewrite <- P_adj by assumption. apply conj_conj. Qed.

Lemma Sx_herm : mat_eq (madj (Sx C n)) (Sx C n).
Proof.
  split; [reflexivity|]. split; [reflexivity|]. cbn [madj mr mc me]. intros a b Ha Hb. change (mc (Sx C n)) with N in Ha. change (mr (Sx C n)) with N in Hb.
  cbn [Sx me]. fold P M. rewrite conj_mul, conj_add, P_adj, M_adj by assumption. destruct HC as (_ & H & _). rewrite H. ring.
Qed.
Lemma Sy_herm : mat_eq (madj (Sy C n)) (Sy C n).
Proof.
  split; [reflexivity|]. split; [reflexivity|]. cbn [madj mr mc me]. intros a b Ha Hb. change (mc (Sy C n)) with N in Ha. change (mr (Sy C n)) with N in Hb.
  cbn [Sy me]. fold P M. rewrite !conj_mul, conj_sub, conj_opp, P_adj, M_adj by assumption. destruct HC as (_ & H & _ & H' & _). rewrite H, H'. ring.
Qed.
Lemma Sz_herm : mat_eq (madj (Sz C n)) (Sz C n).
Proof.
  split; [reflexivity|]. split; [reflexivity|]. cbn [madj mr mc me Sz]. intros a b Ha Hb. rewrite (Nat.eqb_sym b a).
  destruct (Nat.eqb_spec a b) as [<-|]; [|apply conj_0]. rewrite conj_sub, conj_mul, !sofnat_conj. destruct HC as (_ & H & _). now rewrite H.
Qed.

(** Sx + i Sy raises, Sx - i Sy lowers. *)
Lemma raise_entry a b : me (Sx C n) a b + c_im C * me (Sy C n) a b = me P a b.
Proof.
  cbn [Sx Sy me]. fold P M. destruct HC as (_ & _ & Hi & _).
  transitivity (c_half C * (me P a b + me M a b) - (c_im C * c_im C) * c_half C * (me P a b - me M a b)); [ring|].
  rewrite Hi. transitivity (c_half C * (1 + 1) * me P a b); [ring|]. rewrite half2. ring.
Qed.
Lemma lower_entry a b : me (Sx C n) a b - c_im C * me (Sy C n) a b = me M a b.
Proof.
  cbn [Sx Sy me]. fold P M. destruct HC as (_ & _ & Hi & _).
  transitivity (c_half C * (me P a b + me M a b) + (c_im C * c_im C) * c_half C * (me P a b - me M a b)); [ring|].
  rewrite Hi. transitivity (c_half C * (1 + 1) * me M a b); [ring|]. rewrite half2. ring.
Qed.
End Spin.

Lemma Sz_weights (C : consts R) n a b : me (Sz C n) a b = dlt a b * (c_half C * sofnat n - sofnat a).
Proof. cbn [Sz me]. unfold dlt. destruct (Nat.eqb a b); ring. Qed.
Lemma ladders_ok (C : consts R) n Lm Lp : consts_ok C (spin_roots n) -> c_sqrt C 1 = 1 -> c_sqrt C 4 = 1 + 1 -> ladders C n = Some (Lm, Lp) ->
  mat_eq Lp (mplus (Sx C n) (mscale (c_im C) (Sy C n))) /\ mat_eq Lm (mminus (Sx C n) (mscale (c_im C) (Sy C n))).
Proof.
  intros HC H1 H4 E.
  assert (HP : forall a b, me (mplus (Sx C n) (mscale (c_im C) (Sy C n))) a b = me (Sp C n) a b) by (intros; apply raise_entry; assumption).
  assert (HM : forall a b, me (mminus (Sx C n) (mscale (c_im C) (Sy C n))) a b = me (Sm C n) a b) by (intros; apply lower_entry; assumption).
  destruct n as [|[|[|[|n]]]]; try discriminate; injection E as <- <-;
    (split; (split; [reflexivity|split; [reflexivity|]]); intros a b Ha Hb; cbn [lit mr mc] in Ha, Hb; [rewrite HP|rewrite HM]);
    cbn [lit me Sp Sm]; unfold ladder_up, ladder_dn;
    (destruct a as [|[|[|[|a]]]]; try lia); (destruct b as [|[|[|[|b]]]]; try lia); cbn; rewrite ?H1, ?H4; reflexivity.
Qed.

Lemma ladders_none (C : consts R) n : ~ (1 <= n <= 3)%nat -> ladders C n = None.
Proof. intros H. destruct n as [|[|[|[|n]]]]; try reflexivity; lia. Qed.

(** Pauli matrices. *)
Lemma pauli_entries (C : consts R) : consts_ok C (fun _ => False) -> c_sqrt C 1 = 1 ->
  mat_eq (twice (Sx C 1)) (lit 2 2 [0; 1; 1; 0]) /\ mat_eq (twice (Sy C 1)) (lit 2 2 [0; - c_im C; c_im C; 0]) /\
  mat_eq (twice (Sz C 1)) (lit 2 2 [1; 0; 0; - (1)]).
Proof.
  intros (Hh & _) H1.
  assert (H2 : c_half C * (1 + 1) = 1) by (transitivity (c_half C + c_half C); [ring|exact Hh]).
  assert (H0 : forall x y z : R, x = c_half C * (1 + 1) * y + z -> x = y + z) by (intros x y z ->; rewrite H2; ring).
  repeat split; intros a b Ha Hb; cbn [twice Sx Sy Sz mr mc] in Ha, Hb; (destruct a as [|[|a]]; try lia); (destruct b as [|[|b]]; try lia);
    cbn; unfold ladder_up, ladder_dn; cbn; rewrite ?H1;
    match goal with
    | |- _ = - (1) => transitivity (1 + - (1 + 1) : R); [apply H0; ring|ring]
    | |- _ = ?r => transitivity (r + 0); [apply H0; ring|ring]
    end.
Qed.
End Proof.
