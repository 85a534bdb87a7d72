(** Proofs about swap symmetry, lambdas, slambdas and the spinors. *)
From Coq Require Import ZArith Permutation.
From Verif Require Import Alg ModelMPS SpecMPS ModelNcon ModelEk ModelTensor SpecTensor ModelDecomp ModelSpin SpecSpin ProofSpin ProofSpin2 ProofSpin3 ProofSpin4
  ModelLie SpecLie ProofLie ProofLie3.

Section Proof.
Context {R : sring}.
Add Ring Rr : (s_th R).
Local Open Scope sr_scope.

Ltac four := apply mat4; try reflexivity; intros i Hi j Hj;
  repeat (destruct Hi as [<-|Hi]); try destruct Hi; repeat (destruct Hj as [<-|Hj]); try destruct Hj.

Notation SW := (swap_gate : mat R).
Lemma sw_sq : sq 4 SW. Proof. split; reflexivity. Qed.

Definition sx (i : nat) : nat := match i with 1%nat => 2%nat | 2%nat => 1%nat | _ => i end.

Lemma sw_l (U : mat R) i j : sq 4 U -> (i < 4)%nat -> me (mmul SW U) i j = me U (sx i) j.
Proof. intros [H1 H2] Hi. do 4 (destruct i as [|i]; [cbn; ring|]). lia. Qed.
Lemma sw_r (U : mat R) i j : sq 4 U -> (j < 4)%nat -> me (mmul U SW) i j = me U i (sx j).
Proof. intros [H1 H2] Hj. cbn [mmul me]. rewrite H2. do 4 (destruct j as [|j]; [cbn; ring|]). lia. Qed.
Lemma ex_l (U : mat R) i j : sq 4 U -> (i < 4)%nat -> me (mmul exchange U) i j = me U (sx i) j.
Proof. intros [H1 H2] Hi. do 4 (destruct i as [|i]; [cbn; unfold dlt; cbn; ring|]). lia. Qed.
Lemma ex_r (U : mat R) i j : sq 4 U -> (j < 4)%nat -> me (mmul U exchange) i j = me U i (sx j).
Proof. intros [H1 H2] Hj. cbn [mmul me]. rewrite H2. do 4 (destruct j as [|j]; [cbn; unfold dlt; cbn; ring|]). lia. Qed.
Lemma sx_lt i : (i < 4)%nat -> (sx i < 4)%nat.
Proof. do 4 (destruct i as [|i]; [cbn; lia|]). lia. Qed.
Lemma sx_sx i : sx (sx i) = i.
Proof. do 3 (destruct i as [|i]; [reflexivity|]). reflexivity. Qed.

Section Sym.
Variable C : consts R.
Hypothesis HC : consts_ok C (fun _ => False).
Lemma hh : c_half C * (1 + 1) = 1.
Proof. destruct HC as (H & _). transitivity (c_half C + c_half C); [ring|exact H]. Qed.

Lemma swap_sym_run (U : mat R) : sq 4 U -> exists P, swap_sym_ C U = Ok P /\ sq 4 P /\
  forall i j, (i < 4)%nat -> (j < 4)%nat -> me P i j = c_half C * (me U i j + me U (sx i) (sx j)).
Proof.
  intros HU. unfold swap_sym_. assert (HA := mmul_sq 4 SW U sw_sq HU). assert (HB := mmul_sq 4 _ SW HA sw_sq).
  rewrite (mprod_sq 4 SW U sw_sq HU). cbn [bind]. rewrite (mprod_sq 4 _ _ HA sw_sq). cbn [bind]. rewrite (madd_sq 4 _ _ HU HB). cbn [bind].
  eexists. split; [reflexivity|]. split; [exact HU|]. intros i j Hi Hj. cbn [mscal mplus me]. rewrite sw_r by assumption. rewrite sw_l by assumption. reflexivity.
Qed.

Lemma swap_comm_iff (U : mat R) : sq 4 U -> swap_comm U <-> (forall i j, (i < 4)%nat -> (j < 4)%nat -> me U (sx i) (sx j) = me U i j).
Proof.
  intros HU. split.
  - intros (_ & _ & H) i j Hi Hj. assert (E := H (sx i) (j)). change (mr (mmul exchange U)) with 4%nat in E. destruct HU as [U1 U2]. change (mc (mmul exchange U)) with (mc U) in E. rewrite U2 in E.
    specialize (H i (sx j)). change (mr (mmul exchange U)) with 4%nat in H. change (mc (mmul exchange U)) with (mc U) in H. rewrite U2 in H.
    rewrite ex_l, ex_r in H by (try split; try apply sx_lt; assumption). rewrite sx_sx in H. apply H; [assumption|now apply sx_lt].
  - intros H. split; [symmetry; apply HU|]. split; [apply HU|]. intros i j Hi Hj. change (mr (mmul exchange U)) with 4%nat in Hi. change (mc (mmul exchange U)) with (mc U) in Hj.
    rewrite (proj2 HU) in Hj. rewrite ex_l, ex_r by assumption. rewrite <- (sx_sx j) at 1. apply H; [assumption|now apply sx_lt].
Qed.

Lemma symmetrise_ok (U : mat R) : sq 4 U -> exists P, swap_sym_ C U = Ok P /\ sq 4 P /\ swap_comm P /\ (swap_comm U <-> mat_eq P U).
Proof.
  intros HU. destruct (swap_sym_run U HU) as (P & EP & HP & Hent). exists P. split; [exact EP|]. split; [exact HP|]. split.
  - apply swap_comm_iff; [exact HP|]. intros i j Hi Hj. rewrite !Hent by (try apply sx_lt; assumption). rewrite !sx_sx. ring.
  - rewrite (swap_comm_iff U HU). split.
    + intros H. split; [destruct HP, HU; congruence|]. split; [destruct HP, HU; congruence|]. intros i j Hi Hj. rewrite (proj1 HP) in Hi. rewrite (proj2 HP) in Hj.
      rewrite Hent, H by assumption. transitivity (c_half C * (1 + 1) * me U i j); [ring|]. rewrite hh. ring.
    + intros (_ & _ & E) i j Hi Hj. assert (E1 := E i j). rewrite (proj1 HP), (proj2 HP) in E1. specialize (E1 Hi Hj). rewrite Hent in E1 by assumption.
      transitivity ((1 + 1) * (c_half C * (me U i j + me U (sx i) (sx j))) - me U i j).
      * transitivity (c_half C * (1 + 1) * (me U i j + me U (sx i) (sx j)) - me U i j); [rewrite hh|]; ring.
      * rewrite E1. ring.
Qed.

Lemma is_swap_ok close0 (U : mat R) : close0_ok close0 -> sq 4 U -> exists b, is_swap_symmetric C close0 U = Ok b /\ (b = true <-> swap_comm U).
Proof.
  intros Hc HU. unfold is_swap_symmetric, swap_antisymmetrise_. destruct (swap_sym_run U HU) as (P & EP & HP & Hent). destruct (symmetrise_ok U HU) as (P' & EP' & _ & _ & Hiff).
  rewrite EP in EP'. injection EP' as <-. rewrite EP. cbn [bind]. rewrite (msub_sq 4 _ _ HU HP). cbn [bind]. eexists. split; [reflexivity|].
  rewrite Hiff. unfold close0_ok in Hc. rewrite Hc. cbn [mminus mr mc me]. rewrite (proj1 HU), (proj2 HU). destruct HU as [U1 U2], HP as [P1 P2]. split.
  - intros H. split; [congruence|]. split; [congruence|]. intros i j Hi Hj. transitivity (me U i j - (me U i j - me P i j)); [ring|]. rewrite H by congruence. ring.
  - intros (_ & _ & H) i j Hi Hj. rewrite H by congruence. ring.
Qed.

(** * slambdas *)
Hypothesis H1 : c_sqrt C 1 = 1.
Let i_ := c_im C.
Let Xl : mat R := lit 2 2 [0; 1; 1; 0].
Let Yl : mat R := lit 2 2 [0; - i_; i_; 0].
Let Zl : mat R := lit 2 2 [1; 0; 0; - (1)].

Definition slit : list (mat R) :=
  [ lit 4 4 [0; 0; 0; 1;  0; 0; 1; 0;  0; 1; 0; 0;  1; 0; 0; 0];
    lit 4 4 [0; 0; 0; - (1);  0; 0; 1; 0;  0; 1; 0; 0;  - (1); 0; 0; 0];
    lit 4 4 [1; 0; 0; 0;  0; - (1); 0; 0;  0; 0; - (1); 0;  0; 0; 0; 1];
    lit 4 4 [0; 0; 0; - (i_ + i_);  0; 0; 0; 0;  0; 0; 0; 0;  i_ + i_; 0; 0; 0];
    lit 4 4 [0; 1; 1; 0;  1; 0; 0; - (1);  1; 0; 0; - (1);  0; - (1); - (1); 0];
    lit 4 4 [0; - i_; - i_; 0;  i_; 0; 0; i_;  i_; 0; 0; i_;  0; - i_; - i_; 0];
    lit 4 4 [0; 1; 1; 0;  1; 0; 0; 1;  1; 0; 0; 1;  0; 1; 1; 0];
    lit 4 4 [0; - i_; - i_; 0;  i_; 0; 0; - i_;  i_; 0; 0; - i_;  0; i_; i_; 0];
    lit 4 4 [1 + 1; 0; 0; 0;  0; 0; 0; 0;  0; 0; 0; 0;  0; 0; 0; - (1 + 1)] ].

Lemma slam_lit : Forall2 mat_eq (slambdas C) slit.
Proof.
  destruct (pauli_entries C HC H1) as (EX & EY & EZ). fold i_ in EY. fold Xl in EX. fold Yl in EY. fold Zl in EZ.
  assert (Hi : i_ * i_ = - (1)) by (destruct HC as (_ & _ & H & _); exact H).
  assert (K : forall A A' B B' : mat R, mat_eq A A' -> mat_eq B B' -> sq 2 A' -> sq 2 B' -> forall i j, (i < 4)%nat -> (j < 4)%nat -> me (kron A B) i j = me (kron A' B') i j).
  { intros A A' B B' HA HB [A1 A2] [B1 B2] i j Hi' Hj'. destruct (kron_eq A A' B B' HA HB) as (_ & _ & E). apply E; cbn [kron mr mc];
      destruct HA as (a1 & a2 & _), HB as (b1 & b2 & _); rewrite ?a1, ?a2, ?b1, ?b2, ?A1, ?A2, ?B1, ?B2; assumption. }
  assert (SX : sq 2 Xl) by (split; reflexivity). assert (SY : sq 2 Yl) by (split; reflexivity). assert (SZ : sq 2 Zl) by (split; reflexivity).
  assert (SI : sq 2 (eye 2 : mat R)) by (split; reflexivity).
  assert (EI := mat_eq_refl (eye 2 : mat R)).
  unfold slambdas, slit. repeat constructor.
  all: intros a b Ha Hb; cbn [kron mr mc twice Sx Sy Sz eye lit] in Ha, Hb; cbn [me].
  all: rewrite ?(K _ _ _ _ EX EX SX SX), ?(K _ _ _ _ EY EY SY SY), ?(K _ _ _ _ EZ EZ SZ SZ), ?(K _ _ _ _ EX EY SX SY), ?(K _ _ _ _ EY EX SY SX), ?(K _ _ _ _ EX EZ SX SZ),
     ?(K _ _ _ _ EZ EX SZ SX), ?(K _ _ _ _ EY EZ SY SZ), ?(K _ _ _ _ EZ EY SZ SY), ?(K _ _ _ _ EX EI SX SI), ?(K _ _ _ _ EI EX SI SX), ?(K _ _ _ _ EY EI SY SI), ?(K _ _ _ _ EI EY SI SY),
     ?(K _ _ _ _ EZ EI SZ SI), ?(K _ _ _ _ EI EZ SI SZ) by lia.
  all: do 4 (destruct a as [|a]; [do 4 (destruct b as [|b]; [cbn; unfold dlt; cbn; ring [Hi]|]); lia|]); lia.
Qed.

Lemma slit_sq : Forall (sq 4) slit.
Proof. unfold slit. repeat constructor. Qed.

Lemma transfer (P : mat R -> Prop) l m : Forall2 (@mat_eq R) l m -> (forall x y, mat_eq x y -> P y -> P x) -> Forall P m -> Forall P l.
Proof. intros H HP. induction H as [|x y l m Hxy H IH]; intros K; [constructor|]. apply Forall_cons_iff in K as [K1 K2]. constructor; [now apply (HP x y)|now apply IH]. Qed.

Lemma slam_sq : Forall (sq 4) (slambdas C).
Proof. apply (transfer _ _ _ slam_lit); [|exact slit_sq]. intros x y (E1 & E2 & _) [H2 H3]. split; congruence. Qed.

Lemma slam_swap T : In T (slambdas C) -> swap_comm T.
Proof.
  assert (Hl : Forall (fun T => sq 4 T /\ swap_comm T) slit).
  { unfold slit; repeat (apply Forall_cons || apply Forall_nil); (split; [split; reflexivity|]); (apply swap_comm_iff; [split; reflexivity|]); intros a b Ha Hb;
    (do 4 (destruct a as [|a]; [do 4 (destruct b as [|b]; [reflexivity|]); lia|]); lia). }
  intros HT. refine (proj2 (proj1 (Forall_forall (fun T => sq 4 T /\ swap_comm T) _) (transfer _ _ _ slam_lit _ Hl) T HT)). clear T HT.
  intros x y (E1 & E2 & E) [[Y1 Y2] Hy]. assert (Hx : sq 4 x) by (split; congruence). split; [exact Hx|].
  apply (swap_comm_iff x Hx). assert (Hy' := proj1 (swap_comm_iff y (conj Y1 Y2)) Hy). intros a b Ha Hb. destruct Hx as [X1 X2].
  rewrite !E by (rewrite ?X1, ?X2; try apply sx_lt; assumption). now apply Hy'.
Qed.

Lemma conj_im : sconj (c_im C) = - c_im C.
Proof. destruct HC as (_ & _ & _ & H & _). exact H. Qed.
Lemma conj_h : sconj (c_half C) = c_half C.
Proof. destruct HC as (_ & H & _). exact H. Qed.

Lemma slam_herm T : In T (slambdas C) -> mat_eq (madj T) T /\ mtrace T = 0.
Proof.
  assert (Hl : Forall (fun T => mat_eq (madj T) T /\ mtrace T = 0) slit).
  { unfold slit; repeat (apply Forall_cons || apply Forall_nil); (split; [four; cbn; unfold i_; rewrite ?conj_opp, ?conj_add, ?conj_im, ?conj_0, ?conj_1; ring | cbn; ring]). }
  intros HT. refine (proj1 (Forall_forall (fun T => mat_eq (madj T) T /\ mtrace T = 0) _) (transfer _ _ _ slam_lit _ Hl) T HT). clear T HT Hl.
  intros x y (E1 & E2 & E) [(A1 & A2 & A3) G2]. cbn [madj mr mc me] in A1, A2, A3. split.
  - split; [cbn [madj mr]; congruence|]. split; [cbn [madj mc]; congruence|]. cbn [madj mr mc me]. intros a b Ha Hb.
    rewrite !E by congruence. apply A3; congruence.
  - unfold mtrace in *. rewrite E1. rewrite <- G2. apply sum_ext. intros a Ha. apply E; congruence.
Qed.

(** Trace products. *)
Lemma mtrace_mmul_eq (A A' B B' : mat R) : mat_eq A A' -> mat_eq B B' -> mc A = mr B -> mr A = mc B -> mtrace (mmul A B) = mtrace (mmul A' B').
Proof.
  intros (A1 & A2 & A3) (B1 & B2 & B3) H H'. unfold mtrace. cbn [mmul mr me]. rewrite <- A1, <- A2. apply sum_ext. intros i Hi. apply sum_ext. intros k Hk.
  rewrite A3, B3 by congruence. reflexivity.
Qed.
Lemma slam_orth a b A B : nth_error (slambdas C) a = Some A -> nth_error (slambdas C) b = Some B ->
  mtrace (mmul A B) = if Nat.eqb a b then snorm a else 0.
Proof.
  assert (Hi : i_ * i_ = - (1)) by (destruct HC as (_ & _ & H & _); exact H).
  assert (Hlit : forall a b A B, nth_error slit a = Some A -> nth_error slit b = Some B -> mtrace (mmul A B) = if Nat.eqb a b then snorm a else 0).
  { intros x y A' B' HA HB. unfold slit in HA, HB.
    do 9 (destruct x as [|x]; [injection HA as <-; do 9 (destruct y as [|y]; [injection HB as <-; cbn; unfold snorm; cbn; ring [Hi]|]); destruct y; discriminate|]). destruct x; discriminate. }
  assert (Hn : forall l m, Forall2 (@mat_eq R) l m -> forall k A, nth_error l k = Some A -> exists A', nth_error m k = Some A' /\ mat_eq A A').
  { clear. induction 1 as [|x y l m Hxy H IH]; intros [|k] A HA; try discriminate; [|apply IH; exact HA]. injection HA as <-. exists y. split; [reflexivity|exact Hxy]. }
  intros HA HB. destruct (Hn _ _ slam_lit a A HA) as (A' & HA' & EA). destruct (Hn _ _ slam_lit b B HB) as (B' & HB' & EB).
  assert (Hq := slam_sq). rewrite Forall_forall in Hq. destruct (Hq A (nth_error_In _ _ HA)) as [A1 A2], (Hq B (nth_error_In _ _ HB)) as [B1 B2].
  rewrite (mtrace_mmul_eq A A' B B' EA EB) by congruence. now apply Hlit.
Qed.

(** Every traceless matrix that commutes with swap is a combination. *)
Lemma slam_complete (Q : mat R) : sq 4 Q -> mtrace Q = 0 -> swap_comm Q ->
  forall a b, (a < 4)%nat -> (b < 4)%nat ->
  me Q a b = comb_entry (map (fun k => sweight (c_half C) k * mtrace (mmul Q (nth k (slambdas C) (mone 0)))) (seq 0 9)) (slambdas C) a b.
Proof.
  intros HQ HT Hc0. assert (Hc := proj1 (swap_comm_iff Q HQ) Hc0).
  assert (Hi : i_ * i_ = - (1)) by (destruct HC as (_ & _ & H & _); exact H).
  assert (E01 : me Q 0%nat 2%nat = me Q 0%nat 1%nat) by (apply (Hc 0%nat 1%nat); lia).
  assert (E10 : me Q 2%nat 0%nat = me Q 1%nat 0%nat) by (apply (Hc 1%nat 0%nat); lia).
  assert (E31 : me Q 3%nat 2%nat = me Q 3%nat 1%nat) by (apply (Hc 3%nat 1%nat); lia).
  assert (E13 : me Q 2%nat 3%nat = me Q 1%nat 3%nat) by (apply (Hc 1%nat 3%nat); lia).
  assert (E12 : me Q 2%nat 1%nat = me Q 1%nat 2%nat) by (apply (Hc 1%nat 2%nat); lia).
  assert (E11 : me Q 2%nat 2%nat = me Q 1%nat 1%nat) by (apply (Hc 1%nat 1%nat); lia).
  assert (E33 : me Q 3%nat 3%nat = - me Q 0%nat 0%nat - (1 + 1) * me Q 1%nat 1%nat).
  { unfold mtrace in HT. rewrite (proj1 HQ) in HT. cbn in HT. rewrite E11 in HT.
    transitivity (0 + me Q 0%nat 0%nat + me Q 1%nat 1%nat + me Q 1%nat 1%nat + me Q 3%nat 3%nat - me Q 0%nat 0%nat - (1 + 1) * me Q 1%nat 1%nat); [ring|]. rewrite HT. ring. }
  assert (Hn : forall k, (k < 9)%nat -> mat_eq (nth k (slambdas C) (mone 0)) (nth k slit (mone 0))).
  { intros k Hk. assert (H := slam_lit). clear -H Hk. assert (L : length slit = 9%nat) by reflexivity. revert k Hk. rewrite <- L. clear L.
    induction H as [|x y l m Hxy H IH]; intros k Hk; [cbn in Hk; lia|]. destruct k; [exact Hxy|]. apply IH. cbn in Hk. lia. }
  assert (Hsq : forall k, (k < 9)%nat -> sq 4 (nth k (slambdas C) (mone 0))).
  { intros k Hk. assert (Hq := slam_sq). rewrite Forall_forall in Hq. apply Hq. apply nth_In. exact Hk. }
  intros a b Ha Hb. unfold comb_entry. change (length (slambdas C)) with 9%nat.
  rewrite (sum_ext 9 _ (fun k => sweight (c_half C) k * mtrace (mmul Q (nth k slit (mone 0))) * me (nth k slit (mone 0)) a b)).
  2:{ intros k Hk. rewrite (nth_indep _ 0 (sweight (c_half C) 0 * mtrace (mmul Q (nth 0 (slambdas C) (mone 0))))) by (rewrite map_length, seq_length; exact Hk).
      rewrite (map_nth (fun k => sweight (c_half C) k * mtrace (mmul Q (nth k (slambdas C) (mone 0))))). rewrite seq_nth by exact Hk. cbn [Nat.add].
      destruct (Hsq k Hk) as [S1 S2]. destruct (Hn k Hk) as (N1 & N2 & N3). rewrite N3 by (rewrite ?S1, ?S2; assumption).
      rewrite (mtrace_mmul_eq Q Q (nth k (slambdas C) (mone 0)) (nth k slit (mone 0))); [reflexivity|apply mat_eq_refl|now apply Hn| |]; destruct HQ; congruence. }
  assert (K : forall k, sweight (c_half C) k = c_half C * c_half C * c_half C * (if Nat.ltb k 3 then 1 + 1 else 1)).
  { intros k. unfold sweight. destruct (Nat.ltb k 3); [|ring]. transitivity (c_half C * c_half C * (c_half C * (1 + 1))); [rewrite hh|]; ring. }
  transitivity (c_half C * c_half C * c_half C * ((1 + 1) * (1 + 1) * (1 + 1) * me Q a b)).
  { transitivity ((c_half C * (1 + 1)) * (c_half C * (1 + 1)) * (c_half C * (1 + 1)) * me Q a b); [rewrite hh|]; ring. }
  rewrite (sum_ext 9 _ (fun k => c_half C * c_half C * c_half C * ((if Nat.ltb k 3 then 1 + 1 else 1) * (mtrace (mmul Q (nth k slit (mone 0))) * me (nth k slit (mone 0)) a b))))
    by (intros; rewrite K; ring).
  rewrite sum_mul_l. f_equal. clear K Hsq Hn. unfold mtrace. cbn [mmul mr me]. rewrite (proj1 HQ), (proj2 HQ).
  do 4 (destruct a as [|a]; [do 4 (destruct b as [|b]; [cbn; ring [Hi E01 E10 E31 E13 E12 E11 E33]|]); lia|]); lia.
Qed.

End Sym.
End Proof.
