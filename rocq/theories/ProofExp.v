(** Proofs about the exponentials. *)
From Coq Require Import ZArith.
From Verif Require Import Alg ModelMPS SpecMPS ModelNcon ModelEk ModelTensor SpecTensor ModelDecomp ModelOrth SpecOrth SpecDecomp ModelSpin SpecSpin ProofSpin ProofSpin2 ProofSpin3 ProofSpin4
  ModelLie SpecLie ProofLie ProofLie2 ProofLie3 ProofLie4 ProofLie5 ModelExp SpecExp.

(** The level with parts a and b. *)
Definition rho_ (wh : where_) (n a b : nat) : nat :=
  match wh with Right_ => a * 2 + b | Left_ => b * n + a | _ => (a / 2 * 2 + b) * 2 + a mod 2 end.

Lemma place_even n : place_ok Mid n -> exists m, n = m * 2.
Proof. intros (q & Hq & ->). exists (2 ^ (q - 1)). replace q with (S (q - 1)) at 1 by lia. cbn [Nat.pow]. lia. Qed.
Lemma mid_parts x b z : b < 2 -> z < 2 -> ((x * 2 + b) * 2 + z) / 4 = x /\ ((x * 2 + b) * 2 + z) mod 2 = z /\ (((x * 2 + b) * 2 + z) / 2) mod 2 = b.
Proof.
  intros Hb Hz. replace ((x * 2 + b) * 2 + z) with (x * 4 + (b * 2 + z)) by lia.
  destruct (parts4 x (b * 2 + z)) as (E1 & _ & E3 & E4); [lia|]. rewrite E1, E3, E4. rewrite (Nat.add_comm (x * 2)), Nat.mod_add by lia.
  destruct b as [|[|b]]; try lia; destruct z as [|[|z]]; try lia; cbn; auto.
Qed.
Lemma rho_parts wh n a b : place_ok wh n -> a < n -> b < 2 -> alpha wh n (rho_ wh n a b) = a /\ beta wh n (rho_ wh n a b) = b /\ rho_ wh n a b < 2 * n.
Proof.
  intros Hp Ha Hb. destruct wh; cbn [alpha beta rho_].
  - destruct (place_even n Hp) as (m & ->). assert (Hz : a mod 2 < 2) by (apply Nat.mod_upper_bound; lia). destruct (mid_parts (a / 2) b (a mod 2) Hb Hz) as (E1 & E2 & E3).
    rewrite E1, E2, E3. assert (Ea : a = 2 * (a / 2) + a mod 2) by (apply Nat.div_mod; lia). split; [lia|]. split; [reflexivity|]. assert (a / 2 < m) by (apply Nat.div_lt_upper_bound; lia). lia.
  - rewrite Nat.div_add_l, (Nat.div_small b 2) by lia. rewrite (Nat.add_comm (a * 2)), Nat.mod_add, Nat.mod_small by lia. lia.
  - rewrite Nat.div_add_l, (Nat.div_small a n) by lia. rewrite (Nat.add_comm (b * n)), Nat.mod_add, Nat.mod_small by lia. nia.
  - destruct Hp.
Qed.
Lemma rho_onto wh n k : place_ok wh n -> k < 2 * n -> rho_ wh n (alpha wh n k) (beta wh n k) = k /\ alpha wh n k < n /\ beta wh n k < 2.
Proof.
  intros Hp Hk. destruct wh; cbn [alpha beta rho_].
  - destruct (place_even n Hp) as (m & ->). destruct (split4 k) as (x & r & -> & Hr). destruct (parts4 x r Hr) as (E1 & _ & E3 & E4).
    rewrite E1, E3, E4. assert (H2 : r mod 2 < 2) by (apply Nat.mod_upper_bound; lia).
    rewrite Nat.div_add_l, (Nat.div_small (r mod 2)) by lia. rewrite (Nat.add_comm (x * 2) (r mod 2)), Nat.mod_add, (Nat.mod_small (r mod 2)) by lia.
    rewrite (Nat.add_comm (x * 2) (r / 2)), Nat.mod_add by lia.
    assert ((r / 2) mod 2 = r / 2) by (destruct r as [|[|[|[|r]]]]; try lia; reflexivity). assert (r = 2 * (r / 2) + r mod 2) by (apply Nat.div_mod; lia).
    assert (r / 2 < 2) by (apply Nat.div_lt_upper_bound; lia). lia.
  - assert (k = 2 * (k / 2) + k mod 2) by (apply Nat.div_mod; lia). assert (k mod 2 < 2) by (apply Nat.mod_upper_bound; lia). lia.
  - assert (k = n * (k / n) + k mod n) by (apply Nat.div_mod; lia). assert (k mod n < n) by (apply Nat.mod_upper_bound; lia). assert (k / n < 2) by (apply Nat.div_lt_upper_bound; lia). lia.
  - destruct Hp.
Qed.

Section Proof.
Context {R : sring}.
Add Ring Rr : (s_th R).
Local Open Scope sr_scope.

Lemma inserted_to wh n (X Y : mat R) : place_ok wh n -> inserted wh n X Y -> forall a b, (a < 2 * n)%nat -> (b < 2 * n)%nat ->
  me Y a b = me X (alpha wh n a) (alpha wh n b) * dlt (beta wh n a) (beta wh n b).
Proof.
  intros Hp [_ H] a b Ha Hb. destruct (rho_onto wh n a Hp Ha) as (Ra & La & Ba). destruct (rho_onto wh n b Hp Hb) as (Rb & Lb & Bb).
  rewrite <- Ra, <- Rb at 1. destruct wh; cbn [rho_] in *; [|now apply H|now apply H|destruct Hp].
  destruct (place_even n Hp) as (m & En).
  assert (Hn2 : (n / 2 = m)%nat) by (rewrite En; apply Nat.div_mul; lia). rewrite Hn2 in H.
  assert (D : forall x, (x < n)%nat -> (x / 2 < m)%nat /\ (x mod 2 < 2)%nat /\ (x / 2 * 2 + x mod 2 = x)%nat).
  { intros x Hx. split; [apply Nat.div_lt_upper_bound; lia|]. split; [apply Nat.mod_upper_bound; lia|]. rewrite (Nat.div_mod x 2) at 3 by lia. lia. }
  destruct (D _ La) as (A1 & A2 & A3). destruct (D _ Lb) as (B1 & B2 & B3). rewrite H by assumption. now rewrite A3, B3.
Qed.

Lemma mmul_assoc (A B D : mat R) : mat_eq (mmul (mmul A B) D) (mmul A (mmul B D)).
Proof.
  split; [reflexivity|]. split; [reflexivity|]. cbn [mmul mr mc me]. intros i j Hi Hj.
  rewrite (sum_ext (mc B) _ (fun k => sum (mc A) (fun l => me A i l * me B l k * me D k j))) by (intros; now rewrite sum_mul_r).
  rewrite sum_swap. apply sum_ext. intros l Hl. rewrite <- sum_mul_l. apply sum_ext. intros. ring.
Qed.

Section Exp.
Variable E : mat R -> option (mat R).
Hypothesis HE : expm_ok E.

Lemma exp_pair n (A B X Y : mat R) : sq n A -> sq n B -> (forall i j, (i < n)%nat -> (j < n)%nat -> me B i j = - me A i j) ->
  E A = Some X -> E B = Some Y -> mat_eq (mmul X Y) (mone n).
Proof.
  intros HA HB HBA EA EB.
  assert (Hc : mat_eq (mmul A B) (mmul B A)).
  { destruct HA as [A1 A2], HB as [B1 B2]. split; [cbn; congruence|]. split; [cbn; congruence|]. cbn [mmul mr mc me]. rewrite A1, A2, B2. intros i j Hi Hj.
    apply sum_ext. intros k Hk. rewrite !HBA by assumption. ring. }
  destruct (ex_sum _ HE n A B X Y HA HB Hc EA EB) as (Z & EZ & HZ). destruct (ex_zero _ HE n) as (Z0 & E0 & H0).
  assert (H : mat_eq (mplus A B) (mkMat n n (fun _ _ => 0))).
  { destruct HA as [A1 A2]. split; [exact A1|]. split; [exact A2|]. cbn [mplus mr mc me]. rewrite A1, A2. intros i j Hi Hj. rewrite HBA by assumption. ring. }
  destruct (ex_ext _ HE _ _ _ H EZ) as (Z' & EZ' & HZ'). rewrite E0 in EZ'. injection EZ' as <-.
  eapply mat_eq_trans; [apply mat_eq_sym; exact HZ|]. eapply mat_eq_trans; [exact HZ'|exact H0].
Qed.

Lemma exp_antiherm n (A X : mat R) : sq n A -> mat_eq (madj A) (mscale (- (1)) A) -> E A = Some X -> unitary_ n X.
Proof.
  intros HA Hh EX. assert (HX := ex_shape _ HE n A X HA EX). split; [exact HX|].
  destruct (ex_adj _ HE A X EX) as (Y & EY & HY). assert (HA' : sq n (madj A)) by (destruct HA; split; assumption).
  assert (Hn : forall i j, (i < n)%nat -> (j < n)%nat -> me (madj A) i j = - me A i j).
  { intros i j Hi Hj. destruct Hh as (_ & _ & H). cbn [madj mscale mr mc me] in *. destruct HA as [A1 A2]. rewrite H by (rewrite ?A1, ?A2; assumption). ring. }
  assert (HYs := ex_shape _ HE n _ Y HA' EY).
  assert (P1 := exp_pair n _ _ _ _ HA HA' Hn EX EY).
  assert (P2 := exp_pair n _ _ _ _ HA' HA (fun i j Hi Hj => ltac:(rewrite (Hn i j Hi Hj); ring)) EY EX).
  split.
  - eapply mat_eq_trans; [|exact P2]. apply mmul_eq; [destruct HX; cbn; congruence|apply mat_eq_sym; exact HY|apply mat_eq_refl].
  - eapply mat_eq_trans; [|exact P1]. apply mmul_eq; [destruct HX; cbn; congruence|apply mat_eq_refl|apply mat_eq_sym; exact HY].
Qed.

(** Exponentials of an embedded matrix. *)
Lemma exp_inserted wh n (A B P Q : mat R) : place_ok wh n -> sq n A -> inserted wh n A B -> E A = Some P -> E B = Some Q -> inserted wh n P Q.
Proof.
  intros Hp HA Hi EA EB. assert (HB : sq (2 * n) B) by apply Hi. assert (HP := ex_shape _ HE n _ _ HA EA). assert (HQ := ex_shape _ HE _ _ _ HB EB).
  assert (HBe := inserted_to wh n A B Hp Hi).
  set (J := fun b : nat => mkMat (2 * n) n (fun k a => dlt (rho_ wh n a b) k) : mat R).
  assert (HJ : forall b, (b < 2)%nat -> mat_eq (mmul (J b) P) (mmul Q (J b))).
  { intros b Hb. apply (ex_inter _ HE (2 * n)%nat n (J b) A B P Q eq_refl eq_refl HA HB EA EB).
    split; [cbn; symmetry; apply HB|]. split; [cbn; apply HA|]. cbn [mmul mr mc me J]. rewrite (proj2 HA), (proj2 HB). intros k a Hk Ha.
    destruct (rho_onto wh n k Hp Hk) as (Rk & Lk & Bk). destruct (rho_parts wh n a b Hp Ha Hb) as (R1 & R2 & R3).
    rewrite (sum_single (2 * n) (rho_ wh n a b)) by (try exact R3; intros z Hz Hne; rewrite dlt_neq by congruence; ring). rewrite dlt_eq, HBe, R1, R2 by assumption.
    destruct (Nat.eq_dec (beta wh n k) b) as [Eb|Eb].
    - rewrite (sum_single n (alpha wh n k)).
      + rewrite <- Eb, Rk, !dlt_eq. ring.
      + exact Lk.
      + intros z Hz Hne. rewrite dlt_neq; [ring|]. intros Ez. apply Hne. rewrite <- Ez. destruct (rho_parts wh n z b Hp Hz Hb) as (-> & _). reflexivity.
    - rewrite (dlt_neq (beta wh n k) b) by exact Eb. rewrite sum_zero; [ring|]. intros z Hz. rewrite dlt_neq; [ring|]. intros Ez. apply Eb. rewrite <- Ez.
      destruct (rho_parts wh n z b Hp Hz Hb) as (_ & -> & _). reflexivity. }
  apply inserted_of; [exact Hp|exact HQ|]. intros k l Hk Hl.
  destruct (rho_onto wh n k Hp Hk) as (Rk & Lk & Bk). destruct (rho_onto wh n l Hp Hl) as (Rl & Ll & Bl).
  destruct (HJ _ Bl) as (_ & _ & H). cbn [mmul mr mc me J] in H. specialize (H k (alpha wh n l)). rewrite (proj2 HP), (proj2 HQ) in H. specialize (H Hk Ll).
  rewrite (sum_single (2 * n) l) in H by (try exact Hl; rewrite Rl; intros z Hz Hne; rewrite dlt_neq by congruence; ring).
  rewrite Rl, dlt_eq in H. transitivity (me Q k l * 1); [ring|]. rewrite <- H. clear H.
  destruct (Nat.eq_dec (beta wh n k) (beta wh n l)) as [Eb|Eb].
  - rewrite (sum_single n (alpha wh n k)).
    + rewrite <- Eb, Rk, !dlt_eq. ring.
    + exact Lk.
    + intros z Hz Hne. rewrite dlt_neq; [ring|]. intros Ez. apply Hne. rewrite <- Ez. destruct (rho_parts wh n z _ Hp Hz Bl) as (-> & _). reflexivity.
  - rewrite (dlt_neq (beta wh n k)) by exact Eb. rewrite sum_zero; [ring|]. intros z Hz. rewrite dlt_neq; [ring|]. intros Ez. apply Eb. rewrite <- Ez.
    destruct (rho_parts wh n z _ Hp Hz Bl) as (_ & -> & _). reflexivity.
Qed.
End Exp.
End Proof.
