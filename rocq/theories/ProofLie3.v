(** Proofs about the commutation checks, swap symmetry, lambdas, slambdas and the spinors. *)
From Coq Require Import ZArith Permutation.
From Verif Require Import Alg ModelMPS SpecMPS ModelNcon ModelEk ModelTensor SpecTensor ModelDecomp ModelSpin SpecSpin ProofSpin ProofSpin2 ProofSpin3 ProofSpin4
  ModelLie SpecLie ProofLie.

Section Proof.
Context {R : sring}.
Add Ring Rr : (s_th R).
Local Open Scope sr_scope.

Lemma mprod_sq n (A B : mat R) : sq n A -> sq n B -> mprod A B = Ok (mmul A B).
Proof. intros [H1 H2] [H3 H4]. unfold mprod. replace (Nat.eqb (mc A) (mr B)) with true by (rewrite H2, H3; symmetry; apply Nat.eqb_refl). reflexivity. Qed.
Lemma mmul_sq n (A B : mat R) : sq n A -> sq n B -> sq n (mmul A B).
Proof. intros [H1 H2] [H3 H4]. split; assumption. Qed.
Lemma madd_sq n (A B : mat R) : sq n A -> sq n B -> madd A B = Ok (mplus A B).
Proof. intros [H1 H2] [H3 H4]. unfold madd. replace (Nat.eqb (mr A) (mr B) && Nat.eqb (mc A) (mc B)) with true by (rewrite H1, H2, H3, H4, Nat.eqb_refl; reflexivity). reflexivity. Qed.
Lemma msub_sq n (A B : mat R) : sq n A -> sq n B -> msub A B = Ok (mminus A B).
Proof. intros [H1 H2] [H3 H4]. unfold msub. replace (Nat.eqb (mr A) (mr B) && Nat.eqb (mc A) (mc B)) with true by (rewrite H1, H2, H3, H4, Nat.eqb_refl; reflexivity). reflexivity. Qed.
Lemma comm_sq n (A B : mat R) : sq n A -> sq n B -> comm A B = Ok (mcomm A B).
Proof.
  intros HA HB. unfold comm. rewrite (mprod_sq n), (mprod_sq n B A) by assumption. cbn [bind]. apply (msub_sq n); now apply mmul_sq.
Qed.

(** * CR *)
Lemma mat_eq_neg (A B A' B' : mat R) : mr A = mr A' -> mc A = mc A' -> mr B = mr B' -> mc B = mc B' ->
  (forall i j, me A' i j = - me A i j) -> (forall i j, me B' i j = - me B i j) -> mat_eq A B -> mat_eq A' B'.
Proof.
  intros H1 H2 H3 H4 HA HB (E1 & E2 & E3). split; [congruence|]. split; [congruence|]. intros i j Hi Hj. rewrite HA, HB. f_equal. apply E3; congruence.
Qed.

Lemma levi3 : map (fun jkl => levi_civita 3 [jkl / 9; jkl / 3 mod 3; jkl mod 3]) (seq 0 27) =
  [0; 0; 0;  0; 0; 1;  0; -1; 0;   0; 0; -1;  0; 0; 0;  1; 0; 0;   0; 1; 0;  -1; 0; 0;  0; 0; 0]%Z.
Proof. vm_compute. reflexivity. Qed.

Lemma CR_ok (C : consts R) close c n x y z : close_ok close -> sq n x -> sq n y -> sq n z ->
  exists b, CR_c C close c [x; y; z] = Ok b /\ (b = true <-> triple (c * c_im C) x y z).
Proof.
  intros Hcl Hx Hy Hz. unfold CR_c.
  set (L := [x; y; z]). set (at_ := fun k => nth k L (lit 0 0 [])).
  assert (Hat : forall k, (k < 3)%nat -> sq n (at_ k)) by (intros [|[|[|k]]] Hk; try lia; assumption).
  set (T := fun j k => mkMat (mr (at_ j)) (mr (at_ j)) (fun a b => suml (map (fun p => fst p * me (snd p) a b) (combine (map (fun l => c * sgn_ (levi_civita 3 [j; k; l]) * c_im C) (seq 0 3)) L)))).
  rewrite (mapM_ok _ (fun jk => close (mcomm (at_ (jk / 3)%nat) (at_ (jk mod 3)%nat)) (T (jk / 3)%nat (jk mod 3)%nat))).
  2:{ intros jk Hjk. apply in_seq in Hjk. assert (jk / 3 < 3)%nat by (apply Nat.div_lt_upper_bound; lia). assert (jk mod 3 < 3)%nat by (apply Nat.mod_upper_bound; lia).
      cbv zeta. fold (at_ (jk / 3)%nat). fold (at_ (jk mod 3)%nat). rewrite (comm_sq n) by (apply Hat; assumption). cbn [bind]. reflexivity. }
  cbn [bind]. eexists. split; [reflexivity|].
  assert (HT : forall j k, (j < 3)%nat -> (k < 3)%nat -> sq n (T j k)) by (intros j k Hj Hk; destruct (Hat j Hj); split; assumption).
  assert (Te : forall j k a b, me (T j k) a b = c * sgn_ (levi_civita 3 [j; k; 0%nat]) * c_im C * me x a b + (c * sgn_ (levi_civita 3 [j; k; 1%nat]) * c_im C * me y a b
     + (c * sgn_ (levi_civita 3 [j; k; 2%nat]) * c_im C * me z a b + 0))) by reflexivity.
  assert (F : forall j k l, (j < 3)%nat -> (k < 3)%nat -> (l < 3)%nat -> levi_civita 3 [j; k; l] = nth (j * 9 + k * 3 + l) [0; 0; 0;  0; 0; 1;  0; -1; 0;   0; 0; -1;  0; 0; 0;  1; 0; 0;   0; 1; 0;  -1; 0; 0;  0; 0; 0]%Z 0%Z).
  { intros j k l Hj Hk Hl. destruct j as [|[|[|j]]]; try lia; destruct k as [|[|[|k]]]; try lia; destruct l as [|[|[|l]]]; try lia; vm_compute; reflexivity. }
  assert (D : forall k, (k < 3)%nat -> mat_eq (mcomm (at_ k) (at_ k)) (T k k)).
  { intros k Hk. destruct (Hat k Hk) as [A1 A2]. split; [reflexivity|]. split; [change (mc (at_ k) = mr (at_ k)); congruence|]. intros i j _ _. rewrite Te, !F by lia.
    cbn [mcomm mminus me mmul]. destruct k as [|[|[|k]]]; try lia; cbn [nth Nat.mul Nat.add sgn_]; ring. }
  cbn [seq map]. cbn [forallb]. change (0 / 3)%nat with 0%nat. change (0 mod 3)%nat with 0%nat. change (1 / 3)%nat with 0%nat. change (1 mod 3)%nat with 1%nat.
  change (2 / 3)%nat with 0%nat. change (2 mod 3)%nat with 2%nat. change (3 / 3)%nat with 1%nat. change (3 mod 3)%nat with 0%nat.
  change (4 / 3)%nat with 1%nat. change (4 mod 3)%nat with 1%nat. change (5 / 3)%nat with 1%nat. change (5 mod 3)%nat with 2%nat.
  change (6 / 3)%nat with 2%nat. change (6 mod 3)%nat with 0%nat. change (7 / 3)%nat with 2%nat. change (7 mod 3)%nat with 1%nat.
  change (8 / 3)%nat with 2%nat. change (8 mod 3)%nat with 2%nat.
  unfold close_ok in Hcl. rewrite !andb_true_iff, !Hcl.
  destruct Hx as [X1 X2], Hy as [Y1 Y2], Hz as [Z1 Z2].
  assert (P : forall j k (w : mat R), (j < 3)%nat -> (k < 3)%nat -> sq n w -> (forall a b, me (T j k) a b = c * c_im C * me w a b) ->
     (mat_eq (mcomm (at_ j) (at_ k)) (T j k) <-> mat_eq (mcomm (at_ j) (at_ k)) (mscale (c * c_im C) w))).
  { intros j k w Hj Hk [W1 W2] Hw. destruct (HT j k Hj Hk) as [T1 T2].
    assert (S1 : mr (mscale (c * c_im C) w) = n) by exact W1. assert (S2 : mc (mscale (c * c_im C) w) = n) by exact W2.
    split; intros (E1 & E2 & E3); (split; [congruence|split; [congruence|]]); intros a b Ha Hb; rewrite E3 by assumption; [apply Hw|symmetry; apply Hw]. }
  assert (Ng : forall j k (w : mat R), (j < 3)%nat -> (k < 3)%nat -> (forall a b, me (T k j) a b = - me (T j k) a b) ->
     mat_eq (mcomm (at_ j) (at_ k)) (T j k) -> mat_eq (mcomm (at_ k) (at_ j)) (T k j)).
  { intros j k w Hj Hk Hn. destruct (Hat j Hj) as [A1 A2], (Hat k Hk) as [B1 B2]. destruct (HT j k Hj Hk), (HT k j Hk Hj).
    apply mat_eq_neg; cbn [mcomm mminus mmul mr mc me]; try congruence. intros. ring. }
  assert (P1 := P 0%nat 1%nat z). assert (P2 := P 1%nat 2%nat x). assert (P3 := P 2%nat 0%nat y).
  assert (Q1 : forall a b, me (T 0%nat 1%nat) a b = c * c_im C * me z a b) by (intros; rewrite Te, !F by lia; cbn [nth Nat.mul Nat.add sgn_]; ring).
  assert (Q2 : forall a b, me (T 1%nat 2%nat) a b = c * c_im C * me x a b) by (intros; rewrite Te, !F by lia; cbn [nth Nat.mul Nat.add sgn_]; ring).
  assert (Q3 : forall a b, me (T 2%nat 0%nat) a b = c * c_im C * me y a b) by (intros; rewrite Te, !F by lia; cbn [nth Nat.mul Nat.add sgn_]; ring).
  assert (N1 : forall a b, me (T 1%nat 0%nat) a b = - me (T 0%nat 1%nat) a b) by (intros; rewrite !Te, !F by lia; cbn [nth Nat.mul Nat.add sgn_]; ring).
  assert (N2 : forall a b, me (T 2%nat 1%nat) a b = - me (T 1%nat 2%nat) a b) by (intros; rewrite !Te, !F by lia; cbn [nth Nat.mul Nat.add sgn_]; ring).
  assert (N3 : forall a b, me (T 0%nat 2%nat) a b = - me (T 2%nat 0%nat) a b) by (intros; rewrite !Te, !F by lia; cbn [nth Nat.mul Nat.add sgn_]; ring).
  unfold triple. change (at_ 0%nat) with x in *. change (at_ 1%nat) with y in *. change (at_ 2%nat) with z in *.
  rewrite <- P1, <- P2, <- P3 by (first [lia|assumption|split; assumption]).
  split.
  - intros (_ & H01 & _ & _ & _ & H12 & H20 & _). auto.
  - intros (H01 & H12 & H20).
    assert (G10 := Ng 0%nat 1%nat z ltac:(lia) ltac:(lia) N1 H01). assert (G21 := Ng 1%nat 2%nat z ltac:(lia) ltac:(lia) N2 H12).
    assert (G02 := Ng 2%nat 0%nat z ltac:(lia) ltac:(lia) N3 H20).
    assert (D0 := D 0%nat ltac:(lia)). assert (D1 := D 1%nat ltac:(lia)). assert (D2 := D 2%nat ltac:(lia)). exact (conj D0 (conj H01 (conj G02 (conj G10 (conj D1 (conj H12 (conj H20 (conj G21 (conj D2 eq_refl))))))))) .
Qed.
Lemma CR_ok1 (C : consts R) close n (x y z : mat R) : close_ok close -> sq n x -> sq n y -> sq n z ->
  exists b, CR C close x y z = Ok b /\ (b = true <-> triple (c_im C) x y z).
Proof.
  intros Hc Hx Hy Hz. destruct (CR_ok C close 1 n x y z Hc Hx Hy Hz) as (b & E & H). exists b. split; [exact E|].
  replace (c_im C) with (1 * c_im C) by ring. exact H.
Qed.
End Proof.
