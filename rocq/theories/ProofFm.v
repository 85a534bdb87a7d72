(** Square matrices of a fixed size as functions, up to equality of the entries in range. *)
From Verif Require Import Alg.
From Coq Require Import Setoid Morphisms.

Section Fm.
Context {R : sring}.
Variable D : nat.
Local Open Scope sr_scope.
Add Ring Rr : (s_th R).

Definition fm : Type := nat -> nat -> R.
Definition feq (A B : fm) : Prop := forall i j, i < D -> j < D -> A i j = B i j.
Definition fmul (A B : fm) : fm := fun i j => sum D (fun k => A i k * B k j).
Definition f1 : fm := fun i j => dlt i j.
Definition fT (A : fm) : fm := fun i j => A j i.
Definition fC (A : fm) : fm := fun i j => sconj (A i j).
Definition fH (A : fm) : fm := fun i j => sconj (A j i).
Definition fsc (c : R) (A : fm) : fm := fun i j => c * A i j.
Definition fsum (n : nat) (F : nat -> fm) : fm := fun i j => sum n (fun s => F s i j).
Definition ftr (A : fm) : R := sum D (fun i => A i i).
Definition fdg (v : nat -> R) : fm := fun i j => dlt i j * v j.

Global Instance feq_equiv : Equivalence feq.
Proof.
  split; unfold feq.
  - intros A i j _ _. reflexivity.
  - intros A B H i j Hi Hj. symmetry. auto.
  - intros A B C H1 H2 i j Hi Hj. rewrite H1 by assumption. auto.
Qed.
Global Instance fmul_proper : Proper (feq ==> feq ==> feq) fmul.
Proof. intros A A' HA B B' HB i j Hi Hj. apply sum_ext; intros k Hk. rewrite HA, HB by assumption. reflexivity. Qed.
Global Instance fT_proper : Proper (feq ==> feq) fT.
Proof. intros A A' H i j Hi Hj. apply H; assumption. Qed.
Global Instance fC_proper : Proper (feq ==> feq) fC.
Proof. intros A A' H i j Hi Hj. unfold fC. rewrite H by assumption. reflexivity. Qed.
Global Instance fH_proper : Proper (feq ==> feq) fH.
Proof. intros A A' H i j Hi Hj. unfold fH. rewrite H by assumption. reflexivity. Qed.
Global Instance fsc_proper : Proper (eq ==> feq ==> feq) fsc.
Proof. intros c ? <- A A' H i j Hi Hj. unfold fsc. rewrite H by assumption. reflexivity. Qed.
Global Instance ftr_proper : Proper (feq ==> eq) ftr.
Proof. intros A A' H. apply sum_ext; intros i Hi. apply H; assumption. Qed.
Lemma fsum_feq n (F G : nat -> fm) : (forall s, s < n -> feq (F s) (G s)) -> feq (fsum n F) (fsum n G).
Proof. intros H i j Hi Hj. apply sum_ext; intros s Hs. apply H; assumption. Qed.

Lemma fmul_assoc A B C : feq (fmul (fmul A B) C) (fmul A (fmul B C)).
Proof.
  intros i j _ _. unfold fmul.
  transitivity (sum D (fun k => sum D (fun k' => A i k' * B k' k * C k j))).
  - apply sum_ext; intros k _. now rewrite sum_mul_r.
  - rewrite sum_swap. apply sum_ext; intros k _. rewrite <- sum_mul_l. apply sum_ext; intros; ring.
Qed.
Lemma f1_l A : feq (fmul f1 A) A.
Proof. intros i j Hi _. unfold fmul, f1. now apply (sum_dlt_l D i (fun k => A k j)). Qed.
Lemma f1_r A : feq (fmul A f1) A.
Proof. intros i j _ Hj. unfold fmul, f1. now apply (sum_dlt_r D j (fun k => A i k)). Qed.
Lemma fT_mul A B : feq (fT (fmul A B)) (fmul (fT B) (fT A)).
Proof. intros i j _ _. apply sum_ext; intros; unfold fT; ring. Qed.
Lemma fC_mul A B : feq (fC (fmul A B)) (fmul (fC A) (fC B)).
Proof. intros i j _ _. unfold fC, fmul. rewrite sum_conj. apply sum_ext; intros; apply conj_mul. Qed.
Lemma fH_mul A B : feq (fH (fmul A B)) (fmul (fH B) (fH A)).
Proof. intros i j _ _. unfold fH, fmul. rewrite sum_conj. apply sum_ext; intros; rewrite conj_mul; ring. Qed.
Lemma fT_T A : feq (fT (fT A)) A. Proof. intros i j _ _. reflexivity. Qed.
Lemma fC_C A : feq (fC (fC A)) A. Proof. intros i j _ _. apply conj_conj. Qed.
Lemma fH_H A : feq (fH (fH A)) A. Proof. intros i j _ _. apply conj_conj. Qed.
Lemma fT_C A : feq (fT (fC A)) (fH A). Proof. intros i j _ _. reflexivity. Qed.
Lemma fC_T A : feq (fC (fT A)) (fH A). Proof. intros i j _ _. reflexivity. Qed.
Lemma fT_H A : feq (fT (fH A)) (fC A). Proof. intros i j _ _. reflexivity. Qed.
Lemma fH_T A : feq (fH (fT A)) (fC A). Proof. intros i j _ _. reflexivity. Qed.
Lemma fC_H A : feq (fC (fH A)) (fT A). Proof. intros i j _ _. apply conj_conj. Qed.
Lemma fH_C A : feq (fH (fC A)) (fT A). Proof. intros i j _ _. apply conj_conj. Qed.
Lemma fT_1 : feq (fT f1) f1. Proof. intros i j _ _. apply dlt_sym. Qed.
Lemma fC_1 : feq (fC f1) f1. Proof. intros i j _ _. unfold fC, f1, dlt. destruct (Nat.eqb i j); [apply conj_1|apply conj_0]. Qed.
Lemma fH_1 : feq (fH f1) f1. Proof. rewrite <- fT_C, fC_1, fT_1. reflexivity. Qed.
Lemma fsc_l c A B : feq (fmul (fsc c A) B) (fsc c (fmul A B)).
Proof. intros i j _ _. unfold fmul, fsc. rewrite <- sum_mul_l. apply sum_ext; intros; ring. Qed.
Lemma fsc_r c A B : feq (fmul A (fsc c B)) (fsc c (fmul A B)).
Proof. intros i j _ _. unfold fmul, fsc. rewrite <- sum_mul_l. apply sum_ext; intros; ring. Qed.
Lemma fsc_sc c d A : feq (fsc c (fsc d A)) (fsc (c * d) A). Proof. intros i j _ _. unfold fsc. ring. Qed.
Lemma fsc_1 A : feq (fsc 1 A) A. Proof. intros i j _ _. unfold fsc. ring. Qed.
Lemma fH_sc c A : feq (fH (fsc c A)) (fsc (sconj c) (fH A)). Proof. intros i j _ _. apply conj_mul. Qed.
Lemma fC_sc c A : feq (fC (fsc c A)) (fsc (sconj c) (fC A)). Proof. intros i j _ _. apply conj_mul. Qed.
Lemma fT_sc c A : feq (fT (fsc c A)) (fsc c (fT A)). Proof. intros i j _ _. reflexivity. Qed.
Lemma fsum_l n F A : feq (fsum n (fun s => fmul (F s) A)) (fmul (fsum n F) A).
Proof. intros i j _ _. unfold fsum, fmul. rewrite sum_swap. apply sum_ext; intros k _. now rewrite sum_mul_r. Qed.
Lemma fsum_r n F A : feq (fsum n (fun s => fmul A (F s))) (fmul A (fsum n F)).
Proof. intros i j _ _. unfold fsum, fmul. rewrite sum_swap. apply sum_ext; intros k _. now rewrite sum_mul_l. Qed.
Lemma fsum_sc n c F : feq (fsum n (fun s => fsc c (F s))) (fsc c (fsum n F)).
Proof. intros i j _ _. unfold fsum, fsc. now rewrite sum_mul_l. Qed.
Lemma fsum_T n F : feq (fT (fsum n F)) (fsum n (fun s => fT (F s))). Proof. intros i j _ _. reflexivity. Qed.
Lemma fsum_C n F : feq (fC (fsum n F)) (fsum n (fun s => fC (F s))). Proof. intros i j _ _. unfold fC, fsum. apply sum_conj. Qed.
Lemma fsum_H n F : feq (fH (fsum n F)) (fsum n (fun s => fH (F s))). Proof. intros i j _ _. unfold fH, fsum. apply sum_conj. Qed.
Lemma ftr_cyc A B : ftr (fmul A B) = ftr (fmul B A).
Proof. unfold ftr, fmul. rewrite sum_swap. apply sum_ext; intros i _. apply sum_ext; intros; ring. Qed.
Lemma ftr_T A : ftr (fT A) = ftr A. Proof. reflexivity. Qed.
Lemma ftr_sc c A : ftr (fsc c A) = c * ftr A. Proof. unfold ftr, fsc. now rewrite sum_mul_l. Qed.
Lemma ftr_sum n F : ftr (fsum n F) = sum n (fun s => ftr (F s)).
Proof. unfold ftr, fsum. apply sum_swap. Qed.
Lemma fdg_mul v A : feq (fmul (fdg v) A) (fun i j => v i * A i j).
Proof.
  intros i j Hi _. unfold fmul, fdg. transitivity (sum D (fun k => dlt i k * (v k * A k j))); [apply sum_ext; intros; ring|].
  now apply (sum_dlt_l D i (fun k => v k * A k j)).
Qed.
Lemma fmul_dg v A : feq (fmul A (fdg v)) (fun i j => A i j * v j).
Proof.
  intros i j _ Hj. unfold fmul, fdg. transitivity (sum D (fun k => A i k * v j * dlt k j)); [apply sum_ext; intros; ring|].
  now apply (sum_dlt_r D j (fun k => A i k * v j)).
Qed.
Lemma fdg_T v : feq (fT (fdg v)) (fdg v).
Proof. intros i j _ _. unfold fT, fdg, dlt. rewrite Nat.eqb_sym. destruct (Nat.eqb_spec i j) as [->|]; [reflexivity|ring]. Qed.
Lemma fdg_C v : (forall i, i < D -> sconj (v i) = v i) -> feq (fC (fdg v)) (fdg v).
Proof. intros H i j _ Hj. unfold fC, fdg, dlt. rewrite conj_mul, H by exact Hj. destruct (Nat.eqb i j); rewrite ?conj_1, ?conj_0; reflexivity. Qed.
Lemma fdg_H v : (forall i, i < D -> sconj (v i) = v i) -> feq (fH (fdg v)) (fdg v).
Proof. intros H. rewrite <- fT_C, fdg_C by exact H. apply fdg_T. Qed.
Lemma fdg_sc c v : feq (fsc c (fdg v)) (fdg (fun i => c * v i)).
Proof. intros i j _ _. unfold fsc, fdg. ring. Qed.
Lemma fdg_dg v w : feq (fmul (fdg v) (fdg w)) (fdg (fun i => v i * w i)).
Proof. rewrite fdg_mul. intros i j _ _. unfold fdg, dlt. destruct (Nat.eqb_spec i j) as [->|]; ring. Qed.
Lemma ftr_dg v : ftr (fdg v) = sum D v.
Proof. apply sum_ext; intros i _. unfold fdg. rewrite dlt_eq. ring. Qed.
End Fm.
Arguments fm : clear implicits.
