(** The algebra behind the canonical forms of an infinite MPS. *)
From Verif Require Import Alg ProofFm.
From Coq Require Import Setoid Morphisms.

Section Can.
Context {R : sring}.
Local Open Scope sr_scope.
Add Ring Rr : (s_th R).
Variables (D d : nat).
Notation "A == B" := (feq D A B) (at level 70).
Notation "A ** B" := (fmul D A B) (at level 40, left associativity).
Notation "A ^t" := (fT A) (at level 9, format "A ^t").
Notation "A ^c" := (fC A) (at level 9, format "A ^c").
Notation "A ^h" := (fH A) (at level 9, format "A ^h").
Notation One := (f1 (R := R)).

Lemma cancel (A B C : fm R) : A ** B == One -> A ** (B ** C) == C.
Proof. intros H. rewrite <- fmul_assoc, H. apply f1_l. Qed.

Variables (A : nat -> fm R) (X Xi Y Z U V : fm R) (Lv : nat -> R) (eta etar : R).
Hypothesis XXi : X ** Xi == One.
Hypothesis XiX : Xi ** X == One.
Hypothesis YZ : Y^t ** Z == One.
Hypothesis ZY : Z ** Y^t == One.
Hypothesis UU : U^h ** U == One.
Hypothesis UU' : U ** U^h == One.
Hypothesis VV : V ** V^h == One.
Hypothesis VV' : V^h ** V == One.
Hypothesis Lreal : forall i, i < D -> sconj (Lv i) = Lv i.
Notation L := (fdg Lv).
Hypothesis ULV : Y^t ** X == U ** L ** V.
Hypothesis Er : fsum d (fun s => A s ** (X ** X^h) ** (A s)^h) == fsc etar (X ** X^h).
Hypothesis El : fsum d (fun s => (A s)^t ** (Y ** Y^h) ** (A s)^c) == fsc eta (Y ** Y^h).

Definition Gs (s : nat) : fm R := V ** Xi ** A s ** (Z ** U).

Lemma tr1 : (X ** Xi)^t == One. Proof. rewrite XXi. apply fT_1. Qed.
Lemma XXi_h : Xi^h ** X^h == One. Proof. rewrite <- fH_mul, XXi. apply fH_1. Qed.
Lemma XiX_h : X^h ** Xi^h == One. Proof. rewrite <- fH_mul, XiX. apply fH_1. Qed.
Lemma XiX_t : X^t ** Xi^t == One. Proof. rewrite <- fT_mul, XiX. apply fT_1. Qed.
Lemma XXi_t : Xi^t ** X^t == One. Proof. rewrite <- fT_mul, XXi. apply fT_1. Qed.
Lemma XXi_c : X^c ** Xi^c == One. Proof. rewrite <- fC_mul, XXi. apply fC_1. Qed.
Lemma XiX_c : Xi^c ** X^c == One. Proof. rewrite <- fC_mul, XiX. apply fC_1. Qed.
Lemma VV_t : V^t ** V^c == One.
Proof. rewrite <- (fT_H D V), <- fT_mul, VV'. apply fT_1. Qed.
Lemma VV_c : V^c ** V^t == One.
Proof. rewrite <- (fT_H D V), <- fT_mul, VV. apply fT_1. Qed.
Lemma UU_t : U^t ** U^c == One.
Proof. rewrite <- (fT_H D U), <- fT_mul, UU. apply fT_1. Qed.
Lemma Yc : Y^c == (Y^t)^h. Proof. symmetry. apply fH_T. Qed.
Lemma YZ_h : Z^h ** Y^c == One.
Proof. rewrite Yc, <- fH_mul, YZ. apply fH_1. Qed.
Lemma ZY_h : Y^c ** Z^h == One.
Proof. rewrite Yc, <- fH_mul, ZY. apply fH_1. Qed.

(** the Schmidt values seen from both sides *)
Lemma VX : Y^t ** (X ** V^h) == U ** L.
Proof. rewrite <- fmul_assoc, ULV, !fmul_assoc, VV, f1_r. reflexivity. Qed.
Lemma UY : U^h ** (Y^t ** X) == L ** V.
Proof. rewrite ULV. rewrite !fmul_assoc. apply cancel, UU. Qed.

Lemma GL s : Gs s ** L == V ** Xi ** A s ** (X ** V^h).
Proof.
  unfold Gs. rewrite !fmul_assoc. rewrite <- VX. rewrite (cancel Z (Y^t)) by exact ZY. reflexivity.
Qed.
Lemma LG s : L ** Gs s == U^h ** Y^t ** A s ** (Z ** U).
Proof.
  unfold Gs. rewrite <- !fmul_assoc. rewrite <- UY. rewrite !fmul_assoc. rewrite (cancel X Xi) by exact XXi. reflexivity.
Qed.

Lemma L2_right : L ** L == V ** X^h ** (Y ** Y^h)^t ** (X ** V^h).
Proof.
  rewrite fT_mul, fT_H. rewrite !fmul_assoc. rewrite VX.
  assert (E : V ** (X^h ** Y^c) == L ** U^h).
  { transitivity ((U ** L)^h); [|rewrite fH_mul, fdg_H by exact Lreal; reflexivity]. rewrite <- VX, !fH_mul, fH_H, fH_T, fmul_assoc. reflexivity. }
  transitivity (V ** (X^h ** Y^c) ** (U ** L)); [|rewrite !fmul_assoc; reflexivity].
  rewrite E. rewrite !fmul_assoc, (cancel (U^h) U) by exact UU. reflexivity.
Qed.
Lemma L2_left : L ** L == U^h ** Y^t ** (X ** X^h) ** (Y^c ** U).
Proof.
  assert (E : X^h ** (Y^c ** U) == V^h ** L).
  { transitivity ((L ** V)^h); [|rewrite fH_mul, fdg_H by exact Lreal; reflexivity]. rewrite <- UY, !fH_mul, fH_H, fH_T, fmul_assoc. reflexivity. }
  transitivity (U^h ** (Y^t ** X) ** (X^h ** (Y^c ** U))); [|rewrite !fmul_assoc; reflexivity].
  rewrite UY, E, !fmul_assoc, (cancel V (V^h)) by exact VV. reflexivity.
Qed.

(** right canonical *)
Lemma can_r : fsum d (fun s => (Gs s ** L) ** (Gs s ** L)^h) == fsc etar One.
Proof.
  transitivity (fsum d (fun s => (V ** Xi) ** (A s ** (X ** X^h) ** (A s)^h ** (Xi^h ** V^h)))).
  { apply fsum_feq; intros s _. rewrite GL, !fH_mul, !fmul_assoc, fH_H.
    rewrite (cancel (V^h) V) by exact VV'. reflexivity. }
  rewrite fsum_r. rewrite fsum_l. rewrite Er. rewrite fsc_l, fsc_r, !fmul_assoc.
  rewrite (cancel Xi X) by exact XiX. rewrite (cancel (X^h) (Xi^h)) by exact XiX_h. rewrite VV. reflexivity.
Qed.
Lemma can_r_left : fsum d (fun s => (Gs s ** L)^t ** (L ** L) ** (Gs s ** L)^c) == fsc eta (L ** L).
Proof.
  assert (L2 : L ** L == V^c ** X^t ** (Y ** Y^h) ** (X^c ** V^t)).
  { transitivity ((L ** L)^t); [rewrite fT_mul, fdg_T; reflexivity|]. rewrite L2_right. rewrite !fT_mul, !fT_H, !fT_T, !fmul_assoc.
    rewrite (fT_C D Y). reflexivity. }
  transitivity (fsum d (fun s => (V^c ** X^t) ** ((A s)^t ** (Y ** Y^h) ** (A s)^c ** (X^c ** V^t)))).
  { apply fsum_feq; intros s _. rewrite L2, GL, !fT_mul, !fC_mul, fT_H, fC_H, !fmul_assoc.
    rewrite (cancel (V^t) (V^c)) by exact VV_t.
    rewrite (cancel (Xi^t) (X^t)) by exact XXi_t.
    rewrite (cancel (V^t) (V^c)) by exact VV_t. rewrite (cancel (X^c) (Xi^c)) by exact XXi_c. reflexivity. }
  rewrite fsum_r, fsum_l, El, fsc_l, fsc_r. rewrite L2. rewrite !fmul_assoc. reflexivity.
Qed.

(** left canonical *)
Lemma El' : fsum d (fun s => (A s)^h ** (Y^c ** Y^t) ** (A s)) == fsc eta (Y^c ** Y^t).
Proof.
  assert (E : (Y ** Y^h)^t == Y^c ** Y^t) by (rewrite fT_mul, fT_H; reflexivity).
  rewrite <- E, <- fT_sc, <- El, fsum_T. apply fsum_feq; intros s _. rewrite !fT_mul, fT_C, fT_T, !fmul_assoc. reflexivity.
Qed.
Lemma can_l : fsum d (fun s => (L ** Gs s)^h ** (L ** Gs s)) == fsc eta One.
Proof.
  transitivity (fsum d (fun s => (U^h ** Z^h) ** ((A s)^h ** (Y^c ** Y^t) ** (A s) ** (Z ** U)))).
  { apply fsum_feq; intros s _. rewrite LG, !fH_mul, fH_H, fH_T, !fmul_assoc.
    rewrite (cancel U (U^h)) by exact UU'. reflexivity. }
  rewrite fsum_r, fsum_l, El', fsc_l, fsc_r, !fmul_assoc.
  rewrite (cancel (Z^h) (Y^c)) by exact YZ_h. rewrite (cancel (Y^t) Z) by exact YZ. rewrite UU. reflexivity.
Qed.
Lemma can_l_right : fsum d (fun s => (L ** Gs s) ** (L ** L) ** (L ** Gs s)^h) == fsc etar (L ** L).
Proof.
  transitivity (fsum d (fun s => (U^h ** Y^t) ** (A s ** (X ** X^h) ** (A s)^h ** (Y^c ** U)))).
  { apply fsum_feq; intros s _. rewrite L2_left, LG, !fH_mul, fH_H, fH_T, !fmul_assoc.
    rewrite (cancel U (U^h)) by exact UU'. rewrite (cancel Z (Y^t)) by exact ZY.
    rewrite (cancel U (U^h)) by exact UU'. rewrite (cancel (Y^c) (Z^h)) by exact ZY_h. reflexivity. }
  rewrite fsum_r, fsum_l, Er, fsc_l, fsc_r, L2_left, !fmul_assoc. reflexivity.
Qed.

(** the pairing of the environments *)
Lemma pair_sv : ftr D ((Y ** Y^h)^t ** (X ** X^h)) = sum D (fun i => Lv i * Lv i).
Proof.
  rewrite fT_mul, fT_H.
  transitivity (ftr D ((Y^t ** X) ** (Y^t ** X)^h)).
  - rewrite (fmul_assoc D (Y^c)). rewrite ftr_cyc. rewrite fH_mul, fH_T, !fmul_assoc. reflexivity.
  - rewrite ULV, !fH_mul, !fmul_assoc. rewrite (cancel V (V^h)) by exact VV.
    rewrite ftr_cyc, !fmul_assoc, UU, f1_r, fdg_H, fdg_dg by exact Lreal. apply ftr_dg.
Qed.
Lemma etas_pair : etar * ftr D ((Y ** Y^h)^t ** (X ** X^h)) = eta * ftr D ((Y ** Y^h)^t ** (X ** X^h)).
Proof.
  rewrite <- (ftr_sc D eta). rewrite <- (fsc_l D eta). rewrite <- fT_sc, <- El. rewrite <- ftr_sc, <- fsc_r, <- Er.
  rewrite fsum_T, <- fsum_r, <- fsum_l, !ftr_sum. apply sum_ext; intros s _.
  rewrite !fT_mul, fT_C, fT_T, !fmul_assoc. rewrite (ftr_cyc D ((A s)^h)). rewrite !fmul_assoc. reflexivity.
Qed.

(** expectation values *)
Lemma circle_pair s t : ftr D ((Gs s ** L) ** (L ** (Gs t)^h) ** (L ** L))
  = ftr D ((Y ** Y^h)^t ** (A s ** (X ** X^h) ** (A t)^h)).
Proof.
  assert (E : L ** (Gs t)^h == (Gs t ** L)^h) by (rewrite fH_mul, fdg_H by exact Lreal; reflexivity).
  rewrite E, !GL, L2_right, !fH_mul, fH_H, !fmul_assoc.
  rewrite (cancel (V^h) V) by exact VV'.
  rewrite (cancel (V^h) V) by exact VV'. rewrite (cancel (Xi^h) (X^h)) by exact XXi_h.
  rewrite (ftr_cyc D V), !fmul_assoc, VV', f1_r. rewrite (ftr_cyc D Xi), !fmul_assoc, XXi, f1_r.
  symmetry. rewrite ftr_cyc, !fmul_assoc. reflexivity.
Qed.
End Can.

Section Can_m.
Context {R : sring}.
Local Open Scope sr_scope.
Variables (D d : nat) (G : nat -> fm R) (Lv q : nat -> R) (e : R).
Notation "A == B" := (feq D A B) (at level 70).
Notation "A ** B" := (fmul D A B) (at level 40, left associativity).
Hypothesis qq : forall i, i < D -> q i * q i = Lv i.
Hypothesis qr : forall i, i < D -> sconj (q i) = q i.
Lemma q_q : fdg q ** fdg q == fdg Lv.
Proof. rewrite fdg_dg. intros i j _ Hj. unfold fdg. rewrite qq by exact Hj. reflexivity. Qed.

(** the symmetric form *)
Lemma can_m_right : (forall i, i < D -> sconj (Lv i) = Lv i) ->
  fsum d (fun s => (G s ** fdg Lv) ** fH (G s ** fdg Lv)) == fsc e f1 ->
  fsum d (fun s => (fdg q ** G s ** fdg q) ** fdg Lv ** fH (fdg q ** G s ** fdg q)) == fsc e (fdg Lv).
Proof.
  intros Lr H. transitivity (fsum d (fun s => fdg q ** ((G s ** fdg Lv) ** fH (G s ** fdg Lv) ** fdg q))).
  - apply fsum_feq; intros s _. rewrite !fH_mul, !fdg_H by assumption. rewrite !fmul_assoc.
    rewrite <- q_q. rewrite !fmul_assoc. reflexivity.
  - rewrite fsum_r, fsum_l, H, fsc_l, fsc_r, f1_l, q_q. reflexivity.
Qed.
Lemma can_m_left : (forall i, i < D -> sconj (Lv i) = Lv i) ->
  fsum d (fun s => fH (fdg Lv ** G s) ** (fdg Lv ** G s)) == fsc e f1 ->
  fsum d (fun s => fT (fdg q ** G s ** fdg q) ** fdg Lv ** fC (fdg q ** G s ** fdg q)) == fsc e (fdg Lv).
Proof.
  intros Lr H. transitivity (fsum d (fun s => fT (fdg q ** (fH (fdg Lv ** G s) ** (fdg Lv ** G s) ** fdg q)))).
  - apply fsum_feq; intros s _. rewrite !fH_mul, !fT_mul, !fC_mul, !fdg_H, !fdg_C, !fdg_T, !fT_H by assumption. rewrite !fmul_assoc.
    rewrite <- q_q. rewrite !fmul_assoc. reflexivity.
  - rewrite <- fsum_T, fsum_r, fsum_l, H, fsc_l, fsc_r, f1_l, q_q, fT_sc, fdg_T. reflexivity.
Qed.
End Can_m.
