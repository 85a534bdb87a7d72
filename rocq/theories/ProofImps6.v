(** The canonical forms of an infinite MPS. *)
From Verif Require Import Alg ModelMPS SpecMPS ModelOrth SpecOrth ModelCanon SpecCanon ProofCanon2 ModelNcon ModelEk ModelTensor ModelNp ModelDecomp SpecDecomp
  ModelLie ModelStruct ProofStruct ModelImps SpecImps SpecSpin ProofImps ProofFm ProofImps2 ProofImps3 ProofImps4 ProofImps5.
From Coq Require Import Setoid Morphisms.

Section C.
Context {R : sring}.
Local Open Scope sr_scope.
Add Ring Rr : (s_th R).
Variables (nonneg : R -> Prop) (C : icalls R).
Hypothesis HC : icalls_ok nonneg C.

Lemma dlt_off i j : i <> j -> dlt i j = 0 :> R.
Proof. intros H. unfold dlt. destruct (Nat.eqb_spec i j); [contradiction|reflexivity]. Qed.
Lemma dlt_on i : dlt i i = 1 :> R.
Proof. unfold dlt. now rewrite Nat.eqb_refl. Qed.
Lemma fdg_off v i j : i <> j -> fdg (R := R) v i j = 0.
Proof. intros H. unfold fdg. rewrite dlt_off by exact H. ring. Qed.
Lemma fdg_on v i : fdg (R := R) v i i = v i.
Proof. unfold fdg. rewrite dlt_on. ring. Qed.

Lemma square_diag D (L : mat R) v : feq D (me L) (fdg v) -> feq D (me (square L)) (fmul D (me L) (me L)).
Proof.
  intros H. rewrite H, fdg_dg. intros i j Hi Hj. cbn [square me]. rewrite (H i j Hi Hj). unfold fdg, dlt.
  destruct (Nat.eqb i j); ring.
Qed.

Lemma fm_gauge D (A B : site R) c P Pi : feq D (fmul D P Pi) f1 -> feq D (fmul D Pi P) f1 ->
  (forall s, feq D (ent B s) (fsc c (fmul D (fmul D P (ent A s)) Pi))) -> gauge_of D A B c.
Proof.
  intros H1 H2 H. exists (mkMat D D P), (mkMat D D Pi). repeat split.
  - intros i j Hi Hj. apply H1; assumption.
  - intros i j Hi Hj. apply H2; assumption.
  - intros s i j Hs Hi Hj. rewrite (H s i j Hi Hj). unfold fsc. f_equal. unfold fmul at 1. rewrite sum_swap. apply sum_ext; intros b Hb.
    unfold fmul. rewrite <- sum_mul_r. apply sum_ext; intros a _. cbn [me]. ring.
Qed.

Lemma fm_right_iso D (A : site R) : square_site D A ->
  feq D (fsum (phys A) (fun s => fmul D (ent A s) (fH (ent A s)))) f1 -> right_iso A.
Proof. intros [D1 D2] H i j Hi Hj. rewrite D1 in *. rewrite D2. apply (H i j Hi Hj). Qed.
Lemma fm_left_iso D (A : site R) : square_site D A ->
  feq D (fsum (phys A) (fun s => fmul D (fH (ent A s)) (ent A s))) f1 -> left_iso A.
Proof. intros [D1 D2] H i j Hi Hj. rewrite D2 in *. rewrite D1. apply (H i j Hi Hj). Qed.
Lemma fm_right_eigen D (A : site R) e x : square_site D A -> mr x = D -> mc x = D ->
  feq D (fsum (phys A) (fun s => fmul D (fmul D (ent A s) (me x)) (fH (ent A s)))) (fsc e (me x)) -> right_eigen A e x.
Proof.
  intros HA E1 E2 H. pose proof HA as [D1 D2]. split; [congruence|]. split; [congruence|]. intros i j Hi Hj. rewrite D1 in *.
  rewrite (tright_fm D) by exact HA. apply (H i j Hi Hj).
Qed.
Lemma fm_left_eigen D (A : site R) e x : square_site D A -> mr x = D -> mc x = D ->
  feq D (fsum (phys A) (fun s => fmul D (fmul D (fT (ent A s)) (me x)) (fC (ent A s)))) (fsc e (me x)) -> left_eigen A e x.
Proof.
  intros HA E1 E2 H. pose proof HA as [D1 D2]. split; [congruence|]. split; [congruence|]. intros i j Hi Hj. rewrite D2 in *.
  rewrite (tleft_fm D) by exact HA. apply (H i j Hi Hj).
Qed.

Section V.
Variables (D : nat) (A : site R) (rest : list (site R)) (m : imps R) (h : hand) (l0 r0 : option (mat R)) (tv : bool)
  (m' : imps R) (G : site R) (L : mat R) (eta : R) (l r : mat R).
Hypothesis Hm : i_data m = A :: rest.
Hypothesis HA : square_site D A.
Hypothesis He : imps_eigs C m l0 r0 = Ok (eta, l, r).
Hypothesis Hl : hermitian l.
Hypothesis Hr : hermitian r.
Hypothesis Hn : nonneg eta.
Hypothesis HK : canonicalise C m h l0 r0 tv = Ok (m', (G, L)).

Local Ltac facts := destruct (canon_facts nonneg C HC D A rest m h l0 r0 tv m' G L eta l r Hm HA He Hl Hr Hn HK)
  as (A' & Lv & c2 & c & P & Pi & Q & Qi & Gp & Gs & (M1 & M2 & M3 & M4) & Lr & Lr0 & Ln & N1 & N2 & Hc & Rc & F1 & F2 & F3 & F4 & PP & PP' & QQ & QQ' & EGL & ELG & Hcirc & (a1 & a2 & a3 & a4) & Hcs).

Lemma diagonal_L : diag_real D L.
Proof.
  facts. split; [exact M1|]. split; [exact M2|]. split.
  - intros i j Hi Hj Hij. rewrite (M4 i j Hi Hj). apply fdg_off, Hij.
  - intros i Hi. rewrite (M4 i i Hi Hi), fdg_on. apply Lr, Hi.
Qed.

Theorem canon_vidal : vidal_form D G L /\ phys G = phys A /\ i_L m' = Some L /\ i_l m' = Some l /\ i_r m' = Some r.
Proof.
  facts. split; [|repeat split; assumption]. split; [exact Gs|]. split; [exact diagonal_L|].
  split. { rewrite <- N1. apply sum_ext; intros i Hi. rewrite (M4 i i Hi Hi), fdg_on. reflexivity. }
  split.
  - intros i j Hi Hj. etransitivity; [|apply (F1 i j Hi Hj)]. rewrite Gp. unfold fsum. apply sum_ext; intros s _.
    unfold fmul at 1. apply sum_ext; intros k Hk. unfold fH.
    assert (E : forall i, i < D -> fmul D (ent G s) (me L) i k = ent G s i k * me L k k).
    { intros a Ha. assert (E : feq D (fmul D (ent G s) (me L)) (fun i j => ent G s i j * (c2 * Lv j))) by (rewrite M4; apply fmul_dg).
      rewrite (E a k Ha Hk), (M4 k k Hk Hk), fdg_on. reflexivity. }
    rewrite !E by assumption. rewrite (conj_mul R). rewrite (M4 k k Hk Hk), fdg_on, Lr by exact Hk. ring.
  - intros i j Hi Hj. etransitivity; [|apply (F2 i j Hi Hj)]. rewrite Gp. unfold fsum. apply sum_ext; intros s _.
    unfold fmul at 1. apply sum_ext; intros k Hk. unfold fH.
    assert (E : forall i, i < D -> fmul D (me L) (ent G s) k i = me L k k * ent G s k i).
    { intros a Ha. assert (E : feq D (fmul D (me L) (ent G s)) (fun i j => (c2 * Lv i) * ent G s i j)) by (rewrite M4; apply fdg_mul).
      rewrite (E k a Hk Ha), (M4 k k Hk Hk), fdg_on. reflexivity. }
    rewrite !E by assumption. rewrite (conj_mul R). rewrite (M4 k k Hk Hk), fdg_on, Lr by exact Hk. ring.
Qed.

Theorem canon_right : h = hand_r -> exists A' c, i_data m' = A' :: rest /\ phys A' = phys A /\ square_site D A' /\
  right_iso A' /\ left_eigen A' 1 (square L) /\ gauge_of D A A' c /\ c * c * eta = 1 /\ sconj c = c.
Proof.
  intros Eh. facts. rewrite Eh in Hcs. destruct Hcs as (K1 & K2 & K3). exists A', c. split; [exact a4|]. split; [exact K1|]. split; [exact K2|].
  split; [|split; [|split]].
  - apply (fm_right_iso D); [exact K2|]. rewrite K1. etransitivity; [|exact F1]. apply fsum_feq; intros s _. rewrite (K3 s). reflexivity.
  - apply (fm_left_eigen D); [exact K2|exact M1|exact M2|]. rewrite K1, fsc_1. rewrite (square_diag D L _ M4). etransitivity; [|exact F3].
    apply fsum_feq; intros s _. rewrite (K3 s), (square_diag D L _ M4). reflexivity.
  - apply (fm_gauge D A A' c P Pi); [exact PP|exact PP'|]. intros s. rewrite (K3 s). apply EGL.
  - split; assumption.
Qed.

Theorem canon_left : h = hand_l -> exists A' c, i_data m' = A' :: rest /\ phys A' = phys A /\ square_site D A' /\
  left_iso A' /\ right_eigen A' 1 (square L) /\ gauge_of D A A' c /\ c * c * eta = 1 /\ sconj c = c.
Proof.
  intros Eh. facts. rewrite Eh in Hcs. destruct Hcs as (K1 & K2 & K3). exists A', c. split; [exact a4|]. split; [exact K1|]. split; [exact K2|].
  split; [|split; [|split]].
  - apply (fm_left_iso D); [exact K2|]. rewrite K1. etransitivity; [|exact F2]. apply fsum_feq; intros s _. rewrite (K3 s). reflexivity.
  - apply (fm_right_eigen D); [exact K2|exact M1|exact M2|]. rewrite K1, fsc_1. rewrite (square_diag D L _ M4). etransitivity; [|exact F4].
    apply fsum_feq; intros s _. rewrite (K3 s), (square_diag D L _ M4). reflexivity.
  - apply (fm_gauge D A A' c Q Qi); [exact QQ|exact QQ'|]. intros s. rewrite (K3 s). apply ELG.
  - split; assumption.
Qed.

Lemma fsc_cancel c2 p (M N : fm R) : c2 * c2 * p = 1 -> feq D (fsc (c2 * c2) M) N -> feq D M (fsc p N).
Proof. intros E H. rewrite <- H, fsc_sc. rewrite (ltac:(ring) : p * (c2 * c2) = c2 * c2 * p). rewrite E, fsc_1. reflexivity. Qed.

Theorem canon_mixed : h = hand_m -> exists A', i_data m' = A' :: rest /\ phys A' = phys A /\ square_site D A' /\
  right_eigen A' (pair_lr D (me l) (me r)) L /\ left_eigen A' (pair_lr D (me l) (me r)) L /\
  exists q c, c * c * pair_lr D (me l) (me r) = 1 /\ (forall i, i < D -> me L i i = c * (q i * q i)) /\
    forall s i j, i < D -> j < D -> ent A' s i j = q i * ent G s i j * q j.
Proof.
  intros Eh. facts. rewrite Eh in Hcs. destruct Hcs as (K1 & K2 & q & qq & qr & K3). exists A'. split; [exact a4|]. split; [exact K1|]. split; [exact K2|].
  split; [|split].
  - apply (fm_right_eigen D); [exact K2|exact M1|exact M2|]. rewrite K1. rewrite M3.
    assert (F1' : feq D (fsum (phys A) (fun s => fmul D (fmul D (ent G s) (fdg Lv)) (fH (fmul D (ent G s) (fdg Lv))))) (fsc (pair_lr D (me l) (me r)) f1)).
    { apply (fsc_cancel c2); [exact N2|]. rewrite <- fsum_sc. etransitivity; [|exact F1]. apply fsum_feq; intros s _.
      intros i j Hi Hj. assert (HD : forall i k, i < D -> k < D -> fmul D (ent G s) (me L) i k = ent G s i k * (c2 * Lv k)).
      { intros a k Ha Hk. assert (E : feq D (fmul D (ent G s) (me L)) (fun i j => ent G s i j * (c2 * Lv j))) by (rewrite M4; apply fmul_dg). apply (E a k Ha Hk). }
      unfold fsc, fmul at 1, fmul at 3, fH. rewrite <- sum_mul_l. apply sum_ext; intros k Hk. rewrite !HD by assumption.
      rewrite (fmul_dg D Lv (ent G s) i k Hi Hk), (fmul_dg D Lv (ent G s) j k Hj Hk). rewrite !(conj_mul R).
      pose proof (Lr k Hk) as E. rewrite (conj_mul R) in E. rewrite E, (Lr0 k Hk). ring. }
    rewrite fsc_sc, (ltac:(ring) : pair_lr D (me l) (me r) * c2 = c2 * pair_lr D (me l) (me r)), <- fsc_sc.
    rewrite <- (can_m_right D (phys A) (ent G) Lv q _ qq qr Lr0 F1'). rewrite <- fsum_sc. apply fsum_feq; intros s _.
    rewrite (K3 s), M3, fsc_r, fsc_l. reflexivity.
  - apply (fm_left_eigen D); [exact K2|exact M1|exact M2|]. rewrite K1. rewrite M3.
    assert (F1' : feq D (fsum (phys A) (fun s => fmul D (fH (fmul D (fdg Lv) (ent G s))) (fmul D (fdg Lv) (ent G s)))) (fsc (pair_lr D (me l) (me r)) f1)).
    { apply (fsc_cancel c2); [exact N2|]. rewrite <- fsum_sc. etransitivity; [|exact F2]. apply fsum_feq; intros s _.
      intros i j Hi Hj. assert (HD : forall i k, i < D -> k < D -> fmul D (me L) (ent G s) i k = (c2 * Lv i) * ent G s i k).
      { intros a k Ha Hk. assert (E : feq D (fmul D (me L) (ent G s)) (fun i j => (c2 * Lv i) * ent G s i j)) by (rewrite M4; apply fdg_mul). apply (E a k Ha Hk). }
      unfold fsc, fmul at 1, fmul at 3, fH. rewrite <- sum_mul_l. apply sum_ext; intros k Hk. rewrite !HD by assumption.
      rewrite (fdg_mul D Lv (ent G s) k i Hk Hi), (fdg_mul D Lv (ent G s) k j Hk Hj). rewrite !(conj_mul R).
      pose proof (Lr k Hk) as E. rewrite (conj_mul R) in E. rewrite E, (Lr0 k Hk). ring. }
    rewrite fsc_sc, (ltac:(ring) : pair_lr D (me l) (me r) * c2 = c2 * pair_lr D (me l) (me r)), <- fsc_sc.
    rewrite <- (can_m_left D (phys A) (ent G) Lv q _ qq qr Lr0 F1'). rewrite <- fsum_sc. apply fsum_feq; intros s _.
    rewrite (K3 s), M3, fsc_r, fsc_l. reflexivity.
  - exists q, c2. split; [exact N2|]. split.
    + intros i Hi. rewrite (M4 i i Hi Hi), fdg_on, qq by exact Hi. reflexivity.
    + intros s i j Hi Hj. rewrite (K3 s i j Hi Hj). rewrite (fmul_dg D q _ i j Hi Hj), (fdg_mul D q _ i j Hi Hj). reflexivity.
Qed.

Theorem canon_other : h = hand_other -> i_data m' = A :: rest.
Proof. intros Eh. facts. rewrite Eh in Hcs. cbn [canon_site] in Hcs. now rewrite a4, Hcs. Qed.
End V.
End C.
