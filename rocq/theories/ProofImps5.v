(** canonicalise: canonical forms and expectation values. *)
From Verif Require Import Alg ModelMPS SpecMPS ModelOrth SpecOrth ModelCanon SpecCanon ProofCanon2 ModelNcon ModelEk ModelTensor ModelNp ModelDecomp SpecDecomp
  ModelLie ModelStruct ProofStruct ModelImps SpecImps SpecSpin ProofImps ProofFm ProofImps2 ProofImps3 ProofImps4.
From Coq Require Import Setoid Morphisms.

Section C.
Context {R : sring}.
Local Open Scope sr_scope.
Add Ring Rr : (s_th R).
Variables (nonneg : R -> Prop) (C : icalls R).
Hypothesis HC : icalls_ok nonneg C.

Notation "A == B" := (feq _ A B) (at level 70).

Lemma right_eigen_fm D (A : site R) e x : square_site D A -> right_eigen A e x ->
  feq D (fsum (phys A) (fun s => fmul D (fmul D (ent A s) (me x)) (fH (ent A s)))) (fsc e (me x)).
Proof.
  intros HA (_ & _ & H) i j Hi Hj. pose proof HA as [D1 _]. rewrite D1 in H. rewrite <- tright_fm by exact HA. apply H; assumption.
Qed.
Lemma left_eigen_fm D (A : site R) e x : square_site D A -> left_eigen A e x ->
  feq D (fsum (phys A) (fun s => fmul D (fmul D (fT (ent A s)) (me x)) (fC (ent A s)))) (fsc e (me x)).
Proof.
  intros HA (_ & _ & H) i j Hi Hj. pose proof HA as [_ D1]. rewrite D1 in H. rewrite <- tleft_fm by exact HA. apply H; assumption.
Qed.

Lemma pair_fm D l r : pair_lr D l r = ftr (R := R) D (fmul D (fT l) r).
Proof. unfold pair_lr, ftr, fmul, fT. apply sum_swap. Qed.

(** everything that is known of the Vidal pair *)
Section V.
Variables (D : nat) (A : site R) (rest : list (site R)) (m : imps R) (h : hand) (l0 r0 : option (mat R)) (tv : bool)
  (m' : imps R) (G : site R) (L : mat R) (eta : R) (l r : mat R).
Hypothesis Hm : i_data m = A :: rest.
Hypothesis HA : square_site D A.
Hypothesis He : imps_eigs C m l0 r0 = Ok (eta, l, r).
Hypothesis Hl : hermitian l.
Hypothesis Hr : hermitian r.
Hypothesis Hn : nonneg eta.
Hypothesis HK : canonicalise C m h l0 r0 tv = Ok (m', (G, L)).

Lemma canon_facts : exists A' Lv c2 c P Pi Q Qi,
  phys G = phys A /\ square_site D G /\
  (mr L = D /\ mc L = D /\ feq D (me L) (fsc c2 (fdg Lv)) /\ feq D (me L) (fdg (fun i => c2 * Lv i))) /\
  (forall i, i < D -> sconj (c2 * Lv i) = c2 * Lv i) /\ (forall i, i < D -> sconj (Lv i) = Lv i) /\ (forall i, i < D -> nonneg (Lv i)) /\
  sum D (fun i => (c2 * Lv i) * (c2 * Lv i)) = 1 /\ c2 * c2 * pair_lr D (me l) (me r) = 1 /\
  c * c * eta = 1 /\ sconj c = c /\
  feq D (fsum (phys A) (fun s => fmul D (fmul D (ent G s) (me L)) (fH (fmul D (ent G s) (me L))))) f1 /\
  feq D (fsum (phys A) (fun s => fmul D (fH (fmul D (me L) (ent G s))) (fmul D (me L) (ent G s)))) f1 /\
  feq D (fsum (phys A) (fun s => fmul D (fmul D (fT (fmul D (ent G s) (me L))) (fmul D (me L) (me L))) (fC (fmul D (ent G s) (me L))))) (fmul D (me L) (me L)) /\
  feq D (fsum (phys A) (fun s => fmul D (fmul D (fmul D (me L) (ent G s)) (fmul D (me L) (me L))) (fH (fmul D (me L) (ent G s))))) (fmul D (me L) (me L)) /\
  feq D (fmul D P Pi) f1 /\ feq D (fmul D Pi P) f1 /\ feq D (fmul D Q Qi) f1 /\ feq D (fmul D Qi Q) f1 /\
  (forall s, feq D (fmul D (ent G s) (me L)) (fsc c (fmul D (fmul D P (ent A s)) Pi))) /\
  (forall s, feq D (fmul D (me L) (ent G s)) (fsc c (fmul D (fmul D Q (ent A s)) Qi))) /\
  (forall s t, eta * pair_lr D (me l) (me r) * ftr D (fmul D (fmul D (fmul D (ent G s) (me L)) (fmul D (me L) (fH (ent G t)))) (fmul D (me L) (me L)))
     = ftr D (fmul D (fT (me l)) (fmul D (fmul D (ent A s) (me r)) (fH (ent A t))))) /\
  (i_L m' = Some L /\ i_l m' = Some l /\ i_r m' = Some r /\ i_data m' = A' :: rest) /\
  canon_site h D A G A' L Lv.
Proof.
  destruct (canon_inv nonneg C HC D A rest m h l0 r0 tv m' G L eta l r Hm HA He Hl Hr Hn HK)
    as (X & Xi & Y & Z & U & V & Lv & c1 & c2 & etar & A' & (XXi & XiX & YZ & ZY & UU & UU' & VV & VV') & Lr & Ln & ULV & EX & EY & Er & El & R1 & R2 & N1 & N2
        & (G1 & G2 & G3) & (M1 & M2 & M3) & Hat & Hcs).
  apply (right_eigen_fm D) in Er; [|exact HA]. apply (left_eigen_fm D) in El; [|exact HA].
  assert (Er' : feq D (fsum (phys A) (fun s => fmul D (fmul D (ent A s) (fmul D X (fH X))) (fH (ent A s)))) (fsc etar (fmul D X (fH X)))).
  { rewrite <- EX, <- Er. apply fsum_feq; intros s _. rewrite <- EX. reflexivity. }
  assert (El' : feq D (fsum (phys A) (fun s => fmul D (fmul D (fT (ent A s)) (fmul D Y (fH Y))) (fC (ent A s)))) (fsc eta (fmul D Y (fH Y)))).
  { rewrite <- EY, <- El. apply fsum_feq; intros s _. rewrite <- EY. reflexivity. }
  pose proof (pair_sv D X Y U V Lv UU VV Lr ULV) as Hpv.
  pose proof (etas_pair D (phys A) (ent A) X Y eta etar Er' El') as Het. rewrite Hpv in Het.
  assert (Hpl : pair_lr D (me l) (me r) = sum D (fun i => Lv i * Lv i)).
  { rewrite pair_fm, <- Hpv. rewrite EX, EY. reflexivity. }
  set (ll := sum D (fun i => Lv i * Lv i)) in *.
  assert (Eee : etar = eta).
  { transitivity (c2 * c2 * (etar * ll)); [transitivity (etar * (c2 * c2 * ll)); [rewrite N2; ring|ring]|].
    rewrite Het. transitivity (eta * (c2 * c2 * ll)); [ring|rewrite N2; ring]. }
  rewrite Eee in *. clear etar Eee.
  set (c := c1 * c2).
  assert (Hc : c * c * eta = 1) by (unfold c; transitivity (c2 * c2 * (c1 * c1 * eta)); [ring|rewrite N1; exact N2]).
  assert (Rc : sconj c = c) by (unfold c; rewrite (conj_mul R), R1, R2; reflexivity).
  assert (LL : feq D (fmul D (me L) (me L)) (fsc (c2 * c2) (fmul D (fdg Lv) (fdg Lv)))).
  { rewrite M3, fsc_l, fsc_r, fsc_sc. reflexivity. }
  assert (GLc : forall s, feq D (fmul D (ent G s) (me L)) (fsc c (fmul D (Gs D (ent A) Xi Z U V s) (fdg Lv)))).
  { intros s. rewrite (G3 s), M3, fsc_l, fsc_r, fsc_sc. reflexivity. }
  assert (LGc : forall s, feq D (fmul D (me L) (ent G s)) (fsc c (fmul D (fdg Lv) (Gs D (ent A) Xi Z U V s)))).
  { intros s. rewrite (G3 s), M3, fsc_l, fsc_r, fsc_sc. unfold c. rewrite (ltac:(ring) : c2 * c1 = c1 * c2). reflexivity. }
  exists A', Lv, c2, c, (fmul D V Xi), (fmul D X (fH V)), (fmul D (fH U) (fT Y)), (fmul D Z U).
  split; [exact G1|]. split; [exact G2|].
  split. { split; [exact M1|]. split; [exact M2|]. split; [exact M3|]. rewrite M3. apply fdg_sc. }
  split. { intros i Hi. rewrite (conj_mul R), R2, (Lr i Hi). reflexivity. }
  split; [exact Lr|]. split; [exact Ln|].
  split. { rewrite <- N2. unfold ll. rewrite <- sum_mul_l. apply sum_ext; intros i _. ring. }
  split. { rewrite Hpl. exact N2. }
  split; [exact Hc|]. split; [exact Rc|].
  split. { transitivity (fsum (phys A) (fun s => fsc (c * c) (fmul D (fmul D (Gs D (ent A) Xi Z U V s) (fdg Lv)) (fH (fmul D (Gs D (ent A) Xi Z U V s) (fdg Lv)))))).
    { apply fsum_feq; intros s _. rewrite GLc, fH_sc, Rc, fsc_l, fsc_r, fsc_sc. reflexivity. }
    rewrite fsum_sc. rewrite (can_r D (phys A) (ent A) X Xi Y Z U V Lv eta) by assumption. rewrite fsc_sc, Hc, fsc_1. reflexivity. }
  split. { transitivity (fsum (phys A) (fun s => fsc (c * c) (fmul D (fH (fmul D (fdg Lv) (Gs D (ent A) Xi Z U V s))) (fmul D (fdg Lv) (Gs D (ent A) Xi Z U V s))))).
    { apply fsum_feq; intros s _. rewrite LGc, fH_sc, Rc, fsc_l, fsc_r, fsc_sc. reflexivity. }
    rewrite fsum_sc. rewrite (can_l D (phys A) (ent A) X Xi Y Z U V Lv eta) by assumption. rewrite fsc_sc, Hc, fsc_1. reflexivity. }
  split. { transitivity (fsum (phys A) (fun s => fsc (c2 * c2 * (c * c)) (fmul D (fmul D (fT (fmul D (Gs D (ent A) Xi Z U V s) (fdg Lv))) (fmul D (fdg Lv) (fdg Lv))) (fC (fmul D (Gs D (ent A) Xi Z U V s) (fdg Lv)))))).
    { apply fsum_feq; intros s _. rewrite GLc, fT_sc, fC_sc, Rc, LL. rewrite !fsc_l, !fsc_r, !fsc_l, !fsc_sc.
      match goal with |- feq _ (fsc ?a _) (fsc ?b _) => replace a with b by ring end. reflexivity. }
    rewrite fsum_sc. rewrite (can_r_left D (phys A) (ent A) X Xi Y Z U V Lv eta) by assumption. rewrite fsc_sc.
    rewrite (ltac:(ring) : c2 * c2 * (c * c) * eta = c2 * c2 * (c * c * eta)). rewrite Hc. rewrite (ltac:(ring) : c2 * c2 * 1 = c2 * c2). rewrite LL. reflexivity. }
  split. { transitivity (fsum (phys A) (fun s => fsc (c2 * c2 * (c * c)) (fmul D (fmul D (fmul D (fdg Lv) (Gs D (ent A) Xi Z U V s)) (fmul D (fdg Lv) (fdg Lv))) (fH (fmul D (fdg Lv) (Gs D (ent A) Xi Z U V s)))))).
    { apply fsum_feq; intros s _. rewrite LGc, fH_sc, Rc, LL. rewrite !fsc_l, !fsc_r, !fsc_l, !fsc_sc.
      match goal with |- feq _ (fsc ?a _) (fsc ?b _) => replace a with b by ring end. reflexivity. }
    rewrite fsum_sc. rewrite (can_l_right D (phys A) (ent A) X Xi Y Z U V Lv eta) by assumption. rewrite fsc_sc.
    rewrite (ltac:(ring) : c2 * c2 * (c * c) * eta = c2 * c2 * (c * c * eta)). rewrite Hc. rewrite (ltac:(ring) : c2 * c2 * 1 = c2 * c2). rewrite LL. reflexivity. }
  split. { rewrite !fmul_assoc. rewrite (cancel D Xi X) by exact XiX. exact VV. }
  split. { rewrite !fmul_assoc. rewrite (cancel D (fH V) V) by exact VV'. exact XXi. }
  split. { rewrite !fmul_assoc. rewrite (cancel D (fT Y) Z) by exact YZ. exact UU. }
  split. { rewrite !fmul_assoc. rewrite (cancel D U (fH U)) by exact UU'. exact ZY. }
  split. { intros s. rewrite GLc. rewrite (GL D (ent A) X Xi Y Z U V Lv) by assumption. reflexivity. }
  split. { intros s. rewrite LGc. rewrite (LG D (ent A) X Xi Y Z U V Lv) by assumption. reflexivity. }
  split. { intros s t. rewrite EX at 2. rewrite EY at 2.
    rewrite <- (circle_pair D (ent A) X Xi Y Z U V Lv) by assumption. rewrite GLc.
    assert (E : feq D (fmul D (me L) (fH (ent G t))) (fsc c (fmul D (fdg Lv) (fH (Gs D (ent A) Xi Z U V t))))).
    { rewrite (G3 t), M3, fH_sc, R1, fsc_l, fsc_r, fsc_sc. unfold c. rewrite (ltac:(ring) : c2 * c1 = c1 * c2). reflexivity. }
    rewrite E, LL. rewrite !fsc_l, !fsc_r, !fsc_l, !fsc_sc, ftr_sc. rewrite Hpl.
    set (x := ftr D _). transitivity ((c * c * eta) * (c2 * c2 * ll) * x); [ring|rewrite Hc, N2; ring]. }
  split; [exact Hat|exact Hcs].
Qed.
End V.
End C.
