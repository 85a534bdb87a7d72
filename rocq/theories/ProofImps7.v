(** Expectation values of infinite MPS. *)
From Verif Require Import Alg ModelMPS SpecMPS ModelOrth SpecOrth ModelCanon SpecCanon ProofCanon2 ModelNcon ModelEk ModelTensor ModelNp ModelDecomp SpecDecomp
  ModelLie ModelStruct ProofStruct ModelImps SpecImps SpecSpin ProofImps ProofFm ProofImps2 ProofImps3 ProofImps4 ProofImps5 ProofImps6.
From Coq Require Import Setoid Morphisms.

Section C.
Context {R : sring}.
Local Open Scope sr_scope.
Add Ring Rr : (s_th R).

Lemma ndot_mat3 a b D (T : tens R) (L : mat R) : tsh T = [a; b; D] -> mr L = D ->
  exists T', ndot T (tens_mat L) = Ok T' /\ tsh T' = [a; b; mc L] /\ forall s i j, te T' [s; i; j] = sum D (fun k => te T [s; i; k] * me L k j).
Proof.
  intros H HL. unfold ndot, con. rewrite H. cbn [tens_mat tsh length Nat.sub mapM getitem nth_error bind nlist_eqb]. rewrite HL, Nat.eqb_refl.
  cbn [andb]. eexists. split; [reflexivity|]. split; [reflexivity|]. intros s i j. reflexivity.
Qed.
Lemma ndot_site a b D (T : tens R) (S : site R) : tsh T = [a; b; D] -> dl S = D ->
  exists T', ndot T (tens_site S) = Ok T' /\ tsh T' = [a; b; phys S; dr S] /\ forall s i t j, te T' [s; i; t; j] = sum D (fun k => te T [s; i; k] * ent S t k j).
Proof.
  intros H HL. unfold ndot, con. rewrite H. cbn [tens_site tsh length Nat.sub mapM getitem nth_error bind nlist_eqb]. rewrite HL, Nat.eqb_refl.
  cbn [andb]. eexists. split; [reflexivity|]. split; [reflexivity|]. intros s i t j. reflexivity.
Qed.
Lemma ndot_mat4 a b c D (T : tens R) (L : mat R) : tsh T = [a; b; c; D] -> mr L = D ->
  exists T', ndot T (tens_mat L) = Ok T' /\ tsh T' = [a; b; c; mc L] /\ forall s i t j, te T' [s; i; t; j] = sum D (fun k => te T [s; i; t; k] * me L k j).
Proof.
  intros H HL. unfold ndot, con. rewrite H. cbn [tens_mat tsh length Nat.sub mapM getitem nth_error bind nlist_eqb]. rewrite HL, Nat.eqb_refl.
  cbn [andb]. eexists. split; [reflexivity|]. split; [reflexivity|]. intros s i t j. reflexivity.
Qed.

Lemma circle_ok D (G : site R) (L : mat R) : square_site D G -> mr L = D -> mc L = D ->
  exists T, circle G L = Ok T /\ tsh T = [phys G; phys G] /\ forall s t,
    te T [s; t] = ftr D (fmul D (fmul D (fmul D (fmul D (fmul D (ent G s) (me L)) (me L)) (fH (ent G t))) (me L)) (me L)).
Proof.
  intros [D1 D2] L1 L2. unfold circle.
  destruct (ndot_mat3 (phys G) D D (tens_site G) L) as (T1 & -> & S1 & E1); [cbn [tens_site tsh]; congruence|exact L1|]. cbn [bind]. rewrite L2 in S1.
  destruct (ndot_mat3 (phys G) D D T1 L) as (T2 & -> & S2 & E2); [exact S1|exact L1|]. cbn [bind]. rewrite L2 in S2.
  destruct (ndot_site (phys G) D D T2 (site_H G)) as (T3 & -> & S3 & E3); [exact S2|exact D2|]. cbn [bind]. cbn [site_H phys dr] in S3. rewrite D1 in S3.
  destruct (ndot_mat4 (phys G) D (phys G) D T3 L) as (T4 & -> & S4 & E4); [exact S3|exact L1|]. cbn [bind]. rewrite L2 in S4.
  destruct (ndot_mat4 (phys G) D (phys G) D T4 L) as (T5 & -> & S5 & E5); [exact S4|exact L1|]. cbn [bind]. rewrite L2 in S5.
  unfold trace. rewrite S5. cbn [getitem nth_error bind]. eexists. split; [reflexivity|]. split; [reflexivity|].
  intros s t. cbn [te]. rewrite Nat.min_id. unfold ftr. apply sum_ext; intros i _. transitivity (te T5 [s; i; t; i]); [reflexivity|]. rewrite E5.
  unfold fmul at 1. apply sum_ext; intros k _. f_equal. rewrite E4. unfold fmul at 1. apply sum_ext; intros k1 _. f_equal.
  rewrite E3. unfold fmul at 1. apply sum_ext; intros k2 _. f_equal. rewrite E2. unfold fmul at 1. apply sum_ext; intros k3 _. f_equal.
  rewrite E1. reflexivity.
Qed.

Lemma circle_fm D (G : site R) (L : mat R) s t :
  ftr D (fmul D (fmul D (fmul D (fmul D (fmul D (ent G s) (me L)) (me L)) (fH (ent G t))) (me L)) (me L))
  = ftr D (fmul D (fmul D (fmul D (ent G s) (me L)) (fmul D (me L) (fH (ent G t)))) (fmul D (me L) (me L))).
Proof. rewrite !fmul_assoc. reflexivity. Qed.

(** site_exp as traces *)
Lemma site_exp_fm D (A : site R) l r op :
  site_exp D A l r op = sum (phys A) (fun s => sum (phys A) (fun t => me op t s * ftr D (fmul D (fT l) (fmul D (fmul D (ent A s) r) (fH (ent A t)))))).
Proof.
  unfold site_exp. apply sum_ext; intros s _. apply sum_ext; intros t _. f_equal. unfold ftr, fmul at 1, fT.
  rewrite sum_swap. apply sum_ext; intros b _. apply sum_ext; intros a _. unfold fmul at 1. rewrite <- sum_mul_l, sum_swap.
  apply sum_ext; intros e _. unfold fmul, fH. rewrite <- sum_mul_r, <- sum_mul_l. apply sum_ext; intros c _. ring.
Qed.

(** iMPS.E with the given form, for any L and A *)
Lemma pull_t n D (f : nat -> R) (g : nat -> nat -> nat -> R) :
  sum D (fun i => sum D (fun j => sum n (fun t => f t * g t i j))) = sum n (fun t => f t * sum D (fun i => sum D (fun j => g t i j))).
Proof.
  transitivity (sum D (fun i => sum n (fun t => sum D (fun j => f t * g t i j)))); [apply sum_ext; intros; apply sum_swap|].
  rewrite sum_swap. apply sum_ext; intros t _. rewrite <- sum_mul_l. apply sum_ext; intros i _. rewrite <- sum_mul_l. reflexivity.
Qed.

Lemma E_form_r D (A : site R) L op x : square_site D A -> mr L = D -> mc L = D -> mr op = phys A -> mc op = phys A ->
  E_form hand_r L A op = Ok x -> x = site_exp D A (me (square L)) ident (mtr op).
Proof.
  intros [D1 D2] L1 L2 O1 O2 H. cbn [E_form] in H. unfold site_lmul in H. cbn [square mc site_conj dl] in H. rewrite L2, D1, Nat.eqb_refl in H.
  cbn [bind] in H. unfold op_site in H. cbn [phys] in H. rewrite O2, Nat.eqb_refl in H. cbn [bind] in H.
  unfold site_zip in H. cbn [phys dl dr square mr site_conj] in H. rewrite O1, D1, L1, !Nat.eqb_refl in H. cbn [andb bind] in H. injection H as <-.
  unfold total. cbn [phys dl dr ent square me mc site_conj mr]. rewrite D2. unfold site_exp. apply sum_ext; intros s _. cbn [mtr me].
  rewrite <- (pull_t (phys A) D (fun t => me op s t) (fun t a b => sum D (fun c => sum D (fun e => me L a b * me L a b * ent A s a c * ident c e * sconj (ent A t b e))))).
  apply sum_ext; intros i _.
  transitivity (sum D (fun j => sum (phys A) (fun t => sum D (fun k => me op s t * (me L i k * me L i k * ent A s i j * sconj (ent A t k j)))))).
  { apply sum_ext; intros j _. rewrite <- sum_mul_l. apply sum_ext; intros t _. rewrite <- !sum_mul_l. apply sum_ext; intros k _. ring. }
  transitivity (sum (phys A) (fun t => sum D (fun k => sum D (fun j => me op s t * (me L i k * me L i k * ent A s i j * sconj (ent A t k j)))))).
  { rewrite sum_swap. apply sum_ext; intros t _. apply sum_swap. }
  rewrite sum_swap. apply sum_ext; intros b _. apply sum_ext; intros t _. rewrite sum_mul_l. f_equal. apply sum_ext; intros c Hc.
  unfold ident. symmetry. transitivity (sum D (fun e => dlt c e * (me L i b * me L i b * ent A s i c * sconj (ent A t b e)))); [apply sum_ext; intros; ring|].
  rewrite sum_dlt_l by exact Hc. reflexivity.
Qed.

Lemma E_form_l D (A : site R) L op x : square_site D A -> mr L = D -> mc L = D -> mr op = phys A -> mc op = phys A ->
  E_form hand_l L A op = Ok x -> x = site_exp D A ident (me (square L)) (mtr op).
Proof.
  intros [D1 D2] L1 L2 O1 O2 H. cbn [E_form] in H. unfold op_site in H. cbn [site_conj phys] in H. rewrite O2, Nat.eqb_refl in H. cbn [bind] in H.
  unfold site_rmul in H. cbn [square mr] in H. rewrite L1, D2, Nat.eqb_refl in H. cbn [bind] in H.
  unfold site_zip in H. cbn [phys dl dr square mr site_conj mc] in H. rewrite O1, L2, ?D2, !Nat.eqb_refl in H. cbn [andb bind] in H. injection H as <-.
  unfold total. cbn [phys dl dr ent square me mc site_conj mr]. rewrite ?D1, ?D2. unfold site_exp. apply sum_ext; intros s _. cbn [mtr me].
  rewrite <- (pull_t (phys A) D (fun t => me op s t) (fun t a b => sum D (fun c => sum D (fun e => ident a b * ent A s a c * (me L c e * me L c e) * sconj (ent A t b e))))).
  apply sum_ext; intros i Hi.
  transitivity (sum D (fun j => sum (phys A) (fun t => me op s t * sum D (fun k => (ent A s i k * (me L k j * me L k j) * sconj (ent A t i j)))))).
  { apply sum_ext; intros j _. rewrite <- sum_mul_l. apply sum_ext; intros t _. rewrite <- sum_mul_l, <- sum_mul_r. apply sum_ext; intros k _. ring. }
  transitivity (sum (phys A) (fun t => me op s t * sum D (fun b => dlt i b * sum D (fun c => sum D (fun e => ent A s i c * (me L c e * me L c e) * sconj (ent A t b e)))))).
  { rewrite sum_swap. apply sum_ext; intros t _. rewrite sum_mul_l. f_equal. rewrite sum_dlt_l by exact Hi. apply sum_swap. }
  symmetry. rewrite sum_swap. apply sum_ext; intros t _. rewrite sum_mul_l. f_equal. apply sum_ext; intros b _. unfold ident.
  rewrite <- sum_mul_l. apply sum_ext; intros c _. rewrite <- sum_mul_l. apply sum_ext; intros e _. ring.
Qed.

Lemma E_form_m D (A : site R) L op x : square_site D A -> mr L = D -> mc L = D -> mr op = phys A -> mc op = phys A ->
  E_form hand_m L A op = Ok x -> x = site_exp D A (me (mtr L)) (me (mtr L)) (mtr op).
Proof.
  intros [D1 D2] L1 L2 O1 O2 H. cbn [E_form] in H. unfold site_rmul in H. cbn [site_conj dr] in H. rewrite L1, D2, Nat.eqb_refl in H. cbn [bind] in H.
  unfold op_site in H. cbn [site_conj phys] in H. rewrite O2, Nat.eqb_refl in H. cbn [bind] in H.
  unfold site_lmul in H. rewrite L2, D1, Nat.eqb_refl in H. cbn [bind] in H.
  unfold site_zip in H. cbn [phys dl dr mr site_conj mc] in H. rewrite O1, L1, ?D2, ?D1, !Nat.eqb_refl in H. cbn [andb bind] in H. injection H as <-.
  unfold total. cbn [phys dl dr ent me mc site_conj mr]. unfold site_exp. apply sum_ext; intros s _. cbn [mtr me].
  rewrite <- (pull_t (phys A) D (fun t => me op s t) (fun t a b => sum D (fun c => sum D (fun e => me L b a * ent A s a c * me L e c * sconj (ent A t b e))))).
  transitivity (sum D (fun i => sum D (fun a => sum (phys A) (fun t => me op s t * sum D (fun c => sum D (fun e => me L i a * ent A s a c * me L e c * sconj (ent A t i e))))))).
  2:{ apply sum_swap. }
  apply sum_ext; intros i _.
  transitivity (sum D (fun j => sum (phys A) (fun t => sum D (fun a => me op s t * sum D (fun e => me L i a * ent A s a j * me L e j * sconj (ent A t i e)))))).
  { apply sum_ext; intros j _. rewrite <- sum_mul_l. apply sum_ext; intros t _. rewrite <- sum_mul_r. apply sum_ext; intros a _.
    rewrite <- !sum_mul_l. apply sum_ext; intros e _. ring. }
  rewrite sum_swap. rewrite (sum_swap D (phys A)). apply sum_ext; intros t _. rewrite sum_swap. apply sum_ext; intros a _. rewrite sum_mul_l. reflexivity.
Qed.

Variables (nonneg : R -> Prop) (C : icalls R).
Hypothesis HC : icalls_ok nonneg C.

Section V.
Variables (D : nat) (A : site R) (rest : list (site R)) (m : imps R) (eta : R) (l r : mat R) (op : mat R).
Hypothesis Hm : i_data m = A :: rest.
Hypothesis HA : square_site D A.
Hypothesis Hl : hermitian l.
Hypothesis Hr : hermitian r.
Hypothesis Hn : nonneg eta.
Hypothesis O1 : mr op = phys A.
Hypothesis O2 : mc op = phys A.

Lemma E_circle_ok l0 r0 h tv m' G L T x : imps_eigs C m l0 r0 = Ok (eta, l, r) -> canonicalise C m h l0 r0 tv = Ok (m', (G, L)) ->
  circle G L = Ok T -> E_circle T op = Ok x -> eta * pair_lr D (me l) (me r) * x = site_exp D A (me l) (me r) op.
Proof.
  intros He HK HT Hx.
  destruct (canon_facts nonneg C HC D A rest m h l0 r0 tv m' G L eta l r Hm HA He Hl Hr Hn HK)
    as (A' & Lv & c2 & c & P & Pi & Q & Qi & Gp & Gs & (M1 & M2 & M3 & M4) & Lr & Lr0 & Ln & N1 & N2 & Hc & Rc & F1 & F2 & F3 & F4 & PP & PP' & QQ & QQ' & EGL & ELG & Hcirc & _).
  destruct (circle_ok D G L Gs M1 M2) as (T' & E & ST & ET). assert (T' = T) as -> by congruence. rewrite Gp in ST.
  unfold E_circle in Hx. rewrite mdot_ok in Hx by (cbn [as_mat mc]; rewrite ST; cbn [nth]; congruence). cbn [bind] in Hx. injection Hx as <-.
  unfold mtr_. cbn [mr mc me as_mat]. rewrite ST, O2. cbn [nth]. rewrite Nat.min_id. rewrite site_exp_fm, <- sum_mul_l. apply sum_ext; intros s _.
  rewrite <- sum_mul_l. apply sum_ext; intros t _. rewrite ET, circle_fm, <- Hcirc. ring.
Qed.

Theorem E_none x m' : imps_eigs C m None None = Ok (eta, l, r) -> imps_E C m op None = Ok (x, m') ->
  eta * pair_lr D (me l) (me r) * x = site_exp D A (me l) (me r) op.
Proof.
  intros He H. cbn [imps_E] in H. apply bind_ok in H. destruct H as ([m1 [G L]] & HK & H). cbn [fst snd] in H.
  apply bind_ok in H. destruct H as (T & HT & H). apply bind_ok in H. destruct H as (x' & Hx & H). injection H as <- <-.
  eapply E_circle_ok; eassumption.
Qed.

Lemma exp_r l0 r0 tv m' G L : imps_eigs C m l0 r0 = Ok (eta, l, r) -> canonicalise C m hand_r l0 r0 tv = Ok (m', (G, L)) ->
  forall A' o, i_data m' = A' :: rest -> eta * pair_lr D (me l) (me r) * site_exp D A' (me (square L)) ident o = site_exp D A (me l) (me r) o.
Proof.
  intros He HK A2 o Hd.
  destruct (canon_facts nonneg C HC D A rest m hand_r l0 r0 tv m' G L eta l r Hm HA He Hl Hr Hn HK)
    as (A' & Lv & c2 & c & P & Pi & Q & Qi & Gp & Gs & (M1 & M2 & M3 & M4) & Lr & Lr0 & Ln & N1 & N2 & Hc & Rc & F1 & F2 & F3 & F4 & PP & PP' & QQ & QQ' & EGL & ELG & Hcirc & (_ & _ & _ & a4) & (K1 & K2 & K3)).
  assert (A2 = A') as -> by congruence.
  rewrite !site_exp_fm, K1, <- sum_mul_l. apply sum_ext; intros s _. rewrite <- sum_mul_l. apply sum_ext; intros t _. rewrite <- Hcirc.
  assert (E : ftr D (fmul D (fT (me (square L))) (fmul D (fmul D (ent A' s) ident) (fH (ent A' t))))
            = ftr D (fmul D (fmul D (fmul D (ent G s) (me L)) (fmul D (me L) (fH (ent G t)))) (fmul D (me L) (me L)))).
  { rewrite (square_diag D L _ M4). change (@ident R) with (f1 (R := R)). rewrite f1_r. rewrite (K3 s), (K3 t), ftr_cyc.
    rewrite fT_mul, fH_mul. assert (EL : feq D (fH (me L)) (me L)) by (rewrite M4, fdg_H by exact Lr; reflexivity).
    assert (EL' : feq D (fT (me L)) (me L)) by (rewrite M4, fdg_T; reflexivity). rewrite EL, EL'. reflexivity. }
  rewrite E. ring.
Qed.

Lemma exp_l l0 r0 tv m' G L : imps_eigs C m l0 r0 = Ok (eta, l, r) -> canonicalise C m hand_l l0 r0 tv = Ok (m', (G, L)) ->
  forall A' o, i_data m' = A' :: rest -> eta * pair_lr D (me l) (me r) * site_exp D A' ident (me (square L)) o = site_exp D A (me l) (me r) o.
Proof.
  intros He HK A2 o Hd.
  destruct (canon_facts nonneg C HC D A rest m hand_l l0 r0 tv m' G L eta l r Hm HA He Hl Hr Hn HK)
    as (A' & Lv & c2 & c & P & Pi & Q & Qi & Gp & Gs & (M1 & M2 & M3 & M4) & Lr & Lr0 & Ln & N1 & N2 & Hc & Rc & F1 & F2 & F3 & F4 & PP & PP' & QQ & QQ' & EGL & ELG & Hcirc & (_ & _ & _ & a4) & (K1 & K2 & K3)).
  assert (A2 = A') as -> by congruence.
  rewrite !site_exp_fm, K1, <- sum_mul_l. apply sum_ext; intros s _. rewrite <- sum_mul_l. apply sum_ext; intros t _. rewrite <- Hcirc.
  assert (E : ftr D (fmul D (fT ident) (fmul D (fmul D (ent A' s) (me (square L))) (fH (ent A' t))))
            = ftr D (fmul D (fmul D (fmul D (ent G s) (me L)) (fmul D (me L) (fH (ent G t)))) (fmul D (me L) (me L)))).
  { rewrite (square_diag D L _ M4). change (@ident R) with (f1 (R := R)). rewrite fT_1, f1_l. rewrite (K3 s), (K3 t).
    rewrite fH_mul. assert (EL : feq D (fH (me L)) (me L)) by (rewrite M4, fdg_H by exact Lr; reflexivity). rewrite EL.
    rewrite (ftr_cyc D _ (fmul D (me L) (me L))). rewrite !fmul_assoc. rewrite (ftr_cyc D (me L) (fmul D (ent G s) _)). rewrite !fmul_assoc.
    rewrite (ftr_cyc D (me L) (fmul D (me L) _)). rewrite !fmul_assoc. rewrite (ftr_cyc D (me L) (fmul D (ent G s) _)). rewrite !fmul_assoc. reflexivity. }
  rewrite E. ring.
Qed.

Lemma exp_m l0 r0 tv m' G L : imps_eigs C m l0 r0 = Ok (eta, l, r) -> canonicalise C m hand_m l0 r0 tv = Ok (m', (G, L)) ->
  forall A' o, i_data m' = A' :: rest -> eta * site_exp D A' (me L) (me L) o = site_exp D A (me l) (me r) o.
Proof.
  intros He HK A2 o Hd.
  destruct (canon_facts nonneg C HC D A rest m hand_m l0 r0 tv m' G L eta l r Hm HA He Hl Hr Hn HK)
    as (A' & Lv & c2 & c & P & Pi & Q & Qi & Gp & Gs & (M1 & M2 & M3 & M4) & Lr & Lr0 & Ln & N1 & N2 & Hc & Rc & F1 & F2 & F3 & F4 & PP & PP' & QQ & QQ' & EGL & ELG & Hcirc & (_ & _ & _ & a4) & (K1 & K2 & q & qq & qr & K3)).
  assert (A2 = A') as -> by congruence.
  rewrite !site_exp_fm, K1, <- sum_mul_l. apply sum_ext; intros s _. rewrite <- sum_mul_l. apply sum_ext; intros t _. rewrite <- Hcirc.
  pose proof (q_q D Lv q qq) as Q2.
  assert (QK : feq D (fmul D (fdg q) (fmul D (fdg Lv) (fdg q))) (fmul D (fdg Lv) (fdg Lv))).
  { rewrite <- Q2. rewrite !fmul_assoc. reflexivity. }
  assert (E : ftr D (fmul D (fT (me L)) (fmul D (fmul D (ent A' s) (me L)) (fH (ent A' t))))
            = c2 * c2 * ftr D (fmul D (fmul D (fdg Lv) (fdg Lv)) (fmul D (ent G s) (fmul D (fmul D (fdg Lv) (fdg Lv)) (fH (ent G t)))))).
  { rewrite M3, fT_sc, fdg_T, (K3 s), (K3 t). rewrite !fH_mul, !fdg_H by exact qr. rewrite !fsc_r, !fsc_l, !fsc_r, fsc_sc, ftr_sc. f_equal.
    rewrite <- QK. rewrite !fmul_assoc. rewrite (ftr_cyc D (fdg q) (fmul D (fdg Lv) _)). rewrite !fmul_assoc. reflexivity. }
  assert (E2 : ftr D (fmul D (fmul D (fmul D (ent G s) (me L)) (fmul D (me L) (fH (ent G t)))) (fmul D (me L) (me L)))
            = c2 * c2 * (c2 * c2) * ftr D (fmul D (fmul D (fdg Lv) (fdg Lv)) (fmul D (ent G s) (fmul D (fmul D (fdg Lv) (fdg Lv)) (fH (ent G t)))))).
  { rewrite M3. rewrite (ftr_cyc D _ (fmul D (fsc c2 (fdg Lv)) (fsc c2 (fdg Lv)))).
    repeat (first [rewrite fsc_r|rewrite fsc_l|rewrite fsc_sc]). rewrite ftr_sc. rewrite !fmul_assoc. ring. }
  rewrite E, E2. set (x := ftr D _). transitivity (c2 * c2 * pair_lr D (me l) (me r) * (eta * (me o t s * (c2 * c2 * x)))); [rewrite N2; ring|ring].
Qed.
End V.
End C.
