(** Proofs about iMPS.py: expectation values in the canonical forms, lists of operators,
    Vidal pairs, and the energy with symmetric environments. *)
From Verif Require Import Alg ModelMPS SpecMPS ModelOrth SpecOrth ModelCanon SpecCanon ModelNcon SpecNcon ModelEk ModelTensor ModelNp
  ModelDecomp SpecDecomp ProofNcon ProofCanon2 ProofDecomp ModelLie ModelStruct ModelImps SpecImps
  ProofImps ProofFm ProofImps2 ProofImps3 ProofImps4 ProofImps5 ProofImps6 ProofImps7 ProofImps8.

Section P.
Context {R : sring}.
Local Open Scope sr_scope.
Add Ring Rr : (s_th R).

Variable nonneg : R -> Prop.
Variable C : icalls R.
Hypothesis HC : icalls_ok nonneg C.

Lemma site_exp_ext D (A : site R) l r l' r' op :
  (forall i j, i < D -> j < D -> l i j = l' i j) -> (forall i j, i < D -> j < D -> r i j = r' i j) ->
  site_exp D A l r op = site_exp D A l' r' op.
Proof.
  intros H1 H2. unfold site_exp. apply sum_ext; intros s Hs. apply sum_ext; intros t Ht. f_equal.
  apply sum_ext; intros a Ha. apply sum_ext; intros b Hb. apply sum_ext; intros c Hc. apply sum_ext; intros e He.
  rewrite H1, H2 by assumption. reflexivity.
Qed.

Section One.
Variables (D : nat) (A : site R) (rest : list (site R)) (m : imps R) (eta : R) (l r op : mat R)
  (l0 r0 : option (mat R)) (tv : bool) (m' : imps R) (G : site R) (L : mat R) (x : R) (m2 : imps R).
Hypothesis (Hd : i_data m = A :: rest) (Hsq : square_site D A) (Hl : hermitian l) (Hr : hermitian r) (Hn : nonneg eta)
  (Ho : mr op = phys A) (Ho' : mc op = phys A) (He : imps_eigs C m l0 r0 = Ok (eta, l, r)).

Lemma E_after_r : canonicalise C m hand_r l0 r0 tv = Ok (m', (G, L)) ->
  imps_E C m' op (Some hand_r) = Ok (x, m2) ->
  m2 = m' /\ eta * pair_lr D (me l) (me r) * x = site_exp D A (me l) (me r) (mtr op).
Proof.
  intros Hc HE. destruct (canon_vidal nonneg C HC D A rest m _ _ _ _ _ _ _ _ _ _ Hd Hsq He Hl Hr Hn Hc) as ((_ & (L1 & L2 & _) & _) & _ & EL & _).
  destruct (canon_right nonneg C HC D A rest m _ _ _ _ _ _ _ _ _ _ Hd Hsq He Hl Hr Hn Hc eq_refl) as (A' & c & D' & P' & S' & _).
  unfold imps_E in HE. rewrite EL, D' in HE. cbn [bind getitem nth_error] in HE.
  destruct (E_form hand_r L A' op) as [y|] eqn:EF; [|discriminate]. cbn [bind] in HE. injection HE as <- <-. split; [reflexivity|].
  rewrite (E_form_r D A' L op y S' L1 L2) by (try congruence; exact EF).
  apply (exp_r nonneg C HC D A rest m eta l r Hd Hsq Hl Hr Hn l0 r0 tv m' G L He Hc A' (mtr op) D').
Qed.

Lemma E_after_l : canonicalise C m hand_l l0 r0 tv = Ok (m', (G, L)) ->
  imps_E C m' op (Some hand_l) = Ok (x, m2) ->
  m2 = m' /\ eta * pair_lr D (me l) (me r) * x = site_exp D A (me l) (me r) (mtr op).
Proof.
  intros Hc HE. destruct (canon_vidal nonneg C HC D A rest m _ _ _ _ _ _ _ _ _ _ Hd Hsq He Hl Hr Hn Hc) as ((_ & (L1 & L2 & _) & _) & _ & EL & _).
  destruct (canon_left nonneg C HC D A rest m _ _ _ _ _ _ _ _ _ _ Hd Hsq He Hl Hr Hn Hc eq_refl) as (A' & c & D' & P' & S' & _).
  unfold imps_E in HE. rewrite EL, D' in HE. cbn [bind getitem nth_error] in HE.
  destruct (E_form hand_l L A' op) as [y|] eqn:EF; [|discriminate]. cbn [bind] in HE. injection HE as <- <-. split; [reflexivity|].
  rewrite (E_form_l D A' L op y S' L1 L2) by (try congruence; exact EF).
  apply (exp_l nonneg C HC D A rest m eta l r Hd Hsq Hl Hr Hn l0 r0 tv m' G L He Hc A' (mtr op) D').
Qed.

Lemma E_after_m : canonicalise C m hand_m l0 r0 tv = Ok (m', (G, L)) ->
  imps_E C m' op (Some hand_m) = Ok (x, m2) ->
  m2 = m' /\ eta * x = site_exp D A (me l) (me r) (mtr op).
Proof.
  intros Hc HE. destruct (canon_vidal nonneg C HC D A rest m _ _ _ _ _ _ _ _ _ _ Hd Hsq He Hl Hr Hn Hc) as ((_ & (L1 & L2 & L3 & _) & _) & _ & EL & _).
  destruct (canon_mixed nonneg C HC D A rest m _ _ _ _ _ _ _ _ _ _ Hd Hsq He Hl Hr Hn Hc eq_refl) as (A' & D' & P' & S' & _).
  unfold imps_E in HE. rewrite EL, D' in HE. cbn [bind getitem nth_error] in HE.
  destruct (E_form hand_m L A' op) as [y|] eqn:EF; [|discriminate]. cbn [bind] in HE. injection HE as <- <-. split; [reflexivity|].
  rewrite (E_form_m D A' L op y S' L1 L2) by (try congruence; exact EF).
  assert (ET : forall i j, i < D -> j < D -> me (mtr L) i j = me L i j).
  { intros i j Hi Hj. cbn [mtr me]. destruct (Nat.eq_dec i j) as [->|Hij]; [reflexivity|]. rewrite !L3 by (try assumption; intro; apply Hij; auto). reflexivity. }
  rewrite (site_exp_ext D A' _ _ (me L) (me L)) by exact ET.
  apply (exp_m nonneg C HC D A rest m eta l r Hd Hsq Hl Hr Hn l0 r0 tv m' G L He Hc A' (mtr op) D').
Qed.
End One.

Lemma mapM_ok {A B} (f : A -> res B) l ys : mapM f l = Ok ys -> Forall2 (fun a b => f a = Ok b) l ys.
Proof.
  revert ys. induction l as [|a l IH]; intros ys H; cbn in H.
  - injection H as <-. constructor.
  - destruct (f a) as [b|] eqn:E; [|discriminate]. cbn in H. destruct (mapM f l) as [bs|]; [|discriminate]. cbn in H. injection H as <-. constructor; auto.
Qed.

Lemma Es_each m ops h xs m' : imps_Es C m ops h = Ok (xs, m') ->
  Forall2 (fun op x => imps_E C m op h = Ok (x, m')) ops xs.
Proof.
  unfold imps_Es, imps_E. destruct h as [h|]; intros H.
  - destruct (i_L m) as [L|]; [|discriminate]. cbn [bind] in *. destruct (getitem (i_data m) 0) as [A|]; [|discriminate]. cbn [bind] in *.
    destruct (mapM (E_form h L A) ops) as [ys|] eqn:E; [|discriminate]. cbn [bind] in H. injection H as <- <-.
    apply mapM_ok in E. clear -E. induction E as [|op y ops ys E1 E2 IH]; constructor; [|assumption]. now rewrite E1.
  - destruct (canonicalise C m hand_r None None true) as [mGL|]; [|discriminate]. cbn [bind] in *.
    destruct (circle (fst (snd mGL)) (snd (snd mGL))) as [T|]; [|discriminate]. cbn [bind] in *.
    destruct (mapM (E_circle T) ops) as [ys|] eqn:E; [|discriminate]. cbn [bind] in H. injection H as <- <-.
    apply mapM_ok in E. clear -E. induction E as [|op y ops ys E1 E2 IH]; constructor; [|assumption]. now rewrite E1.
Qed.

(** Symmetric right environments: the two pairings agree. *)
Lemma pair_symmetric D (A : site R) l0 r0 eta l r : square_site D A ->
  tm_eigs C A l0 r0 = Ok (eta, l, r) -> (forall i j, i < D -> j < D -> me r i j = me r j i) ->
  pair_lr D (me l) (me r) = 1.
Proof.
  intros Hsq H HS. destruct (eigs_ok nonneg C HC D A l0 r0 eta l r Hsq H) as (_ & _ & _ & E). rewrite <- E.
  unfold pair_lr. apply sum_ext; intros a Ha. apply sum_ext; intros b Hb. rewrite HS by assumption. reflexivity.
Qed.

Lemma two_exp_ext D (A : site R) l r l' r' h :
  (forall i j, i < D -> j < D -> l i j = l' i j) -> (forall i j, i < D -> j < D -> r i j = r' i j) ->
  two_exp D A l r h = two_exp D A l' r' h.
Proof.
  intros H1 H2. unfold two_exp. apply sum_ext; intros s1 _. apply sum_ext; intros s2 _. apply sum_ext; intros t1 _. apply sum_ext; intros t2 _. f_equal.
  apply sum_ext; intros a Ha. apply sum_ext; intros b Hb. apply sum_ext; intros c Hc. apply sum_ext; intros e He.
  rewrite H1, H2 by assumption. reflexivity.
Qed.

Lemma eigs_period (m : imps R) l0 r0 A rest x : i_data m = A :: rest -> imps_eigs C m l0 r0 = Ok x -> tm_eigs C A l0 r0 = Ok x.
Proof. intros Hd H. unfold imps_eigs in H. rewrite Hd in H. destruct (Nat.eqb (i_period m) 1); [exact H|discriminate]. Qed.

Lemma energy_symmetric (S0 : setio) D (A : site R) rest (m : imps R) H h eta l r e :
  setio_ok S0 -> i_data m = A :: rest -> i_d m = phys A -> square_site D A ->
  getitem H 0 = Ok h -> mr h = (phys A ^ 2)%nat -> mc h = (phys A ^ 2)%nat ->
  imps_eigs C m None None = Ok (eta, l, r) -> (forall i j, i < D -> j < D -> me r i j = me r j i) ->
  imps_energy S0 C m H = Ok e ->
  e = sre (two_exp D A (me l) (me r) h) /\ pair_lr D (me l) (me r) = 1.
Proof.
  intros HS Hd Hdd Hsq Hh Hh1 Hh2 He Hsym HE. pose proof (eigs_period _ _ _ _ _ _ Hd He) as Het.
  destruct (eigs_ok nonneg C HC D A _ _ eta l r Hsq Het) as (_ & (L1 & L2 & _) & (eta_r & R1 & R2 & _) & _).
  destruct Hsq as [S1 S2]. split.
  - rewrite (energy_ok S0 C D A rest m H h eta l r e HS Hd Hdd (conj S1 S2) Hh Hh1 Hh2 He) by (try congruence; assumption).
    f_equal. apply two_exp_ext; [reflexivity|]. intros i j Hi Hj. cbn [mtr me]. now apply Hsym.
  - exact (pair_symmetric D A _ _ eta l r (conj S1 S2) Het Hsym).
Qed.

(** ivMPS.E: the same contraction with the transposed operator. *)
Lemma iv_E_transposed (G : site R) (L op : mat R) x : mr op = phys G -> mc op = phys G -> dl G = dr G -> mr L = dr G -> mc L = dr G ->
  iv_E G L op = Ok x -> exists T, circle G L = Ok T /\ E_circle T (mtr op) = Ok x.
Proof.
  intros Ho Ho' HG HL HL' H. unfold iv_E in H. destruct (circle G L) as [T|] eqn:ET; [|discriminate]. exists T. split; [reflexivity|].
  destruct (circle_ok (dr G) G L (conj HG eq_refl) HL HL') as (T' & E' & ST & _). assert (T' = T) as -> by congruence. clear E'.
  cbn [bind] in H. unfold E_circle. rewrite mdot_ok by (cbn [as_mat mc mtr mr]; rewrite ST; cbn [nth]; congruence). cbn [bind]. f_equal.
  unfold con in H. rewrite ST in H. cbn [tens_mat tsh] in H. rewrite Ho, Ho' in H. cbn [mapM getitem nth_error bind] in H.
  rewrite nlist_eqb_refl in H. cbn [bind] in H. injection H as <-.
  unfold mtr_. cbn [mr mc me as_mat mtr te sumcfg]. rewrite ST, Ho. cbn [nth]. rewrite Nat.min_id.
  apply sum_ext; intros s _. apply sum_ext; intros t _. reflexivity.
Qed.
End P.
