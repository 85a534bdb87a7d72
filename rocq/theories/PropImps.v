(** C39, C40, C72-C77: infinite MPS. *)
From Coq Require Import QArith Qcanon.
From Verif Require Import Alg QScalars ModelMPS SpecMPS ModelOrth SpecOrth Oracle ModelCanon SpecCanon Oracle2 ExOrth ModelNcon SpecNcon ModelEk ModelTensor ModelNp
  ModelDecomp SpecDecomp ProofDecomp ExDecomp ModelLie ModelStruct SpecStruct ModelImps SpecImps SpecSpin
  ProofImps ProofFm ProofImps2 ProofImps3 ProofImps4 ProofImps5 ProofImps6 ProofImps7 ProofImps8 ProofImps9 ProofImps10 PropNcon ExImps.
Local Open Scope nat_scope.
Local Open Scope sr_scope.

(** ** C39 *)

Theorem C39_dense : forall (R : sring) D (A : site R), square_site D A ->
  exists M, tm_asmatrix A = Ok M /\ mr M = (D * D)%nat /\ mc M = (D * D)%nat /\
  (forall i j a b, i < D -> j < D -> a < D -> b < D ->
      me M (i * D + j)%nat (a * D + b)%nat = sum (phys A) (fun s => ent A s i a * sconj (ent A s j b))) /\
  forall v, length v = (D * D)%nat -> tm_mv A v = Ok (mvec M v) /\ tm_mvr A v = Ok (mvec (mtr M) v).
Proof. exact (@tm_dense). Qed.
Print Assumptions C39_dense.

Theorem C39_adjoint_for_real_tensors : forall (R : sring) D (A : site R) (u v : list R), square_site D A ->
  (forall s i j, s < phys A -> i < D -> j < D -> sconj (ent A s i j) = ent A s i j) ->
  length u = (D * D)%nat -> length v = (D * D)%nat ->
  exists w z, tm_mv A v = Ok w /\ tm_mvr A u = Ok z /\ hdot u w = hdot z v.
Proof. exact (@tm_adjoint_real). Qed.
Print Assumptions C39_adjoint_for_real_tensors.

Theorem C39_bad_input_raises : forall (R : sring) (A : site R) v,
  length v <> (dl A * dr A)%nat \/ dl A <> dr A -> tm_mv A v = Err ValueError /\ tm_mvr A v = Err ValueError.
Proof. intros R A v [H|H]; [now apply tm_bad_len|now apply tm_not_square]. Qed.
Print Assumptions C39_bad_input_raises.

Definition zsite2 : site Zi := mkSite 2 2 2 (fun s i j =>
  nth (s * 4 + i * 2 + j)%nat [zi 1 0; zi 0 1; zi 2 0; zi 0 0; zi 0 2; zi 1 1; zi 0 0; zi 3 0] s0).

(** rmatvec is not the adjoint of matvec for complex tensors *)
Theorem C39_adjoint_refuted : exists (A : site Zi) u v w z, square_site 2 A /\ length u = 4%nat /\ length v = 4%nat /\
  tm_mv A v = Ok w /\ tm_mvr A u = Ok z /\ hdot u w <> hdot z v.
Proof.
  exists zsite2, [zi 0 1; zi 1 0; zi 0 0; zi 2 0], [zi 1 0; zi 0 0; zi 1 1; zi 0 0].
  destruct (tm_dense 2 zsite2 (conj eq_refl eq_refl)) as (M & _ & _ & _ & _ & H).
  destruct (H [zi 1 0; zi 0 0; zi 1 1; zi 0 0] eq_refl) as [E1 _]. destruct (H [zi 0 1; zi 1 0; zi 0 0; zi 2 0] eq_refl) as [_ E2].
  eexists. eexists. split; [split; reflexivity|]. split; [reflexivity|]. split; [reflexivity|]. split; [exact E1|]. split; [exact E2|].
  intros E. assert (G : match tm_mv zsite2 [zi 1 0; zi 0 0; zi 1 1; zi 0 0], tm_mvr zsite2 [zi 0 1; zi 1 0; zi 0 0; zi 2 0] with
    | Ok w, Ok z => Zi_eqb (hdot [zi 0 1; zi 1 0; zi 0 0; zi 2 0] w) (hdot z [zi 1 0; zi 0 0; zi 1 1; zi 0 0]) | _, _ => true end = false) by (vm_compute; reflexivity).
  rewrite E1, E2 in G. rewrite E in G. unfold Zi_eqb in G. rewrite !Z.eqb_refl in G. discriminate.
Qed.
Print Assumptions C39_adjoint_refuted.

Example C39_example : square_site 2 zsite2 /\
  match tm_asmatrix zsite2, tm_mv zsite2 [zi 1 0; zi 0 0; zi 1 1; zi 0 0] with
  | Ok M, Ok w => Zi_eqb (me M 1%nat 3%nat) (zi 3 3) && Zi_eqb (nth 1%nat w s0) (zi 0 2) | _, _ => false end = true.
Proof. split; [split; reflexivity|]. vm_compute. reflexivity. Qed.

(** ** C40 *)

Theorem C40_dense : forall (R : sring) D (A B : site R), square_site D A -> square_site D B -> phys A = phys B ->
  exists M, map_asmatrix A B = Ok M /\ mr M = (D * D)%nat /\ mc M = (D * D)%nat /\
  (forall i j a b, i < D -> j < D -> a < D -> b < D ->
      me M (i * D + j)%nat (a * D + b)%nat = sum (phys A) (fun s => ent A s i a * sconj (ent B s j b))) /\
  forall v, length v = (D * D)%nat -> map_mv A B v = Ok (mvec M v) /\ map_mvr A B v = Ok (mvec (mct M) v).
Proof. exact (@map_dense). Qed.
Print Assumptions C40_dense.

Theorem C40_adjoint : forall (R : sring) D (A B : site R) (u v : list R), square_site D A -> square_site D B -> phys A = phys B ->
  length u = (D * D)%nat -> length v = (D * D)%nat ->
  exists w z, map_mv A B v = Ok w /\ map_mvr A B u = Ok z /\ hdot u w = hdot z v.
Proof. exact (@map_adjoint). Qed.
Print Assumptions C40_adjoint.

Definition zsite3 : site Zi := mkSite 2 2 2 (fun s i j =>
  nth (s * 4 + i * 2 + j)%nat [zi 0 0; zi 1 1; zi 0 (-1); zi 2 0; zi 1 0; zi 0 3; zi 1 (-1); zi 0 0] s0).

Example C40_example : square_site 2 zsite2 /\ square_site 2 zsite3 /\ phys zsite2 = phys zsite3 /\
  match map_mv zsite2 zsite3 [zi 1 0; zi 0 0; zi 1 1; zi 0 0], map_mvr zsite2 zsite3 [zi 0 1; zi 1 0; zi 0 0; zi 2 0] with
  | Ok w, Ok z => Zi_eqb (hdot [zi 0 1; zi 1 0; zi 0 0; zi 2 0] w) (hdot z [zi 1 0; zi 0 0; zi 1 1; zi 0 0])
                  && negb (Zi_eqb (hdot [zi 0 1; zi 1 0; zi 0 0; zi 2 0] w) s0)
  | _, _ => false end = true.
Proof. split; [split; reflexivity|]. split; [split; reflexivity|]. split; [reflexivity|]. vm_compute. reflexivity. Qed.

(** ** C72: fixed points of the transfer matrix *)

Theorem C72_eigs : forall (R : sring) (nonneg : R -> Prop) (C : icalls R), icalls_ok nonneg C ->
  forall D (A : site R) l0 r0 eta l r, square_site D A -> tm_eigs C A l0 r0 = Ok (eta, l, r) ->
  2 <= D /\ left_eigen A eta l /\ (exists eta_r, right_eigen A eta_r r) /\
  sum D (fun a => sum D (fun b => me l a b * me r b a)) = 1.
Proof. exact (@eigs_ok). Qed.
Print Assumptions C72_eigs.

Theorem C72_hermitian : forall (R : sring) (nonneg : R -> Prop) (C : icalls R), icalls_ok nonneg C ->
  @integral R -> (forall x, sconj (de_sgn (ic_dec C) x) = de_sgn (ic_dec C) x) ->
  forall D (A : site R) l0 r0 eta l r, square_site D A ->
  (forall n f v0 e v, ic_arn C n f v0 = Some (e, v) -> n = (D * D)%nat ->
     exists (h : mat R) (ph : R), hermitian h /\ mr h = D /\ ph * sconj ph = 1 /\ me h 0%nat 0%nat <> 0 /\
       forall i j, i < D -> j < D -> nth (i * D + j) v 0 = ph * me h i j) ->
  tm_eigs C A l0 r0 = Ok (eta, l, r) ->
  (hermitian l /\ hermitian r) \/ (antihermitian l /\ antihermitian r).
Proof. exact (@eigs_hermitian). Qed.
Print Assumptions C72_hermitian.

(** the two fixed points pair to one for a symmetric r, e.g. real tensors ... *)
Theorem C72_pairing_for_symmetric_r : forall (R : sring) (nonneg : R -> Prop) (C : icalls R), icalls_ok nonneg C ->
  forall D (A : site R) l0 r0 eta l r, square_site D A -> tm_eigs C A l0 r0 = Ok (eta, l, r) ->
  (forall i j, i < D -> j < D -> me r i j = me r j i) -> pair_lr D (me l) (me r) = 1.
Proof. exact (@pair_symmetric). Qed.
Print Assumptions C72_pairing_for_symmetric_r.

(** ... bond dimension one always raises ... *)
Theorem C72_bond_dimension_one_raises : forall (R : sring) (C : icalls R) (A : site R), square_site 1 A ->
  tm_eigs C A None None = Err TypeError.
Proof. intros R C A [H1 H2]. unfold tm_eigs, start, arnoldi. rewrite H1, H2. reflexivity. Qed.
Print Assumptions C72_bond_dimension_one_raises.

Lemma exC_ok : icalls_ok nonnegQ exC.
Proof. apply icQ_ok. vm_compute. reflexivity. Qed.
Lemma exCB_ok : icalls_ok nonnegQ exCB.
Proof. apply icQ_ok. vm_compute. reflexivity. Qed.

Definition herm_b (M : mat Qi) : bool := Nat.eqb (mr M) (mc M) && ball (mr M) (fun i => ball (mr M) (fun j => Qi_eqb (me M j i) (sconj (me M i j)))).
Lemma herm_b_sound M : herm_b M = true -> hermitian M.
Proof.
  unfold herm_b. intros H. ands. apply Nat.eqb_eq in H. split; [exact H|]. intros i j Hi Hj. apply Qi_eqb_eq.
  exact (ball_sound _ _ (ball_sound _ _ H0 i Hi) j Hj).
Qed.

(** What the examples need of eigs. *)
Definition eigs_b (C : icalls Qi) (A : site Qi) (p : Qi -> mat Qi -> mat Qi -> bool) : bool :=
  match tm_eigs C A None None with Ok elr => herm_b (snd (fst elr)) && herm_b (snd elr) && nonneg_b (fst (fst elr))
     && p (fst (fst elr)) (snd (fst elr)) (snd elr) | Err _ => false end.
Lemma eigs_b_sound C A p : eigs_b C A p = true ->
  exists eta l r, imps_eigs C (one_site A) None None = Ok (eta, l, r) /\ hermitian l /\ hermitian r /\ nonnegQ eta /\ p eta l r = true.
Proof.
  unfold eigs_b. destruct (tm_eigs C A None None) as [[[eta l] r]|] eqn:E; [|discriminate]. cbn [fst snd]. intros H. ands.
  exists eta, l, r. split; [exact E|]. split; [now apply herm_b_sound|]. split; [now apply herm_b_sound|]. split; [now apply nonneg_b_sound|assumption].
Qed.

(** ... but in general they do not. *)
Theorem C72_pairing_refuted : exists (C : icalls Qi) (A : site Qi) eta l r, icalls_ok nonnegQ C /\ square_site 2 A /\
  tm_eigs C A None None = Ok (eta, l, r) /\ hermitian l /\ hermitian r /\ pair_lr 2 (me l) (me r) <> 1.
Proof.
  destruct (eigs_b_sound exC (exA (qi 2 0)) (fun _ l r => negb (Qi_eqb (pair_lr 2 (me l) (me r)) s1))) as (eta & l & r & E & Hl & Hr & Hn & H); [vm_compute; reflexivity|].
  exists exC, (exA (qi 2 0)), eta, l, r. split; [exact exC_ok|]. split; [split; reflexivity|]. split; [exact E|]. split; [exact Hl|]. split; [exact Hr|].
  intros H'. rewrite H' in H. rewrite Qi_eqb_refl in H. discriminate.
Qed.
Print Assumptions C72_pairing_refuted.

Example C72_example : icalls_ok nonnegQ exC /\ square_site 2 (exA (qi 2 0)) /\
  eigs_b exC (exA (qi 2 0)) (fun eta l r => Qi_eqb eta (qi 4 0) && negb (Qi_eqb (me l 0%nat 1%nat) s0)) = true.
Proof. split; [exact exC_ok|]. split; [split; reflexivity|]. vm_compute. reflexivity. Qed.

(** ** C73: canonical forms *)

Theorem C73_vidal : forall (R : sring) (nonneg : R -> Prop) (C : icalls R), icalls_ok nonneg C ->
  forall D (A : site R) rest (m : imps R) h l0 r0 tv m' (G : site R) (L : mat R) eta l r,
  i_data m = A :: rest -> square_site D A -> imps_eigs C m l0 r0 = Ok (eta, l, r) -> hermitian l -> hermitian r -> nonneg eta ->
  canonicalise C m h l0 r0 tv = Ok (m', (G, L)) ->
  vidal_form D G L /\ phys G = phys A /\ i_L m' = Some L /\ i_l m' = Some l /\ i_r m' = Some r.
Proof. exact (@canon_vidal). Qed.
Print Assumptions C73_vidal.

Theorem C73_right : forall (R : sring) (nonneg : R -> Prop) (C : icalls R), icalls_ok nonneg C ->
  forall D (A : site R) rest (m : imps R) h l0 r0 tv m' (G : site R) (L : mat R) eta l r,
  i_data m = A :: rest -> square_site D A -> imps_eigs C m l0 r0 = Ok (eta, l, r) -> hermitian l -> hermitian r -> nonneg eta ->
  canonicalise C m h l0 r0 tv = Ok (m', (G, L)) -> h = hand_r ->
  exists (A' : site R) c, i_data m' = A' :: rest /\ phys A' = phys A /\ square_site D A' /\ right_iso A' /\
    left_eigen A' 1 (square L) /\ gauge_of D A A' c /\ c * c * eta = 1 /\ sconj c = c.
Proof. exact (@canon_right). Qed.
Print Assumptions C73_right.

Theorem C73_left : forall (R : sring) (nonneg : R -> Prop) (C : icalls R), icalls_ok nonneg C ->
  forall D (A : site R) rest (m : imps R) h l0 r0 tv m' (G : site R) (L : mat R) eta l r,
  i_data m = A :: rest -> square_site D A -> imps_eigs C m l0 r0 = Ok (eta, l, r) -> hermitian l -> hermitian r -> nonneg eta ->
  canonicalise C m h l0 r0 tv = Ok (m', (G, L)) -> h = hand_l ->
  exists (A' : site R) c, i_data m' = A' :: rest /\ phys A' = phys A /\ square_site D A' /\ left_iso A' /\
    right_eigen A' 1 (square L) /\ gauge_of D A A' c /\ c * c * eta = 1 /\ sconj c = c.
Proof. exact (@canon_left). Qed.
Print Assumptions C73_left.

Theorem C73_mixed : forall (R : sring) (nonneg : R -> Prop) (C : icalls R), icalls_ok nonneg C ->
  forall D (A : site R) rest (m : imps R) h l0 r0 tv m' (G : site R) (L : mat R) eta l r,
  i_data m = A :: rest -> square_site D A -> imps_eigs C m l0 r0 = Ok (eta, l, r) -> hermitian l -> hermitian r -> nonneg eta ->
  canonicalise C m h l0 r0 tv = Ok (m', (G, L)) -> h = hand_m ->
  exists (A' : site R), i_data m' = A' :: rest /\ phys A' = phys A /\ square_site D A' /\
    right_eigen A' (pair_lr D (me l) (me r)) L /\ left_eigen A' (pair_lr D (me l) (me r)) L /\
    exists (q : nat -> R) c, c * c * pair_lr D (me l) (me r) = 1 /\ (forall i, i < D -> me L i i = c * (q i * q i)) /\
      forall s i j, i < D -> j < D -> ent A' s i j = q i * ent G s i j * q j.
Proof. exact (@canon_mixed). Qed.
Print Assumptions C73_mixed.

(** a run of canonicalise, with what is needed to use the theorems *)
Definition canon_b (C : icalls Qi) (A : site Qi) (h : hand) (p : site Qi -> site Qi -> mat Qi -> bool) : bool :=
  eigs_b C A (fun _ _ _ => true) &&
  match canonicalise C (one_site A) h None None false with
  | Ok mGL => match i_data (fst mGL) with [A'] => p A' (fst (snd mGL)) (snd (snd mGL)) | _ => false end
  | Err _ => false end.
Definition rightiso_b (A : site Qi) : bool := ball (dl A) (fun i => ball (dl A) (fun j =>
  Qi_eqb (sum (phys A) (fun s => sum (dr A) (fun k => smul (ent A s i k) (sconj (ent A s j k))))) (dlt i j))).

Example C73_example : icalls_ok nonnegQ exC /\ square_site 2 (exA (qi 2 0)) /\
  canon_b exC (exA (qi 2 0)) hand_r (fun A' _ L => negb (rightiso_b (exA (qi 2 0))) && rightiso_b A' && negb (Qi_eqb (me L 0%nat 0%nat) (me L 1%nat 1%nat))) = true /\
  canon_b exC (exA (qi 2 0)) hand_l (fun A' _ _ => negb (rightiso_b A')) = true.
Proof. split; [exact exC_ok|]. split; [split; reflexivity|]. split; vm_compute; reflexivity. Qed.
Example C73_example_mixed : icalls_ok nonnegQ exCB /\ square_site 4 exB /\
  canon_b exCB exB hand_m (fun A' G L => Qi_eqb (me L 2%nat 2%nat) (qi (73984 # 124609) 0)) = true.
Proof. split; [exact exCB_ok|]. split; [split; reflexivity|]. vm_compute; reflexivity. Qed.

(** ** C74: expectation values *)

Theorem C74_default : forall (R : sring) (nonneg : R -> Prop) (C : icalls R), icalls_ok nonneg C ->
  forall D (A : site R) rest (m : imps R) eta l r (op : mat R),
  i_data m = A :: rest -> square_site D A -> hermitian l -> hermitian r -> nonneg eta -> mr op = phys A -> mc op = phys A ->
  forall x m', imps_eigs C m None None = Ok (eta, l, r) -> imps_E C m op None = Ok (x, m') ->
  eta * pair_lr D (me l) (me r) * x = site_exp D A (me l) (me r) op.
Proof. exact (@E_none). Qed.
Print Assumptions C74_default.

(** after canonicalise, E with the same letter is the value of the transposed operator *)
Theorem C74_right_transposed : forall (R : sring) (nonneg : R -> Prop) (C : icalls R), icalls_ok nonneg C ->
  forall D (A : site R) rest (m : imps R) eta l r (op : mat R) l0 r0 tv m' (G : site R) (L : mat R) x m2,
  i_data m = A :: rest -> square_site D A -> hermitian l -> hermitian r -> nonneg eta -> mr op = phys A -> mc op = phys A ->
  imps_eigs C m l0 r0 = Ok (eta, l, r) -> canonicalise C m hand_r l0 r0 tv = Ok (m', (G, L)) ->
  imps_E C m' op (Some hand_r) = Ok (x, m2) ->
  m2 = m' /\ eta * pair_lr D (me l) (me r) * x = site_exp D A (me l) (me r) (mtr op).
Proof. exact (@E_after_r). Qed.
Print Assumptions C74_right_transposed.

Theorem C74_left_transposed : forall (R : sring) (nonneg : R -> Prop) (C : icalls R), icalls_ok nonneg C ->
  forall D (A : site R) rest (m : imps R) eta l r (op : mat R) l0 r0 tv m' (G : site R) (L : mat R) x m2,
  i_data m = A :: rest -> square_site D A -> hermitian l -> hermitian r -> nonneg eta -> mr op = phys A -> mc op = phys A ->
  imps_eigs C m l0 r0 = Ok (eta, l, r) -> canonicalise C m hand_l l0 r0 tv = Ok (m', (G, L)) ->
  imps_E C m' op (Some hand_l) = Ok (x, m2) ->
  m2 = m' /\ eta * pair_lr D (me l) (me r) * x = site_exp D A (me l) (me r) (mtr op).
Proof. exact (@E_after_l). Qed.
Print Assumptions C74_left_transposed.

Theorem C74_mixed_transposed : forall (R : sring) (nonneg : R -> Prop) (C : icalls R), icalls_ok nonneg C ->
  forall D (A : site R) rest (m : imps R) eta l r (op : mat R) l0 r0 tv m' (G : site R) (L : mat R) x m2,
  i_data m = A :: rest -> square_site D A -> hermitian l -> hermitian r -> nonneg eta -> mr op = phys A -> mc op = phys A ->
  imps_eigs C m l0 r0 = Ok (eta, l, r) -> canonicalise C m hand_m l0 r0 tv = Ok (m', (G, L)) ->
  imps_E C m' op (Some hand_m) = Ok (x, m2) ->
  m2 = m' /\ eta * x = site_exp D A (me l) (me r) (mtr op).
Proof. exact (@E_after_m). Qed.
Print Assumptions C74_mixed_transposed.

Theorem C74_Es : forall (R : sring) (C : icalls R) m ops h xs m', imps_Es C m ops h = Ok (xs, m') ->
  Forall2 (fun op x => imps_E C m op h = Ok (x, m')) ops xs.
Proof. exact (@Es_each). Qed.
Print Assumptions C74_Es.

Theorem C74_vidal_transposed : forall (R : sring) (nonneg : R -> Prop) (C : icalls R), icalls_ok nonneg C ->
  forall D (A : site R) rest (m : imps R) eta l r (op : mat R) l0 r0 h tv m' (G : site R) (L : mat R) x,
  i_data m = A :: rest -> square_site D A -> hermitian l -> hermitian r -> nonneg eta -> mr op = phys A -> mc op = phys A ->
  imps_eigs C m l0 r0 = Ok (eta, l, r) -> canonicalise C m h l0 r0 tv = Ok (m', (G, L)) -> iv_E G L op = Ok x ->
  eta * pair_lr D (me l) (me r) * x = site_exp D A (me l) (me r) (mtr op).
Proof.
  intros R nonneg C HC D A rest m eta l r op l0 r0 h tv m' G L x Hd Hsq Hl Hr Hn Ho Ho' He Hc Hx.
  destruct (canon_vidal nonneg C HC D A rest m h l0 r0 tv m' G L eta l r Hd Hsq He Hl Hr Hn Hc) as (((G1 & G2) & (L1 & L2 & _) & _) & PG & _).
  destruct (iv_E_transposed G L op x) as (T & HT & HE); try congruence.
  exact (E_circle_ok nonneg C HC D A rest m eta l r (mtr op) Hd Hsq Hl Hr Hn Ho' Ho l0 r0 h tv m' G L T x He Hc HT HE).
Qed.
Print Assumptions C74_vidal_transposed.

Definition sy : mat Qi := qmat 2 2 [qi 0 0; qi 0 (-1); qi 0 1; qi 0 0].

(** so that E(op, 'r') is not the expectation value of op *)
Theorem C74_right_refuted : exists (C : icalls Qi) (A : site Qi) eta l r m' GL x m2 (op : mat Qi),
  icalls_ok nonnegQ C /\ square_site 2 A /\ imps_eigs C (one_site A) None None = Ok (eta, l, r) /\
  hermitian l /\ hermitian r /\ nonnegQ eta /\ hermitian op /\ mr op = phys A /\
  canonicalise C (one_site A) hand_r None None false = Ok (m', GL) /\ imps_E C m' op (Some hand_r) = Ok (x, m2) /\
  eta * pair_lr 2 (me l) (me r) * x <> site_exp 2 A (me l) (me r) op.
Proof.
  destruct (eigs_b_sound exC (exA (qi 2 0)) (fun eta l r =>
    match canonicalise exC (one_site (exA (qi 2 0))) hand_r None None false with
    | Ok mGL => match imps_E exC (fst mGL) sy (Some hand_r) with
       | Ok xm => negb (Qi_eqb (smul (smul eta (pair_lr 2 (me l) (me r))) (fst xm)) (site_exp 2 (exA (qi 2 0)) (me l) (me r) sy))
       | Err _ => false end
    | Err _ => false end)) as (eta & l & r & E & Hl & Hr & Hn & H); [vm_compute; reflexivity|].
  destruct (canonicalise exC (one_site (exA (qi 2 0))) hand_r None None false) as [[m' GL]|] eqn:EC; [|discriminate].
  cbn [fst] in H. destruct (imps_E exC m' sy (Some hand_r)) as [[x m2]|] eqn:EE; [|discriminate]. cbn [fst] in H.
  exists exC, (exA (qi 2 0)), eta, l, r, m', GL, x, m2, sy.
  repeat (split; [first [exact exC_ok|exact E|exact Hl|exact Hr|exact Hn|exact EC|exact EE|(apply herm_b_sound; vm_compute; reflexivity)|(split; reflexivity)|reflexivity]|]).
  intros H'. rewrite H' in H. rewrite Qi_eqb_refl in H. discriminate.
Qed.
Print Assumptions C74_right_refuted.

Example C74_example :
  match imps_E exC (one_site (exA (qi 2 0))) sy None with
  | Ok xm => Qi_eqb (fst xm) (qi (6665496 # 9765625) 0) | Err _ => false end = true /\
  canon_b exC (exA (qi 2 0)) hand_l (fun A' G L => match iv_E G L sy with Ok x => Qi_eqb x (qi (-6665496 # 9765625) 0) | _ => false end) = true /\
  match canonicalise exCB (one_site exB) hand_m None None false with
  | Ok mGL => match imps_E exCB (fst mGL) ex1 (Some hand_m) with Ok xm => Qi_eqb (fst xm) (qi 1 0) | _ => false end | _ => false end = true.
Proof. repeat split; vm_compute; reflexivity. Qed.

(** ** C75: energy *)

Theorem C75_energy : forall (R : sring) (S0 : setio) (C : icalls R) D (A : site R) rest (m : imps R) (H : list (mat R)) h eta l r e,
  setio_ok S0 -> i_data m = A :: rest -> i_d m = phys A -> square_site D A ->
  getitem H 0 = Ok h -> mr h = (phys A ^ 2)%nat -> mc h = (phys A ^ 2)%nat ->
  imps_eigs C m None None = Ok (eta, l, r) -> mr l = D -> mc l = D -> mr r = D -> mc r = D ->
  imps_energy S0 C m H = Ok e -> e = sre (two_exp D A (me l) (me (mtr r)) h).
Proof. exact (@energy_ok). Qed.
Print Assumptions C75_energy.

Theorem C75_energy_for_symmetric_r : forall (R : sring) (nonneg : R -> Prop) (C : icalls R), icalls_ok nonneg C ->
  forall (S0 : setio) D (A : site R) rest (m : imps R) (H : list (mat R)) h eta l r e,
  setio_ok S0 -> i_data m = A :: rest -> i_d m = phys A -> square_site D A ->
  getitem H 0 = Ok h -> mr h = (phys A ^ 2)%nat -> mc h = (phys A ^ 2)%nat ->
  imps_eigs C m None None = Ok (eta, l, r) -> (forall i j, i < D -> j < D -> me r i j = me r j i) ->
  imps_energy S0 C m H = Ok e ->
  e = sre (two_exp D A (me l) (me r) h) /\ pair_lr D (me l) (me r) = 1.
Proof. exact (@energy_symmetric). Qed.
Print Assumptions C75_energy_for_symmetric_r.

(** the projector on both sites up *)
Definition p00 : mat Qi := mkMat 4 4 (fun i j => if (Nat.eqb i 0 && Nat.eqb j 0)%bool then qi 1 0 else s0).

(** The state is normalised (eigenvalue one), but the energy is wrong. *)
Theorem C75_energy_refuted : exists (C : icalls Qi) (A : site Qi) l r e (h : mat Qi), icalls_ok nonnegQ C /\ square_site 2 A /\
  imps_eigs C (one_site A) None None = Ok (qi 1 0, l, r) /\ hermitian l /\ hermitian r /\ hermitian h /\ mr h = (phys A ^ 2)%nat /\
  imps_energy setA C (one_site A) [h] = Ok e /\
  pair_lr 2 (me l) (me r) * e <> sre (two_exp 2 A (me l) (me r) h).
Proof.
  destruct (eigs_b_sound exC (exA (qi 1 0)) (fun eta l r => Qi_eqb eta (qi 1 0) &&
    match imps_energy setA exC (one_site (exA (qi 1 0))) [p00] with
    | Ok e => negb (Qi_eqb (smul (pair_lr 2 (me l) (me r)) e) (sre (two_exp 2 (exA (qi 1 0)) (me l) (me r) p00)))
    | Err _ => false end)) as (eta & l & r & E & Hl & Hr & Hn & H); [vm_compute; reflexivity|].
  apply andb_true_iff in H. destruct H as [H1 H]. apply Qi_eqb_eq in H1.
  destruct (imps_energy setA exC (one_site (exA (qi 1 0))) [p00]) as [e|] eqn:EE; [|discriminate].
  rewrite H1 in E. exists exC, (exA (qi 1 0)), l, r, e, p00.
  repeat (split; [first [exact exC_ok|exact E|exact Hl|exact Hr|exact EE|(apply herm_b_sound; vm_compute; reflexivity)|(split; reflexivity)|reflexivity]|]).
  intros H'. rewrite H' in H. rewrite Qi_eqb_refl in H. discriminate.
Qed.
Print Assumptions C75_energy_refuted.

(** a real state with symmetric r *)
Definition h16 : mat Qi := mkMat 16 16 (fun i j => if Nat.eqb (i + j) 15 then qi 1 0 else if Nat.eqb i j then qi (Z.of_nat i # 1) 0 else s0).
Example C75_example : setio_ok setA /\ icalls_ok nonnegQ exCB /\
  eigs_b exCB exB (fun eta l r => Qi_eqb eta (qi 1 0) && ball 4 (fun i => ball 4 (fun j => Qi_eqb (me r i j) (me r j i)))) = true /\
  match imps_energy setA exCB (one_site exB) [h16] with Ok e => negb (Qi_eqb e s0) | Err _ => false end = true.
Proof. split; [exact setA_ok|]. split; [exact exCB_ok|]. split; vm_compute; reflexivity. Qed.

(** ** C76: eigenvector predicates *)

Theorem C76_right : forall (R : sring) (close : mat R -> mat R -> bool) D (A B : site R) (r : mat R) lam,
  (forall M N, close M N = true <-> mat_eq M N) -> square_site D A -> square_site D B -> phys A = phys B -> mr r = D -> mc r = D ->
  exists b, is_right_eigenvector close A B r lam = Ok b /\
    (b = true <-> forall i j, i < D -> j < D -> me r i j = lam * tright A B (me r) i j).
Proof. exact (@right_predicate). Qed.
Print Assumptions C76_right.

Theorem C76_left : forall (R : sring) (close : mat R -> mat R -> bool) D (A B : site R) (l : mat R) lam,
  (forall M N, close M N = true <-> mat_eq M N) -> square_site D A -> square_site D B -> phys A = phys B -> mr l = D -> mc l = D ->
  exists b, is_left_eigenvector close A B l lam = Ok b /\
    (b = true <-> forall i j, i < D -> j < D -> me l i j = lam * tadj A B (me l) i j).
Proof. exact (@left_predicate). Qed.
Print Assumptions C76_left.

(** at eigenvalue one the predicate is right *)
Theorem C76_right_one : forall (R : sring) (close : mat R -> mat R -> bool) D (A : site R) (r : mat R),
  (forall M N, close M N = true <-> mat_eq M N) -> square_site D A -> mr r = D -> mc r = D ->
  exists b, is_right_eigenvector close A A r 1 = Ok b /\ (b = true <-> right_eigen A 1 r).
Proof.
  intros R close D A r Hc [H1 H2] Hr Hr'. destruct (right_predicate close D A A r 1 Hc (conj H1 H2) (conj H1 H2) eq_refl Hr Hr') as (b & E & Hb).
  exists b. split; [exact E|]. rewrite Hb. unfold right_eigen. rewrite H1.
  assert (M1 : forall x : R, smul s1 x = x) by (intros x; apply (Ring_theory.Rmul_1_l (s_th R))).
  split.
  - intros H. split; [exact Hr|]. split; [exact Hr'|]. intros i j Hi Hj. rewrite (H i j Hi Hj). rewrite !M1. symmetry. apply sum_ext. reflexivity.
  - intros (_ & _ & H) i j Hi Hj. rewrite M1, H, M1 by assumption. reflexivity.
Qed.
Print Assumptions C76_right_one.

Definition meqb (M N : mat Zi) : bool := Nat.eqb (mr M) (mr N) && Nat.eqb (mc M) (mc N) && forallb (fun i => forallb (fun j => Zi_eqb (me M i j) (me N i j)) (seq 0 (mc M))) (seq 0 (mr M)).

Lemma meqb_spec M N : meqb M N = true <-> mat_eq M N.
Proof.
  unfold meqb, mat_eq. split.
  - intros H. ands. apply Nat.eqb_eq in H, H1. split; [exact H|]. split; [exact H1|]. intros i j Hi Hj. apply Zi_eqb_eq.
    rewrite forallb_forall in H0. assert (G := H0 i ltac:(apply in_seq; lia)). rewrite forallb_forall in G. apply (G j). apply in_seq. lia.
  - intros (H1 & H2 & H). rewrite H1, H2, !Nat.eqb_refl. cbn [andb]. apply forallb_forall. intros i Hi. apply in_seq in Hi.
    apply forallb_forall. intros j Hj. apply in_seq in Hj. rewrite H by lia. unfold Zi_eqb. now rewrite !Z.eqb_refl.
Qed.

(** at any other value it is not: the eigenvalue of the transfer map is 4, and the predicate
    denies it and accepts nothing of the kind *)
Theorem C76_refuted : exists (close : mat Zi -> mat Zi -> bool) (A : site Zi) (r : mat Zi) (lam : Zi),
  (forall M N, close M N = true <-> mat_eq M N) /\ square_site 2 A /\ right_eigen A lam r /\ me r 0%nat 0%nat <> s0 /\
  is_right_eigenvector close A A r lam = Ok false.
Proof.
  exists meqb, (mkSite 1 2 2 (fun _ i j => if Nat.eqb i j then zi 2 0 else s0)), (mkMat 2 2 (fun i j => if Nat.eqb i j then zi 1 0 else s0)), (zi 4 0).
  split; [exact meqb_spec|]. split; [split; reflexivity|]. split.
  - split; [reflexivity|]. split; [reflexivity|]. cbn [dl]. intros i j Hi Hj.
    destruct i as [|[|i]]; [| |lia]; (destruct j as [|[|j]]; [| |lia]); vm_compute; reflexivity.
  - split; [discriminate|]. vm_compute. reflexivity.
Qed.
Print Assumptions C76_refuted.

Example C76_example : (forall M N, meqb M N = true <-> mat_eq M N) /\
  is_right_eigenvector meqb zsite2 zsite3 (mkMat 2 2 (fun i j => zi 1 1)) (zi 1 0) = Ok false /\
  is_left_eigenvector meqb (mkSite 1 2 2 (fun _ i j => if Nat.eqb i j then s0 else s1)) (mkSite 1 2 2 (fun _ i j => if Nat.eqb i j then s0 else s1))
    (mkMat 2 2 (fun i j => if Nat.eqb i j then zi 3 1 else zi 0 7)) (zi 1 0) = Ok true.
Proof. split; [exact meqb_spec|]. split; vm_compute; reflexivity. Qed.

(** ** C77: construction and storage *)

Theorem C77_serialize : forall (R : sring) (m n : imps R) d D (extra : list R), i_data m <> [] ->
  Forall (fun A : site R => phys A = d /\ square_site D A) (i_data m) ->
  exists v n', imps_serialize m = Ok v /\ imps_deserialize n (v ++ extra) d D (length (i_data m)) = Ok n' /\
    Forall2 site_eq (i_data m) (i_data n') /\ i_d n' = d /\ i_D n' = D /\ i_period n' = length (i_data m).
Proof. exact (@imps_roundtrip). Qed.
Print Assumptions C77_serialize.

Theorem C77_serialize_real : forall (R : sring) (I : imag R) (m n : imps R) d D,
  (forall x : R, sre x + im_unit I * im_part I x = x) -> i_data m <> [] ->
  Forall (fun A : site R => phys A = d /\ square_site D A) (i_data m) ->
  exists v n', imps_serialize_real I m = Ok v /\ imps_deserialize_real I n v d D (length (i_data m)) = Ok n' /\
    Forall2 site_eq (i_data m) (i_data n') /\ i_d n' = d /\ i_D n' = D /\ i_period n' = length (i_data m).
Proof. exact (@imps_roundtrip_real). Qed.
Print Assumptions C77_serialize_real.

Theorem C77_store_load : forall (R : sring) (N : numio R) (m n : imps R), io_ok N -> i_data m <> [] -> i_period m = length (i_data m) ->
  Forall (fun A : site R => phys A = i_d m /\ square_site (i_D m) A) (i_data m) ->
  exists f n', imps_store N m = Ok f /\ imps_load N n f = Ok n' /\
    Forall2 site_eq (i_data m) (i_data n') /\ i_d n' = i_d m /\ i_D n' = i_D m /\ i_period n' = i_period m.
Proof. exact (@imps_file). Qed.
Print Assumptions C77_store_load.

Theorem C77_init : forall (R : sring) (A : site R) rest c, exists m, iMPS_init (A :: rest) c = Ok m /\
  i_data m = A :: rest /\ i_period m = S (length rest) /\ i_d m = phys A /\ i_D m = dr A.
Proof. exact (@imps_init_ok). Qed.
Print Assumptions C77_init.

(** documented as 1-based: m(1) is claimed to be the first tensor *)
Theorem C77_call_refuted : exists (A B : site Zi) m, iMPS_init [A; B] None = Ok m /\
  imps_call m 1 = Err IndexError /\ imps_call m 0 = Ok B /\ imps_get m 0 = Ok A /\ ~ site_eq A B.
Proof.
  exists zsite2, zsite3. eexists. split; [reflexivity|]. repeat (split; [reflexivity|]). intros (_ & _ & _ & H).
  assert (G : Zi_eqb (ent zsite2 0%nat 0%nat 0%nat) (ent zsite3 0%nat 0%nat 0%nat) = false) by reflexivity.
  rewrite H in G by (cbn; lia). discriminate.
Qed.
Print Assumptions C77_call_refuted.

Example C77_example : exists m, iMPS_init [zsite2; zsite3] None = Ok m /\ i_data m <> [] /\ i_period m = length (i_data m) /\
  Forall (fun A : site Zi => phys A = i_d m /\ square_site (i_D m) A) (i_data m).
Proof. eexists. split; [reflexivity|]. split; [discriminate|]. split; [reflexivity|]. repeat constructor. Qed.
