(** Fixed points of transfer matrices: eigs. *)
From Verif Require Import Alg ModelMPS SpecMPS ModelOrth SpecOrth ModelCanon SpecCanon ModelNcon ModelEk ModelTensor ModelNp ModelDecomp SpecDecomp ProofDecomp3 ModelLie
  ModelStruct ProofStruct ModelImps SpecImps SpecSpin ProofImps ProofFm.

(** peel one step of a computation that succeeded *)
Lemma bind_ok {A B} (x : res A) (f : A -> res B) b : bind x f = Ok b -> exists a, x = Ok a /\ f a = Ok b.
Proof. destruct x as [a|e]; [|discriminate]. intros H. exists a. auto. Qed.
Lemma lib_ok {A} e (x : option A) a : lib e x = Ok a -> x = Some a.
Proof. destruct x; [|discriminate]. intros H. injection H as ->. reflexivity. Qed.

Section E.
Context {R : sring}.
Local Open Scope sr_scope.
Add Ring Rr : (s_th R).
Variables (nonneg : R -> Prop) (C : icalls R).
Hypothesis HC : icalls_ok nonneg C.

Lemma quot_ok x y z : quot C x y = Ok z -> z * y = x.
Proof. intros H. apply lib_ok in H. destruct HC as ((_ & _ & _ & _ & _ & _ & Hq & _) & _). eauto. Qed.
Lemma root_ok x w : root_ C x = Ok w -> w * w = x.
Proof. intros H. apply lib_ok in H. destruct HC as ((_ & _ & _ & _ & _ & _ & _ & Hs) & _). eauto. Qed.

Lemma arnoldi_ok rows cols f v0 eta v : arnoldi C rows cols f v0 = Ok (eta, v) ->
  rows = cols /\ length v = rows /\ f v = Ok (map (smul eta) v).
Proof.
  unfold arnoldi. destruct (Nat.eqb_spec rows cols) as [<-|]; [|discriminate]. cbn [negb].
  destruct (Nat.leb rows 2); [discriminate|]. intros H. apply lib_ok in H. destruct HC as (_ & Ha & _).
  apply Ha in H. destruct H as [H1 H2]. split; [reflexivity|]. split; [exact H1|]. unfold linop in H2. rewrite H1, Nat.eqb_refl in H2. exact H2.
Qed.

Lemma arnoldi_small rows cols f v0 : rows <= 2 -> cols <= 2 -> exists e, arnoldi C rows cols f v0 = Err e.
Proof.
  intros H1 H2. unfold arnoldi. destruct (Nat.eqb rows cols); cbn [negb]; [|eauto].
  destruct (Nat.leb_spec rows 2); [eauto|lia].
Qed.

Lemma nth_map_eta eta (v : list R) n : n < length v -> nth n (map (smul eta) v) 0 = eta * nth n v 0.
Proof. intros H. rewrite (nth_indep _ 0 (eta * 0)) by (now rewrite map_length). now rewrite map_nth. Qed.

(** multiples of eigenvectors *)
Lemma tright_scale (A B : site R) c x i j : tright A B (fun a b => c * x a b) i j = c * tright A B x i j.
Proof.
  unfold tright. rewrite <- sum_mul_l. apply sum_ext; intros s _. rewrite <- sum_mul_l. apply sum_ext; intros a _.
  rewrite <- sum_mul_l. apply sum_ext; intros b _. ring.
Qed.
Lemma tleft_scale (A B : site R) c x i j : tleft A B (fun a b => c * x a b) i j = c * tleft A B x i j.
Proof.
  unfold tleft. rewrite <- sum_mul_l. apply sum_ext; intros s _. rewrite <- sum_mul_l. apply sum_ext; intros a _.
  rewrite <- sum_mul_l. apply sum_ext; intros b _. ring.
Qed.
Lemma tright_ext D (A B : site R) x y i j : square_site D A -> square_site D B ->
  (forall a b, a < D -> b < D -> x a b = y a b) -> tright A B x i j = tright A B y i j.
Proof.
  intros [_ H1] [_ H2] H. unfold tright. rewrite H1, H2. apply sum_ext; intros s _. apply sum_ext; intros a Ha. apply sum_ext; intros b Hb.
  rewrite H by assumption. reflexivity.
Qed.
Lemma tleft_ext D (A B : site R) x y i j : square_site D A -> square_site D B ->
  (forall a b, a < D -> b < D -> x a b = y a b) -> tleft A B x i j = tleft A B y i j.
Proof.
  intros [H1 _] [H2 _] H. unfold tleft. rewrite H1, H2. apply sum_ext; intros s _. apply sum_ext; intros a Ha. apply sum_ext; intros b Hb.
  rewrite H by assumption. reflexivity.
Qed.

Lemma right_eigen_scale D (A : site R) eta x y c : square_site D A -> right_eigen A eta x -> mr y = D -> mc y = D ->
  (forall i j, i < D -> j < D -> me y i j = c * me x i j) -> right_eigen A eta y.
Proof.
  intros HA (H1 & H2 & H3) Y1 Y2 Y3. destruct HA as [D1 D2] eqn:EA. clear EA. unfold right_eigen. rewrite D1 in *.
  split; [exact Y1|]. split; [exact Y2|]. intros i j Hi Hj.
  rewrite (tright_ext D A A _ (fun a b => c * me x a b)) by (auto; split; assumption).
  rewrite tright_scale, H3 by assumption. rewrite Y3 by assumption. ring.
Qed.
Lemma left_eigen_scale D (A : site R) eta x y c : square_site D A -> left_eigen A eta x -> mr y = D -> mc y = D ->
  (forall i j, i < D -> j < D -> me y i j = c * me x i j) -> left_eigen A eta y.
Proof.
  intros HA (H1 & H2 & H3) Y1 Y2 Y3. destruct HA as [D1 D2] eqn:EA. clear EA. unfold left_eigen. rewrite D2 in *.
  split; [exact Y1|]. split; [exact Y2|]. intros i j Hi Hj.
  rewrite (tleft_ext D A A _ (fun a b => c * me x a b)) by (auto; split; assumption).
  rewrite tleft_scale, H3 by assumption. rewrite Y3 by assumption. ring.
Qed.

Lemma rotated_ok (M N : mat R) x : rotated C M x = Ok N -> exists w s, mr N = mr M /\ mc N = mc M /\
  s * de_sgn (ic_dec C) x = 1 /\ (forall i j, me N i j = s * (me M i j * w)) /\
  rotate_to_hermitian (ic_dec C) M = Ok (sconj w, mkMat (mr M) (mc M) (fun i j => me M i j * w)).
Proof.
  unfold rotated. intros H. apply bind_ok in H. destruct H as ([ph M'] & E & H). apply bind_ok in H. destruct H as (s & Es & H).
  injection H as <-. apply quot_ok in Es. cbn [snd]. unfold rotate_to_hermitian in *.
  destruct (_ && _)%bool; [|discriminate]. destruct (de_quot _ _ _) as [q|]; [|discriminate].
  destruct (de_sqrt _ _) as [w|]; [|discriminate]. injection E as <- <-. exists w, s. repeat split; auto.
Qed.

Lemma eigs_ok D (A : site R) l0 r0 eta l r : square_site D A -> tm_eigs C A l0 r0 = Ok (eta, l, r) ->
  2 <= D /\ left_eigen A eta l /\ (exists eta_r, right_eigen A eta_r r) /\
  sum D (fun a => sum D (fun b => me l a b * me r b a)) = 1.
Proof.
  intros HA H. pose proof HA as [D1 D2]. unfold tm_eigs in H. rewrite D1, D2 in H.
  apply bind_ok in H. destruct H as (l0' & _ & H). apply bind_ok in H. destruct H as (r0' & _ & H).
  apply bind_ok in H. destruct H as ([er vr] & Ar & H). apply bind_ok in H. destruct H as ([el vl] & Al & H). cbn [fst snd] in H.
  assert (HD : 2 <= D).
  { destruct (Nat.le_gt_cases 2 D); [assumption|]. exfalso. destruct (arnoldi_small (D * D)%nat (D * D)%nat (tm_mv A) r0') as (e & E); [nia|nia|].
    rewrite E in Ar. discriminate. }
  apply arnoldi_ok in Ar. destruct Ar as (_ & Lr & Ar). apply arnoldi_ok in Al. destruct Al as (_ & Ll & Al).
  apply bind_ok in H. destruct H as (r1 & R1 & H). apply bind_ok in H. destruct H as (l1 & L1 & H).
  rewrite reshape2_ok in R1 by exact Lr. rewrite reshape2_ok in L1 by exact Ll. injection R1 as <-. injection L1 as <-.
  apply bind_ok in H. destruct H as (x & _ & H). apply bind_ok in H. destruct H as (r2 & R2 & H).
  apply bind_ok in H. destruct H as (y & _ & H). apply bind_ok in H. destruct H as (l2 & L2 & H).
  apply bind_ok in H. destruct H as (lr & LR & H). apply bind_ok in H. destruct H as (q & Q & H). apply bind_ok in H. destruct H as (c & Ec & H).
  injection H as <- <- <-.
  apply rotated_ok in R2. destruct R2 as (wr & sr & R2r & R2c & _ & R2e & _).
  apply rotated_ok in L2. destruct L2 as (wl & sl & L2r & L2c & _ & L2e & _).
  cbn [unvec mr mc me] in R2r, R2c, R2e, L2r, L2c, L2e.
  assert (Er : right_eigen A er (unvec D vr)).
  { destruct (tm_mv_ok D A vr HA Lr) as (w & W1 & W2 & W3). rewrite Ar in W1. injection W1 as <-.
    split; [cbn; congruence|]. split; [cbn; congruence|]. rewrite D1. intros i j Hi Hj. rewrite <- W3 by assumption.
    rewrite nth_map_eta by (rewrite Lr; nia). reflexivity. }
  assert (El : left_eigen A el (unvec D vl)).
  { destruct (tm_mvr_ok D A vl HA Ll) as (w & W1 & W2 & W3). rewrite Al in W1. injection W1 as <-.
    split; [cbn; congruence|]. split; [cbn; congruence|]. rewrite D2. intros i j Hi Hj. rewrite <- W3 by assumption.
    rewrite nth_map_eta by (rewrite Ll; nia). reflexivity. }
  split; [exact HD|]. split; [|split].
  - apply (left_eigen_scale D A el (unvec D vl) _ (c * sl * wl) HA El); [exact L2r|exact L2c|].
    intros i j Hi Hj. cbn [mscal me]. rewrite L2e. cbn [unvec me]. ring.
  - exists er. apply (right_eigen_scale D A er (unvec D vr) _ (c * sr * wr) HA Er); [exact R2r|exact R2c|].
    intros i j Hi Hj. cbn [mscal me]. rewrite R2e. cbn [unvec me]. ring.
  - unfold mdot in LR. rewrite L2c, R2r, Nat.eqb_refl in LR. injection LR as <-.
    apply root_ok in Q. apply quot_ok in Ec. unfold mtr_ in Q. cbn [mr mc me] in Q. rewrite L2r, R2c, Nat.min_id in Q.
    cbn [mscal me]. transitivity (c * c * (q * q)); [|transitivity ((c * q) * (c * q)); [ring|rewrite Ec; ring]].
    rewrite Q. rewrite <- sum_mul_l. apply sum_ext; intros a _. rewrite <- sum_mul_l. apply sum_ext; intros b _. ring.
Qed.
End E.

Section H.
Context {R : sring}.
Local Open Scope sr_scope.
Add Ring Rr2 : (s_th R).
Variables (nonneg : R -> Prop) (C : icalls R).
Hypothesis HC : icalls_ok nonneg C.
Hypothesis Hint : @integral R.
Hypothesis sgn_real : forall x, sconj (de_sgn (ic_dec C) x) = de_sgn (ic_dec C) x.

Lemma rotated_hermitian D (M N h : mat R) x ph : rotated C M x = Ok N -> mr M = D -> mc M = D -> hermitian h -> mr h = D ->
  ph * sconj ph = 1 -> me h 0%nat 0%nat <> 0 -> (forall i j, i < D -> j < D -> me M i j = ph * me h i j) -> hermitian N.
Proof.
  intros H M1 M2 Hh Hd Hp H0 HM. destruct (rotated_ok nonneg C HC M N x H) as (w & s & N1 & N2 & Es & N3 & E).
  assert (Hs : sconj s = s).
  { assert (E1 : sconj s * de_sgn (ic_dec C) x = 1) by (rewrite <- (sgn_real x), <- conj_mul, Es; apply conj_1).
    transitivity (sconj s * (s * de_sgn (ic_dec C) x)); [rewrite Es; ring|]. transitivity (s * (sconj s * de_sgn (ic_dec C) x)); [ring|rewrite E1; ring]. }
  destruct HC as (Hdec & _).
  assert (P1 : mr M = mr h) by congruence. assert (P2 : mc M = mc h) by (destruct Hh as [Hh _]; congruence).
  rewrite <- Hd in HM.
  destruct (rotate_ok nonneg (ic_dec C) Hdec h M ph (sconj w) _ Hint Hh Hp H0 P1 P2 HM E) as (s' & _ & _ & Hr & _).
  destruct Hr as [Hr1 Hr2]. cbn [mr mc me] in Hr1, Hr2. split; [congruence|]. rewrite N1. intros i j Hi Hj. rewrite !N3, (Hr2 i j Hi Hj). rewrite (conj_mul R s), Hs. reflexivity.
Qed.

Lemma eigs_hermitian D (A : site R) l0 r0 eta l r : square_site D A ->
  (forall n f v0 e v, ic_arn C n f v0 = Some (e, v) -> n = (D * D)%nat -> exists h ph, hermitian h /\ mr h = D /\ ph * sconj ph = 1 /\
     me h 0%nat 0%nat <> 0 /\ forall i j, i < D -> j < D -> nth (i * D + j)%nat v 0 = ph * me h i j) ->
  tm_eigs C A l0 r0 = Ok (eta, l, r) ->
  hermitian l /\ hermitian r \/ antihermitian l /\ antihermitian r.
Proof.
  intros HA Harn H. pose proof HA as [D1 D2]. unfold tm_eigs in H. rewrite D1, D2 in H.
  apply bind_ok in H. destruct H as (l0' & _ & H). apply bind_ok in H. destruct H as (r0' & _ & H).
  apply bind_ok in H. destruct H as ([er vr] & Ar & H). apply bind_ok in H. destruct H as ([el vl] & Al & H). cbn [fst snd] in H.
  assert (Hr : exists h ph, hermitian h /\ mr h = D /\ ph * sconj ph = 1 /\
     me h 0%nat 0%nat <> 0 /\ forall i j, i < D -> j < D -> nth (i * D + j)%nat vr 0 = ph * me h i j).
  { unfold arnoldi in Ar. rewrite Nat.eqb_refl in Ar. cbn [negb] in Ar. destruct (Nat.leb _ 2); [discriminate|]. apply lib_ok in Ar. eapply Harn; [exact Ar|reflexivity]. }
  assert (Hl : exists h ph, hermitian h /\ mr h = D /\ ph * sconj ph = 1 /\
     me h 0%nat 0%nat <> 0 /\ forall i j, i < D -> j < D -> nth (i * D + j)%nat vl 0 = ph * me h i j).
  { unfold arnoldi in Al. rewrite Nat.eqb_refl in Al. cbn [negb] in Al. destruct (Nat.leb _ 2); [discriminate|]. apply lib_ok in Al. eapply Harn; [exact Al|reflexivity]. }
  apply (arnoldi_ok nonneg C HC) in Ar. destruct Ar as (_ & Lr & _). apply (arnoldi_ok nonneg C HC) in Al. destruct Al as (_ & Ll & _).
  apply bind_ok in H. destruct H as (r1 & R1 & H). apply bind_ok in H. destruct H as (l1 & L1 & H).
  rewrite reshape2_ok in R1 by exact Lr. rewrite reshape2_ok in L1 by exact Ll. injection R1 as <-. injection L1 as <-.
  apply bind_ok in H. destruct H as (x & _ & H). apply bind_ok in H. destruct H as (r2 & R2 & H).
  apply bind_ok in H. destruct H as (y & _ & H). apply bind_ok in H. destruct H as (l2 & L2 & H).
  apply bind_ok in H. destruct H as (lr & LR & H). apply bind_ok in H. destruct H as (q & Q & H). apply bind_ok in H. destruct H as (c & Ec & H).
  injection H as <- <- <-.
  destruct Hr as (h & ph & Hh & Hd & Hp & H0 & HM).
  assert (Hr2 : hermitian r2) by (apply (rotated_hermitian D (unvec D vr) r2 h x ph R2); auto).
  destruct Hl as (h' & ph' & Hh' & Hd' & Hp' & H0' & HM').
  assert (Hl2 : hermitian l2) by (apply (rotated_hermitian D (unvec D vl) l2 h' y ph' L2); auto).
  destruct (rotated_ok nonneg C HC _ _ _ R2) as (_ & _ & R2r & R2c & _). destruct (rotated_ok nonneg C HC _ _ _ L2) as (_ & _ & L2r & L2c & _).
  cbn [unvec mr mc] in R2r, R2c, L2r, L2c.
  unfold mdot in LR. rewrite L2c, R2r, Nat.eqb_refl in LR. injection LR as <-.
  apply (root_ok nonneg C HC) in Q. apply (quot_ok nonneg C HC) in Ec. unfold mtr_ in Q. cbn [mr mc me] in Q. rewrite L2r, R2c, Nat.min_id in Q.
  destruct Hr2 as [_ Hr2], Hl2 as [_ Hl2]. rewrite R2r in Hr2. rewrite L2r in Hl2.
  assert (Hq : sconj (q * q) = q * q).
  { rewrite Q. rewrite sum_conj.
    transitivity (sum D (fun i => sum D (fun k => sconj (me l2 i k) * sconj (me r2 k i)))).
    - apply sum_ext; intros i _. rewrite sum_conj. apply sum_ext; intros k _. apply conj_mul.
    - rewrite sum_swap. apply sum_ext; intros i Hi. apply sum_ext; intros k Hk. rewrite <- Hl2, <- Hr2 by assumption. reflexivity. }
  assert (Hcc : sconj c * sconj c = c * c).
  { assert (E1 : c * c * (q * q) = 1) by (transitivity ((c * q) * (c * q)); [ring|rewrite Ec; ring]).
    assert (E2 : sconj c * sconj c * (q * q) = 1) by (rewrite <- Hq, <- !conj_mul, E1; apply conj_1).
    transitivity (sconj c * sconj c * (c * c * (q * q))); [rewrite E1; ring|]. transitivity (c * c * (sconj c * sconj c * (q * q))); [ring|rewrite E2; ring]. }
  assert (Hz : (sconj c - c) * (sconj c + c) = 0) by (transitivity (sconj c * sconj c - c * c); [ring|rewrite Hcc; ring]).
  destruct (Hint _ _ Hz) as [E|E].
  - left. assert (Hc : sconj c = c) by (transitivity (sconj c - c + c); [ring|rewrite E; ring]).
    split; (split; [cbn [mscal mr mc]; congruence|]); cbn [mscal mr mc me]; rewrite ?L2r, ?R2r; intros i j Hi Hj; rewrite conj_mul, Hc.
    + rewrite Hl2 by assumption. reflexivity.
    + rewrite Hr2 by assumption. reflexivity.
  - right. assert (Hc : sconj c = - c) by (transitivity (sconj c + c - c); [ring|rewrite E; ring]).
    split; (split; [cbn [mscal mr mc]; congruence|]); cbn [mscal mr mc me]; rewrite ?L2r, ?R2r; intros i j Hi Hj; rewrite conj_mul, Hc.
    + rewrite Hl2 by assumption. ring.
    + rewrite Hr2 by assumption. ring.
Qed.
End H.
