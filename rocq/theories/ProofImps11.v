(** Fixed points of the transfer map of two tensors. *)
From Verif Require Import Alg ModelMPS SpecMPS ModelOrth SpecOrth ModelCanon SpecCanon ModelNcon ModelEk ModelTensor ModelNp ModelDecomp SpecDecomp ProofDecomp3 ModelLie
  ModelStruct ProofStruct ModelImps SpecImps SpecSpin ProofImps ProofFm ProofImps3.

Section F.
Context {R : sring}.
Local Open Scope sr_scope.
Add Ring Rr : (s_th R).

Lemma nth_col (v : list R) (M : mat R) n : mr M = length v -> mc M = 1%nat -> n < length v -> nth n (flat2 M) 0 = me M n 0.
Proof. intros H1 H2 Hn. rewrite <- (flat2_nth M n 0) by lia. rewrite H2. f_equal. lia. Qed.

Variables (nonneg : R -> Prop) (C : icalls R).
Hypothesis HC : icalls_ok nonneg C.

Lemma rotate_shape (M : mat R) wM : rotate_to_hermitian (ic_dec C) M = Ok wM ->
  exists w, snd wM = mkMat (mr M) (mc M) (fun i j => me M i j * w) /\ w * w * me M 0 0 = sconj (me M 0 0).
Proof.
  unfold rotate_to_hermitian. destruct (_ && _)%bool; [|discriminate].
  destruct (de_quot _ _ _) as [q|] eqn:Eq; [|discriminate]. destruct (de_sqrt _ _) as [w|] eqn:Es; [|discriminate].
  intros H. injection H as <-. exists w. split; [reflexivity|].
  destruct HC as ((_ & _ & _ & _ & _ & _ & Hq & Hs) & _). apply Hq in Eq. apply Hs in Es. rewrite Es. exact Eq.
Qed.

(** the rotation makes a number real *)
Lemma rotation_real (x w : R) : @integral R -> (forall z, nonneg (z * sconj z)) -> ~ nonneg (- (1)) ->
  w * w * x = sconj x -> sconj (x * w) = x * w /\ (x <> 0 -> w * sconj w = 1).
Proof.
  intros Hint Hn H1 E. destruct HC as (_ & _ & _ & _ & _ & _ & _ & _ & Hr & _).
  assert (E2 : (w * sconj w) * (w * sconj w) * x = x).
  { transitivity (sconj w * sconj w * (w * w * x)); [ring|]. rewrite E. transitivity (sconj (w * w * x)); [rewrite !conj_mul; ring|]. rewrite E. apply conj_conj. }
  assert (E3 : x * ((w * sconj w - 1) * (w * sconj w + 1)) = 0) by (transitivity ((w * sconj w) * (w * sconj w) * x - x); [ring|rewrite E2; ring]).
  assert (Hone : x <> 0 -> w * sconj w = 1).
  { intros Hx. destruct (Hint _ _ E3) as [|E4]; [contradiction|]. destruct (Hint _ _ E4) as [E5|E5].
    - transitivity (w * sconj w - 1 + 1); [ring|rewrite E5; ring].
    - exfalso. apply H1. replace (- (1) : R) with (w * sconj w); [apply Hn|]. transitivity (w * sconj w + 1 - 1); [ring|rewrite E5; ring]. }
  split; [|exact Hone]. rewrite conj_mul, <- E.
  transitivity (w * sconj w * x * w); [ring|].
  destruct (Hint _ _ E3) as [E0|E4]; [rewrite E0; ring|]. destruct (Hint _ _ E4) as [E5|E5].
  - replace (w * sconj w) with (1 : R); [ring|]. transitivity (w * sconj w - 1 + 1); [rewrite E5; ring|ring].
  - exfalso. apply H1. replace (- (1) : R) with (w * sconj w); [apply Hn|]. transitivity (w * sconj w + 1 - 1); [ring|rewrite E5; ring].
Qed.

Lemma right_fixed_ok D (A B : site R) r0 eta r : square_site D A -> square_site D B -> phys A = phys B ->
  right_fixed_point C A B r0 = Ok (eta, r) ->
  2 <= D /\ mr r = D /\ mc r = D /\ (forall i j, i < D -> j < D -> tright A B (me r) i j = eta * me r i j) /\
  (@integral R -> (forall z, nonneg (z * sconj z)) -> ~ nonneg (- (1)) -> nonneg (me r 0 0)).
Proof.
  intros HA HB Hp H. pose proof HA as [D1 D2]. unfold right_fixed_point in H. rewrite D1, D2 in H.
  apply bind_ok in H. destruct H as (r0' & _ & H). apply bind_ok in H. destruct H as ([er v] & Ar & H). cbn [fst snd] in H.
  assert (HD : 2 <= D).
  { destruct (Nat.le_gt_cases 2 D); [assumption|]. exfalso. destruct (arnoldi_small C (D * D)%nat (D * D)%nat (map_mv A B) r0') as (e & E); [nia|nia|].
    rewrite E in Ar. discriminate. }
  apply (arnoldi_ok nonneg C HC) in Ar. destruct Ar as (_ & Lv & Ar).
  apply bind_ok in H. destruct H as (r1 & R1 & H). unfold reshape2 in R1. rewrite Nat.mul_1_r, Nat.eqb_refl in R1. injection R1 as <-.
  apply bind_ok in H. destruct H as (wr & W & H). apply rotate_shape in W. destruct W as (w & Ew & Ew0). rewrite Ew in H. cbn [mr mc me] in H, Ew0.
  apply bind_ok in H. destruct H as (v' & V & H). rewrite reshape1_ok in V by (cbn [mr mc]; lia). injection V as <-.
  set (M := mkMat (length v) 1 (fun i j => nth (i * 1 + j)%nat v 0 * w)) in *.
  assert (LM : length (flat2 M) = (D * D)%nat) by (rewrite flat2_len; cbn [M mr mc]; lia).
  apply bind_ok in H. destruct H as (r' & R' & H). rewrite reshape2_ok in R' by exact LM. injection R' as <-.
  apply bind_ok in H. destruct H as (x & X & H). apply bind_ok in H. destruct H as (s & Es & H). injection H as <- <-.
  assert (HM : forall i j, i < D -> j < D -> me (unvec D (flat2 M)) i j = w * me (unvec D v) i j).
  { intros i j Hi Hj. cbn [unvec me]. rewrite (nth_col v M) by (try reflexivity; rewrite Lv; nia). cbn [M me].
    replace ((i * D + j) * 1 + 0)%nat with (i * D + j)%nat by lia. ring. }
  split; [exact HD|]. split; [reflexivity|]. split; [reflexivity|]. split.
  - intros i j Hi Hj. cbn [mscal me].
    rewrite (tright_ext D A B _ (fun a b => s * w * me (unvec D v) a b)) by (auto; intros a b Ha Hb; rewrite HM by assumption; ring).
    rewrite tright_scale, HM by assumption.
    destruct (map_mv_ok D A B v HA HB Hp Lv) as (u & U1 & U2 & U3). rewrite Ar in U1. injection U1 as <-.
    rewrite <- U3 by assumption. rewrite nth_map_eta by (rewrite Lv; nia). cbn [unvec me]. ring.
  - intros Hint Hn H1. cbn [mscal me]. rewrite HM by lia. cbn [unvec me]. 
    destruct (rotation_real _ _ Hint Hn H1 Ew0) as [Hreal _]. cbn [Nat.mul Nat.add] in *.
    assert (Ex : x = nth 0 v 0 * w).
    { unfold getitem in X. assert (E0 : nth_error (flat2 M) 0 = Some (nth 0 (flat2 M) 0)) by (apply nth_error_nth'; rewrite LM; nia).
      rewrite E0 in X. injection X as <-. rewrite (nth_col v M) by (try reflexivity; rewrite Lv; nia). reflexivity. }
    rewrite <- Ex in Hreal. destruct HC as ((_ & _ & _ & (Hs0 & Hs) & _) & _). destruct (Hs x Hreal) as (_ & S2 & S3).
    apply (quot_ok nonneg C HC) in Es.
    replace (s * (w * nth 0 v 0)) with (de_sgn (ic_dec C) x * x); [exact S2|].
    replace (w * nth 0 v 0) with x by (rewrite Ex; ring).
    assert (Es2 : s * (de_sgn (ic_dec C) x * de_sgn (ic_dec C) x) * x = de_sgn (ic_dec C) x * x) by (transitivity (s * de_sgn (ic_dec C) x * de_sgn (ic_dec C) x * x); [ring|rewrite Es; ring]).
    rewrite <- Es2.
    assert (Hx : x <> 0).
    { intros Hx. rewrite Hx, Hs0 in Es. apply H1. replace (- (1) : R) with (0 * sconj 0 : R); [apply Hn|]. transitivity (0 : R); [ring|]. 
      transitivity (- (s * 0) : R); [ring|rewrite Es; ring]. }
    rewrite S3 by exact Hx. ring.
Qed.

Lemma tadj_scale (A B : site R) c x i j : tadj A B (fun a b => c * x a b) i j = c * tadj A B x i j.
Proof.
  unfold tadj. rewrite <- sum_mul_l. apply sum_ext; intros s _. rewrite <- sum_mul_l. apply sum_ext; intros a _.
  rewrite <- sum_mul_l. apply sum_ext; intros b _. ring.
Qed.
Lemma tadj_ext D (A B : site R) x y i j : square_site D A -> square_site D B ->
  (forall a b, a < D -> b < D -> x a b = y a b) -> tadj A B x i j = tadj A B y i j.
Proof.
  intros [H1 _] [H2 _] H. unfold tadj. rewrite H1, H2. apply sum_ext; intros s _. apply sum_ext; intros a Ha. apply sum_ext; intros b Hb.
  rewrite H by assumption. reflexivity.
Qed.


Lemma left_fixed_ok D (A B : site R) l0 e l : square_site D A -> square_site D B -> phys A = phys B ->
  left_fixed_point C A B l0 = Ok (e, l) ->
  2 <= D /\ mr l = D /\ mc l = D /\
  exists eta n, e = eta * n /\ (forall i j, i < D -> j < D -> tadj A B (me l) i j = eta * me l i j) /\
   ((forall z, nonneg (z * sconj z)) -> sum D (fun a => sum D (fun b => sconj (me l a b) * me l a b)) = 1) /\
   (@integral R -> (forall z, nonneg (z * sconj z)) -> ~ nonneg (- (1)) -> (forall x, de_sgn (ic_dec C) x = 0 \/ de_sgn (ic_dec C) x * sconj (de_sgn (ic_dec C) x) = 1) ->
    (forall n f v0 eta v, ic_arn C n f v0 = Some (eta, v) -> hdot v v = 1) -> n = 1).
Proof.
  intros HA HB Hp H. pose proof HA as [D1 D2]. unfold left_fixed_point in H. rewrite D1, D2 in H.
  apply bind_ok in H. destruct H as (l0' & _ & H). apply bind_ok in H. destruct H as ([el v] & Al & H). cbn [fst snd] in H.
  assert (HD : 2 <= D).
  { destruct (Nat.le_gt_cases 2 D); [assumption|]. exfalso. destruct (arnoldi_small C (D * D)%nat (D * D)%nat (map_mvr A B) l0') as (e' & E); [nia|nia|].
    rewrite E in Al. discriminate. }
  assert (Hunit : (forall n f v0 eta v, ic_arn C n f v0 = Some (eta, v) -> hdot v v = 1) -> hdot v v = 1).
  { intros Hu. unfold arnoldi in Al. rewrite Nat.eqb_refl in Al. cbn [negb] in Al. destruct (Nat.leb _ 2); [discriminate|]. apply lib_ok in Al. eapply Hu, Al. }
  apply (arnoldi_ok nonneg C HC) in Al. destruct Al as (_ & Lv & Al).
  apply bind_ok in H. destruct H as (l1 & L1 & H). unfold reshape2 in L1. rewrite Nat.mul_1_r, Nat.eqb_refl in L1. injection L1 as <-.
  apply bind_ok in H. destruct H as (y & Y & H).
  apply bind_ok in H. destruct H as (l2 & L2 & H).
  assert (W0 : exists w s, s * de_sgn (ic_dec C) y = 1 /\ w * w * nth 0 v 0 = sconj (nth 0 v 0) /\ l2 = mkMat (length v) 1 (fun i j => s * (nth (i * 1 + j)%nat v 0 * w))).
  { unfold rotated in L2. apply bind_ok in L2. destruct L2 as (wM & W & L2). apply bind_ok in L2. destruct L2 as (s & Es & L2). apply (quot_ok nonneg C HC) in Es.
    apply rotate_shape in W. destruct W as (w & Ew & Ew0). rewrite Ew in L2. injection L2 as <-. exists w, s. split; [exact Es|]. split; [exact Ew0|reflexivity]. }
  destruct W0 as (w & s & Es & Ew & E2). clear L2.
  apply bind_ok in H. destruct H as (v' & V & H). rewrite E2 in V. rewrite reshape1_ok in V by (cbn [mr mc]; lia). injection V as <-.
  set (M := mkMat (length v) 1 (fun i j => s * (nth (i * 1 + j)%nat v 0 * w))) in *.
  assert (LM : length (flat2 M) = (D * D)%nat) by (rewrite flat2_len; cbn [M mr mc]; lia).
  apply bind_ok in H. destruct H as (l' & L' & H). rewrite reshape2_ok in L' by exact LM. injection L' as <-.
  apply bind_ok in H. destruct H as (ll & LL & H). apply bind_ok in H. destruct H as (n & Hn & H). apply bind_ok in H. destruct H as (c & Ec & H). injection H as <- <-.
  unfold mdot in LL. cbn [mct unvec mr mc] in LL. rewrite Nat.eqb_refl in LL. injection LL as <-.
  pose proof Hn as Hn'. apply lib_ok in Hn'. apply (root_ok nonneg C HC) in Hn. apply (quot_ok nonneg C HC) in Ec.
  unfold mtr_ in Hn, Hn'. cbn [mr mc me mct unvec] in Hn, Hn'. rewrite Nat.min_id in Hn, Hn'.
  assert (HM : forall i j, i < D -> j < D -> nth (i * D + j)%nat (flat2 M) 0 = s * w * nth (i * D + j)%nat v 0).
  { intros i j Hi Hj. rewrite (nth_col v M) by (try reflexivity; rewrite Lv; nia). cbn [M me].
    replace ((i * D + j) * 1 + 0)%nat with (i * D + j)%nat by lia. ring. }
  assert (Hnn : n * n = sum D (fun a => sum D (fun b => sconj (me (unvec D (flat2 M)) a b) * me (unvec D (flat2 M)) a b))).
  { rewrite Hn, sum_swap. reflexivity. }
  assert (Hpos : (forall z, nonneg (z * sconj z)) -> nonneg n /\ sconj n = n).
  { intros Hz. destruct HC as (_ & _ & _ & _ & _ & _ & N0 & Na & Nr & _ & _ & Ns).
    assert (Hs : forall k f, (forall i, nonneg (f i)) -> nonneg (sum k f)) by (intros k f Hf; induction k; cbn [sum]; auto).
    assert (nonneg n); [|auto]. apply (Ns _ n Hn'). apply Hs. intros i. apply Hs. intros j. 
    replace (sconj (nth (j * D + i)%nat (flat2 M) 0) * nth (j * D + i)%nat (flat2 M) 0) with (nth (j * D + i)%nat (flat2 M) 0 * sconj (nth (j * D + i)%nat (flat2 M) 0)) by ring. apply Hz. }
  split; [exact HD|]. split; [reflexivity|]. split; [reflexivity|].
  exists el, n. split; [reflexivity|]. split; [|split].
  - intros i j Hi Hj. cbn [mscal me].
    rewrite (tadj_ext D A B _ (fun a b => c * (s * w) * me (unvec D v) a b)) by (auto; intros a b Ha Hb; cbn [unvec me]; rewrite HM by assumption; ring).
    rewrite tadj_scale. cbn [unvec me]. rewrite HM by assumption.
    destruct (map_mvr_ok D A B v HA HB Hp Lv) as (u & U1 & U2 & U3). rewrite Al in U1. injection U1 as <-. cbn [unvec me] in U3.
    rewrite <- U3 by assumption. rewrite nth_map_eta by (rewrite Lv; nia). ring.
  - intros Hz. destruct (Hpos Hz) as [_ Hr]. cbn [mscal me].
    assert (Hc : sconj c * n = 1) by (rewrite <- Hr, <- conj_mul, Ec; apply conj_1).
    transitivity (sconj c * c * (n * n)); [|transitivity (sconj c * n * (c * n)); [ring|rewrite Hc, Ec; ring]].
    rewrite Hnn. rewrite <- sum_mul_l. apply sum_ext; intros a _. rewrite <- sum_mul_l. apply sum_ext; intros b _. rewrite conj_mul. ring.
  - intros Hint Hz H1 Hs Hu. destruct (Hpos Hz) as [Hp' _]. apply Hunit in Hu.
    assert (E0 : y = nth 0 v 0).
    { unfold getitem in Y. assert (E0 : nth_error v 0 = Some (nth 0 v 0)) by (apply nth_error_nth'; nia). rewrite E0 in Y. injection Y as <-. reflexivity. }
    destruct HC as ((_ & _ & _ & (Hs0 & _) & _) & _).
    assert (Hy : y <> 0).
    { intros Hy. rewrite Hy, Hs0 in Es. apply H1. replace (- (1) : R) with (0 * sconj 0 : R); [apply Hz|]. transitivity (0 : R); [ring|]. 
      transitivity (- (s * 0) : R); [ring|rewrite Es; ring]. }
    rewrite <- E0 in Ew. destruct (rotation_real _ _ Hint Hz H1 Ew) as [_ Hw]. specialize (Hw Hy). specialize (Hs y).
    destruct Hs as [Hs|Hs]. { exfalso. apply H1. replace (- (1) : R) with (0 * sconj 0 : R); [apply Hz|]. transitivity (0 : R); [ring|].
      transitivity (- (s * 0) : R); [ring|]. rewrite <- Hs, Es. reflexivity. }
    assert (Hss : s * sconj s = 1).
    { transitivity (s * sconj s * (de_sgn (ic_dec C) y * sconj (de_sgn (ic_dec C) y))); [rewrite Hs; ring|].
      transitivity ((s * de_sgn (ic_dec C) y) * sconj (s * de_sgn (ic_dec C) y)); [rewrite conj_mul; ring|]. rewrite Es, conj_1. ring. }
    assert (E1 : n * n = 1).
    { rewrite Hnn. transitivity (sum D (fun a => sum D (fun b => sconj (nth (a * D + b)%nat v 0) * nth (a * D + b)%nat v 0))).
      - apply sum_ext; intros a Ha. apply sum_ext; intros b Hb. cbn [unvec me]. rewrite HM by assumption. rewrite !conj_mul.
        transitivity (s * sconj s * (w * sconj w) * (sconj (nth (a * D + b)%nat v 0) * nth (a * D + b)%nat v 0)); [ring|rewrite Hss, Hw; ring].
      - rewrite <- Hu. unfold hdot. rewrite Lv. symmetry. apply sum_mul. }
    assert (E3 : (n - 1) * (n + 1) = 0) by (transitivity (n * n - 1); [ring|rewrite E1; ring]).
    destruct (Hint _ _ E3) as [E|E]; [transitivity (n - 1 + 1); [ring|rewrite E; ring]|].
    exfalso. apply H1. replace (- (1) : R) with n; [exact Hp'|]. transitivity (n + 1 - 1); [ring|rewrite E; ring].
Qed.

(** is_right_eigenvector and is_left_eigenvector compare with lam times the image *)
Lemma is_right_ok D (A B : site R) close (r : mat R) eta lam : square_site D A -> square_site D B -> phys A = phys B -> mr r = D -> mc r = D ->
  (forall M N, mat_eq M N -> close M N = true) -> (forall i j, i < D -> j < D -> tright A B (me r) i j = eta * me r i j) -> lam * eta = 1 ->
  is_right_eigenvector close A B r lam = Ok true.
Proof.
  intros HA HB Hp R1 R2 Hc He Hl. pose proof HA as [D1 D2]. unfold is_right_eigenvector. rewrite D1, reshape1_ok by congruence. cbn [bind].
  assert (LM : length (flat2 r) = (D * D)%nat) by (rewrite flat2_len; congruence).
  unfold linop. rewrite LM, D2, Nat.eqb_refl. destruct (map_mv_ok D A B (flat2 r) HA HB Hp LM) as (u & U1 & U2 & U3). rewrite U1. cbn [bind].
  rewrite reshape2_ok by exact U2. cbn [bind]. f_equal. apply Hc. split; [exact R1|]. split; [exact R2|]. rewrite R1, R2. intros i j Hi Hj. cbn [mscal unvec me].
  rewrite U3 by assumption. rewrite (tright_ext D A B _ (me r)) by (auto; intros a b Ha Hb; apply unvec_flat2; assumption).
  rewrite He by assumption. transitivity (lam * eta * me r i j); [rewrite Hl; ring|ring].
Qed.
Lemma is_left_ok D (A B : site R) close (l : mat R) eta lam : square_site D A -> square_site D B -> phys A = phys B -> mr l = D -> mc l = D ->
  (forall M N, mat_eq M N -> close M N = true) -> (forall i j, i < D -> j < D -> tadj A B (me l) i j = eta * me l i j) -> lam * eta = 1 ->
  is_left_eigenvector close A B l lam = Ok true.
Proof.
  intros HA HB Hp R1 R2 Hc He Hl. pose proof HA as [D1 D2]. unfold is_left_eigenvector. rewrite D1, reshape1_ok by congruence. cbn [bind].
  assert (LM : length (flat2 l) = (D * D)%nat) by (rewrite flat2_len; congruence).
  unfold linop. rewrite LM, Nat.eqb_refl. destruct (map_mvr_ok D A B (flat2 l) HA HB Hp LM) as (u & U1 & U2 & U3). rewrite U1. cbn [bind].
  rewrite reshape2_ok by exact U2. cbn [bind]. f_equal. apply Hc. split; [exact R1|]. split; [exact R2|]. rewrite R1, R2. intros i j Hi Hj. cbn [mscal unvec me].
  rewrite U3 by assumption. rewrite (tadj_ext D A B _ (me l)) by (auto; intros a b Ha Hb; apply unvec_flat2; assumption).
  rewrite He by assumption. transitivity (lam * eta * me l i j); [rewrite Hl; ring|ring].
Qed.
End F.
