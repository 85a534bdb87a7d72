(** Duals and frames at a site; when the overlaps vanish. *)
From Verif Require Import Alg ModelMPS SpecMPS ProofMPS ModelOrth SpecOrth ProofOrth ProofOrth2 ModelNcon SpecNcon ModelNp ProofNp
  ModelEk SpecEk ProofEk4 ModelEnergy SpecEnergy ProofEnergy ModelTan SpecTan ProofTan ModelTdvp SpecTdvp ProofTdvp ProofTdvp2 ProofTdvp3 ProofTdvp4 ProofTdvp5 ProofTdvp6 ProofTdvp7 ProofTdvp8 ProofTdvp9
  ModelJac SpecJac ProofJac ProofJac2 ProofJac4 ProofJac5 ModelChrist SpecChrist ProofChrist.
Require Verif.SpecDecomp.

Section General.
Context {R : sring}.
Local Open Scope sr_scope.
Add Ring Rr : (s_th R).

Lemma overlap_conj d (l l' : list (site R)) : length l = length l' -> sconj (overlap d l l') = overlap d l' l.
Proof. intros E. unfold overlap. rewrite sumcfg_conj, E. apply sumcfg_ext; intros s _. rewrite conj_mul, conj_conj. ring. Qed.

Lemma nth_at (P Q : list (site R)) A : nth (length P) (P ++ A :: Q) no_site = A.
Proof. rewrite app_nth2, Nat.sub_diag by lia. reflexivity. Qed.
Lemma firstn_at (P Q : list (site R)) : firstn (length P) (P ++ Q) = P.
Proof. rewrite firstn_app, Nat.sub_diag, firstn_all. cbn. apply app_nil_r. Qed.

Lemma tangent_iff (P Q : list (site R)) A X : diag_on (dl A) (true_l P) ->
  (tangent_at (P ++ A :: Q) (length P) X <-> same_shape A X /\ forall b b', (b < dr A)%nat -> (b' < dr A)%nat ->
     sum (phys A) (fun s => sum (dl A) (fun a => sconj (ent A s a b') * true_l P a a * ent X s a b)) = 0).
Proof.
  intros Dg. unfold tangent_at. rewrite nth_at, firstn_at. split; intros [HS HG]; (split; [exact HS|]).
  - intros b b' Hb Hb'. apply (proj1 (gauge_diag P A (fun s a => ent X s a b) Dg) (HG b Hb) b' Hb').
  - intros b Hb. apply (gauge_diag P A (fun s a => ent X s a b) Dg). intros b' Hb'. apply HG; assumption.
Qed.

(** the dual direction *)
Definition kern (A : site R) (pr : tens R) (F : mat R) (s a b : nat) : site R :=
  mkSite (phys A) (dl A) (dr A) (fun u f g => te pr [u; f; s; a] * (me F b b * dlt b g)).
End General.

Section Site.
Context {R : sring}.
Local Open Scope sr_scope.
Add Ring Rr2 : (s_th R).
Variable K : tanlib R.
Variable S : setio.
Hypothesis HK : tanlib_ok K.
Hypothesis HS : setio_ok S.
Hypothesis Hchar : SpecDecomp.char0 R.
Variables (m : fmps R) (H ls rs : list (mat R)).
Hypothesis Hin : tdvp_input K m H ls rs.
Notation d := (fd m).

Lemma F_facts P Q A l r0 F pr V : site_facts K S m ls rs P Q A l r0 F pr V -> is_dmat F (dr A) (fun b => me F b b) /\
  forall b, (b < dr A)%nat -> true_r Q b b * me F b b = 1 /\ sconj (me F b b) = me F b b.
Proof.
  intros (_ & _ & _ & C5 & _ & _ & _ & _ & _ & _ & _ & (R1 & R2 & R3) & EF & HF & _).
  assert (H1 : forall b, (b < dr A)%nat -> true_r Q b b * me F b b = 1) by (intros b Hb; rewrite HF, dlt_eq by assumption; reflexivity).
  destruct HK as (_ & Ki & _). destruct (Ki r0 F) as (I1 & I2 & _); [congruence|exact EF|].
  split.
  - split; [congruence|]. split; [congruence|]. intros i j Hi Hj. transitivity (me F i i * (true_r Q i i * me F i j)).
    + transitivity ((true_r Q i i * me F i i) * me F i j); [rewrite H1 by assumption; ring|ring].
    + rewrite HF by assumption. ring.
  - intros b Hb. split; [apply H1; exact Hb|]. assert (E : true_r Q b b * sconj (me F b b) = 1) by (rewrite <- (true_r_real Q b), <- conj_mul, H1 by assumption; apply conj_1).
    transitivity (sconj (me F b b) * (true_r Q b b * me F b b)); [rewrite H1 by assumption; ring|]. transitivity ((true_r Q b b * sconj (me F b b)) * me F b b); [ring|]. rewrite E. ring.
Qed.

Lemma all_dims' P Q : fdata m = P ++ Q -> dims (P ++ Q) = repeat d (length (P ++ Q)).
Proof. intros <-. apply dims_repeat. apply (Hun K m H ls rs Hin). Qed.
Lemma dims_here P Q A X : fdata m = P ++ A :: Q -> same_shape A X -> dims (P ++ X :: Q) = repeat d (length (P ++ X :: Q)).
Proof.
  intros E HX. assert (HL' : like (P ++ A :: Q) (P ++ X :: Q)) by (apply like_app; [apply like_refl|constructor; [exact HX|apply like_refl]]).
  rewrite (like_dims _ _ HL'), (like_len _ _ HL'). apply (all_dims' P (A :: Q) E).
Qed.

Lemma kern_tangent P Q A l r0 F pr V s a b : fdata m = P ++ A :: Q -> site_facts K S m ls rs P Q A l r0 F pr V -> (a < dl A)%nat -> tangent_at (fdata m) (length P) (kern A pr F s a b).
Proof.
  intros E HF Ha. pose proof HF as (_ & _ & C4 & _ & _ & _ & PA & _ & _ & _ & _ & _ & _ & _ & _ & _ & _ & Hcg & _). rewrite E. apply tangent_iff; [exact C4|]. split; [repeat split|].
  intros g b' Hg Hb'. transitivity (sum d (fun s' => sum (dl A) (fun a' => sconj (ent A s' a' b') * true_l P a' a' * te pr [s'; a'; s; a])) * (me F b b * dlt b g)).
  - rewrite PA, <- sum_mul_r. apply sum_ext; intros s' _. rewrite <- sum_mul_r. apply sum_ext; intros a' _. cbn [kern ent]. ring.
  - rewrite Hcg by assumption. ring.
Qed.

Lemma kern_dual P Q A l r0 F pr V : fdata m = P ++ A :: Q -> site_facts K S m ls rs P Q A l r0 F pr V -> dual_basis d (fdata m) (length P) (kern A pr F).
Proof.
  intros E HF s a b HI. rewrite E, nth_at in HI. destruct HI as (Hs & Ha & Hb). split; [apply (kern_tangent P Q A l r0 F pr V); assumption|].
  intros X HX. pose proof (F_facts P Q A l r0 F pr V HF) as [_ HF1]. pose proof HF as (C1 & C3 & C4 & C5 & _ & _ & PA & _ & _ & _ & _ & _ & _ & _ & _ & _ & Hsa & _ & Hid & _).
  rewrite E in HX |- *. pose proof (proj1 (tangent_iff P Q A X C4) HX) as [HX1 _]. rewrite !with_site_at.
  rewrite (overlap_here d P Q A (kern A pr F s a b) X); [|assumption|assumption|assumption|assumption|repeat split|assumption|apply (dims_here P Q A _ E); repeat split].
  transitivity (sum d (fun t => sum (dl A) (fun c => te pr [s; a; t; c] * true_l P c c * ent X t c b))).
  - rewrite PA. apply sum_ext; intros t _. apply sum_ext; intros c Hc. rewrite (sum_diag (dr A) b); [|exact Hb|].
    + cbn [kern ent]. rewrite dlt_eq. destruct (HF1 b Hb) as [G1 G2]. rewrite !conj_mul, conj_1, G2, <- Hsa by assumption.
      transitivity (te pr [s; a; t; c] * true_l P c c * ent X t c b * (true_r Q b b * me F b b)); [ring|]. rewrite G1. ring.
    + intros g Hg Hne. cbn [kern ent]. rewrite (dlt_neq b g) by auto. rewrite !conj_mul, conj_0. ring.
  - destruct HX as [_ HX]. rewrite nth_at, firstn_at in HX. apply (Hid (fun s a => ent X s a b) (HX b Hb)); [rewrite <- PA|]; assumption.
Qed.

Lemma dual_unique P Q A l r0 F pr V D : fdata m = P ++ A :: Q -> site_facts K S m ls rs P Q A l r0 F pr V -> dual_basis d (fdata m) (length P) D ->
  forall s a b u f g, in_shape A s a b -> in_shape A u f g -> ent (D s a b) u f g = ent (kern A pr F s a b) u f g.
Proof.
  intros E HF HD s a b u f g H1 H2. pose proof (kern_dual P Q A l r0 F pr V E HF) as HKn. pose proof (F_facts P Q A l r0 F pr V HF) as [_ HF1].
  assert (E1 : nth (length P) (fdata m) no_site = A) by (rewrite E; apply nth_at).
  destruct (HD s a b) as [T1 T2]; [rewrite E1; exact H1|]. destruct (HKn u f g) as [U1 U2]; [rewrite E1; exact H2|].
  rewrite <- (U2 (D s a b) T1). rewrite <- overlap_conj. 2: { rewrite E, !with_site_at, !app_length. reflexivity. }
  rewrite (T2 _ U1). cbn [kern ent]. destruct H1 as (Hs & Ha & Hb), H2 as (Hu & Hf & Hg). pose proof HF as (_ & _ & _ & _ & _ & _ & _ & _ & _ & _ & _ & _ & _ & _ & _ & _ & Hsa & _).
  rewrite !conj_mul, dlt_conj. destruct (HF1 g Hg) as [_ ->]. rewrite <- Hsa by assumption. destruct (Nat.eq_dec b g) as [->|N]; [reflexivity|]. rewrite (dlt_neq b g), (dlt_neq g b) by auto. ring.
Qed.

Lemma represent_entry P Q A l r0 F pr V B Z : fdata m = P ++ A :: Q -> site_facts K S m ls rs P Q A l r0 F pr V -> same_shape A B -> represents d (fdata m) (length P) B Z ->
  forall s a b, in_shape A s a b -> ent Z s a b = sum d (fun u => sum (dl A) (fun f => te pr [s; a; u; f] * (ent B u f b * me F b b))).
Proof.
  intros E HF (B1 & B2 & B3) [HZ1 HZ2] s a b HI. pose proof (F_facts P Q A l r0 F pr V HF) as [_ HF1]. pose proof HF as (_ & _ & _ & _ & _ & _ & PA & _ & _ & _ & _ & _ & _ & _ & _ & _ & Hsa & _).
  assert (E1 : nth (length P) (fdata m) no_site = A) by (rewrite E; apply nth_at).
  destruct (kern_dual P Q A l r0 F pr V E HF s a b) as [T1 T2]; [rewrite E1; exact HI|]. rewrite <- (T2 Z HZ1), (HZ2 _ T1), B1, B2, B3, PA. destruct HI as (Hs & Ha & Hb).
  apply sum_ext; intros u _. apply sum_ext; intros f Hf. rewrite (sum_diag (dr A) b); [|exact Hb|].
  - cbn [kern ent]. rewrite dlt_eq, !conj_mul, conj_1. destruct (HF1 b Hb) as [_ ->]. rewrite <- Hsa by assumption. ring.
  - intros g Hg Hne. cbn [kern ent]. rewrite (dlt_neq b g), !conj_mul, conj_0 by auto. ring.
Qed.

(** l X r represents X *)
Lemma lower_represents P Q A l r0 F pr V X B : fdata m = P ++ A :: Q -> site_facts K S m ls rs P Q A l r0 F pr V -> tangent_at (fdata m) (length P) X -> same_shape A B ->
  (forall s a b, in_shape A s a b -> ent B s a b = sum (dl A) (fun a' => sum (dr A) (fun b' => me l a a' * ent X s a' b' * me r0 b' b))) ->
  represents d (fdata m) (length P) B X.
Proof.
  intros E HF HX (B1 & B2 & B3) HB. split; [exact HX|]. intros Y HY. pose proof HF as (C1 & C3 & C4 & C5 & _ & _ & PA & _ & _ & (L1 & L2 & L3) & _ & (R1 & R2 & R3) & _). rewrite E in HX, HY |- *.
  pose proof (proj1 (tangent_iff P Q A X C4) HX) as [HX1 _]. pose proof (proj1 (tangent_iff P Q A Y C4) HY) as [HY1 _]. rewrite !with_site_at.
  rewrite (overlap_here d P Q A Y X) by (try assumption; apply (dims_here P Q A); assumption). rewrite B1, B2, B3.
  apply sum_ext; intros s Hs. apply sum_ext; intros a Ha. apply sum_ext; intros b Hb. rewrite HB by (repeat split; assumption).
  rewrite (sum_diag (dl A) a); [|exact Ha|].
  - rewrite (sum_diag (dr A) b); [rewrite L3, R3 by assumption; ring|exact Hb|]. intros b' Hb' Hne. rewrite R3, (C5 b' b) by auto. ring.
  - intros a' Ha' Hne. apply sum_zero; intros b' Hb'. rewrite L3, (C4 a a') by auto. ring.
Qed.

(** the roots and the null vectors *)
Definition cfacts (P Q : list (site R)) (A : site R) (l r0 : mat R) (pr : tens R) (V : site R) (C Ci E Ei : mat R) : Prop :=
  phys V = d /\ dl V = dl A /\ t_ch K l = Ok C /\ t_ch K r0 = Ok E /\
  root_pair (dl A) (fun a => true_l P a a) C Ci /\ root_pair (dr A) (fun b => true_r Q b b) E Ei /\
  (forall k y, (k < dr V)%nat -> (y < dr A)%nat -> sum d (fun t => sum (dl A) (fun c => sconj (ent A t c y) * me C c c * ent V t c k)) = 0) /\
  (forall x u f, (x < dr V)%nat -> (f < dl A)%nat -> sum d (fun s => sum (dl A) (fun a => me C a a * sconj (ent V s a x) * te pr [s; a; u; f])) = sconj (ent V u f x) * me Ci f f).

Lemma mat_eq_refl (M : mat R) : mat_eq M M.
Proof. repeat split. Qed.

Lemma cfacts_ok P Q A l r0 F pr V Ci Ei : fdata m = P ++ A :: Q -> site_facts K S m ls rs P Q A l r0 F pr V -> inv_root K l Ci -> inv_root K r0 Ei ->
  exists C E, cfacts P Q A l r0 pr V C Ci E Ei.
Proof.
  intros E HF (C & EC & HC) (Er & EE & HE).
  pose proof HF as (C1 & C3 & C4 & C5 & C6 & C7 & C9 & Hp & Nl & Hl & Nr & Hr & _ & _ & EP & _).
  assert (HA : nth_error (fdata m) (length P) = Some A) by (rewrite E, nth_error_app2, Nat.sub_diag by lia; reflexivity).
  pose proof Hin as (_ & _ & _ & _ & _ & _ & Hready & _). destruct (Hready _ A l r0 HA Nl Nr) as (HR & _).
  pose proof Hl as (L1 & L2 & L3).
  assert (Dl : diagonal l). { split; [congruence|]. rewrite L1. intros i j Hi Hj Hne. rewrite L3 by assumption. now apply C4. }
  assert (Rl : forall a, (a < dl A)%nat -> sconj (me l a a) = me l a a) by (intros a Ha; rewrite L3 by assumption; apply true_l_real).
  rewrite <- C9 in Hp.
  destruct (left_null_ok K S HK HS m (length P) ls A l HA Nl C9 (proj1 Hp) (proj1 (proj2 Hp)) L1 Dl Rl HR) as (pr' & V' & C' & Ci' & EP' & EC' & ECi' & HRt & HV & _ & Hpr).
  rewrite EP in EP'. injection EP' as <- <-. rewrite EC in EC'. injection EC' as <-. pose proof HV as (V1 & V2 & V3 & V4 & V5). rewrite C9 in *.
  pose proof (root_pair_ok K (dl A) (true_l P) l C C Ci HK Hl C4 (fun a _ => true_l_real P a) EC (mat_eq_refl C) HC) as RL.
  pose proof (root_pair_ok K (dr A) (true_r Q) r0 Er Er Ei HK Hr C5 (fun a _ => true_r_real Q a) EE (mat_eq_refl Er) HE) as RR.
  exists C, Er. split; [exact V1|]. split; [exact V2|]. split; [exact EC|]. split; [exact EE|]. split; [exact RL|]. split; [exact RR|].
  destruct HRt as (_ & _ & _ & _ & _ & HDia). rewrite L1 in HDia.
  split.
  - intros k y Hk Hy. rewrite <- (V3 y k Hy Hk). apply sum_ext; intros t _. apply sum_ext; intros c _. unfold left_form. ring.
  - intros x u f Hx Hf.
    assert (EI : me Ci' f f = me Ci f f).
    { destruct (HDia f Hf) as (G1 & _). destruct RL as (_ & _ & RL). destruct (RL f Hf) as (G2 & _). transitivity (me Ci' f f * (me C f f * me Ci f f)); [rewrite G2; ring|]. transitivity ((me C f f * me Ci' f f) * me Ci f f); [ring|]. rewrite G1. ring. }
    transitivity (sum d (fun s => sum (dl A) (fun a => sum (dr V) (fun k => sconj (ent V s a x) * ent V s a k * (me Ci f f * sconj (ent V u f k)))))).
    { apply sum_ext; intros s _. apply sum_ext; intros a Ha. rewrite Hpr, <- sum_mul_l by assumption. apply sum_ext; intros k _. rewrite EI. destruct (HDia a Ha) as (G1 & _).
      transitivity ((me C a a * me Ci' a a) * (sconj (ent V s a x) * ent V s a k * (me Ci f f * sconj (ent V u f k)))); [ring|]. rewrite G1. ring. }
    transitivity (sum (dr V) (fun k => sum d (fun s => sum (dl A) (fun a => sconj (ent V s a x) * ent V s a k)) * (me Ci f f * sconj (ent V u f k)))).
    { transitivity (sum d (fun s => sum (dr V) (fun k => sum (dl A) (fun a => sconj (ent V s a x) * ent V s a k) * (me Ci f f * sconj (ent V u f k))))).
      - apply sum_ext; intros s _. rewrite (sum_swap (dl A) (dr V)). apply sum_ext; intros k _. rewrite sum_mul_r. reflexivity.
      - rewrite (sum_swap d (dr V)). apply sum_ext; intros k _. rewrite sum_mul_r. reflexivity. }
    rewrite (sum_ext (dr V) _ (fun k => dlt x k * (me Ci f f * sconj (ent V u f k)))) by (intros k Hk; rewrite V4 by assumption; reflexivity).
    rewrite sum_dlt1 by exact Hx. ring.
Qed.

Lemma frame_tangent P Q A l r0 F pr V C Ci E Ei x y : fdata m = P ++ A :: Q -> site_facts K S m ls rs P Q A l r0 F pr V -> cfacts P Q A l r0 pr V C Ci E Ei -> (x < dr V)%nat ->
  tangent_at (fdata m) (length P) (tvec A V (fun a => me Ci a a) (fun b => me Ei b b) x y).
Proof.
  intros EE HF (_ & _ & _ & _ & (_ & _ & RL) & _ & HG & _) Hx. pose proof HF as (_ & _ & C4 & _ & _ & _ & PA & _). rewrite EE. apply tangent_iff; [exact C4|]. split; [repeat split|].
  intros b b' Hb Hb'. transitivity (sum d (fun t => sum (dl A) (fun c => sconj (ent A t c b') * me C c c * ent V t c x)) * (me Ei y y * dlt y b)); [|rewrite HG by assumption; ring].
  rewrite PA, <- sum_mul_r. apply sum_ext; intros t _. rewrite <- sum_mul_r. apply sum_ext; intros c Hc. cbn [tvec ent]. destruct (RL c Hc) as (G1 & G2 & _). rewrite <- G2.
  transitivity (sconj (ent A t c b') * (me C c c * me Ci c c) * me C c c * ent V t c x * (me Ei y y * dlt y b)); [ring|]. rewrite G1. ring.
Qed.

(** the overlaps that vanish *)
Lemma zero_lt i j k X Y Z : (i < j)%nat -> (j < length (fdata m))%nat -> (k < length (fdata m))%nat -> k <> i ->
  tangent_at (fdata m) i X -> tangent_at (fdata m) j Y -> tangent_at (fdata m) k Z -> overlap d (with_site (with_site (fdata m) i X) j Y) (with_site (fdata m) k Z) = 0.
Proof.
  intros Hij Hj Hk Hne HX HY HZ.
  destruct (split_pair (fdata m) i j Hij Hj) as (P & A & mid & B & Q & E & LP & EJ). subst j i.
  destruct (with_two P mid Q A B X Y) as [W1 _].
  destruct (facts K S HK HS Hchar m H ls rs Hin P (mid ++ B :: Q) A E) as (l & r0 & F & pr & V & HF). pose proof HF as (C1 & C3 & C4 & C5 & _ & _ & PA & _).
  assert (Ej : (length P + 1 + length mid)%nat = length (P ++ A :: mid)) by (rewrite app_length; cbn; lia).
  assert (E' : fdata m = (P ++ A :: mid) ++ B :: Q) by (rewrite E, <- app_assoc; reflexivity).
  destruct (facts K S HK HS Hchar m H ls rs Hin (P ++ A :: mid) Q B E') as (l2 & r2 & F2 & pr2 & V2 & HF2). pose proof HF2 as (_ & _ & C42 & _).
  pose proof HX as HX0. rewrite E in HX0. apply (tangent_iff P (mid ++ B :: Q) A X C4) in HX0 as [X1 X2].
  pose proof HY as HY0. rewrite Ej, E' in HY0. apply (tangent_iff (P ++ A :: mid) Q B Y C42) in HY0 as [Y1 _].
  destruct (Nat.lt_trichotomy k (length P)) as [Hlt|[Heq|Hgt]]; [|lia|].
  - destruct (split_nth P k Hlt) as (P1 & D & P2 & EP & LP1). subst k.
    assert (ED : fdata m = P1 ++ D :: P2 ++ A :: mid ++ B :: Q) by (rewrite E, EP, <- app_assoc; reflexivity).
    destruct (facts K S HK HS Hchar m H ls rs Hin P1 (P2 ++ A :: mid ++ B :: Q) D ED) as (l3 & r3 & F3 & pr3 & V3 & HF3). pose proof HF3 as (D1 & D3 & D4 & _ & _ & _ & PD & _).
    rewrite ED in HZ. apply (tangent_iff P1 _ D Z D4) in HZ as [Z1 Z2].
    rewrite E at 1. rewrite W1. rewrite ED, with_site_at, EP, <- app_assoc. cbn [app].
    assert (HLq : like (P2 ++ A :: mid ++ B :: Q) (P2 ++ X :: mid ++ Y :: Q)) by (apply like_app; [apply like_refl|]; constructor; [exact X1|]; apply like_app; [apply like_refl|]; constructor; [exact Y1|apply like_refl]).
    apply (overlap_zero d P1 _ _ D D Z); try assumption.
    + eapply like_chain; eassumption.
    + symmetry. apply (like_len _ _ HLq).
    + repeat split.
    + assert (HLa : like (fdata m) (P1 ++ D :: P2 ++ X :: mid ++ Y :: Q)) by (rewrite ED; apply like_app; [apply like_refl|]; constructor; [repeat split|exact HLq]).
      rewrite (like_dims _ _ HLa), (like_len _ _ HLa). apply dims_repeat. apply (Hun K m H ls rs Hin).
    + intros x y Hx Hy. apply Z2; assumption.
  - assert (EZ : exists Q', with_site (fdata m) k Z = P ++ A :: Q' /\ like (mid ++ B :: Q) Q').
    { destruct (split_nth (fdata m) k Hk) as (P1 & D & P2 & EP & LP1). subst k. rewrite EP, with_site_at. rewrite E in EP.
      destruct (cuts m (fdata m) eq_refl _ _ _ _ _ _ EP Hgt) as (m1 & EP1 & EQ). exists (m1 ++ Z :: P2). rewrite EP1, <- app_assoc. split; [reflexivity|]. rewrite EQ. apply like_app; [apply like_refl|]. constructor; [|apply like_refl].
      destruct HZ as [HZ _]. rewrite E, EP, nth_at in HZ. exact HZ. }
    destruct EZ as (Q' & -> & HLz). rewrite E, W1.
    assert (HLq : like (mid ++ B :: Q) (mid ++ Y :: Q)) by (apply like_app; [apply like_refl|]; constructor; [exact Y1|apply like_refl]).
    apply (overlap_zero d P _ _ A X A); try assumption.
    + eapply like_chain; eassumption.
    + eapply like_chain; eassumption.
    + rewrite (like_len _ _ HLz), (like_len _ _ HLq). reflexivity.
    + repeat split.
    + assert (HLa : like (fdata m) (P ++ X :: mid ++ Y :: Q)) by (rewrite E; apply like_app; [apply like_refl|]; constructor; [exact X1|exact HLq]).
      rewrite (like_dims _ _ HLa), (like_len _ _ HLa). apply dims_repeat. apply (Hun K m H ls rs Hin).
    + intros x y Hx Hy. rewrite <- conj_0, <- (X2 x y Hx Hy), sum_conj. apply sum_ext; intros s _. rewrite sum_conj. apply sum_ext; intros c _. rewrite !conj_mul, conj_conj, true_l_real. ring.
Qed.
End Site.
