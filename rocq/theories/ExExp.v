(** A matrix exponential over the complex numbers that meets the contract: the entrywise
    exponential of diagonal matrices.  Only examples depend on this file. *)
From Coq Require Import Reals Lra ZArith.
From Verif Require Import SpecCanon Alg ModelMPS SpecMPS ModelNcon ModelEk ModelTensor ModelDecomp SpecDecomp ModelSpin SpecSpin ModelLie SpecLie ModelExp SpecExp ExReal.
Local Open Scope nat_scope.

Definition cexp (z : Cx) : Cx := (exp (fst z) * cos (snd z), exp (fst z) * sin (snd z))%R.
Lemma cexp_add z w : cexp (sadd z w) = smul (cexp z) (cexp w).
Proof. apply cx_eq; cbn; rewrite exp_plus; [rewrite cos_plus|rewrite sin_plus]; ring. Qed.
Lemma cexp_0 : cexp s0 = s1.
Proof. apply cx_eq; cbn; rewrite exp_0; [rewrite cos_0|rewrite sin_0]; ring. Qed.
Lemma cexp_conj z : cexp (sconj z) = sconj (cexp z).
Proof. apply cx_eq; cbn; [rewrite cos_neg|rewrite sin_neg]; ring. Qed.

Definition cdiag (A : mat Cx) : bool :=
  Nat.eqb (mr A) (mc A) && forallb (fun i => forallb (fun j => Nat.eqb i j || Ceqb (me A i j) s0) (seq 0 (mc A))) (seq 0 (mr A)).
Lemma cdiag_iff A : cdiag A = true <-> mr A = mc A /\ forall i j, i < mr A -> j < mc A -> i <> j -> me A i j = s0.
Proof.
  unfold cdiag. rewrite andb_true_iff, Nat.eqb_eq, forallb_forall. split; intros [H1 H]; (split; [exact H1|]).
  - intros i j Hi Hj Hne. specialize (H i). rewrite forallb_forall in H. assert (E := H ltac:(apply in_seq; lia) j ltac:(apply in_seq; lia)).
    apply orb_true_iff in E as [E|E]; [apply Nat.eqb_eq in E; contradiction|now apply Ceqb_eq].
  - intros i Hi. apply forallb_forall. intros j Hj. apply in_seq in Hi, Hj. destruct (Nat.eqb_spec i j); [reflexivity|]. apply Ceqb_eq. apply H; lia.
Qed.
Definition Cexpm (A : mat Cx) : option (mat Cx) :=
  if cdiag A then Some (mkMat (mr A) (mr A) (fun i j => if Nat.eqb i j then cexp (me A i i) else s0)) else None.
Lemma Cexpm_diag A : mr A = mc A -> (forall i j, i < mr A -> j < mc A -> i <> j -> me A i j = s0) ->
  Cexpm A = Some (mkMat (mr A) (mr A) (fun i j => if Nat.eqb i j then cexp (me A i i) else s0)).
Proof. intros H1 H2. unfold Cexpm. now rewrite (proj2 (cdiag_iff A) (conj H1 H2)). Qed.
Lemma Cexpm_inv A X : Cexpm A = Some X -> mr A = mc A /\ (forall i j, i < mr A -> j < mc A -> i <> j -> me A i j = s0) /\
  X = mkMat (mr A) (mr A) (fun i j => if Nat.eqb i j then cexp (me A i i) else s0).
Proof. unfold Cexpm. destruct (cdiag A) eqn:E; [|discriminate]. intros H. injection H as <-. apply cdiag_iff in E as [E1 E2]. auto. Qed.

Section Ok.
Add Ring Rx : (s_th Cx).
Local Open Scope sr_scope.

Lemma Cintegral : @integral Cx.
Proof.
  intros [a b] [c d] Hxy. destruct (Req_dec (a * a + b * b) 0) as [K|Hn]; [left; destruct (Rplus_sqr_eq_0 a b K) as [-> ->]; reflexivity|right].
  assert (h1 := f_equal fst Hxy). assert (h2 := f_equal snd Hxy). cbn in h1, h2. apply cx_eq; cbn.
  - apply (Rmult_eq_reg_l (a * a + b * b)%R); [|exact Hn]. transitivity (a * (a * c - b * d) + b * (a * d + b * c))%R; [ring|]. rewrite h1, h2. ring.
  - apply (Rmult_eq_reg_l (a * a + b * b)%R); [|exact Hn]. transitivity (a * (a * d + b * c) - b * (a * c - b * d))%R; [ring|]. rewrite h1, h2. ring.
Qed.

Lemma Cexpm_ok : expm_ok Cexpm.
Proof.
  constructor.
  - intros A A' X (M1 & M2 & M3) E. apply Cexpm_inv in E as (E1 & E2 & ->). eexists. split; [apply Cexpm_diag|].
    + congruence.
    + intros i j Hi Hj Hne. rewrite <- M3 by congruence. apply E2; congruence.
    + split; [exact M1|]. split; [exact M1|]. cbn [mr mc me]. intros i j Hi Hj. destruct (Nat.eqb i j); [|reflexivity]. rewrite M3 by congruence. reflexivity.
  - intros n A X [A1 A2] E. apply Cexpm_inv in E as (E1 & E2 & ->). split; exact A1.
  - intros A X E. apply Cexpm_inv in E as (E1 & E2 & ->). eexists. split; [apply Cexpm_diag|].
    + cbn. congruence.
    + cbn [madj mr mc me]. intros i j Hi Hj Hne. rewrite E2 by congruence. apply conj_0.
    + split; [cbn; congruence|]. split; [cbn; congruence|]. cbn [madj mr mc me]. intros i j Hi Hj. rewrite (Nat.eqb_sym j i). destruct (Nat.eqb_spec i j) as [->|]; [apply cexp_conj|symmetry; apply conj_0].
  - intros n A B X Y [A1 A2] [B1 B2] _ EA EB. apply Cexpm_inv in EA as (EA1 & EA2 & ->). apply Cexpm_inv in EB as (EB1 & EB2 & ->). eexists. split; [apply Cexpm_diag|].
    + cbn. congruence.
    + cbn [mplus mr mc me]. intros i j Hi Hj Hne. rewrite EA2, EB2 by congruence. ring.
    + split; [reflexivity|]. split; [cbn; congruence|]. cbn [mplus mmul mr mc me]. rewrite A1. intros i j Hi Hj.
      rewrite (sum_single n i).
      * rewrite Nat.eqb_refl. destruct (Nat.eqb_spec i j) as [->|]; [apply cexp_add|ring].
      * exact Hi.
      * intros k Hk Hne. destruct (Nat.eqb_spec i k); [congruence|]. ring.
  - intros n. eexists. split; [apply Cexpm_diag; intros; reflexivity|]. split; [reflexivity|]. split; [reflexivity|]. cbn [mone mr mc me]. intros i j Hi Hj. unfold dlt.
    destruct (Nat.eqb i j); [apply cexp_0|reflexivity].
  - intros n c. exists (cexp c). eexists. split; [apply Cexpm_diag; [reflexivity|]|].
    + cbn [mscale mone mr mc me]. intros i j Hi Hj Hne. rewrite dlt_neq by exact Hne. ring.
    + split; [reflexivity|]. split; [reflexivity|]. cbn [mscale mone mr mc me]. intros i j Hi Hj. rewrite dlt_eq. unfold dlt. destruct (Nat.eqb i j); [|ring].
      replace (c * 1) with c by ring. ring.
  - intros n m X A B P Q X1 X2 [A1 A2] [B1 B2] EA EB (_ & _ & H). apply Cexpm_inv in EA as (EA1 & EA2 & ->). apply Cexpm_inv in EB as (EB1 & EB2 & ->).
    split; [cbn; congruence|]. split; [cbn; congruence|]. cbn [mmul mr mc me] in *. rewrite X2, B1. intros i j Hi Hj. rewrite X2, B2, A2 in H. rewrite A1 in Hj.
    specialize (H i j Hi Hj). rewrite (sum_single m j) in H by (try exact Hj; intros k Hk Hne; rewrite EA2 by congruence; ring).
    rewrite (sum_single n i) in H by (try (rewrite <- X1; exact Hi); intros k Hk Hne; rewrite EB2 by congruence; ring).
    rewrite (sum_single m j) by first [exact Hj|intros k Hk Hne; destruct (Nat.eqb_spec k j); [congruence|]; ring].
    rewrite (sum_single n i) by first [rewrite <- X1; exact Hi|intros k Hk Hne; destruct (Nat.eqb_spec i k); [congruence|]; ring]. rewrite !Nat.eqb_refl.
    destruct (Ceqb (me X i j) 0) eqn:Ez; [apply Ceqb_eq in Ez; rewrite Ez; ring|].
    assert (Hne : me X i j <> 0) by (intros K; apply Ceqb_eq in K; congruence).
    assert (Eab : me A j j = me B i i).
    { assert (Z : me X i j * (me A j j - me B i i) = 0) by (transitivity (me X i j * me A j j - me B i i * me X i j); [ring|]; rewrite H; ring).
      destruct (Cintegral _ _ Z) as [K|K]; [contradiction|]. transitivity (me A j j - me B i i + me B i i); [ring|]. rewrite K. ring. }
    rewrite Eab. ring.
Qed.

(** exp(-i sigma_z) and a logarithm for it. *)
Definition Ad : mat Cx := mkMat 2 2 (fun i j => if Nat.eqb i j then (if Nat.eqb i 0 then cx 0 (-1) else cx 0 1) else 0).
Definition Ud : mat Cx := mkMat 2 2 (fun i j => if Nat.eqb i j then cexp (if Nat.eqb i 0 then cx 0 (-1) else cx 0 1) else 0).
Definition Clogm (U : mat Cx) : option (mat Cx) := if Cclose U Ud then Some Ad else None.
Lemma Ad_exp : Cexpm Ad = Some (mkMat 2 2 (fun i j => if Nat.eqb i j then cexp (me Ad i i) else 0)).
Proof. apply Cexpm_diag; [reflexivity|]. cbn [Ad me]. intros i j Hi Hj Hne. destruct (Nat.eqb_spec i j); [contradiction|reflexivity]. Qed.
Lemma Clogm_ok : logm_ok Cexpm Clogm.
Proof.
  intros n U A [U1 U2] E. unfold Clogm in E. destruct (Cclose U Ud) eqn:EU; [|discriminate]. injection E as <-. apply Cclose_ok in EU.
  assert (Hn : n = 2%nat) by (destruct EU as (E & _); cbn in E; congruence). subst n. split; [rewrite Hn; split; reflexivity|]. split.
  - eexists. split; [apply Ad_exp|]. destruct EU as (E1 & E2 & E3). split; [cbn; congruence|]. split; [cbn; congruence|]. cbn [mr mc me]. intros i j Hi Hj. rewrite E3 by (cbn in *; congruence).
    cbn [Ud me]. destruct (Nat.eqb_spec i j); [|reflexivity]. cbn [Ad me]. now rewrite Nat.eqb_refl.
  - intros _. split; [reflexivity|]. split; [reflexivity|]. cbn [madj mscale Ad mr mc me]. intros i j Hi Hj. rewrite (Nat.eqb_sym j i). destruct (Nat.eqb_spec i j) as [->|]; [|apply cx_eq; cbn; ring].
    destruct (Nat.eqb j 0); apply cx_eq; cbn; ring.
Qed.

(** u -> conj(u)/|u|. *)
Definition Cph (u : Cx) : Cx := if Ceqb u 0 then 1 else let r := sqrt (fst u * fst u + snd u * snd u) in (fst u / r, - snd u / r)%R.
Definition Cnonneg (x : Cx) : Prop := (0 <= fst x)%R /\ snd x = 0%R.
Lemma Cph_ok : phase_ok Cnonneg Cph.
Proof.
  split.
  - unfold Cph. now rewrite (proj2 (Ceqb_eq 0 0) eq_refl).
  - intros u. unfold Cph. destruct (Ceqb u 0) eqn:E.
    + apply Ceqb_eq in E as ->. split; [rewrite conj_1; ring|]. split; [split; cbn; lra|]. rewrite conj_mul, conj_1, conj_0. ring.
    + assert (Hu : u <> 0) by (intros K; apply Ceqb_eq in K; congruence). destruct u as [a b]. cbn [fst snd].
      assert (Hn : (a * a + b * b <> 0)%R). { intros K. apply Hu. assert (K' := Rplus_sqr_eq_0 a b K). destruct K' as [-> ->]. reflexivity. }
      assert (H0 : (0 < a * a + b * b)%R). { assert (H1 := Rle_0_sqr a). assert (H2 := Rle_0_sqr b). unfold Rsqr in *. lra. }
      set (r := sqrt (a * a + b * b)). assert (Hr : (0 < r)%R) by (apply sqrt_lt_R0; exact H0). assert (Hrr : (r * r = a * a + b * b)%R) by (apply sqrt_sqrt; lra).
      split; [|split; [split|]].
      * apply cx_eq; cbn.
        -- transitivity ((a * a + b * b) / (r * r))%R; [field; lra|]. rewrite Hrr. field. exact Hn.
        -- field. lra.
      * cbn. replace (a / r * a - - b / r * b)%R with ((a * a + b * b) / r)%R by (field; lra). apply Rlt_le, Rdiv_lt_0_compat; assumption.
      * cbn. field. lra.
      * apply cx_eq; cbn; field; lra.
Qed.
Lemma Cnonneg_ok : order_ok Cnonneg.
Proof.
  intros x y [x1 x2] [y1 y2] H. assert (h := f_equal fst H). cbn in h. rewrite x2, y2 in h. apply cx_eq; [|congruence].
  apply Rsqr_inj; [assumption|assumption|]. unfold Rsqr. lra.
Qed.

Definition Cfun : mfun Cx := mkMfun Cexpm Clogm Cph Cinv.

(** SU of (0, 0, 1). *)
Lemma SUd : exists V, SU Cconsts Cfun Cscale [0; 0; 1] 2 Adj = Ok V /\ mat_eq V Ud.
Proof.
  cbn [SU]. unfold exp_comb, lincomb. cbn [length su map seq concat app Nat.sub Nat.eqb]. cbn [bind].
  match goal with |- context [expm_ _ ?M] => set (M0 := M) end.
  assert (HM : mat_eq Ad M0).
  { assert (Hsc : Cscale 1 = 1). { unfold Cscale. apply cx_eq; [|reflexivity]. cbn [re_ fst]. change (INR 1) with 1%R. replace (2 / (1 + 1 * 1))%R with 1%R by field. apply sqrt_1. }
    split; [reflexivity|]. split; [reflexivity|]. intros i j Hi Hj. cbn [Ad mr mc] in Hi, Hj. unfold M0. cbn [mscal me combine map su_sym su_asym su_diag fst snd suml fold_right]. rewrite Hsc. cbn [Ad me].
    destruct i as [|[|i]]; [| |lia]; (destruct j as [|[|j]]; [| |lia]); apply cx_eq; cbn; ring. }
  assert (HA := Ad_exp). destruct (ex_ext _ Cexpm_ok _ _ _ HM HA) as (V & EV & HV). exists V. unfold expm_. cbn [f_exp Cfun]. rewrite EV. split; [reflexivity|].
  destruct HV as (V1 & V2 & V3). cbn [mr mc me] in V1, V2, V3. split; [symmetry; exact V1|]. split; [symmetry; exact V2|]. intros i j Hi Hj. rewrite <- V3 by congruence.
  cbn [Ud me]. destruct (Nat.eqb_spec i j); [|reflexivity]. cbn [Ad me]. now rewrite Nat.eqb_refl.
Qed.
End Ok.
