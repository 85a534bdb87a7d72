(** ed_OTOC is the squared norm of the commutator applied to the state. *)
From Coq Require Import ZArith.
From Verif Require Import Alg ModelMPS SpecMPS ProofMPS ProofMPS2 SpecOrth ModelNcon ModelEk SpecEk ProofEk3 ProofEk5 ModelTensor SpecTensor ModelDecomp ModelSpin SpecSpin ProofSpin
  ModelLie SpecLie ModelExp SpecExp ProofExp ProofExp2 SpecFull ModelState ModelTraj ModelEd SpecEd ProofEd ProofEd2 ModelOtoc SpecOtoc.
Local Open Scope nat_scope.

Section Proofs.
Context {R : sring}.
Local Open Scope sr_scope.
Add Ring Rr : (s_th R).

Lemma mprod_mmul (A B : mat R) : mc A = mr B -> mprod A B = Ok (mmul A B).
Proof. intros H. unfold mprod. rewrite H, Nat.eqb_refl. unfold mmul. rewrite H. reflexivity. Qed.

Lemma comm_mcomm N (A B : mat R) : sq N A -> sq N B -> comm A B = Ok (mcomm A B).
Proof.
  intros [A1 A2] [B1 B2]. unfold comm. rewrite !mprod_mmul by congruence. cbn [bind]. unfold msub. cbn [mmul mr mc]. rewrite A1, A2, B1, B2, Nat.eqb_refl. cbn [andb].
  unfold mcomm, mminus. cbn [mmul mr mc me]. rewrite A1, B2. reflexivity.
Qed.

Lemma sq_mmul N (A B : mat R) : sq N A -> sq N B -> sq N (mmul A B).
Proof. intros [A1 A2] [B1 B2]. split; assumption. Qed.
Lemma sq_adj N (A : mat R) : sq N A -> sq N (madj A).
Proof. intros [A1 A2]. split; assumption. Qed.
Lemma sq_mcomm N (A B : mat R) : sq N A -> sq N B -> sq N (mcomm A B).
Proof. intros HA HB. split; [apply HA|apply HB]. Qed.

Lemma mcomm_ext N (A A' B B' : mat R) : sq N A -> sq N A' -> sq N B -> sq N B' -> mat_eq A A' -> mat_eq B B' -> mat_eq (mcomm A B) (mcomm A' B').
Proof.
  intros [A1 A2] [A1' A2'] [B1 B2] [B1' B2'] (_ & _ & HA) (_ & _ & HB). split; [cbn; congruence|]. split; [cbn; congruence|].
  intros i j Hi Hj. cbn [mcomm mminus mmul mr mc me] in *. rewrite A2, A2', B2, B2'. f_equal; apply sum_ext; intros k Hk.
  - rewrite HA, HB by lia. reflexivity.
  - rewrite HA, HB by lia. reflexivity.
Qed.

(** the commutator of Hermitian matrices is anti-Hermitian *)
Lemma mcomm_anti N (A B : mat R) : sq N A -> sq N B -> self_adjoint A -> self_adjoint B ->
  forall i j, (i < N)%nat -> (j < N)%nat -> me (mcomm A B) i j = - sconj (me (mcomm A B) j i).
Proof.
  intros [A1 A2] [B1 B2] (_ & _ & HA) (_ & _ & HB) i j Hi Hj. cbn [mcomm mminus mmul mr mc me madj] in *. rewrite A2, B2 in *.
  assert (E : forall x y : R, sconj (x - y) = sconj x - sconj y).
  { intros x y. replace (x - y) with (x + - y) by ring. rewrite conj_add, conj_opp. ring. }
  rewrite E, !sum_conj.
  rewrite (sum_ext N (fun k => sconj (me A j k * me B k i)) (fun k => me B i k * me A k j)).
  2: { intros k Hk. rewrite conj_mul, (HA k j) by lia. rewrite (HB i k) by lia. ring. }
  rewrite (sum_ext N (fun k => sconj (me B j k * me A k i)) (fun k => me A i k * me B k j)).
  2: { intros k Hk. rewrite conj_mul, (HB k j) by lia. rewrite (HA i k) by lia. ring. }
  ring.
Qed.

Lemma heisenberg_herm N (U W : mat R) : sq N U -> sq N W -> self_adjoint W -> self_adjoint (heisenberg U W).
Proof.
  intros [U1 U2] [W1 W2] (_ & _ & HW). split; [cbn; reflexivity|]. split; [reflexivity|]. intros i j Hi Hj. cbn [heisenberg mmul madj mr mc me] in *.
  rewrite sum_conj. rewrite U1, W2 in *.
  rewrite (sum_ext N _ (fun k => sum N (fun l => sconj (me U l i) * (me W l k * me U k j)))).
  2: { intros k Hk. rewrite conj_mul, conj_conj, sum_conj, <- sum_mul_l. apply sum_ext; intros l Hl. rewrite conj_mul, (HW l k) by lia. ring. }
  rewrite sum_swap. apply sum_ext; intros l Hl. rewrite <- sum_mul_l. reflexivity.
Qed.

Lemma vecmat_ok N (v : list R) (A : mat R) : sq N A -> length v = N ->
  exists w, vecmat v A = Ok w /\ length w = N /\ forall j, (j < N)%nat -> nth j w 0 = sum N (fun i => nth i v 0 * me A i j).
Proof.
  intros [A1 A2] Hv. unfold vecmat. rewrite A1, Hv, Nat.eqb_refl. eexists. split; [reflexivity|].
  split; [rewrite map_length, seq_length; exact A2|]. intros j Hj. rewrite nth_map_seq by lia. reflexivity.
Qed.

Lemma double_comm N (K : mat R) (v : nat -> R) : (forall i j, (i < N)%nat -> (j < N)%nat -> me K i j = - sconj (me K j i)) ->
  sum N (fun k => sum N (fun j => sum N (fun i => sconj (v i) * me K i j) * me K j k) * v k) =
  - sum N (fun j => sum N (fun k => me K j k * v k) * sconj (sum N (fun k => me K j k * v k))).
Proof.
  intros HK. set (g := fun j => sum N (fun k => me K j k * v k)).
  transitivity (sum N (fun k => sum N (fun j => - sconj (g j) * me K j k * v k))).
  { apply sum_ext; intros k Hk. rewrite <- sum_mul_r. apply sum_ext; intros j Hj. f_equal. f_equal. unfold g. rewrite sum_conj.
    transitivity (sum N (fun i => - (1) * sconj (me K j i * v i))).
    - apply sum_ext; intros i Hi. rewrite (HK i j) by assumption. rewrite conj_mul. ring.
    - rewrite sum_mul_l. ring. }
  rewrite sum_swap. transitivity (sum N (fun j => - (1) * (g j * sconj (g j)))).
  - apply sum_ext; intros j Hj. unfold g at 2. rewrite <- sum_mul_r, <- sum_mul_l. apply sum_ext; intros k Hk. ring.
  - rewrite sum_mul_l. change (- (1) * sum N (fun j => g j * sconj (g j)) = - sum N (fun j => g j * sconj (g j))). ring.
Qed.

Lemma norm_act_nth d L (K : mat R) (f : list nat -> R) : (0 < d)%nat -> sq (Nat.pow d L) K ->
  norm_act d L K f = sum (Nat.pow d L) (fun j => sum (Nat.pow d L) (fun k => me K j k * nth k (map f (configs d L)) 0) *
    sconj (sum (Nat.pow d L) (fun k => me K j k * nth k (map f (configs d L)) 0))).
Proof.
  intros Hd HK. unfold norm_act. symmetry. rewrite (sum_pow d L) by exact Hd. apply sumcfg_ext; intros s Hs.
  assert (E : sum (Nat.pow d L) (fun k => me K (rowmajor d s) k * nth k (map f (configs d L)) 0) = act d L K f s).
  { rewrite (sum_pow d L) by exact Hd. unfold act. apply sumcfg_ext; intros t Ht. rewrite amp_nth by exact Ht. reflexivity. }
  now rewrite E.
Qed.

Lemma norm_act_real d L (K : mat R) (f : list nat -> R) : sconj (norm_act d L K f) = norm_act d L K f.
Proof. unfold norm_act. rewrite sumcfg_conj. apply sumcfg_ext; intros s _. rewrite conj_mul, conj_conj. ring. Qed.

Lemma norm_act_ext d L (K K' : mat R) (f : list nat -> R) : (0 < d)%nat -> sq (Nat.pow d L) K -> mat_eq K K' -> norm_act d L K f = norm_act d L K' f.
Proof.
  intros Hd [K1 K2] (_ & _ & H). unfold norm_act. apply sumcfg_ext; intros s Hs.
  assert (E : act d L K f s = act d L K' f s).
  { unfold act. apply sumcfg_ext; intros t Ht. f_equal. unfold block_op. apply H; rewrite ?K1, ?K2; apply row_lt; assumption. }
  now rewrite E.
Qed.

Lemma otoc_at_ok C F (m : fmps R) (M V W : mat R) t : let d := fd m in let L := fL m in let N := Nat.pow d L in
  expm_ok (f_exp F) -> (0 < d)%nat -> sq N M -> sq N V -> sq N W -> self_adjoint V -> self_adjoint W ->
  match otoc_at C F (map (psi m) (configs d L)) M V W t with
  | Err e => e = ValueError /\ f_exp F (mscale (- (c_im C * t)) M) = None
  | Ok r => exists U, f_exp F (mscale (- (c_im C * t)) M) = Some U /\ r = norm_act d L (mcomm (heisenberg U W) V) (psi m)
  end.
Proof.
  intros d L N HE Hd HM HV HW SV SW. unfold otoc_at, expm_.
  assert (HG : mat_eq (mscal t (mscal (- c_im C) M)) (mscale (- (c_im C * t)) M)).
  { split; [reflexivity|]. split; [reflexivity|]. intros i j _ _. cbn [mscal mscale me]. ring. }
  destruct (f_exp F (mscal t (mscal (- c_im C) M))) as [U|] eqn:EU; cbn [bind].
  2: { split; [reflexivity|]. destruct (f_exp F (mscale (- (c_im C * t)) M)) as [X|] eqn:EX; [|reflexivity].
       destruct (ex_ext _ HE _ _ _ (mat_eq_sym _ _ HG) EX) as (X' & EX' & _). congruence. }
  assert (HU : sq N U) by (apply (ex_shape _ HE N (mscal t (mscal (- c_im C) M))); [split; apply HM|exact EU]).
  destruct (ex_ext _ HE _ _ _ HG EU) as (U' & EU' & HUU).
  assert (HU' : sq N U') by (destruct HUU as (E1 & E2 & _); destruct HU; split; congruence).
  change (conj_t U) with (madj U). rewrite mprod_mmul by (cbn; destruct HU, HW; congruence). cbn [bind].
  rewrite mprod_mmul by (cbn; destruct HU, HW; congruence). cbn [bind].
  set (Wt := mmul (mmul (madj U) W) U). assert (HWt : sq N Wt) by (apply sq_mmul; [apply sq_mmul; [apply sq_adj|]|]; assumption).
  rewrite (comm_mcomm N) by assumption. cbn [bind]. set (K := mcomm Wt V). assert (HK : sq N K) by (apply sq_mcomm; assumption).
  assert (Lp : length (map (psi m) (configs d L)) = N) by (rewrite map_length; apply configs_length).
  destruct (vecmat_ok N (map sconj (map (psi m) (configs d L))) K HK) as (a & Ea & La & Va); [rewrite map_length; exact Lp|]. rewrite Ea. cbn [bind].
  destruct (vecmat_ok N a K HK La) as (b & Eb & Lb & Vb). rewrite Eb. cbn [bind].
  unfold vecvec. rewrite Lp, Lb, Nat.eqb_refl. cbn [bind]. exists U'. split; [exact EU'|].
  assert (HWW : mat_eq Wt (heisenberg U' W)).
  { unfold Wt, heisenberg. eapply mat_eq_trans; [apply mmul_assoc|]. destruct HU as [U1 U2], HU' as [U1' U2'], HW as [W1 W2]. apply mmul_eq; [cbn; congruence| |].
    - destruct HUU as (X1 & X2 & X3). split; [cbn; congruence|]. split; [cbn; congruence|]. intros i j Hi Hj. cbn [madj mr mc me] in *. rewrite X3 by congruence. reflexivity.
    - apply mmul_eq; [congruence|apply mat_eq_refl|exact HUU]. }
  assert (HWt' : sq N (heisenberg U' W)) by (apply sq_mmul; [apply sq_adj|apply sq_mmul]; assumption).
  assert (SWt : self_adjoint Wt).
  { destruct (heisenberg_herm N U' W HU' HW SW) as (_ & _ & H). destruct HWW as (Q1 & Q2 & Q3). destruct HWt as [T1 T2], HWt' as [T1' T2'].
    split; [cbn; congruence|]. split; [cbn; congruence|]. intros i j Hi Hj. cbn [madj mr mc me] in *. rewrite !Q3 by lia. apply H; congruence. }
  rewrite (sum_ext N _ (fun k => sum N (fun j => sum N (fun i => sconj (nth i (map (psi m) (configs d L)) 0) * me K i j) * me K j k) * nth k (map (psi m) (configs d L)) 0)).
  2: { intros k Hk. rewrite Vb by exact Hk. f_equal. apply sum_ext; intros j Hj. rewrite Va by exact Hj. f_equal. apply sum_ext; intros i Hi. f_equal.
       etransitivity; [|apply map_nth]. now rewrite conj_0. }
  rewrite double_comm by (apply (mcomm_anti N); assumption). cbv beta.
  pose proof (norm_act_nth d L K (psi m) Hd HK) as Q. fold N in Q. rewrite <- Q.
  rewrite re_real by (rewrite conj_opp, norm_act_real; reflexivity).
  assert (HKK : mat_eq K (mcomm (heisenberg U' W) V)).
  { unfold K. apply (mcomm_ext N); try assumption. apply mat_eq_refl. }
  rewrite (norm_act_ext d L K _ (psi m) Hd HK HKK). ring.
Qed.

Theorem ed_OTOC_ok C F (m : fmps R) (M V W : mat R) a b T : let d := fd m in let L := fL m in let N := Nat.pow d L in
  expm_ok (f_exp F) -> wf m -> uniform m -> (0 < d)%nat -> sq N M -> sq N V -> sq N W -> self_adjoint V -> self_adjoint W ->
  match ed_OTOC C F m (Whole M) (a :: b :: T) V W with
  | Err e => e = ValueError /\ exists t, In t (a :: b :: T) /\ f_exp F (mscale (- (c_im C * t)) M) = None
  | Ok rs => Forall2 (fun t r => exists U, f_exp F (mscale (- (c_im C * t)) M) = Some U /\
      r = norm_act d L (mcomm (heisenberg U W) V) (psi m)) (a :: b :: T) rs
  end.
Proof.
  intros d L N HE Hw Hu Hd HM HV HW SV SW. unfold ed_OTOC. rewrite recombine_ok by assumption. cbn [bind getitem nth_error].
  change (map (psi m) (configs (fd m) (fL m))) with (map (psi m) (configs d L)).
  generalize (a :: b :: T). intros l. induction l as [|t l IH]; cbn [mapM]; [constructor|].
  pose proof (otoc_at_ok C F m M V W t HE Hd HM HV HW SV SW) as K. fold d L in K.
  destruct (otoc_at C F (map (psi m) (configs d L)) M V W t) as [r|e]; cbn [bind].
  - destruct (mapM (otoc_at C F (map (psi m) (configs d L)) M V W) l) as [rs|e]; cbn [bind].
    + constructor; [exact K|exact IH].
    + destruct IH as (E & t' & Ht & Hn). split; [exact E|]. exists t'. split; [now right|exact Hn].
  - destruct K as (E & Hn). split; [exact E|]. exists t. split; [now left|exact Hn].
Qed.

Lemma ed_OTOC_short C F (m : fmps R) M V W T : wf m -> uniform m -> (length T <= 1)%nat -> ed_OTOC C F m (Whole M) T V W = Err IndexError.
Proof. intros Hw Hu HT. unfold ed_OTOC. rewrite recombine_ok by assumption. destruct T as [|a [|b T]]; [reflexivity|reflexivity|cbn in HT; lia]. Qed.

(** an operator that commutes with the Hamiltonian does not move *)
Lemma heisenberg_fixed C F (M W U : mat R) N t : expm_ok (f_exp F) -> sq N M -> sq N W -> sconj (c_im C) = - c_im C -> sconj t = t ->
  self_adjoint M -> commutes W M -> f_exp F (mscale (- (c_im C * t)) M) = Some U -> mat_eq (heisenberg U W) W.
Proof.
  intros HE HM HW Hi Ht SM Hc EU.
  assert (HG : mat_eq (mscale (- (c_im C * t)) M) (gen C 0 t M)).
  { split; [reflexivity|]. split; [reflexivity|]. intros i j _ _. cbn [gen mscal mscale me]. ring. }
  destruct (ex_ext _ HE _ _ _ HG EU) as (U' & EU' & HUU).
  assert (HU : sq N U) by (apply (ex_shape _ HE N (mscale (- (c_im C * t)) M)); [split; apply HM|exact EU]).
  pose proof (sandwich C F 0 t M W U' N HE HM HW Hi conj_0 Ht SM Hc EU') as HS.
  eapply mat_eq_trans; [|exact HS]. destruct HU as [U1 U2], HW as [W1 W2]. pose proof HUU as (X1 & X2 & X3). apply mmul_eq; [cbn; congruence| |].
  - split; [cbn; congruence|]. split; [cbn; congruence|]. intros i j Hi' Hj. cbn [madj mr mc me] in *. rewrite X3 by congruence. reflexivity.
  - apply mmul_eq; [congruence|apply mat_eq_refl|exact HUU].
Qed.

Lemma norm_act_zero d L (A B : mat R) (f : list nat -> R) : (0 < d)%nat -> sq (Nat.pow d L) A -> sq (Nat.pow d L) B -> commutes A B -> norm_act d L (mcomm A B) f = 0.
Proof.
  intros Hd [A1 A2] [B1 B2] (_ & _ & H). unfold norm_act. rewrite (sumcfg_ext (repeat d L) _ (fun _ => 0)); [apply sumcfg_0|].
  intros s Hs. assert (E : act d L (mcomm A B) f s = 0).
  { unfold act. rewrite (sumcfg_ext (repeat d L) _ (fun _ => 0)); [apply sumcfg_0|]. intros t Ht. unfold block_op. cbn [mcomm mminus me].
    rewrite H by (cbn [mmul mr mc]; rewrite ?A1, ?B2; apply row_lt; assumption). ring. }
  rewrite E, conj_0. ring.
Qed.

Lemma commutes_sym (A B : mat R) : commutes A B -> commutes B A.
Proof. apply mat_eq_sym. Qed.

Theorem OTOC_conserved C F (m : fmps R) (M V W : mat R) a b T rs : let d := fd m in let L := fL m in let N := Nat.pow d L in
  expm_ok (f_exp F) -> wf m -> uniform m -> (0 < d)%nat -> sq N M -> sq N V -> sq N W -> self_adjoint V -> self_adjoint W ->
  sconj (c_im C) = - c_im C -> Forall (fun t => sconj t = t) (a :: b :: T) -> self_adjoint M -> commutes W M ->
  ed_OTOC C F m (Whole M) (a :: b :: T) V W = Ok rs -> rs = repeat (norm_act d L (mcomm W V) (psi m)) (length (a :: b :: T)).
Proof.
  intros d L N HE Hw Hu Hd HM HV HW SV SW Hi Ht SM Hc E. pose proof (ed_OTOC_ok C F m M V W a b T HE Hw Hu Hd HM HV HW SV SW) as K. rewrite E in K.
  clear E. revert Ht K. generalize (a :: b :: T). intros l Ht K. induction K as [|t r l rs (U & EU & ->) K IH]; [reflexivity|].
  inversion Ht as [|? ? Ht1 Ht2]; subst. cbn [length repeat]. f_equal; [|apply IH; exact Ht2].
  assert (HU : sq N U) by (apply (ex_shape _ HE N (mscale (- (c_im C * t)) M)); [split; apply HM|exact EU]).
  assert (HWt : sq N (heisenberg U W)) by (apply sq_mmul; [apply sq_adj|apply sq_mmul]; assumption).
  apply norm_act_ext; [exact Hd|apply sq_mcomm; assumption|]. apply (mcomm_ext N); try assumption; [|apply mat_eq_refl].
  exact (heisenberg_fixed C F M W U N t HE HM HW Hi Ht1 SM Hc EU).
Qed.

Theorem OTOC_start C F (m : fmps R) (M V W : mat R) b T r rs : let d := fd m in let L := fL m in let N := Nat.pow d L in
  expm_ok (f_exp F) -> wf m -> uniform m -> (0 < d)%nat -> sq N M -> sq N V -> sq N W -> self_adjoint V -> self_adjoint W ->
  ed_OTOC C F m (Whole M) (0 :: b :: T) V W = Ok (r :: rs) -> r = norm_act d L (mcomm W V) (psi m).
Proof.
  intros d L N HE Hw Hu Hd HM HV HW SV SW E. pose proof (ed_OTOC_ok C F m M V W 0 b T HE Hw Hu Hd HM HV HW SV SW) as K. rewrite E in K.
  inversion K as [|? ? ? ? (U & EU & ->) _]; subst.
  destruct (ex_zero _ HE N) as (Z & EZ & HZ).
  assert (HG : mat_eq (mscale (- (c_im C * 0)) M) (mkMat N N (fun _ _ => 0))).
  { destruct HM as [M1 M2]. split; [exact M1|]. split; [exact M2|]. intros i j _ _. cbn [mscale me]. ring. }
  destruct (ex_ext _ HE _ _ _ HG EU) as (X & EX & HX). rewrite EZ in EX. injection EX as <-.
  assert (HU : sq N U) by (apply (ex_shape _ HE N (mscale (- (c_im C * 0)) M)); [split; apply HM|exact EU]).
  assert (HWt : sq N (heisenberg U W)) by (apply sq_mmul; [apply sq_adj|apply sq_mmul]; assumption).
  apply norm_act_ext; [exact Hd|apply sq_mcomm; assumption|]. apply (mcomm_ext N); try assumption; [|apply mat_eq_refl].
  assert (HUo : mat_eq U (mone N)) by (eapply mat_eq_trans; eassumption). destruct HUo as (O1 & O2 & O3). destruct HU as [U1 U2], HW as [W1 W2].
  split; [cbn; congruence|]. split; [cbn; congruence|]. intros i j Hi Hj. cbn [heisenberg mmul madj mr mc me] in *. rewrite U1.
  rewrite (sum_single N i); [|lia|].
  - rewrite O3 by lia. cbn [mone me]. rewrite dlt_eq, conj_1, W2. rewrite (sum_single N j); [rewrite O3 by lia; cbn [mone me]; rewrite dlt_eq; ring|lia|].
    intros k Hk Hne. rewrite O3 by lia. cbn [mone me]. rewrite dlt_neq by exact Hne. ring.
  - intros k Hk Hne. rewrite O3 by lia. cbn [mone me]. rewrite dlt_neq by exact Hne. rewrite conj_0. ring.
Qed.
End Proofs.
