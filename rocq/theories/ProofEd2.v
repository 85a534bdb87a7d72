(** Exact evolution of Trajectory: what edint records and what it conserves. *)
From Coq Require Import ZArith.
From Verif Require Import Alg ModelMPS SpecMPS ProofMPS ProofMPS2 SpecOrth SpecCanon ModelStruct ModelNcon ModelEk SpecEk ProofEk3 ProofEk5 ModelTensor SpecTensor ModelSpin SpecSpin ProofSpin
  ModelLie SpecLie ModelExp SpecExp ProofExp ProofExp2 SpecFull ModelOrth ModelCanon ModelState SpecState ProofState ModelTraj SpecTraj ProofTraj ModelEd SpecEd ProofEd.
Local Open Scope nat_scope.

Section Proofs.
Context {R : sring}.
Local Open Scope sr_scope.
Add Ring Rr : (s_th R).

Definition gen (C : consts R) (a b : R) (M : mat R) : mat R := mscal (b - a) (mscal (- c_im C) M).
Lemma gen_eq C a b (M : mat R) : mat_eq (gen C a b M) (mscale (- (c_im C * (b - a))) M).
Proof. split; [reflexivity|]. split; [reflexivity|]. intros i j _ _. cbn [gen mscal mscale me]. ring. Qed.

Lemma last_item_nth {A} (x : A) l d : last_item (x :: l) = Ok (nth (length l) (x :: l) d).
Proof.
  unfold last_item. destruct (exists_last (l := x :: l) ltac:(discriminate)) as (l' & y & E). rewrite E, rev_app_distr. cbn [rev app].
  f_equal. assert (H : length (x :: l) = S (length l')) by (rewrite E, app_length; cbn; lia). cbn in H. injection H as H. rewrite H.
  rewrite app_nth2 by lia. now rewrite Nat.sub_diag.
Qed.

(** What edint does, in one statement about plain vectors. *)
Lemma edint_run ilog C F O H (e : edtraj R) a b T M : svd_ok O -> expm_ok (f_exp F) ->
  let m := tmps (ed_t e) in let N := Nat.pow (fd m) (fL m) in
  wf m -> uniform m -> (0 < fd m)%nat -> ed_ham ilog H = Ok M -> sq N M ->
  match edint ilog C F O H e (a :: b :: T) with
  | Err er => (er = ValueError /\ f_exp F (gen C a b M) = None) \/ (er = LinAlgError /\ exists X, la_svd O X = None)
  | Ok e' => exists hist U c, ed_h e' = Some hist /\ f_exp F (gen C a b M) = Some U /\ sq N U /\ length hist = S (S (length T)) /\
      (forall v, In v hist -> length v = N) /\
      nth 0 hist [] = map (psi m) (configs (fd m) (fL m)) /\
      (forall k i, (S k < length hist)%nat -> (i < N)%nat -> nth i (nth (S k) hist []) 0 = img U (fun j => nth j (nth k hist []) 0) i) /\
      state_ok (mkSt (fL m) (fd m) (wave (fd m) hist (S (length T)))) (tmps (ed_t e')) c /\
      tmps0 (ed_t e') = tmps0 (ed_t e) /\ tDs (ed_t e') = tDs (ed_t e) /\ thist (ed_t e') = thist (ed_t e)
  end.
Proof.
  intros HO HE m N Hw Hu Hd HM Hsq. unfold edint. fold m. rewrite recombine_ok by assumption. cbn [bind]. rewrite HM. cbn [bind getitem nth_error].
  fold (gen C a b M). cbn [length]. replace (S (S (length T)) - 1)%nat with (S (length T)) by lia.
  set (v0 := map (psi m) (configs (fd m) (fL m))). assert (L0 : length v0 = N) by (unfold v0; rewrite map_length; apply configs_length).
  destruct (f_exp F (gen C a b M)) as [U|] eqn:EU.
  2:{ cbn [ed_loop]. unfold expm_multiply, expm_. rewrite EU. cbn [bind]. left. auto. }
  assert (HsU : sq N U). { apply (ex_shape _ HE N (gen C a b M)); [split; apply Hsq|exact EU]. }
  destruct (ed_loop_ok F (gen C a b M) U N EU HsU (S (length T)) v0 L0) as (vs & EL & Lvs & Avs & Hvs). rewrite EL. cbn [bind].
  rewrite (last_item_nth v0 vs []). cbn [bind]. rewrite Lvs.
  set (v := nth (S (length T)) (v0 :: vs) []).
  assert (Lv : length v = N). { assert (Hi : In v (v0 :: vs)) by (apply nth_In; cbn; lia). destruct Hi as [<-|Hi]; auto. }
  unfold as_state. rewrite Lv. unfold N. rewrite Nat.eqb_refl. cbn [bind].
  change (fun s => nth (fold_left (fun a0 x => (a0 * fd m + x)%nat) s 0%nat) v 0) with (wave (fd m) (v0 :: vs) (S (length T))).
  assert (HL : (0 < fL m)%nat). { destruct Hw as (_ & HL & Hne). rewrite HL. destruct (fdata m); [congruence|cbn; lia]. }
  pose proof (left_from_state_ok O (mkSt (fL m) (fd m) (wave (fd m) (v0 :: vs) (S (length T)))) HO Hd HL) as K.
  destruct (left_from_state O _) as [[m' Ls]|er]; cbn [bind fst] in *.
  - destruct K as ((c & Hst) & _). exists (v0 :: vs), U, c. cbn [ed_h ed_t tmps tmps0 tDs thist]. split; [reflexivity|]. split; [reflexivity|]. split; [exact HsU|].
    split; [cbn; lia|]. split; [intros x [<-|Hx]; auto|]. split; [reflexivity|]. split; [intros k i Hk Hi; apply Hvs; [cbn in Hk; lia|exact Hi]|]. split; [exact Hst|]. auto.
  - right. exact K.
Qed.

Lemma img_block d L (U : mat R) (v : list R) s : (0 < d)%nat -> sq (Nat.pow d L) U -> incfg (repeat d L) s ->
  img U (fun j => nth j v 0) (rowmajor d s) = sumcfg (repeat d L) (fun t => block_op d U s t * nth (rowmajor d t) v 0).
Proof. intros Hd [_ H2] Hs. unfold img. rewrite H2, (sum_pow d L) by exact Hd. reflexivity. Qed.

Lemma row_lt d L s : incfg (repeat d L) s -> (rowmajor d s < Nat.pow d L)%nat.
Proof. intros Hs. pose proof (incfg_length _ _ Hs) as Ls. rewrite repeat_length in Ls. rewrite <- Ls. apply rowmajor_lt. now rewrite Ls. Qed.

(** C91: the recorded vectors. *)
Lemma edint_ok ilog C F O H (e : edtraj R) a b T M : svd_ok O -> expm_ok (f_exp F) ->
  let m := tmps (ed_t e) in let d := fd m in let L := fL m in
  wf m -> uniform m -> (0 < d)%nat -> ed_ham ilog H = Ok M -> sq (Nat.pow d L) M ->
  match edint ilog C F O H e (a :: b :: T) with
  | Err er => (er = ValueError /\ f_exp F (mscale (- (c_im C * (b - a))) M) = None) \/ (er = LinAlgError /\ exists X, la_svd O X = None)
  | Ok e' => exists hist U c, ed_h e' = Some hist /\ f_exp F (mscale (- (c_im C * (b - a))) M) = Some U /\
      length hist = length (a :: b :: T) /\ (forall v, In v hist -> length v = Nat.pow d L) /\
      (forall s, incfg (repeat d L) s -> wave d hist 0 s = psi m s) /\
      (forall n s, (S n < length hist)%nat -> incfg (repeat d L) s ->
         wave d hist (S n) s = sumcfg (repeat d L) (fun t => block_op d U s t * wave d hist n t)) /\
      (let m' := tmps (ed_t e') in wf m' /\ uniform m' /\ fL m' = L /\ fd m' = d /\
        forall s, incfg (repeat d L) s -> wave d hist (length hist - 1) s = c * psi m' s) /\
      c * sconj c = sumcfg (repeat d L) (fun s => wave d hist (length hist - 1) s * sconj (wave d hist (length hist - 1) s)) /\
      tmps0 (ed_t e') = tmps0 (ed_t e) /\ tDs (ed_t e') = tDs (ed_t e) /\ thist (ed_t e') = thist (ed_t e)
  end.
Proof.
  intros HO HE m d L Hw Hu Hd HM Hsq. pose proof (edint_run ilog C F O H e a b T M HO HE Hw Hu Hd HM Hsq) as K. fold m in K. fold d in K. fold L in K.
  assert (HG := gen_eq C a b M).
  destruct (edint ilog C F O H e (a :: b :: T)) as [e'|er].
  - destruct K as (hist & U & c & K1 & K2 & K3 & K4 & K5 & K6 & K7 & K8 & K9 & K10 & K11).
    destruct (ex_ext _ HE _ _ _ HG K2) as (U' & EU' & (Q1 & Q2 & Q3)).
    destruct K3 as [U1 U2]. rewrite U1 in *. rewrite U2 in *.
    exists hist, U', c. split; [exact K1|]. split; [exact EU'|]. split; [exact K4|]. split; [exact K5|].
    split; [intros s Hs; unfold wave; rewrite K6; apply amp_nth; exact Hs|].
    split.
    { intros n s Hn Hs. unfold wave. rewrite (K7 n _ Hn (row_lt _ _ _ Hs)). rewrite (img_block d L) by (try assumption; split; assumption).
      apply sumcfg_ext. intros t Ht. unfold block_op. rewrite Q3 by (apply row_lt; assumption). reflexivity. }
    replace (length hist - 1)%nat with (S (length T)) by lia.
    destruct K8 as (S1 & S2 & S3 & S4 & S5 & S6 & S7 & _). cbn [stL std ste] in *.
    assert (Hu' : uniform (tmps (ed_t e'))). { unfold uniform. rewrite S4. apply Forall_forall. intros A HA. apply (in_map (fun A => phys A)) in HA. fold (dims (fdata (tmps (ed_t e')))) in HA. rewrite S5 in HA. now apply repeat_spec in HA. }
    split; [exact (conj S1 (conj Hu' (conj S3 (conj S4 S6))))|]. split; [exact S7|]. auto.
  - destruct K as [[-> K]|K]; [left|right; exact K]. split; [reflexivity|].
    destruct (f_exp F (mscale (- (c_im C * (b - a))) M)) as [X|] eqn:EX; [|reflexivity].
    destruct (ex_ext _ HE _ _ _ (mat_eq_sym _ _ HG) EX) as (X' & EX' & _). congruence.
Qed.

Lemma gen_anti C a b (M : mat R) N : sq N M -> sconj (c_im C) = - c_im C -> sconj a = a -> sconj b = b -> self_adjoint M ->
  mat_eq (madj (gen C a b M)) (mscale (- (1)) (gen C a b M)).
Proof.
  intros [M1 M2] Hi Ha Hb (_ & _ & HM). split; [cbn; congruence|]. split; [cbn; congruence|]. intros i j Hij Hj. cbn [gen mscal mscale madj mr mc me] in *.
  rewrite !conj_mul. assert (Hsub : sconj (b - a) = b - a). { replace (b - a) with (b + - a) by ring. now rewrite conj_add, conj_opp, Ha, Hb. }
  rewrite Hsub, conj_opp, Hi. assert (K := HM i j Hij ltac:(congruence)). rewrite <- K. ring.
Qed.

Lemma mmul_mone_l (N : nat) (Q : mat R) : sq N Q -> mat_eq (mmul (mone N) Q) Q.
Proof. intros [H1 H2]. exact (mone_l Q N H1). Qed.

Lemma sandwich C F a b (M Q U : mat R) N : expm_ok (f_exp F) -> sq N M -> sq N Q -> sconj (c_im C) = - c_im C -> sconj a = a -> sconj b = b ->
  self_adjoint M -> commutes Q M -> f_exp F (gen C a b M) = Some U -> mat_eq (mmul (madj U) (mmul Q U)) Q.
Proof.
  intros HE HM HQ Hi Ha Hb Hs Hc EU.
  assert (HG : sq N (gen C a b M)) by (split; apply HM).
  destruct (exp_antiherm _ HE N _ U HG (gen_anti C a b M N HM Hi Ha Hb Hs) EU) as (HU & HU1 & _).
  assert (Hcom : mat_eq (mmul Q (gen C a b M)) (mmul (gen C a b M) Q)).
  { destruct Hc as (_ & _ & Hc). destruct HM as [M1 M2], HQ as [Q1 Q2]. split; [cbn; congruence|]. split; [cbn; congruence|]. cbn [mmul gen mscal mr mc me] in *.
    intros i j Hi' Hj. assert (K := Hc i j Hi' Hj).
    transitivity ((b - a) * - c_im C * sum (mc Q) (fun k => me Q i k * me M k j)); [rewrite <- sum_mul_l; apply sum_ext; intros; ring|].
    rewrite K, <- sum_mul_l. apply sum_ext. intros. ring. }
  assert (HQU := ex_inter _ HE N N Q _ _ U U (proj1 HQ) (proj2 HQ) HG HG EU EU Hcom).
  destruct HU as [U1 U2], HQ as [Q1 Q2].
  eapply mat_eq_trans; [apply mmul_eq; [cbn; congruence|apply mat_eq_refl|exact HQU]|].
  eapply mat_eq_trans; [apply mat_eq_sym, mmul_assoc|].
  eapply mat_eq_trans; [apply mmul_eq; [cbn; congruence|exact HU1|apply mat_eq_refl]|]. apply mmul_mone_l. split; assumption.
Qed.

Lemma ed_conserved ilog C F O H (e e' : edtraj R) a b T M hist : svd_ok O -> expm_ok (f_exp F) ->
  let m := tmps (ed_t e) in let d := fd m in let L := fL m in
  wf m -> uniform m -> (0 < d)%nat -> ed_ham ilog H = Ok M -> sq (Nat.pow d L) M ->
  edint ilog C F O H e (a :: b :: T) = Ok e' -> ed_h e' = Some hist ->
  sconj (c_im C) = - c_im C -> sconj a = a -> sconj b = b -> self_adjoint M ->
  forall Q, sq (Nat.pow d L) Q -> commutes Q M -> forall n, (n < length hist)%nat ->
  full_between d L (wave d hist n) Q (wave d hist n) = full_between d L (psi m) Q (psi m).
Proof.
  intros HO HE m d L Hw Hu Hd HM Hsq Hrun Hh Hi Ha Hb Hs Q HQ HQM.
  pose proof (edint_run ilog C F O H e a b T M HO HE Hw Hu Hd HM Hsq) as K. fold m in K. fold d in K. fold L in K. rewrite Hrun in K.
  destruct K as (hist' & U & c & K1 & K2 & K3 & K4 & K5 & K6 & K7 & _). rewrite K1 in Hh. injection Hh as ->.
  assert (HS := sandwich C F a b M Q U _ HE Hsq HQ Hi Ha Hb Hs HQM K2).
  induction n as [|n IH]; intros Hn.
  - unfold full_between. apply sumcfg_ext. intros s Hs'. apply sumcfg_ext. intros t Ht. unfold wave. rewrite K6. now rewrite !amp_nth.
  - rewrite <- IH by lia. unfold wave at 1 2. rewrite full_between_bil by exact Hd.
    rewrite (bil_ext _ _ (img U (fun j => nth j (nth n hist []) 0)) _ _ (img U (fun j => nth j (nth n hist []) 0))); try (intros i Hi'; now apply K7).
    rewrite bil_img by assumption. unfold wave. now rewrite full_between_bil.
Qed.

(** * Expectation values *)
Lemma ev_ok d L (v : list R) (op : mat R) : (0 < d)%nat -> length v = Nat.pow d L -> sq (Nat.pow d L) op ->
  ev v op = Ok (sre (full_between d L (fun s => nth (rowmajor d s) v 0) op (fun s => nth (rowmajor d s) v 0))).
Proof.
  intros Hd Lv [H1 H2]. unfold ev. rewrite H1, H2, Lv, Nat.eqb_refl. cbn [andb]. f_equal. f_equal. rewrite full_between_bil by exact Hd. unfold bil. rewrite sum_swap.
  apply sum_ext. intros j _. rewrite <- sum_mul_r. reflexivity.
Qed.

Lemma mapM_ok' {A B} (f : A -> res B) (g : A -> B) l : (forall x, In x l -> f x = Ok (g x)) -> mapM f l = Ok (map g l).
Proof. induction l as [|x l IH]; intros H; [reflexivity|]. cbn [mapM map]. rewrite (H x (or_introl eq_refl)). cbn [bind]. rewrite IH by (intros; apply H; now right). reflexivity. Qed.

Lemma ed_evs_ok (e : edtraj R) d L hist ops : (0 < d)%nat -> ed_h e = Some hist -> (forall v, In v hist -> length v = Nat.pow d L) ->
  Forall (sq (Nat.pow d L)) ops ->
  exists rows, ed_evs e ops = Ok rows /\ length rows = length hist /\
    forall n, (n < length hist)%nat -> nth n rows [] = map (fun op => sre (full_between d L (wave d hist n) op (wave d hist n))) ops.
Proof.
  intros Hd Hh Hl Hops. unfold ed_evs. rewrite Hh.
  rewrite (mapM_ok' _ (fun v => map (fun op => sre (full_between d L (fun s => nth (rowmajor d s) v 0) op (fun s => nth (rowmajor d s) v 0))) ops)).
  - eexists. split; [reflexivity|]. split; [apply map_length|]. intros n Hn.
    rewrite (nth_indep _ [] (map (fun op => sre (full_between d L (fun s => nth (rowmajor d s) [] 0) op (fun s => nth (rowmajor d s) [] 0))) ops)) by (rewrite map_length; exact Hn).
    rewrite (map_nth (fun v => map (fun op => sre (full_between d L (fun s => nth (rowmajor d s) v 0) op (fun s => nth (rowmajor d s) v 0))) ops)). reflexivity.
  - intros v Hv. apply mapM_ok'. intros op Hop. apply ev_ok; auto. rewrite Forall_forall in Hops. now apply Hops.
Qed.

Lemma ed_energies_ok ilog C F O H (e e' : edtraj R) a b T M : svd_ok O -> expm_ok (f_exp F) ->
  let m := tmps (ed_t e) in let d := fd m in let L := fL m in
  wf m -> uniform m -> (0 < d)%nat -> ed_ham ilog H = Ok M -> sq (Nat.pow d L) M ->
  edint ilog C F O H e (a :: b :: T) = Ok e' ->
  sconj (c_im C) = - c_im C -> sconj a = a -> sconj b = b -> self_adjoint M ->
  ed_energies ilog H e' = Ok (repeat [sre (full_between d L (psi m) M (psi m))] (length (a :: b :: T))).
Proof.
  intros HO HE m d L Hw Hu Hd HM Hsq Hrun Hi Ha Hb Hs.
  pose proof (edint_run ilog C F O H e a b T M HO HE Hw Hu Hd HM Hsq) as K. fold m in K. fold d in K. fold L in K. rewrite Hrun in K.
  destruct K as (hist & U & c & K1 & K2 & K3 & K4 & K5 & _). unfold ed_energies. rewrite K1, HM. cbn [bind].
  destruct (ed_evs_ok e' d L hist [M] Hd K1 K5 ltac:(constructor; [exact Hsq|constructor])) as (rows & E & Lr & Hr). rewrite E. f_equal.
  apply (nth_ext _ _ [] []); [rewrite repeat_length, Lr, K4; reflexivity|]. intros n Hn. rewrite Lr in Hn. rewrite Hr by exact Hn. cbn [map].
  assert (Kc := ed_conserved ilog C F O H e e' a b T M hist HO HE Hw Hu Hd HM Hsq Hrun K1 Hi Ha Hb Hs M Hsq ltac:(split; [reflexivity|split; reflexivity]) n Hn).
  cbv zeta in Kc. fold m in Kc. fold d in Kc. fold L in Kc. rewrite Kc.
  rewrite K4 in Hn. symmetry. apply (repeat_spec (length (a :: b :: T)) ). apply nth_In. rewrite repeat_length. exact Hn.
Qed.

(** * Only one state is read back *)
Lemma mapM_length {A B} (f : A -> res B) l r : mapM f l = Ok r -> length r = length l.
Proof.
  revert r. induction l as [|x l IH]; intros r E; cbn [mapM] in E; [injection E as <-; reflexivity|].
  destruct (f x); [|discriminate]. cbn [bind] in E. destruct (mapM f l) eqn:E2; [|discriminate]. cbn [bind] in E. injection E as <-. cbn. now rewrite (IH _ eq_refl).
Qed.

Lemma fill_length (I : imag R) (O : lapack2 R) e e2 hist : ed_h e = Some hist -> hist <> [] -> thist (ed_t e) = [] -> fill_history I O e = Ok e2 ->
  tDs (ed_t e2) = tDs (ed_t e) /\ length (thist (ed_t e2)) = length hist.
Proof.
  intros Hh Hne Ht E. unfold fill_history in E. rewrite Hh, Ht in E. cbv zeta in E.
  match type of E with (do vs <- ?X; _) = _ => destruct X as [vs|] eqn:EX; [|discriminate] end. cbn [bind] in E. injection E as <-. cbn [ed_t tDs thist].
  split; [reflexivity|]. exact (mapM_length _ _ _ EX).
Qed.

Lemma ed_readback (I : imag R) (O : lapack2 R) m0 tr (e : edtraj R) ilog C F H T e' : traj_init m0 = Ok tr -> ed_t e = tr ->
  edint ilog C F O H e T = Ok e' ->
  (2 <= length T)%nat /\ (exists hist, ed_h e' = Some hist /\ length hist = length T) /\
  (forall ms, mps_list_ed I O e' = Ok ms -> length ms = 1%nat) /\
  (forall ops k rows, mps_evs I O e' ops k = Ok rows -> length rows = 1%nat).
Proof.
  intros Hin He E. unfold edint in E. rewrite He in E.
  destruct (recombine (tmps tr)) as [v0|]; [|discriminate]. cbn [bind] in E. destruct (ed_ham ilog H) as [M|]; [|discriminate]. cbn [bind] in E.
  destruct T as [|a [|b T]]; try discriminate. cbn [getitem nth_error bind length] in E.
  replace (S (S (length T)) - 1)%nat with (S (length T)) in E by lia.
  destruct (ed_loop F _ (S (length T)) v0) as [vs|] eqn:EL; [|discriminate]. cbn [bind] in E.
  assert (Lvs : length vs = S (length T)).
  { clear - EL. revert v0 vs EL. generalize (S (length T)) as n. induction n as [|n IH]; intros v0 vs EL; cbn [ed_loop] in EL; [injection EL as <-; reflexivity|].
    destruct (expm_multiply F _ v0) as [w|]; [|discriminate]. cbn [bind] in EL. destruct (ed_loop F _ n w) as [r|] eqn:Er; [|discriminate]. cbn [bind] in EL.
    injection EL as <-. cbn. f_equal. exact (IH _ _ Er). }
  destruct (last_item (v0 :: vs)) as [v|]; [|discriminate]. cbn [bind] in E. destruct (as_state _ _ v) as [st|]; [|discriminate]. cbn [bind] in E.
  destruct (left_from_state O st) as [[m Ls]|]; [|discriminate]. cbn [bind fst] in E. injection E as <-.
  assert (Htr : thist tr = [] /\ length (tDs tr) = 1%nat).
  { unfold traj_init in Hin. destruct (mps_copy m0) as [x|]; [|discriminate]. cbn [bind] in Hin. injection Hin as <-. auto. }
  destruct Htr as [Ht Hd]. split; [cbn; lia|]. split; [exists (v0 :: vs); split; [reflexivity|cbn; lia]|].
  assert (Kms : forall ms, mps_list_ed I O (mkEd (mkTraj m (tmps0 tr) (tDs tr) (thist tr)) (Some (v0 :: vs))) = Ok ms -> length ms = 1%nat).
  { intros ms Ems. unfold mps_list_ed in Ems. destruct (fill_history I O _) as [e2|] eqn:Ef; [|discriminate]. cbn [bind] in Ems.
    destruct (fill_length I O (mkEd (mkTraj m (tmps0 tr) (tDs tr) (thist tr)) (Some (v0 :: vs))) e2 (v0 :: vs) eq_refl ltac:(discriminate) Ht Ef) as [F1 F2]. cbn [ed_t tDs] in F1. unfold mps_list in Ems.
    destruct (thist (ed_t e2)) as [|h hs] eqn:Eh; [discriminate|]. apply mapM_length in Ems. rewrite Ems, combine_length, F1, Hd. cbn. lia. }
  split; [exact Kms|]. intros ops k rows Er. unfold mps_evs in Er. destruct (mps_list_ed I O _) as [ms|] eqn:Ems; [|discriminate]. cbn [bind] in Er.
  apply mapM_length in Er. rewrite Er. now apply Kms.
Qed.
End Proofs.
