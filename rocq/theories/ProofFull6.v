(** The theorems about dA_dt for a Hamiltonian given as one matrix. *)
From Verif Require Import Alg ModelMPS SpecMPS ProofMPS ModelOrth SpecOrth ModelNcon SpecNcon
  ModelEk SpecEk ModelNp ModelEnergy SpecEnergy ProofEnergy ModelTan SpecTan ProofTan ModelTdvp SpecTdvp ProofTdvp5 ProofTdvp6 ProofTdvp7 ProofTdvp8 ProofTdvp9 ProofTdvp10
  ModelFull SpecFull ProofFull4 ProofFull5.
Require Verif.SpecDecomp.

Section Sum.
Context {R : sring}.
Local Open Scope sr_scope.
Add Ring Rr : (s_th R).

Lemma sumcfg_pick D : forall (f : list nat -> R) w, incfg D w -> sumcfg D (fun w' => if list_eq_dec Nat.eq_dec w w' then f w' else 0) = f w.
Proof.
  induction D as [|n D IH]; intros f w Hw; inversion Hw as [|x ? v ? Hx Hv]; subst; cbn [sumcfg].
  - reflexivity.
  - rewrite (sum_diag n x); [|exact Hx|].
    + rewrite <- (IH (fun v => f (x :: v)) v Hv). apply sumcfg_ext; intros v' _. destruct (list_eq_dec Nat.eq_dec v v') as [->|N].
      * destruct (list_eq_dec Nat.eq_dec (x :: v') (x :: v')); [reflexivity|congruence].
      * destruct (list_eq_dec Nat.eq_dec (x :: v) (x :: v')) as [E|]; [injection E; congruence|reflexivity].
    + intros z Hz Hne. transitivity (sumcfg D (fun _ => 0 : R)); [|apply sumcfg_0]. apply sumcfg_ext; intros v' _. destruct (list_eq_dec Nat.eq_dec (x :: v) (z :: v')) as [E|]; [injection E; congruence|reflexivity].
Qed.

Lemma app_eq_len {X} (u u' v v' : list X) : u ++ v = u' ++ v' -> length u = length u' -> u = u' /\ v = v'.
Proof.
  revert u'. induction u as [|x u IH]; intros [|y u'] E HL; try discriminate HL; cbn in E; [auto|]. injection E as -> E. destruct (IH u' E) as [-> ->]; [cbn in HL; lia|]. auto.
Qed.

Lemma local_op_split d k (h : mat R) u b v u' b' v' : length u = k -> length u' = k -> length b = 2%nat -> length b' = 2%nat ->
  local_op d k h (u ++ b ++ v) (u' ++ b' ++ v') = if list_eq_dec Nat.eq_dec u u' then if list_eq_dec Nat.eq_dec v v' then block_op d h b b' else 0 else 0.
Proof.
  intros L1 L2 L3 L4. unfold local_op.
  assert (G : forall u b v : list nat, length u = k -> length b = 2%nat -> firstn k (u ++ b ++ v) = u /\ skipn (k + 2) (u ++ b ++ v) = v /\ firstn 2 (skipn k (u ++ b ++ v)) = b).
  { clear. intros u b v L1 L3. split; [|split].
    - rewrite firstn_app, L1, Nat.sub_diag. cbn [firstn]. rewrite app_nil_r. rewrite <- L1. apply firstn_all.
    - rewrite app_assoc, skipn_app. rewrite skipn_all2 by (rewrite app_length; lia). rewrite app_length, L1, L3, Nat.sub_diag. reflexivity.
    - rewrite skipn_app, L1, Nat.sub_diag. rewrite skipn_all2 by lia. change (firstn 2 (b ++ v) = b). destruct b as [|x [|y [|]]]; try discriminate L3. reflexivity. }
  destruct (G u b v L1 L3) as (-> & -> & ->). destruct (G u' b' v' L2 L4) as (-> & -> & ->).
  destruct (list_eq_dec Nat.eq_dec (u ++ v) (u' ++ v')) as [E|N].
  - apply app_eq_len in E as [-> ->]; [|congruence]. destruct (list_eq_dec Nat.eq_dec u' u'); [|congruence]. destruct (list_eq_dec Nat.eq_dec v' v'); [reflexivity|congruence].
  - destruct (list_eq_dec Nat.eq_dec u u') as [->|]; [|reflexivity]. destruct (list_eq_dec Nat.eq_dec v v') as [->|]; [congruence|reflexivity].
Qed.

Lemma local_melem d n k (h : mat R) f g : (k + 2 <= n)%nat ->
  sumcfg (repeat d n) (fun w => sumcfg (repeat d n) (fun w' => sconj (f w) * local_op d k h w w' * g w')) = melem (repeat d k) [d; d] (repeat d (n - k - 2)) f (block_op d h) g.
Proof.
  intros Hk. assert (ED : repeat d n = repeat d k ++ [d; d] ++ repeat d (n - k - 2)).
  { replace n with (k + (2 + (n - k - 2)))%nat at 1 by lia. rewrite !repeat_app. reflexivity. }
  rewrite ED. unfold melem. rewrite sumcfg_app. apply sumcfg_ext; intros u Hu. rewrite sumcfg_app. apply sumcfg_ext; intros b Hb. symmetry. rewrite sumcfg_swap. symmetry. apply sumcfg_ext; intros v Hv.
  pose proof (incfg_length _ _ Hu) as Lu. rewrite repeat_length in Lu. pose proof (incfg_length _ _ Hb) as Lb. cbn in Lb.
  rewrite sumcfg_app.
  transitivity (sumcfg (repeat d k) (fun u' => if list_eq_dec Nat.eq_dec u u' then sumcfg [d; d] (fun b' => sconj (f (u ++ b ++ v)) * block_op d h b b' * g (u' ++ b' ++ v)) else 0)).
  2: { apply (sumcfg_pick (repeat d k) (fun u' => sumcfg [d; d] (fun b' => sconj (f (u ++ b ++ v)) * block_op d h b b' * g (u' ++ b' ++ v)))). exact Hu. }
  apply sumcfg_ext; intros u' Hu'. pose proof (incfg_length _ _ Hu') as Lu'. rewrite repeat_length in Lu'. rewrite sumcfg_app.
  destruct (list_eq_dec Nat.eq_dec u u') as [Eu|Nu].
  - apply sumcfg_ext; intros b' Hb'. pose proof (incfg_length _ _ Hb') as Lb'. cbn in Lb'.
    rewrite <- (sumcfg_pick (repeat d (n - k - 2)) (fun v' => sconj (f (u ++ b ++ v)) * block_op d h b b' * g (u' ++ b' ++ v')) v Hv).
    apply sumcfg_ext; intros v' Hv'. rewrite local_op_split by assumption. destruct (list_eq_dec Nat.eq_dec u u'); [|congruence]. destruct (list_eq_dec Nat.eq_dec v v'); ring.
  - transitivity (sumcfg [d; d] (fun _ => 0 : R)); [|apply sumcfg_0]. apply sumcfg_ext; intros b' Hb'. pose proof (incfg_length _ _ Hb') as Lb'. cbn in Lb'. transitivity (sumcfg (repeat d (n - k - 2)) (fun _ => 0 : R)); [|apply sumcfg_0]. apply sumcfg_ext; intros v' Hv'.
    rewrite local_op_split by assumption. destruct (list_eq_dec Nat.eq_dec u u'); [congruence|]. ring.
Qed.

Lemma full_ham d (l' l : list (site R)) H M : full_of d (length l) H M -> (length H < length l)%nat -> full_elem d l' l M = ham_elem d l' l H.
Proof.
  intros (_ & _ & HM) HL. unfold full_elem, ham_elem.
  transitivity (sumcfg (repeat d (length l)) (fun w => sumcfg (repeat d (length l)) (fun w' => suml (map (fun kh => sconj (state l' w) * local_op d (fst kh) (snd kh) w w' * state l w') (combine (seq 0 (length H)) H))))).
  - apply sumcfg_ext; intros w Hw. apply sumcfg_ext; intros w' Hw'. rewrite HM by assumption.
    transitivity ((sconj (state l' w) * state l w') * suml (map (fun kh => local_op d (fst kh) (snd kh) w w') (combine (seq 0 (length H)) H))); [ring|]. rewrite <- suml_scale. apply suml_map_ext. intros; ring.
  - transitivity (sumcfg (repeat d (length l)) (fun w => suml (map (fun kh => sumcfg (repeat d (length l)) (fun w' => sconj (state l' w) * local_op d (fst kh) (snd kh) w w' * state l w')) (combine (seq 0 (length H)) H)))).
    { apply sumcfg_ext; intros w _. apply sumcfg_suml. }
    rewrite sumcfg_suml. apply suml_map_ext. intros [k h] Hk. cbn [fst snd]. unfold term_elem. apply local_melem. apply in_combine_l in Hk. apply in_seq in Hk. lia.
Qed.
End Sum.

Section Final.
Context {R : sring}.
Local Open Scope sr_scope.
Add Ring Rr2 : (s_th R).
Variable K : tanlib R.
Variable S : setio.
Hypothesis HK : tanlib_ok K.
Hypothesis HS : setio_ok S.
Hypothesis Hchar : SpecDecomp.char0 R.
Variables (m : fmps R) (ls rs : list (mat R)).

Lemma input_weaken H : tdvp_input K m H ls rs -> tdvp_input K m [] ls rs.
Proof. intros (H1 & H2 & H3 & H4 & H5 & H6 & H7 & H8 & H9). repeat (split; [assumption|]). split; [cbn; lia|constructor]. Qed.

Section One.
Hypothesis Hin : tdvp_input K m [] ls rs.
Variable M : mat R.
Hypothesis HM : mr M = Nat.pow (fd m) (fL m) /\ mc M = Nat.pow (fd m) (fL m).
Notation facts := (facts K S HK HS Hchar m [] ls rs Hin).
Notation main := (dA_dt_full_ok K S HK HS Hchar m ls rs Hin M HM).

Lemma full_rates_ok im : exists m', dA_dt_full K S im m M None = Ok m' /\ length (fdata m') = length (fdata m) /\
  forall P A Q, fdata m = P ++ A :: Q -> exists B pr V,
    nth_error (fdata m') (length P) = Some B /\ same_shape A B /\
    left_null_projector K S m (length P) (Some ls) None = Ok (pr, V) /\
    forall s a b, (s < fd m)%nat -> (a < dl A)%nat -> (b < dr A)%nat ->
      ent B s a b * true_r Q b b
      = - im * sum (fd m) (fun t => sum (dl A) (fun c => te pr [s; a; t; c] * full_gradient (fd m) (fdata m) M (length P) A t c b)).
Proof.
  destruct (main im) as (m' & E & HL & HB). exists m'. split; [exact E|]. split; [exact HL|].
  intros P A Q EA. destruct (facts P Q A EA) as (l & r0 & F & pr & V & HF). destruct (HB P Q A l r0 F pr V EA HF) as (B & EB & SB & VB). exists B, pr, V. split; [exact EB|]. split; [exact SB|]. split; [apply HF|exact VB].
Qed.

Lemma full_given im m' : dA_dt_full K S im m M None = Ok m' -> length (fdata m') = length (fdata m) /\ forall P Q A l r0 F pr V, fdata m = P ++ A :: Q -> site_facts K S m ls rs P Q A l r0 F pr V ->
    exists B, nth_error (fdata m') (length P) = Some B /\ full_rates m M P Q A B pr im.
Proof. intros E. destruct (main im) as (m'' & E' & HL & HB). rewrite E in E'. injection E' as <-. auto. Qed.

Lemma full_tdvp im m' : dA_dt_full K S im m M None = Ok m' ->
  forall P A Q X, fdata m = P ++ A :: Q -> same_shape A X ->
  (forall b, (b < dr A)%nat -> left_gauge A (env_at P A) (fun s a => ent X s a b)) ->
  sumcfg (repeat (fd m) (fL m)) (fun s => sconj (state (with_site (fdata m) (length P) X) s) * velocity (fdata m) (fdata m') s)
  = - im * full_elem (fd m) (with_site (fdata m) (length P) X) (fdata m) M.
Proof. intros E P A Q X EA. destruct (full_given im m' E) as (HL & HB). exact (ProofFull5.tdvp K S HK HS Hchar m ls rs Hin M HM im (fdata m') HL HB P Q A X EA). Qed.
Lemma full_norm im m' : dA_dt_full K S im m M None = Ok m' ->
  sumcfg (repeat (fd m) (fL m)) (fun s => sconj (state (fdata m) s) * velocity (fdata m) (fdata m') s) = 0.
Proof. intros E. destruct (full_given im m' E) as (HL & HB). exact (ProofFull5.norm_kept K S HK HS Hchar m ls rs Hin M HM im (fdata m') HL HB). Qed.
Lemma full_energy im m' : dA_dt_full K S im m M None = Ok m' -> sconj im = - im -> hermitian_op M ->
  full_between (fd m) (fL m) (velocity (fdata m) (fdata m')) M (state (fdata m)) +
  full_between (fd m) (fL m) (state (fdata m)) M (velocity (fdata m) (fdata m')) = 0.
Proof. intros E. destruct (full_given im m' E) as (HL & HB). exact (ProofFull5.energy_kept K S HK HS Hchar m ls rs Hin M HM im (fdata m') HL HB). Qed.
End One.

Lemma full_local (H : list (mat R)) (M : mat R) im e0 m1 e m2 : tdvp_input K m H ls rs -> full_of (fd m) (fL m) H M ->
  dA_dt K S im m H None e0 = Ok (m1, e) -> dA_dt_full K S im m M None = Ok m2 -> Forall2 site_eq (fdata m1) (fdata m2).
Proof.
  intros Hin HF E1 E2. pose proof (input_weaken H Hin) as Hin0. pose proof HF as (M1 & M2 & _). pose proof Hin as ((_ & HL & _) & _ & _ & _ & _ & _ & _ & Hlt & _).
  destruct (given K S HK HS Hchar m H ls rs Hin im e0 m1 e E1) as (L1 & B1). destruct (full_given Hin0 M (conj M1 M2) im m2 E2) as (L2 & B2).
  assert (G : forall i B1 B2, nth_error (fdata m1) i = Some B1 -> nth_error (fdata m2) i = Some B2 -> site_eq B1 B2).
  { intros i X Y N1 N2. destruct (split_nth (fdata m) i) as (P & A & Q & EA & LP); [rewrite <- L1; apply nth_error_Some; congruence|]. subst i.
    destruct (facts K S HK HS Hchar m [] ls rs Hin0 P Q A EA) as (l & r0 & F & pr & V & HFa).
    destruct (B1 P Q A l r0 F pr V EA HFa) as (X' & NX & SX & VX). destruct (B2 P Q A l r0 F pr V EA HFa) as (Y' & NY & SY & VY). assert (X' = X) by congruence. assert (Y' = Y) by congruence. subst X' Y'.
    destruct HFa as (_ & _ & _ & _ & _ & _ & C9 & _ & _ & _ & _ & _ & _ & HFi & _).
    destruct SX as (X1 & X2 & X3). destruct SY as (Y1 & Y2 & Y3). split; [congruence|]. split; [congruence|]. split; [congruence|].
    intros s a b Hs Ha Hb. rewrite X1 in Hs. rewrite X2 in Ha. rewrite X3 in Hb. rewrite C9 in Hs.
    assert (EE : ent X s a b * true_r Q b b = ent Y s a b * true_r Q b b).
    { rewrite VX, VY by assumption. f_equal. apply sum_ext; intros t _. apply sum_ext; intros c _. f_equal. unfold gradient, full_gradient. symmetry. apply full_ham; [rewrite <- HL; exact HF|rewrite <- HL; exact Hlt]. }
    transitivity (ent X s a b * (true_r Q b b * me F b b)); [rewrite HFi, dlt_eq by assumption; ring|].
    transitivity (ent X s a b * true_r Q b b * me F b b); [ring|]. rewrite EE.
    transitivity (ent Y s a b * (true_r Q b b * me F b b)); [ring|rewrite HFi, dlt_eq by assumption; ring]. }
  rewrite <- L2 in L1. clear -G L1. revert L1 G. generalize (fdata m1) (fdata m2). intros l l'. revert l'. induction l as [|x l IH]; intros [|y l'] HL G; try discriminate HL; constructor.
  - exact (G 0%nat x y eq_refl eq_refl).
  - apply IH; [cbn in HL; lia|]. intros i. exact (G (Datatypes.S i)).
Qed.
End Final.
