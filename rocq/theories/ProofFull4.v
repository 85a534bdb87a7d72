(** dA_dt for a Hamiltonian given as one matrix: the rates of change. *)
From Verif Require Import Alg ModelMPS SpecMPS ProofMPS ModelOrth SpecOrth ProofOrth ProofOrth2 ModelNcon SpecNcon ModelEk SpecEk ProofEk ProofEk2 ProofEk3 ProofEk4
  ModelNp ModelEnergy SpecEnergy ProofEnergy ModelTan SpecTan ProofTan ModelTdvp SpecTdvp ProofTdvp ProofTdvp2 ProofTdvp3 ProofTdvp4 ProofTdvp5 ProofTdvp6 ProofTdvp7
  ModelFull SpecFull ProofFull ProofFull2 ProofFull3.
Require Verif.SpecDecomp.

Section Whole.
Context {R : sring}.
Local Open Scope sr_scope.
Add Ring Rr : (s_th R).
Variable K : tanlib R.
Variable S : setio.
Hypothesis HK : tanlib_ok K.
Hypothesis HS : setio_ok S.
Hypothesis Hchar : SpecDecomp.char0 R.
Variables (m : fmps R) (ls rs : list (mat R)).
Hypothesis Hin : tdvp_input K m [] ls rs.
Variable M : mat R.
Hypothesis HM : mr M = Nat.pow (fd m) (fL m) /\ mc M = Nat.pow (fd m) (fL m).
Notation d := (fd m).
Notation facts := (facts K S HK HS Hchar m [] ls rs Hin).

Definition full_rates (P Q : list (site R)) (A B : site R) (pr : tens R) (im : R) : Prop :=
  same_shape A B /\ forall s a b, (s < d)%nat -> (a < dl A)%nat -> (b < dr A)%nat ->
    ent B s a b * true_r Q b b = - im * sum d (fun t => sum (dl A) (fun c => te pr [s; a; t; c] * full_gradient d (fdata m) M (length P) A t c b)).

Lemma map_repeat_conj (P : list (site R)) : Forall2 shapes (map site_conj P) P.
Proof. induction P; constructor; [repeat split|assumption]. Qed.

(** the bra layer of the network *)
Lemma bra_head prs n : forall (P : list (site R)) k, (k + length P <= n)%nat -> mapM (full_bra K rs prs n) (combine (seq k (length P)) P) = Ok (map tens_site (map site_conj P)).
Proof.
  induction P as [|A P IH]; intros k Hk; [reflexivity|]. cbn [length seq combine mapM map] in *. rewrite IH by lia. unfold full_bra. cbn [fst snd].
  destruct (Nat.eqb_spec k n); [lia|]. destruct (Nat.eqb_spec k (n + 1)); [lia|]. reflexivity.
Qed.
Lemma bra_tail prs n : forall (P : list (site R)) k, (n + 2 <= k)%nat -> mapM (full_bra K rs prs n) (combine (seq k (length P)) P) = Ok (map tens_site (map site_conj P)).
Proof.
  induction P as [|A P IH]; intros k Hk; [reflexivity|]. cbn [length seq combine mapM map] in *. rewrite IH by lia. unfold full_bra. cbn [fst snd].
  destruct (Nat.eqb_spec k n); [lia|]. destruct (Nat.eqb_spec k (n + 1)); [lia|]. reflexivity.
Qed.
Lemma mapM_app' {X Y} (f : X -> res Y) l l' u v : mapM f l = Ok u -> mapM f l' = Ok v -> mapM f (l ++ l') = Ok (u ++ v).
Proof.
  revert u. induction l as [|x l IH]; intros u E1 E2; cbn [mapM app] in *; [injection E1 as <-; exact E2|].
  destruct (f x); [|discriminate]. cbn [bind] in *. destruct (mapM f l) as [l0|]; [|discriminate]. cbn [bind] in *. injection E1 as <-. rewrite (IH l0 eq_refl E2). reflexivity.
Qed.
Lemma combine_app' {X Y} (a b : list X) (c e : list Y) : length a = length c -> combine (a ++ b) (c ++ e) = combine a c ++ combine b e.
Proof. revert c. induction a as [|x a IH]; intros [|y c] HL; try discriminate; [reflexivity|]. cbn. rewrite IH by (cbn in HL; lia). reflexivity. Qed.

Lemma bra_ok prs P Q A l r0 F pr V : fdata m = P ++ A :: Q -> site_facts K S m ls rs P Q A l r0 F pr V -> nth_error prs (length P) = Some (pr, V) ->
  exists X2, mapM (full_bra K rs prs (length P)) (combine (seq 0 (length (fdata m))) (fdata m)) = Ok (map tens_site (map site_conj P) ++ [pr] ++ map tens_site X2) /\
    Forall2 shapes X2 Q /\
    forall w b, incfg (dims Q) w -> (b < dr A)%nat -> amp X2 w b 0 * true_r Q b b = sconj (amp Q w b 0).
Proof.
  intros E HF Epr. pose proof HF as (C1 & C3 & C4 & C5 & C6 & C7 & C9 & Hp & Nl & Hl & Nr & Hr & EF & HFi & EP & Hsh & _).
  assert (HFs : mr F = dr A /\ mc F = dr A).
  { destruct HK as (_ & Ki & _). destruct Hr as (R1 & R2 & _). destruct (Ki r0 F) as (I1 & I2 & _); [congruence|exact EF|]. lia. }
  assert (Ehead : forall Q', seq 0 (length (P ++ A :: Q')) = seq 0 (length P) ++ length P :: seq (length P + 1) (length Q')).
  { intros Q'. rewrite app_length. cbn [length]. rewrite seq_app. cbn [Nat.add seq]. rewrite Nat.add_1_r. reflexivity. }
  assert (Ebra : forall X2, mapM (full_bra K rs prs (length P)) (combine (seq (length P + 1) (length Q)) Q) = Ok (map tens_site X2) ->
     mapM (full_bra K rs prs (length P)) (combine (seq 0 (length (fdata m))) (fdata m)) = Ok (map tens_site (map site_conj P) ++ [pr] ++ map tens_site X2)).
  { intros X2 E2. rewrite E, Ehead, combine_app' by apply seq_length. apply mapM_app'; [apply bra_head; lia|]. cbn [combine app mapM]. unfold full_bra at 1. cbn [fst snd].
    rewrite Nat.eqb_refl. unfold getitem. rewrite Epr. cbn [bind fst]. rewrite E2. reflexivity. }
  destruct Q as [|B Q].
  - exists []. split; [apply Ebra; reflexivity|]. split; [constructor|]. intros w b Hw Hb. inversion Hw; subst. cbn in C3. assert (b = 0)%nat by lia. subst b.
    unfold true_r. cbn. rewrite dlt_eq, conj_1. ring.
  - set (Z := mkSite (phys B) (dr A) (dr B) (fun s i j => sum (dr A) (fun k => sconj (me F i k) * sconj (ent B s k j)))).
    destruct C3 as [CB C3].
    exists (Z :: map site_conj Q). split; [|split].
    + apply Ebra. cbn [length seq combine mapM]. unfold full_bra at 1. cbn [fst snd]. destruct (Nat.eqb_spec (length P + 1) (length P)); [lia|]. rewrite Nat.eqb_refl.
      unfold getitem. rewrite Nr. cbn [bind]. rewrite EF. cbn [bind]. unfold mat_site. cbn [mr mc me site_conj dl dr phys ent]. destruct HFs as [F1 F2]. rewrite F1, F2, CB, Nat.eqb_refl. cbn [bind].
      rewrite bra_tail by lia. cbn [bind map]. reflexivity.
    + constructor; [unfold Z; repeat split; cbn; congruence|apply map_repeat_conj].
    + intros w b Hw Hb. inversion Hw as [|x p v ps Hx Hv]; subst. rewrite amp_cons. cbn [Z dr ent]. cbn [amp]. rewrite sum_conj.
      rewrite <- sum_mul_r. apply sum_ext; intros j Hj. rewrite amp_conj, conj_mul.
      transitivity (sum (dr A) (fun k => dlt b k * sconj (ent B x k j)) * sconj (amp Q v j 0)).
      * replace (sum (dr A) (fun k => dlt b k * sconj (ent B x k j))) with (sum (dr A) (fun k => sconj (me F b k) * sconj (ent B x k j)) * true_r (B :: Q) b b).
        { ring. }
        rewrite <- sum_mul_r. apply sum_ext; intros k Hk. rewrite <- (dlt_conj b k), <- (HFi b k) by assumption. rewrite conj_mul, true_r_real. ring.
      * f_equal. apply (sum_dlt_l (dr A) b (fun k => sconj (ent B x k j))). exact Hb.
Qed.

(** a matrix element is linear in each tensor of the bra *)
Lemma full_lin (P Q : list (site R)) (A X : site R) a l : chain 1 P a -> dl A = a -> chain (dr A) Q 1 -> same_shape A X ->
  dims (P ++ A :: Q) = repeat d (length l) ->
  full_elem d (P ++ X :: Q) l M = sum (phys A) (fun t => sum (dl A) (fun c => sum (dr A) (fun b => sconj (ent X t c b) * full_elem d (P ++ unit_site A t c b :: Q) l M))).
Proof.
  intros HP HA HQ HX HD. unfold full_elem.
  transitivity (sumcfg (repeat d (length l)) (fun w => sum (phys A) (fun t => sum (dl A) (fun c => sum (dr A) (fun b => sconj (ent X t c b) * sumcfg (repeat d (length l)) (fun w' =>
     sconj (state (P ++ unit_site A t c b :: Q) w) * block_op d M w w' * state l w')))))).
  - apply sumcfg_ext; intros w Hw. rewrite (state_lin P Q A X a) by (try assumption; rewrite HD; exact Hw). rewrite sum_conj.
    transitivity (sumcfg (repeat d (length l)) (fun w' => sum (phys A) (fun t => sum (dl A) (fun c => sum (dr A) (fun b => sconj (ent X t c b) * (sconj (state (P ++ unit_site A t c b :: Q) w) * block_op d M w w' * state l w')))))).
    + apply sumcfg_ext; intros w' _. rewrite <- !sum_mul_r. apply sum_ext; intros t _. rewrite sum_conj, <- !sum_mul_r. apply sum_ext; intros c _. rewrite sum_conj, <- !sum_mul_r. apply sum_ext; intros b _. rewrite conj_mul. ring.
    + rewrite sumcfg_sum. apply sum_ext; intros t _. rewrite sumcfg_sum. apply sum_ext; intros c _. rewrite sumcfg_sum. apply sum_ext; intros b _. apply sumcfg_mul_l.
  - rewrite sumcfg_sum. apply sum_ext; intros t _. rewrite sumcfg_sum. apply sum_ext; intros c _. rewrite sumcfg_sum. apply sum_ext; intros b _. apply sumcfg_mul_l.
Qed.

Lemma full_site_ok im prs P Q A l r0 F pr V : fdata m = P ++ A :: Q -> site_facts K S m ls rs P Q A l r0 F pr V -> nth_error prs (length P) = Some (pr, V) ->
  exists B, dA_full_site K S im m M rs prs (length P) = Ok B /\ full_rates P Q A B pr im.
Proof.
  intros E HF Epr. pose proof HF as (C1 & C3 & C4 & C5 & C6 & C7 & C9 & Hp & _ & _ & _ & _ & _ & _ & _ & Hsh & _).
  pose proof Hin as ((_ & HL' & _) & _).
  destruct (reshape_op_ok d (fL m) M (proj1 HM) (proj2 HM)) as (T & ET & ST & VT).
  destruct (bra_ok prs P Q A l r0 F pr V E HF Epr) as (X2 & EX & SX & VX).
  assert (HD : dims (P ++ A :: Q) = repeat d (length (fdata m))).
  { rewrite E. unfold dims. rewrite map_app. cbn [map]. fold (dims P) (dims Q). rewrite C6, C7, C9, app_length. cbn [length]. rewrite repeat_app. reflexivity. }
  assert (Hlk : exists l, full_links (length (P ++ A :: Q)) (length P) = Ok l).
  { destruct Q as [|B Q].
    - replace (length (P ++ [A])) with (Datatypes.S (length P)) by (rewrite app_length; cbn; lia). rewrite full_links_last. eauto.
    - replace (length (P ++ A :: B :: Q)) with (length P + Datatypes.S (Datatypes.S (length Q)))%nat by (rewrite app_length; cbn; lia). rewrite full_links_mid. eauto. }
  destruct Hlk as (lk & Elk).
  assert (EW : forall X, with_site (fdata m) (length P) X = P ++ X :: Q).
  { intros X. unfold with_site. rewrite E, firstn_app, firstn_all, Nat.sub_diag. cbn [firstn]. rewrite app_nil_r, skipn_app, skipn_all2 by lia.
    replace (length P + 1 - length P)%nat with 1%nat by lia. reflexivity. }
  destruct (full_net S (map site_conj P) X2 P Q A pr T lk HS C1 C3 (map_repeat_conj P) SX) as (r & Er & Sr & Vr).
  { rewrite C9. exact Hsh. }
  { rewrite HD, <- HL'. exact ST. }
  { exact Elk. }
  unfold dA_full_site. rewrite ET. cbn [bind]. rewrite <- E, <- HL' in Elk. rewrite Elk. cbn [bind]. rewrite EX. cbn [bind]. rewrite <- E in Er. rewrite Er. cbn [bind]. rewrite Sr.
  eexists. split; [reflexivity|]. split; [repeat split|]. intros s a b Hs Ha Hb. cbn [ent]. rewrite Vr by exact Hb.
  assert (G : sumcfg (dims (P ++ A :: Q)) (fun w => sumcfg (dims (P ++ A :: Q)) (fun w' => te T (w ++ w') * (amp (map site_conj P ++ dsite A (te pr) s a b :: X2) w 0 0 * amp (P ++ A :: Q) w' 0 0))) * true_r Q b b
     = full_elem d (P ++ prow A (te pr) s a b :: Q) (fdata m) M).
  { unfold full_elem. rewrite <- HD. rewrite <- sumcfg_mul_r. apply sumcfg_ext; intros w Hw. rewrite <- sumcfg_mul_r. apply sumcfg_ext; intros w' Hw'.
    rewrite VT by (rewrite HL', <- HD; assumption). rewrite E at 1. unfold state.
    assert (G1 : amp (map site_conj P ++ dsite A (te pr) s a b :: X2) w 0 0 * true_r Q b b = sconj (amp (P ++ prow A (te pr) s a b :: Q) w 0 0)).
    { unfold dims in Hw. rewrite map_app in Hw. cbn [map] in Hw. fold (dims P) (dims Q) in Hw.
      pose proof (Forall2_app_inv_r _ _ Hw) as (u & w0 & Hu & Hw0 & ->). inversion Hw0 as [|x p0 v ps Hx Hv]; subst.
      pose proof (incfg_length _ _ Hu) as Lu. rewrite dims_length in Lu.
      rewrite (amp_app (map site_conj P) _ u (x :: v) 0 (dl A) 1) by (try rewrite map_length; auto using chain_conj; lia).
      rewrite (amp_app P _ u (x :: v) 0 (dl A) 1) by (auto; lia). rewrite sum_conj, <- sum_mul_r. apply sum_ext; intros c _. rewrite amp_conj, conj_mul. cbn [amp dsite prow dr ent].
      rewrite (sum_diag (dr A) b); [|exact Hb|]. 2: { intros z Hz Hne. rewrite (dlt_neq b z) by auto. ring. }
      rewrite (sum_diag (dr A) b); [|exact Hb|]. 2: { intros z Hz Hne. rewrite (dlt_neq b z) by auto. ring. }
      rewrite !dlt_eq. rewrite !conj_mul, conj_conj, conj_1. rewrite <- (VX v b Hv Hb). ring. }
    rewrite <- G1. ring. }
  transitivity (- im * (sumcfg (dims (P ++ A :: Q)) (fun w => sumcfg (dims (P ++ A :: Q)) (fun w' => te T (w ++ w') * (amp (map site_conj P ++ dsite A (te pr) s a b :: X2) w 0 0 * amp (P ++ A :: Q) w' 0 0))) * true_r Q b b)); [ring|].
  rewrite G. f_equal. rewrite (full_lin P Q A _ (dl A) (fdata m) C1 eq_refl C3); [|repeat split|exact HD].
  rewrite C9. apply sum_ext; intros t _. apply sum_ext; intros c _. unfold prow. cbn [ent].
  rewrite (sum_diag (dr A) b); [|exact Hb|]. 2: { intros z Hz Hne. rewrite conj_mul, dlt_conj, (dlt_neq b z) by auto. ring. }
  rewrite conj_mul, conj_conj, dlt_conj, dlt_eq. unfold full_gradient. rewrite EW. ring.
Qed.

Lemma dA_dt_full_ok im : exists m', dA_dt_full K S im m M None = Ok m' /\ length (fdata m') = length (fdata m) /\
  forall P Q A l r0 F pr V, fdata m = P ++ A :: Q -> site_facts K S m ls rs P Q A l r0 F pr V ->
    exists B, nth_error (fdata m') (length P) = Some B /\ full_rates P Q A B pr im.
Proof.
  pose proof Hin as ((Hcl & HL' & Hne) & Hun' & Hpos & H2 & _ & EE & _). unfold dA_dt_full. rewrite EE. cbn [bind fst snd].
  destruct (mapM_seq (fun n => left_null_projector K S m n (Some ls) None) (fun i pv => forall P Q A, fdata m = P ++ A :: Q -> length P = i -> exists l r0 F, site_facts K S m ls rs P Q A l r0 F (fst pv) (snd pv)) (fL m) 0) as (prs & Eprs & Lprs & Hprs).
  { intros i Hi. destruct (split_nth (fdata m) i) as (P & A & Q & E & LP); [lia|]. destruct (facts P Q A E) as (l & r0 & F & pr & V & HF). exists (pr, V). split.
    - rewrite <- LP. apply HF.
    - intros P' Q' A' E' LP'. rewrite E in E'. apply app_len2 in E' as (<- & <- & <-); [|lia]. exists l, r0, F. exact HF. }
  rewrite Eprs. cbn [bind].
  destruct (mapM_seq (dA_full_site K S im m M rs prs) (fun i B => forall P Q A, fdata m = P ++ A :: Q -> length P = i -> exists l r0 F pr V, site_facts K S m ls rs P Q A l r0 F pr V /\ full_rates P Q A B pr im) (fL m) 0) as (Bs & EBs & LBs & HBs).
  { intros i Hi. destruct (split_nth (fdata m) i) as (P & A & Q & E & LP); [lia|]. destruct (Hprs i) as ([pr V] & Np & _ & Hpv); [lia|]. destruct (Hpv P Q A E LP) as (l & r0 & F & HF). cbn [fst snd] in HF. rewrite <- LP in Np.
    destruct (full_site_ok im prs P Q A l r0 F pr V E HF Np) as (B & EB & HR). exists B. split; [rewrite <- LP; exact EB|].
    intros P' Q' A' E' LP'. rewrite E in E'. apply app_len2 in E' as (<- & <- & <-); [|lia]. exists l, r0, F, pr, V. auto. }
  rewrite EBs. cbn [bind].
  assert (EI : exists m', fMPS_init Bs None None = Ok m' /\ fdata m' = Bs).
  { unfold fMPS_init. destruct Bs as [|B0 Bs']; [|eexists; split; reflexivity]. cbn in LBs. destruct (fdata m); [congruence|]. cbn in HL'. lia. }
  destruct EI as (m' & EM & DM). rewrite EM. exists m'. split; [reflexivity|split].
  - rewrite DM, LBs. exact HL'.
  - intros P Q A l r0 F pr V E HF. destruct (HBs (length P)) as (B & NB & _ & HB); [rewrite HL', E, app_length; cbn; lia|].
    destruct (HB P Q A E eq_refl) as (l1 & r1 & F1 & pr1 & V1 & HF1 & HR1). exists B. split; [rewrite DM; exact NB|].
    assert (EP : (pr, V) = (pr1, V1)). { destruct HF as (_ & _ & _ & _ & _ & _ & _ & _ & _ & _ & _ & _ & _ & _ & EP & _). destruct HF1 as (_ & _ & _ & _ & _ & _ & _ & _ & _ & _ & _ & _ & _ & _ & EP1 & _). rewrite EP in EP1. injection EP1 as -> ->. reflexivity. }
    injection EP as -> ->. exact HR1.
Qed.
End Whole.
