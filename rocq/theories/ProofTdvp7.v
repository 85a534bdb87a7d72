(** dA_dt as a whole. *)
From Verif Require Import Alg ModelMPS SpecMPS ProofMPS ModelOrth SpecOrth ProofOrth ProofOrth2 ModelNcon SpecNcon
  ModelEk SpecEk ProofEk4 ModelNp ModelEnergy SpecEnergy ProofEnergy ModelTan SpecTan ProofTan ModelTdvp SpecTdvp ProofTdvp ProofTdvp2 ProofTdvp3 ProofTdvp4 ProofTdvp5 ProofTdvp6.
Require Verif.SpecDecomp.

Section Whole.
Context {R : sring}.
Local Open Scope sr_scope.
Add Ring Rr : (s_th R).
Variable K : tanlib R.
Variable S : setio.
Hypothesis HK : tanlib_ok K.
Hypothesis HS : setio_ok S.
Hypothesis Hchar : SpecDecomp.char0 R.
Variables (m : fmps R) (H ls rs : list (mat R)).
Hypothesis Hin : tdvp_input K m H ls rs.
Notation d := (fd m).
Notation facts := (facts K S HK HS Hchar m H ls rs Hin).

Lemma reshape_list (Hs : list (mat R)) : Forall (fun h => mr h = (d * d)%nat /\ mc h = (d * d)%nat) Hs ->
  exists hs, mapM (reshape_op d 2) Hs = Ok hs /\ length hs = length Hs /\ Forall2 (fun h T => reshape_op d 2 h = Ok T) Hs hs.
Proof.
  intros HH. induction HH as [|h Hs (H1 & H2) HH IH].
  - exists []. repeat split; constructor.
  - destruct IH as (hs & E1 & E2 & E3). destruct (reshape_op_ok d 2 h) as (T & ET & _); [rewrite H1; cbn; lia|rewrite H2; cbn; lia|].
    exists (T :: hs). cbn [mapM]. rewrite ET. cbn [bind]. rewrite E1. cbn [bind]. split; [reflexivity|]. split; [cbn; lia|]. constructor; assumption.
Qed.
Lemma reshape_all : exists hs, mapM (reshape_op d 2) H = Ok hs /\ length hs = length H /\
  Forall2 (fun h T => reshape_op d 2 h = Ok T) H hs.
Proof. apply reshape_list. apply Hin. Qed.

Lemma combine_rel (Hs : list (mat R)) hs (Lb : nat) : Forall2 (fun h T => reshape_op d 2 h = Ok T) Hs hs ->
  Forall (fun h => mr h = (d * d)%nat /\ mc h = (d * d)%nat) Hs -> forall n, (n + length Hs + 1 <= Lb)%nat ->
  Forall2 (fun (kh : nat * mat R) (kT : nat * tens R) => fst kT = fst kh /\ reshape_op d 2 (snd kh) = Ok (snd kT) /\ mr (snd kh) = (d * d)%nat /\ mc (snd kh) = (d * d)%nat /\ (fst kh + 2 <= Lb)%nat)
    (combine (seq n (length Hs)) Hs) (combine (seq n (length hs)) hs).
Proof.
  intros HF. induction HF as [|h T Hs hs E HF IH]; intros HH n Hn; [constructor|]. inversion HH as [|? ? (H1 & H2) HH']; subst. cbn [length seq combine] in *. constructor.
  - cbn [fst snd]. repeat split; try assumption. lia.
  - apply IH; [assumption|lia].
Qed.

Lemma Forall2_rev {X Y} (Rel : X -> Y -> Prop) l l' : Forall2 Rel l l' -> Forall2 Rel (rev l) (rev l').
Proof. induction 1; cbn [rev]; [constructor|]. apply Forall2_app; [assumption|]. constructor; [assumption|constructor]. Qed.

(** the value of the rate at a site *)
Definition rates (P Q : list (site R)) (A B : site R) (pr : tens R) (im : R) : Prop :=
  same_shape A B /\ forall s a b, (s < d)%nat -> (a < dl A)%nat -> (b < dr A)%nat ->
    ent B s a b * true_r Q b b = - im * sum d (fun t => sum (dl A) (fun c => te pr [s; a; t; c] * gradient d (fdata m) H (length P) A t c b)).

Lemma prow_lin P Q A l r0 F pr V s a b : fdata m = P ++ A :: Q -> site_facts K S m ls rs P Q A l r0 F pr V -> (b < dr A)%nat ->
  ham_elem d (P ++ prow A (te pr) s a b :: Q) (fdata m) H = sum d (fun t => sum (dl A) (fun c => te pr [s; a; t; c] * gradient d (fdata m) H (length P) A t c b)).
Proof.
  intros E (C1 & C3 & C4 & C5 & C6 & C7 & C9 & Hp & _) Hb. rewrite E. rewrite (ham_lin d P Q A _ (dl A) H C1 eq_refl C3).
  - rewrite C9. apply sum_ext; intros t _. apply sum_ext; intros c _. unfold prow. cbn [ent].
    rewrite (sum_diag (dr A) b); [|exact Hb|].
    + rewrite conj_mul, conj_conj, dlt_conj, dlt_eq. ring.
    + intros z Hz Hne. rewrite conj_mul, dlt_conj, (dlt_neq b z) by auto. ring.
  - repeat split.
  - unfold dims. rewrite map_app. cbn [map]. fold (dims P) (dims Q). rewrite C6, C7, C9. rewrite app_length. cbn [length]. rewrite repeat_app. reflexivity.
  - rewrite <- E. destruct Hin as ((_ & HL' & _) & _ & _ & _ & _ & _ & _ & Hlt & _). rewrite HL' in Hlt. exact Hlt.
Qed.

Lemma next_inv P Q A : fdata m = P ++ A :: Q -> Q <> [] -> exists u, forall b, (b < dr A)%nat -> true_l (P ++ [A]) b b * u b = 1.
Proof.
  intros E HQ. destruct Q as [|B Q]; [congruence|]. assert (E' : fdata m = (P ++ [A]) ++ B :: Q) by (rewrite E, <- app_assoc; reflexivity).
  destruct (facts _ _ _ E') as (l & r0 & F & pr & V & HF). pose proof HF as (C1 & _ & _ & _ & _ & _ & _ & _ & _ & _ & _ & _ & _ & _ & _ & _ & _ & _ & _ & _ & _ & Hu).
  assert (EB : dl B = dr A). { apply chain_app in C1 as (a & _ & C1). cbn in C1. destruct C1 as [_ C1]. exact (eq_sym C1). }
  rewrite EB in Hu. clear -Hu. induction (dr A) as [|n IH].
  - exists (fun _ => 0). intros; lia.
  - destruct IH as (u & HU); [intros; apply Hu; lia|]. destruct (Hu n) as (un & Hn); [lia|].
    exists (fun b => if Nat.eqb b n then un else u b). intros b Hb. destruct (Nat.eqb_spec b n) as [->|]; [exact Hn|]. apply HU. lia.
Qed.

Lemma dA_site_ok im prs P Q A l r0 F pr V : fdata m = P ++ A :: Q -> site_facts K S m ls rs P Q A l r0 F pr V -> nth_error prs (length P) = Some (pr, V) ->
  exists B oe, dA_site K S im m H ls rs prs (length P) = Ok (B, oe) /\ rates P Q A B pr im /\
    (Q = [] -> oe = Some (rev (map (fun kh => term_elem d (fdata m) (fdata m) (fst kh) (snd kh)) (combine (seq 0 (length H)) H)))).
Proof.
  intros E HF Epr. pose proof HF as (C1 & C3 & C4 & C5 & C6 & C7 & C9 & Hp & Nl & Hl & Nr & Hr & EF & HFi & EP & Hsh & Hsa & Hcg & Hid & Hcount & Hzero & Hinv).
  destruct reshape_all as (hs & Ehs & Lhs & F2).
  assert (HA : nth_error (fdata m) (length P) = Some A) by (rewrite E, nth_error_app2, Nat.sub_diag by lia; reflexivity).
  unfold dA_site, getitem. rewrite HA. cbn [bind]. rewrite Ehs. cbn [bind]. pose proof Hin as ((_ & HL' & _) & _ & _ & H2 & _ & _ & _ & Hlt & HH).
  destruct (Nat.eqb_spec (d * dl A) (dr A)) as [Ed|Ed].
  - assert (HQ : Q <> []). { intros ->. cbn in C3. rewrite C3 in Ed. destruct Hp as (_ & Hp & _). destruct (dl A) as [|n]; [lia|]. nia. }
    eexists _, _. split; [reflexivity|]. split; [|intros; congruence]. split; [repeat split|]. intros s a b Hs Ha Hb. cbn [ent].
    assert (HV0 : dr V = 0%nat). { destruct (next_inv P Q A E HQ) as (u & Hu). specialize (Hcount u Hu). lia. }
    rewrite (sum_zero d). { ring. } intros t _. apply sum_zero. intros c Hc. rewrite Hzero by assumption. ring.
  - rewrite Epr. cbn [bind fst].
    destruct (net_R S HS pr A) as (T & ET & ST & VT); [rewrite C9; exact Hsh|]. rewrite ET. cbn [bind].
    destruct (lt_loop_ok P (A :: Q) A (te pr) (dr A)) with (k := length P) (L := T) as (Ls & ELs & LLs & VLs).
    { apply chain_app. exists (dl A). split; [exact C1|]. split; reflexivity. }
    { lia. }
    { intros B HB. rewrite nth_error_app2, Nat.sub_diag in HB by lia. injection HB as <-. exact ST. }
    { intros x y s0 a0 b0. rewrite skipn_all, VT. reflexivity. }
    unfold left_transfer, lt_. rewrite Nat.sub_0_r, E, ELs. cbn [bind]. rewrite <- E.
    set (Rs := fun n => getitem Ls (n - 0)).
    assert (HRs : forall n, (n <= length P)%nat -> exists W, Rs n = Ok W /\ (forall B, nth_error (P ++ [A]) n = Some B -> tsh W = [dl B; dl B; d; dl A; dr A]) /\
      forall x y s0 a0 b0, te W [x; y; s0; a0; b0] = moved (skipn n P) A (te pr) s0 a0 b0 x y).
    { intros n Hn. destruct (VLs n Hn) as (W & EW & SW & VW). exists W. split; [unfold Rs, getitem; rewrite Nat.sub_0_r, EW; reflexivity|]. split; [|exact VW].
      intros B HB. rewrite <- C9. apply SW. exact HB. }
    pose proof (combine_rel H hs (length (fdata m)) F2 HH 0) as HR. rewrite HL' in Hlt.
    destruct (loop_ok K S HK HS m H ls rs Hin P Q A l r0 F pr V Rs im E HF HRs _ _ (Forall2_rev _ _ _ (HR ltac:(lia)))
       (mkT [phys A; dl A; dr A] (fun _ => 0)) [] ltac:(rewrite C9; reflexivity)) as (B' & EB & SB & VB).
    rewrite EB. cbn [bind fst snd]. eexists _, _. split; [reflexivity|]. split.
    + split; [repeat split|]. intros s a b Hs Ha Hb. cbn [ent]. rewrite VB by assumption. cbn [te].
      rewrite map_rev, suml_rev. change (suml (map ?g (combine (seq 0 (length H)) H))) with (ham_elem d (P ++ prow A (te pr) s a b :: Q) (fdata m) H).
      rewrite (prow_lin P Q A l r0 F pr V s a b E HF Hb). ring.
    + intros ->. cbn [app]. rewrite <- map_rev. f_equal. f_equal. rewrite E in Hlt. rewrite app_length in Hlt. cbn [length] in Hlt.
      assert (G : forall kh, In kh (rev (combine (seq 0 (length H)) H)) -> Nat.leb (fst kh) (length P) = true).
      { intros [k h] Hk. apply in_rev in Hk. apply in_combine_seq in Hk as [Hk _]. cbn. apply Nat.leb_le. lia. }
      revert G. generalize (rev (combine (seq 0 (length H)) H)) as L. induction L as [|x L IHL]; intros G; [reflexivity|]. cbn [filter].
      rewrite (G x) by (left; reflexivity). f_equal. apply IHL. intros; apply G; right; assumption.
Qed.

(** mapM over the sites with a result at every place *)
Lemma mapM_seq {Y} (f : nat -> res Y) (Rel : nat -> Y -> Prop) n k : (forall i, (k <= i < k + n)%nat -> exists y, f i = Ok y /\ Rel i y) ->
  exists ys, mapM f (seq k n) = Ok ys /\ length ys = n /\ forall i, (i < n)%nat -> exists y, nth_error ys i = Some y /\ f (k + i)%nat = Ok y /\ Rel (k + i)%nat y.
Proof.
  revert k. induction n as [|n IH]; intros k Hf.
  - exists []. split; [reflexivity|]. split; [reflexivity|]. intros; lia.
  - destruct (Hf k) as (y & Ey & Ry); [lia|]. destruct (IH (Datatypes.S k)) as (ys & Eys & Lys & Hys); [intros; apply Hf; lia|].
    exists (y :: ys). cbn [seq mapM]. rewrite Ey. cbn [bind]. rewrite Eys. cbn [bind]. split; [reflexivity|]. split; [cbn; lia|].
    intros [|i] Hi; [exists y; rewrite Nat.add_0_r; auto|]. destruct (Hys i) as (z & Ez & Fz & Rz); [lia|]. exists z. replace (k + Datatypes.S i)%nat with (Datatypes.S k + i)%nat by lia. auto.
Qed.

Lemma split_nth (l : list (site R)) i : (i < length l)%nat -> exists P A Q, l = P ++ A :: Q /\ length P = i.
Proof.
  intros Hi. destruct (nth_error l i) as [A|] eqn:EA. 2: { apply nth_error_None in EA. lia. }
  apply nth_error_split in EA as (P & Q & E & LP). exists P, A, Q. auto.
Qed.
Lemma app_len2 (P P' Q Q' : list (site R)) A A' : P ++ A :: Q = P' ++ A' :: Q' -> length P = length P' -> P = P' /\ A = A' /\ Q = Q'.
Proof.
  revert P'. induction P as [|x P IH]; intros [|y P'] E HLen; try discriminate HLen; cbn in E.
  - injection E as -> ->. auto.
  - injection E as -> E. destruct (IH P' E) as (-> & -> & ->); [cbn in HLen; lia|]. auto.
Qed.

Lemma dA_dt_ok im e0 : exists m', dA_dt K S im m H None e0 = Ok (m', rev (map (fun kh => term_elem d (fdata m) (fdata m) (fst kh) (snd kh)) (combine (seq 0 (length H)) H))) /\
  length (fdata m') = length (fdata m) /\
  forall P Q A l r0 F pr V, fdata m = P ++ A :: Q -> site_facts K S m ls rs P Q A l r0 F pr V ->
    exists B, nth_error (fdata m') (length P) = Some B /\ rates P Q A B pr im.
Proof.
  pose proof Hin as ((Hcl & HL' & Hne) & Hun' & Hpos & H2 & _ & EE & _). unfold dA_dt. rewrite EE. cbn [bind fst snd].
  destruct (mapM_seq (fun n => left_null_projector K S m n (Some ls) None) (fun i pv => forall P Q A, fdata m = P ++ A :: Q -> length P = i -> exists l r0 F, site_facts K S m ls rs P Q A l r0 F (fst pv) (snd pv)) (fL m) 0) as (prs & Eprs & Lprs & Hprs).
  { intros i Hi. destruct (split_nth (fdata m) i) as (P & A & Q & E & LP); [lia|]. destruct (facts P Q A E) as (l & r0 & F & pr & V & HF). exists (pr, V). split.
    - rewrite <- LP. apply HF.
    - intros P' Q' A' E' LP'. rewrite E in E'. apply app_len2 in E' as (<- & <- & <-); [|lia]. exists l, r0, F. exact HF. }
  rewrite Eprs. cbn [bind].
  destruct (mapM_seq (dA_site K S im m H ls rs prs) (fun i Bo => forall P Q A, fdata m = P ++ A :: Q -> length P = i -> exists l r0 F pr V, site_facts K S m ls rs P Q A l r0 F pr V /\ rates P Q A (fst Bo) pr im /\
      (Q = [] -> snd Bo = Some (rev (map (fun kh => term_elem d (fdata m) (fdata m) (fst kh) (snd kh)) (combine (seq 0 (length H)) H))))) (fL m) 0) as (Bs & EBs & LBs & HBs).
  { intros i Hi. destruct (split_nth (fdata m) i) as (P & A & Q & E & LP); [lia|]. destruct (Hprs i) as ([pr V] & Np & _ & Hpv); [lia|]. destruct (Hpv P Q A E LP) as (l & r0 & F & HF). cbn [fst snd] in HF. rewrite <- LP in Np.
    destruct (dA_site_ok im prs P Q A l r0 F pr V E HF Np) as (B & oe & EB & HR & HO). exists (B, oe). split; [rewrite <- LP; exact EB|].
    intros P' Q' A' E' LP'. rewrite E in E'. apply app_len2 in E' as (<- & <- & <-); [|lia]. exists l, r0, F, pr, V. auto. }
  rewrite EBs. cbn [bind].
  assert (EI : exists m', fMPS_init (map fst Bs) None None = Ok m' /\ fdata m' = map fst Bs).
  { unfold fMPS_init. destruct Bs as [|[B0 o0] Bs']; [|eexists; split; reflexivity]. cbn in LBs. destruct (fdata m); [congruence|]. cbn in HL'. lia. }
  destruct EI as (m' & EM & DM). rewrite EM. cbn [bind]. exists m'. split; [|split].
  - f_equal. f_equal. destruct (exists_last Hne) as (P & A & E). assert (EL : fL m = Datatypes.S (length P)) by (rewrite HL', E, app_length; cbn; lia).
    assert (HBn : Bs <> []) by (destruct Bs; [cbn in LBs; lia|discriminate]). destruct (exists_last HBn) as (Bs' & Bl & EB).
    rewrite EB, fold_left_app. cbn [fold_left]. assert (LB : length Bs' = length P) by (rewrite EB, app_length in LBs; cbn in LBs; lia).
    destruct (HBs (length P)) as (Bo & NB & _ & HB); [lia|]. rewrite EB, nth_error_app2, LB, Nat.sub_diag in NB by lia. injection NB as <-.
    destruct (HB P [] A E eq_refl) as (_ & _ & _ & _ & _ & _ & _ & HO). rewrite (HO eq_refl). reflexivity.
  - rewrite DM, map_length, LBs. exact HL'.
  - intros P Q A l r0 F pr V E HF. destruct (HBs (length P)) as (Bo & NB & _ & HB); [rewrite HL', E, app_length; cbn; lia|].
    destruct (HB P Q A E eq_refl) as (l1 & r1 & F1 & pr1 & V1 & HF1 & HR1 & _). exists (fst Bo). split; [rewrite DM; apply map_nth_error; exact NB|].
    assert (EP : (pr, V) = (pr1, V1)). { destruct HF as (_ & _ & _ & _ & _ & _ & _ & _ & _ & _ & _ & _ & _ & _ & EP & _). destruct HF1 as (_ & _ & _ & _ & _ & _ & _ & _ & _ & _ & _ & _ & _ & _ & EP1 & _). rewrite EP in EP1. injection EP1 as -> ->. reflexivity. }
    injection EP as -> ->. exact HR1.
Qed.
End Whole.
