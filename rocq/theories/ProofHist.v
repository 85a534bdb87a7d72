(** Every call history keeps the flags of an MPS object truthful. *)
From Verif Require Import Alg ModelMPS SpecMPS ProofMPS ProofMPS2 ModelOrth SpecOrth ProofOrth
  ProofOrth2 ProofOrth3 ProofOrth4 ProofMeas ModelCanon SpecCanon ProofCanon ProofCanon2 ProofCanon3 SpecHist.

Section Proofs.
Context {R : sring}.
Add Ring Rring : (s_th R).
Local Open Scope sr_scope.

Definition good (L d : nat) (m : fmps R) : Prop :=
  wf m /\ pos (fdata m) /\ uniform m /\ fd m = d /\ fL m = L /\ 0 < d /\
  flags_set m /\ flags_true m.

Lemma uniform_dims (m : fmps R) d : fd m = d -> dims (fdata m) = repeat d (length (fdata m)) -> uniform m.
Proof.
  intros <-. unfold uniform. generalize (fd m). intros d. generalize (fdata m).
  induction l as [|A l IH]; intros H; [constructor|]. cbn in H. injection H as H1 H2.
  constructor; [exact H1|apply IH, H2].
Qed.

Lemma good_dims L d m : good L d m -> dims (fdata m) = repeat d L.
Proof.
  intros ((_ & H1 & _) & _ & H2 & <- & <- & _). rewrite H1. apply dims_uniform. exact H2.
Qed.

Lemma fresh_good (m : fmps R) L d : wf m -> pos (fdata m) -> dims (fdata m) = repeat d L ->
  fd m = d -> 0 < d -> fcan m = Some false -> forth m = Some false -> foc m = None -> good L d m.
Proof.
  intros Hw Hp Hd Hf H0 H1 H2 H3. pose proof Hw as (_ & HL & _).
  assert (EL : length (fdata m) = L).
  { transitivity (length (dims (fdata m))); [unfold dims; now rewrite map_length|].
    rewrite Hd. apply repeat_length. }
  split; [exact Hw|]. split; [exact Hp|].
  split; [apply (uniform_dims m d Hf); rewrite EL; exact Hd|].
  split; [exact Hf|]. split; [congruence|]. split; [exact H0|]. split.
  - exists false, false. repeat split; try assumption. discriminate.
  - intros c o. rewrite H1, H2. intros Hc Ho. injection Hc as <-. injection Ho as <-. discriminate.
Qed.

Lemma kept_good (m m' : fmps R) L d : good L d m -> wf m' -> pos (fdata m') ->
  dims (fdata m') = dims (fdata m) -> fL m' = fL m -> fd m' = fd m -> flags_set m' -> flags_true m' ->
  good L d m'.
Proof.
  intros G Hw Hp Hd HL Hf H1 H2. pose proof (good_dims _ _ _ G) as Hdd.
  destruct G as (_ & _ & _ & G4 & G5 & G6 & _). pose proof Hw as (_ & Hl & _).
  split; [exact Hw|]. split; [exact Hp|].
  split; [apply (uniform_dims m' d); [congruence|]; rewrite <- Hl, HL, G5; congruence|].
  split; [congruence|]. split; [congruence|]. split; [exact G6|]. split; assumption.
Qed.

Lemma flags_of (m : fmps R) c k : fcan m = Some c -> forth m = Some true -> foc m = Some k ->
  mixed_at k (fdata m) -> sumcfg (dims (fdata m)) (fun s => psi m s * sconj (psi m s)) = 1 ->
  flags_set m /\ flags_true m.
Proof.
  intros H1 H2 H3 H4 H5. split.
  - exists c, true. repeat split; try assumption. intros _. exists k. exact H3.
  - intros c' o' _ _ _ k' Hk. assert (k' = k) by congruence. subst k'. split; assumption.
Qed.

Lemma all_left_mixed (l : list (site R)) : Forall left_iso l -> mixed_at (length l) l.
Proof.
  intros H i A HA. split.
  - intros _. apply (proj1 (Forall_forall _ _) H). eapply nth_error_In; exact HA.
  - intros Hi. exfalso. assert (i < length l) by (apply nth_error_Some; congruence). lia.
Qed.
Lemma all_right_mixed (l : list (site R)) : Forall right_iso l -> mixed_at 0 l.
Proof.
  intros H i A HA. split; [lia|]. intros _.
  apply (proj1 (Forall_forall _ _) H). eapply nth_error_In; exact HA.
Qed.

Lemma mapM_Forall {A B} (f : A -> res B) (P : B -> Prop) l r :
  mapM f l = Ok r -> (forall x y, In x l -> f x = Ok y -> P y) -> Forall P r.
Proof.
  revert r; induction l as [|x l IH]; intros r H HP; simpl in H.
  - injection H as <-. constructor.
  - destruct (f x) as [y|] eqn:E; [|discriminate]. cbn [bind] in H.
    destruct (mapM f l) as [ys|] eqn:E2; [|discriminate]. cbn [bind] in H. injection H as <-.
    constructor; [apply (HP x); [left; reflexivity|exact E]|]. apply IH; [reflexivity|].
    intros x' y' Hx. apply HP. right. exact Hx.
Qed.

Lemma getitem_In {A} (l : list A) i x : getitem l i = Ok x -> In x l.
Proof.
  unfold getitem. destruct (nth_error l i) eqn:E; [|discriminate]. intros H. injection H as <-.
  eapply nth_error_In; exact E.
Qed.

Lemma setitem_Forall {A} (P : A -> Prop) l i x r : setitem l i x = Ok r -> Forall P l -> P x -> Forall P r.
Proof.
  revert i r; induction l as [|y l IH]; intros [|i] r H HF Hx; simpl in H; try discriminate.
  - injection H as <-. inversion HF; subst; constructor; assumption.
  - destruct (setitem l i x) as [l'|] eqn:E; [|discriminate]. injection H as <-.
    inversion HF; subst; constructor; [assumption|]. eapply IH; eassumption.
Qed.

Definition posA (A : site R) : Prop := 0 < phys A /\ 0 < dl A /\ 0 < dr A.

Lemma init_fields (l : list (site R)) d m : fMPS_init l d None = Ok m -> fdata m = l /\
  fcan m = Some false /\ forth m = Some false /\ foc m = None /\
  fd m = match d with Some d => d | None => match l with A :: _ => phys A | [] => 0%nat end end.
Proof.
  unfold fMPS_init. destruct d as [d|].
  - cbn [bind]. destruct (max_bond l) as [D|]; [|discriminate]. cbn [bind]. intros H. injection H as <-.
    repeat split.
  - destruct l as [|A l]; [discriminate|]. cbn. intros H. injection H as <-. repeat split.
Qed.

Lemma init_good l m L d : closed l -> length l = L -> Forall (fun A : site R => phys A = d) l -> pos l ->
  fMPS_init l None None = Ok m -> good L d m.
Proof.
  intros Hc HL Hd Hp E.
  assert (Hne : l <> []) by (intros ->; discriminate).
  destruct (init_ok l Hne) as (m' & E' & H1 & H2 & H3 & H4 & H5 & H6 & _).
  assert (m' = m) by congruence. subst m'.
  assert (H0 : fd m = d /\ 0 < d).
  { rewrite H3. destruct l as [|A l]; [congruence|]. inversion Hd; subst. inversion Hp; subst. tauto. }
  apply fresh_good; try assumption; try tauto.
  - split; [rewrite H1; exact Hc|]. split; [congruence|]. rewrite H1. exact Hne.
  - rewrite H1. exact Hp.
  - rewrite H1, <- HL. clear - Hd. induction Hd as [|A l H _ IH]; [reflexivity|].
    change (dims (A :: l)) with (phys A :: dims l). cbn [length repeat]. rewrite IH, H. reflexivity.
Qed.

Lemma uniform_of_dims (l : list (site R)) d L : dims l = repeat d L -> Forall (fun A => phys A = d) l.
Proof.
  revert L; induction l as [|A l IH]; intros [|L] H; try discriminate; constructor.
  - cbn in H. injection H as H _. exact H.
  - apply (IH L). cbn in H. injection H as _ H. exact H.
Qed.

Lemma good_again (m : fmps R) L d : wf m -> pos (fdata m) -> dims (fdata m) = repeat d L ->
  fMPS_init (fdata m) None None = Ok m -> good L d m.
Proof.
  intros Hw Hp Hd E. apply (init_good (fdata m)); try assumption.
  - apply Hw.
  - transitivity (length (dims (fdata m))); [unfold dims; now rewrite map_length|]. rewrite Hd. apply repeat_length.
  - eapply uniform_of_dims; exact Hd.
Qed.

Lemma upd_repeat d L k : upd (repeat d L) k d = repeat d L.
Proof.
  revert k; induction L as [|L IH]; intros k; [reflexivity|]. destruct k; cbn; [reflexivity|].
  now rewrite IH.
Qed.

Lemma nth_repeat_lt {A} (x d : A) L k : k < L -> nth k (repeat x L) d = x.
Proof. revert k; induction L as [|L IH]; intros [|k] H; cbn; try lia; [reflexivity|]. apply IH. lia. Qed.

(** A closed chain of norm one has no empty bond. *)
Lemma amp_dead (l : list (site R)) i j A s x y : chain i l j -> In A l -> dl A = 0%nat ->
  length s = length l -> x < i -> amp l s x y = 0.
Proof.
  intros Hc HA H0 Hs Hx. destruct (in_split _ _ HA) as (p & q & ->).
  apply chain_app in Hc. destruct Hc as (k & Hp & Hk). cbn in Hk. destruct Hk as [Hk _].
  rewrite app_length in Hs.
  rewrite <- (firstn_skipn (length p) s).
  rewrite (amp_app p (A :: q) _ _ x k i); [|rewrite firstn_length; cbn in Hs; lia|exact Hp|exact Hx].
  assert (k = 0%nat) by congruence. subst k. rewrite H. reflexivity.
Qed.

Lemma chain_in_dr (l : list (site R)) i A j : chain i l j -> In A l ->
  dr A = j \/ exists B, In B l /\ dl B = dr A.
Proof.
  revert i; induction l as [|B l IH]; intros i Hc HA; [contradiction|]. cbn in Hc. destruct Hc as [_ Hc].
  destruct HA as [->|HA].
  - destruct l as [|C l]; [left; exact Hc|]. right. exists C. split; [right; left; reflexivity|]. apply Hc.
  - destruct (IH _ Hc HA) as [H|(C & HC & E)]; [left; exact H|]. right. exists C. split; [right; exact HC|exact E].
Qed.

Lemma alive (l : list (site R)) d L : (1:R) <> 0 -> 0 < d -> dims l = repeat d L -> closed l ->
  sumcfg (dims l) (fun s => amp l s 0 0 * sconj (amp l s 0 0)) = 1 -> pos l.
Proof.
  intros H10 H0 Hd Hc Hn.
  assert (HB : forall A, In A l -> 0 < dl A).
  { intros A HA. destruct (dl A) eqn:E; [|lia]. exfalso. apply H10. rewrite <- Hn.
    transitivity (sumcfg (dims l) (fun _ => 0 : R)); [|apply sumcfg_0].
    apply sumcfg_ext. intros s Hs. rewrite (amp_dead l 1 1 A s 0 0 Hc HA E); [ring| |lia].
    rewrite (incfg_length _ _ Hs). unfold dims. now rewrite map_length. }
  apply Forall_forall. intros A HA. split; [|split].
  - pose proof (uniform_of_dims _ _ _ Hd) as HF. rewrite (proj1 (Forall_forall _ _) HF A HA). exact H0.
  - apply HB, HA.
  - destruct (chain_in_dr _ _ _ _ Hc HA) as [->|(B & H1 & <-)]; [lia|]. apply HB, H1.
Qed.

Theorem reachable_good (O : lapack2 R) (P : lapack R) L d m :
  svd_ok O -> eig_ok O -> eig_zeros_last O -> lapack_ok P ->
  @definite R -> @integral R -> (1:R) <> 0 ->
  reachable O P L d m -> good L d m.
Proof.
  intros HO Heg Hez HP Hdef Hint H10 H. induction H.
  - eapply init_good; eassumption.
  - pose proof (good_dims _ _ _ IHreachable) as Hd.
    destruct IHreachable as (G1 & G2 & _). unfold mps_copy in H0.
    apply (init_good (fdata m)); try assumption; [apply G1| |eapply uniform_of_dims; exact Hd].
    transitivity (length (dims (fdata m))); [unfold dims; now rewrite map_length|]. rewrite Hd. apply repeat_length.
  - pose proof (good_dims _ _ _ IHreachable) as Hd.
    destruct IHreachable as (G1 & G2 & G3 & G4 & G5 & G6 & _).
    destruct (apply_ok m op k G1) as (m1 & E1 & W1 & D1 & _); [congruence| |].
    { rewrite Hd. rewrite nth_repeat_lt; auto. }
    assert (m1 = m') by congruence. subst m1. rewrite Hd, H0, upd_repeat in D1.
    assert (Hp : pos (fdata m')).
    { unfold mps_apply in E1. destruct (getitem (fdata m) k) as [A|] eqn:EA; [|discriminate]. cbn [bind] in E1.
      destruct (op_site op A) as [A'|] eqn:EO; [|discriminate]. cbn [bind] in E1.
      destruct (setitem (fdata m) k A') as [l|] eqn:ES; [|discriminate]. cbn [bind] in E1.
      destruct (init_fields _ _ _ E1) as (-> & _).
      eapply setitem_Forall; [exact ES|exact G2|].
      pose proof (proj1 (Forall_forall _ _) G2 A (getitem_In _ _ _ EA)) as (P1 & P2 & P3).
      unfold op_site in EO. destruct (Nat.eqb _ _); [|discriminate]. injection EO as <-. cbn.
      rewrite H0. auto. }
    apply good_again; try assumption. unfold mps_apply in E1.
    destruct (getitem (fdata m) k) as [A|] eqn:EA; [|discriminate]. cbn [bind] in E1.
    destruct (op_site op A) as [A'|] eqn:EO; [|discriminate]. cbn [bind] in E1.
    destruct (setitem (fdata m) k A') as [l|] eqn:ES; [|discriminate]. cbn [bind] in E1.
    destruct (init_fields _ _ _ E1) as (-> & _). exact E1.
  - pose proof (good_dims _ _ _ IHreachable) as Hd.
    destruct IHreachable as (G1 & G2 & G3 & G4 & G5 & G6 & _).
    destruct (mul_ok m c G1) as (m1 & E1 & W1 & D1 & _).
    assert (m1 = m') by congruence. subst m1. unfold mps_mul in E1.
    pose proof (init_fields _ _ _ E1) as (F1 & _).
    apply good_again; [exact W1| |congruence|rewrite F1; exact E1].
    rewrite F1. destruct (fdata m) as [|A l]; [constructor|]. rewrite mul_data.
    inversion G2; subst; constructor; assumption.
  - pose proof (good_dims _ _ _ IHreachable) as Hd.
    destruct IHreachable as (G1 & G2 & G3 & G4 & G5 & G6 & _).
    destruct (itemwise_mul_ok m c G1) as (m1 & E1 & W1 & F0 & D1 & _).
    assert (m1 = m') by congruence. subst m1. unfold itemwise_mul in E1.
    pose proof (init_fields _ _ _ E1) as (F1 & F2 & F3 & F4 & F5).
    apply fresh_good; try assumption; try congruence.
    rewrite F1. apply Forall_map. eapply Forall_impl; [|exact G2]. intros A HA. exact HA.
  - pose proof (good_dims _ _ _ IHreachable1) as Hd. pose proof (good_dims _ _ _ IHreachable2) as Hd2.
    destruct IHreachable1 as (G1 & G2 & G3 & G4 & G5 & G6 & _).
    destruct IHreachable2 as (K1 & K2 & _).
    destruct (add_ok a b G1 K1) as (m1 & E1 & W1 & D1 & _); [congruence|congruence|].
    assert (m1 = m') by congruence. subst m1. unfold mps_add in E1.
    destruct (mapM _ _) as [l|] eqn:EM; [|discriminate]. cbn [bind] in E1.
    pose proof (init_fields _ _ _ E1) as (F1 & _).
    apply good_again; [exact W1| |congruence|rewrite F1; exact E1].
    rewrite F1. eapply mapM_Forall; [exact EM|]. intros i A _ EA. cbn beta in EA.
    destruct (getitem (fdata a) i) as [x|] eqn:Ex; [|discriminate]. cbn [bind] in EA.
    destruct (getitem (fdata b) i) as [y|] eqn:Ey; [|discriminate]. cbn [bind] in EA.
    pose proof (proj1 (Forall_forall _ _) G2 x (getitem_In _ _ _ Ex)) as (P1 & P2 & P3).
    pose proof (proj1 (Forall_forall _ _) K2 y (getitem_In _ _ _ Ey)) as (Q1 & Q2 & Q3).
    unfold concat2, concat1, block_diag_site in EA.
    destruct (Nat.eqb i 0); [|destruct (Nat.eqb i _)];
      match type of EA with (if ?b then _ else _) = _ => destruct b end; try discriminate;
      injection EA as <-; cbn; lia.
  - pose proof (good_dims _ _ _ IHreachable) as Hd. pose proof IHreachable as (G1 & G2 & G3 & G4 & G5 & G6 & (c & o & C1 & C2 & _) & _).
    pose proof (left_orth_full P m HP G1 G2) as K. rewrite H0 in K.
    destruct K as (W & Pm & D & KL & Kd & _ & Kc & Ko & Koc & Kiso & _).
    destruct (flags_of m' c (fL m)) as [S1 S2]; try congruence.
    { rewrite <- KL. destruct W as (_ & -> & _). apply all_left_mixed. exact Kiso. }
    { unfold psi. apply left_iso_normalised; [apply W|exact Kiso]. }
    eapply kept_good; eassumption.
  - pose proof (good_dims _ _ _ IHreachable) as Hd. pose proof IHreachable as (G1 & G2 & G3 & G4 & G5 & G6 & (c & o & C1 & C2 & _) & _).
    pose proof (right_orth_full P m HP G1 G2) as K. rewrite H0 in K.
    destruct K as (W & Pm & D & KL & Kd & _ & Kc & Ko & Koc & Kiso & _).
    destruct (flags_of m' c 0) as [S1 S2]; try congruence.
    { apply all_right_mixed. exact Kiso. }
    { unfold psi. apply right_iso_normalised; [apply W|exact Kiso]. }
    eapply kept_good; eassumption.
  - pose proof IHreachable as (G1 & G2 & G3 & G4 & G5 & G6 & (c & o & C1 & C2 & _) & _).
    pose proof (mixed_orth_ok P m k HP G1 G2) as K. rewrite H1 in K.
    destruct K as (W & Pm & D & KL & Kd & _ & Kc & Ko & Koc & Kiso & Kn & _); [congruence|].
    rewrite <- D in Kn. destruct (flags_of m' c k) as [S1 S2]; try assumption; try congruence.
    eapply kept_good; eassumption.
  - pose proof (good_dims _ _ _ IHreachable) as Hd.
    pose proof IHreachable as (G1 & G2 & G3 & G4 & G5 & G6 & C1 & C2).
    assert (En : nth k (dims (fdata m)) 0%nat = d) by (rewrite Hd; apply nth_repeat_lt; assumption).
    pose proof (E_ok P m op k HP G1 G2 C1 C2) as K. rewrite H3 in K.
    destruct K as (W & Pm & D & S1 & S2 & _ & KL & Kd & _); try congruence.
    eapply kept_good; eassumption.
  - pose proof IHreachable as (G1 & G2 & G3 & G4 & G5 & G6 & _).
    pose proof (left_can_ok O m D sb minD HO G1 G3) as K. rewrite H2 in K. rewrite G4 in K.
    specialize (K G6 H0). destruct K as (_ & Kd & KL & Kfd & Kc & Ko & Koc & Kiso & _ & Kp & _).
    destruct (Kp H1 G2) as [W Pm].
    destruct (flags_of m' true (fL m)) as [S1 S2]; try congruence.
    { rewrite <- KL. destruct W as (_ & -> & _). apply all_left_mixed. exact Kiso. }
    { unfold psi. apply left_iso_normalised; [apply W|exact Kiso]. }
    eapply kept_good; try eassumption. congruence.
  - pose proof IHreachable as (G1 & G2 & G3 & G4 & G5 & G6 & _).
    pose proof (right_can_ok O m D sb minD HO G1 G3) as K. rewrite H2 in K. rewrite G4 in K.
    specialize (K G6 H0). destruct K as (_ & Kd & KL & Kfd & Kc & Ko & Koc & _ & Kiso & _ & Kp & _).
    destruct (Kp H1 G2) as [W Pm].
    destruct (flags_of m' true 0) as [S1 S2]; try congruence.
    { apply all_right_mixed. exact Kiso. }
    { unfold psi. apply right_iso_normalised; [apply W|exact Kiso]. }
    eapply kept_good; try eassumption. congruence.
  - pose proof (good_dims _ _ _ IHreachable) as Hd. pose proof IHreachable as (G1 & G2 & G3 & G4 & G5 & G6 & _).
    pose proof (left_can_back O m D HO Heg Hez Hdef Hint H10 G1 G3) as K. rewrite H1, G4 in K.
    specialize (K G6 H0). destruct Ls as [Ls|]; [|contradiction].
    destruct K as (W & Kd & KL & Kfd & Kc & Ko & Koc & Kiso & _).
    assert (N : sumcfg (dims (fdata m')) (fun s => psi m' s * sconj (psi m' s)) = 1)
      by (unfold psi; apply left_iso_normalised; [apply W|exact Kiso]).
    assert (Pm : pos (fdata m')) by (apply (alive _ d L); try assumption; [congruence|apply W]).
    destruct (flags_of m' true (fL m)) as [S1 S2]; try congruence.
    { rewrite <- KL. destruct W as (_ & -> & _). apply all_left_mixed. exact Kiso. }
    eapply kept_good; try eassumption. congruence.
  - pose proof (good_dims _ _ _ IHreachable) as Hd. pose proof IHreachable as (G1 & G2 & G3 & G4 & G5 & G6 & _).
    pose proof (right_can_back O m D HO Heg Hez Hdef Hint H10 G1 G3) as K. rewrite H1, G4 in K.
    specialize (K G6 H0). destruct Ls as [Ls|]; [|contradiction].
    destruct K as (W & Kd & KL & Kfd & Kc & Ko & Koc & _ & Kiso & _).
    assert (N : sumcfg (dims (fdata m')) (fun s => psi m' s * sconj (psi m' s)) = 1)
      by (unfold psi; apply right_iso_normalised; [apply W|exact Kiso]).
    assert (Pm : pos (fdata m')) by (apply (alive _ d L); try assumption; [congruence|apply W]).
    destruct (flags_of m' true 0) as [S1 S2]; try congruence.
    { apply all_right_mixed. exact Kiso. }
    eapply kept_good; try eassumption. congruence.
  - pose proof (good_dims _ _ _ IHreachable) as Hd. pose proof IHreachable as (G1 & G2 & G3 & G4 & G5 & G6 & _).
    pose proof (mixed_can_ok O m 0 sb HO G1 G3 G2) as K. rewrite H1, G4, G5 in K. specialize (K G6 H0).
    destruct K as (W & Kd & KL & Kfd & Kc & Ko & Koc & _ & Kiso & Kn & _).
    rewrite <- Kd in Kn.
    assert (Pm : pos (fdata m')) by (apply (alive _ d L); try assumption; [congruence|apply W]).
    destruct (flags_of m' true 0) as [S1 S2]; try assumption.
    eapply kept_good; try eassumption; congruence.
Qed.

(** The measurement after any such history. *)
Lemma reachable_E (O : lapack2 R) (P : lapack R) L d m op k :
  svd_ok O -> eig_ok O -> eig_zeros_last O -> lapack_ok P ->
  @definite R -> @integral R -> (1:R) <> 0 ->
  reachable O P L d m -> mr op = d -> mc op = d -> k < L ->
  match mps_E P m op k with
  | Err e => e = LinAlgError \/ e = Exception_
  | Ok (v, m') => mixed_at k (fdata m') /\
      (exists c, forall s, incfg (dims (fdata m)) s -> psi m s = c * psi m' s) /\
      v * sumcfg (dims (fdata m)) (fun s => psi m s * sconj (psi m s))
      = sre (expect1 (dims (fdata m)) (psi m) k (fun s t => me op t s))
  end.
Proof.
  intros HO Heg Hez HP Hdef Hint H10 H H1 H2 Hk.
  pose proof (reachable_good O P L d m HO Heg Hez HP Hdef Hint H10 H) as G.
  pose proof (good_dims _ _ _ G) as Hd.
  destruct G as (G1 & G2 & G3 & G4 & G5 & G6 & C1 & C2).
  assert (En : nth k (dims (fdata m)) 0%nat = d) by (rewrite Hd; apply nth_repeat_lt; assumption).
  pose proof (E_ok P m op k HP G1 G2 C1 C2) as K.
  destruct (mps_E P m op k) as [[v m']|e]; [|apply K; congruence].
  destruct K as (W & Pm & D & S1 & S2 & Foc & KL & Kd & Km & Kn & Kc & Kv); try congruence.
  split; [exact Km|]. split; assumption.
Qed.

(** After post_select the recorded length is one too large: a measurement which
    has to move the centre runs off the end of the chain. *)
Lemma post_select_then_E (P : lapack R) (m m' : fmps R) k w op k' :
  wf m -> 2 <= fL m -> k < fL m -> post_select m k w = Ok m' -> k' < fL m ->
  needs_centre m' [k'] = Ok true -> mps_E P m' op k' = Err IndexError.
Proof.
  intros Hw H2 Hk E Hk' Hn. unfold mps_E. rewrite Hn. cbn [bind].
  pose proof Hw as (_ & HL & _).
  assert (HLen : S (length (fdata m')) = fL m').
  { destruct (Nat.ltb w (nth k (dims (fdata m)) 0%nat)) eqn:Ew.
    - apply Nat.ltb_lt in Ew. destruct (post_select_ok m k w Hw H2 Hk Ew) as (m1 & E1 & _ & L1 & L2 & _).
      assert (m1 = m') by congruence. subst m1. congruence.
    - exfalso. unfold post_select in E. unfold getitem in E.
      destruct (nth_error (fdata m) k) as [A|] eqn:EA; [|discriminate]. cbn [bind] in E.
      assert (Es : slice A w = Err IndexError).
      { unfold slice. replace (phys A) with (nth k (dims (fdata m)) 0%nat); [rewrite Ew; reflexivity|].
        apply nth_error_nth. unfold dims. apply map_nth_error. exact EA. }
      destruct k as [|k]; rewrite Es in E;
        match type of E with context [nth_error ?l ?i] => destruct (nth_error l i) end; discriminate. }
  unfold mixed_orthogonalise, right_orthogonalise.
  assert (EfL : fL m' = fL m).
  { unfold post_select in E. repeat match type of E with (do _ <- ?x; _) = _ => destruct x; [|discriminate]; cbn [bind] in E end.
    injection E as <-. reflexivity. }
  replace (fL m' - k')%nat with (S (fL m' - k' - 1)) by lia. rewrite seq_S, rev_app_distr. cbn [rev app right_orth_loop].
  unfold getitem at 1.
  replace (nth_error (fdata m') (k' + (fL m' - k' - 1))) with (@None (site R)); [reflexivity|].
  symmetry. apply nth_error_None. lia.
Qed.

End Proofs.

Section Uniform.
Context {R : sring}.
Local Open Scope sr_scope.

(** The measurements on chains of one local dimension. *)
Lemma one_site_uniform (m : fmps R) k op : wf m -> uniform m -> k < fL m ->
  mr op = fd m /\ mc op = fd m -> one_site_ops m k op.
Proof.
  intros (_ & HL & _) Hu Hk H. unfold one_site_ops. rewrite (dims_uniform m Hu), nth_repeat_lt by lia. exact H.
Qed.

Lemma Es_ok_d (O : lapack2 R) (m : fmps R) ops k :
  svd_ok O -> wf m -> uniform m -> pos (fdata m) -> 0 < fd m -> k < fL m ->
  Forall (fun op => mr op = fd m /\ mc op = fd m) ops ->
  match mps_Es O m ops k with
  | Err e => e = LinAlgError
  | Ok (vs, m') => wf m' /\ dims (fdata m') = dims (fdata m) /\
      (exists c, forall s, incfg (dims (fdata m)) s -> psi m s = c * psi m' s) /\
      length vs = length ops /\
      forall n op, nth_error ops n = Some op -> exists v, nth_error vs n = Some v /\
      v * sumcfg (dims (fdata m)) (fun s => psi m s * sconj (psi m s))
      = sre (expect1 (dims (fdata m)) (psi m) k (me op))
  end.
Proof.
  intros. apply Es_ok; try assumption. eapply Forall_impl; [|eassumption].
  intros op Hop. apply one_site_uniform; assumption.
Qed.

Lemma E__ok_d (O : lapack2 R) (m : fmps R) op k :
  svd_ok O -> wf m -> uniform m -> pos (fdata m) -> 0 < fd m -> k < fL m ->
  mr op = fd m /\ mc op = fd m ->
  match mps_E_ O m op k with
  | Err e => e = LinAlgError
  | Ok (v, m') => wf m' /\ dims (fdata m') = dims (fdata m) /\
      (exists c, forall s, incfg (dims (fdata m)) s -> psi m s = c * psi m' s) /\
      v * sumcfg (dims (fdata m)) (fun s => psi m s * sconj (psi m s))
      = sre (expect1 (dims (fdata m)) (psi m) k (fun s t => me op t s))
  end.
Proof. intros. apply E__ok; try assumption. apply one_site_uniform; assumption. Qed.

End Uniform.
