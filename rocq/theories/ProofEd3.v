(** Read-outs of an ordinary run: mps_evs and loschmidt. *)
From Coq Require Import ZArith.
From Verif Require Import Alg ModelMPS SpecMPS ProofMPS ModelOrth SpecOrth ModelCanon SpecCanon ProofMeas ProofCanon3 ProofCanon4 ProofHist ModelStruct SpecStruct ProofStruct ModelTraj SpecTraj ProofTraj ModelNcon ModelEk ModelTensor
  ModelExp ModelEd.
Local Open Scope nat_scope.

Section Proofs.
Context {R : sring}.
Local Open Scope sr_scope.
Add Ring Rr : (s_th R).

Lemma chain_same (l m : list (site R)) : Forall2 site_eq l m -> forall i j, chain i l j -> chain i m j.
Proof. induction 1 as [|A B l m (E1 & E2 & E3 & _) H IH]; intros i j C; [exact C|]. cbn [chain] in *. destruct C as [C1 C2]. split; [congruence|]. apply IH. now rewrite <- E3. Qed.
Lemma dims_same (l m : list (site R)) : Forall2 site_eq l m -> dims l = dims m.
Proof. induction 1 as [|A B l m (E1 & _) H IH]; [reflexivity|]. unfold dims in *. cbn [map]. now rewrite E1, IH. Qed.
Lemma pos_same (l m : list (site R)) : Forall2 site_eq l m -> pos l -> pos m.
Proof. induction 1 as [|A B l m (E1 & E2 & E3 & _) H IH]; intros P; [exact P|]. inversion P as [|? ? Q1 Q2]; subst. constructor; [|now apply IH]. now rewrite <- E1, <- E2, <- E3. Qed.
Lemma psi_same (x m : fmps R) s : closed (fdata x) -> same_tensors x m -> incfg (dims (fdata x)) s -> psi m s = psi x s.
Proof. intros Hc H Hs. unfold psi. symmetry. apply (amp_ext (fdata x) (fdata m) s 0%nat 0%nat H Hs 1%nat 1%nat Hc). lia. Qed.

Lemma decode_one (I : imag R) (x : fmps R) D v : imag_ok I -> fits x D -> serialize_real I x = Ok v ->
  structure_LdD (fL x) (fd x) D = Ok (map shape_of (fdata x)) /\ exists m, deserialize_real I v (map shape_of (fdata x)) = Ok m /\ same_tensors x m /\ fL m = fL x /\ fd m = fd x.
Proof.
  intros HI Hf Ev. split; [now apply fits_structure|]. destruct Hf as (F1 & F2 & F3).
  assert (Hne : fdata x <> []) by (intros K; rewrite K in F2; cbn in F2; lia).
  destruct (serialize_real_roundtrip I x HI Hne) as (v2 & Ez & _ & (m2 & Em2 & HF2 & _)). assert (v2 = v) by congruence. subst v2.
  exists m2. split; [exact Em2|]. split; [exact HF2|]. destruct (deserialize_real_inv _ _ _ _ Em2) as (_ & J2 & J3 & _). rewrite map_length in J2. split; [congruence|].
  rewrite J3. destruct (fdata x) as [|A l]; [congruence|]. cbn [map shape_of]. exact (proj1 (F3 0%nat A eq_refl)).
Qed.

(** m is a decoded copy of x. *)
Definition copy_of (x m : fmps R) : Prop := same_tensors x m /\ fL m = fL x /\ fd m = fd x /\ length (fdata x) = fL x /\ (2 <= fL x)%nat.
Lemma copy_wf (x m : fmps R) : copy_of x m -> closed (fdata x) -> uniform x -> wf m /\ uniform m.
Proof.
  intros (H1 & H2 & H3 & H4 & H5) Hc Hu. assert (E : length (fdata m) = length (fdata x)) by (symmetry; apply (Forall2_len _ _ _ H1)). split.
  - split; [now apply (chain_same (fdata x))|]. split; [congruence|]. intros K. rewrite K in E. cbn in E. lia.
  - unfold uniform in *. rewrite H3. rewrite Forall_forall in *. intros B HB. destruct (In_nth_error _ _ HB) as (n & En).
    assert (G : forall l m : list (site R), Forall2 site_eq l m -> forall n B, nth_error m n = Some B -> exists A, nth_error l n = Some A /\ site_eq A B).
    { clear. induction 1 as [|A C l m Q H IH]; intros [|n] B E; try discriminate; cbn in *; [injection E as <-; eauto|now apply IH]. }
    destruct (G _ _ H1 _ _ En) as (A & EA & (Q & _)). rewrite <- Q. apply Hu. now apply nth_error_In in EA.
Qed.

Lemma fits_uniform (x : fmps R) D : fits x D -> uniform x.
Proof. intros (_ & _ & H). apply Forall_forall. intros A HA. destruct (In_nth_error _ _ HA) as (n & En). exact (proj1 (H n A En)). Qed.

Lemma entries_copy (I : imag R) L d : imag_ok I -> forall xs Ds vs extra,
  Forall2 (entry_ok I L d) xs Ds -> Forall2 (fun x v => serialize_real I x = Ok v) xs vs ->
  exists ms, mapM (fun p : nat * list R => do st <- structure_LdD L d (fst p); deserialize_real I (snd p) st)
               (combine (Ds ++ extra) vs) = Ok ms /\ Forall2 (fun x m => copy_of x m /\ uniform x /\ fL x = L /\ fd x = d) xs ms.
Proof.
  intros HI xs Ds vs extra H. revert vs. induction H as [|x D xs Ds (Hf & HL & Hd) H IH]; intros vs Hv.
  - inversion Hv; subst. exists []. split; [destruct extra; reflexivity|constructor].
  - inversion Hv as [|? v ? vs' Ev Hv']; subst. destruct (IH _ Hv') as (ms & E & HF).
    destruct (decode_one I x D v HI Hf Ev) as (D1 & m & D2 & D3 & D4 & D5).
    exists (m :: ms). split.
    + cbn [app combine mapM fst snd]. rewrite D1. cbn [bind]. rewrite D2. cbn [bind]. cbn [fst snd] in E. now rewrite E.
    + constructor; [|exact HF]. destruct Hf as (F1 & F2 & F3) eqn:Ef. split; [exact (conj D3 (conj D4 (conj D5 (conj F2 F1))))|]. split; [apply (fits_uniform x D); split; auto|auto].
Qed.

Definition norm2 (x : fmps R) : R := sumcfg (dims (fdata x)) (fun s => psi x s * sconj (psi x s)).

Lemma upd_incfg ds s k t : incfg ds s -> (t < nth k ds 0)%nat -> incfg ds (upd s k t).
Proof.
  unfold incfg. intros H. revert k. induction H as [|x d s ds Hx H IH]; intros [|k] Ht; cbn in *; try lia; constructor; auto.
Qed.

Lemma mps_evs_run (O : lapack2 R) (I : imag R) tr xs ops k : imag_ok I -> svd_ok O -> run O I tr xs -> xs <> [] ->
  Forall (fun x => closed (fdata x) /\ pos (fdata x)) xs -> (k < fL (tmps tr))%nat -> (0 < fd (tmps tr))%nat ->
  Forall (fun op => mr op = fd (tmps tr) /\ mc op = fd (tmps tr)) ops ->
  match mps_evs I O (mkEd tr None) ops k with
  | Err e => e = LinAlgError
  | Ok rows => Forall2 (fun x row => length row = length ops /\
      forall n op, nth_error ops n = Some op -> exists v, nth_error row n = Some v /\
        v * sumcfg (dims (fdata x)) (fun s => psi x s * sconj (psi x s)) = sre (expect1 (dims (fdata x)) (psi x) k (me op))) xs rows
  end.
Proof.
  intros HI HO Hrun Hne Hc Hk Hd Hops. destruct (run_inv O I tr xs HI Hrun) as (Ds & Dl & I1 & I2 & I3 & I4).
  destruct (entries_copy I _ _ HI xs Ds (thist tr) [Dl] I3 I4) as (ms & E & HF).
  unfold mps_evs, mps_list_ed, fill_history. cbn [ed_h ed_t bind]. unfold mps_list. rewrite I1.
  assert (Hth : thist tr <> []) by (intros K; rewrite K in I4; inversion I4; congruence).
  destruct (thist tr) as [|v0 vs] eqn:Et; [congruence|]. rewrite E. cbn [bind]. clear - HO HF Hc Hk Hd Hops.
  revert Hc. induction HF as [|x m xs ms (Hcp & Hu & HL & Hfd) HF IH]; intros Hc; cbn [mapM]; [constructor|].
  inversion Hc as [|? ? [Hx Hp] Hc']; subst. specialize (IH Hc').
  destruct (copy_wf x m Hcp Hx Hu) as [Wm Um]. destruct Hcp as (P1 & P2 & P3 & P4 & P5).
  pose proof (Es_ok_d O m ops k HO Wm Um (pos_same _ _ P1 Hp) ltac:(rewrite P3, Hfd; exact Hd) ltac:(rewrite P2, HL; exact Hk)) as K.
  specialize (K ltac:(rewrite P3, Hfd; exact Hops)). destruct (mps_Es O m ops k) as [[row m']|er]; cbn [bind]; [|exact K].
  match goal with |- match bind ?X _ with _ => _ end => destruct X as [rows|er] end; cbn [bind fst]; [|exact IH].
  constructor; [|exact IH]. destruct K as (_ & _ & _ & K1 & K2). split; [exact K1|]. intros n op En. destruct (K2 n op En) as (v & V1 & V2). exists v. split; [exact V1|].
  rewrite <- (dims_same _ _ P1) in V2. unfold expect1 in *.
  etransitivity; [|etransitivity; [exact V2|]]; f_equal; apply sumcfg_ext; intros s Hs.
  - now rewrite (psi_same x m s Hx P1 Hs).
  - apply sum_ext. intros t Ht. rewrite (psi_same x m s Hx P1 Hs), (psi_same x m (upd s k t) Hx P1 (upd_incfg _ _ _ _ Hs Ht)). reflexivity.
Qed.

Lemma loschmidt_run (O : lapack2 R) (I : imag R) abs tr x0 xs : imag_ok I -> run O I tr (x0 :: xs) ->
  Forall (fun x => closed (fdata x) /\ fits x (fD (tmps tr))) (x0 :: xs) ->
  loschmidt I abs tr = Ok (map (fun x => abs (sumcfg (dims (fdata x0)) (fun s => psi x0 s * sconj (psi x s)))) (x0 :: xs)).
Proof.
  intros HI Hrun Hc. destruct (run_inv O I tr (x0 :: xs) HI Hrun) as (Ds & Dl & _ & _ & I3 & I4).
  unfold loschmidt. destruct (thist tr) as [|v0 vs]; [inversion I4|]. assert (I4c := I4). inversion I4c as [|? ? ? ? Ev0 I4']; subst. assert (I3c := I3). inversion I3c as [|? D0 ? Ds' (G1 & G2 & G3) I3']; subst.
  inversion Hc as [|? ? [C1 C2] Hc']; subst.
  assert (HLd : forall x, In x (x0 :: xs) -> fL x = fL (tmps tr) /\ fd x = fd (tmps tr)).
  { clear - I3. intros x Hx. induction I3 as [|y D ys Ds (_ & J1 & J2) I3 IH]; [destruct Hx|]. destruct Hx as [<-|Hx]; auto. }
  assert (Hshape : forall x, In x (x0 :: xs) -> map shape_of (fdata x) = map shape_of (fdata x0)).
  { intros x Hx. destruct (HLd x Hx) as [L1 L2]. rewrite Forall_forall in Hc. destruct (Hc x Hx) as [_ Fx].
    assert (E1 := fits_structure x _ Fx). assert (E2 := fits_structure x0 _ C2). rewrite L1, L2 in E1. rewrite G2, G3 in E2. congruence. }
  destruct (decode_one I x0 _ v0 HI C2 Ev0) as (S1 & m0 & S2 & S3 & S4 & S5). rewrite G2, G3 in S1. rewrite S1. cbn [bind]. rewrite S2. cbn [bind].
  assert (Hall : forall l ws, Forall2 (fun x v => serialize_real I x = Ok v) l ws -> (forall x, In x l -> In x (x0 :: xs)) ->
    mapM (fun v => do m <- deserialize_real I v (map shape_of (fdata x0)); do F <- overlap m0 m; Ok (abs (me F 0%nat 0%nat))) ws
    = Ok (map (fun x => abs (sumcfg (dims (fdata x0)) (fun s => psi x0 s * sconj (psi x s)))) l)).
  { induction 1 as [|x v l ws Ex Hl IH]; intros Hin; [reflexivity|]. cbn [mapM map].
    assert (Hx := Hin x (or_introl eq_refl)). rewrite Forall_forall in Hc. destruct (Hc x Hx) as [Cx Fx].
    destruct (decode_one I x _ v HI Fx Ex) as (_ & m & M1 & M2 & _). rewrite (Hshape x Hx) in M1. rewrite M1. cbn [bind].
    assert (Dx : dims (fdata x) = dims (fdata x0)).
    { assert (J := f_equal (map (fun sh : nat * nat * nat => fst (fst sh))) (Hshape x Hx)). rewrite !map_map in J. exact J. }
    destruct (overlap_ok m0 m) as (F & EF & _ & _ & VF); [now apply (chain_same (fdata x0))|now apply (chain_same (fdata x))|
      rewrite <- (dims_same _ _ S3), <- (dims_same _ _ M2); congruence|].
    rewrite EF. cbn [bind]. rewrite VF, IH by (intros; apply Hin; now right). cbn [bind]. do 3 f_equal. rewrite <- (dims_same _ _ S3). apply sumcfg_ext. intros s Hs.
    rewrite (psi_same x0 m0 s C1 S3 Hs), (psi_same x m s Cx M2) by (rewrite Dx; exact Hs). reflexivity. }
  exact (Hall (x0 :: xs) (v0 :: vs) I4 ltac:(auto)).
Qed.
End Proofs.
