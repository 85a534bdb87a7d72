(** Product states, append and the operator made from a state. *)
From Verif Require Import Alg ModelMPS SpecMPS ProofMPS ProofMPS2 ModelOrth ModelNcon SpecNcon ModelEk ModelNp ModelTensor SpecTensor ModelPeps SpecPeps ProofPeps11 ProofMpoMps ModelApprox.

Import ListNotations.
Local Notation prod_ := (fold_right Nat.mul 1%nat).

Section Proof.
Context {R : sring}.
Local Open Scope sr_scope.
Add Ring Rr : (s_th R).

Lemma product_overlap_ok (m : fmps R) (vs : list (nat * (nat -> R))) : wf m -> dims (fdata m) = map fst vs ->
  exists F, product_state_overlap m vs = Ok F /\ mr F = 1%nat /\ mc F = 1%nat /\
    me F 0%nat 0%nat = sumcfg (map fst vs) (fun s => psi m s * sconj (prodl (map (fun vx => snd (fst vx) (snd vx)) (combine vs s)))).
Proof.
  intros Hm Hd. assert (Hne : vs <> []).
  { intros ->. destruct Hm as (_ & _ & Hn). apply Hn. cbn in Hd. unfold dims in Hd. now apply map_eq_nil in Hd. }
  unfold product_state_overlap. destruct (product_state_ok vs Hne) as (p & -> & Hp & Hdp & Hps). cbn [bind].
  destruct (overlap_ok m p) as (F & HF & F1 & F2 & HV); [apply Hm|apply Hp|congruence|].
  exists F. split; [exact HF|]. split; [exact F1|]. split; [exact F2|]. rewrite HV. unfold inner. rewrite Hd.
  apply sumcfg_ext; intros s Hs. rewrite Hps; [reflexivity|]. apply incfg_length in Hs. now rewrite map_length in Hs.
Qed.

Lemma append_ok (a : fmps R) (t : site R) : wf a ->
  exists m, mps_append a t = Ok m /\ fdata m = fdata a ++ [t] /\ fL m = S (fL a) /\
    (dl t = 1%nat -> dr t = 1%nat -> wf m /\ dims (fdata m) = dims (fdata a) ++ [phys t] /\
      forall s x, length s = fL a -> psi m (s ++ [x]) = psi a s * ent t x 0%nat 0%nat).
Proof.
  intros (Hca & HLa & Hna). unfold mps_append.
  destruct (init_ok (fdata a ++ [t])) as (m & Hm & Hd & HL & _).
  { destruct (fdata a); [congruence|discriminate]. }
  exists m. split; [exact Hm|]. split; [exact Hd|]. rewrite HL, Hd, app_length, HLa. split; [cbn; lia|]. intros T1 T2.
  split; [|split].
  - unfold wf. rewrite HL, Hd. split; [|split; [reflexivity|destruct (fdata a); [congruence|discriminate]]].
    apply chain_app. exists 1%nat. split; [exact Hca|]. cbn. auto.
  - exact (dims_app (fdata a) [t]).
  - intros s x Hs. unfold psi. rewrite Hd.
    rewrite (amp_app (fdata a) [t] s [x] 0 1 1) by (auto; lia || congruence).
    cbn [sum amp]. rewrite T2. cbn [sum]. rewrite dlt_eq. ring.
Qed.

Lemma product_states_ok (vss : list (list (nat * (nat -> R)))) : Forall (fun vs => vs <> []) vss ->
  exists ms, from_product_states vss = Ok ms /\
    Forall2 (fun vs m => wf m /\ dims (fdata m) = map fst vs /\
      forall s, length s = length vs -> psi m s = prodl (map (fun vx => snd (fst vx) (snd vx)) (combine vs s))) vss ms.
Proof.
  unfold from_product_states. induction 1 as [|vs vss Hv _ IH]; [exists []; auto|]. destruct IH as (ms & Hms & H2).
  destruct (product_state_ok vs Hv) as (m & Hm & H). cbn [mapM]. rewrite Hm. cbn [bind]. rewrite Hms. cbn [bind]. exists (m :: ms). auto.
Qed.

Lemma product_states_empty (vss : list (list (nat * (nat -> R)))) : In [] vss -> exists e, from_product_states vss = Err e.
Proof.
  unfold from_product_states. induction vss as [|vs vss IH]; [easy|]. intros [->|H]; cbn [mapM].
  - cbn. eauto.
  - destruct (from_product_state vs); [|cbn; eauto]. cbn [bind]. destruct (IH H) as (e & ->). cbn. eauto.
Qed.

Lemma from_mps_column S (m : fmps R) : setio_ok S -> wf m -> (1 < fL m)%nat ->
  exists o M, mpo_from_mps m = Ok o /\ mpo_recombine S o = Ok M /\ mr M = prod_ (dims (fdata m)) /\ mc M = 1%nat /\
    forall s, incfg (dims (fdata m)) s -> me M (position (dims (fdata m)) s) 0%nat = sconj (psi m s).
Proof.
  intros HS Hm H1. destruct (from_mps_ok m Hm) as (o & Ho & HL & _ & _ & Hlen & Hok & Hup & Hdn & HV).
  destruct (mpo_recombine_ok S o HS Hok) as (M & HM & M1 & M2 & MV); [congruence|lia|].
  exists o, M. split; [exact Ho|]. split; [exact HM|]. rewrite Hup, Hdn in *.
  assert (P1 : forall n, prod_ (repeat 1%nat n) = 1%nat) by (induction n as [|n IH]; [reflexivity|]; cbn in *; lia).
  assert (I0 : forall n, incfg (repeat 1%nat n) (repeat 0%nat n)) by (induction n; constructor; auto).
  assert (P0 : forall n, position (repeat 1%nat n) (repeat 0%nat n) = 0%nat).
  { unfold position. assert (PZ : forall n x, x = 0%nat -> fold_left (fun n xd => (n * snd xd + fst xd)%nat) (combine (repeat 0%nat n) (repeat 1%nat n)) x = 0%nat).
    { induction n as [|n IH]; intros x ->; [reflexivity|]. cbn [repeat combine fold_left fst snd]. now apply IH. }
    intros n. now apply PZ. }
  split; [exact M1|]. split; [now rewrite M2|]. intros s Hs. specialize (MV _ _ (I0 (fL m)) Hs). rewrite P0 in MV. now rewrite MV, HV.
Qed.

Lemma from_mps_apply S (m : fmps R) (a : mpo R) : setio_ok S -> wf m -> mpo_ok (odata a) -> map (leg 0) (odata a) = dims (fdata m) ->
  exists o c, mpo_from_mps m = Ok o /\ mpo_mul S a o = Ok c /\ mpo_ok (odata c) /\
    map (leg 0) (odata c) = repeat 1%nat (fL m) /\ map (leg 2) (odata c) = map (leg 2) (odata a) /\
    forall ds, incfg (map (leg 2) (odata a)) ds ->
      mop (odata c) (repeat 0%nat (fL m)) ds = sumcfg (dims (fdata m)) (fun ks => mop (odata a) ks ds * psi m ks).
Proof.
  intros HS Hm Ha Hl. destruct (from_mps_ok m Hm) as (o & Ho & HL & _ & _ & Hlen & Hok & Hup & Hdn & HV).
  destruct (mpo_mul_ok S a o HS Ha Hok) as (c & Hc & C1 & _ & _ & _ & _ & C2 & C3 & CV); [congruence|].
  exists o, c. split; [exact Ho|]. split; [exact Hc|]. split; [exact C1|]. split; [congruence|]. split; [exact C3|]. intros ds Hds.
  assert (I0 : forall n, incfg (repeat 1%nat n) (repeat 0%nat n)) by (induction n; constructor; auto).
  rewrite CV; [|rewrite Hup; apply I0|exact Hds]. rewrite Hl. apply sumcfg_ext; intros ks Hk. rewrite HV by exact Hk. ring.
Qed.
End Proof.
