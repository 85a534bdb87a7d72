(** The product of matrix product operators. *)
From Verif Require Import Alg ModelMPS SpecMPS ModelNcon SpecNcon ModelEk ModelNp ModelTensor ModelPeps SpecTensor ProofNcon ProofNcon3 ProofNcon4 ProofEk2 ProofEk4 ProofTrace ProofTrace2 ProofNp SpecPeps ProofPeps ProofPeps2 ProofPeps3 ProofPeps10.
From Coq Require Import Permutation Sorted.
Import ListNotations.
Local Notation prod_ := (fold_right Nat.mul 1%nat).

Section Mpo.
Context {R : sring}.
Local Open Scope sr_scope.
Add Ring Rr : (s_th R).
Notation T0 := (mkT [] (fun _ => 0 : R)).

Lemma mpo_recombine_ok S (m : mpo R) : setio_ok S -> mpo_ok (odata m) -> oL m = length (odata m) -> (1 < oL m)%nat ->
  exists M, mpo_recombine S m = Ok M /\ mr M = prod_ (map (leg 2) (odata m)) /\ mc M = prod_ (map (leg 0) (odata m)) /\
    forall us ds, incfg (map (leg 0) (odata m)) us -> incfg (map (leg 2) (odata m)) ds ->
      me M (position (map (leg 2) (odata m)) ds) (position (map (leg 0) (odata m)) us) = sconj (mop (odata m) us ds).
Proof.
  intros HS Hok HL H1. rewrite HL in H1. destruct (ncon_mpo S (odata m) HS Hok H1) as (T & E & HT & V). unfold mpo_recombine. rewrite HL, E. cbn [bind].
  set (U := map (leg 0) (odata m)) in *. set (D := map (leg 2) (odata m)) in *.
  assert (F1 : firstn (length (odata m)) (tsh T) = U) by (rewrite HT, firstn_app; unfold U at 2; rewrite map_length, Nat.sub_diag; cbn [firstn]; rewrite app_nil_r; apply firstn_all2; unfold U; now rewrite map_length).
  assert (F2 : skipn (length (odata m)) (tsh T) = D) by (rewrite HT, skipn_app; unfold U at 2; rewrite map_length, Nat.sub_diag; cbn [skipn]; rewrite skipn_all2; [reflexivity|unfold U; now rewrite map_length]).
  rewrite F1, F2. unfold reshape_. rewrite HT, prod_app. cbn [fold_right]. rewrite Nat.mul_1_r, Nat.eqb_refl. cbn [bind]. eexists. split; [reflexivity|]. cbn [mr mc me te tsh]. split; [reflexivity|]. split; [reflexivity|].
  intros us ds Hu Hd. f_equal. assert (Lu := incfg_length _ _ Hu). assert (Ld := incfg_length _ _ Hd).
  rewrite <- V by (unfold U, D in *; rewrite map_length in *; congruence). f_equal.
  match goal with |- unravel ?sh ?n = _ => replace n with (ravel (U ++ D) (us ++ ds)) end.
  - apply unravel_ravel. apply Forall2_app; assumption.
  - rewrite ravel_app by exact Lu. rewrite !position_ravel by assumption. cbn [ravel fold_right]. lia.
Qed.

(** Chains of matrices, the entry of each being a sum of products of two entries. *)
Definition link : Type := (nat * (nat -> nat -> R))%type.
Fixpoint chainS (ms : list link) (l r : nat) : R :=
  match ms with
  | [] => dlt l r
  | m :: ms => sum (fst m) (fun k => snd m k l * chainS ms k r)
  end.
Definition inst (fs : list (nat -> link)) (ks : list nat) : list link := map (fun fk => fst fk (snd fk)) (combine fs ks).

Inductive ispair : nat -> nat -> list link -> list nat -> list (nat -> link) -> list (nat -> link) -> nat -> nat -> Prop :=
| ispair_nil B A : ispair B A [] [] [] [] B A
| ispair_cons B A Db Da C n fb fa Cs ns fbs fas Br Ar :
    (forall k, fst (fb k) = Db) -> (forall k, fst (fa k) = Da) -> fst C = (Db * Da)%nat ->
    (forall kb ka lb la, (kb < Db)%nat -> (ka < Da)%nat -> (lb < B)%nat -> (la < A)%nat ->
       snd C (kb * Da + ka)%nat (lb * A + la)%nat = sum n (fun k => snd (fb k) kb lb * snd (fa k) ka la)) ->
    ispair Db Da Cs ns fbs fas Br Ar -> ispair B A (C :: Cs) (n :: ns) (fb :: fbs) (fa :: fas) Br Ar.

Lemma dlt_pair A lb la rb ra : (la < A)%nat -> (ra < A)%nat -> dlt (lb * A + la) (rb * A + ra) = dlt lb rb * (dlt la ra : R).
Proof.
  intros Hl Hr. destruct (Nat.eq_dec lb rb) as [->|Hn].
  - destruct (Nat.eq_dec la ra) as [->|Hm]; [rewrite !dlt_eq; ring|]. rewrite (dlt_neq la ra) by assumption. rewrite dlt_neq by lia. ring.
  - rewrite (dlt_neq lb rb) by assumption. rewrite dlt_neq; [ring|]. intros E. apply Hn.
    assert (E1 : ((lb * A + la) / A = lb)%nat) by (rewrite Nat.div_add_l by lia; rewrite Nat.div_small by lia; lia).
    assert (E2 : ((rb * A + ra) / A = rb)%nat) by (rewrite Nat.div_add_l by lia; rewrite Nat.div_small by lia; lia). congruence.
Qed.

Lemma chain_pair B A Cs ns fbs fas Br Ar : ispair B A Cs ns fbs fas Br Ar -> forall lb la rb ra, (lb < B)%nat -> (la < A)%nat -> (rb < Br)%nat -> (ra < Ar)%nat ->
  chainS Cs (lb * A + la) (rb * Ar + ra) = sumcfg ns (fun ks => chainS (inst fbs ks) lb rb * chainS (inst fas ks) la ra).
Proof.
  induction 1 as [|B A Db Da C n fb fa Cs ns fbs fas Br Ar H1 H2 H3 H4 Hp IH]; intros lb la rb ra Hlb Hla Hrb Hra.
  - cbn [chainS sumcfg inst combine map]. now apply dlt_pair.
  - cbn [chainS sumcfg]. rewrite H3, sum_mul.
    transitivity (sum Db (fun kb => sum Da (fun ka => sum n (fun k => sumcfg ns (fun ks => (snd (fb k) kb lb * chainS (inst fbs ks) kb rb) * (snd (fa k) ka la * chainS (inst fas ks) ka ra)))))).
    + apply sum_ext. intros kb Hkb. apply sum_ext. intros ka Hka. rewrite H4, IH by assumption. rewrite <- sum_mul_r. apply sum_ext. intros k _. rewrite <- sumcfg_mul_l. apply sumcfg_ext. intros ks _. ring.
    + rewrite (sum_ext Db _ (fun kb => sum n (fun k => sum Da (fun ka => sumcfg ns (fun ks => (snd (fb k) kb lb * chainS (inst fbs ks) kb rb) * (snd (fa k) ka la * chainS (inst fas ks) ka ra)))))) by (intros; apply sum_swap).
      rewrite sum_swap. apply sum_ext. intros k _.
      rewrite (sum_ext Db _ (fun kb => sumcfg ns (fun ks => sum Da (fun ka => (snd (fb k) kb lb * chainS (inst fbs ks) kb rb) * (snd (fa k) ka la * chainS (inst fas ks) ka ra))))) by (intros; now rewrite sumcfg_sum).
      rewrite <- sumcfg_sum. apply sumcfg_ext. intros ks _. unfold inst at 3 4. cbn [combine map fst snd chainS]. rewrite H1, H2. fold (inst fbs ks). fold (inst fas ks).
      rewrite <- sum_mul_r. apply sum_ext. intros kb _. now rewrite sum_mul_l.
Qed.

Lemma chain_trace B A Cs ns fbs fas : ispair B A Cs ns fbs fas B A ->
  sum (B * A) (fun r => chainS Cs r r) = sumcfg ns (fun ks => sum B (fun r => chainS (inst fbs ks) r r) * sum A (fun r => chainS (inst fas ks) r r)).
Proof.
  intros H. rewrite sum_mul. transitivity (sum B (fun rb => sum A (fun ra => sumcfg ns (fun ks => chainS (inst fbs ks) rb rb * chainS (inst fas ks) ra ra)))).
  - apply sum_ext. intros rb Hb. apply sum_ext. intros ra Ha. now apply (chain_pair B A Cs ns fbs fas B A H).
  - rewrite (sum_ext B _ (fun rb => sumcfg ns (fun ks => sum A (fun ra => chainS (inst fbs ks) rb rb * chainS (inst fas ks) ra ra)))) by (intros; now rewrite sumcfg_sum).
    rewrite <- sumcfg_sum. apply sumcfg_ext. intros ks _. rewrite <- sum_mul_r. apply sum_ext. intros rb _. now rewrite sum_mul_l.
Qed.

Definition mlink (A : tens R) (u d : nat) : link := (leg 1 A, fun r l => te A [u; r; d; l]).
Fixpoint mlinks (data : list (tens R)) (us ds : list nat) : list link :=
  match data, us, ds with
  | A :: data, u :: us, d :: ds => mlink A u d :: mlinks data us ds
  | _, _, _ => []
  end.
Lemma rowS_chain data : forall us ds l r, length us = length data -> length ds = length data -> rowS (map mcell data) us ds l r = chainS (mlinks data us ds) l r.
Proof.
  induction data as [|A data IH]; intros us ds l r Hu Hd; destruct us as [|u us]; try discriminate; destruct ds as [|d ds]; try discriminate; [reflexivity|].
  cbn [map rowS mlinks chainS mlink fst snd mcell cr ce]. apply sum_ext. intros k _. f_equal. apply IH; [now injection Hu|now injection Hd].
Qed.

Lemma mul_row S (a b : list (tens R)) : setio_ok S -> forall al ar bl br, mok al a ar -> mok bl b br -> map (leg 2) b = map (leg 0) a ->
  exists c, mapM (fun WW => mul_site S (fst WW) (snd WW)) (combine a b) = Ok c /\ length c = length a /\ mok (bl * al) c (br * ar) /\
    map (leg 0) c = map (leg 0) b /\ map (leg 2) c = map (leg 2) a /\
    forall us ds, incfg (map (leg 0) b) us -> incfg (map (leg 2) a) ds ->
      exists fbs fas, ispair bl al (mlinks c us ds) (map (leg 0) a) fbs fas br ar /\
        forall ks, length ks = length a -> inst fbs ks = mlinks b us ks /\ inst fas ks = mlinks a ks ds.
Proof.
  intros HS. revert b. induction a as [|A a IH]; intros [|B b] al ar bl br Ha Hb E; try discriminate.
  - cbn in Ha, Hb. subst. exists []. do 5 (split; [try reflexivity|]). intros us ds Hu Hd. inversion Hu; inversion Hd; subst. exists [], []. split; [constructor|]. intros [|] HL; [|discriminate]. split; reflexivity.
  - destruct Ha as (A4 & Al & Ha). destruct Hb as (B4 & Bl & Hb). cbn [map] in E. injection E as E1 E2.
    destruct (IH b _ _ _ _ Ha Hb E2) as (c & Ec & Lc & Oc & C0 & C2 & V). assert (SA := shape4 A A4). assert (SB := shape4 B B4). rewrite E1 in SB. rewrite Al in SA. rewrite Bl in SB.
    destruct (mul_site_ok S A B _ _ _ _ _ _ _ HS SA SB) as (T & ET & ST & VT).
    exists (T :: c). cbn [combine mapM fst snd]. rewrite ET. cbn [bind]. rewrite Ec. cbn [bind]. split; [reflexivity|]. split; [cbn; congruence|].
    assert (L0 : leg 0 T = leg 0 B) by (unfold leg at 1; now rewrite ST). assert (L1 : leg 1 T = (leg 1 A * leg 1 B)%nat) by (unfold leg at 1; now rewrite ST).
    assert (L2 : leg 2 T = leg 2 A) by (unfold leg at 1; now rewrite ST). assert (L3 : leg 3 T = (bl * al)%nat) by (unfold leg at 1; now rewrite ST).
    split; [|split; [|split]].
    + cbn [mok]. rewrite L1, L3, ST. split; [reflexivity|]. split; [reflexivity|]. now rewrite Nat.mul_comm.
    + cbn [map]. congruence.
    + cbn [map]. congruence.
    + intros us ds Hu Hd. cbn [map] in Hu, Hd. inversion Hu as [|u ? us' ? Hu1 Hu2]; subst. inversion Hd as [|d ? ds' ? Hd1 Hd2]; subst.
      destruct (V us' ds' Hu2 Hd2) as (fbs & fas & P & I).
      exists ((fun k => mlink B u k) :: fbs), ((fun k => mlink A k d) :: fas). split.
      * cbn [mlinks map]. apply (ispair_cons _ _ (leg 1 B) (leg 1 A)); [reflexivity|reflexivity|cbn [mlink fst]; rewrite L1; lia| |exact P].
        intros kb ka lb la Hkb Hka Hlb Hla. cbn [mlink snd]. now rewrite VT.
      * intros [|k ks] HL; [discriminate|]. destruct (I ks) as [I1 I2]; [now injection HL|]. unfold inst. cbn [combine map fst snd mlinks]. fold (inst fbs ks) (inst fas ks). rewrite I1, I2. split; reflexivity.
Qed.

Lemma mok_nonempty l (data : list (tens R)) r : mok l data r -> data <> [] -> lastleg data = r.
Proof. intros H Hn. rewrite <- (lastR_leg data l Hn). now apply mok_lastR. Qed.

Lemma mpo_mul_ok S (a b : mpo R) : setio_ok S -> mpo_ok (odata a) -> mpo_ok (odata b) -> map (leg 2) (odata b) = map (leg 0) (odata a) ->
  exists c, mpo_mul S a b = Ok c /\ mpo_ok (odata c) /\ oL c = length (odata c) /\ length (odata c) = length (odata a) /\ od c = od a /\ oX c = (oX a * oX b)%nat /\
    map (leg 0) (odata c) = map (leg 0) (odata b) /\ map (leg 2) (odata c) = map (leg 2) (odata a) /\
    forall us ds, incfg (map (leg 0) (odata b)) us -> incfg (map (leg 2) (odata a)) ds ->
      mop (odata c) us ds = sumcfg (map (leg 0) (odata a)) (fun ks => mop (odata b) us ks * mop (odata a) ks ds).
Proof.
  intros HS Ha Hb E. apply mpo_mok in Ha, Hb. destruct Ha as [Na Ha], Hb as [Nb Hb].
  destruct (mul_row S (odata a) (odata b) HS _ _ _ _ Ha Hb E) as (c & Ec & Lc & Oc & C0 & C2 & V).
  exists (mkMpo c (length c) (od a) (oX a * oX b)). unfold mpo_mul. rewrite Ec. cbn [bind odata oL od oX]. split; [reflexivity|].
  assert (Nc : c <> []) by (destruct c; [destruct (odata a); [contradiction|discriminate]|discriminate]).
  assert (LL := mok_nonempty _ _ _ Oc Nc).
  split; [apply mpo_mok; split; [assumption|now rewrite LL]|]. do 6 (split; [assumption || reflexivity|]). 
  intros us ds Hu Hd. assert (Lab : length (odata b) = length (odata a)) by (apply (f_equal (@length nat)) in E; now rewrite !map_length in E).
  assert (Lu := incfg_length _ _ Hu). assert (Ld := incfg_length _ _ Hd). rewrite map_length in Lu, Ld.
  rewrite mop_rowS by congruence. destruct (V us ds Hu Hd) as (fbs & fas & P & I). rewrite LL.
  rewrite (sum_ext _ _ (fun r => chainS (mlinks c us ds) r r)) by (intros; apply rowS_chain; congruence).
  rewrite (chain_trace _ _ _ _ _ _ P). apply sumcfg_ext. intros ks Hks. assert (Lk := incfg_length _ _ Hks). rewrite map_length in Lk. destruct (I ks Lk) as [I1 I2]. rewrite I1, I2.
  rewrite !mop_rowS by congruence. f_equal; apply sum_ext; intros; symmetry; apply rowS_chain; congruence.
Qed.

(** The matrices multiply. *)
Lemma mpo_mul_matrix S (a b : mpo R) : setio_ok S -> mpo_ok (odata a) -> mpo_ok (odata b) -> oL a = length (odata a) -> oL b = length (odata b) -> (1 < oL a)%nat ->
  map (leg 2) (odata b) = map (leg 0) (odata a) ->
  exists c A B C AB, mpo_mul S a b = Ok c /\ mpo_recombine S a = Ok A /\ mpo_recombine S b = Ok B /\ mpo_recombine S c = Ok C /\ mdot A B = Ok AB /\ mat_eq C AB.
Proof.
  intros HS Ha Hb La Lb HL E. destruct (mpo_mul_ok S a b HS Ha Hb E) as (c & Ec & Oc & Lc & Lc' & _ & _ & C0 & C2 & V).
  assert (Lab : length (odata b) = length (odata a)) by (apply (f_equal (@length nat)) in E; now rewrite !map_length in E).
  destruct (mpo_recombine_ok S a HS Ha La HL) as (A & EA & A1 & A2 & VA). destruct (mpo_recombine_ok S b HS Hb Lb ltac:(lia)) as (B & EB & B1 & B2 & VB). destruct (mpo_recombine_ok S c HS Oc Lc ltac:(lia)) as (C & EC & C1 & C3 & VC).
  assert (D : mc A = mr B) by congruence. eexists c, A, B, C, _. do 4 (split; [eassumption|]). split; [unfold mdot; rewrite D, Nat.eqb_refl; reflexivity|].
  unfold mat_eq. cbn [mr mc me]. split; [congruence|]. split; [congruence|]. intros i j Hi Hj.
  rewrite C2, C0 in *. rewrite C1 in Hi. rewrite C3 in Hj. destruct (position_onto _ _ Hi) as (ds & Hds & <-). destruct (position_onto _ _ Hj) as (us & Hus & <-).
  rewrite VC, V by assumption. rewrite ?D. rewrite <- ?D, A2, sum_position. rewrite sumcfg_conj. apply sumcfg_ext. intros ks Hks. rewrite VA by assumption. rewrite <- E in Hks |- *. rewrite VB by assumption. rewrite conj_mul. ring.
Qed.
End Mpo.
