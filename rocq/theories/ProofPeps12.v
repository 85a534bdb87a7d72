(** The overlap of two PEPS. *)
From Verif Require Import Alg ModelMPS SpecMPS ModelNcon SpecNcon ModelEk ModelNp ModelTensor ModelPeps SpecTensor ProofNcon ProofNcon3 ProofNcon4 ProofEk2 ProofEk4 ProofTrace ProofTrace2 ProofNp SpecPeps ProofPeps ProofPeps2 ProofPeps3 ProofPeps10 ProofPeps11.
From Coq Require Import Permutation Sorted.
Import ListNotations.
Local Notation prod_ := (fold_right Nat.mul 1%nat).

Fixpoint muls (a b : list nat) : list nat :=
  match a, b with x :: a, y :: b => x * y :: muls a b | _, _ => [] end.
(** The pairs of indices, given the sizes for the second. *)
Fixpoint pu (ds x y : list nat) : list nat :=
  match ds, x, y with d :: ds, i :: x, j :: y => i * d + j :: pu ds x y | _, _, _ => [] end.

Section Overlap.
Context {R : sring}.
Local Open Scope sr_scope.
Add Ring Rr : (s_th R).
Notation T0 := (mkT [] (fun _ => 0 : R)).

Lemma pair_lt i d j D : (i < D)%nat -> (j < d)%nat -> (i * d + j < D * d)%nat.
Proof. nia. Qed.

Lemma incfg_pu a b : forall x y, length a = length b -> incfg a x -> incfg b y -> incfg (muls a b) (pu b x y).
Proof.
  revert b. induction a as [|d a IH]; intros [|e b] x y HL Hx Hy; try discriminate; inversion Hx; inversion Hy; subst; [constructor|].
  cbn [muls pu]. constructor; [now apply pair_lt|]. apply IH; auto.
Qed.
Lemma muls_length a : forall b, length a = length b -> length (muls a b) = length a.
Proof. induction a as [|d a IH]; intros [|e b] HL; try discriminate; [reflexivity|]. cbn. f_equal. apply IH. now injection HL. Qed.
Lemma sumcfg_pu a : forall b (f : list nat -> R), length a = length b -> sumcfg (muls a b) f = sumcfg a (fun x => sumcfg b (fun y => f (pu b x y))).
Proof.
  induction a as [|d a IH]; intros [|e b] f HL; try discriminate; [reflexivity|]. cbn [muls sumcfg pu]. rewrite sum_mul. apply sum_ext. intros i _.
  rewrite sumcfg_sum. apply sum_ext. intros j _. apply IH. now injection HL.
Qed.
Lemma muls_ones n : muls (repeat 1%nat n) (repeat 1%nat n) = repeat 1%nat n.
Proof. induction n; cbn; congruence. Qed.
Lemma pu_zeros n : pu (repeat 1%nat n) (repeat 0%nat n) (repeat 0%nat n) = repeat 0%nat n.
Proof. induction n; cbn; congruence. Qed.
Lemma position_zeros n : position (repeat 1%nat n) (repeat 0%nat n) = 0%nat.
Proof. rewrite position_ravel by (now rewrite !repeat_length). induction n as [|n IH]; cbn; [reflexivity|]. now rewrite IH. Qed.
Lemma prod_ones n : prod_ (repeat 1%nat n) = 1%nat.
Proof. induction n as [|n IH]; cbn; [reflexivity|]. lia. Qed.

Lemma overlap_site_ok (A B : tens R) p a1 a2 a3 a4 b1 b2 b3 b4 : tsh A = [p; a1; a2; a3; a4] -> tsh B = [p; b1; b2; b3; b4] ->
  exists T, overlap_site A B = Ok T /\ tsh T = [a1 * b1; a2 * b2; a3 * b3; a4 * b4]%nat /\
    forall u u' r r' d d' l l', (u < a1)%nat -> (u' < b1)%nat -> (r < a2)%nat -> (r' < b2)%nat -> (d < a3)%nat -> (d' < b3)%nat -> (l < a4)%nat -> (l' < b4)%nat ->
      te T [u * b1 + u'; r * b2 + r'; d * b3 + d'; l * b4 + l']%nat = sum p (fun s => te A [s; u; r; d; l] * sconj (te B [s; u'; r'; d'; l'])).
Proof.
  intros HA HB. unfold overlap_site, con, tconj. cbn [tsh]. rewrite HA, HB. cbn [mapM getitem nth_error bind].
  unfold nlist_eqb. cbn. rewrite Nat.eqb_refl. cbn.
  unfold reshape_. cbn [tsh fold_right].
  match goal with |- context [Nat.eqb ?x ?y] => replace (Nat.eqb x y) with true by (symmetry; apply Nat.eqb_eq; ring) end.
  eexists. split; [reflexivity|]. split; [reflexivity|]. intros u u' r r' d d' l l' Hu Hu' Hr Hr' Hd Hd' Hl Hl'. cbn [te tsh].
  match goal with |- context [unravel ?sh ?n] => replace (unravel sh n) with [u; u'; r; r'; d; d'; l; l'] end.
  - cbn. reflexivity.
  - transitivity (unravel [a1; b1; a2; b2; a3; b3; a4; b4] (ravel [a1; b1; a2; b2; a3; b3; a4; b4] [u; u'; r; r'; d; d'; l; l'])).
    + symmetry. apply unravel_ravel. repeat constructor; assumption.
    + f_equal. cbn [ravel fold_right]. ring.
Qed.

Definition alink (A : tens R) (u d s : nat) : link (R := R) := (leg 2 A, fun r l => te A [s; u; r; d; l]).
Definition blink (A : tens R) (u d s : nat) : link (R := R) := (leg 2 A, fun r l => sconj (te A [s; u; r; d; l])).

Lemma overlap_row (a : list (tens R)) : forall b al ar bl br, row_ok al a ar -> row_ok bl b br -> map (leg 0) a = map (leg 0) b ->
  exists c, mapM (fun AB => overlap_site (fst AB) (snd AB)) (combine a b) = Ok c /\ length c = length a /\ mok (al * bl) c (ar * br) /\
    map (leg 0) c = muls (map (leg 1) a) (map (leg 1) b) /\ map (leg 2) c = muls (map (leg 3) a) (map (leg 3) b) /\
    forall us us' ds ds', incfg (map (leg 1) a) us -> incfg (map (leg 1) b) us' -> incfg (map (leg 3) a) ds -> incfg (map (leg 3) b) ds' ->
      exists fbs fas, ispair al bl (mlinks c (pu (map (leg 1) b) us us') (pu (map (leg 3) b) ds ds')) (map (leg 0) a) fbs fas ar br /\
        forall s, length s = length a -> forall l r, chainS (inst fbs s) l r = rowS (cells a s) us ds l r /\ chainS (inst fas s) l r = sconj (rowS (cells b s) us' ds' l r).
Proof.
  induction a as [|A a IH]; intros [|B b] al ar bl br Ha Hb E; try discriminate.
  - cbn in Ha, Hb. subst. exists []. do 5 (split; [reflexivity|]). intros us us' ds ds' H1 H2 H3 H4. inversion H1; inversion H2; inversion H3; inversion H4; subst. exists [], []. split; [constructor|].
    intros [|] HL; [|discriminate]. intros l r. cbn. split; [reflexivity|]. now rewrite dlt_conj.
  - destruct Ha as (A5 & Al & Ha). destruct Hb as (B5 & Bl & Hb). cbn [map] in E. injection E as E1 E2.
    destruct (IH b _ _ _ _ Ha Hb E2) as (c & Ec & Lc & Oc & C0 & C2 & V). assert (SA := shape5 A A5). assert (SB := shape5 B B5). rewrite <- E1, Bl in SB. rewrite Al in SA.
    destruct (overlap_site_ok A B _ _ _ _ _ _ _ _ _ SA SB) as (T & ET & ST & VT).
    exists (T :: c). cbn [combine mapM fst snd]. rewrite ET. cbn [bind]. rewrite Ec. cbn [bind]. split; [reflexivity|]. split; [cbn; congruence|].
    assert (L0 : leg 0 T = (leg 1 A * leg 1 B)%nat) by (unfold leg at 1; now rewrite ST). assert (L1 : leg 1 T = (leg 2 A * leg 2 B)%nat) by (unfold leg at 1; now rewrite ST).
    assert (L2 : leg 2 T = (leg 3 A * leg 3 B)%nat) by (unfold leg at 1; now rewrite ST). assert (L3 : leg 3 T = (al * bl)%nat) by (unfold leg at 1; now rewrite ST).
    split; [|split; [|split]].
    + cbn [mok]. rewrite L1, L3, ST. auto.
    + cbn [map muls]. congruence.
    + cbn [map muls]. congruence.
    + intros us us' ds ds' H1 H2 H3 H4. cbn [map] in H1, H2, H3, H4. inversion H1 as [|u ? us1 ? K1 M1]. inversion H2 as [|u' ? us1' ? K2 M2]. inversion H3 as [|d ? ds1 ? K3 M3]. inversion H4 as [|d' ? ds1' ? K4 M4].
      destruct (V us1 us1' ds1 ds1' M1 M2 M3 M4) as (fbs & fas & P & I).
      exists (alink A u d :: fbs), (blink B u' d' :: fas). split.
      * cbn [map pu mlinks]. apply (ispair_cons _ _ (leg 2 A) (leg 2 B)); [reflexivity|reflexivity|exact L1| |exact P].
        intros kb ka lb la Hkb Hka Hlb Hla. cbn [mlink alink blink snd]. now apply VT.
      * intros [|s ss] HL; [discriminate|]. assert (HL' : length ss = length a) by (now injection HL). intros l r. unfold inst. cbn [combine map fst snd]. fold (inst fbs ss) (inst fas ss). rewrite !cells_cons. cbn [chainS rowS alink blink fst snd cellof cr ce]. split.
        -- apply sum_ext. intros k _. f_equal. apply I, HL'.
        -- rewrite sum_conj. apply sum_ext. intros k _. rewrite conj_mul. f_equal. apply I, HL'.
Qed.

(** One row of the double layer. *)
Definition isdouble (a b : list (tens R)) (m : mpo R) : Prop :=
  mpo_ok (odata m) /\ oL m = length (odata m) /\ length (odata m) = length a /\
  map (leg 0) (odata m) = muls (map (leg 1) a) (map (leg 1) b) /\ map (leg 2) (odata m) = muls (map (leg 3) a) (map (leg 3) b) /\
  forall us us' ds ds', incfg (map (leg 1) a) us -> incfg (map (leg 1) b) us' -> incfg (map (leg 3) a) ds -> incfg (map (leg 3) b) ds' ->
    mop (odata m) (pu (map (leg 1) b) us us') (pu (map (leg 3) b) ds ds')
    = sumcfg (map (leg 0) a) (fun s => rowS (cells a s) us ds 0 0 * sconj (rowS (cells b s) us' ds' 0 0)).

Lemma pu_length ds : forall x y, length x = length ds -> length y = length ds -> length (pu ds x y) = length ds.
Proof. induction ds as [|d ds IH]; intros [|i x] [|j y] Hx Hy; try discriminate; [reflexivity|]. cbn. f_equal. apply IH; [now injection Hx|now injection Hy]. Qed.

Lemma double_ok (a b : list (tens R)) : a <> [] -> row_ok 1 a 1 -> row_ok 1 b 1 -> map (leg 0) a = map (leg 0) b ->
  exists m, (do data <- mapM (fun AB => overlap_site (fst AB) (snd AB)) (combine a b); mpo_init data) = Ok m /\ isdouble a b m.
Proof.
  intros Hn Ha Hb E. destruct (overlap_row a b 1 1 1 1 Ha Hb E) as (c & Ec & Lc & Oc & C0 & C2 & V). rewrite Ec. cbn [bind].
  assert (Lab : length b = length a) by (apply (f_equal (@length nat)) in E; now rewrite !map_length in E).
  assert (Nc : c <> []) by (destruct c; [destruct a; [contradiction|discriminate]|discriminate]).
  assert (LL := mok_nonempty _ _ _ Oc Nc). assert (Ok4 : forall A, In A c -> length (tsh A) = 4%nat).
  { clear -Oc. revert Oc. generalize (1 * 1)%nat at 1. induction c as [|A c IH]; intros n H X HX; [contradiction|]. destruct H as (H4 & _ & H). destruct HX as [<-|HX]; [exact H4|]. eapply IH; eassumption. }
  unfold mpo_init. destruct c as [|C c]; [contradiction|].
  assert (G0 : getitem (tsh C) 0 = Ok (leg 0 C)) by (rewrite (shape4 C (Ok4 C (or_introl eq_refl))); reflexivity).
  change (getitem (C :: c) 0) with (Ok C). cbn [bind]. rewrite G0. cbn [bind].
  assert (EX : existsb (fun x => Nat.leb (length (tsh x)) 1) (C :: c) = false).
  { apply Bool.not_true_is_false. intros G. apply existsb_exists in G. destruct G as (x & Hx & Gx). rewrite (Ok4 x Hx) in Gx. discriminate. }
  rewrite EX. eexists. split; [reflexivity|]. unfold isdouble. cbn [odata oL]. split; [apply mpo_mok; split; [assumption|now rewrite LL]|]. do 4 (split; [assumption || reflexivity|]).
  intros us us' ds ds' H1 H2 H3 H4. assert (L1 := incfg_length _ _ H1). assert (L2 := incfg_length _ _ H2). assert (L3 := incfg_length _ _ H3). assert (L4 := incfg_length _ _ H4). rewrite map_length in L1, L2, L3, L4.
  assert (P1 : length (pu (map (leg 1) b) us us') = length (C :: c)) by (rewrite pu_length; rewrite ?map_length; congruence).
  assert (P3 : length (pu (map (leg 3) b) ds ds') = length (C :: c)) by (rewrite pu_length; rewrite ?map_length; congruence).
  rewrite mop_rowS by assumption. rewrite LL. destruct (V us us' ds ds' H1 H2 H3 H4) as (fbs & fas & P & I).
  rewrite (sum_ext _ _ (fun r => chainS (mlinks (C :: c) (pu (map (leg 1) b) us us') (pu (map (leg 3) b) ds ds')) r r)) by (intros; now apply rowS_chain).
  rewrite (chain_trace _ _ _ _ _ _ P). apply sumcfg_ext. intros s Hs. assert (Ls := incfg_length _ _ Hs). rewrite map_length in Ls. rewrite !sum_one. destruct (I s Ls 0%nat 0%nat) as [I1 I2]. now rewrite I1, I2.
Qed.

Lemma foldM_app {X} (f : X -> X -> res X) l x : forall a, foldM f (l ++ [x]) a = bind (foldM f l a) (fun b => f b x).
Proof.
  induction l as [|y l IH]; intros a; cbn [foldM app].
  - cbn [bind]. destruct (f a x); reflexivity.
  - destruct (f a y); [apply IH|reflexivity].
Qed.
Lemma reduce_snoc {X} (f : X -> X -> res X) l x : l <> [] -> reduce f (l ++ [x]) = bind (reduce f l) (fun b => f b x).
Proof. destruct l as [|y l]; [contradiction|]. intros _. apply foldM_app. Qed.

Lemma sumgrid_0 dss (f : list (list nat) -> R) c : sumgrid dss (fun s => f s * c) = sumgrid dss f * c.
Proof. revert f. induction dss as [|ds dss IH]; intros f; cbn [sumgrid]; [reflexivity|]. rewrite <- sumcfg_mul_r. apply sumcfg_ext. intros x _. apply IH. Qed.

Lemma sumgrid_sum dss n (f : nat -> list (list nat) -> R) : sum n (fun x => sumgrid dss (f x)) = sumgrid dss (fun s => sum n (fun x => f x s)).
Proof. revert f. induction dss as [|ds dss IH]; intros f; cbn [sumgrid]; [reflexivity|]. rewrite <- sumcfg_sum. apply sumcfg_ext. intros x _. apply IH. Qed.

Lemma sumgrid_conj dss (f : list (list nat) -> R) : sconj (sumgrid dss f) = sumgrid dss (fun s => sconj (f s)).
Proof. revert f. induction dss as [|ds dss IH]; intros f; cbn [sumgrid]; [reflexivity|]. rewrite sumcfg_conj. apply sumcfg_ext. intros x _. apply IH. Qed.

Lemma gridS_row (row : list (cell R)) us ds l r : incfg (map cd row) ds -> gridS [row] us ds [l] [r] = rowS row us ds l r.
Proof.
  intros Hd. cbn [gridS]. rewrite (sumcfg_ext _ _ (fun w => dltl ds w * rowS row us w l r)).
  - now rewrite dltl_sum.
  - intros w _. assert (E : forall x y : list nat, dltl x y = (dltl y x : R)).
    { induction x as [|i x IH]; intros [|j y]; cbn [dltl]; try reflexivity. rewrite IH, (dlt_sym i j). reflexivity. }
    rewrite (E w ds). ring.
Qed.

Lemma reduce_rows S W (As : list (list (tens R))) : setio_ok S -> (0 < W)%nat -> forall Bs u0 u0' d0 d0', As <> [] -> Forall (fun r => length r = W) As ->
  rows_ok u0 As d0 -> rows_ok u0' Bs d0' -> legs_of 0 As = legs_of 0 Bs ->
  exists ms acc, mapM (fun rr => do data <- mapM (fun AB => overlap_site (fst AB) (snd AB)) (combine (fst rr) (snd rr)); mpo_init data) (combine As Bs) = Ok ms /\
    ms <> [] /\ reduce (mpo_mul S) (rev ms) = Ok acc /\ mpo_ok (odata acc) /\ oL acc = length (odata acc) /\ length (odata acc) = W /\
    map (leg 0) (odata acc) = muls u0 u0' /\ map (leg 2) (odata acc) = muls d0 d0' /\
    forall us us' ds ds', incfg u0 us -> incfg u0' us' -> incfg d0 ds -> incfg d0' ds' ->
      mop (odata acc) (pu u0' us us') (pu d0' ds ds')
      = sumgrid (legs_of 0 As) (fun s => gridS (cellss As s) us ds (repeat 0%nat (length As)) (repeat 0%nat (length As))
                                   * sconj (gridS (cellss Bs s) us' ds' (repeat 0%nat (length As)) (repeat 0%nat (length As)))).
Proof.
  intros HS HW. induction As as [|a As IH]; intros [|b Bs] u0 u0' d0 d0' Hn HF Ha Hb E; try contradiction; try discriminate.
  destruct Ha as (Ra & <- & Ha). destruct Hb as (Rb & <- & Hb). cbn [legs_of map] in E. injection E as E1 E2. fold (legs_of 0 As) (legs_of 0 Bs) in E2. inversion HF as [|x0 l0 HF1 HF2]; subst x0 l0.
  assert (Na : a <> []) by (destruct a; [cbn in HF1; lia|discriminate]). assert (Lab : length b = length a) by (apply (f_equal (@length nat)) in E1; now rewrite !map_length in E1).
  destruct (double_ok a b Na Ra Rb E1) as (m & Em & (Om & Lm & Lm' & M0 & M2 & Vm)).
  destruct As as [|a' As].
  - cbn [rows_ok] in Ha. destruct Bs as [|]; [|discriminate]. cbn [rows_ok] in Hb. subst d0 d0'. exists [m], m. cbn [combine mapM fst snd]. rewrite Em. cbn [bind]. split; [reflexivity|]. split; [discriminate|]. split; [reflexivity|].
    do 5 (split; [congruence|]). intros us us' ds ds' H1 H2 H3 H4. rewrite Vm by assumption. cbn [legs_of map sumgrid]. apply sumcfg_ext. intros s Hs. assert (Ls := incfg_length _ _ Hs). rewrite map_length in Ls.
    unfold cellss. cbn [combine map fst snd length repeat]. rewrite !gridS_row by (rewrite cells_cd by congruence; assumption). reflexivity.
  - destruct (IH Bs _ _ d0 d0' ltac:(discriminate) HF2 Ha Hb E2) as (ms & acc & Ems & Nms & Eacc & Oacc & Lacc & Lacc' & A0 & A2 & Vacc).
    exists (m :: ms). destruct (mpo_mul_ok S acc m HS Oacc Om) as (c & Ec & Oc & Lc & Lc' & _ & _ & C0 & C2 & Vc); [congruence|].
    exists c. split; [|split; [discriminate|split]].
    + cbn [combine mapM fst snd]. rewrite Em. cbn [bind]. cbn [combine mapM fst snd] in Ems. rewrite Ems. reflexivity.
    + cbn [rev]. rewrite reduce_snoc by (intros G; apply Nms; rewrite <- (rev_involutive ms), G; reflexivity). rewrite Eacc. exact Ec.
    + do 5 (split; [congruence|]). intros us us' ds ds' H1 H2 H3 H4.
      assert (LD : length d0 = length d0').
      { assert (G : length (map (leg 2) (odata acc)) = length (map (leg 2) (odata acc))) by reflexivity. rewrite map_length, Lacc' in G.
        assert (L3 : forall rows u d, Forall (fun r : list (tens R) => length r = W) rows -> rows <> [] -> rows_ok u rows d -> length d = W).
        { clear. induction rows as [|r rows IH]; intros u d HF Hn H; [contradiction|]. inversion HF; subst. destruct H as (_ & _ & H). destruct rows as [|r' rows]; [cbn in H; subst d; now rewrite map_length|]. eapply IH; [assumption|discriminate|exact H]. }
        rewrite (L3 _ _ _ HF2 ltac:(discriminate) Ha).
        assert (HFB : Forall (fun r : list (tens R) => length r = W) Bs).
        { clear -E2 HF2. remember (a' :: As) as Xs eqn:EX. clear EX. revert Bs E2. induction HF2 as [|x l Hx Hl IHl]; intros [|y Bs] E; try discriminate; constructor; cbn in E; injection E as E1 E2.
          - apply (f_equal (@length nat)) in E1. rewrite !map_length in E1. congruence.
          - now apply IHl. }
        symmetry. eapply L3; [exact HFB| |exact Hb]. destruct Bs; discriminate. }
      rewrite Vc; [|rewrite M0; apply incfg_pu; auto; now rewrite !map_length|rewrite A2; apply incfg_pu; auto].
      rewrite A0, sumcfg_pu by (now rewrite !map_length).
      transitivity (sumcfg (map (leg 3) a) (fun x => sumcfg (map (leg 3) b) (fun y => sumcfg (map (leg 0) a) (fun s => sumgrid (legs_of 0 (a' :: As)) (fun t =>
        (rowS (cells a s) us x 0 0 * gridS (cellss (a' :: As) t) x ds (repeat 0%nat (length (a' :: As))) (repeat 0%nat (length (a' :: As))))
        * sconj (rowS (cells b s) us' y 0 0 * gridS (cellss Bs t) y ds' (repeat 0%nat (length (a' :: As))) (repeat 0%nat (length (a' :: As))))))))).
      { apply sumcfg_ext. intros x Hx. apply sumcfg_ext. intros y Hy. rewrite Vm, Vacc by assumption. rewrite <- sumcfg_mul_r. apply sumcfg_ext. intros s _. rewrite <- sumgrid_mul_l. apply sumgrid_ext. intros t _. rewrite conj_mul. ring. }
      assert (SW : forall es es' (f : list nat -> list nat -> R), sumcfg es (fun x => sumcfg es' (fun y => f x y)) = sumcfg es' (fun y => sumcfg es (fun x => f x y))) by (intros; apply sumcfg_swap).
      rewrite (sumcfg_ext (map (leg 3) a) _ (fun x => sumcfg (map (leg 0) a) (fun s => sumcfg (map (leg 3) b) (fun y => sumgrid (legs_of 0 (a' :: As)) (fun t =>
        (rowS (cells a s) us x 0 0 * gridS (cellss (a' :: As) t) x ds (repeat 0%nat (length (a' :: As))) (repeat 0%nat (length (a' :: As))))
        * sconj (rowS (cells b s) us' y 0 0 * gridS (cellss Bs t) y ds' (repeat 0%nat (length (a' :: As))) (repeat 0%nat (length (a' :: As))))))))) by (intros; apply SW).
      rewrite SW. change (legs_of 0 (a :: a' :: As)) with (map (leg 0) a :: legs_of 0 (a' :: As)). cbn [sumgrid]. apply sumcfg_ext. intros s Hs. assert (Ls := incfg_length _ _ Hs). rewrite map_length in Ls.
      rewrite (sumcfg_ext (map (leg 3) a) _ (fun x => sumgrid (legs_of 0 (a' :: As)) (fun t => sumcfg (map (leg 3) b) (fun y =>
        (rowS (cells a s) us x 0 0 * gridS (cellss (a' :: As) t) x ds (repeat 0%nat (length (a' :: As))) (repeat 0%nat (length (a' :: As))))
        * sconj (rowS (cells b s) us' y 0 0 * gridS (cellss Bs t) y ds' (repeat 0%nat (length (a' :: As))) (repeat 0%nat (length (a' :: As)))))))) by (intros; symmetry; apply sumgrid_sumcfg).
      rewrite <- sumgrid_sumcfg. change (map (map (leg 0)) (a' :: As)) with (legs_of 0 (a' :: As)). apply sumgrid_ext. intros t Ht.
      unfold cellss at 3 4. cbn [combine map fst snd]. fold (cellss (a' :: As) t) (cellss Bs t). cbn [length]. cbn [repeat]. cbn [gridS]. rewrite !cells_cd by congruence.
      rewrite sumcfg_conj. rewrite <- sumcfg_mul_r. apply sumcfg_ext. intros x _. now rewrite <- sumcfg_mul_l.
Qed.

Lemma overlap_ok S H W (p q : peps R) : setio_ok S -> peps_ok H W (pdata p) -> peps_ok H W (pdata q) -> legs_of 0 (pdata p) = legs_of 0 (pdata q) -> (1 < W)%nat ->
  exists M, peps_overlap S p q = Ok M /\ mr M = 1%nat /\ mc M = 1%nat /\
    me M 0 0 = sumgrid (legs_of 0 (pdata p)) (fun s => sconj (pamp H W (pdata p) s) * pamp H W (pdata q) s).
Proof.
  intros HS Hp Hq E HW. assert (Kp := Hp). assert (Kq := Hq). apply peps_rec in Kp, Kq. destruct Kp as (HH & _ & [Gp Fp] & Rp). destruct Kq as (_ & _ & [Gq Fq] & Rq).
  destruct (reduce_rows S W (pdata p) HS ltac:(lia) (pdata q) _ _ _ _ ltac:(intros G; rewrite G in Gp; cbn in Gp; lia) Fp Rp Rq E) as (ms & acc & E1 & _ & E2 & Oa & La & La' & A0 & A2 & V).
  destruct (mpo_recombine_ok S acc HS Oa La ltac:(lia)) as (M & EM & M1 & M2 & VM). exists M. unfold peps_overlap. rewrite E1. cbn [bind]. rewrite E2. cbn [bind]. split; [exact EM|].
  rewrite muls_ones in A0, A2. rewrite A0, A2 in *. rewrite prod_ones in M1, M2. split; [exact M1|]. split; [exact M2|].
  assert (Z := incfg_zeros W). specialize (VM _ _ Z Z). rewrite position_zeros in VM. rewrite VM. specialize (V _ _ _ _ Z Z Z Z). rewrite pu_zeros in V. rewrite V, sumgrid_conj. apply sumgrid_ext. intros s Hs.
  assert (Gs : grid H W s). { apply (ingrid_grid _ _ (legs_of 0 (pdata p))); [|assumption]. apply legs_grid. split; auto. }
  rewrite conj_mul, conj_conj, Gp. rewrite <- !pamp_gridS by assumption. reflexivity.
Qed.
End Overlap.
