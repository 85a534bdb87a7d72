(** The value of the network of dA_dt for a Hamiltonian given as one matrix. *)
From Verif Require Import Alg ModelMPS SpecMPS ProofMPS ModelOrth SpecOrth ProofOrth ProofOrth2 ModelNcon SpecNcon ProofNcon ProofNcon3 ProofNcon4 ModelEk SpecEk ProofEk ProofEk2 ProofEk3
  ModelNp ModelEnergy ModelTan ModelTdvp ModelFull ProofFull ProofFull2.
From Coq Require Import Permutation Sorted.

Section Net.
Context {R : sring}.
Local Open Scope sr_scope.
Add Ring Rr : (s_th R).

Definition shapes (A B : site R) : Prop := phys A = phys B /\ dl A = dl B /\ dr A = dr B.
Definition dsite (A : site R) (pr : list nat -> R) (s a b : nat) : site R := mkSite (phys A) (dl A) (dr A) (fun t c b' => pr [s; a; t; c] * dlt b b').

Lemma shapes_chain (X Y : list (site R)) : Forall2 shapes X Y -> forall a z, chain a Y z -> chain a X z.
Proof. induction 1 as [|A B X Y (H1 & H2 & H3) HF IH]; intros a z Hc; [exact Hc|]. destruct Hc as [G1 G2]. cbn. rewrite H2, H3. auto. Qed.
Lemma shapes_dims (X Y : list (site R)) : Forall2 shapes X Y -> dims X = dims Y.
Proof. unfold dims. induction 1 as [|A B X Y (H1 & H2 & H3) HF IH]; cbn; congruence. Qed.
Lemma shapes_len (X Y : list (site R)) : Forall2 shapes X Y -> length X = length Y.
Proof. induction 1; cbn; congruence. Qed.
Lemma shapes_nth (X Y : list (site R)) : Forall2 shapes X Y -> forall i A, nth_error X i = Some A -> exists B, nth_error Y i = Some B /\ shapes A B.
Proof. induction 1 as [|A B X Y Hs HF IH]; intros [|i] C HC; try discriminate; cbn in *; [injection HC as <-; eauto|eauto]. Qed.

Lemma ext3_lp ld d a b n : ext3 ld d a b (lp n) = ld (lp n). Proof. apply ext3_pos. unfold lp. lia. Qed.
Lemma ext3_lq ld d a b k n : ext3 ld d a b (lq k n) = ld (lq k n). Proof. apply ext3_pos. unfold lq. lia. Qed.
Lemma ext3_lb ld d a b k n : ext3 ld d a b (lb k n) = ld (lb k n). Proof. apply ext3_pos. unfold lb. lia. Qed.
Lemma ext3_lc ld d a b k n : ext3 ld d a b (lc k n) = ld (lc k n).
Proof. apply ext3_pos. unfold lc. destruct (Nat.eqb n 0), (Nat.eqb n k); lia. Qed.

Lemma full_net S (X1 X2 Y1 Y2 : list (site R)) (A : site R) (pr T : tens R) l :
  setio_ok S -> chain 1 Y1 (dl A) -> chain (dr A) Y2 1 -> Forall2 shapes X1 Y1 -> Forall2 shapes X2 Y2 ->
  tsh pr = [phys A; dl A; phys A; dl A] -> tsh T = dims (Y1 ++ A :: Y2) ++ dims (Y1 ++ A :: Y2) ->
  full_links (length (Y1 ++ A :: Y2)) (length Y1) = Ok l ->
  exists r, ncon S ((map tens_site X1 ++ [pr] ++ map tens_site X2) ++ [T] ++ map tens_site (Y1 ++ A :: Y2)) l None None false = Ok r /\ tsh r = [phys A; dl A; dr A] /\
    forall s a b, (b < dr A)%nat -> te r [s; a; b] =
      sumcfg (dims (Y1 ++ A :: Y2)) (fun w => sumcfg (dims (Y1 ++ A :: Y2)) (fun w' => te T (w ++ w') * (amp (X1 ++ dsite A (te pr) s a b :: X2) w 0 0 * amp (Y1 ++ A :: Y2) w' 0 0))).
Proof.
  intros HS HC1 HC2 HX1 HX2 Hpr HT HL. remember (Y1 ++ A :: Y2) as Y eqn:EY. remember (length Y) as k eqn:Ek. set (n := length Y1).
  assert (Hk : (n < k)%nat) by (unfold n; rewrite Ek, EY, app_length; cbn; lia).
  assert (HCY : chain 1 Y 1). { rewrite EY. apply chain_app. exists (dl A). split; [exact HC1|]. split; [reflexivity|exact HC2]. }
  destruct (ld_exists Y lp (lq k) (lb k) (lc k) k 1 1 (nodup_op k ltac:(lia)) HCY (eq_sym Ek) ltac:(lia)) as (ld & Hld & Hz); [labels|].
  assert (HA : nth_error Y n = Some A) by (rewrite EY; unfold n; rewrite nth_error_app2, Nat.sub_diag by lia; reflexivity).
  assert (HY1 : forall i B, nth_error Y1 i = Some B -> nth_error Y i = Some B).
  { intros i B Hi. rewrite EY, nth_error_app1; [exact Hi|]. apply nth_error_Some. congruence. }
  assert (HY2 : forall i B, nth_error Y2 i = Some B -> nth_error Y (Datatypes.S n + i) = Some B).
  { intros i B Hi. rewrite EY. unfold n. rewrite nth_error_app2 by lia. replace (Datatypes.S (length Y1) + i - length Y1)%nat with (Datatypes.S i) by lia. exact Hi. }
  set (l0 := lb k (Datatypes.S n)).
  assert (Hl0 : ld l0 = dr A).
  { unfold l0. destruct Y2 as [|B Y2].
    - cbn in HC2. assert (Datatypes.S n = k) as -> by (rewrite Ek, EY, app_length; unfold n; cbn; lia). congruence.
    - destruct (Hld _ B (HY2 0%nat B eq_refl)) as (_ & _ & G & _). rewrite Nat.add_0_r in G. rewrite G. apply HC2. }
  pose proof (shapes_len _ _ HX1) as L1. pose proof (shapes_len _ _ HX2) as L2.
  set (order := map lp (seq 0 k) ++ map (lq k) (seq 0 k) ++ bonds_of (lb k) (lc k) k).
  set (v := lnk lp (lb k) 0 k ++ [tword k] ++ lnk (lq k) (lc k) 0 k).
  set (X := fun s a b => X1 ++ dsite A (te pr) s a b :: X2).
  set (F := fun s a b => tprod (map tens_site (X s a b) ++ [T] ++ map tens_site Y) v).
  assert (Hin : In l0 order) by (pose proof (lb_in k n Hk) as G; rewrite Nat.add_1_r in G; exact G).
  assert (HD0 : forall (P1 : list (list Z)), Forall2 (fun A0 w => tsh A0 = map (ext3 ld (phys A) (dl A) (ld l0)) w) (map tens_site X1) (lnk lp (lb k) 0 n)).
  { intros _. unfold n. rewrite <- L1. apply (lnk_dims _ X1 0 lp (lb k) 1 (dl A)).
    - apply (shapes_chain X1 Y1); assumption.
    - intros i B Hi. destruct (shapes_nth _ _ HX1 i B Hi) as (B' & HB' & S1 & S2 & S3). cbn [Nat.add]. rewrite ext3_lp, ext3_lb. destruct (Hld i B' (HY1 i B' HB')) as (G1 & _ & G3 & _). split; congruence.
    - cbn [Nat.add]. rewrite ext3_lb, L1. apply (Hld _ _ HA). }
  assert (HDY : Forall2 (fun A0 w => tsh A0 = map ld w) (map tens_site Y) (lnk (lq k) (lc k) 0 k)).
  { rewrite Ek at 3. apply (lnk_dims _ Y 0 (lq k) (lc k) 1 1 HCY).
    - intros i B Hi. destruct (Hld i B Hi) as (_ & G1 & _ & G2). split; assumption.
    - cbn [Nat.add]. rewrite <- Ek. assert (E : lc k k = lb k k) by labels. rewrite E. exact Hz. }
  assert (HDT : tsh T = map (ext3 ld (phys A) (dl A) (ld l0)) (tword k)).
  { rewrite HT. unfold tword. rewrite map_app. rewrite !map_map. rewrite (map_ext _ (fun n => ld (lp n))) by (intros; apply ext3_lp). rewrite (map_ext (fun x => ext3 ld (phys A) (dl A) (ld l0) (lq k x)) (fun n => ld (lq k n))) by (intros; apply ext3_lq).
    rewrite <- (map_map lp ld), <- (map_map (lq k) ld). unfold dims. rewrite Ek at 1. rewrite (map_nth_ld ld lp (fun A => phys A) Y 0) by (intros i B Hi; apply (Hld i B Hi)).
    rewrite Ek at 2. rewrite (map_nth_ld ld (lq k) (fun A => phys A) Y 0) by (intros i B Hi; apply (Hld i B Hi)). reflexivity. }
  assert (HDp : tsh pr = map (ext3 ld (phys A) (dl A) (ld l0)) [-1; -2; lp n; lb k n]%Z).
  { rewrite Hpr. cbn [map]. rewrite ext3_lp, ext3_lb. destruct (Hld n A HA) as (-> & _ & -> & _). reflexivity. }
  assert (Hext : forall ws AA, Forall2 (fun (A0 : tens R) w => tsh A0 = map ld w) AA ws -> (forall w x, In w ws -> In x w -> (0 < x)%Z) -> Forall2 (fun A0 w => tsh A0 = map (ext3 ld (phys A) (dl A) (ld l0)) w) AA ws).
  { intros ws AA HF. induction HF as [|A0 w AA ws E HF IH]; intros Hp; constructor.
    - rewrite E. apply map_ext_in. intros x Hx. symmetry. apply ext3_pos. apply (Hp w); [left; reflexivity|exact Hx].
    - apply IH. intros w' x Hw. apply Hp. right. exact Hw. }
  assert (HDY' : Forall2 (fun A0 w => tsh A0 = map (ext3 ld (phys A) (dl A) (ld l0)) w) (map tens_site Y) (lnk (lq k) (lc k) 0 k)).
  { apply Hext; [exact HDY|]. intros w x Hw Hx. apply in_map_iff in Hw as (i & <- & _). destruct Hx as [<-|[<-|[<-|[]]]]; unfold lq, lc; try lia; repeat match goal with |- context [if ?c then _ else _] => destruct c end; lia. }
  (* the labels of the opened network and its product *)
  assert (HV : Permutation (l0 :: l0 :: concat l) ([-1; -2; -3]%Z ++ concat v) /\
     Forall2 (fun A0 w => tsh A0 = map (ext3 ld (phys A) (dl A) (ld l0)) w) ((map tens_site X1 ++ [pr] ++ map tens_site X2) ++ [T] ++ map tens_site Y) l /\
     (forall s a b e, e (-1)%Z = s -> e (-2)%Z = a -> e (-3)%Z = b -> F s a b e = dlt b (e l0) * tprod ((map tens_site X1 ++ [pr] ++ map tens_site X2) ++ [T] ++ map tens_site Y) l e)).
  { destruct Y2 as [|B Y2].
    - (* last site *)
      assert (EX2 : X2 = []) by (destruct X2; [reflexivity|discriminate]). subst X2. clear HX2.
      assert (Ekn : k = Datatypes.S n) by (rewrite Ek, EY, app_length; unfold n; cbn; lia).
      fold n in HL. rewrite Ekn in HL. rewrite full_links_last in HL. rewrite <- Ekn in HL. apply (f_equal (fun r => match r with Ok x => x | _ => [] end)) in HL. subst l.
      assert (ESP : forall p b, lnk p b 0 k = lnk p b 0 n ++ [[p n; b n; b (Datatypes.S n)]]) by (intros p b; assert (Ekn' : k = (n + 1)%nat) by lia; rewrite Ekn', lnk_split; reflexivity).
      assert (Elc : lc k (Datatypes.S n) = l0) by (unfold l0; rewrite <- Ekn; labels).
      split; [|split].
      + apply (Permutation_count_occ Z.eq_dec). intros x. unfold v. rewrite !ESP. rewrite !concat_app. cbn [concat app]. rewrite !concat_app. cbn [concat app].
        rewrite Elc. fold l0. repeat (rewrite ?count_occ_app, ?(cnt_cons _ (_ :: _)), ?(cnt_cons _ (_ ++ _)), ?(cnt_cons _ (concat _)), ?app_nil_r). lia.
      + cbn [map app]. rewrite <- app_assoc. apply Forall2_app; [exact (HD0 [])|]. cbn [app]. constructor; [exact HDp|]. constructor; [exact HDT|].
        rewrite ESP in HDY. rewrite EY, map_app in HDY |- *. apply Forall2_app_inv_l in HDY as (w1 & w2 & G1 & G2 & G3).
        assert (EW : w1 = lnk (lq k) (lc k) 0 n /\ w2 = [[lq k n; lc k n; lc k (Datatypes.S n)]]).
        { symmetry in G3. apply app_inv_len in G3; [exact G3|]. rewrite lnk_length. clear -G1. unfold n. rewrite <- (map_length (@tens_site R) Y1). induction G1; cbn; congruence. }
        destruct EW as [-> ->]. apply Forall2_app.
        * apply Hext; [exact G1|]. intros w x Hw Hx. apply in_map_iff in Hw as (i & <- & _). destruct Hx as [<-|[<-|[<-|[]]]]; unfold lq, lc; try lia; repeat match goal with |- context [if ?c then _ else _] => destruct c end; lia.
        * inversion G2 as [|? ? ? ? G4 G5]; subst. constructor; [|constructor]. rewrite Elc, Hl0 in *. cbn [map] in G4 |- *. rewrite ext3_lq, ext3_lc. injection G4 as G4 G6 _. cbn [tens_site tsh]. rewrite G4, G6. reflexivity.
      + intros s a b e E1 E2 E3. unfold F, X, v. rewrite !ESP. rewrite EY, !map_app. cbn [map app]. rewrite <- !app_assoc. cbn [app].
        rewrite !tprod_app by (rewrite map_length, lnk_length; assumption). rewrite !tprod_cons. rewrite !tprod_app by (rewrite map_length, lnk_length; reflexivity). rewrite !tprod_cons.
        cbn [map tens_site te nth dsite ent]. rewrite Elc. fold l0. rewrite E1, E2, E3. unfold dlt. destruct (Nat.eqb_spec b (e l0)) as [Eb|Eb]; [|ring]. rewrite <- Eb. cbn [tens_site te nth map]. ring.
    - (* another site *)
      inversion HX2 as [|B' ? X2' ? HB HX2']; subst X2. rename X2' into X2. clear HX2. set (j := length Y2).
      assert (Ekn : k = (n + Datatypes.S (Datatypes.S j))%nat) by (rewrite Ek, EY, app_length; unfold n, j; cbn; lia).
      fold n in HL. rewrite Ekn in HL. rewrite full_links_mid in HL. rewrite <- Ekn in HL. apply (f_equal (fun r => match r with Ok x => x | _ => [] end)) in HL. subst l.
      assert (ESP : forall p b, lnk p b 0 k = lnk p b 0 n ++ [p n; b n; b (Datatypes.S n)] :: [p (Datatypes.S n); b (Datatypes.S n); b (Datatypes.S (Datatypes.S n))] :: lnk p b (Datatypes.S (Datatypes.S n)) j)
        by (intros p b; rewrite Ekn, lnk_split; reflexivity).
      pose proof (shapes_len _ _ HX2') as L2'. fold j in L2'.
      split; [|split].
      + apply (Permutation_count_occ Z.eq_dec). intros x. unfold v. rewrite (ESP lp (lb k)). rewrite !concat_app. cbn [concat app]. rewrite !concat_app. cbn [concat app].
        fold l0. repeat (rewrite ?count_occ_app, ?(cnt_cons _ (_ :: _)), ?(cnt_cons _ (_ ++ _)), ?(cnt_cons _ (concat _)), ?app_nil_r). lia.
      + cbn [map app]. rewrite <- app_assoc. apply Forall2_app; [exact (HD0 [])|]. cbn [app]. constructor; [exact HDp|].
        destruct HB as (B1 & B2 & B3). destruct (Hld _ B (HY2 0%nat B eq_refl)) as (G1 & _ & G3 & _). rewrite Nat.add_0_r in G1, G3. cbn in HC2. destruct HC2 as [HCB HC2].
        assert (GB : ld (lb k (Datatypes.S (Datatypes.S n))) = dr B).
        { destruct Y2 as [|C Y2].
          - cbn in HC2. assert (Datatypes.S (Datatypes.S n) = k) as -> by (unfold j in Ekn; cbn in Ekn; lia). congruence.
          - destruct (Hld _ C (HY2 1%nat C eq_refl)) as (_ & _ & G & _). replace (Datatypes.S n + 1)%nat with (Datatypes.S (Datatypes.S n)) in G by lia. rewrite G. apply HC2. }
        constructor; [|apply Forall2_app; [|constructor; [exact HDT|exact HDY']]].
        * cbn [map tens_site tsh]. rewrite ext3_lp, ext3_lb, B1, B2, B3, GB, G1, HCB. unfold ext3; cbn [Z.eqb]. rewrite Hl0. reflexivity.
        * rewrite <- L2'. apply (lnk_dims _ X2 _ lp (lb k) (dr B) 1).
          -- apply (shapes_chain X2 Y2); assumption.
          -- intros i C Hi. destruct (shapes_nth _ _ HX2' i C Hi) as (C' & HC' & S1 & S2 & S3). rewrite ext3_lp, ext3_lb.
             destruct (Hld _ C' (HY2 (Datatypes.S i) C' HC')) as (K1 & _ & K3 & _). replace (Datatypes.S (Datatypes.S n) + i)%nat with (Datatypes.S n + Datatypes.S i)%nat by lia. split; congruence.
          -- rewrite ext3_lb, L2'. replace (Datatypes.S (Datatypes.S n) + j)%nat with k by lia. exact Hz.
      + intros s a b e E1 E2 E3. unfold F, X, v. rewrite (ESP lp (lb k)). rewrite !map_app. cbn [map app]. rewrite <- !app_assoc. cbn [app].
        rewrite !tprod_app by (rewrite map_length, lnk_length; assumption). rewrite !tprod_cons. rewrite !tprod_app by (rewrite map_length, lnk_length; assumption). rewrite !tprod_cons.
        cbn [map tens_site te nth dsite ent]. fold l0. rewrite E1, E2, E3. unfold dlt. destruct (Nat.eqb_spec b (e l0)) as [Eb|Eb]; [|ring]. rewrite <- Eb. ring. }
  destruct HV as (HP & HD & HF).
  destruct (in_split _ _ Hin) as (o1 & o2 & Eo).
  destruct (open_ok S ld (phys A) (dl A) ((map tens_site X1 ++ [pr] ++ map tens_site X2) ++ [T] ++ map tens_site Y) l v order l0 (o1 ++ o2) F) as (r & Er & Hr & HVr).
  - exact HS.
  - intros ->. inversion HD as [G|]. destruct X1; discriminate.
  - apply nodup_op. lia.
  - intros x Hx. apply (pos_op k x); [lia|exact Hx].
  - intros x. unfold v, order. rewrite !concat_app, !count_occ_app, !cnt_lnk0, !cnt_bonds by lia. cbn [concat]. rewrite app_nil_r. unfold tword. rewrite count_occ_app.
    destruct (ends_op k) as [->|]; lia.
  - rewrite Eo. symmetry. apply Permutation_middle.
  - exact HP.
  - exact HD.
  - intros. apply tprod_proper.
  - exact HF.
  - exists r. split; [exact Er|]. split; [rewrite Hr, Hl0; reflexivity|]. intros s a b Hb. rewrite HVr by (rewrite Hl0; exact Hb). unfold F.
    assert (HXY : Forall2 shapes (X s a b) Y). { rewrite EY. apply Forall2_app; [exact HX1|]. constructor; [repeat split|exact HX2]. }
    pose proof (shapes_len _ _ HXY) as LX.
    unfold order, v. rewrite (sandwich_esum ld (X s a b) Y [T] [tword k] (fun w w' => te T (w ++ w')) k 1 1 lp (lq k) (lb k) (lc k)).
    + rewrite (shapes_dims _ _ HXY). apply sumcfg_ext; intros w _. apply sumcfg_ext; intros w' _. cbn [sum]. fold (X s a b). ring.
    + congruence.
    + congruence.
    + lia.
    + apply (shapes_chain _ Y); assumption.
    + exact HCY.
    + apply shapes_dims, HXY.
    + apply nodup_op. lia.
    + labels.
    + labels.
    + labels.
    + labels.
    + labels.
    + labels.
    + labels.
    + intros i C Hi. destruct (shapes_nth _ _ HXY i C Hi) as (C' & HC' & S1 & S2 & S3). destruct (Hld i C' HC') as (K1 & _ & K3 & _). split; congruence.
    + intros i C Hi. destruct (Hld i C Hi) as (_ & K1 & _ & K3). split; congruence.
    + exact Hz.
    + reflexivity.
    + intros e. unfold tprod. cbn [combine map prodl fst snd]. unfold tword. rewrite map_app. ring.
Qed.
End Net.
