(** One term of the Hamiltonian in F2. *)
From Verif Require Import Alg ModelMPS SpecMPS ProofMPS ModelOrth SpecOrth ProofOrth ProofOrth2 ModelNcon SpecNcon ProofNcon
  ModelEk SpecEk ProofEk4 ModelNp ModelEnergy SpecEnergy ProofEnergy ModelTan SpecTan ProofTan ModelTdvp SpecTdvp ProofTdvp ProofTdvp2 ProofTdvp3 ProofTdvp4
  ModelJac SpecJac ProofJac ProofJac2.

Section Term.
Context {R : sring}.
Local Open Scope sr_scope.
Add Ring Rr : (s_th R).
Variable K : tanlib R.
Variable S : setio.
Hypothesis HS : setio_ok S.
Variables (m : fmps R) (d : nat) (ls rs : list (mat R)).
Hypothesis Hu : Forall (fun A => phys A = d) (fdata m).
Hypothesis Hdiag : envs_diagonal (fdata m).
Hypothesis Henv : forall p q, fdata m = p ++ q -> exists l r a, nth_error ls (length p) = Some l /\ nth_error rs (length p) = Some r /\
      chain 1 p a /\ chain a q 1 /\ is_env l a (true_l p) /\ is_env r a (true_r q).

Variables (P mid Q : list (site R)) (A B : site R).
Hypothesis Edata : fdata m = P ++ A :: mid ++ B :: Q.
Notation i := (length P).
Notation j := (length P + 1 + length mid)%nat.
Variable ie : @invenvs R.
Variables (V W : site R) (cl icl icr f cr : mat R) (L1 CL E1 L2 E2 CR : nat -> R).
Hypothesis Gcl : getprev (ie_cl ie) i = Ok cl.
Hypothesis Gicl : getprev (ie_icl ie) i = Ok icl.
Hypothesis Gicr : getitem (ie_icr ie) i = Ok icr.
Hypothesis Gf : getprev (ie_icl ie) j = Ok f.
Hypothesis Gcr : getitem (ie_cr ie) j = Ok cr.
Hypothesis Dcl : is_dmat cl (dl A) CL.
Hypothesis Dicl : is_dmat icl (dl A) L1.
Hypothesis Dicr : is_dmat icr (dr A) E1.
Hypothesis Df : is_dmat f (dl B) L2.
Hypothesis Dcr : is_dmat cr (dr B) CR.
Hypothesis HCL : forall x, (x < dl A)%nat -> CL x = true_l P x x * L1 x.
Hypothesis HCR : forall y, (y < dr B)%nat -> CR y = E2 y * true_r Q y y.
Hypothesis RL1 : real_on (dl A) L1.
Hypothesis RE1 : real_on (dr A) E1.
Hypothesis RL2 : real_on (dl B) L2.
Hypothesis RE2 : real_on (dr B) E2.
Hypothesis PV : phys V = d.
Hypothesis LV : dl V = dl A.
Hypothesis PW : phys W = d.
Hypothesis LW : dl W = dl B.

Notation Ti x y := (tvec A V L1 E1 x y).
Notation Tj x y := (tvec B W L2 E2 x y).
Notation bra x1 y1 x2 y2 := (P ++ Ti x1 y1 :: mid ++ Tj x2 y2 :: Q).

Variables (Ris Rjs : nat -> res (tens R)).
Hypothesis HRj : forall t, (t <= length mid)%nat -> exists X b, Rjs (i + 1 + t)%nat = Ok X /\ chain b (skipn t mid) (dl B) /\ tsh X = [b; b; dr W; dr B] /\
  forall x y u v, (x < b)%nat -> (y < b)%nat -> (v < dr B)%nat -> te X [x; y; u; v] = ovl_r (skipn t mid ++ Tj u v :: Q) (skipn t mid ++ B :: Q) x y.
Hypothesis HRi : forall t, (t <= length P)%nat -> exists X b, Ris t = Ok X /\ chain b (skipn t P) (dl A) /\ tsh X = [b; b; dr V; dr A] /\
  forall x y u k, (x < b)%nat -> (y < b)%nat -> te X [x; y; u; k] = xfer (skipn t P) (fun x y => sum d (fun s => L1 y * sconj (ent V s y u) * ent A s x k)) x y.

Lemma chain_left (l : list (site R)) a a' b : chain a l b -> chain a' l b -> l <> [] -> a = a'.
Proof. destruct l as [|X l]; [congruence|]. intros (E1' & _) (E2' & _) _. congruence. Qed.

Lemma shapes_all : exists a, chain 1 P a /\ dl A = a /\ chain (dr A) mid (dl B) /\ chain (dr B) Q 1 /\ diag_on (dl A) (true_l P) /\ diag_on (dr B) (true_r Q) /\
  dims P = repeat d (length P) /\ dims mid = repeat d (length mid) /\ dims Q = repeat d (length Q) /\ phys A = d /\ phys B = d.
Proof.
  destruct (cut m d ls rs Hu Hdiag Henv P (A :: mid ++ B :: Q) Edata) as (_ & _ & a & _ & _ & C1 & (CA & C2) & _ & _ & Dl & _ & DP & DQ).
  apply chain_app in C2 as (b & Cm & (CB & CQ)).
  assert (E2' : fdata m = (P ++ A :: mid ++ [B]) ++ Q) by (rewrite Edata, <- app_assoc; cbn [app]; rewrite <- app_assoc; reflexivity).
  destruct (cut m d ls rs Hu Hdiag Henv _ Q E2') as (_ & _ & b' & _ & _ & C3 & C4 & _ & _ & _ & Dr & _ & DQ').
  assert (Eb : b' = dr B). { apply chain_app in C3 as (q & _ & (_ & K2)). apply chain_app in K2 as (q' & _ & (_ & K3)). cbn in K3. symmetry. exact K3. }
  rewrite Eb in Dr. rewrite <- CB in Cm. exists a. split; [exact C1|]. split; [exact CA|]. split; [exact Cm|]. split; [exact CQ|]. rewrite CA. split; [exact Dl|]. split; [exact Dr|]. split; [exact DP|].
  cbn [dims map length repeat] in DQ. injection DQ as D1 D2. apply (dims_cut d mid (B :: Q)) in D2 as [D2 D3]. split; [exact D2|]. split; [exact DQ'|]. split; [exact D1|]. cbn [dims map length repeat] in D3. now inversion D3.
Qed.

Lemma F2_term_ok G k h T : tsh G = [dr V; dr A; dr W; dr B] -> (k + 2 <= length (fdata m))%nat -> (k <= i)%nat ->
  reshape_op d 2 h = Ok T -> mr h = (d * d)%nat -> mc h = (d * d)%nat ->
  exists X, F2_term S m ls ie V W Ris Rjs i j G (k, T) = Ok (mkT (tsh G) (fun idx => te G idx + te X idx)) /\
    forall x1 y1 x2 y2, (x1 < dr V)%nat -> (y1 < dr A)%nat -> (x2 < dr W)%nat -> (y2 < dr B)%nat ->
      te X [x1; y1; x2; y2] = term_elem d (bra x1 y1 x2 y2) (fdata m) k h.
Proof.
  intros SG Hk Hki ET Hr Hc. destruct (split_two (fdata m) k Hk) as (P1 & A0 & A1 & Q1 & E & LP1).
  destruct shapes_all as (a & CP & CA & Cm & CQ & Dl & Dr & DP & Dm & DQ & PA & PB). rewrite <- CA in CP.
  assert (E2' : fdata m = (P1 ++ [A0; A1]) ++ Q1) by (rewrite E, <- app_assoc; reflexivity).
  destruct (cut m d ls rs Hu Hdiag Henv P1 (A0 :: A1 :: Q1) E) as (l & _ & a1 & Nl & _ & C1 & (CA0 & CA1 & C2) & Hl & _ & Dl1 & _ & DP1 & _).
  rewrite <- CA0 in C1, Dl1, Hl.
  assert (Hin : forall X, In X [A0; A1] -> phys X = d).
  { intros B0 HB. rewrite Forall_forall in Hu. apply Hu. rewrite E2'. apply in_or_app. left. apply in_or_app. right. exact HB. }
  assert (PA0 := Hin A0 (or_introl eq_refl)). assert (PA1 := Hin A1 (or_intror (or_introl eq_refl))).
  destruct (net_C S HS d h A0 A1 T ET Hr Hc PA0 PA1 CA1) as (C & EC & SC & VC).
  unfold F2_term. cbn [fst snd]. destruct (Nat.ltb_spec i k) as [|_]; [lia|].
  replace (firstn 2 (skipn k (fdata m))) with [A0; A1] by (rewrite E, <- LP1, skipn_app, skipn_all, Nat.sub_diag; reflexivity).
  rewrite EC. cbn [bind]. rewrite <- LP1.
  assert (Hl' : is_dmat l (dl A0) (fun x => true_l P1 x x)).
  { destruct Hl as (H1 & H2 & H3). split; [exact H1|]. split; [exact H2|]. intros x y Hx Hy. rewrite H3 by assumption. destruct (Nat.eq_dec x y) as [<-|Hne]; [rewrite dlt_eq; ring|]. rewrite dlt_neq, (Dl1 x y) by assumption. ring. }
  destruct (Nat.eqb_spec (length P1) i) as [E1'|N1].
  - (* the term starts at the site *)
    assert (E3 : P1 ++ A0 :: A1 :: Q1 = P ++ A :: mid ++ B :: Q) by congruence. apply app_len in E3 as [-> E3]; [|exact E1']. injection E3 as -> EQ. clear E1' LP1.
    destruct (Nat.eqb_spec j (i + 1)) as [Ej|Nj].
    + assert (Em : mid = []) by (destruct mid; [reflexivity|cbn in Ej; lia]). rewrite Em in EQ. cbn [app] in EQ. injection EQ as -> ->.
      assert (EB : dl B = dr A) by (rewrite Em in Cm; cbn in Cm; congruence).
      rewrite Gcl. cbn [bind]. rewrite Gcr. cbn [bind]. destruct (dmat_4_dmat cl CL cr CR C d (dl A) (dr B) Dcl Dcr SC) as (X & EX & SX & VX). rewrite EX. cbn [bind].
      rewrite Gicr. cbn [bind]. rewrite Gf. cbn [bind]. destruct (dmat_dmat icr f (dr A) E1 L2) as (ef & Eef & Def); [exact Dicr|rewrite <- EB; exact Df|]. rewrite Eef. cbn [bind].
      destruct (dmat_site ef (fun x => E1 x * L2 x) (site_conj W)) as (Y & EY & Y1 & Y2 & Y3 & VY); [cbn [site_conj dl]; rewrite LW, EB; exact Def|]. rewrite EY. cbn [bind].
      destruct (jnet_two S HS X (site_conj V) Y d (dl A) (dr B) SX PV LV) as (Z & EZ & SZ & VZ); [rewrite Y1; exact PW|]. rewrite EZ. cbn [bind].
      unfold add_to. assert (SZ' : tsh Z = tsh G) by (rewrite SZ, SG, Y2, Y3; cbn [site_conj dl dr]; rewrite LW, EB; reflexivity). rewrite SZ', ProofNcon.nlist_eqb_refl. exists Z. split; [reflexivity|].
      intros x1 y1 x2 y2 H1 H2 H3 H4. rewrite VZ, E, Em. cbn [app].
      rewrite (jterm_two d P Q A V L1 E1 B W L2 E2 h x1 y1 x2 y2); try assumption.
      apply sum_ext; intros s Hs. apply sum_ext; intros t Ht. apply sum_ext; intros x Hx. rewrite VX, VY, VC, HCL, HCR by (assumption || (cbn [site_conj dl]; lia)). cbn [site_conj ent]. ring.
    + destruct mid as [|B0 mid']; [cbn in Nj; lia|]. cbn [app] in EQ. injection EQ as -> ->. destruct Cm as [CB0 Cm].
      rewrite Gcl. cbn [bind]. destruct (dmat_4 cl CL C d (dl A) (dr B0) Dcl SC) as (X & EX & SX & VX). rewrite EX. cbn [bind].
      rewrite Gicr. cbn [bind]. destruct (dmat_site icr E1 (site_conj B0)) as (Y & EY & Y1 & Y2 & Y3 & VY); [cbn [site_conj dl]; rewrite CB0; exact Dicr|]. rewrite EY. cbn [bind].
      destruct (jnet_here S HS X (site_conj V) Y d (dl A) (dr B0) SX PV LV) as (Z & EZ & SZ & VZ); [rewrite Y1; exact PA1|]. rewrite EZ. cbn [bind].
      destruct (HRj 1) as (U & b & EU & Cb & SU & VU); [cbn; lia|]. replace (i + 1 + 1)%nat with (i + 2)%nat in EU by lia. rewrite EU. cbn [bind skipn] in *.
      assert (Eb : b = dr B0) by (destruct mid' as [|D mid']; [cbn in Cb, Cm; congruence|exact (chain_left _ _ _ _ Cb Cm ltac:(discriminate))]). subst b.
      destruct (con_23 Z U (dr V) (dr A) (dr B0) (dr W) (dr B)) as (N & EN & SN & VN); [rewrite SZ, Y2, Y3; cbn [site_conj dl dr]; rewrite CB0; reflexivity|exact SU|]. rewrite EN. cbn [bind].
      unfold add_to. rewrite SN, SG, ProofNcon.nlist_eqb_refl. exists N. split; [reflexivity|].
      intros x1 y1 x2 y2 H1 H2 H3 H4. rewrite VN, E. cbn [app].
      cbn [dims map length repeat] in Dm. injection Dm as _ Dm.
      rewrite (jterm_here d P (mid' ++ B :: Q) (mid' ++ Tj x2 y2 :: Q) A V L1 E1 B0 h x1 y1); try assumption.
      * transitivity (sum (dr B0) (fun y' => sum (dr B0) (fun y => sum (dl A) (fun x => sum d (fun s => sum d (fun t =>
          true_l P x x * L1 x * sconj (ent V s x x1) * (E1 y1 * sconj (ent B0 t y1 y)) * hAA d h A B0 s t x y' * ovl_r (mid' ++ Tj x2 y2 :: Q) (mid' ++ B :: Q) y' y)))))).
        { apply sum_ext; intros y' Hy'. apply sum_ext; intros y Hy. rewrite VZ, VU by assumption. rewrite <- sum_mul_r. apply sum_ext; intros x Hx. rewrite <- sum_mul_r. apply sum_ext; intros s Hs. rewrite <- sum_mul_r. apply sum_ext; intros t Ht.
          rewrite VX, VY, VC, HCL by (assumption || (cbn [site_conj dl]; lia)). cbn [site_conj ent]. ring. }
        rewrite sum_swap. symmetry.
        transitivity (sum (dr B0) (fun y => sum d (fun s => sum d (fun t => sum (dl A) (fun x => sum (dr B0) (fun y' =>
          true_l P x x * L1 x * sconj (ent V s x x1) * (E1 y1 * sconj (ent B0 t y1 y)) * hAA d h A B0 s t x y' * ovl_r (mid' ++ Tj x2 y2 :: Q) (mid' ++ B :: Q) y' y)))))).
        { rewrite (sum_swap (dr B0) d). apply sum_ext; intros s _. rewrite sum_rot. reflexivity. }
        apply sum_ext; intros y Hy. transitivity (sum (dr B0) (fun y' => sum d (fun s => sum d (fun t => sum (dl A) (fun x =>
          true_l P x x * L1 x * sconj (ent V s x x1) * (E1 y1 * sconj (ent B0 t y1 y)) * hAA d h A B0 s t x y' * ovl_r (mid' ++ Tj x2 y2 :: Q) (mid' ++ B :: Q) y' y))))).
        { rewrite (sum_swap (dr B0) d). apply sum_ext; intros s _. rewrite sum_rot. reflexivity. }
        apply sum_ext; intros y' Hy'. rewrite sum_rot. reflexivity.
      * apply like_app; [apply like_refl|]. constructor; [repeat split|apply like_refl].
      * unfold dims in *. rewrite map_app, app_length, repeat_app. cbn [map length repeat]. f_equal; [exact Dm|]. f_equal; [exact PB|exact DQ].
  - destruct (Nat.eqb_spec (length P1 + 1) i) as [E1'|N2].
    + (* the term ends at the site *)
      assert (E3 : (P1 ++ [A0]) ++ A1 :: Q1 = P ++ A :: mid ++ B :: Q) by (rewrite <- app_assoc; cbn [app]; congruence).
      apply app_len in E3 as [EP E3]; [|rewrite app_length; exact E1']. injection E3 as -> ->.
      unfold getitem at 1. rewrite Nl. cbn [bind]. destruct (dmat_4 l _ C d (dl A0) (dr A) Hl' SC) as (X & EX & SX & VX). rewrite EX. cbn [bind].
      rewrite Gicl. cbn [bind]. destruct (dmat_site icl L1 (site_conj V)) as (Y & EY & Y1 & Y2 & Y3 & VY); [cbn [site_conj dl]; rewrite LV; exact Dicl|]. rewrite EY. cbn [bind].
      destruct (jnet_left S HS X (site_conj A0) Y d (dl A0) (dr A) SX PA0 eq_refl) as (Z & EZ & SZ & VZ); [rewrite Y1; exact PV|rewrite Y2; cbn [site_conj dl dr]; rewrite LV; exact CA1|]. rewrite EZ. cbn [bind].
      rewrite Gicr. cbn [bind]. destruct (HRj 0) as (U & b & EU & Cb & SU & VU); [lia|]. replace (i + 1 + 0)%nat with (length P1 + 2)%nat in EU by lia. rewrite EU. cbn [bind skipn] in *.
      assert (Eb : b = dr A) by (destruct mid as [|D mid']; [cbn in Cb, Cm; congruence|exact (chain_left _ _ _ _ Cb Cm ltac:(discriminate))]). subst b.
      destruct Dicr as (I1 & I2 & I3). destruct (jnet_e1 S HS icr U (dr A) (dr W) (dr B) I1 I2 SU) as (N & EN & SN & VN). rewrite EN. cbn [bind].
      destruct (con_1 Z N (dr V) (dr A) (dr A) (dr W) (dr B)) as (F & EF & SF & VF); [rewrite SZ, Y3; reflexivity|exact SN|]. rewrite EF. cbn [bind].
      unfold add_to. rewrite SF, SG, ProofNcon.nlist_eqb_refl. exists F. split; [reflexivity|].
      intros x1 y1 x2 y2 H1 H2 H3 H4. rewrite VF, E, <- EP, <- app_assoc. cbn [app].
      rewrite (jterm_left d P1 (mid ++ B :: Q) (mid ++ Tj x2 y2 :: Q) A0 A V L1 E1 h x1 y1); try assumption.
      * apply sum_ext; intros y' Hy'. rewrite VN, (dmat_l icr (dr A) E1 y1 (fun k => te U [y'; k; x2; y2]) (conj I1 (conj I2 I3)) H2), VU by assumption. f_equal. rewrite VZ. cbn [site_conj dr].
        symmetry. rewrite sum_rot. apply sum_ext; intros x Hx. apply sum_ext; intros s Hs. rewrite sum_swap. apply sum_ext; intros z Hz. apply sum_ext; intros t Ht.
        rewrite VX, VY, VC by (assumption || (cbn [site_conj dl]; lia)). cbn [site_conj ent]. ring.
      * apply like_app; [apply like_refl|]. constructor; [repeat split|apply like_refl].
      * unfold dims in *. rewrite map_app, app_length, repeat_app. cbn [map length repeat]. f_equal; [exact Dm|]. f_equal; [exact PB|exact DQ].
    + (* the term is further to the left *)
      assert (E3 : (P1 ++ [A0; A1]) ++ Q1 = P ++ A :: mid ++ B :: Q) by (rewrite <- app_assoc; cbn [app]; congruence).
      assert (E4 : P = firstn (length P1 + 2) P ++ skipn (length P1 + 2) P) by (symmetry; apply firstn_skipn).
      set (mid2 := skipn (length P1 + 2) P) in *.
      assert (E3' : (P1 ++ [A0; A1]) ++ Q1 = firstn (length P1 + 2) P ++ (mid2 ++ A :: mid ++ B :: Q)) by (rewrite E3, app_assoc, <- E4; reflexivity). clear E3. rename E3' into E3.
      apply app_len in E3 as [E5 E3]. 2: { rewrite app_length, firstn_length. cbn [length]. lia. }
      assert (EP : P = P1 ++ A0 :: A1 :: mid2) by (rewrite E4, <- E5, <- app_assoc; reflexivity).
      unfold getitem at 1. rewrite Nl. cbn [bind].
      destruct (dmat_site l _ (site_conj A0) Hl') as (X & EX & X1 & X2 & X3 & VX). rewrite EX. cbn [bind].
      destruct (net_M S HS d X (site_conj A1) C) as (M & EM & SM & VM); [rewrite X1; exact PA0|exact PA1|rewrite X3; exact CA1|rewrite X2; exact SC|]. rewrite EM. cbn [bind]. cbn [site_conj dr] in SM.
      destruct (HRi (length P1 + 2)) as (U & b & EU & Cb & SU & VU); [lia|]. fold mid2 in Cb, VU. rewrite EU. cbn [bind].
      assert (Cm2 : chain (dr A1) mid2 (dl A)). { rewrite EP in CP. apply chain_app in CP as (q & _ & (_ & _ & K3)). exact K3. }
      assert (Eb : b = dr A1) by (destruct mid2 as [|D mid']; [cbn in Cb, Cm2; congruence|exact (chain_left _ _ _ _ Cb Cm2 ltac:(discriminate))]). subst b.
      destruct (con_01 M U (dr A1) (dr V) (dr A) SM SU) as (Z & EZ & SZ & VZ). rewrite EZ. cbn [bind].
      destruct (HRj 0) as (U2 & b2 & EU2 & Cb2 & SU2 & VU2); [lia|]. rewrite Nat.add_0_r in EU2. rewrite EU2. cbn [bind skipn] in *.
      assert (Eb : b2 = dr A) by (destruct mid as [|D mid']; [cbn in Cb2, Cm; congruence|exact (chain_left _ _ _ _ Cb2 Cm ltac:(discriminate))]). subst b2.
      destruct (con_1 Z U2 (dr V) (dr A) (dr A) (dr W) (dr B) SZ SU2) as (F & EF & SF & VF). rewrite EF. cbn [bind]. rewrite Gicr. cbn [bind].
      destruct Dicr as (I1 & I2 & I3). destruct (jnet_e2 S HS icr F (dr A) (dr V) (dr W) (dr B) I1 I2 SF) as (N & EN & SN & VN). rewrite EN. cbn [bind].
      unfold add_to. rewrite SN, SG, ProofNcon.nlist_eqb_refl. exists N. split; [reflexivity|].
      intros x1 y1 x2 y2 H1 H2 H3 H4. rewrite VN, (dmat_r icr (dr A) E1 y1 (fun k => te F [x1; k; x2; y2]) (conj I1 (conj I2 I3)) H2), VF, E, E3, EP, <- app_assoc. cbn [app].
      assert (HC1 : chain (dr A) (mid ++ B :: Q) 1) by (apply chain_app; exists (dl B); split; [exact Cm|]; split; [reflexivity|exact CQ]).
      assert (HLk : like (mid ++ B :: Q) (mid ++ Tj x2 y2 :: Q)) by (apply like_app; [apply like_refl|]; constructor; [repeat split|apply like_refl]).
      rewrite (jterm_far d P1 (mid2 ++ A :: mid ++ B :: Q) (mid2 ++ Ti x1 y1 :: mid ++ Tj x2 y2 :: Q) A0 A1 h); try assumption.
      * transitivity (sum (dr A1) (fun y' => sum (dr A1) (fun y => kAA d h (dl A0) (fun x => true_l P1 x x) A0 A1 y' y *
          sum (dr A) (fun k => xfer mid2 (fun x y => sum d (fun s => L1 y * sconj (ent V s y x1) * ent A s x k)) y' y * (E1 y1 * ovl_r (mid ++ Tj x2 y2 :: Q) (mid ++ B :: Q) k y1))))).
        { rewrite <- sum_mul_r.
          transitivity (sum (dr A) (fun k => sum (dr A1) (fun y' => sum (dr A1) (fun y => kAA d h (dl A0) (fun x => true_l P1 x x) A0 A1 y' y *
             (xfer mid2 (fun x y => sum d (fun s => L1 y * sconj (ent V s y x1) * ent A s x k)) y' y * (E1 y1 * ovl_r (mid ++ Tj x2 y2 :: Q) (mid ++ B :: Q) k y1)))))).
          - apply sum_ext; intros z Hz. rewrite VZ, VU2 by assumption. rewrite <- !sum_mul_r. apply sum_ext; intros y' Hy'. rewrite <- !sum_mul_r. apply sum_ext; intros y Hy. rewrite VU by assumption.
            replace (te M [y'; y]) with (kAA d h (dl A0) (fun x => true_l P1 x x) A0 A1 y' y); [ring|]. rewrite VM, X2, X3. unfold kAA. cbn [site_conj dl dr].
            apply sum_ext; intros s Hs. apply sum_ext; intros t Ht. apply sum_ext; intros x Hx. apply sum_ext; intros w Hw. rewrite VX, VC by assumption. cbn [site_conj ent]. ring.
          - rewrite sum_swap. apply sum_ext; intros y' Hy'. rewrite sum_swap. apply sum_ext; intros y Hy. rewrite sum_mul_l. reflexivity. }
        apply sum_ext; intros y' Hy'. apply sum_ext; intros y Hy. f_equal. rewrite ovl_r_app.
        rewrite <- (xfer_lin mid2 (dr A) (fun k x y => sum d (fun s => L1 y * sconj (ent V s y x1) * ent A s x k)) (fun k => E1 y1 * ovl_r (mid ++ Tj x2 y2 :: Q) (mid ++ B :: Q) k y1)).
        apply (xfer_ext mid2 _ _ (dr A1) (dl A) Cm2); [|assumption|assumption]. intros x z Hx Hz. rewrite (ovl_r_tvec (mid ++ B :: Q) (mid ++ Tj x2 y2 :: Q) A V L1 E1 x1 y1 x z) by assumption. rewrite PA. reflexivity.
      * rewrite <- E3. exact C2.
      * apply like_app; [apply like_refl|]. constructor; [repeat split|exact HLk].
      * rewrite EP in DP. change (P1 ++ A0 :: A1 :: mid2) with (P1 ++ [A0; A1] ++ mid2) in DP. rewrite app_assoc in DP. apply dims_cut in DP as [_ DP].
        unfold dims in *. rewrite !map_app, !app_length, repeat_app. cbn [map length repeat]. rewrite !map_app, !app_length, repeat_app. cbn [map length repeat]. f_equal; [exact DP|]. f_equal; [exact PA|]. f_equal; [exact Dm|]. f_equal; [exact PB|exact DQ].
Qed.

Hypothesis Hgauge : forall x1 y1 x y, (x1 < dr V)%nat -> (x < dr A)%nat -> (y < dr A)%nat ->
  sum (phys A) (fun t => sum (dl A) (fun c => sconj (ent (Ti x1 y1) t c x) * true_l P c c * ent A t c y)) = 0.
Lemma F2_term_zero G k h T : (k + 2 <= length (fdata m))%nat -> (i < k)%nat ->
  F2_term S m ls ie V W Ris Rjs i j G (k, T) = Ok G /\
    forall x1 y1 x2 y2, (x1 < dr V)%nat -> term_elem d (bra x1 y1 x2 y2) (fdata m) k h = 0.
Proof.
  intros Hk Hik. split; [unfold F2_term; cbn [fst snd]; destruct (Nat.ltb_spec i k) as [_|]; [reflexivity|lia]|].
  intros x1 y1 x2 y2 H1. destruct shapes_all as (a & CP & CA & Cm & CQ & Dl & Dr & DP & Dm & DQ & PA & PB). rewrite <- CA in CP. rewrite Edata.
  apply term_gauge; try assumption.
  - repeat split.
  - intros x y Hx Hy. apply Hgauge; assumption.
  - apply chain_app; exists (dl B); split; [exact Cm|]; split; [reflexivity|exact CQ].
  - apply like_app; [apply like_refl|]; constructor; [repeat split|apply like_refl].
  - rewrite <- Edata. apply dims_repeat. exact Hu.
  - rewrite <- Edata. exact Hk.
Qed.
End Term.
