(** One term of the Hamiltonian in dA_dt. *)
From Verif Require Import Alg ModelMPS SpecMPS ProofMPS ModelOrth SpecOrth ProofOrth ProofOrth2 ModelNcon SpecNcon
  ModelEk SpecEk ProofEk4 ModelNp ModelEnergy SpecEnergy ProofEnergy ModelTan SpecTan ProofTan ModelTdvp SpecTdvp ProofTdvp ProofTdvp2 ProofTdvp3.

Section Term.
Context {R : sring}.
Local Open Scope sr_scope.
Add Ring Rr : (s_th R).

Lemma chain_next (l : list (site R)) : forall i j k A B, chain i l j -> nth_error l k = Some A -> nth_error l (Datatypes.S k) = Some B -> dr A = dl B.
Proof.
  induction l as [|C l IH]; intros i j k A B Hc HA HB; [destruct k; discriminate|].
  destruct Hc as [H1 H2]. destruct k as [|k].
  - cbn in HA, HB. injection HA as ->. destruct l as [|D l]; [discriminate|]. injection HB as ->. destruct H2 as [H2 _]. symmetry. exact H2.
  - cbn in HA, HB. eapply IH; eassumption.
Qed.

Lemma skipn_cons_nth {X} (l : list X) k x : nth_error l k = Some x -> skipn k l = x :: skipn (Datatypes.S k) l.
Proof. revert k. induction l as [|y l IH]; intros [|k] H; try discriminate; cbn in *; [congruence|]. apply IH. exact H. Qed.

Lemma lt_loop_ok (P rest : list (site R)) (A : site R) pr j : chain 1 (P ++ [A]) j -> forall k L, (k <= length P)%nat ->
  (forall B, nth_error (P ++ [A]) k = Some B -> tsh L = [dl B; dl B; phys A; dl A; dr A]) ->
  (forall x y s0 a0 b0, te L [x; y; s0; a0; b0] = moved (skipn k P) A pr s0 a0 b0 x y) ->
  exists Ls, lt_loop (P ++ rest) (rev (seq 0 k)) L = Ok Ls /\ length Ls = Datatypes.S k /\
    forall n, (n <= k)%nat -> exists W, nth_error Ls n = Some W /\ (forall B, nth_error (P ++ [A]) n = Some B -> tsh W = [dl B; dl B; phys A; dl A; dr A]) /\
      (forall x y s0 a0 b0, te W [x; y; s0; a0; b0] = moved (skipn n P) A pr s0 a0 b0 x y).
Proof.
  intros Hc. induction k as [|k IH]; intros L Hk SL VL.
  - exists [L]. split; [reflexivity|]. split; [reflexivity|]. intros n Hn. assert (n = 0)%nat by lia. subst n. exists L. auto.
  - rewrite seq_S, rev_app_distr. cbn [rev app Nat.add lt_loop].
    destruct (nth_error P k) as [B|] eqn:EB. 2: { apply nth_error_None in EB. lia. }
    unfold getitem. rewrite nth_error_app1, EB by lia. cbn [bind].
    destruct (nth_error (P ++ [A]) (Datatypes.S k)) as [B'|] eqn:EB'. 2: { apply nth_error_None in EB'. rewrite app_length in EB'. cbn in EB'. lia. }
    assert (EBa : nth_error (P ++ [A]) k = Some B) by (rewrite nth_error_app1 by lia; exact EB).
    pose proof (chain_next _ _ _ _ _ _ Hc EBa EB') as E.
    specialize (SL B' eq_refl). rewrite <- E in SL. destruct (lt_step_ok B L _ _ _ SL) as (W & EW & SW & VW).
    rewrite EW. cbn [bind]. destruct (IH W) as (Ls & ELs & LLs & HLs); [lia| | |].
    + intros B0 HB0. assert (B0 = B) by congruence. subst B0. exact SW.
    + intros x y s0 a0 b0. rewrite VW, (skipn_cons_nth P k B EB). cbn [moved]. apply sum_ext; intros t _. apply sum_ext; intros q _.
      rewrite <- sum_mul_l. apply sum_ext; intros q' _. rewrite VL. reflexivity.
    + rewrite ELs. cbn [bind]. exists (Ls ++ [L]). split; [reflexivity|]. split; [rewrite app_length; cbn; lia|].
      intros n Hn. destruct (Nat.eq_dec n (Datatypes.S k)) as [->|Hne].
      * exists L. split; [rewrite nth_error_app2 by lia; rewrite LLs, Nat.sub_diag; reflexivity|]. split; [|exact VL].
        intros B0 HB0. assert (B0 = B') by congruence. subst B0. rewrite <- E. exact SL.
      * destruct (HLs n) as (W' & E1 & E2 & E3); [lia|]. exists W'. split; [rewrite nth_error_app1 by lia; exact E1|]. auto.
Qed.

(** the energy of a term *)
Lemma term_self d (P Q : list (site R)) A0 A1 a h :
  chain 1 P a -> chain a [A0; A1] (dr A1) -> chain (dr A1) Q 1 -> dims P = repeat d (length P) -> dims Q = repeat d (length Q) ->
  diag_on a (true_l P) -> diag_on (dr A1) (true_r Q) ->
  term_elem d (P ++ A0 :: A1 :: Q) (P ++ A0 :: A1 :: Q) (length P) h
  = sum (dr A1) (fun y => kAA d h a (fun x => true_l P x x) A0 A1 y y * true_r Q y y).
Proof.
  intros HP HAB HQ DP DQ Dl Dr.
  rewrite (term_split d P Q P Q A0 A1 A0 A1 a (dr A1) h); try assumption; try reflexivity. unfold kAA.
  transitivity (sum d (fun s => sum d (fun t => sum a (fun x => sum (dr A1) (fun y =>
    sum (dr A0) (fun k => true_l P x x * sconj (ent A0 s x k) * sconj (ent A1 t k y) * hAA d h A0 A1 s t x y) * true_r Q y y))))).
  - apply sum_ext; intros s _. apply sum_ext; intros t _. apply sum_ext; intros x Hx. apply sum_ext; intros y Hy.
    rewrite (sum_diag a x); [|exact Hx|].
    + rewrite (sum_diag (dr A1) y); [|exact Hy|].
      * rewrite ovl_l_same, ovl_r_same.
        rewrite (sum_ext (dr A0) (fun k => true_l P x x * sconj (ent A0 s x k) * sconj (ent A1 t k y) * hAA d h A0 A1 s t x y)
          (fun k => true_l P x x * hAA d h A0 A1 s t x y * sconj (ent A0 s x k * ent A1 t k y))) by (intros; rewrite conj_mul; ring).
        rewrite sum_mul_l, sum_conj. ring.
      * intros y' Hy' Hne. rewrite ovl_r_same, (Dr y' y) by auto. ring.
    + intros x' Hx' Hne. apply sum_zero. intros y' Hy'. rewrite ovl_l_same, (Dl x x') by auto. ring.
  - transitivity (sum (dr A1) (fun y => sum d (fun s => sum d (fun t => sum a (fun x =>
      sum (dr A0) (fun k => true_l P x x * sconj (ent A0 s x k) * sconj (ent A1 t k y) * hAA d h A0 A1 s t x y) * true_r Q y y))))).
    + rewrite (sum_swap (dr A1) d). apply sum_ext; intros s _. rewrite sum_rot. reflexivity.
    + apply sum_ext; intros y _. rewrite <- sum_mul_r. apply sum_ext; intros s _. rewrite <- sum_mul_r. apply sum_ext; intros t _. rewrite <- sum_mul_r. reflexivity.
Qed.

Lemma sum_rot4 a b c e (f : nat -> nat -> nat -> nat -> R) :
  sum a (fun x => sum b (fun y => sum c (fun s => sum e (fun t => f x y s t)))) = sum c (fun s => sum e (fun t => sum a (fun x => sum b (fun y => f x y s t)))).
Proof. rewrite sum_rot. apply sum_ext; intros s _. apply sum_rot. Qed.

Variable K : tanlib R.
Variable S : setio.
Hypothesis HK : tanlib_ok K.
Hypothesis HS : setio_ok S.
Variables (m : fmps R) (d : nat) (ls rs : list (mat R)).
Hypothesis Hclosed : closed (fdata m).
Hypothesis Hd : fd m = d.
Hypothesis Hu : Forall (fun A => phys A = d) (fdata m).
Hypothesis Hdiag : envs_diagonal (fdata m).
Hypothesis Henv : forall p q, fdata m = p ++ q -> exists l r a, nth_error ls (length p) = Some l /\ nth_error rs (length p) = Some r /\
      chain 1 p a /\ chain a q 1 /\ is_env l a (true_l p) /\ is_env r a (true_r q).

Lemma dims_l p q : fdata m = p ++ q -> dims p = repeat d (length p) /\ dims q = repeat d (length q).
Proof. intros E. rewrite E, Forall_app in Hu. split; apply dims_repeat; apply Hu. Qed.

(** what is known at a cut *)
Lemma cut p q : fdata m = p ++ q -> exists l r a, nth_error ls (length p) = Some l /\ nth_error rs (length p) = Some r /\
      chain 1 p a /\ chain a q 1 /\ is_env l a (true_l p) /\ is_env r a (true_r q) /\ diag_on a (true_l p) /\ diag_on a (true_r q) /\
      dims p = repeat d (length p) /\ dims q = repeat d (length q).
Proof.
  intros E. destruct (Henv p q E) as (l & r & a & H1 & H2 & H3 & H4 & H5 & H6). exists l, r, a. repeat (split; [assumption|]).
  destruct (dims_l p q E) as [D1 D2].
  split; [intros x y Hx Hy Hne; apply (Hdiag p q a E H3 x y Hx Hy Hne)|]. split; [intros x y Hx Hy Hne; apply (Hdiag p q a E H3 x y Hx Hy Hne)|]. auto.
Qed.

(** the part of a pass that does not depend on the site *)
Definition two_l (l : mat R) (A0 : site R) : site R := mkSite (phys A0) (mr l) (dr A0) (fun s i j => sum (mc l) (fun k => me l i k * ent (site_conj A0) s k j)).

Lemma common P1 A0 A1 Q1 h T : fdata m = P1 ++ A0 :: A1 :: Q1 -> reshape_op d 2 h = Ok T -> mr h = (d * d)%nat -> mc h = (d * d)%nat ->
  exists l r C M, nth_error ls (length P1) = Some l /\ nth_error rs (length P1 + 2) = Some r /\
    ncon S [T; tens_site A0; tens_site A1] [[-1; -2; 1; 2]; [1; -3; 3]; [2; 3; -4]]%Z None None false = Ok C /\ tsh C = [d; d; dl A0; dr A1] /\
    (forall s t x y, (s < d)%nat -> (t < d)%nat -> te C [s; t; x; y] = hAA d h A0 A1 s t x y) /\
    mat_site l (site_conj A0) = Ok (two_l l A0) /\ mr l = dl A0 /\
    (forall s x k, (x < dl A0)%nat -> ent (two_l l A0) s x k = true_l P1 x x * sconj (ent A0 s x k)) /\
    ncon S [tens_site (two_l l A0); tens_site (site_conj A1); C] [[1; 3; 4]; [2; 4; -2]; [1; 2; 3; -1]]%Z None None false = Ok M /\ tsh M = [dr A1; dr A1] /\
    (forall y' y, te M [y'; y] = kAA d h (dl A0) (fun x => true_l P1 x x) A0 A1 y' y) /\
    trace_dot M r = Ok (term_elem d (fdata m) (fdata m) (length P1) h).
Proof.
  intros E ET Hr Hc.
  assert (E2 : fdata m = (P1 ++ [A0; A1]) ++ Q1) by (rewrite E, <- app_assoc; reflexivity).
  destruct (cut P1 (A0 :: A1 :: Q1) E) as (l & _ & a & Nl & _ & C1 & C2 & (L1 & L2 & L3) & _ & Dl & _ & DP & _).
  destruct (cut (P1 ++ [A0; A1]) Q1 E2) as (_ & r & b & _ & Nr & C3 & C4 & _ & (R1 & R2 & R3) & _ & Dr & _ & DQ).
  rewrite app_length in Nr. cbn [length] in Nr.
  destruct C2 as (CA & CB & C2). assert (Eb : b = dr A1).
  { apply chain_app in C3 as (k & K1 & K2). rewrite (chain_fun P1 1 k a K1 C1) in K2. destruct K2 as (_ & _ & K2). cbn in K2. symmetry. exact K2. }
  rewrite Eb in C4, R1, R2, R3, Dr. assert (Hin : forall B, In B [A0; A1] -> phys B = d).
  { intros B HB. rewrite Forall_forall in Hu. apply Hu. rewrite E2. apply in_or_app. left. apply in_or_app. right. exact HB. }
  assert (PA := Hin A0 (or_introl eq_refl)). assert (PB := Hin A1 (or_intror (or_introl eq_refl))).
  destruct (net_C S HS d h A0 A1 T ET Hr Hc PA PB CB) as (C & EC & SC & VC).
  exists l, r, C.
  assert (EX : mat_site l (site_conj A0) = Ok (two_l l A0)) by (unfold mat_site; cbn [site_conj dl dr phys ent]; rewrite L2, <- CA, Nat.eqb_refl; unfold two_l; rewrite L2, <- CA; reflexivity).
  assert (VX : forall s x k, (x < dl A0)%nat -> ent (two_l l A0) s x k = true_l P1 x x * sconj (ent A0 s x k)).
  { intros s x k Hx. cbn [two_l ent site_conj]. rewrite L2, <- CA. rewrite (sum_diag (dl A0) x); [rewrite L3 by lia; reflexivity|exact Hx|].
    intros z Hz Hne. rewrite L3, (Dl x z) by (auto; lia). ring. }
  destruct (net_M S HS d (two_l l A0) (site_conj A1) C) as (M & EM & SM & VM); [exact PA|exact PB|exact CB|cbn [two_l site_conj dl dr]; rewrite L1, <- CA; exact SC|].
  exists M. cbn [site_conj dr] in SM.
  assert (VM' : forall y' y, te M [y'; y] = kAA d h (dl A0) (fun x => true_l P1 x x) A0 A1 y' y).
  { intros y' y. rewrite VM. unfold kAA. cbn [two_l dl dr]. rewrite L1, <- CA.
    apply sum_ext; intros s Hs. apply sum_ext; intros t Ht. apply sum_ext; intros x Hx. apply sum_ext; intros k Hk.
    change (ent (mkSite _ _ _ _) s x k) with (ent (two_l l A0) s x k). rewrite VX, VC by assumption. cbn [site_conj ent]. ring. }
  repeat (split; [first [assumption|congruence]|]).
  unfold trace_dot. rewrite SM, R1, R2, Nat.eqb_refl, Nat.min_id. f_equal. rewrite E, (term_self d P1 Q1 A0 A1 a h); try assumption; [|split; [exact CA|split; [exact CB|reflexivity]]].
  apply sum_ext; intros x Hx. rewrite (sum_diag (dr A1) x); [rewrite VM', R3, CA by lia; reflexivity|exact Hx|].
  intros y Hy Hne. rewrite R3, (Dr y x) by auto. ring.
Qed.

(** at a site *)
Variables (P Q : list (site R)) (A : site R) (pr : tens R) (Rs : nat -> res (tens R)) (im : R) (F : mat R) (r0 : mat R).
Hypothesis Edata : fdata m = P ++ A :: Q.
Hypothesis Spr : tsh pr = [d; dl A; d; dl A].
Hypothesis Hgauge : forall s0 a0 y, (s0 < d)%nat -> (a0 < dl A)%nat -> (y < dr A)%nat ->
  sum (phys A) (fun t => sum (dl A) (fun c => te pr [s0; a0; t; c] * true_l P c c * ent A t c y)) = 0.
Hypothesis HRs : forall n, (n <= length P)%nat -> exists W, Rs n = Ok W /\ (forall B, nth_error (P ++ [A]) n = Some B -> tsh W = [dl B; dl B; d; dl A; dr A]) /\
  forall x y s0 a0 b0, te W [x; y; s0; a0; b0] = moved (skipn n P) A (te pr) s0 a0 b0 x y.
Hypothesis Er0 : nth_error rs (length P + 1) = Some r0.
Hypothesis EF : t_inv K r0 = Ok F.

Lemma at_site : exists a, chain 1 P a /\ dl A = a /\ chain (dr A) Q 1 /\ diag_on a (true_l P) /\ diag_on (dr A) (true_r Q) /\
  dims P = repeat d (length P) /\ dims Q = repeat d (length Q) /\ is_env r0 (dr A) (true_r Q) /\ phys A = d.
Proof.
  destruct (cut P (A :: Q) Edata) as (l & _ & a & _ & _ & C1 & (CA & C2) & _ & _ & Dl & _ & DP & _).
  assert (E2 : fdata m = (P ++ [A]) ++ Q) by (rewrite Edata, <- app_assoc; reflexivity).
  destruct (cut (P ++ [A]) Q E2) as (_ & r & b & _ & Nr & C3 & C4 & _ & HR & _ & Dr & _ & DQ).
  rewrite app_length in Nr. cbn [length] in Nr. assert (r = r0) by congruence. subst r.
  assert (Eb : b = dr A). { apply chain_app in C3 as (k & K1 & K2). destruct K2 as (_ & K2). cbn in K2. symmetry. exact K2. }
  rewrite Eb in C4, HR, Dr. exists a. repeat (split; [assumption|]). rewrite Forall_forall in Hu. apply Hu. rewrite Edata. apply in_or_app. right. left. reflexivity.
Qed.

Lemma inv_entry b j : (b < dr A)%nat -> (j < dr A)%nat -> true_r Q b b * me F b j = dlt b j.
Proof.
  intros Hb Hj. destruct at_site as (a & _ & _ & _ & _ & Dr & _ & _ & (R1 & R2 & R3) & _).
  destruct HK as (_ & Ki & _). destruct (Ki r0 F) as (I1 & I2 & HI); [congruence|exact EF|]. rewrite R1 in HI.
  destruct (HI b j Hb Hj) as [<- _]. rewrite (sum_diag (dr A) b); [rewrite R3 by assumption; reflexivity|exact Hb|].
  intros k Hk Hne. rewrite R3, (Dr b k) by auto. ring.
Qed.

Lemma inv_shape : mr F = dr A /\ mc F = dr A.
Proof.
  destruct at_site as (a & _ & _ & _ & _ & Dr & _ & _ & (R1 & R2 & R3) & _).
  destruct HK as (_ & Ki & _). destruct (Ki r0 F) as (I1 & I2 & HI); [congruence|exact EF|]. split; congruence.
Qed.

Lemma split2 {X} (l : list X) k : (k + 2 <= length l)%nat -> exists p x y q, l = p ++ x :: y :: q /\ length p = k.
Proof.
  intros H. exists (firstn k l). destruct (skipn k l) as [|x [|y q]] eqn:E.
  - pose proof (skipn_length k l) as E1. rewrite E in E1. cbn in E1. lia.
  - pose proof (skipn_length k l) as E1. rewrite E in E1. cbn in E1. lia.
  - exists x, y, q. rewrite <- E, firstn_skipn. split; [reflexivity|]. rewrite firstn_length. lia.
Qed.

Lemma app_len {X} (p q p' q' : list X) : length p = length p' -> p ++ q = p' ++ q' -> p = p' /\ q = q'.
Proof.
  revert p'. induction p as [|x p IH]; intros [|x' p'] HL H; try discriminate; cbn in *; [auto|].
  injection H as -> H. destruct (IH p') as [-> ->]; auto.
Qed.

Lemma term_ok B es k h T : tsh B = [d; dl A; dr A] -> (k + 2 <= length (fdata m))%nat -> (k <= length P)%nat ->
  reshape_op d 2 h = Ok T -> mr h = (d * d)%nat -> mc h = (d * d)%nat ->
  exists X, dA_term K S im m ls rs pr Rs (length P) (B, es) (k, T) = Ok (mkT (tsh B) (fun idx => te B idx + (- im) * te X idx), es ++ [term_elem d (fdata m) (fdata m) k h]) /\
    forall s0 a0 b0, (s0 < d)%nat -> (a0 < dl A)%nat -> (b0 < dr A)%nat ->
      te X [s0; a0; b0] * true_r Q b0 b0 = term_elem d (P ++ prow A (te pr) s0 a0 b0 :: Q) (fdata m) k h.
Proof.
  intros SB Hk Hki ET Hr Hc. destruct (split2 (fdata m) k Hk) as (P1 & A0 & A1 & Q1 & E & LP1).
  destruct (common P1 A0 A1 Q1 h T E ET Hr Hc) as (l & r & C & M & Nl & Nr & EC & SC & VC & EX & Ml & VX & EM & SM & VM & Etr).
  destruct at_site as (a & CP & CA & CQ & Dl & Dr & DP & DQ & HR0 & PA). rewrite <- CA in CP, Dl.
  assert (E2 : fdata m = (P1 ++ [A0; A1]) ++ Q1) by (rewrite E, <- app_assoc; reflexivity).
  destruct (cut P1 (A0 :: A1 :: Q1) E) as (l' & _ & a1 & Nl' & _ & C1 & (CA0 & CA1 & C2) & (L1 & L2 & L3) & _ & Dl1 & _ & DP1 & _).
  destruct (cut (P1 ++ [A0; A1]) Q1 E2) as (_ & r' & b1 & _ & Nr' & C3 & C4 & _ & HR & _ & Dr1 & _ & DQ1).
  rewrite app_length in Nr'. cbn [length] in Nr'. assert (r' = r) by congruence. subst r'. assert (l' = l) by congruence. subst l'.
  assert (Eb : b1 = dr A1). { apply chain_app in C3 as (q & K1 & K2). rewrite (chain_fun P1 1 q a1 K1 C1) in K2. destruct K2 as (_ & _ & K2). cbn in K2. symmetry. exact K2. }
  rewrite Eb in C4, HR, Dr1. destruct HR as (R1 & R2 & R3).
  assert (HCB : chain a1 [A0; A1] (dr A1)) by (split; [exact CA0|split; [exact CA1|reflexivity]]).
  rewrite <- CA0 in C1, L1, L2, L3, Dl1, HCB.
  assert (Hin : forall B, In B [A0; A1] -> phys B = d).
  { intros B0 HB. rewrite Forall_forall in Hu. apply Hu. rewrite E2. apply in_or_app. left. apply in_or_app. right. exact HB. }
  assert (PA0 := Hin A0 (or_introl eq_refl)). assert (PA1 := Hin A1 (or_intror (or_introl eq_refl))).
  unfold dA_term. cbn [fst snd]. destruct (Nat.ltb_spec (length P) k) as [|_]; [lia|].
  replace (firstn 2 (skipn k (fdata m))) with [A0; A1] by (rewrite E, <- LP1, skipn_app, skipn_all, Nat.sub_diag; reflexivity).
  rewrite EC. cbn [bind]. rewrite <- LP1. unfold getitem. rewrite Nl. cbn [bind]. rewrite EX. cbn [bind]. rewrite EM. cbn [bind]. rewrite Nr. cbn [bind].
  rewrite Etr. cbn [bind].
  destruct (Nat.eqb_spec (length P1) (length P)) as [E1|N1].
  - assert (E3 : P1 ++ A0 :: A1 :: Q1 = P ++ A :: Q) by congruence. apply app_len in E3 as [-> E3]; [|exact E1]. injection E3 as -> EQ.
    unfold dot4. rewrite SC, L2, R1, !Nat.eqb_refl. cbn [andb bind]. rewrite Er0. cbn [bind]. rewrite EF. cbn [bind].
    destruct inv_shape as [I1 I2]. unfold mat_site at 1. cbn [site_conj dl dr phys ent]. rewrite I2, CA1, Nat.eqb_refl. cbn [bind].
    match goal with |- context [ncon S [?Y; pr; tens_site ?Z] _ _ _ _] => destruct (net_here S HS d Y pr Z (dl A) (dr A1) (dr A)) as (X & EXX & SX & VXX) end.
    { cbn [tsh]. rewrite R2. f_equal. f_equal. f_equal. congruence. }
    { exact Spr. }
    { exact PA1. }
    { exact I1. }
    { reflexivity. }
    rewrite EXX. cbn [bind]. unfold add_scaled. rewrite SX, SB, ProofNcon.nlist_eqb_refl. cbn [bind]. exists X. split; [reflexivity|].
    intros s0 a0 b0 Hs0 Ha0 Hb0. rewrite VXX. cbn [te ent nth]. rewrite E.
    rewrite <- EQ. rewrite (term_here d P Q1 A A1 (dl A) h (te pr) s0 a0 b0); try assumption.
    rewrite sum_rot4. rewrite <- sum_mul_r. apply sum_ext; intros s Hs. rewrite <- sum_mul_r. apply sum_ext; intros t Ht.
    rewrite <- sum_mul_r. apply sum_ext; intros x Hx. rewrite <- sum_mul_r. apply sum_ext; intros y Hy.
    rewrite (sum_diag (dl A) x); [|exact Hx|]. 2: { intros z Hz Hne. apply sum_zero. intros w _. rewrite L3, (Dl1 x z) by (auto; congruence). ring. }
    rewrite (sum_diag (dr A1) y); [|exact Hy|]. 2: { intros z Hz Hne. rewrite R3, (Dr1 z y) by auto. ring. }
    rewrite VC, L3, R3 by (assumption || congruence).
    transitivity (true_l P x x * hAA d h A A1 s t x y * true_r Q1 y y * te pr [s0; a0; s; x] * (sum (dr A) (fun k0 => me F b0 k0 * sconj (ent A1 t k0 y)) * true_r (A1 :: Q1) b0 b0)); [ring|].
    f_equal. rewrite <- sum_mul_r. rewrite (sum_ext (dr A) _ (fun k0 => dlt b0 k0 * sconj (ent A1 t k0 y))).
    + apply (sum_dlt1 (dr A) b0 (fun k0 => sconj (ent A1 t k0 y))). exact Hb0.
    + intros k0 Hk0. rewrite <- (inv_entry b0 k0) by assumption. rewrite EQ. ring.
  - destruct (Nat.eqb_spec (length P1 + 1) (length P)) as [E1|N2].
    + assert (E3 : (P1 ++ [A0]) ++ A1 :: Q1 = P ++ A :: Q) by (rewrite <- app_assoc; cbn [app]; congruence).
      apply app_len in E3 as [EP E3]; [|rewrite app_length; exact E1]. injection E3 as -> ->.
      destruct (net_left S HS d (two_l l A0) pr C (dl A0) (dr A)) as (X & EXX & SX & VXX).
      { exact PA0. }
      { cbn [two_l dr]. rewrite <- CA1. exact Spr. }
      { cbn [two_l dl]. rewrite L1. exact SC. }
      { exact L1. }
      rewrite EXX. cbn [bind]. unfold add_scaled. cbn [two_l dr] in SX. rewrite SX, SB, <- CA1, ProofNcon.nlist_eqb_refl. cbn [bind]. exists X. split; [reflexivity|].
      intros s0 a0 b0 Hs0 Ha0 Hb0. rewrite VXX, E, <- EP, <- app_assoc. cbn [app].
      rewrite (term_left d P1 Q A0 A (dl A0) h (te pr) s0 a0 b0); try assumption.
      f_equal. apply sum_ext; intros s Hs. apply sum_ext; intros t Ht. apply sum_ext; intros x Hx. cbn [two_l dr]. apply sum_ext; intros q Hq.
      change (ent (mkSite _ _ _ _) s x q) with (ent (two_l l A0) s x q). rewrite VX, VC by assumption. reflexivity.
    + assert (E3 : (P1 ++ [A0; A1]) ++ Q1 = P ++ A :: Q) by (rewrite <- app_assoc; cbn [app]; congruence).
      assert (E4 : P = firstn (length P1 + 2) P ++ skipn (length P1 + 2) P) by (symmetry; apply firstn_skipn).
      set (mid := skipn (length P1 + 2) P) in *.
      assert (E3' : (P1 ++ [A0; A1]) ++ Q1 = firstn (length P1 + 2) P ++ (mid ++ A :: Q)) by (rewrite E3, app_assoc, <- E4; reflexivity). clear E3. rename E3' into E3.
      apply app_len in E3 as [E5 E3]. 2: { rewrite app_length, firstn_length. cbn [length]. lia. }
      assert (EP : P = P1 ++ A0 :: A1 :: mid) by (rewrite E4, <- E5, <- app_assoc; reflexivity).
      destruct (HRs (length P1 + 2)) as (W & EW & SW & VW); [lia|]. rewrite EW. cbn [bind].
      destruct (nth_error (P ++ [A]) (length P1 + 2)) as [B2|] eqn:EB2. 2: { apply nth_error_None in EB2. rewrite app_length in EB2. cbn in EB2. lia. }
      specialize (SW B2 eq_refl).
      assert (E6 : dl B2 = dr A1).
      { symmetry. apply (chain_next (P ++ [A]) 1 (dr A) (length P1 + 1) A1 B2).
        - apply chain_app. exists (dl A). split; [exact CP|]. split; reflexivity.
        - rewrite EP, <- app_assoc, nth_error_app2 by lia. replace (length P1 + 1 - length P1)%nat with 1%nat by lia. reflexivity.
        - rewrite <- EB2. f_equal. lia. }
      rewrite E6 in SW. destruct (net_far S HS M W (dr A1) d (dl A) (dr A) SM SW) as (X & EXX & SX & VXX).
      rewrite EXX. cbn [bind]. unfold add_scaled. rewrite SX, SB, ProofNcon.nlist_eqb_refl. cbn [bind]. exists X. split; [reflexivity|].
      intros s0 a0 b0 Hs0 Ha0 Hb0. rewrite VXX, E, E3, EP, <- app_assoc. cbn [app].
      rewrite (term_far d P1 mid Q A0 A1 A (dl A0) h (te pr) s0 a0 b0); try assumption; try (rewrite <- E3; assumption).
      f_equal. apply sum_ext; intros y' _. apply sum_ext; intros y _. rewrite VM, VW. reflexivity.
Qed.

Lemma term_zero B es k h T : (k + 2 <= length (fdata m))%nat -> (length P < k)%nat ->
  dA_term K S im m ls rs pr Rs (length P) (B, es) (k, T) = Ok (B, es) /\
    forall s0 a0 b0, (s0 < d)%nat -> (a0 < dl A)%nat -> (b0 < dr A)%nat -> term_elem d (P ++ prow A (te pr) s0 a0 b0 :: Q) (fdata m) k h = 0.
Proof.
  intros Hk Hki. split; [unfold dA_term; cbn [fst snd]; destruct (Nat.ltb_spec (length P) k) as [_|]; [reflexivity|lia]|].
  intros s0 a0 b0 Hs0 Ha0 Hb0. destruct (split2 (fdata m) k Hk) as (P1 & A0 & A1 & Q1 & E & LP1).
  assert (E2 : fdata m = (P1 ++ [A0; A1]) ++ Q1) by (rewrite E, <- app_assoc; reflexivity).
  destruct at_site as (a & CP & CA & CQ & Dl & Dr & DP & DQ & HR0 & PA). rewrite <- CA in CP, Dl.
  assert (E4 : P1 = firstn (length P + 1) P1 ++ skipn (length P + 1) P1) by (symmetry; apply firstn_skipn).
  set (mid := skipn (length P + 1) P1) in *.
  assert (E3 : firstn (length P + 1) P1 ++ mid ++ A0 :: A1 :: Q1 = (P ++ [A]) ++ Q) by (rewrite app_assoc, <- E4, <- app_assoc; cbn [app]; congruence).
  apply app_len in E3 as [E5 E3]. 2: { rewrite firstn_length, app_length. cbn [length]. lia. }
  assert (EP : P1 = P ++ A :: mid) by (rewrite E4, E5, <- app_assoc; reflexivity).
  destruct (cut P1 (A0 :: A1 :: Q1) E) as (_ & _ & a1 & _ & _ & C1 & (CA0 & CA1 & C2) & _ & _ & _ & _ & DP1 & _).
  destruct (cut (P1 ++ [A0; A1]) Q1 E2) as (_ & _ & b1 & _ & _ & C3 & C4 & _ & _ & _ & _ & _ & DQ1).
  rewrite <- LP1, E, EP, <- E3, <- app_assoc. cbn [app].
  assert (Cm : chain (dr A) mid a1). { rewrite EP in C1. apply chain_app in C1 as (q & K1 & (K2 & K3)). exact K3. }
  apply (term_right d P mid Q1 A A0 A1 (dl A) a1 h (te pr) s0 a0 b0); try assumption; try reflexivity.
  - split; [exact CA0|]. split; [exact CA1|reflexivity].
  - rewrite EP in DP1. exact DP1.
  - intros y Hy. apply Hgauge; assumption.
Qed.
End Term.
