(** F2 for any two sites, and the frame. *)
From Coq Require Permutation.
From Verif Require Import Alg ModelMPS SpecMPS ProofMPS ModelOrth SpecOrth ProofOrth ProofOrth2 ModelNcon SpecNcon ModelNp ProofNp
  ModelEk SpecEk ProofEk4 ModelEnergy SpecEnergy ProofEnergy ModelTan SpecTan ProofTan ModelTdvp SpecTdvp ProofTdvp ProofTdvp2 ProofTdvp3 ProofTdvp4 ProofTdvp5 ProofTdvp6 ProofTdvp7 ProofTdvp8
  ModelJac SpecJac ProofJac ProofJac2 ProofJac3 ProofJac4.
Require Verif.SpecDecomp.

Section Whole.
Context {R : sring}.
Local Open Scope sr_scope.
Add Ring Rr2 : (s_th R).
Variable K : tanlib R.
Variable S : setio.
Hypothesis HK : tanlib_ok K.
Hypothesis HS : setio_ok S.
Hypothesis Hchar : SpecDecomp.char0 R.
Variables (m : fmps R) (H ls rs : list (mat R)) (ie : @invenvs R).
Hypothesis Hjac : jac_input K m H ls rs ie.
Notation d := (fd m).
Lemma Hin : tdvp_input K m H ls rs. Proof. apply Hjac. Qed.
Lemma Hnorm : overlap (fd m) (fdata m) (fdata m) = 1. Proof. apply Hjac. Qed.
Lemma Hie : inv_envs_ok K ls rs (fL m) ie. Proof. apply Hjac. Qed.
Notation Lf n := (fun a => me (icl m ie n) a a).
Notation Ef n := (fun b => me (icr ie n) b b).

Definition null_list (prs : list (tens R * site R)) : Prop := mapM (fun n => left_null_projector K S m n (Some ls) None) (seq 0 (fL m)) = Ok prs.
Lemma null_list_ex : exists prs, null_list prs.
Proof.
  destruct (mapM_seq (fun n => left_null_projector K S m n (Some ls) None) (fun _ _ => True) (fL m) 0) as (prs & E & _); [|exists prs; exact E].
  intros i Hi. destruct (split_nth (fdata m) i) as (P & A & Q & E & LP); [rewrite <- (HL K m H ls rs Hin); lia|].
  destruct (jfacts_ok K S HK HS Hchar m H ls rs ie Hin Hnorm Hie P Q A E) as (l & r0 & F & pr & V & _ & (EP & _)). rewrite LP in EP. exists (pr, V). auto.
Qed.

Section List.
Variable prs : list (tens R * site R).
Hypothesis Hprs : null_list prs.
Notation fr n x y := (frame ie (fdata m) (map snd prs) n x y).
Notation gx n := (fst (frame_dim (fdata m) (map snd prs) n)).
Notation gy n := (snd (frame_dim (fdata m) (map snd prs) n)).

Lemma prs_at n pr V : (n < fL m)%nat -> left_null_projector K S m n (Some ls) None = Ok (pr, V) -> nth_error prs n = Some (pr, V) /\ nth n (map snd prs) no_site = V.
Proof.
  intros Hn E. destruct (mapM_seq (fun n => left_null_projector K S m n (Some ls) None) (fun _ _ => True) (fL m) 0) as (prs' & E' & LP & HP).
  - intros i Hi. destruct (split_nth (fdata m) i) as (P & A & Q & E1 & LP); [rewrite <- (HL K m H ls rs Hin); lia|].
    destruct (jfacts_ok K S HK HS Hchar m H ls rs ie Hin Hnorm Hie P Q A E1) as (l & r0 & F & pr' & V' & _ & (EP & _)). rewrite LP in EP. exists (pr', V'). auto.
  - unfold null_list in Hprs. rewrite Hprs in E'. injection E' as <-. destruct (HP n Hn) as (y & Ny & Ey & _). change (0 + n)%nat with n in Ey. rewrite E in Ey. injection Ey as <-. split; [exact Ny|].
    apply (map_nth_error snd) in Ny. apply (nth_error_nth _ _ no_site) in Ny. exact Ny.
Qed.

Lemma at_idx P Q A : fdata m = P ++ A :: Q -> exists l r0 F pr V, site_facts K S m ls rs P Q A l r0 F pr V /\ jfacts K S m ls ie P Q A pr V /\
  nth_error prs (length P) = Some (pr, V) /\ (forall x y, fr (length P) x y = tvec A V (Lf (length P)) (Ef (length P)) x y) /\ gx (length P) = dr V /\ gy (length P) = dr A /\ next_dim m (length P) = Ok (dr A).
Proof.
  intros E. destruct (jfacts_ok K S HK HS Hchar m H ls rs ie Hin Hnorm Hie P Q A E) as (l & r0 & F & pr & V & HF & HJ). exists l, r0, F, pr, V. split; [exact HF|]. split; [exact HJ|].
  pose proof (HL K m H ls rs Hin) as HL'. pose proof HF as (_ & C3 & _). pose proof HJ as (EP & _).
  assert (Hn : (length P < fL m)%nat) by (rewrite HL', E, app_length; cbn; lia). destruct (prs_at _ _ _ Hn EP) as (N1 & N2). split; [exact N1|].
  assert (EA : nth (length P) (fdata m) no_site = A) by (rewrite E, app_nth2, Nat.sub_diag by lia; reflexivity).
  unfold frame, frame_dim. cbn [fst snd]. rewrite N2, EA. split; [reflexivity|]. split; [reflexivity|]. split; [reflexivity|].
  unfold next_dim. rewrite HL'. destruct (Nat.eqb_spec (length P + 1) (length (fdata m))) as [En|Nn].
  - rewrite E, app_length in En. cbn [length] in En. destruct Q as [|B Q]; [|cbn in En; lia]. cbn in C3. rewrite C3. reflexivity.
  - rewrite E, app_length in Nn. cbn [length] in Nn. destruct Q as [|B Q]; [cbn in Nn; lia|]. unfold getitem. rewrite E, nth_error_app2 by lia. replace (length P + 1 - length P)%nat with 1%nat by lia. cbn [nth_error bind]. destruct C3 as [-> _]. reflexivity.
Qed.

Lemma split_pair (l : list (site R)) i j : (i < j)%nat -> (j < length l)%nat -> exists P A mid B Q, l = P ++ A :: mid ++ B :: Q /\ length P = i /\ j = (length P + 1 + length mid)%nat.
Proof.
  intros Hij Hj. destruct (split_nth l i) as (P & A & Q & E & LP); [lia|]. destruct (split_nth Q (j - i - 1)) as (mid & B & Q' & E' & LM); [rewrite E, app_length in Hj; cbn in Hj; lia|].
  exists P, A, mid, B, Q'. split; [rewrite E, E'; reflexivity|]. split; [exact LP|]. lia.
Qed.
Lemma with_two (P mid Q : list (site R)) A B X Y : with_site (with_site (P ++ A :: mid ++ B :: Q) (length P) X) (length P + 1 + length mid) Y = P ++ X :: mid ++ Y :: Q /\
  with_site (with_site (P ++ A :: mid ++ B :: Q) (length P + 1 + length mid) Y) (length P) X = P ++ X :: mid ++ Y :: Q.
Proof.
  assert (G : forall Z : site R, (length P + 1 + length mid)%nat = length (P ++ Z :: mid)) by (intros; rewrite app_length; cbn; lia). split.
  - rewrite with_site_at, (G X). change (P ++ X :: mid ++ B :: Q) with (P ++ (X :: mid) ++ B :: Q). rewrite app_assoc, with_site_at, <- app_assoc. reflexivity.
  - rewrite (G A). change (P ++ A :: mid ++ B :: Q) with (P ++ (A :: mid) ++ B :: Q). rewrite app_assoc, with_site_at, <- app_assoc. cbn [app]. apply with_site_at.
Qed.

Lemma F2_lt P A mid B Q : fdata m = P ++ A :: mid ++ B :: Q -> let i := length P in let j := (length P + 1 + length mid)%nat in
  exists pi pj bi bj G, getitem prs i = Ok pi /\ getitem prs j = Ok pj /\ next_dim m i = Ok bi /\ next_dim m j = Ok bj /\
    F2_loop S m H ls ie (snd pi) (snd pj) i j (mkT [dr (snd pi); bi; dr (snd pj); bj] (fun _ => 0)) = Ok G /\ tsh G = [gx i; gy i; gx j; gy j] /\
    forall x1 y1 x2 y2, (x1 < gx i)%nat -> (y1 < gy i)%nat -> (x2 < gx j)%nat -> (y2 < gy j)%nat ->
      te G [x1; y1; x2; y2] = ham_elem d (P ++ fr i x1 y1 :: mid ++ fr j x2 y2 :: Q) (fdata m) H.
Proof.
  intros E i j. destruct (at_idx P (mid ++ B :: Q) A E) as (l & r0 & F & pr & V & HF & HJ & N1 & EF & E1 & E2 & E3).
  assert (E' : fdata m = (P ++ A :: mid) ++ B :: Q) by (rewrite E, <- app_assoc; reflexivity).
  destruct (at_idx (P ++ A :: mid) Q B E') as (l' & r0' & F' & pr' & V' & HF' & HJ' & N1' & EF' & E1' & E2' & E3').
  assert (Ej : length (P ++ A :: mid) = j) by (unfold j; rewrite app_length; cbn; lia). rewrite Ej in N1', EF', E1', E2', E3'. fold i in N1, EF, E1, E2, E3.
  destruct (F2_loop_ok K S HK HS Hchar m H ls rs ie Hin P mid Q A B pr V pr' V' l r0 F E HF HJ HJ' (mkT [dr V; dr A; dr V'; dr B] (fun _ => 0)) eq_refl) as (G & EG & SG & VG).
  exists (pr, V), (pr', V'), (dr A), (dr B), G. unfold getitem. rewrite N1, N1'. split; [reflexivity|]. split; [reflexivity|]. split; [exact E3|]. split; [exact E3'|]. cbn [snd]. split; [exact EG|].
  split; [rewrite SG, E1, E2, E1', E2'; reflexivity|]. rewrite E1, E2, E1', E2'. intros x1 y1 x2 y2 H1 H2 H3 H4. rewrite EF, EF'. rewrite VG by assumption. cbn [te]. fold j i. ring.
Qed.

Lemma F2_ok i j : (i < fL m)%nat -> (j < fL m)%nat ->
  exists G, F2 K S m i j H (Some ie) (Some prs) = Ok G /\ tsh G = [gx i; gy i; gx j; gy j] /\
    forall x1 y1 x2 y2, (x1 < gx i)%nat -> (y1 < gy i)%nat -> (x2 < gx j)%nat -> (y2 < gy j)%nat ->
      te G [x1; y1; x2; y2] = second_elem d (fdata m) H i (fr i x1 y1) j (fr j x2 y2).
Proof.
  pose proof (HL K m H ls rs Hin) as HL'. intros Hi Hj. pose proof Hin as (_ & _ & _ & _ & _ & EE & _).
  unfold F2. rewrite EE. cbn [bind fst snd]. unfold second_elem. destruct (Nat.lt_trichotomy i j) as [Hij|[Hij|Hij]].
  - rewrite Nat.min_l, Nat.max_r by lia. destruct (split_pair (fdata m) i j Hij) as (P & A & mid & B & Q & E & LP & LJ); [lia|]. subst j i.
    destruct (F2_lt P A mid B Q E) as (pi & pj & bi & bj & G & G1 & G2 & G3 & G4 & G5 & G6 & G7). rewrite G1, G2. cbn [bind]. rewrite G3, G4. cbn [bind].
    destruct (Nat.eqb_spec (length P) (length P + 1 + length mid)) as [|_]; [lia|]. rewrite G5. cbn [bind]. destruct (Nat.ltb_spec (length P + 1 + length mid) (length P)) as [|_]; [lia|].
    exists G. split; [reflexivity|]. split; [exact G6|]. intros x1 y1 x2 y2 H1 H2 H3 H4. rewrite G7 by assumption. rewrite E at 3 4. rewrite (proj1 (with_two P mid Q A B _ _)). rewrite E. reflexivity.
  - subst j. rewrite Nat.min_id, Nat.max_id, !Nat.eqb_refl. destruct (split_nth (fdata m) i) as (P & A & Q & E & LP); [lia|]. subst i.
    destruct (at_idx P Q A E) as (l & r0 & F & pr & V & HF & HJ & N1 & EF & E1 & E2 & E3). unfold getitem. rewrite N1. cbn [bind]. rewrite E3. cbn [bind]. rewrite Nat.ltb_irrefl.
    eexists. split; [reflexivity|]. cbn [tsh te snd]. split; [rewrite E1, E2; reflexivity|]. reflexivity.
  - rewrite Nat.min_r, Nat.max_l by lia. destruct (split_pair (fdata m) j i Hij) as (P & A & mid & B & Q & E & LP & LJ); [lia|]. subst i j.
    destruct (F2_lt P A mid B Q E) as (pi & pj & bi & bj & G & G1 & G2 & G3 & G4 & G5 & G6 & G7). rewrite G1, G2. cbn [bind]. rewrite G3, G4. cbn [bind].
    destruct (Nat.eqb_spec (length P) (length P + 1 + length mid)) as [|_]; [lia|]. destruct (Nat.eqb_spec (length P + 1 + length mid) (length P)) as [|_]; [lia|].
    rewrite G5. cbn [bind]. destruct (Nat.ltb_spec (length P) (length P + 1 + length mid)) as [_|]; [|lia].
    destruct (transpose_ok [2; 3; 0; 1]%nat G) as (G' & T1 & T2 & T3).
    { rewrite G6. cbn [length seq]. apply (Permutation.Permutation_app_comm [2; 3]%nat [0; 1]%nat). }
    exists G'. split; [exact T1|]. split; [rewrite T2, G6; reflexivity|]. intros x1 y1 x2 y2 H1 H2 H3 H4.
    specialize (T3 [x2; y2; x1; y1]). cbn [map nth] in T3. rewrite T3 by (rewrite G6; reflexivity). rewrite G7 by assumption. rewrite E at 3 4. rewrite (proj2 (with_two P mid Q A B _ _)). rewrite E. reflexivity.
Qed.

(** the frame *)
Lemma frame_shape n x y : (n < fL m)%nat -> same_shape (nth n (fdata m) no_site) (fr n x y).
Proof. intros Hn. repeat split. Qed.

Lemma T_gauge' P Q A pr V : fdata m = P ++ A :: Q -> jfacts K S m ls ie P Q A pr V -> forall x1 y1 x y, (x1 < dr V)%nat -> (x < dr A)%nat -> (y < dr A)%nat -> phys A = d ->
  sum (phys A) (fun t => sum (dl A) (fun c => sconj (ent A t c y) * true_l P c c * ent (tvec A V (Lf (length P)) (Ef (length P)) x1 y1) t c x)) = 0.
Proof.
  intros E HJ x1 y1 x y H1 H2 H3 PA. rewrite <- conj_0, <- (T_gauge K S m ls ie P Q A pr V E HJ x1 y1 x y H1 H2 H3 PA), sum_conj. apply sum_ext; intros t _. rewrite sum_conj. apply sum_ext; intros c _. rewrite !conj_mul, conj_conj, true_l_real. ring.
Qed.

Lemma dims_all (l : list (site R)) : like (fdata m) l -> dims l = repeat d (length l).
Proof. intros HK'. rewrite (like_dims _ _ HK'), (like_len _ _ HK'). apply dims_repeat. apply (Hun K m H ls rs Hin). Qed.

Lemma frame_orth n n' x y x' y' : (n < fL m)%nat -> (n' < fL m)%nat -> (x < gx n)%nat -> (y < gy n)%nat -> (x' < gx n')%nat -> (y' < gy n')%nat ->
  overlap d (with_site (fdata m) n (fr n x y)) (with_site (fdata m) n' (fr n' x' y')) = if Nat.eqb n n' then dlt x x' * dlt y y' else 0.
Proof.
  pose proof (HL K m H ls rs Hin) as HL'. intros Hn Hn' Hx Hy Hx' Hy'. destruct (Nat.lt_trichotomy n n') as [Hij|[Hij|Hij]].
  - destruct (Nat.eqb_spec n n') as [|_]; [lia|]. destruct (split_pair (fdata m) n n' Hij) as (P & A & mid & B & Q & E & LP & LJ); [lia|]. subst n.
    destruct (at_idx P (mid ++ B :: Q) A E) as (l & r0 & F & pr & V & HF & HJ & N1 & EF & E1 & E2 & E3). pose proof HF as (C1 & C3 & C4 & _ & _ & _ & PA & _).
    rewrite E at 1 3. rewrite with_site_at. replace (P ++ A :: mid ++ B :: Q) with ((P ++ A :: mid) ++ B :: Q) by (rewrite <- app_assoc; reflexivity).
    replace n' with (length (P ++ A :: mid)) at 1 by (rewrite app_length; cbn; lia). rewrite with_site_at, <- app_assoc. cbn [app].
    apply (overlap_zero d P (mid ++ B :: Q) (mid ++ fr n' x' y' :: Q) A); try assumption.
    + apply (like_chain (mid ++ B :: Q)); [|exact C3]. apply like_app; [apply like_refl|]. constructor; [|apply like_refl].
      replace B with (nth n' (fdata m) no_site); [apply frame_shape; lia|]. rewrite E. replace (P ++ A :: mid ++ B :: Q) with ((P ++ A :: mid) ++ B :: Q) by (rewrite <- app_assoc; reflexivity). rewrite LJ. rewrite app_nth2 by (rewrite app_length; cbn; lia). rewrite app_length. cbn [length]. replace (length P + 1 + length mid - (length P + Datatypes.S (length mid)))%nat with 0%nat by lia. reflexivity.
    + rewrite !app_length. reflexivity.
    + rewrite EF. apply tvec_shape.
    + repeat split.
    + apply dims_all. rewrite E at 1. apply like_app; [apply like_refl|]. constructor; [rewrite EF; apply tvec_shape|apply like_refl].
    + intros x0 y0 Hx0 Hy0. rewrite EF. rewrite E1 in Hx. apply (T_gauge K S m ls ie P (mid ++ B :: Q) A pr V E HJ); assumption.
  - subst n'. rewrite Nat.eqb_refl. destruct (split_nth (fdata m) n) as (P & A & Q & E & LP); [lia|]. subst n.
    destruct (at_idx P Q A E) as (l & r0 & F & pr & V & HF & HJ & N1 & EF & E1 & E2 & E3). pose proof HF as (C1 & C3 & C4 & C5 & _ & _ & PA & _).
    rewrite E1, E2 in *. rewrite E at 1 3. rewrite !with_site_at, !EF.
    rewrite (overlap_here d P Q A); try assumption; try apply tvec_shape.
    2: { apply dims_all. rewrite E. apply like_app; [apply like_refl|]. constructor; [apply tvec_shape|apply like_refl]. }
    pose proof HJ as (_ & _ & _ & _ & _ & _ & _ & (_ & _ & RL) & (_ & _ & RR) & _ & HO & _). rewrite PA. cbn [tvec ent].
    transitivity (sum d (fun s => sum (dl A) (fun a => (sconj (ent V s a x) * ent V s a x') * (dlt y y')))).
    + apply sum_ext; intros s _. apply sum_ext; intros a Ha. destruct (RL a Ha) as (R1 & R2 & R3 & R4). destruct (RR y Hy) as (S1 & S2 & S3 & S4).
      transitivity (sum (dr A) (fun b => dlt y b * (sconj (ent V s a x) * ent V s a x' * (me (icl m ie (length P)) a a * me (icl m ie (length P)) a a * true_l P a a) * (me (icr ie (length P)) y y * me (icr ie (length P)) y' y' * dlt y' b * true_r Q b b)))).
      { apply sum_ext; intros b _. rewrite !conj_mul, dlt_conj, R4, S4. ring. }
      rewrite sum_dlt1 by exact Hy. rewrite (dlt_sym y' y). destruct (Nat.eq_dec y y') as [<-|Hne]; [|rewrite (dlt_neq y y') by exact Hne; ring]. rewrite <- R2, <- S2, dlt_eq.
      transitivity ((sconj (ent V s a x) * ent V s a x') * ((me (cl m ie (length P)) a a * me (icl m ie (length P)) a a) * (me (cl m ie (length P)) a a * me (icl m ie (length P)) a a)) * ((me (cr ie (length P)) y y * me (icr ie (length P)) y y) * (me (cr ie (length P)) y y * me (icr ie (length P)) y y))); [ring|]. rewrite R1, S1. ring.
    + rewrite <- (HO x x' Hx Hx'). rewrite <- sum_mul_r. apply sum_ext; intros s _. rewrite sum_mul_r. reflexivity.
  - destruct (Nat.eqb_spec n n') as [|_]; [lia|]. destruct (split_pair (fdata m) n' n Hij) as (P & A & mid & B & Q & E & LP & LJ); [lia|]. subst n'.
    destruct (at_idx P (mid ++ B :: Q) A E) as (l & r0 & F & pr & V & HF & HJ & N1 & EF & E1 & E2 & E3). pose proof HF as (C1 & C3 & C4 & _ & _ & _ & PA & _).
    rewrite E at 3. rewrite with_site_at. rewrite E at 1. replace (P ++ A :: mid ++ B :: Q) with ((P ++ A :: mid) ++ B :: Q) by (rewrite <- app_assoc; reflexivity).
    replace n with (length (P ++ A :: mid)) at 1 by (rewrite app_length; cbn; lia). rewrite with_site_at, <- !app_assoc. cbn [app].
    assert (HLk : like (mid ++ B :: Q) (mid ++ fr n x y :: Q)).
    { apply like_app; [apply like_refl|]. constructor; [|apply like_refl].
      replace B with (nth n (fdata m) no_site); [apply frame_shape; lia|]. rewrite E. replace (P ++ A :: mid ++ B :: Q) with ((P ++ A :: mid) ++ B :: Q) by (rewrite <- app_assoc; reflexivity). rewrite LJ. rewrite app_nth2 by (rewrite app_length; cbn; lia). rewrite app_length. cbn [length]. replace (length P + 1 + length mid - (length P + Datatypes.S (length mid)))%nat with 0%nat by lia. reflexivity. }
    apply (overlap_zero d P (mid ++ fr n x y :: Q) (mid ++ B :: Q) A); try assumption.
    + apply (like_chain (mid ++ B :: Q)); [exact HLk|exact C3].
    + rewrite !app_length. reflexivity.
    + repeat split.
    + rewrite EF. apply tvec_shape.
    + apply dims_all. rewrite E at 1. apply like_app; [apply like_refl|]. constructor; [repeat split|exact HLk].
    + intros x0 y0 Hx0 Hy0. rewrite EF. rewrite E1 in Hx'. apply (T_gauge' P (mid ++ B :: Q) A pr V E HJ); assumption.
Qed.

Lemma frame_state n x y : (n < fL m)%nat -> (x < gx n)%nat -> (y < gy n)%nat -> overlap d (with_site (fdata m) n (fr n x y)) (fdata m) = 0.
Proof.
  pose proof (HL K m H ls rs Hin) as HL'. intros Hn Hx Hy. destruct (split_nth (fdata m) n) as (P & A & Q & E & LP); [lia|]. subst n.
  destruct (at_idx P Q A E) as (l & r0 & F & pr & V & HF & HJ & N1 & EF & E1 & E2 & E3). pose proof HF as (C1 & C3 & C4 & C5 & _ & _ & PA & _).
  rewrite E at 1 3. rewrite with_site_at, EF. apply (overlap_zero d P Q Q A); try assumption; try reflexivity.
  - apply tvec_shape.
  - repeat split.
  - apply dims_all. rewrite E. apply like_app; [apply like_refl|]. constructor; [apply tvec_shape|apply like_refl].
  - intros x0 y0 Hx0 Hy0. rewrite E1 in Hx. apply (T_gauge K S m ls ie P Q A pr V E HJ); assumption.
Qed.

Lemma frame_span P Q A X : fdata m = P ++ A :: Q -> same_shape A X -> (forall b, (b < dr A)%nat -> left_gauge A (env_at P A) (fun s a => ent X s a b)) ->
  exists c : nat -> nat -> R, forall s a b, (s < phys A)%nat -> (a < dl A)%nat -> (b < dr A)%nat ->
    ent X s a b = sum (gx (length P)) (fun x => sum (gy (length P)) (fun y => c x y * ent (fr (length P) x y) s a b)).
Proof.
  intros E HX HG. destruct (at_idx P Q A E) as (l & r0 & F & pr & V & HF & HJ & N1 & EF & E1 & E2 & E3). pose proof HF as (C1 & C3 & C4 & C5 & _ & _ & PA & _).
  pose proof HJ as (_ & _ & _ & _ & _ & _ & _ & (_ & _ & RL) & (_ & _ & RR) & _ & _ & HX'). rewrite E1, E2.
  exists (fun x y => sum d (fun t => sum (dl A) (fun c => sconj (ent V t c x) * (me (cl m ie (length P)) c c * ent X t c y))) * me (cr ie (length P)) y y).
  intros s a b Hs Ha Hb. rewrite (HX' (fun s a => ent X s a b)); try (rewrite <- PA; exact Hs); try assumption.
  - rewrite <- sum_mul_l. apply sum_ext; intros x Hx. rewrite (sum_diag (dr A) b); [|exact Hb|].
    + rewrite EF. cbn [tvec ent]. rewrite dlt_eq. destruct (RR b Hb) as (S1 & _). set (q := sum d _).
      transitivity (me (icl m ie (length P)) a a * (ent V s a x * q) * (me (cr ie (length P)) b b * me (icr ie (length P)) b b)); [rewrite S1|]; ring.
    + intros y Hy Hne. rewrite EF. cbn [tvec ent]. rewrite dlt_neq by auto. ring.
  - intros y Hy. specialize (HG b Hb). rewrite (gauge_diag P A _ C4) in HG. rewrite <- PA. apply HG. exact Hy.
Qed.
End List.
End Whole.

Section Default.
Context {R : sring}.
Local Open Scope sr_scope.
Variable K : tanlib R.
Hypothesis HK : tanlib_ok K.

Lemma mapM_at {X} (f : nat -> res X) n : forall k ys, mapM f (seq k n) = Ok ys -> length ys = n /\ forall i, (i < n)%nat -> exists y, nth_error ys i = Some y /\ f (k + i)%nat = Ok y.
Proof.
  induction n as [|n IH]; intros k ys E; cbn [seq mapM] in E.
  - injection E as <-. split; [reflexivity|]. intros; lia.
  - destruct (f k) as [y|] eqn:Ef; [|discriminate E]. cbn [bind] in E. destruct (mapM f (seq (S k) n)) as [ys'|] eqn:Em; [|discriminate E]. cbn [bind] in E. injection E as <-.
    destruct (IH _ _ Em) as (L1 & L2). split; [cbn; lia|]. intros [|i] Hi; [exists y; rewrite Nat.add_0_r; auto|]. destruct (L2 i) as (z & N1 & N2); [lia|]. exists z. split; [exact N1|]. replace (k + S i)%nat with (S k + i)%nat by lia. exact N2.
Qed.

Lemma inv_envs_correct (m : fmps R) ls rs ie H : tdvp_input K m H ls rs -> inv_envs K ls rs (fL m) = Ok ie -> inv_envs_ok K ls rs (fL m) ie.
Proof.
  intros HI E. unfold inv_envs, inv_roots_of, roots_of in E.
  destruct (mapM _ (seq 0 (fL m))) as [icr|] eqn:E1 in E; [|discriminate E]. cbn [bind] in E.
  destruct (mapM _ (seq 0 (fL m))) as [icl|] eqn:E2 in E; [|discriminate E]. cbn [bind] in E.
  destruct (mapM _ (seq 0 (fL m))) as [cr|] eqn:E3 in E; [|discriminate E]. cbn [bind] in E.
  destruct (mapM _ (seq 0 (fL m))) as [cl|] eqn:E4 in E; [|discriminate E]. cbn [bind] in E. injection E as <-.
  apply mapM_at in E1 as (L1 & E1). apply mapM_at in E2 as (L2 & E2). apply mapM_at in E3 as (L3 & E3). apply mapM_at in E4 as (L4 & E4).
  split; [exact L2|]. split; [exact L4|]. intros n Hn. pose proof (HL K m H ls rs HI) as HL'.
  assert (En : exists p q, fdata m = p ++ q /\ length p = (n + 1)%nat). { apply split_at. lia. } destruct En as (p & q & Ep & Lp).
  destruct (cut m (fd m) ls rs (Hun K m H ls rs HI) (Hdg K m H ls rs HI) (Hen K m H ls rs HI) p q Ep) as (l & r & a & Nl & Nr & _ & _ & (l1 & l2 & l3) & (r1 & r2 & r3) & Dl & Dr & _). rewrite Lp in Nl, Nr.
  assert (Hl : hermitian l). { split; [congruence|]. rewrite l1. intros i j Hi Hj. rewrite !l3 by assumption. destruct (Nat.eq_dec i j) as [->|Hne]; [apply true_l_real|]. rewrite (Dl i j), (Dl j i) by auto. apply conj_0. }
  assert (Hr : hermitian r). { split; [congruence|]. rewrite r1. intros i j Hi Hj. rewrite !r3 by assumption. destruct (Nat.eq_dec i j) as [->|Hne]; [apply true_r_real|]. rewrite (Dr i j), (Dr j i) by auto. apply conj_0. }
  destruct (E1 n Hn) as (y1 & N1 & F1). destruct (E2 n Hn) as (y2 & N2 & F2'). destruct (E3 n Hn) as (y3 & N3 & F3). destruct (E4 n Hn) as (y4 & N4 & F4).
  cbn [Nat.add] in F1, F2', F3, F4. unfold getitem in F1, F2', F3, F4. rewrite Nl in F2', F4. rewrite Nr in F1, F3. cbn [bind] in F1, F2', F3, F4.
  rewrite F4 in F2'. rewrite F3 in F1. cbn [bind] in F1, F2'. destruct HK as (Kc & Ki & _).
  pose proof (Kc l y4 Hl F4) as (c1 & c2 & _). pose proof (Kc r y3 Hr F3) as (c3 & c4 & _).
  exists l, r, y4, y3, y4, y3, y2, y1. cbn [ie_cl ie_cr ie_icl ie_icr]. repeat (split; try assumption); try reflexivity.
  - apply (Ki y4 y2); [congruence|exact F2'].
  - apply (Ki y4 y2); [congruence|exact F2'].
  - apply (Ki y4 y2); [congruence|exact F2'|assumption|assumption].
  - apply (Ki y4 y2); [congruence|exact F2'|assumption|assumption].
  - apply (Ki y3 y1); [congruence|exact F1].
  - apply (Ki y3 y1); [congruence|exact F1].
  - apply (Ki y3 y1); [congruence|exact F1|assumption|assumption].
  - apply (Ki y3 y1); [congruence|exact F1|assumption|assumption].
Qed.
Lemma F2_default (S : setio) (m : fmps R) H ls rs ie prs i j : tdvp_input K m H ls rs -> inv_envs K ls rs (fL m) = Ok ie ->
  mapM (fun n => left_null_projector K S m n (Some ls) None) (seq 0 (fL m)) = Ok prs -> F2 K S m i j H None None = F2 K S m i j H (Some ie) (Some prs).
Proof.
  intros HI E1 E2. pose proof HI as (_ & _ & _ & _ & _ & EE & _). unfold F2. rewrite EE. cbn [bind fst snd]. rewrite E2. cbn [bind]. rewrite E1. reflexivity.
Qed.
End Default.
