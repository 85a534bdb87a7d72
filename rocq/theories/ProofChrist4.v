(** christoffel: the whole function. *)
From Coq Require Permutation.
From Verif Require Import Alg ModelMPS SpecMPS ProofMPS ModelOrth SpecOrth ProofOrth ProofOrth2 ModelNcon SpecNcon ModelNp ProofNp
  ModelEk SpecEk ProofEk4 ModelEnergy SpecEnergy ProofEnergy ModelTan SpecTan ProofTan ModelTdvp SpecTdvp ProofTdvp ProofTdvp2 ProofTdvp3 ProofTdvp4 ProofTdvp5 ProofTdvp6 ProofTdvp7 ProofTdvp8 ProofTdvp9
  ModelJac SpecJac ProofJac ProofJac2 ProofJac4 ProofJac5 ModelChrist SpecChrist ProofChrist ProofChrist2 ProofChrist3.
Require Verif.SpecDecomp.

Lemma perm6 : Permutation.Permutation [3; 4; 5; 0; 1; 2]%nat (seq 0 6).
Proof. change (Permutation.Permutation ([3; 4; 5] ++ [0; 1; 2])%nat ([0; 1; 2] ++ [3; 4; 5])%nat). apply Permutation.Permutation_app_comm. Qed.
Lemma perm9 : Permutation.Permutation [3; 4; 5; 0; 1; 2; 6; 7; 8]%nat (seq 0 9).
Proof. change (Permutation.Permutation ([3; 4; 5; 0; 1; 2] ++ [6; 7; 8])%nat (seq 0 6 ++ [6; 7; 8])%nat). apply Permutation.Permutation_app_tail, perm6. Qed.

Section Whole.
Context {R : sring}.
Local Open Scope sr_scope.
Add Ring Rr2 : (s_th R).
Variable K : tanlib R.
Variable S : setio.
Hypothesis HK : tanlib_ok K.
Hypothesis HS : setio_ok S.
Hypothesis Hchar : SpecDecomp.char0 R.
Variables (m : fmps R) (H ls rs : list (mat R)).
Hypothesis Hin : tdvp_input K m H ls rs.
Notation d := (fd m).

Lemma duals : exists D, forall n, (n < length (fdata m))%nat -> dual_basis d (fdata m) n (D n).
Proof.
  destruct (mapM_seq (fun n => do A <- getitem (fdata m) n; do r <- getitem rs (n + 1); do ri <- t_inv K r; do p <- left_null_projector K S m n (Some ls) None; Ok (A, ri, fst p))
     (fun n x => dual_basis d (fdata m) n (kern (fst (fst x)) (snd x) (snd (fst x)))) (fL m) 0) as (xs & EX & HX).
  - intros n Hn. destruct (split_nth (fdata m) n) as (P & A & Q & E & LP); [rewrite <- (HL K m H ls rs Hin); lia|].
    destruct (facts K S HK HS Hchar m H ls rs Hin P Q A E) as (l & r0 & F & pr & V & HF). pose proof HF as (_ & _ & _ & _ & _ & _ & _ & _ & _ & _ & Nr & _ & EF & _ & EP & _).
    exists (A, F, pr). split.
    + unfold getitem. rewrite <- LP, Nr. rewrite E at 1. rewrite nth_error_app2, Nat.sub_diag by lia. cbn [nth_error bind]. rewrite EF. cbn [bind]. rewrite EP. reflexivity.
    + cbn [fst snd]. rewrite <- LP. apply (kern_dual K S HK m H ls rs Hin P Q A l r0 F pr V E HF).
  - exists (fun n => match nth_error xs n with Some x => kern (fst (fst x)) (snd x) (snd (fst x)) | None => fun _ _ _ => no_site end).
    intros n Hn. rewrite <- (HL K m H ls rs Hin) in Hn. destruct (proj2 HX n Hn) as (x & N & _ & HD). rewrite N. exact HD.
Qed.

Section List.
Variable prs : list (tens R * site R).
Hypothesis Hprs : mapM (fun n => left_null_projector K S m n (Some ls) None) (seq 0 (fL m)) = Ok prs.
Notation A_ n := (nth n (fdata m) no_site).

Lemma lists_ok o : o = None \/ o = Some prs -> forall i j k B, christoffel K S m i j k o B =
  (do G <- chris_gamma K S m rs prs i j k B; match B with None => Ok G | Some _ => do X <- ungauge_i K S ls rs prs G i; ungauge_j K S ls rs prs X j end).
Proof.
  intros Ho i j k B. pose proof Hin as (_ & _ & _ & _ & _ & EE & _). unfold christoffel. rewrite EE. cbn [bind fst snd]. destruct Ho as [->| ->]; [rewrite Hprs|]; reflexivity.
Qed.

Lemma open_all D : (forall n, (n < length (fdata m))%nat -> dual_basis d (fdata m) n (D n)) -> forall o, o = None \/ o = Some prs -> forall i j k, (i < fL m)%nat -> (j < fL m)%nat -> (k < fL m)%nat ->
  exists G, christoffel K S m i j k o None = Ok G /\
    tsh G = [phys (A_ i); dl (A_ i); dr (A_ i); phys (A_ j); dl (A_ j); dr (A_ j); phys (A_ k); dl (A_ k); dr (A_ k)] /\
    forall s0 a0 b0 s1 a1 b1 s2 a2 b2, in_shape (A_ i) s0 a0 b0 -> in_shape (A_ j) s1 a1 b1 -> in_shape (A_ k) s2 a2 b2 ->
      te G [s0; a0; b0; s1; a1; b1; s2; a2; b2] = christoffel_elem d (fdata m) i (D i s0 a0 b0) j (D j s1 a1 b1) k (D k s2 a2 b2).
Proof.
  intros HD o Ho i j k Hi Hj Hk. rewrite (lists_ok o Ho). rewrite (HL K m H ls rs Hin) in Hi, Hj, Hk. unfold chris_gamma, christoffel_elem.
  destruct (Nat.ltb_spec j i) as [Hlt|Hge].
  - destruct (split_pair (fdata m) j i Hlt Hi) as (P & A & mid & B & Q & E & LP & EJ). subst i j.
    destruct (facts K S HK HS Hchar m H ls rs Hin P (mid ++ B :: Q) A E) as (l & r0 & F & pr & V & HF).
    destruct (facts K S HK HS Hchar m H ls rs Hin (P ++ A :: mid) Q B (E_j m P mid Q A B E)) as (l' & r0' & F' & pr' & V' & HF').
    destruct (open_value K S HK HS Hchar m H ls rs Hin prs Hprs P mid Q A B l r0 F pr V l' r0' F' pr' V' E HF HF' k Hk D HD) as (G & EG & SG & VG). rewrite EG. cbn [bind].
    assert (Ei : A_ (length P) = A) by (rewrite E; apply nth_at).
    assert (Ej : A_ (length P + 1 + length mid) = B) by (rewrite (E_j m P mid Q A B E), <- (L_j P mid A); apply nth_at).
    destruct (transpose_ok [3; 4; 5; 0; 1; 2; 6; 7; 8]%nat G) as (T & ET & ST & VT); [rewrite SG; exact perm9|]. rewrite ET. cbn [bind].
    eexists. split; [reflexivity|]. cbn [tens_neg tsh te]. rewrite ST, SG. rewrite Ei, Ej. split; [reflexivity|].
    intros s0 a0 b0 s1 a1 b1 s2 a2 b2 H0 H1 H2. destruct (Nat.eqb_spec (length P + 1 + length mid) (length P)) as [|_]; [lia|]. f_equal.
    specialize (VT [s1; a1; b1; s0; a0; b0; s2; a2; b2]). cbn [map nth] in VT. rewrite VT by (rewrite SG; reflexivity). rewrite VG by assumption. f_equal.
    rewrite E, (proj1 (with_two P mid Q A B _ _)). symmetry. apply (proj2 (with_two P mid Q A B _ _)).
  - apply Nat.le_lteq in Hge as [Hlt|<-].
    + destruct (split_pair (fdata m) i j Hlt Hj) as (P & A & mid & B & Q & E & LP & EJ). subst i j.
      destruct (facts K S HK HS Hchar m H ls rs Hin P (mid ++ B :: Q) A E) as (l & r0 & F & pr & V & HF).
      destruct (facts K S HK HS Hchar m H ls rs Hin (P ++ A :: mid) Q B (E_j m P mid Q A B E)) as (l' & r0' & F' & pr' & V' & HF').
      destruct (open_value K S HK HS Hchar m H ls rs Hin prs Hprs P mid Q A B l r0 F pr V l' r0' F' pr' V' E HF HF' k Hk D HD) as (G & EG & SG & VG). rewrite EG. cbn [bind].
      assert (Ei : A_ (length P) = A) by (rewrite E; apply nth_at).
      assert (Ej : A_ (length P + 1 + length mid) = B) by (rewrite (E_j m P mid Q A B E), <- (L_j P mid A); apply nth_at).
      eexists. split; [reflexivity|]. cbn [tens_neg tsh te]. rewrite SG, Ei, Ej. split; [reflexivity|].
      intros s0 a0 b0 s1 a1 b1 s2 a2 b2 H0 H1 H2. destruct (Nat.eqb_spec (length P) (length P + 1 + length mid)) as [|_]; [lia|]. f_equal. apply VG; assumption.
    + unfold chris_G, getitem. rewrite (nth_error_nth' (fdata m) no_site Hi). cbn [bind]. rewrite Nat.eqb_refl. cbn [orb]. rewrite (nth_error_nth' (fdata m) no_site Hk). cbn [bind].
      eexists. split; [reflexivity|]. cbn [tens_neg tsh te]. split; [reflexivity|]. intros. ring.
Qed.

(** the change of coordinates *)
Lemma ungauge_ok P Q A l r0 F pr V C Ci E0 Ei P' Q' B l' r0' F' pr' V' C' Ci' E0' Ei' (G : tens R) : fdata m = P ++ A :: Q -> fdata m = P' ++ B :: Q' ->
  site_facts K S m ls rs P Q A l r0 F pr V -> site_facts K S m ls rs P' Q' B l' r0' F' pr' V' ->
  cfacts K m P Q A l r0 pr V C Ci E0 Ei -> cfacts K m P' Q' B l' r0' pr' V' C' Ci' E0' Ei' ->
  tsh G = [phys A; dl A; dr A; phys B; dl B; dr B] ->
  exists T, (do X <- ungauge_i K S ls rs prs G (length P); ungauge_j K S ls rs prs X (length P')) = Ok T /\ tsh T = [dr V; dr A; dr V'; dr B] /\
    forall x1 y1 x2 y2, (y1 < dr A)%nat -> (y2 < dr B)%nat -> te T [x1; y1; x2; y2] =
      sum d (fun s1 => sum (dl B) (fun a1 => me C' a1 a1 * sconj (ent V' s1 a1 x2) * sum d (fun s0 => sum (dl A) (fun a0 => me C a0 a0 * sconj (ent V s0 a0 x1) * te G [s0; a0; y1; s1; a1; y2])))) * me E0 y1 y1 * me E0' y2 y2.
Proof.
  intros E E' HF HF' HC HC' SG. pose proof HF as (_ & _ & _ & _ & _ & _ & PA & _ & Nl & _ & Nr & _). pose proof HF' as (_ & _ & _ & _ & _ & _ & PB & _ & Nl' & _ & Nr' & _).
  destruct HC as (V1 & V2 & EC & EE & (DC & _) & (DE & _) & _). destruct HC' as (V1' & V2' & EC' & EE' & (DC' & _) & (DE' & _) & _).
  unfold ungauge_i, getitem. rewrite Nl. cbn [bind]. rewrite EC. cbn [bind]. rewrite (prs_get K S m H ls rs Hin prs Hprs _ _ _ _ _ _ _ _ E HF). cbn [bind snd].
  destruct (dmat_site C (fun a => me C a a) (site_conj V)) as (X & EX & X1 & X2 & X3 & VX); [cbn [site_conj dl]; rewrite V2; exact DC|]. rewrite EX. cbn [bind]. rewrite Nr. cbn [bind]. rewrite EE. cbn [bind].
  cbn [site_conj phys dl dr ent] in X1, X2, X3, VX. pose proof DE as (F1 & F2 & F3).
  destruct (cnet_u1 S HS G E0 _ _ _ _ _ _ SG F1 F2) as (Y & EY & SY & VY). rewrite EY. cbn [bind].
  destruct (cnet_u2 S HS X Y (dr A) (phys B) (dl B) (dr B)) as (Y2 & EY2 & SY2 & VY2); [rewrite SY; congruence|]. rewrite EY2. cbn [bind].
  unfold ungauge_j, getitem. rewrite Nl'. cbn [bind]. rewrite EC'. cbn [bind]. rewrite (prs_get K S m H ls rs Hin prs Hprs _ _ _ _ _ _ _ _ E' HF'). cbn [bind snd].
  destruct (dmat_site C' (fun a => me C' a a) (site_conj V')) as (X' & EX' & X1' & X2' & X3' & VX'); [cbn [site_conj dl]; rewrite V2'; exact DC'|]. rewrite EX'. cbn [bind]. rewrite Nr'. cbn [bind]. rewrite EE'. cbn [bind].
  cbn [site_conj phys dl dr ent] in X1', X2', X3', VX'. pose proof DE' as (F1' & F2' & F3').
  destruct (con_last Y2 E0' _ _ _ _ _ SY2 F1' F2') as (Y3 & EY3 & SY3 & VY3). rewrite EY3. cbn [bind].
  destruct (cnet_u3 S HS X' Y3 (dr X) (dr A) (dr B)) as (T & ET & ST & VT); [rewrite SY3; congruence|]. exists T. split; [exact ET|]. split; [rewrite ST; congruence|].
  intros x1 y1 x2 y2 Hy1 Hy2. rewrite VT, X1', V1', X2', V2'. rewrite <- !sum_mul_r. apply sum_ext; intros s1 _. rewrite <- !sum_mul_r. apply sum_ext; intros a1 Ha1. rewrite VX' by congruence.
  rewrite VY3, (dmat_r E0' (dr B) _ y2 (fun z => te Y2 [x1; y1; s1; a1; z]) DE' Hy2), VY2, X1, V1, X2, V2.
  transitivity (me C' a1 a1 * sconj (ent V' s1 a1 x2) * (sum d (fun s0 => sum (dl A) (fun a0 => me C a0 a0 * sconj (ent V s0 a0 x1) * te G [s0; a0; y1; s1; a1; y2])) * me E0 y1 y1) * me E0' y2 y2); [|ring].
  enough (EQ : sum d (fun s => sum (dl A) (fun a => ent X s a x1 * te Y [s; a; y1; s1; a1; y2])) = sum d (fun s0 => sum (dl A) (fun a0 => me C a0 a0 * sconj (ent V s0 a0 x1) * te G [s0; a0; y1; s1; a1; y2])) * me E0 y1 y1) by (rewrite EQ; ring).
  rewrite <- sum_mul_r. apply sum_ext; intros s _. rewrite <- sum_mul_r. apply sum_ext; intros a Ha. rewrite VX by congruence. rewrite VY, (dmat_r E0 (dr A) _ y1 (fun y => te G [s; a; y; s1; a1; y2]) DE Hy1). ring.
Qed.

Section Frame.
Variables Ci Ei : nat -> mat R.
Hypothesis Hroots : inv_roots K (fL m) ls rs Ci Ei.
Notation T_ n x y := (root_frame Ci Ei (fdata m) (map snd prs) n x y).
Notation dim n := (frame_dim (fdata m) (map snd prs) n).

Lemma site_all P Q A : fdata m = P ++ A :: Q -> exists l r0 F pr V C E0, site_facts K S m ls rs P Q A l r0 F pr V /\ cfacts K m P Q A l r0 pr V C (Ci (length P)) E0 (Ei (length P)) /\
  dim (length P) = (dr V, dr A) /\ forall x y, T_ (length P) x y = tvec A V (fun a => me (Ci (length P)) a a) (fun b => me (Ei (length P)) b b) x y.
Proof.
  intros E. destruct (facts K S HK HS Hchar m H ls rs Hin P Q A E) as (l & r0 & F & pr & V & HF). pose proof HF as (_ & _ & _ & _ & _ & _ & _ & _ & Nl & _ & Nr & _).
  destruct (Hroots (length P)) as [R1 R2]; [rewrite (HL K m H ls rs Hin), E, app_length; cbn; lia|]. rewrite (nth_error_nth _ _ no_mat Nl) in R1. rewrite (nth_error_nth _ _ no_mat Nr) in R2.
  destruct (cfacts_ok K S HK HS m H ls rs Hin P Q A l r0 F pr V _ _ E HF R1 R2) as (C & E0 & HC).
  exists l, r0, F, pr, V, C, E0. split; [exact HF|]. split; [exact HC|].
  pose proof (prs_get K S m H ls rs Hin prs Hprs _ _ _ _ _ _ _ _ E HF) as N.
  assert (EV : nth (length P) (map snd prs) no_site = V). { apply (map_nth_error snd) in N. exact (nth_error_nth _ _ no_site N). }
  unfold frame_dim, root_frame. rewrite EV, E, nth_at. split; reflexivity.
Qed.

Lemma swap4 n1 n2 n3 n4 (f : nat -> nat -> R) (g : nat -> nat -> R) (h : nat -> nat -> nat -> nat -> R) :
  sum n1 (fun a => sum n2 (fun b => f a b * sum n3 (fun c => sum n4 (fun e => g c e * h a b c e)))) = sum n3 (fun c => sum n4 (fun e => g c e * sum n1 (fun a => sum n2 (fun b => f a b * h a b c e)))).
Proof.
  transitivity (sum n1 (fun a => sum n2 (fun b => sum n3 (fun c => sum n4 (fun e => f a b * g c e * h a b c e))))).
  { apply sum_ext; intros a _. apply sum_ext; intros b _. rewrite <- sum_mul_l. apply sum_ext; intros c _. rewrite <- sum_mul_l. apply sum_ext; intros e _. ring. }
  rewrite sum_rot4. apply sum_ext; intros c _. apply sum_ext; intros e _. rewrite <- sum_mul_l. apply sum_ext; intros a _. rewrite <- sum_mul_l. apply sum_ext; intros b _. ring.
Qed.

Lemma opp4 n1 n2 n3 n4 (f : nat -> nat -> R) (g : nat -> nat -> R) (h : nat -> nat -> nat -> nat -> R) :
  sum n1 (fun a => sum n2 (fun b => f a b * sum n3 (fun c => sum n4 (fun e => g c e * - h a b c e)))) = - sum n1 (fun a => sum n2 (fun b => f a b * sum n3 (fun c => sum n4 (fun e => g c e * h a b c e)))).
Proof.
  rewrite <- sum_opp. apply sum_ext; intros a _. rewrite <- sum_opp. apply sum_ext; intros b _.
  assert (EQ : sum n3 (fun c => sum n4 (fun e => g c e * - h a b c e)) = - sum n3 (fun c => sum n4 (fun e => g c e * h a b c e))).
  { rewrite <- sum_opp. apply sum_ext; intros c _. rewrite <- sum_opp. apply sum_ext; intros e _. ring. }
  rewrite EQ. ring.
Qed.

Lemma pair_closed P mid Q A B l r0 F pr V C E0 l' r0' F' pr' V' C' E0' k Bc Z : fdata m = P ++ A :: mid ++ B :: Q ->
  let i := length P in let j := (length P + 1 + length mid)%nat in
  site_facts K S m ls rs P (mid ++ B :: Q) A l r0 F pr V -> site_facts K S m ls rs (P ++ A :: mid) Q B l' r0' F' pr' V' ->
  cfacts K m P (mid ++ B :: Q) A l r0 pr V C (Ci i) E0 (Ei i) -> cfacts K m (P ++ A :: mid) Q B l' r0' pr' V' C' (Ci j) E0' (Ei j) ->
  (k < length (fdata m))%nat -> same_shape (A_ k) Bc -> represents d (fdata m) k Bc Z ->
  exists G, chris_G K S m rs prs i j k (Some Bc) = Ok G /\ tsh G = [phys A; dl A; dr A; phys B; dl B; dr B] /\
    forall x1 y1 x2 y2, (x1 < dr V)%nat -> (y1 < dr A)%nat -> (x2 < dr V')%nat -> (y2 < dr B)%nat ->
     sum d (fun s0 => sum (dl A) (fun a0 => me C a0 a0 * sconj (ent V s0 a0 x1) * sum d (fun s1 => sum (dl B) (fun a1 => me C' a1 a1 * sconj (ent V' s1 a1 x2) *
        te G [s0; a0; y1; s1; a1; y2])))) * me E0 y1 y1 * me E0' y2 y2 =
     overlap d (P ++ tvec A V (fun a => me (Ci i) a a) (fun b => me (Ei i) b b) x1 y1 :: mid ++ tvec B V' (fun a => me (Ci j) a a) (fun b => me (Ei j) b b) x2 y2 :: Q) (with_site (fdata m) k Z).
Proof.
  intros E i j HF HF' HC HC' Hk HB HZ.
  destruct (closed_value K S HK HS Hchar m H ls rs Hin prs Hprs P mid Q A B l r0 F pr V l' r0' F' pr' V' E HF HF' k Bc Z Hk HB HZ) as (G & EG & SG & VG). fold j in EG. fold i in EG, VG. exists G. split; [exact EG|]. split; [exact SG|].
  intros x1 y1 x2 y2 Hx1 Hy1 Hx2 Hy2. pose proof HF as (_ & _ & _ & _ & _ & _ & PA & _). pose proof HF' as (_ & _ & _ & _ & _ & _ & PB & _).
  assert (VG' : sum d (fun s0 => sum (dl A) (fun a0 => me C a0 a0 * sconj (ent V s0 a0 x1) * sum d (fun s1 => sum (dl B) (fun a1 => me C' a1 a1 * sconj (ent V' s1 a1 x2) * te G [s0; a0; y1; s1; a1; y2])))) =
    sum d (fun s0 => sum (dl A) (fun a0 => me C a0 a0 * sconj (ent V s0 a0 x1) * sum d (fun s1 => sum (dl B) (fun a1 => me C' a1 a1 * sconj (ent V' s1 a1 x2) * (if Nat.eqb i k then sum (dr A) (fun g => ent Z s0 a0 g * Wf m mid B pr' s1 a1 y2 g y1) * me F y1 y1 else 0)))))).
  { apply sum_ext; intros s0 Hs0. apply sum_ext; intros a0 Ha0. f_equal. apply sum_ext; intros s1 Hs1. apply sum_ext; intros a1 Ha1. f_equal. apply VG; (split; [congruence|split; assumption]). }
  rewrite VG'. pose proof (proj1 HZ) as TZ. destruct (Nat.eqb_spec i k) as [Ek|Hne].
  - subst k. rewrite (framed K S HK m H ls rs Hin P mid Q A B l r0 F pr V l' r0' F' pr' V' E HF HF' C _ E0 _ C' _ E0' _ HC HC' Z x1 y1 x2 y2); try assumption.
    + rewrite E. unfold i. rewrite with_site_at. reflexivity.
    + destruct TZ as [TZ _]. unfold i in TZ. rewrite E, nth_at in TZ. exact TZ.
  - pose proof (frame_tangent K S m ls rs _ _ _ _ _ _ _ _ _ _ _ _ x1 y1 E HF HC Hx1) as F1. pose proof (frame_tangent K S m ls rs _ _ _ _ _ _ _ _ _ _ _ _ x2 y2 (E_j m P mid Q A B E) HF' HC' Hx2) as F2.
    rewrite (L_j P mid A) in F2. fold i in F1. fold j in F2.
    rewrite <- (proj1 (with_two P mid Q A B _ _)), <- E. fold j. fold i. rewrite (zero_lt K S HK HS Hchar m H ls rs Hin i j k _ _ _ ltac:(lia) ltac:(rewrite E, !app_length; cbn; rewrite app_length; cbn; lia) Hk (not_eq_sym Hne) F1 F2 TZ).
    rewrite sum_zero; [ring|]. intros s0 _. apply sum_zero. intros a0 _. rewrite (sum_zero d); [ring|]. intros s1 _. apply sum_zero. intros a1 _. ring.
Qed.

Lemma closed_all o : o = None \/ o = Some prs -> forall i j k B Z, (i < fL m)%nat -> (j < fL m)%nat -> (k < fL m)%nat -> same_shape (A_ k) B -> represents d (fdata m) k B Z ->
  exists G, christoffel K S m i j k o (Some B) = Ok G /\ tsh G = [fst (dim i); snd (dim i); fst (dim j); snd (dim j)] /\
    forall x1 y1 x2 y2, (x1 < fst (dim i))%nat -> (y1 < snd (dim i))%nat -> (x2 < fst (dim j))%nat -> (y2 < snd (dim j))%nat ->
      te G [x1; y1; x2; y2] = christoffel_elem d (fdata m) i (T_ i x1 y1) j (T_ j x2 y2) k Z.
Proof.
  intros Ho i j k Bc Z Hi Hj Hk HB HZ. rewrite (lists_ok o Ho). rewrite (HL K m H ls rs Hin) in Hi, Hj, Hk. unfold chris_gamma, christoffel_elem.
  destruct (Nat.ltb_spec j i) as [Hlt|Hge]; [|apply Nat.le_lteq in Hge as [Hlt|<-]].
  - destruct (split_pair (fdata m) j i Hlt Hi) as (P & A & mid & B & Q & E & LP & EJ). subst i j. pose proof (E_j m P mid Q A B E) as E'. pose proof (L_j P mid A) as LJ.
    destruct (site_all _ _ _ E) as (l & r0 & F & pr & V & C & E0 & HF & HC & D1 & D2). destruct (site_all _ _ _ E') as (l' & r0' & F' & pr' & V' & C' & E0' & HF' & HC' & D1' & D2'). rewrite LJ in D1', D2', HC'.
    destruct (pair_closed P mid Q A B l r0 F pr V C E0 l' r0' F' pr' V' C' E0' k Bc Z E HF HF' HC HC' Hk HB HZ) as (G & EG & SG & VG). rewrite EG. cbn [bind].
    destruct (transpose_ok [3; 4; 5; 0; 1; 2]%nat G) as (T & ET & ST & VT); [rewrite SG; exact perm6|]. rewrite ET. cbn [bind]. rewrite SG in ST. cbn [map nth] in ST.
    destruct (ungauge_ok _ _ _ _ _ _ _ _ _ _ _ _ _ _ _ _ _ _ _ _ _ _ _ _ (tens_neg T) E' E HF' HF HC' HC) as (X & EX & SX & VX); [exact ST|]. rewrite LJ in EX. rewrite EX.
    eexists. split; [reflexivity|]. rewrite D1, D1'. cbn [fst snd]. split; [exact SX|]. intros x1 y1 x2 y2 Hx1 Hy1 Hx2 Hy2. rewrite VX by assumption. cbn [tens_neg te].
    destruct (Nat.eqb_spec (length P + 1 + length mid) (length P)) as [|_]; [lia|]. rewrite D2, D2'.
    rewrite E at 1. rewrite (proj2 (with_two P mid Q A B _ _)). rewrite <- (VG x2 y2 x1 y1) by assumption. rewrite opp4.
    enough (EQ : sum d (fun s1 => sum (dl A) (fun a1 => me C a1 a1 * sconj (ent V s1 a1 x2) * sum d (fun s0 => sum (dl B) (fun a0 => me C' a0 a0 * sconj (ent V' s0 a0 x1) * te T [s0; a0; y1; s1; a1; y2])))) =
      sum d (fun s1 => sum (dl A) (fun a1 => me C a1 a1 * sconj (ent V s1 a1 x2) * sum d (fun s0 => sum (dl B) (fun a0 => me C' a0 a0 * sconj (ent V' s0 a0 x1) * te G [s1; a1; y2; s0; a0; y1]))))) by (rewrite EQ; ring).
    apply sum_ext; intros s1 _. apply sum_ext; intros a1 _. f_equal. apply sum_ext; intros s0 _. apply sum_ext; intros a0 _. f_equal. specialize (VT [s1; a1; y2; s0; a0; y1]). cbn [map nth] in VT. apply VT. rewrite SG. reflexivity.
  - destruct (split_pair (fdata m) i j Hlt Hj) as (P & A & mid & B & Q & E & LP & EJ). subst i j. pose proof (E_j m P mid Q A B E) as E'. pose proof (L_j P mid A) as LJ.
    destruct (site_all _ _ _ E) as (l & r0 & F & pr & V & C & E0 & HF & HC & D1 & D2). destruct (site_all _ _ _ E') as (l' & r0' & F' & pr' & V' & C' & E0' & HF' & HC' & D1' & D2'). rewrite LJ in D1', D2', HC'.
    destruct (pair_closed P mid Q A B l r0 F pr V C E0 l' r0' F' pr' V' C' E0' k Bc Z E HF HF' HC HC' Hk HB HZ) as (G & EG & SG & VG). rewrite EG. cbn [bind].
    destruct (ungauge_ok _ _ _ _ _ _ _ _ _ _ _ _ _ _ _ _ _ _ _ _ _ _ _ _ (tens_neg G) E E' HF HF' HC HC') as (X & EX & SX & VX); [exact SG|]. rewrite LJ in EX. rewrite EX.
    eexists. split; [reflexivity|]. rewrite D1, D1'. cbn [fst snd]. split; [exact SX|]. intros x1 y1 x2 y2 Hx1 Hy1 Hx2 Hy2. rewrite VX by assumption. cbn [tens_neg te].
    destruct (Nat.eqb_spec (length P) (length P + 1 + length mid)) as [|_]; [lia|]. rewrite D2, D2'.
    rewrite E at 1. rewrite (proj1 (with_two P mid Q A B _ _)). rewrite <- (VG x1 y1 x2 y2) by assumption. rewrite opp4, swap4. ring.
  - unfold chris_G, getitem. rewrite (nth_error_nth' (fdata m) no_site Hi). cbn [bind]. rewrite Nat.eqb_refl. cbn [orb bind].
    destruct (split_nth (fdata m) i Hi) as (P & A & Q & E & LP). subst i. destruct (site_all _ _ _ E) as (l & r0 & F & pr & V & C & E0 & HF & HC & D1 & D2).
    assert (Ei' : A_ (length P) = A) by (rewrite E; apply nth_at). rewrite Ei'.
    destruct (ungauge_ok _ _ _ _ _ _ _ _ _ _ _ _ _ _ _ _ _ _ _ _ _ _ _ _ (tens_neg (mkT [phys A; dl A; dr A; phys A; dl A; dr A] (fun _ => 0))) E E HF HF HC HC) as (X & EX & SX & VX); [reflexivity|]. rewrite EX.
    eexists. split; [reflexivity|]. rewrite D1. cbn [fst snd]. split; [exact SX|]. intros x1 y1 x2 y2 Hx1 Hy1 Hx2 Hy2. rewrite VX by assumption. cbn [tens_neg te].
    rewrite opp4. rewrite sum_zero; [ring|]. intros s0 _. apply sum_zero. intros a0 _. rewrite (sum_zero d); [ring|]. intros s1 _. apply sum_zero. intros a1 _. ring.
Qed.

(** the directions *)
Lemma frame_dir n x y : (n < fL m)%nat -> (x < fst (dim n))%nat -> tangent_at (fdata m) n (T_ n x y).
Proof.
  intros Hn Hx. rewrite (HL K m H ls rs Hin) in Hn. destruct (split_nth (fdata m) n Hn) as (P & A & Q & E & LP). subst n. destruct (site_all _ _ _ E) as (l & r0 & F & pr & V & C & E0 & HF & HC & D1 & D2).
  rewrite D2. rewrite D1 in Hx. exact (frame_tangent K S m ls rs _ _ _ _ _ _ _ _ _ _ _ _ x y E HF HC Hx).
Qed.
Lemma lower_all n X B l r : (n < fL m)%nat -> tangent_at (fdata m) n X -> same_shape (A_ n) B -> nth_error ls n = Some l -> nth_error rs (n + 1) = Some r ->
  (forall s a b, in_shape (A_ n) s a b -> ent B s a b = sum (dl (A_ n)) (fun a' => sum (dr (A_ n)) (fun b' => me l a a' * ent X s a' b' * me r b' b))) ->
  represents d (fdata m) n B X.
Proof.
  intros Hn HX HB Nl Nr HE. rewrite (HL K m H ls rs Hin) in Hn. destruct (split_nth (fdata m) n Hn) as (P & A & Q & E & LP). subst n. destruct (site_all _ _ _ E) as (l' & r0 & F & pr & V & C & E0 & HF & HC & D1 & D2).
  pose proof HF as (_ & _ & _ & _ & _ & _ & _ & _ & Nl' & _ & Nr' & _). rewrite Nl in Nl'. rewrite Nr in Nr'. injection Nl' as <-. injection Nr' as <-.
  assert (Ei' : A_ (length P) = A) by (rewrite E; apply nth_at). rewrite Ei' in HB, HE.
  exact (lower_represents K S m H ls rs Hin P Q A l r F pr V X B E HF HX HB HE).
Qed.
End Frame.
End List.
End Whole.
