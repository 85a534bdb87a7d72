(** christoffel. *)
From Coq Require Permutation.
From Verif Require Import Alg ModelMPS SpecMPS ProofMPS ModelOrth SpecOrth ProofOrth ProofOrth2 ModelNcon SpecNcon ModelNp ProofNp
  ModelEk SpecEk ProofEk4 ModelEnergy SpecEnergy ProofEnergy ModelTan SpecTan ProofTan ModelTdvp SpecTdvp ProofTdvp ProofTdvp2 ProofTdvp3 ProofTdvp4 ProofTdvp5 ProofTdvp6 ProofTdvp7 ProofTdvp8 ProofTdvp9
  ModelJac SpecJac ProofJac ProofJac2 ProofJac4 ProofJac5 ModelChrist SpecChrist ProofChrist ProofChrist2.
Require Verif.SpecDecomp.

Section Whole.
Context {R : sring}.
Local Open Scope sr_scope.
Add Ring Rr2 : (s_th R).
Variable K : tanlib R.
Variable S : setio.
Hypothesis HK : tanlib_ok K.
Hypothesis HS : setio_ok S.
Hypothesis Hchar : SpecDecomp.char0 R.
Variables (m : fmps R) (H ls rs : list (mat R)).
Hypothesis Hin : tdvp_input K m H ls rs.
Notation d := (fd m).

Lemma nulls_ex : exists prs, mapM (fun n => left_null_projector K S m n (Some ls) None) (seq 0 (fL m)) = Ok prs.
Proof.
  destruct (mapM_seq (fun n => left_null_projector K S m n (Some ls) None) (fun _ _ => True) (fL m) 0) as (prs & E & _); [|exists prs; exact E].
  intros i Hi. destruct (split_nth (fdata m) i) as (P & A & Q & E & LP); [rewrite <- (HL K m H ls rs Hin); lia|].
  destruct (facts K S HK HS Hchar m H ls rs Hin P Q A E) as (l & r0 & F & pr & V & HF). pose proof HF as (_ & _ & _ & _ & _ & _ & _ & _ & _ & _ & _ & _ & _ & _ & EP & _). rewrite LP in EP. exists (pr, V). auto.
Qed.

Lemma chain_left (l : list (site R)) a b n : chain a l n -> chain b l n -> a = b.
Proof. destruct l as [|A l]; cbn [chain]; [congruence|]. intros [H1 _] [H2 _]. congruence. Qed.

Section List.
Variable prs : list (tens R * site R).
Hypothesis Hprs : mapM (fun n => left_null_projector K S m n (Some ls) None) (seq 0 (fL m)) = Ok prs.

Lemma prs_get P Q A l r0 F pr V : fdata m = P ++ A :: Q -> site_facts K S m ls rs P Q A l r0 F pr V -> nth_error prs (length P) = Some (pr, V).
Proof.
  intros E HF. pose proof HF as (_ & _ & _ & _ & _ & _ & _ & _ & _ & _ & _ & _ & _ & _ & EP & _).
  destruct (mapM_at _ _ _ _ Hprs) as (_ & Hat). destruct (Hat (length P)) as (y & N1 & N2); [rewrite (HL K m H ls rs Hin), E, app_length; cbn; lia|]. change (0 + length P)%nat with (length P) in N2. rewrite EP in N2. injection N2 as <-. exact N1.
Qed.

(** two sites *)
Section Pair.
Variables (P mid Q : list (site R)) (A B : site R) (l r0 F : mat R) (pr : tens R) (V : site R) (l' r0' F' : mat R) (pr' : tens R) (V' : site R).
Hypothesis E : fdata m = P ++ A :: mid ++ B :: Q.
Hypothesis HF : site_facts K S m ls rs P (mid ++ B :: Q) A l r0 F pr V.
Hypothesis HF' : site_facts K S m ls rs (P ++ A :: mid) Q B l' r0' F' pr' V'.
Notation i := (length P).
Notation j := (length P + 1 + length mid)%nat.

Lemma E_j : fdata m = (P ++ A :: mid) ++ B :: Q. Proof. rewrite E, <- app_assoc. reflexivity. Qed.
Lemma L_j : length (P ++ A :: mid) = j. Proof. rewrite app_length. cbn. lia. Qed.
Lemma at_i : nth_error (fdata m) i = Some A. Proof. rewrite E, nth_error_app2, Nat.sub_diag by lia. reflexivity. Qed.
Lemma at_j : nth_error (fdata m) j = Some B. Proof. rewrite E_j, <- L_j, nth_error_app2, Nat.sub_diag by lia. reflexivity. Qed.
Lemma C_mid : chain (dr A) mid (dl B).
Proof.
  pose proof HF as (_ & C3 & _). pose proof HF' as (C1' & _). apply chain_app in C3 as (a & C3 & _). apply chain_app in C1' as (a' & D1 & D2 & D3).
  rewrite (chain_fun mid (dr A) (dl B) a D3 C3). exact C3.
Qed.

Definition Wf (s a b x y : nat) : R := xfer mid (fun x y => sum d (fun t => te pr' [s; a; t; y] * ent B t x b)) x y.

Lemma Rs_ok : exists Rs W, chris_Rs S m prs i j = Ok Rs /\ Rs (i + 1)%nat = Ok W /\ tsh W = [dr A; dr A; d; dl B; dr B] /\ forall x y s a b, te W [x; y; s; a; b] = Wf s a b x y.
Proof.
  pose proof HF' as (_ & _ & _ & _ & _ & _ & PB & _ & _ & _ & _ & _ & _ & _ & _ & Sp' & _).
  unfold chris_Rs, getitem. pose proof (prs_get _ _ _ _ _ _ _ _ E_j HF') as N. rewrite L_j in N. rewrite N, at_j. cbn [bind fst].
  destruct (net_R S HS pr' B) as (T & ET & ST & VT); [rewrite PB; exact Sp'|]. rewrite ET. cbn [bind]. rewrite PB in ST, VT.
  destruct (lt_loop5 P (A :: mid) (dl B) d (dl B) (dr B) (B :: Q) (dl A) T) as (Ls & ELs & LLs & HLs); [split; [reflexivity|exact C_mid]|exact ST|].
  unfold left_transfer, lt_. replace (j - i)%nat with (length (A :: mid)) by (cbn; lia). rewrite E. cbn [app] in ELs. rewrite ELs. cbn [bind].
  destruct (HLs 1%nat) as (W & b & N1 & C & SW & VW); [cbn; lia|]. cbn [skipn] in C, VW. assert (b = dr A) by (apply (chain_left mid b (dr A) (dl B) C C_mid)). subst b.
  eexists. exists W. split; [reflexivity|]. unfold getitem. replace (i + 1 - i)%nat with 1%nat by lia. rewrite N1. split; [reflexivity|]. split; [exact SW|].
  intros x y s a b. rewrite VW. unfold Wf. clear - VT. revert x y. induction mid as [|D md IH]; intros x y; [apply VT|]. cbn [xfer]. apply sum_ext; intros t _. apply sum_ext; intros k _. apply sum_ext; intros k' _. rewrite IH. reflexivity.
Qed.

Lemma no_null : (d * dl A)%nat = dr A -> forall s a t c, (a < dl A)%nat -> (c < dl A)%nat -> te pr [s; a; t; c] = 0.
Proof.
  intros Ed s a t c Ha Hc. destruct (next_inv K S HK HS Hchar m H ls rs Hin P (mid ++ B :: Q) A E) as (u & Hu); [destruct mid; discriminate|].
  destruct HF as (_ & _ & _ & _ & _ & _ & _ & _ & _ & _ & _ & _ & _ & _ & _ & _ & _ & _ & _ & Hcount & Hz & _). specialize (Hcount u Hu). apply Hz; [exact Ha|exact Hc|]. lia.
Qed.

Lemma ovl_pair X Y W : same_shape A X -> same_shape A Y -> same_shape B W -> overlap d (P ++ Y :: mid ++ W :: Q) (P ++ X :: mid ++ B :: Q) =
    sum d (fun s => sum (dl A) (fun a => sum (dr A) (fun g => sum (dr A) (fun h => sconj (ent Y s a h) * true_l P a a * ent X s a g *
      xfer mid (fun x y => sum d (fun t => sum (dr B) (fun e => ent B t x e * sconj (ent W t y e) * true_r Q e e))) g h)))).
Proof.
  intros HX HY HW. pose proof HF as (C1 & _ & C4 & _ & _ & _ & PA & _). pose proof HF' as (_ & C3' & _ & C5' & _ & _ & PB & _).
  rewrite (overlap_two d P mid Q A B X Y W); try assumption; [rewrite PA, PB; reflexivity|apply C_mid|]. rewrite <- E. apply dims_repeat. apply (Hun K m H ls rs Hin).
Qed.

Lemma kern_W s1 a1 b1 : in_shape B s1 a1 b1 -> forall x y, (x < dl B)%nat -> (y < dl B)%nat ->
  sum d (fun t => sum (dr B) (fun e => ent B t x e * sconj (ent (kern B pr' F' s1 a1 b1) t y e) * true_r Q e e)) = sum d (fun t => te pr' [s1; a1; t; y] * ent B t x b1).
Proof.
  intros (_ & Ha & Hb) x y Hx Hy. pose proof (F_facts K S HK m ls rs _ _ _ _ _ _ _ _ HF') as [_ HF1]. pose proof HF' as (_ & _ & _ & _ & _ & _ & _ & _ & _ & _ & _ & _ & _ & _ & _ & _ & Hsa & _).
  apply sum_ext; intros t _. rewrite (sum_diag (dr B) b1); [|exact Hb|].
  - cbn [kern ent]. rewrite dlt_eq, !conj_mul, conj_1. destruct (HF1 b1 Hb) as [G1 G2]. rewrite G2, <- Hsa by assumption.
    transitivity (te pr' [s1; a1; t; y] * ent B t x b1 * (true_r Q b1 b1 * me F' b1 b1)); [ring|]. rewrite G1. ring.
  - intros e He Hne. cbn [kern ent]. rewrite (dlt_neq b1 e), !conj_mul, conj_0 by auto. ring.
Qed.

(** the value with nothing closed *)
Lemma kern_value s0 a0 b0 s1 a1 b1 s2 a2 b2 : in_shape A s0 a0 b0 -> in_shape B s1 a1 b1 -> in_shape A s2 a2 b2 ->
  overlap d (P ++ kern A pr F s0 a0 b0 :: mid ++ kern B pr' F' s1 a1 b1 :: Q) (P ++ kern A pr F s2 a2 b2 :: mid ++ B :: Q) = te pr [s0; a0; s2; a2] * Wf s1 a1 b1 b2 b0 * me F b2 b2 * me F b0 b0.
Proof.
  intros (Hs0 & Ha0 & Hb0) H1 (Hs2 & Ha2 & Hb2). rewrite ovl_pair by (repeat split).
  pose proof (F_facts K S HK m ls rs _ _ _ _ _ _ _ _ HF) as [_ HF1]. pose proof HF as (_ & _ & C4 & _ & _ & _ & PA & _ & _ & _ & _ & _ & _ & _ & _ & _ & Hsa & Hcg & Hid & _).
  transitivity (sum d (fun s => sum (dl A) (fun a => te pr [s0; a0; s; a] * true_l P a a * te pr [s; a; s2; a2])) * (Wf s1 a1 b1 b2 b0 * me F b2 b2 * me F b0 b0)).
  - rewrite <- sum_mul_r. apply sum_ext; intros s _. rewrite <- sum_mul_r. apply sum_ext; intros a Ha.
    rewrite (sum_diag (dr A) b2); [|exact Hb2|]. 2: { intros g Hg Hne. apply sum_zero; intros h _. cbn [kern ent]. rewrite (dlt_neq b2 g) by auto. ring. }
    rewrite (sum_diag (dr A) b0); [|exact Hb0|]. 2: { intros g Hg Hne. cbn [kern ent]. rewrite (dlt_neq b0 g), !conj_mul, conj_0 by auto. ring. }
    rewrite (xfer_ext mid _ (fun x y => sum d (fun t => te pr' [s1; a1; t; y] * ent B t x b1)) (dr A) (dl B) C_mid); [|intros x y Hx Hy; apply kern_W; assumption|exact Hb2|exact Hb0].
    fold (Wf s1 a1 b1 b2 b0). cbn [kern ent]. rewrite !dlt_eq, !conj_mul, conj_1. destruct (HF1 b0 Hb0) as [_ ->]. rewrite <- Hsa by assumption. ring.
  - rewrite (Hid (fun s a => te pr [s; a; s2; a2])); [ring| |rewrite <- PA; exact Hs0|exact Ha0].
    apply gauge_diag; [exact C4|]. intros b Hb. rewrite PA. apply Hcg; assumption.
Qed.

Lemma open_value k : (k < length (fdata m))%nat -> forall D, (forall n, (n < length (fdata m))%nat -> dual_basis d (fdata m) n (D n)) -> 
  exists G, chris_G K S m rs prs i j k None = Ok G /\
    tsh G = [phys A; dl A; dr A; phys B; dl B; dr B; phys (nth k (fdata m) no_site); dl (nth k (fdata m) no_site); dr (nth k (fdata m) no_site)] /\
    forall s0 a0 b0 s1 a1 b1 s2 a2 b2, in_shape A s0 a0 b0 -> in_shape B s1 a1 b1 -> in_shape (nth k (fdata m) no_site) s2 a2 b2 ->
      te G [s0; a0; b0; s1; a1; b1; s2; a2; b2] = overlap d (with_site (with_site (fdata m) i (D i s0 a0 b0)) j (D j s1 a1 b1)) (with_site (fdata m) k (D k s2 a2 b2)).
Proof.
  intros Hk D HD. unfold chris_G. unfold getitem at 1 2. rewrite at_i, at_j. cbn [bind]. destruct (Nat.eqb_spec j i) as [|_]; [lia|]. cbn [orb].
  assert (Hi : (i < length (fdata m))%nat) by (rewrite E, app_length; cbn; lia).
  assert (Hj : (j < length (fdata m))%nat) by (rewrite E_j, app_length, L_j; cbn; lia).
  assert (Ei : nth i (fdata m) no_site = A) by (rewrite E; apply nth_at).
  assert (Ej : nth j (fdata m) no_site = B) by (rewrite E_j, <- L_j; apply nth_at).
  destruct (Nat.eqb_spec i k) as [<-|Hne]; cbn [negb orb].
  2: { unfold getitem. rewrite (nth_error_nth' (fdata m) no_site Hk). cbn [bind]. eexists. split; [reflexivity|]. split; [reflexivity|]. intros s0 a0 b0 s1 a1 b1 s2 a2 b2 H0 H1 H2. cbn [te].
       symmetry. apply (zero_lt K S HK HS Hchar m H ls rs Hin); try assumption; try lia; apply HD; try assumption; rewrite ?Ei, ?Ej; assumption. }
  rewrite Ei. pose proof HF as (_ & _ & _ & _ & _ & _ & PA & _ & _ & _ & Nr & _ & EF & _ & _ & Sp & _). pose proof HF' as (_ & _ & _ & _ & _ & _ & PB & _).
  assert (VAL : forall s0 a0 b0 s1 a1 b1 s2 a2 b2, in_shape A s0 a0 b0 -> in_shape B s1 a1 b1 -> in_shape A s2 a2 b2 ->
    overlap d (with_site (with_site (fdata m) i (D i s0 a0 b0)) j (D j s1 a1 b1)) (with_site (fdata m) i (D i s2 a2 b2)) = te pr [s0; a0; s2; a2] * Wf s1 a1 b1 b2 b0 * me F b2 b2 * me F b0 b0).
  { intros s0 a0 b0 s1 a1 b1 s2 a2 b2 H0 H1 H2. rewrite <- kern_value by assumption. rewrite E, (proj1 (with_two P mid Q A B _ _)), with_site_at.
    pose proof (HD i Hi) as HDi. pose proof (HD j Hj) as HDj. 
    assert (S0 : same_shape A (D i s0 a0 b0)) by (rewrite <- Ei; apply HDi; rewrite Ei; exact H0).
    assert (S1 : same_shape B (D j s1 a1 b1)) by (rewrite <- Ej; apply HDj; rewrite Ej; exact H1).
    assert (S2 : same_shape A (D i s2 a2 b2)) by (rewrite <- Ei; apply HDi; rewrite Ei; exact H2).
    rewrite !ovl_pair by (first [assumption | repeat split]).
    apply sum_ext; intros s Hs. apply sum_ext; intros a Ha. apply sum_ext; intros g Hg. apply sum_ext; intros h Hh.
    pose proof (dual_unique K S HK m H ls rs Hin _ _ _ _ _ _ _ _ (D i) E HF HDi) as U1.
    pose proof (dual_unique K S HK m H ls rs Hin _ _ _ _ _ _ _ _ (D j) E_j HF') as U2. rewrite L_j in U2. specialize (U2 HDj).
    rewrite (U1 s0 a0 b0 s a h H0) by (split; [rewrite PA; exact Hs|split; assumption]). rewrite (U1 s2 a2 b2 s a g H2) by (split; [rewrite PA; exact Hs|split; assumption]). f_equal.
    apply (xfer_ext mid _ _ (dr A) (dl B) C_mid); [|exact Hg|exact Hh]. intros x y Hx Hy. apply sum_ext; intros t Ht. apply sum_ext; intros e He. rewrite (U2 s1 a1 b1 t y e H1); [reflexivity|]. split; [rewrite PB; exact Ht|split; assumption]. }
  destruct (Nat.eqb_spec (d * dl A) (dr A)) as [Ed|Ed].
  - unfold getitem. rewrite at_i. cbn [bind]. eexists. split; [reflexivity|]. split; [reflexivity|]. intros s0 a0 b0 s1 a1 b1 s2 a2 b2 H0 H1 H2. rewrite VAL by assumption. cbn [te]. rewrite (no_null Ed); [ring|apply H0|apply H2].
  - destruct Rs_ok as (Rs & W & ER & EW & SW & VW). rewrite ER. cbn [bind]. unfold getitem. rewrite (prs_get _ _ _ _ _ _ _ _ E HF). cbn [bind fst]. rewrite Nr. cbn [bind]. rewrite EF. cbn [bind]. rewrite EW. cbn [bind].
    pose proof (F_facts K S HK m ls rs _ _ _ _ _ _ _ _ HF) as [DF _]. pose proof DF as (D1 & D2 & D3).
    destruct (cnet_open S HS pr W F d (dl A) (dr A) d (dl B) (dr B) Sp SW D1 D2) as (G & EG & SG & VG). exists G. split; [exact EG|]. split; [rewrite SG, PA, PB; reflexivity|].
    intros s0 a0 b0 s1 a1 b1 s2 a2 b2 H0 H1 H2. rewrite VAL, VG by assumption. destruct H0 as (_ & _ & Hb0), H2 as (_ & _ & Hb2).
    rewrite (sum_diag (dr A) b2); [|exact Hb2|]. 2: { intros x Hx Hne. apply sum_zero; intros y _. rewrite D3, (dlt_neq x b2) by auto. ring. }
    rewrite (sum_diag (dr A) b0); [|exact Hb0|]. 2: { intros x Hx Hne. rewrite (D3 x b0), (dlt_neq x b0) by auto. ring. }
    rewrite VW. ring.
Qed.

(** the value with the last argument closed *)
Lemma closed_value k Bc Z : (k < length (fdata m))%nat -> same_shape (nth k (fdata m) no_site) Bc -> represents d (fdata m) k Bc Z ->
  exists G, chris_G K S m rs prs i j k (Some Bc) = Ok G /\ tsh G = [phys A; dl A; dr A; phys B; dl B; dr B] /\
    forall s0 a0 b0 s1 a1 b1, in_shape A s0 a0 b0 -> in_shape B s1 a1 b1 ->
      te G [s0; a0; b0; s1; a1; b1] = if Nat.eqb i k then sum (dr A) (fun g => ent Z s0 a0 g * Wf s1 a1 b1 g b0) * me F b0 b0 else 0.
Proof.
  intros Hk HB HZ. unfold chris_G. unfold getitem at 1 2. rewrite at_i, at_j. cbn [bind]. destruct (Nat.eqb_spec j i) as [|_]; [lia|]. cbn [orb].
  assert (Ei : nth i (fdata m) no_site = A) by (rewrite E; apply nth_at).
  destruct (Nat.eqb_spec i k) as [<-|Hne]; cbn [negb orb].
  2: { eexists. split; [reflexivity|]. split; [reflexivity|]. reflexivity. }
  rewrite Ei in HB. pose proof HF as (_ & _ & _ & _ & _ & _ & PA & _ & _ & _ & Nr & _ & EF & _ & _ & Sp & _). pose proof HF' as (_ & _ & _ & _ & _ & _ & PB & _).
  pose proof (represent_entry K S HK m H ls rs Hin _ _ _ _ _ _ _ _ Bc Z E HF HB HZ) as HZ'.
  destruct (Nat.eqb_spec (d * dl A) (dr A)) as [Ed|Ed].
  - eexists. split; [reflexivity|]. split; [reflexivity|]. intros s0 a0 b0 s1 a1 b1 H0 H1. cbn [te]. rewrite sum_zero; [ring|]. intros g Hg. destruct H0 as (Hs & Ha & Hb). rewrite HZ' by (repeat split; assumption).
    rewrite sum_zero; [ring|]. intros u _. apply sum_zero. intros f Hf. rewrite (no_null Ed) by assumption. ring.
  - destruct Rs_ok as (Rs & W & ER & EW & SW & VW). rewrite ER. cbn [bind]. unfold getitem. rewrite (prs_get _ _ _ _ _ _ _ _ E HF). cbn [bind fst]. rewrite Nr. cbn [bind]. rewrite EF. cbn [bind].
    pose proof (F_facts K S HK m ls rs _ _ _ _ _ _ _ _ HF) as [DF _]. destruct HB as (B1 & B2 & B3).
    destruct (site_dmat F (fun b => me F b b) Bc) as (X & EX & X1 & X2 & X3 & VX); [rewrite B3; exact DF|]. rewrite EX. cbn [bind]. rewrite EW. cbn [bind]. pose proof DF as (D1 & D2 & D3).
    destruct (cnet_closed S HS pr W X F d (dl A) (dr A) d (dl B) (dr B) Sp) as (G & EG & SG & VG); try assumption; try congruence. exists G. split; [exact EG|]. split; [rewrite SG, PA, PB; reflexivity|].
    intros s0 a0 b0 s1 a1 b1 (Hs & Ha & Hb0) H1. rewrite VG.
    transitivity (sum d (fun u => sum (dl A) (fun f => sum (dr A) (fun x => te pr [s0; a0; u; f] * (ent Bc u f x * me F x x) * (Wf s1 a1 b1 x b0 * me F b0 b0))))).
    { apply sum_ext; intros u _. apply sum_ext; intros f _. apply sum_ext; intros x Hx. rewrite (sum_diag (dr A) b0); [|exact Hb0|].
      - rewrite VW, VX by congruence. ring.
      - intros y Hy Hne. rewrite D3, (dlt_neq y b0) by auto. ring. }
    transitivity (sum (dr A) (fun x => sum d (fun u => sum (dl A) (fun f => te pr [s0; a0; u; f] * (ent Bc u f x * me F x x) * (Wf s1 a1 b1 x b0 * me F b0 b0))))).
    { rewrite (sum_swap (dr A) d). apply sum_ext; intros u _. apply sum_swap. }
    rewrite <- sum_mul_r. apply sum_ext; intros x Hx. rewrite HZ' by (repeat split; assumption). rewrite <- !sum_mul_r. apply sum_ext; intros u _. rewrite <- !sum_mul_r. apply sum_ext; intros f _. ring.
Qed.

(** in the frame *)
Variables (C Ci E0 Ei C' Ci' E0' Ei' : mat R).
Hypothesis HC : cfacts K m P (mid ++ B :: Q) A l r0 pr V C Ci E0 Ei.
Hypothesis HC' : cfacts K m (P ++ A :: mid) Q B l' r0' pr' V' C' Ci' E0' Ei'.
Notation T x y := (tvec A V (fun a => me Ci a a) (fun b => me Ei b b) x y).
Notation T' x y := (tvec B V' (fun a => me Ci' a a) (fun b => me Ei' b b) x y).

Lemma framed Z x1 y1 x2 y2 : same_shape A Z -> (x1 < dr V)%nat -> (y1 < dr A)%nat -> (x2 < dr V')%nat -> (y2 < dr B)%nat ->
  sum d (fun s0 => sum (dl A) (fun a0 => me C a0 a0 * sconj (ent V s0 a0 x1) * sum d (fun s1 => sum (dl B) (fun a1 => me C' a1 a1 * sconj (ent V' s1 a1 x2) *
    (sum (dr A) (fun g => ent Z s0 a0 g * Wf s1 a1 y2 g y1) * me F y1 y1))))) * me E0 y1 y1 * me E0' y2 y2
  = overlap d (P ++ T x1 y1 :: mid ++ T' x2 y2 :: Q) (P ++ Z :: mid ++ B :: Q).
Proof.
  intros HZ Hx1 Hy1 Hx2 Hy2. rewrite ovl_pair by (first [assumption | repeat split]).
  pose proof (F_facts K S HK m ls rs _ _ _ _ _ _ _ _ HF) as [_ HF1].
  destruct HC as (_ & _ & _ & _ & (_ & _ & RL) & (_ & _ & RR) & _ & _). destruct HC' as (_ & _ & _ & _ & (_ & _ & RL') & (_ & _ & RR') & _ & HV').
  assert (EW : forall g, (g < dr A)%nat -> sum d (fun s1 => sum (dl B) (fun a1 => me C' a1 a1 * sconj (ent V' s1 a1 x2) * Wf s1 a1 y2 g y1)) * me E0' y2 y2 =
     xfer mid (fun x y => sum d (fun t => sum (dr B) (fun e => ent B t x e * sconj (ent (T' x2 y2) t y e) * true_r Q e e))) g y1).
  { intros g Hg.
    transitivity (xfer mid (fun x y => sum d (fun t => sconj (ent V' t y x2) * me Ci' y y * ent B t x y2) * me E0' y2 y2) g y1).
    - transitivity (sum d (fun s1 => sum (dl B) (fun a1 => xfer mid (fun x y => sum d (fun t => te pr' [s1; a1; t; y] * ent B t x y2)) g y1 * (me C' a1 a1 * sconj (ent V' s1 a1 x2) * me E0' y2 y2)))).
      { rewrite <- sum_mul_r. apply sum_ext; intros s1 _. rewrite <- sum_mul_r. apply sum_ext; intros a1 _. unfold Wf. ring. }
      rewrite (sum_ext d _ (fun s1 => xfer mid (fun x y => sum (dl B) (fun a1 => sum d (fun t => te pr' [s1; a1; t; y] * ent B t x y2) * (me C' a1 a1 * sconj (ent V' s1 a1 x2) * me E0' y2 y2))) g y1 * 1)).
      2: { intros s1 _. rewrite xfer_lin. ring. }
      rewrite <- (xfer_lin mid d (fun s1 x y => sum (dl B) (fun a1 => sum d (fun t => te pr' [s1; a1; t; y] * ent B t x y2) * (me C' a1 a1 * sconj (ent V' s1 a1 x2) * me E0' y2 y2))) (fun _ => 1)).
      apply (xfer_ext mid _ _ (dr A) (dl B) C_mid); [|exact Hg|exact Hy1]. intros x y Hx Hy.
      transitivity (sum d (fun s1 => sum (dl B) (fun a1 => sum d (fun t => me C' a1 a1 * sconj (ent V' s1 a1 x2) * te pr' [s1; a1; t; y] * (ent B t x y2 * me E0' y2 y2))))).
      { apply sum_ext; intros s1 _. rewrite <- sum_mul_r. apply sum_ext; intros a1 _. transitivity (sum d (fun t => te pr' [s1; a1; t; y] * ent B t x y2) * (me C' a1 a1 * sconj (ent V' s1 a1 x2) * me E0' y2 y2)); [ring|]. rewrite <- sum_mul_r. apply sum_ext; intros t _. ring. }
      rewrite <- sum_mul_r. transitivity (sum d (fun s1 => sum d (fun t => sum (dl B) (fun a1 => me C' a1 a1 * sconj (ent V' s1 a1 x2) * te pr' [s1; a1; t; y] * (ent B t x y2 * me E0' y2 y2))))); [apply sum_ext; intros; apply sum_swap|].
      rewrite sum_swap. apply sum_ext; intros t _. rewrite <- (HV' x2 t y Hx2 Hy). rewrite <- !sum_mul_r. apply sum_ext; intros s1 _. rewrite <- !sum_mul_r. apply sum_ext; intros a1 _. ring.
    - apply (xfer_ext mid _ _ (dr A) (dl B) C_mid); [|exact Hg|exact Hy1]. intros x y Hx Hy. rewrite <- sum_mul_r. apply sum_ext; intros t _. rewrite (sum_diag (dr B) y2); [|exact Hy2|].
      + cbn [tvec ent]. rewrite dlt_eq, !conj_mul, conj_1. destruct (RL' y Hy) as (_ & _ & _ & ->). destruct (RR' y2 Hy2) as (G1 & G2 & _ & ->). rewrite <- G2.
        transitivity (sconj (ent V' t y x2) * me Ci' y y * ent B t x y2 * (me E0' y2 y2 * (me E0' y2 y2 * me Ei' y2 y2))); [rewrite G1; ring|ring].
      + intros e He Hne. cbn [tvec ent]. rewrite (dlt_neq y2 e), !conj_mul, conj_0 by auto. ring. }
  rewrite <- !sum_mul_r. apply sum_ext; intros s Hs. rewrite <- !sum_mul_r. apply sum_ext; intros a Ha.
  transitivity (sum (dr A) (fun g => me C a a * sconj (ent V s a x1) * ent Z s a g * (me F y1 y1 * me E0 y1 y1) * (sum d (fun s1 => sum (dl B) (fun a1 => me C' a1 a1 * sconj (ent V' s1 a1 x2) * Wf s1 a1 y2 g y1)) * me E0' y2 y2))).
  - transitivity (me C a a * sconj (ent V s a x1) * (me F y1 y1 * me E0 y1 y1) * me E0' y2 y2 * sum d (fun s1 => sum (dl B) (fun a1 => me C' a1 a1 * sconj (ent V' s1 a1 x2) * sum (dr A) (fun g => ent Z s a g * Wf s1 a1 y2 g y1)))).
    { assert (EQ : sum d (fun s1 => sum (dl B) (fun a1 => me C' a1 a1 * sconj (ent V' s1 a1 x2) * (sum (dr A) (fun g => ent Z s a g * Wf s1 a1 y2 g y1) * me F y1 y1))) = sum d (fun s1 => sum (dl B) (fun a1 => me C' a1 a1 * sconj (ent V' s1 a1 x2) * sum (dr A) (fun g => ent Z s a g * Wf s1 a1 y2 g y1))) * me F y1 y1).
      { rewrite <- sum_mul_r. apply sum_ext; intros s1 _. rewrite <- sum_mul_r. apply sum_ext; intros a1 _. ring. }
      rewrite EQ. ring. }
    transitivity (me C a a * sconj (ent V s a x1) * (me F y1 y1 * me E0 y1 y1) * me E0' y2 y2 * sum (dr A) (fun g => ent Z s a g * sum d (fun s1 => sum (dl B) (fun a1 => me C' a1 a1 * sconj (ent V' s1 a1 x2) * Wf s1 a1 y2 g y1)))).
    { f_equal. transitivity (sum d (fun s1 => sum (dl B) (fun a1 => sum (dr A) (fun g => ent Z s a g * (me C' a1 a1 * sconj (ent V' s1 a1 x2) * Wf s1 a1 y2 g y1))))).
      - apply sum_ext; intros s1 _. apply sum_ext; intros a1 _. rewrite <- sum_mul_l. apply sum_ext; intros g _. ring.
      - transitivity (sum (dr A) (fun g => sum d (fun s1 => sum (dl B) (fun a1 => ent Z s a g * (me C' a1 a1 * sconj (ent V' s1 a1 x2) * Wf s1 a1 y2 g y1))))).
        + rewrite (sum_swap (dr A) d). apply sum_ext; intros s1 _. apply sum_swap.
        + apply sum_ext; intros g _. rewrite <- sum_mul_l. apply sum_ext; intros s1 _. rewrite <- sum_mul_l. reflexivity. }
    rewrite <- sum_mul_l. apply sum_ext; intros g _. ring.
  - apply sum_ext; intros g Hg. rewrite EW by exact Hg. rewrite (sum_diag (dr A) y1); [|exact Hy1|].
    + set (XF := xfer mid _ g y1). cbn [tvec ent]. rewrite dlt_eq, !conj_mul, conj_1. destruct (RL a Ha) as (G1 & G2 & _ & ->). destruct (RR y1 Hy1) as (G3 & G4 & _ & ->). rewrite <- G2. destruct (HF1 y1 Hy1) as (G5 & _).
      assert (G6 : me F y1 y1 * me E0 y1 y1 = me Ei y1 y1).
      { rewrite <- G4 in G5. transitivity ((me E0 y1 y1 * me E0 y1 y1 * me F y1 y1) * me Ei y1 y1); [|rewrite G5; ring]. transitivity (me E0 y1 y1 * me Ei y1 y1 * (me F y1 y1 * me E0 y1 y1)); [rewrite G3; ring|ring]. }
      rewrite G6. transitivity ((me C a a * me Ci a a) * (me C a a * sconj (ent V s a x1) * ent Z s a g * me Ei y1 y1 * XF)); [rewrite G1; ring|ring].
    + intros h Hh Hne. cbn [tvec ent]. rewrite (dlt_neq y1 h), !conj_mul, conj_0 by auto. ring.
Qed.
End Pair.
End List.
End Whole.
