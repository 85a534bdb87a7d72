(** The networks of christoffel and the overlap of chains with tensors replaced. *)
From Verif Require Import Alg ModelMPS SpecMPS ProofMPS ModelOrth SpecOrth ProofOrth ProofOrth2 ModelNcon SpecNcon ProofNcon ProofNcon3 ProofNcon4 ModelNp ProofNp
  ModelEk SpecEk ProofEk4 ModelEnergy SpecEnergy ProofEnergy ModelTan SpecTan ProofTan ModelTdvp SpecTdvp ProofTdvp ProofTdvp2 ProofTdvp3 ProofTdvp4 ProofTdvp5 ProofTdvp6 ProofTdvp7 ProofTdvp8
  ModelJac SpecJac ProofJac ProofJac2 ModelChrist SpecChrist.
From Coq Require Import Permutation Sorted.

Section Nets.
Context {R : sring}.
Local Open Scope sr_scope.
Add Ring Rr : (s_th R).

Lemma lt_loop5 (P mid : list (site R)) n p q r : forall rest a L, chain a mid n -> tsh L = [n; n; p; q; r] ->
  exists Ls, lt_loop (P ++ mid ++ rest) (rev (seq (length P) (length mid))) L = Ok Ls /\ length Ls = Datatypes.S (length mid) /\
    forall t, (t <= length mid)%nat -> exists W b, nth_error Ls t = Some W /\ chain b (skipn t mid) n /\ tsh W = [b; b; p; q; r] /\
      forall x y u v w, te W [x; y; u; v; w] = xfer (skipn t mid) (fun x y => te L [x; y; u; v; w]) x y.
Proof.
  revert n. induction mid as [|B mid IH] using rev_ind; intros n rest a L Hc SL.
  - exists [L]. split; [reflexivity|]. split; [reflexivity|]. intros t Ht. cbn in Ht. assert (t = 0%nat) by lia. subst t. exists L, n. repeat split; auto.
  - apply chain_app_last in Hc as (c & Hc & HB1 & HB2). rewrite app_length. cbn [length]. rewrite Nat.add_1_r, seq_S, rev_app_distr. cbn [rev app lt_loop].
    unfold getitem. rewrite <- app_assoc. cbn [app]. rewrite nth_error_app2 by lia. replace (length P + length mid - length P)%nat with (length mid) by lia. rewrite nth_error_app2, Nat.sub_diag by lia. cbn [nth_error bind].
    rewrite <- HB2 in SL. destruct (lt_step_ok B L p q r SL) as (W & EW & SW & VW). rewrite EW. cbn [bind].
    rewrite HB1 in SW. destruct (IH c (B :: rest) a W Hc SW) as (Ls & ELs & LLs & HLs). rewrite ELs. cbn [bind]. exists (Ls ++ [L]). split; [reflexivity|]. split; [rewrite app_length; cbn; lia|].
    intros t Ht. destruct (Nat.eq_dec t (Datatypes.S (length mid))) as [->|Hne].
    + exists L, n. split; [rewrite nth_error_app2, LLs, Nat.sub_diag by lia; reflexivity|]. rewrite skipn_all2 by (rewrite app_length; cbn; lia). split; [reflexivity|]. split; [rewrite <- HB2; exact SL|]. intros. reflexivity.
    + destruct (HLs t) as (W' & b & E1 & E2 & E3 & E4); [lia|]. exists W', b. split; [rewrite nth_error_app1 by lia; exact E1|].
      rewrite skipn_app. replace (t - length mid)%nat with 0%nat by lia. cbn [skipn]. split; [apply chain_app; exists c; split; [exact E2|split; [exact HB1|exact HB2]]|]. split; [exact E3|].
      intros x y u v w. rewrite E4, xfer_app. assert (EQ : forall m x y, xfer m (fun x y => te W [x; y; u; v; w]) x y = xfer m (xfer [B] (fun x y => te L [x; y; u; v; w])) x y).
      { clear - VW. induction m as [|D m IHm]; intros x y.
        - cbn [xfer]. rewrite VW. apply sum_ext; intros t _. apply sum_ext; intros k _. rewrite <- sum_mul_l. reflexivity.
        - cbn [xfer]. apply sum_ext; intros s _. apply sum_ext; intros k _. apply sum_ext; intros k' _. rewrite IHm. reflexivity. }
      apply EQ.
Qed.

Variable S : setio.
Hypothesis HS : setio_ok S.

(** the array with nothing closed *)
Lemma cnet_open (pr W : tens R) (F : mat R) d a b d' a' b' : tsh pr = [d; a; d; a] -> tsh W = [b; b; d'; a'; b'] -> mr F = b -> mc F = b ->
  exists T, ncon S [pr; W; tens_mat F; tens_mat F] [[-1; -2; -7; -8]; [1; 2; -4; -5; -6]; [1; -9]; [2; -3]]%Z None None false = Ok T /\
    tsh T = [d; a; b; d'; a'; b'; d; a; b] /\
    forall s0 a0 b0 s1 a1 b1 s2 a2 b2, te T [s0; a0; b0; s1; a1; b1; s2; a2; b2] =
      sum b (fun x => sum b (fun y => te pr [s0; a0; s2; a2] * te W [x; y; s1; a1; b1] * me F x b2 * me F y b0)).
Proof.
  intros SP SW F1 F2.
  destruct (ncon_default_ok S (fun w => match w with (-1)%Z | (-7)%Z => d | (-2)%Z | (-8)%Z => a | (-4)%Z => d' | (-5)%Z => a' | (-6)%Z => b' | _ => b end)
     [pr; W; tens_mat F; tens_mat F] [[-1; -2; -7; -8]; [1; 2; -4; -5; -6]; [1; -9]; [2; -3]]%Z [1; 2]%Z [-1; -2; -3; -4; -5; -6; -7; -8; -9]%Z false HS) as (T & ET & ST & VT).
  { fast_net. }
  { repeat constructor. }
  exists T. split; [exact ET|]. split; [exact ST|]. intros s0 a0 b0 s1 a1 b1 s2 a2 b2. rewrite (VT [s0; a0; b0; s1; a1; b1; s2; a2; b2] eq_refl). cbn [esum].
  apply sum_ext; intros x _. apply sum_ext; intros y _.
  unfold tprod. cbv [assign eupd Z.eqb Pos.eqb]. cbn [combine map fst snd prodl fold_right te tens_mat nth]. ring.
Qed.

(** the array contracted with the last argument *)
Lemma cnet_closed (pr W : tens R) (X : site R) (F : mat R) d a b d' a' b' : tsh pr = [d; a; d; a] -> phys X = d -> dl X = a -> dr X = b -> tsh W = [b; b; d'; a'; b'] -> mr F = b -> mc F = b ->
  exists T, ncon S [pr; tens_site X; W; tens_mat F] [[-1; -2; 1; 2]; [1; 2; 3]; [3; 4; -4; -5; -6]; [4; -3]]%Z (Some [1; 2; 3; 4]%Z) None false = Ok T /\
    tsh T = [d; a; b; d'; a'; b'] /\
    forall s0 a0 b0 s1 a1 b1, te T [s0; a0; b0; s1; a1; b1] =
      sum d (fun u => sum a (fun f => sum b (fun x => sum b (fun y => te pr [s0; a0; u; f] * ent X u f x * te W [x; y; s1; a1; b1] * me F y b0)))).
Proof.
  intros SP X1 X2 X3 SW F1 F2.
  destruct (ncon_default_ok S (fun w => match w with (-1)%Z | 1%Z => d | (-2)%Z | 2%Z => a | (-4)%Z => d' | (-5)%Z => a' | (-6)%Z => b' | _ => b end)
     [pr; tens_site X; W; tens_mat F] [[-1; -2; 1; 2]; [1; 2; 3]; [3; 4; -4; -5; -6]; [4; -3]]%Z [1; 2; 3; 4]%Z [-1; -2; -3; -4; -5; -6]%Z false HS) as (T & ET & ST & VT).
  { fast_net. }
  { repeat constructor. }
  exists T. split; [exact ET|]. split; [exact ST|]. intros s0 a0 b0 s1 a1 b1. rewrite (VT [s0; a0; b0; s1; a1; b1] eq_refl). cbn [esum].
  apply sum_ext; intros u _. apply sum_ext; intros f _. apply sum_ext; intros x _. apply sum_ext; intros y _.
  unfold tprod. cbv [assign eupd Z.eqb Pos.eqb]. cbn [combine map fst snd prodl fold_right te tens_site tens_mat ent nth]. ring.
Qed.

(** the networks of ungauge *)
Lemma cnet_u1 (T : tens R) (E : mat R) d a b d' a' b' : tsh T = [d; a; b; d'; a'; b'] -> mr E = b -> mc E = b ->
  exists Y, ncon S [T; tens_mat E] [[-1; -2; 1; -4; -5; -6]; [1; -3]]%Z None None false = Ok Y /\ tsh Y = [d; a; b; d'; a'; b'] /\
    forall s0 a0 b0 s1 a1 b1, te Y [s0; a0; b0; s1; a1; b1] = sum b (fun y => te T [s0; a0; y; s1; a1; b1] * me E y b0).
Proof.
  intros ST E1 E2.
  destruct (ncon_default_ok S (fun w => match w with (-1)%Z => d | (-2)%Z => a | (-4)%Z => d' | (-5)%Z => a' | (-6)%Z => b' | _ => b end)
     [T; tens_mat E] [[-1; -2; 1; -4; -5; -6]; [1; -3]]%Z [1]%Z [-1; -2; -3; -4; -5; -6]%Z false HS) as (Y & EY & SY & VY).
  { fast_net. }
  { repeat constructor. }
  exists Y. split; [exact EY|]. split; [exact SY|]. intros s0 a0 b0 s1 a1 b1. rewrite (VY [s0; a0; b0; s1; a1; b1] eq_refl). cbn [esum].
  apply sum_ext; intros y _.
  unfold tprod. cbv [assign eupd Z.eqb Pos.eqb]. cbn [combine map fst snd prodl fold_right te tens_mat nth]. ring.
Qed.
Lemma cnet_u2 (X : site R) (Y : tens R) b d' a' b' : tsh Y = [phys X; dl X; b; d'; a'; b'] ->
  exists T, ncon S [tens_site X; Y] [[1; 2; -1]; [1; 2; -2; -3; -4; -5]]%Z None None false = Ok T /\ tsh T = [dr X; b; d'; a'; b'] /\
    forall x b0 s1 a1 b1, te T [x; b0; s1; a1; b1] = sum (phys X) (fun s => sum (dl X) (fun a => ent X s a x * te Y [s; a; b0; s1; a1; b1])).
Proof.
  intros SY.
  destruct (ncon_default_ok S (fun w => match w with 1%Z => phys X | 2%Z => dl X | (-1)%Z => dr X | (-2)%Z => b | (-3)%Z => d' | (-4)%Z => a' | _ => b' end)
     [tens_site X; Y] [[1; 2; -1]; [1; 2; -2; -3; -4; -5]]%Z [1; 2]%Z [-1; -2; -3; -4; -5]%Z false HS) as (T & ET & ST & VT).
  { fast_net. }
  { repeat constructor. }
  exists T. split; [exact ET|]. split; [exact ST|]. intros x b0 s1 a1 b1. rewrite (VT [x; b0; s1; a1; b1] eq_refl). cbn [esum].
  apply sum_ext; intros s _. apply sum_ext; intros a _.
  unfold tprod. cbv [assign eupd Z.eqb Pos.eqb]. cbn [combine map fst snd prodl fold_right te tens_site ent nth]. ring.
Qed.
Lemma cnet_u3 (X : site R) (Y : tens R) g b b' : tsh Y = [g; b; phys X; dl X; b'] ->
  exists T, ncon S [tens_site X; Y] [[1; 2; -3]; [-1; -2; 1; 2; -4]]%Z None None false = Ok T /\ tsh T = [g; b; dr X; b'] /\
    forall x b0 x1 b1, te T [x; b0; x1; b1] = sum (phys X) (fun s => sum (dl X) (fun a => ent X s a x1 * te Y [x; b0; s; a; b1])).
Proof.
  intros SY.
  destruct (ncon_default_ok S (fun w => match w with 1%Z => phys X | 2%Z => dl X | (-3)%Z => dr X | (-1)%Z => g | (-2)%Z => b | _ => b' end)
     [tens_site X; Y] [[1; 2; -3]; [-1; -2; 1; 2; -4]]%Z [1; 2]%Z [-1; -2; -3; -4]%Z false HS) as (T & ET & ST & VT).
  { fast_net. }
  { repeat constructor. }
  exists T. split; [exact ET|]. split; [exact ST|]. intros x b0 x1 b1. rewrite (VT [x; b0; x1; b1] eq_refl). cbn [esum].
  apply sum_ext; intros s _. apply sum_ext; intros a _.
  unfold tprod. cbv [assign eupd Z.eqb Pos.eqb]. cbn [combine map fst snd prodl fold_right te tens_site ent nth]. ring.
Qed.
Lemma con_last (T : tens R) (E : mat R) g b d a b' : tsh T = [g; b; d; a; b'] -> mr E = b' -> mc E = b' ->
  exists Y, con T (tens_mat E) [4]%nat [0]%nat = Ok Y /\ tsh Y = [g; b; d; a; b'] /\
    forall x y s1 a1 b1, te Y [x; y; s1; a1; b1] = sum b' (fun z => te T [x; y; s1; a1; z] * me E z b1).
Proof.
  intros ST E1 E2. unfold con. rewrite ST. cbn -[sum]. rewrite E1, Nat.eqb_refl. cbn -[sum].
  eexists. split; [reflexivity|]. cbn -[sum]. rewrite E2. split; reflexivity.
Qed.

(** the overlap of two chains that differ at two sites, the ket only at the first *)
Lemma overlap_two d (P mid Q : list (site R)) (A B X Y W : site R) : chain 1 P (dl A) -> chain (dr A) mid (dl B) -> chain (dr B) Q 1 ->
  same_shape A X -> same_shape A Y -> same_shape B W -> dims (P ++ A :: mid ++ B :: Q) = repeat d (length (P ++ A :: mid ++ B :: Q)) ->
  diag_on (dl A) (true_l P) -> diag_on (dr B) (true_r Q) ->
  overlap d (P ++ Y :: mid ++ W :: Q) (P ++ X :: mid ++ B :: Q) =
    sum (phys A) (fun s => sum (dl A) (fun a => sum (dr A) (fun g => sum (dr A) (fun h => sconj (ent Y s a h) * true_l P a a * ent X s a g *
      xfer mid (fun x y => sum (phys B) (fun t => sum (dr B) (fun e => ent B t x e * sconj (ent W t y e) * true_r Q e e))) g h)))).
Proof.
  intros CP Cm CQ (X1 & X2 & X3) (Y1 & Y2 & Y3) (W1 & W2 & W3) Hd Dl Dr.
  rewrite (overlap_split d P (Y :: mid ++ W :: Q) P (X :: mid ++ B :: Q) (dl A)); try assumption; try reflexivity.
  - transitivity (sum (dl A) (fun a => sum (phys A) (fun s => sum (dr A) (fun g => sum (dr A) (fun h => sconj (ent Y s a h) * true_l P a a * ent X s a g *
      xfer mid (fun x y => sum (phys B) (fun t => sum (dr B) (fun e => ent B t x e * sconj (ent W t y e) * true_r Q e e))) g h))))); [|apply sum_swap].
    apply sum_ext; intros a Ha. rewrite (sum_diag (dl A) a); [|exact Ha|]. 2: { intros z Hz Hne. rewrite ovl_l_same, (Dl a z) by auto. ring. }
    rewrite ovl_l_same, ovl_r_cons, Y1, X3, Y3, <- sum_mul_l. apply sum_ext; intros s _. rewrite <- sum_mul_l. apply sum_ext; intros g Hg. rewrite <- sum_mul_l. apply sum_ext; intros h Hh.
    rewrite ovl_r_app.
    rewrite (xfer_ext mid (ovl_r (W :: Q) (B :: Q)) (fun x y => sum (phys B) (fun t => sum (dr B) (fun e => ent B t x e * sconj (ent W t y e) * true_r Q e e))) (dr A) (dl B) Cm); [ring| |exact Hg|exact Hh].
    intros x y _ _. rewrite ovl_r_cons, W1, W3. apply sum_ext; intros t _. apply sum_ext; intros e He.
    rewrite (sum_diag (dr B) e); [rewrite ovl_r_same; ring|exact He|]. intros z Hz Hne. rewrite ovl_r_same, (Dr e z) by auto. ring.
  - split; [exact Y2|]. rewrite Y3. apply chain_app. exists (dl B). split; [exact Cm|]. split; [exact W2|]. rewrite W3. exact CQ.
  - split; [exact X2|]. rewrite X3. apply chain_app. exists (dl B). split; [exact Cm|]. split; [reflexivity|exact CQ].
  - cbn [length]. rewrite !app_length. reflexivity.
  - assert (HL : like (P ++ A :: mid ++ B :: Q) (P ++ Y :: mid ++ W :: Q)).
    { apply like_app; [apply like_refl|]. constructor; [repeat split; assumption|]. apply like_app; [apply like_refl|]. constructor; [repeat split; assumption|apply like_refl]. }
    rewrite (like_dims _ _ HL), (like_len _ _ HL). exact Hd.
Qed.
End Nets.
