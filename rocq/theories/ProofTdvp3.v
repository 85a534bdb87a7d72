(** The networks of dA_dt. *)
From Verif Require Import Alg ModelMPS SpecMPS ProofMPS ModelOrth SpecOrth ProofOrth ProofOrth2 ModelNcon SpecNcon ProofNcon ProofNcon3 ProofNcon4
  ModelEk SpecEk ProofEk4 ModelNp ModelEnergy SpecEnergy ProofEnergy ModelTan SpecTan ProofTan ModelTdvp SpecTdvp ProofTdvp ProofTdvp2.
From Coq Require Import Permutation Sorted.

(** small networks, checked by computation *)
Fixpoint nodup_z (l : list Z) : bool := match l with [] => true | x :: l => negb (existsb (Z.eqb x) l) && nodup_z l end.
Lemma nodup_z_ok l : nodup_z l = true -> NoDup l.
Proof.
  induction l as [|x l IH]; cbn [nodup_z]; [constructor|]. rewrite Bool.andb_true_iff, Bool.negb_true_iff. intros [H1 H2]. constructor; [|auto].
  intros Hx. assert (E : existsb (Z.eqb x) l = true) by (apply existsb_exists; exists x; split; [exact Hx|apply Z.eqb_refl]). congruence.
Qed.
Definition net_b (v : list (list Z)) (order forder : list Z) : bool :=
  negb (match v with [] => true | _ => false end) && nodup_z order && nodup_z forder &&
  forallb (fun l => Z.ltb 0 l && Nat.eqb (count_occ Z.eq_dec (concat v) l) 2) order &&
  forallb (fun l => Z.ltb l 0 && Nat.eqb (count_occ Z.eq_dec (concat v) l) 1) forder &&
  forallb (fun l => existsb (Z.eqb l) order || existsb (Z.eqb l) forder) (concat v).
Lemma net_ok {R : sring} ld (AA : list (tens R)) v order forder : net_b v order forder = true ->
  Forall2 (fun A w => tsh A = map ld w) AA v -> well_formed ld AA v order forder.
Proof.
  unfold net_b. rewrite !Bool.andb_true_iff, !forallb_forall. intros (((((H1 & H2) & H3) & H4) & H5) & H6) HF.
  split; [destruct v; [discriminate|congruence]|]. split; [exact HF|].
  split; [apply nodup_z_ok, H2|]. split; [apply nodup_z_ok, H3|].
  split; [|split].
  - intros l Hl. apply H4 in Hl. apply Bool.andb_true_iff in Hl as [G1 G2]. apply Z.ltb_lt in G1. apply Nat.eqb_eq in G2. auto.
  - intros l Hl. apply H5 in Hl. apply Bool.andb_true_iff in Hl as [G1 G2]. apply Z.ltb_lt in G1. apply Nat.eqb_eq in G2. auto.
  - intros l Hl. apply H6 in Hl. apply Bool.orb_true_iff in Hl as [Hl|Hl]; apply existsb_exists in Hl as (x & Hx & E); apply Z.eqb_eq in E; subst x; auto.
Qed.
Ltac fast_net := apply net_ok; [vm_compute; reflexivity|repeat first [apply Forall2_nil | apply Forall2_cons]; cbn [map tsh tens_site tens_mat]; congruence].

Section Nets.
Context {R : sring}.
Local Open Scope sr_scope.
Add Ring Rr : (s_th R).
Variable S : setio.
Hypothesis HS : setio_ok S.

Lemma net_C d (h : mat R) A B T : reshape_op d 2 h = Ok T -> mr h = (d * d)%nat -> mc h = (d * d)%nat -> phys A = d -> phys B = d -> dl B = dr A ->
  exists C, ncon S [T; tens_site A; tens_site B] [[-1; -2; 1; 2]; [1; -3; 3]; [2; 3; -4]]%Z None None false = Ok C /\ tsh C = [d; d; dl A; dr B] /\
    forall s t x y, (s < d)%nat -> (t < d)%nat -> te C [s; t; x; y] = hAA d h A B s t x y.
Proof.
  intros ET Hr Hc PA PB HAB. destruct (reshape_op_ok d 2 h) as (T' & ET' & ST & VT); [cbn; lia|cbn; lia|]. cbn in ST.
  assert (E : T' = T) by (rewrite ET in ET'; inversion ET'; reflexivity). subst T'. clear ET ET' Hr Hc.
  destruct (ncon_default_ok S (fun z => match z with (-3)%Z => dl A | 3%Z => dr A | (-4)%Z => dr B | _ => d end)
     [T; tens_site A; tens_site B] [[-1; -2; 1; 2]; [1; -3; 3]; [2; 3; -4]]%Z [1; 2; 3]%Z [-1; -2; -3; -4]%Z false HS) as (C & EC & SC & VC).
  { fast_net. }
  { repeat constructor. }
  cbn [map] in SC. exists C. split; [exact EC|]. split; [exact SC|]. intros s t x y Hs Ht.
  rewrite (VC [s; t; x; y] eq_refl). cbn [esum]. unfold hAA. apply sum_ext; intros s' Hs'. apply sum_ext; intros t' Ht'. apply sum_ext; intros k' Hk'.
  unfold tprod. cbv [assign eupd Z.eqb Pos.eqb]. cbn [combine map fst snd prodl fold_right te tens_site ent nth].
  change [s; t; s'; t'] with ([s; t] ++ [s'; t']). rewrite VT; [ring| |]; repeat first [apply Forall2_nil | apply Forall2_cons]; assumption.
Qed.

Lemma net_M d (X Y : site R) C : phys X = d -> phys Y = d -> dl Y = dr X -> tsh C = [d; d; dl X; dr Y] ->
  exists M, ncon S [tens_site X; tens_site Y; C] [[1; 3; 4]; [2; 4; -2]; [1; 2; 3; -1]]%Z None None false = Ok M /\ tsh M = [dr Y; dr Y] /\
    forall y' y, te M [y'; y] = sum d (fun s => sum d (fun t => sum (dl X) (fun x => sum (dr X) (fun k => ent X s x k * ent Y t k y * te C [s; t; x; y'])))).
Proof.
  intros PX PY HXY SC.
  destruct (ncon_default_ok S (fun z => match z with 1%Z | 2%Z => d | 3%Z => dl X | 4%Z => dr X | _ => dr Y end)
     [tens_site X; tens_site Y; C] [[1; 3; 4]; [2; 4; -2]; [1; 2; 3; -1]]%Z [1; 2; 3; 4]%Z [-1; -2]%Z false HS) as (M & EM & SM & VM).
  { fast_net. }
  { repeat constructor. }
  exists M. split; [exact EM|]. split; [exact SM|]. intros y' y. rewrite (VM [y'; y] eq_refl). cbn [esum].
  apply sum_ext; intros s _. apply sum_ext; intros t _. apply sum_ext; intros x _. apply sum_ext; intros k _.
  unfold tprod. cbv [assign eupd Z.eqb Pos.eqb]. cbn [combine map fst snd prodl fold_right te tens_site ent nth]. ring.
Qed.

Lemma net_here d (Y pr : tens R) (Z : site R) a y b : tsh Y = [d; d; a; y] -> tsh pr = [d; a; d; a] -> phys Z = d -> dl Z = b -> dr Z = y ->
  exists T, ncon S [Y; pr; tens_site Z] [[3; 4; 1; 2]; [-1; -2; 3; 1]; [4; -3; 2]]%Z None None false = Ok T /\ tsh T = [d; a; b] /\
    forall s0 a0 b0, te T [s0; a0; b0] = sum a (fun c => sum y (fun z => sum d (fun s => sum d (fun t => te Y [s; t; c; z] * te pr [s0; a0; s; c] * ent Z t b0 z)))).
Proof.
  intros SY SP PZ LZ RZ.
  destruct (ncon_default_ok S (fun w => match w with 1%Z | (-2)%Z => a | 2%Z => y | (-3)%Z => b | _ => d end)
     [Y; pr; tens_site Z] [[3; 4; 1; 2]; [-1; -2; 3; 1]; [4; -3; 2]]%Z [1; 2; 3; 4]%Z [-1; -2; -3]%Z false HS) as (T & ET & ST & VT).
  { fast_net. }
  { repeat constructor. }
  exists T. split; [exact ET|]. split; [exact ST|]. intros s0 a0 b0. rewrite (VT [s0; a0; b0] eq_refl). cbn [esum].
  apply sum_ext; intros c _. apply sum_ext; intros z _. apply sum_ext; intros s _. apply sum_ext; intros t _.
  unfold tprod. cbv [assign eupd Z.eqb Pos.eqb]. cbn [combine map fst snd prodl fold_right te tens_site ent nth]. ring.
Qed.

Lemma net_left d (X : site R) (pr C : tens R) a b : phys X = d -> tsh pr = [d; dr X; d; dr X] -> tsh C = [d; d; dl X; b] -> dl X = a ->
  exists T, ncon S [tens_site X; pr; C] [[1; 3; 4]; [-1; -2; 2; 4]; [1; 2; 3; -3]]%Z None None false = Ok T /\ tsh T = [d; dr X; b] /\
    forall s0 a0 b0, te T [s0; a0; b0] = sum d (fun s => sum d (fun t => sum a (fun x => sum (dr X) (fun k => ent X s x k * te pr [s0; a0; t; k] * te C [s; t; x; b0])))).
Proof.
  intros PX SP SC LX.
  destruct (ncon_default_ok S (fun w => match w with 3%Z => a | 4%Z | (-2)%Z => dr X | (-3)%Z => b | _ => d end)
     [tens_site X; pr; C] [[1; 3; 4]; [-1; -2; 2; 4]; [1; 2; 3; -3]]%Z [1; 2; 3; 4]%Z [-1; -2; -3]%Z false HS) as (T & ET & ST & VT).
  { fast_net. }
  { repeat constructor. }
  exists T. split; [exact ET|]. split; [exact ST|]. intros s0 a0 b0. rewrite (VT [s0; a0; b0] eq_refl). cbn [esum].
  apply sum_ext; intros s _. apply sum_ext; intros t _. apply sum_ext; intros x _. apply sum_ext; intros k _.
  unfold tprod. cbv [assign eupd Z.eqb Pos.eqb]. cbn [combine map fst snd prodl fold_right te tens_site ent nth]. ring.
Qed.

Lemma net_far (M W : tens R) n d a b : tsh M = [n; n] -> tsh W = [n; n; d; a; b] ->
  exists T, ncon S [M; W] [[1; 2]; [1; 2; -1; -2; -3]]%Z None None false = Ok T /\ tsh T = [d; a; b] /\
    forall s0 a0 b0, te T [s0; a0; b0] = sum n (fun y' => sum n (fun y => te M [y'; y] * te W [y'; y; s0; a0; b0])).
Proof.
  intros SM SW.
  destruct (ncon_default_ok S (fun w => match w with (-1)%Z => d | (-2)%Z => a | (-3)%Z => b | _ => n end)
     [M; W] [[1; 2]; [1; 2; -1; -2; -3]]%Z [1; 2]%Z [-1; -2; -3]%Z false HS) as (T & ET & ST & VT).
  { fast_net. }
  { repeat constructor. }
  exists T. split; [exact ET|]. split; [exact ST|]. intros s0 a0 b0. rewrite (VT [s0; a0; b0] eq_refl). cbn [esum].
  apply sum_ext; intros y' _. apply sum_ext; intros y _.
  unfold tprod. cbv [assign eupd Z.eqb Pos.eqb]. cbn [combine map fst snd prodl fold_right te tens_site ent nth]. ring.
Qed.

Lemma net_R (pr : tens R) (A : site R) : tsh pr = [phys A; dl A; phys A; dl A] ->
  exists T, ncon S [pr; tens_site A] [[-3; -4; 1; -2]; [1; -1; -5]]%Z None None false = Ok T /\ tsh T = [dl A; dl A; phys A; dl A; dr A] /\
    forall x y s0 a0 b0, te T [x; y; s0; a0; b0] = sum (phys A) (fun t => te pr [s0; a0; t; y] * ent A t x b0).
Proof.
  intros SP.
  destruct (ncon_default_ok S (fun w => match w with 1%Z | (-3)%Z => phys A | (-5)%Z => dr A | _ => dl A end)
     [pr; tens_site A] [[-3; -4; 1; -2]; [1; -1; -5]]%Z [1]%Z [-1; -2; -3; -4; -5]%Z false HS) as (T & ET & ST & VT).
  { fast_net. }
  { repeat constructor. }
  exists T. split; [exact ET|]. split; [exact ST|]. intros x y s0 a0 b0. rewrite (VT [x; y; s0; a0; b0] eq_refl). cbn [esum].
  apply sum_ext; intros t _.
  unfold tprod. cbv [assign eupd Z.eqb Pos.eqb]. cbn [combine map fst snd prodl fold_right te tens_site ent nth]. ring.
Qed.

Lemma lt_step_ok (A : site R) (L : tens R) d a b : tsh L = [dr A; dr A; d; a; b] ->
  exists W, lt_step A L = Ok W /\ tsh W = [dl A; dl A; d; a; b] /\
    forall x y s0 a0 b0, te W [x; y; s0; a0; b0] = sum (phys A) (fun t => sum (dr A) (fun k => ent A t x k * sum (dr A) (fun k' => sconj (ent A t y k') * te L [k; k'; s0; a0; b0]))).
Proof.
  intros SL. unfold lt_step, con. rewrite SL. cbn -[sum]. rewrite !Nat.eqb_refl. cbn -[sum]. rewrite !Nat.eqb_refl. cbn -[sum].
  eexists. split; [reflexivity|]. cbn -[sum]. split; [reflexivity|]. intros x y s0 a0 b0. reflexivity.
Qed.
End Nets.
