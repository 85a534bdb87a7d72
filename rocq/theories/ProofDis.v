(** The second Renyi entropy of peps_tools. *)
From Coq Require Import ZArith Sorted.
From Verif Require Import Alg ModelMPS ModelNcon SpecNcon ProofNcon ProofNcon3 ProofNcon4 ModelEk ModelTensor ModelDis SpecDis.

Section Proofs.
Context {R : sring}.
Local Open Scope sr_scope.
Add Ring Rr : (s_th R).

Definition ldis (d1 d2 Xl Xr : nat) (z : Z) : nat :=
  match z with 1 | 4 => Xl | 2 | 6 => Xr | 3 | 7 | -1 | -3 => d1 | 5 | 8 | -2 | -4 => d2 | _ => 0%nat end%Z.

Lemma con_gate d1 d2 Xl Xr (U th : tens R) : tsh U = [d1; d2; d1; d2] -> tsh th = [d1; d2; Xl; Xr] ->
  exists V, con U th [2; 3]%nat [0; 1]%nat = Ok V /\ tsh V = [d1; d2; Xl; Xr] /\
    forall a b l r, te V [a; b; l; r] = gated d1 d2 U th a b l r.
Proof.
  intros HU Ht. unfold con. rewrite HU, Ht. cbn [mapM getitem nth_error bind]. unfold nlist_eqb. cbn. rewrite !Nat.eqb_refl. cbn.
  eexists. split; [reflexivity|]. split; [reflexivity|]. intros a b l r. cbn. reflexivity.
Qed.

Ltac mem := cbn; intuition (try discriminate; try lia; subst; auto).

Lemma E2_ok (S : setio) d1 d2 Xl Xr (U th : tens R) : setio_ok S -> tsh U = [d1; d2; d1; d2] -> tsh th = [d1; d2; Xl; Xr] ->
  exists E, E2 S U th = Ok E /\ tsh E = [d1; d2; d1; d2] /\
    let V := gated d1 d2 U th in
    forall x y p q, te E [x; y; p; q] = sum d1 (fun a => sum d2 (fun b => sconj (te U [a; b; x; y]) *
      sum Xl (fun l => sum d1 (fun a' => sum Xl (fun l' => sum Xr (fun r => sum d2 (fun b' => sum Xr (fun r' =>
        V a b l r * sconj (V a' q l' r) * (V a' b' l' r' * sconj (V p b' l r')))))))))).
Proof.
  intros HS HU Ht. destruct (con_gate d1 d2 Xl Xr U th HU Ht) as (V & EV & SV & VV).
  unfold E2. rewrite EV. cbn [bind].
  destruct (ncon_default_ok S (ldis d1 d2 Xl Xr) [tC U; V; tC V; V; tC V]
    [[7; 8; -1; -2]; [7; 8; 1; 2]; [3; -4; 4; 2]; [3; 5; 4; 6]; [-3; 5; 1; 6]]%Z [7; 8; 1; 3; 4; 2; 5; 6]%Z [-1; -2; -3; -4]%Z false HS) as (T & ET & ST & VT).
  - split; [discriminate|]. split; [|split; [|split; [|split; [|split]]]].
    + repeat constructor; cbn [tC tsh map ldis]; (exact HU || exact SV).
    + repeat constructor; cbn; intuition discriminate.
    + repeat constructor; cbn; intuition discriminate.
    + intros l Hl. cbn [In] in Hl. repeat (destruct Hl as [<-|Hl]; [split; reflexivity|]). destruct Hl.
    + intros l Hl. cbn [In] in Hl. repeat (destruct Hl as [<-|Hl]; [split; reflexivity|]). destruct Hl.
    + intros l Hl. cbn [concat app In] in Hl. repeat (destruct Hl as [<-|Hl]; [cbn; tauto|]). destruct Hl.
  - repeat constructor.
  - exists T. split; [exact ET|]. split; [exact ST|]. intros x y p q. rewrite VT by reflexivity.
    cbn [esum ldis]. apply (sum_ext d1); intros a _. apply (sum_ext d2); intros b _.
    rewrite <- sum_mul_l. apply sum_ext; intros l _. rewrite <- sum_mul_l. apply sum_ext; intros a' _. rewrite <- sum_mul_l. apply sum_ext; intros l' _.
    rewrite <- sum_mul_l. apply sum_ext; intros r _. rewrite <- sum_mul_l. apply sum_ext; intros b' _. rewrite <- sum_mul_l. apply sum_ext; intros r' _.
    unfold tprod. cbn -[te]. change (te (tC U) [a; b; x; y]) with (sconj (te U [a; b; x; y])). change (te (tC V) [a'; q; l'; r]) with (sconj (te V [a'; q; l'; r])). change (te (tC V) [p; b'; l; r']) with (sconj (te V [p; b'; l; r'])). rewrite !VV. ring.
Qed.

Lemma trace_mat d1 d2 (X : tens R) : tsh X = [d1; d2; d1; d2] -> exists M, reshape_square (d1 * d2) X = Ok M /\ mr M = (d1 * d2)%nat /\ mc M = (d1 * d2)%nat /\
  sum (mr M) (fun k => me M k k) = sum d1 (fun p => sum d2 (fun q => te X [p; q; p; q])).
Proof.
  intros H. unfold reshape_square. rewrite H. cbn [fold_right].
  replace (Nat.eqb (d1 * (d2 * (d1 * (d2 * 1)))) (d1 * d2 * (d1 * d2))) with true by (symmetry; apply Nat.eqb_eq; lia).
  eexists. split; [reflexivity|]. split; [reflexivity|]. split; [reflexivity|]. cbn [mr me]. rewrite sum_mul.
  apply sum_ext; intros p Hp. apply sum_ext; intros q Hq. f_equal.
  assert (Hn : (p * d2 + q < d1 * d2)%nat) by nia. cbn [unravel fold_right]. rewrite !Nat.mul_1_r, !Nat.div_1_r.
  assert (A1 : ((p * d2 + q) * (d1 * d2) + (p * d2 + q) = p * (d2 * (d1 * d2)) + (q * (d1 * d2) + (p * d2 + q)))%nat) by ring.
  rewrite A1. assert (B1 : (q * (d1 * d2) + (p * d2 + q) < d2 * (d1 * d2))%nat) by nia.
  assert (Hd : forall u b r, (r < b -> (u * b + r) / b = u /\ (u * b + r) mod b = r)%nat).
  { intros u b r Hr. split; [rewrite Nat.div_add_l by lia; rewrite Nat.div_small by lia; lia|]. rewrite Nat.add_comm, Nat.mod_add by lia. apply Nat.mod_small; lia. }
  destruct (Hd p _ _ B1) as [-> ->]. destruct (Hd q _ _ Hn) as [-> ->]. destruct (Hd p _ _ Hq) as [-> ->]. reflexivity.
Qed.

Lemma prod_ok (S : setio) d1 d2 (U E : tens R) : setio_ok S -> tsh U = [d1; d2; d1; d2] -> tsh E = [d1; d2; d1; d2] ->
  exists X, ncon S [U; E] [[-1; -2; 1; 2]; [1; 2; -3; -4]]%Z None None false = Ok X /\ tsh X = [d1; d2; d1; d2] /\
  forall p q p' q', te X [p; q; p'; q'] = sum d1 (fun x => sum d2 (fun y => te U [p; q; x; y] * te E [x; y; p'; q'])).
Proof.
  intros HS HU HE.
  destruct (ncon_default_ok S (fun z => match z with 1 | -1 | -3 => d1 | 2 | -2 | -4 => d2 | _ => 0%nat end%Z) [U; E]
    [[-1; -2; 1; 2]; [1; 2; -3; -4]]%Z [1; 2]%Z [-1; -2; -3; -4]%Z false HS) as (T & ET & ST & VT).
  - split; [discriminate|]. split; [|split; [|split; [|split; [|split]]]].
    + repeat constructor; cbn [map]; assumption.
    + repeat constructor; cbn; intuition discriminate.
    + repeat constructor; cbn; intuition discriminate.
    + intros l Hl. cbn [In] in Hl. repeat (destruct Hl as [<-|Hl]; [split; reflexivity|]). destruct Hl.
    + intros l Hl. cbn [In] in Hl. repeat (destruct Hl as [<-|Hl]; [split; reflexivity|]). destruct Hl.
    + intros l Hl. cbn [concat app In] in Hl. repeat (destruct Hl as [<-|Hl]; [cbn; tauto|]). destruct Hl.
  - repeat constructor.
  - exists T. split; [exact ET|]. split; [exact ST|]. intros p q p' q'. rewrite VT by reflexivity. cbn [esum].
    apply sum_ext; intros x _. apply sum_ext; intros y _. unfold tprod. cbn -[te]. ring.
Qed.

Lemma sum_prod n m (f g : nat -> R) : sum n f * sum m g = sum n (fun i => sum m (fun j => f i * g j)).
Proof. rewrite <- sum_mul_r. apply sum_ext; intros i _. now rewrite <- sum_mul_l. Qed.

(** The argument of the logarithm for any U: a sum over the entries of U U^dagger. *)
Lemma renyi_arg_gen (S : setio) d1 d2 Xl Xr (U th : tens R) : setio_ok S -> tsh U = [d1; d2; d1; d2] -> tsh th = [d1; d2; Xl; Xr] ->
  let V := gated d1 d2 U th in
  renyi_arg S U th = Ok (sum d1 (fun p => sum d2 (fun q => sum d1 (fun a => sum d2 (fun b =>
    sum d1 (fun x => sum d2 (fun y => te U [p; q; x; y] * sconj (te U [a; b; x; y]))) *
    sum Xl (fun l => sum d1 (fun a' => sum Xl (fun l' => sum Xr (fun r => sum d2 (fun b' => sum Xr (fun r' =>
        V a b l r * sconj (V a' q l' r) * (V a' b' l' r' * sconj (V p b' l r'))))))))))))).
Proof.
  intros HS HU Ht V. unfold renyi_arg. rewrite Ht.
  destruct (E2_ok S d1 d2 Xl Xr U th HS HU Ht) as (E & -> & SE & VE). cbn [bind].
  destruct (prod_ok S d1 d2 U E HS HU SE) as (X & -> & SX & VX). cbn [bind].
  destruct (trace_mat d1 d2 X SX) as (M & -> & _ & _ & HM). cbn [bind]. f_equal. rewrite HM.
  apply sum_ext; intros p _. apply sum_ext; intros q _. rewrite VX.
  etransitivity. { apply sum_ext; intros x _. apply sum_ext; intros y _. rewrite VE. rewrite <- sum_mul_l. apply sum_ext; intros a _. rewrite <- sum_mul_l. apply sum_ext; intros b _. rewrite (s_th R).(Rmul_assoc). reflexivity. }
  etransitivity. { apply sum_ext; intros x _. rewrite sum_swap. apply sum_ext; intros a _. rewrite sum_swap. reflexivity. }
  rewrite sum_swap. apply sum_ext; intros a _. rewrite sum_swap. apply sum_ext; intros b _.
  rewrite <- sum_mul_r. apply sum_ext; intros x _. rewrite <- sum_mul_r. apply sum_ext; intros y _. reflexivity.
Qed.

Lemma renyi_arg_ok (S : setio) d1 d2 Xl Xr (U th : tens R) : setio_ok S -> tsh U = [d1; d2; d1; d2] -> tsh th = [d1; d2; Xl; Xr] ->
  unitary4 d1 d2 U -> renyi_arg S U th = Ok (purity_left d1 d2 Xl Xr (gated d1 d2 U th)).
Proof.
  intros HS HU Ht HN. rewrite (renyi_arg_gen S d1 d2 Xl Xr U th HS HU Ht). f_equal. set (V := gated d1 d2 U th).
  etransitivity.
  { apply sum_ext; intros p Hp. apply sum_ext; intros q Hq.
    etransitivity.
    { apply sum_ext; intros a Ha. apply sum_ext; intros b Hb. rewrite (HN p q a b Hp Hq Ha Hb). rewrite <- (s_th R).(Rmul_assoc). reflexivity. }
    etransitivity. { apply sum_ext; intros a Ha. rewrite sum_mul_l. rewrite (sum_dlt_l d2 q (fun b => _) Hq). reflexivity. }
    rewrite (sum_dlt_l d1 p (fun a => _) Hp). reflexivity. }
  unfold purity_left. apply sum_ext; intros p _. rewrite sum_swap. apply sum_ext; intros l _. rewrite sum_swap. apply sum_ext; intros a' _. rewrite sum_swap. apply sum_ext; intros l' _.
  unfold rho_left. rewrite sum_prod. apply sum_ext; intros q _. rewrite sum_swap. apply sum_ext; intros b' _. now rewrite sum_prod.
Qed.

(** Both halves have the same purity. *)
Lemma purity_sym d1 d2 Xl Xr (f : nat -> nat -> nat -> nat -> R) : purity_left d1 d2 Xl Xr f = purity_right d1 d2 Xl Xr f.
Proof.
  unfold purity_left, purity_right, rho_left, rho_right.
  etransitivity.
  { apply sum_ext; intros a _. apply sum_ext; intros l _. apply sum_ext; intros a' _. apply sum_ext; intros l' _. rewrite sum_prod.
    apply sum_ext; intros b _. apply sum_ext; intros b' _. rewrite sum_prod. reflexivity. }
  symmetry. etransitivity.
  { apply sum_ext; intros b _. apply sum_ext; intros r _. apply sum_ext; intros b' _. apply sum_ext; intros r' _. rewrite sum_prod.
    apply sum_ext; intros a _. apply sum_ext; intros a' _. rewrite sum_prod. reflexivity. }
  symmetry.
  assert (G : forall (k : nat -> nat -> nat -> nat -> nat -> nat -> nat -> nat -> R),
    sum d1 (fun a => sum Xl (fun l => sum d1 (fun a' => sum Xl (fun l' => sum d2 (fun b => sum d2 (fun b' => sum Xr (fun r => sum Xr (fun r' => k a l a' l' b b' r r')))))))) =
    sum d2 (fun b => sum Xr (fun r => sum d2 (fun b' => sum Xr (fun r' => sum d1 (fun a => sum d1 (fun a' => sum Xl (fun l => sum Xl (fun l' => k a l a' l' b b' r r'))))))))).
  { intros k.
    transitivity (sum d1 (fun a => sum d1 (fun a' => sum Xl (fun l => sum Xl (fun l' => sum d2 (fun b => sum Xr (fun r => sum d2 (fun b' => sum Xr (fun r' => k a l a' l' b b' r r'))))))))).
    - apply sum_ext; intros a _. rewrite sum_swap. apply sum_ext; intros a' _. apply sum_ext; intros l _. apply sum_ext; intros l' _. apply sum_ext; intros b _. rewrite sum_swap. reflexivity.
    - set (K := fun a a' l l' => fun b r b' r' => k a l a' l' b b' r r').
      change (sum d1 (fun a => sum d1 (fun a' => sum Xl (fun l => sum Xl (fun l' => sum d2 (fun b => sum Xr (fun r => sum d2 (fun b' => sum Xr (fun r' => K a a' l l' b r b' r')))))))) =
        sum d2 (fun b => sum Xr (fun r => sum d2 (fun b' => sum Xr (fun r' => sum d1 (fun a => sum d1 (fun a' => sum Xl (fun l => sum Xl (fun l' => K a a' l l' b r b' r'))))))))).
      generalize K. clear k K. intros K.
      assert (P : forall n (H : nat -> nat -> nat -> nat -> nat -> R), sum n (fun i => sum d2 (fun b => sum Xr (fun r => sum d2 (fun b' => sum Xr (fun r' => H i b r b' r'))))) =
        sum d2 (fun b => sum Xr (fun r => sum d2 (fun b' => sum Xr (fun r' => sum n (fun i => H i b r b' r')))))).
      { intros n H. rewrite sum_swap. apply sum_ext; intros b _. rewrite sum_swap. apply sum_ext; intros r _. rewrite sum_swap. apply sum_ext; intros b' _. rewrite sum_swap. reflexivity. }
      etransitivity. { apply sum_ext; intros a _. apply sum_ext; intros a' _. apply sum_ext; intros l _. apply P. }
      etransitivity. { apply sum_ext; intros a _. apply sum_ext; intros a' _. apply P. }
      etransitivity. { apply sum_ext; intros a _. apply P. }
      apply P. }
  rewrite <- G. apply sum_ext; intros a _. apply sum_ext; intros l _. apply sum_ext; intros a' _. apply sum_ext; intros l' _. apply sum_ext; intros b _. apply sum_ext; intros b' _.
  apply sum_ext; intros r _. apply sum_ext; intros r' _. ring.
Qed.

(** An isometry on the second physical index does not change the density matrix of the left half. *)
Lemma rho_left_iso d2 Xr (v : nat -> nat -> R) f a l a' l' : iso_cols d2 v ->
  rho_left d2 Xr (fun a b l r => sum d2 (fun b' => v b b' * f a b' l r)) a l a' l' = rho_left d2 Xr f a l a' l'.
Proof.
  intros Hv. unfold rho_left. rewrite sum_swap. symmetry. rewrite sum_swap. apply sum_ext; intros r _. symmetry.
  etransitivity. { apply sum_ext; intros b _. rewrite sum_conj, sum_prod. reflexivity. }
  rewrite sum_swap. apply sum_ext; intros i Hi. rewrite sum_swap.
  etransitivity. { apply sum_ext; intros j Hj. etransitivity.
    { apply sum_ext; intros b _. rewrite conj_mul. instantiate (1 := fun b => (sconj (v b j) * v b i) * (f a i l r * sconj (f a' j l' r))). cbn beta. ring. }
    rewrite sum_mul_r, (Hv j i Hj Hi). reflexivity. }
  etransitivity; [|exact (sum_dlt_l d2 i (fun j => f a i l r * sconj (f a' j l' r)) Hi)].
  apply sum_ext; intros j _. destruct (Nat.eq_dec i j) as [->|N]; [reflexivity|]. rewrite !dlt_neq by congruence. ring.
Qed.
Lemma rho_right_iso d1 Xl (u : nat -> nat -> R) f b r b' r' : iso_cols d1 u ->
  rho_right d1 Xl (fun a b l r => sum d1 (fun a' => u a a' * f a' b l r)) b r b' r' = rho_right d1 Xl f b r b' r'.
Proof. intros H. exact (rho_left_iso d1 Xl u (fun b a r l => f a b l r) b r b' r' H). Qed.

Lemma purity_local d1 d2 Xl Xr (u v : nat -> nat -> R) f : iso_cols d1 u -> iso_cols d2 v ->
  purity_left d1 d2 Xl Xr (local2 d1 d2 u v f) = purity_left d1 d2 Xl Xr f.
Proof.
  intros Hu Hv.
  transitivity (purity_left d1 d2 Xl Xr (fun a b l r => sum d1 (fun a' => u a a' * f a' b l r))).
  - assert (E : forall a b l r, local2 d1 d2 u v f a b l r = sum d2 (fun b' => v b b' * sum d1 (fun a' => u a a' * f a' b' l r))).
    { intros a b l r. unfold local2. rewrite sum_swap. apply sum_ext; intros b' _. rewrite <- sum_mul_l. apply sum_ext; intros a' _. ring. }
    unfold purity_left. apply sum_ext; intros a _. apply sum_ext; intros l _. apply sum_ext; intros a' _. apply sum_ext; intros l' _.
    assert (H : forall a l a' l', rho_left d2 Xr (local2 d1 d2 u v f) a l a' l' = rho_left d2 Xr (fun a b l r => sum d1 (fun a' => u a a' * f a' b l r)) a l a' l').
    { intros. etransitivity; [|apply (rho_left_iso d2 Xr v _ _ _ _ _ Hv)]. unfold rho_left. apply sum_ext; intros b _. apply sum_ext; intros r _. now rewrite !E. }
    now rewrite !H.
  - rewrite !purity_sym. unfold purity_right. apply sum_ext; intros b _. apply sum_ext; intros r _. apply sum_ext; intros b' _. apply sum_ext; intros r' _.
    now rewrite !rho_right_iso by exact Hu.
Qed.

(** Product wave functions. *)
Lemma purity_product d1 d2 Xl Xr (g h : nat -> nat -> R) :
  let n := sum d1 (fun a => sum Xl (fun l => g a l * sconj (g a l))) in
  let k := sum d2 (fun b => sum Xr (fun r => h b r * sconj (h b r))) in
  purity_left d1 d2 Xl Xr (fun a b l r => g a l * h b r) = (n * k) * (n * k).
Proof.
  intros n k. unfold purity_left.
  assert (E : forall a l a' l', rho_left d2 Xr (fun a b l r => g a l * h b r) a l a' l' = g a l * sconj (g a' l') * k).
  { intros. unfold rho_left, k. rewrite <- sum_mul_l. apply sum_ext; intros b _. rewrite <- sum_mul_l. apply sum_ext; intros r _. rewrite conj_mul. ring. }
  transitivity (sum d1 (fun a => sum Xl (fun l => g a l * sconj (g a l) * (k * (n * k))))).
  - apply sum_ext; intros a _. apply sum_ext; intros l _. unfold n. rewrite <- sum_mul_r, <- sum_mul_l, <- sum_mul_l. apply sum_ext; intros a' _.
    rewrite <- sum_mul_r, <- sum_mul_l, <- sum_mul_l. apply sum_ext; intros l' _. rewrite !E. ring.
  - etransitivity. { apply sum_ext; intros a _. apply sum_mul_r. } rewrite sum_mul_r. fold n. ring.
Qed.
End Proofs.
