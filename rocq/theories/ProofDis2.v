(** The disentangler of peps_tools. *)
From Coq Require Import ZArith Sorted.
From Verif Require Import Alg ModelMPS ModelNcon SpecNcon ModelEk ModelTensor ModelImps ModelDis SpecDis ProofDis.

Section Proofs.
Context {R : sring}.
Local Open Scope sr_scope.
Add Ring Rr : (s_th R).

Lemma purity_ext d1 d2 Xl Xr (f g : nat -> nat -> nat -> nat -> R) :
  (forall a b l r, a < d1 -> b < d2 -> f a b l r = g a b l r) -> purity_left d1 d2 Xl Xr f = purity_left d1 d2 Xl Xr g.
Proof.
  intros H. unfold purity_left. apply sum_ext; intros a Ha. apply sum_ext; intros l _. apply sum_ext; intros a' Ha'. apply sum_ext; intros l' _.
  unfold rho_left. f_equal; apply sum_ext; intros b Hb; apply sum_ext; intros r _; now rewrite !H.
Qed.

Lemma gate_entries d1 d2 (U : mat R) T : mr U = (d1 * d2)%nat -> mc U = (d1 * d2)%nat -> reshape_mat [d1; d2; d1; d2] U = Ok T ->
  tsh T = [d1; d2; d1; d2] /\ forall a b x y, a < d1 -> b < d2 -> x < d1 -> y < d2 -> te T [a; b; x; y] = me U (a * d2 + b)%nat (x * d2 + y)%nat.
Proof.
  intros H1 H2 E. unfold reshape_mat in E. destruct (Nat.eqb _ _); [|discriminate]. injection E as <-. split; [reflexivity|]. intros a b x y Ha Hb Hx Hy.
  cbn [te ravel fold_right]. rewrite H2. rewrite !Nat.mul_1_r, Nat.add_0_r.
  replace (a * (d2 * (d1 * d2)) + (b * (d1 * d2) + (x * d2 + y)))%nat with ((a * d2 + b) * (d1 * d2) + (x * d2 + y))%nat by ring.
  assert (Hn : (x * d2 + y < d1 * d2)%nat) by nia.
  rewrite Nat.div_add_l by lia. rewrite (Nat.div_small (x * d2 + y)) by lia. rewrite Nat.add_0_r. f_equal.
  rewrite Nat.add_comm, Nat.mod_add by lia. apply Nat.mod_small; lia.
Qed.

Lemma gate_unitary d1 d2 (U : mat R) T : orth_rows (d1 * d2) U -> reshape_mat [d1; d2; d1; d2] U = Ok T -> unitary4 d1 d2 T.
Proof.
  intros (H1 & H2 & HO) E. destruct (gate_entries d1 d2 U T H1 H2 E) as [_ V]. intros a b a' b' Ha Hb Ha' Hb'.
  transitivity (dlt (a * d2 + b)%nat (a' * d2 + b')%nat : R).
  - rewrite <- HO by nia. rewrite sum_mul. apply sum_ext; intros x Hx. apply sum_ext; intros y Hy. now rewrite !V.
  - destruct (Nat.eq_dec a a') as [->|N]; [destruct (Nat.eq_dec b b') as [->|N]|].
    + rewrite !dlt_eq. ring.
    + rewrite (dlt_neq b b') by exact N. rewrite dlt_neq by lia. ring.
    + rewrite (dlt_neq a a') by exact N. rewrite dlt_neq by nia. ring.
Qed.

Lemma gated_gate d1 d2 (U : mat R) T th a b l r : mr U = (d1 * d2)%nat -> mc U = (d1 * d2)%nat -> reshape_mat [d1; d2; d1; d2] U = Ok T -> a < d1 -> b < d2 ->
  gated d1 d2 T th a b l r = gated d1 d2 (as_gate d1 d2 U) th a b l r.
Proof.
  intros H1 H2 E Ha Hb. destruct (gate_entries d1 d2 U T H1 H2 E) as [_ V]. unfold gated. apply sum_ext; intros x Hx. apply sum_ext; intros y Hy. rewrite V by assumption. reflexivity.
Qed.

Lemma dis_step_orth S polar d1 d2 (psi : tens R) X V : polar_ok polar -> dis_step S polar d1 d2 psi X = Ok V -> orth_rows (d1 * d2) V.
Proof.
  intros HP E. unfold dis_step in E. destruct (reshape_mat _ X) as [T|]; [|discriminate]. cbn [bind] in E.
  destruct (E2 S T psi) as [E'|]; [|discriminate]. cbn [bind] in E. unfold reshape_square in E. destruct (Nat.eqb _ _); [|discriminate]. cbn [bind] in E.
  match type of E with lib _ (polar ?M) = _ => destruct (polar M) as [u|] eqn:Ep; [|discriminate]; pose proof (HP M u eq_refl Ep) as K end.
  injection E as <-. exact K.
Qed.

Lemma dis_loop_ok S nlog polar restart big d1 d2 Xl Xr (psi : tens R) max_iter : setio_ok S -> polar_ok polar -> tsh psi = [d1; d2; Xl; Xr] ->
  forall fuel k U m (go : bool) Ss U' Ss', (if go then m <= length Ss else finished d1 d2 Xl Xr nlog big psi U Ss) ->
  dis_loop S nlog polar restart big d1 d2 psi max_iter fuel k U m go Ss = Some (Ok (U', Ss')) -> finished d1 d2 Xl Xr nlog big psi U' Ss'.
Proof.
  intros HS HP Ht. induction fuel as [|fuel IH]; intros k U m go Ss U' Ss' HI E; [discriminate|]. cbn [dis_loop] in E.
  destruct (Nat.ltb m max_iter && go) eqn:C.
  - apply andb_prop in C as [C1 C2]. subst go. cbn [andb] in E.
    destruct (dis_step S polar d1 d2 psi U) as [V0|]; [|discriminate]. cbn [bind] in E.
    destruct (dis_step S polar d1 d2 psi V0) as [V|] eqn:EV; [|discriminate]. cbn [bind] in E.
    destruct (reshape_mat [d1; d2; d1; d2] V) as [T|] eqn:ET; [|discriminate]. cbn [bind] in E.
    pose proof (dis_step_orth S polar d1 d2 psi V0 V HP EV) as HV. pose proof HV as (V1 & V2 & _).
    unfold renyi in E. rewrite (renyi_arg_ok S d1 d2 Xl Xr T psi HS (proj1 (gate_entries d1 d2 V T V1 V2 ET)) Ht (gate_unitary d1 d2 V T HV ET)) in E. cbn [bind] in E.
    rewrite (purity_ext d1 d2 Xl Xr _ (gated d1 d2 (as_gate d1 d2 V) psi)) in E by (intros; apply gated_gate; assumption).
    set (x := - sre (nlog (purity_left d1 d2 Xl Xr (gated d1 d2 (as_gate d1 d2 V) psi)))) in E.
    destruct (Nat.ltb 1 m) eqn:Cm.
    + apply Nat.ltb_lt in Cm.
      destruct Ss as [|s Ss] using rev_ind; [cbn in HI; lia|]. clear IHSs. rewrite app_length in HI. cbn [length] in HI.
      assert (L : length ((Ss ++ [s]) ++ [x]) = (length Ss + 2)%nat) by (rewrite !app_length; cbn; lia). rewrite L in E.
      replace (length Ss + 2 - 2)%nat with (length Ss) in E by lia. replace (length Ss + 2 - 1)%nat with (length Ss + 1)%nat in E by lia.
      assert (G1 : getitem ((Ss ++ [s]) ++ [x]) (length Ss) = Ok s).
      { unfold getitem. rewrite <- app_assoc, nth_error_app2, Nat.sub_diag by lia. reflexivity. }
      assert (G2 : getitem ((Ss ++ [s]) ++ [x]) (length Ss + 1) = Ok x).
      { unfold getitem. rewrite <- app_assoc, nth_error_app2 by lia. replace (length Ss + 1 - length Ss)%nat with 1%nat by lia. reflexivity. }
      rewrite G1 in E. cbn [bind] in E. rewrite G2 in E. cbn [bind] in E.
      apply IH in E; [exact E|]. destruct (big (s - x)) eqn:B; [lia|].
      split; [exact HV|]. exists Ss, s, x. split; [now rewrite <- app_assoc|]. split; [intros ->; cbn in HI; lia|]. split; [exact B|reflexivity].
    + apply IH in E; [exact E|]. rewrite app_length. cbn. lia.
  - destruct go.
    + apply IH in E; [exact E|lia].
    + injection E as <- <-. exact HI.
Qed.

Lemma dis_loop_short S nlog polar restart big d1 d2 (psi : tens R) max_iter : max_iter <= 2 ->
  forall fuel k U m Ss r, dis_loop S nlog polar restart big d1 d2 psi max_iter fuel k U m true Ss <> Some (Ok r).
Proof.
  intros HM. induction fuel as [|fuel IH]; intros k U m Ss r E; [discriminate|]. cbn [dis_loop] in E.
  destruct (Nat.ltb m max_iter) eqn:C; cbn [andb] in E.
  - apply Nat.ltb_lt in C. replace (Nat.ltb 1 m) with false in E by (symmetry; apply Nat.ltb_ge; lia).
    destruct (dis_step S polar d1 d2 psi U) as [V0|]; [|discriminate]. cbn [bind] in E.
    destruct (dis_step S polar d1 d2 psi V0) as [V|]; [|discriminate]. cbn [bind] in E.
    destruct (reshape_mat [d1; d2; d1; d2] V) as [T|]; [|discriminate]. cbn [bind] in E.
    destruct (renyi S nlog T psi) as [x|]; [|discriminate]. cbn [bind] in E. exact (IH _ _ _ _ _ E).
  - exact (IH _ _ _ _ _ E).
Qed.

(** every run but the last has max_iter passes *)
Lemma dis_loop_length S nlog polar restart big d1 d2 (psi : tens R) max_iter : forall fuel k U m go Ss U' Ss' n,
  length Ss = (n * max_iter + m)%nat -> (m <= max_iter)%nat -> (go = false -> 3 <= m)%nat ->
  dis_loop S nlog polar restart big d1 d2 psi max_iter fuel k U m go Ss = Some (Ok (U', Ss')) ->
  exists n' j, length Ss' = (n' * max_iter + j)%nat /\ (3 <= j <= max_iter)%nat.
Proof.
  induction fuel as [|fuel IH]; intros k U m go Ss U' Ss' n HL Hm Hg E; [discriminate|]. cbn [dis_loop] in E.
  destruct (Nat.ltb m max_iter && go) eqn:C.
  - apply andb_prop in C as [C ->]. apply Nat.ltb_lt in C.
    destruct (dis_step S polar d1 d2 psi U) as [V0|]; [|discriminate]. cbn [bind] in E.
    destruct (dis_step S polar d1 d2 psi V0) as [V|]; [|discriminate]. cbn [bind] in E.
    destruct (reshape_mat [d1; d2; d1; d2] V) as [T|]; [|discriminate]. cbn [bind] in E.
    destruct (renyi S nlog T psi) as [x|]; [|discriminate]. cbn [bind] in E.
    assert (HL' : length (Ss ++ [x]) = (n * max_iter + (m + 1))%nat) by (rewrite app_length; cbn; lia).
    destruct (Nat.ltb 1 m) eqn:C1.
    + apply Nat.ltb_lt in C1. destruct (getitem (Ss ++ [x]) (length (Ss ++ [x]) - 2)) as [a|]; [|discriminate]. cbn [bind] in E.
      destruct (getitem (Ss ++ [x]) (length (Ss ++ [x]) - 1)) as [b|]; [|discriminate]. cbn [bind] in E.
      refine (IH _ _ _ _ _ _ _ n HL' _ _ E); lia.
    + refine (IH _ _ _ _ _ _ _ n HL' _ _ E); [lia|discriminate].
  - destruct go.
    + rewrite Bool.andb_true_r in C. apply Nat.ltb_ge in C. refine (IH _ _ _ _ _ _ _ (n + 1)%nat _ _ _ E); [nia|lia|discriminate].
    + injection E as _ <-. exists n, m. split; [exact HL|]. split; [now apply Hg|exact Hm].
Qed.
End Proofs.
