(** The SVD-based sweeps fail with LinAlgError only when a LAPACK routine fails. *)
From Verif Require Import Alg ModelMPS SpecMPS ModelOrth SpecOrth ProofOrth4 ModelCanon SpecCanon.

Section Proofs.
Context {R : sring}.

(** Some LAPACK call fails. *)
Definition some_call_fails (O : lapack2 R) : Prop :=
  (exists M, la_svd O M = None) \/ (exists M, la_svdf O M = None) \/ (exists M, la_eig O M = None).

Definition linalg (O : lapack2 R) e : Prop := e = LinAlgError -> some_call_fails O.

Lemma mdot_err (X Y : mat R) e : mdot X Y = Err e -> e = ValueError.
Proof. unfold mdot. destruct (Nat.eqb _ _); congruence. Qed.

Lemma chop0_err d (X : mat R) e : chop0 d X = Err e -> e = ValueError.
Proof. unfold chop0. destruct (_ && _); congruence. Qed.
Lemma chop1_err d (X : mat R) e : chop1 d X = Err e -> e = ValueError.
Proof. unfold chop1. destruct (_ && _); congruence. Qed.
Lemma lenv_err (A : site R) V Sv e : left_env_step A V Sv = Err e -> e = ValueError.
Proof. unfold left_env_step. destruct (Nat.eqb _ _); congruence. Qed.
Lemma renv_err (A : site R) V Sv e : right_env_step A V Sv = Err e -> e = ValueError.
Proof. unfold right_env_step. destruct (Nat.eqb _ _); congruence. Qed.

Ltac nxt :=
  match goal with
  | |- context[bind ?r _] => let E := fresh "E" in destruct r eqn:E; cbn [bind]
  end.

Ltac errs := let H := fresh in intros H; injection H as <-; intros ->;
  exfalso; repeat match goal with
   | H : getitem _ _ = Err _ |- _ => apply getitem_err in H; discriminate H
   | H : setitem _ _ _ = Err _ |- _ => apply setitem_err in H; discriminate H
   | H : site_lmul _ _ = Err _ |- _ => apply lmul_err in H; discriminate H
   | H : site_rmul _ _ = Err _ |- _ => apply rmul_err in H; discriminate H
   | H : mdot _ _ = Err _ |- _ => apply mdot_err in H; discriminate H
   | H : chop0 _ _ = Err _ |- _ => apply chop0_err in H; discriminate H
   | H : chop1 _ _ = Err _ |- _ => apply chop1_err in H; discriminate H
   | H : left_env_step _ _ _ = Err _ |- _ => apply lenv_err in H; discriminate H
   | H : right_env_step _ _ _ = Err _ |- _ => apply renv_err in H; discriminate H
  end.

Lemma split_B_err (O : lapack2 R) d A e : split_B O d A = Err e -> linalg O e.
Proof.
  unfold split_B. destruct (la_svd O _) as [[[U Sv] V]|] eqn:E0.
  - nxt; [discriminate|errs].
  - intros _ _. left. eauto.
Qed.
Lemma split_A_err (O : lapack2 R) d A e : split_A O d A = Err e -> linalg O e.
Proof.
  unfold split_A. destruct (la_svdf O _) as [[[U Sv] V]|] eqn:E0.
  - nxt; [discriminate|errs].
  - intros _ _. right; left. eauto.
Qed.
Lemma split_A_thin_err (O : lapack2 R) d A e : split_A_thin O d A = Err e -> linalg O e.
Proof.
  unfold split_A_thin. destruct (la_svd O _) as [[[U Sv] V]|] eqn:E0.
  - nxt; [discriminate|errs].
  - intros _ _. left. eauto.
Qed.

Lemma right_can_loop_err (O : lapack2 R) d D minD ms :
  forall data e, right_can_loop O d D minD ms data = Err e -> linalg O e.
Proof.
  induction ms as [|m ms IH]; intros data e; cbn [right_can_loop]; [discriminate|].
  nxt; [|errs]. nxt; [|intros H; injection H as <-; eapply split_B_err; eassumption].
  destruct a0 as [[U Sv] B]. destruct (truncate_B O U Sv B D minD) as [[U' Sv'] B'].
  nxt; [|errs].
  destruct m as [|m]; cbn [bind]; [apply IH|].
  nxt; [apply IH|]. intros H; injection H as <-. revert E2. nxt; [|errs]. nxt; [|errs]. nxt; [|errs].
  intros H. apply setitem_err in H. intros ->. discriminate.
Qed.

Lemma left_can_loop_err (O : lapack2 R) d D minD ms :
  forall data nrm e, left_can_loop O d D minD ms data nrm = Err e -> linalg O e.
Proof.
  induction ms as [|m ms IH]; intros data nrm e; cbn [left_can_loop]; [discriminate|].
  nxt; [|errs]. nxt; [|intros H; injection H as <-; eapply split_A_err; eassumption].
  destruct a0 as [[U Sv] B]. destruct (truncate_A O U Sv B D minD) as [[U' Sv'] B'].
  nxt; [|errs]. nxt; [|errs].
  destruct (Nat.ltb _ _); [|apply IH].
  nxt; [|errs]. nxt; [|errs]. nxt; [|errs]. apply IH.
Qed.

Lemma mixed_can_loop_err (O : lapack2 R) d D ms :
  forall data e, mixed_can_loop O d D ms data = Err e -> linalg O e.
Proof.
  induction ms as [|m ms IH]; intros data e; cbn [mixed_can_loop]; [discriminate|].
  nxt; [|errs]. nxt; [|intros H; injection H as <-; eapply split_A_thin_err; eassumption].
  destruct a0 as [[U Sv] B]. destruct (truncate_A O U Sv B D true) as [[U' Sv'] B'].
  nxt; [|errs].
  destruct (Nat.ltb _ _); [|apply IH].
  nxt; [apply IH|]. intros H; injection H as <-. revert E2. nxt; [|errs]. nxt; [|errs]. nxt; [|errs].
  intros H. apply setitem_err in H. intros ->. discriminate.
Qed.

Lemma right_gauge_err (O : lapack2 R) data : forall V Sv e,
  right_gauge O V Sv data = Err e -> linalg O e.
Proof.
  induction data as [|A data IH]; intros V Sv e; cbn [right_gauge]; [discriminate|].
  nxt; [|errs]. destruct (la_eig O a) as [[V' Sv']|] eqn:E0; [|intros _ _; right; right; eauto].
  nxt; [|errs]. nxt; [|errs]. nxt; [discriminate|]. intros H; injection H as <-. eapply IH; eassumption.
Qed.

Lemma left_gauge_err (O : lapack2 R) data : forall V Sv e,
  left_gauge O V Sv data = Err e -> linalg O e.
Proof.
  induction data as [|A data IH]; intros V Sv e; cbn [left_gauge]; [discriminate|].
  nxt; [|errs]. destruct (la_eig O a) as [[V' Sv']|] eqn:E0; [|intros _ _; right; right; eauto].
  nxt; [|errs]. nxt; [|errs]. nxt; [discriminate|]. intros H; injection H as <-. eapply IH; eassumption.
Qed.

Lemma rank_loop_err (O : lapack2 R) ms : forall Ls data e,
  rank_loop O ms Ls data = Err e -> e <> LinAlgError.
Proof.
  assert (HH : forall e, (e = LinAlgError -> False) -> e <> LinAlgError) by auto.
  induction ms as [|m ms IH]; intros Ls data e; cbn [rank_loop]; [discriminate|].
  repeat (nxt; [|errs]). apply IH.
Qed.

Lemma right_can_err (O : lapack2 R) m D sb minD :
  right_canonicalise O m D sb minD = Err LinAlgError -> some_call_fails O.
Proof.
  unfold right_canonicalise. nxt.
  2:{ intros H; injection H as ->. eapply right_can_loop_err; eauto. }
  nxt; [discriminate|]. intros H; injection H as ->. revert E0.
  destruct (sb && minD); [|discriminate].
  nxt. 2:{ intros H; injection H as ->. eapply right_gauge_err; eauto. }
  destruct (rev (snd a0)); [discriminate|].
  nxt; [discriminate|]. intros H; injection H as ->. exfalso. eapply rank_loop_err; eauto.
Qed.

Lemma left_can_err (O : lapack2 R) m D sb minD :
  left_canonicalise O m D sb minD = Err LinAlgError -> some_call_fails O.
Proof.
  unfold left_canonicalise. nxt.
  2:{ intros H; injection H as ->. eapply left_can_loop_err; eauto. }
  nxt; [discriminate|]. intros H; injection H as ->. revert E0.
  destruct (sb && minD); [|discriminate].
  nxt. 2:{ intros H; injection H as ->. eapply left_gauge_err; eauto. }
  destruct (rev (snd a0)); [discriminate|].
  nxt; [discriminate|]. intros H; injection H as ->. exfalso. eapply rank_loop_err; eauto.
Qed.

Lemma mixed_can_err (O : lapack2 R) m k D sb :
  mixed_canonicalise O m k D sb = Err LinAlgError -> some_call_fails O.
Proof.
  unfold mixed_canonicalise. nxt.
  2:{ intros H; injection H as ->. eapply right_can_err; eauto. }
  nxt; [discriminate|]. intros H; injection H as ->. eapply mixed_can_loop_err; eauto.
Qed.

Lemma mapM_err {A B} (f : A -> res B) l e : mapM f l = Err e -> exists x, In x l /\ f x = Err e.
Proof.
  induction l as [|x l IH]; simpl; [discriminate|].
  destruct (f x) eqn:E; cbn [bind]; [|intros H; injection H as <-; eauto].
  destruct (mapM f l); cbn [bind]; [discriminate|]. intros H; injection H as <-.
  destruct (IH eq_refl) as (y & Hy & Ey). eauto.
Qed.

Lemma mps_Es_err (O : lapack2 R) m ops k :
  mps_Es O m ops k = Err LinAlgError -> some_call_fails O.
Proof.
  unfold mps_Es. nxt. 2:{ intros H; injection H as ->. eapply mixed_can_err; eauto. }
  nxt. 2:{ intros H; injection H as ->. apply getitem_err in E0. discriminate. }
  nxt; [discriminate|]. intros H; injection H as ->. apply mapM_err in E1 as (x & _ & Hx).
  unfold Es_local in Hx. destruct (_ && _); discriminate.
Qed.

Lemma mps_E__err (O : lapack2 R) m op k :
  mps_E_ O m op k = Err LinAlgError -> some_call_fails O.
Proof.
  unfold mps_E_. nxt. 2:{ intros H; injection H as ->. eapply mixed_can_err; eauto. }
  nxt. 2:{ intros H; injection H as ->. apply getitem_err in E0. discriminate. }
  nxt; [discriminate|]. intros H; injection H as ->. 
  unfold E_local in E1. destruct (_ && _); discriminate.
Qed.

End Proofs.
