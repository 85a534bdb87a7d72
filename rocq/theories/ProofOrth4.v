(** The sweeps only fail when a LAPACK routine fails. *)
From Verif Require Import Alg ModelMPS SpecMPS ModelOrth SpecOrth ProofOrth ProofOrth2 ProofOrth3.

Section Proofs.
Context {R : sring}.

Lemma getitem_err {A} (l : list A) i e : getitem l i = Err e -> e = IndexError.
Proof. unfold getitem. destruct (nth_error l i); congruence. Qed.

Lemma setitem_err {A} (l : list A) i x e : setitem l i x = Err e -> e = IndexError.
Proof.
  revert i; induction l as [|y l IH]; intros i; simpl; [congruence|].
  destruct i; [congruence|]. destruct (setitem l i x) eqn:E; simpl; [congruence|].
  intros H. injection H as <-. eauto.
Qed.

Lemma lmul_err (M : mat R) A e : site_lmul M A = Err e -> e = ValueError.
Proof. unfold site_lmul. destruct (Nat.eqb _ _); congruence. Qed.

Lemma rmul_err (M : mat R) A e : site_rmul A M = Err e -> e = ValueError.
Proof. unfold site_rmul. destruct (Nat.eqb _ _); congruence. Qed.

Ltac nxt :=
  match goal with
  | |- context[bind ?r _] => let E := fresh "E" in destruct r eqn:E; cbn [bind]
  end.

Definition err_qr (O : lapack R) e : Prop :=
  e = IndexError \/ e = ValueError \/ (e = LinAlgError /\ exists M, la_qr O M = None).
Definition err_rq (O : lapack R) e : Prop :=
  e = IndexError \/ e = ValueError \/ (e = LinAlgError /\ exists M, la_rq O M = None).

Ltac errs H := injection H as <-; first [left; eapply getitem_err; eassumption
  | left; eapply setitem_err; eassumption | right; left; eapply lmul_err; eassumption
  | right; left; eapply rmul_err; eassumption].

Lemma left_loop_err (O : lapack R) L ms :
  forall data nrm e, left_orth_loop O L ms data nrm = Err e -> err_qr O e.
Proof.
  induction ms as [|m ms IH]; intros data nrm e; cbn [left_orth_loop]; [discriminate|].
  nxt; [|intros H; errs H].
  destruct (la_qr O _) as [[Q Rm]|] eqn:EQ; [|intros H; injection H as <-; right; right; eauto].
  nxt; [|intros H; errs H].
  destruct (negb _); [|apply IH].
  nxt; [|intros H; errs H]. nxt; [|intros H; errs H]. nxt; [|intros H; errs H].
  apply IH.
Qed.

Lemma right_loop_err (O : lapack R) ms :
  forall data nrm e, right_orth_loop O ms data nrm = Err e -> err_rq O e.
Proof.
  induction ms as [|m ms IH]; intros data nrm e; cbn [right_orth_loop]; [discriminate|].
  nxt; [|intros H; errs H].
  destruct (la_rq O _) as [[Q Rm]|] eqn:EQ; [|intros H; injection H as <-; right; right; eauto].
  nxt; [|intros H; errs H].
  destruct (negb _); [|apply IH].
  nxt; [|intros H; errs H]. nxt; [|intros H; errs H]. nxt; [|intros H; errs H].
  apply IH.
Qed.

Lemma left_err (O : lapack R) m fr to e :
  left_orthogonalise O m fr to = Err e -> err_qr O e.
Proof.
  intros H. unfold left_orthogonalise in H.
  destruct (left_orth_loop O _ _ _ _) eqn:E; [discriminate|]. injection H as ->.
  eapply left_loop_err; eauto.
Qed.

Lemma right_err (O : lapack R) m fr to e :
  right_orthogonalise O m fr to = Err e -> err_rq O e.
Proof.
  intros H. unfold right_orthogonalise in H.
  destruct (right_orth_loop O _ _ _) eqn:E; [discriminate|]. injection H as ->.
  eapply right_loop_err; eauto.
Qed.

(** A failing sweep is a failing factorisation. *)
Lemma left_fails (O : lapack R) m e :
  lapack_ok O -> wf m -> pos (fdata m) ->
  left_orthogonalise O m 0 None = Err e -> e = LinAlgError /\ exists M, la_qr O M = None.
Proof.
  intros HO Hw Hp E. pose proof (left_orth_full O m HO Hw Hp) as H. rewrite E in H.
  subst e. apply left_err in E as [E|[E|E]]; try discriminate. exact E.
Qed.

Lemma right_fails (O : lapack R) m e :
  lapack_ok O -> wf m -> pos (fdata m) ->
  right_orthogonalise O m 0 None = Err e -> e = LinAlgError /\ exists M, la_rq O M = None.
Proof.
  intros HO Hw Hp E. pose proof (right_orth_full O m HO Hw Hp) as H. rewrite E in H.
  subst e. apply right_err in E as [E|[E|E]]; try discriminate. exact E.
Qed.

Lemma left_range_fails (O : lapack R) m fr to e :
  lapack_ok O -> wf m -> pos (fdata m) -> fr <= to -> to < fL m ->
  left_orthogonalise O m fr (Some to) = Err e -> e = LinAlgError /\ exists M, la_qr O M = None.
Proof.
  intros HO Hw Hp H1 H2 E. pose proof (left_orth_partial O m fr to HO Hw Hp H1 H2) as H.
  rewrite E in H. subst e. apply left_err in E as [E|[E|E]]; try discriminate. exact E.
Qed.

Lemma right_range_fails (O : lapack R) m fr to e :
  lapack_ok O -> wf m -> pos (fdata m) -> 0 < fr -> fr <= to -> to <= fL m ->
  right_orthogonalise O m fr (Some to) = Err e -> e = LinAlgError /\ exists M, la_rq O M = None.
Proof.
  intros HO Hw Hp H0 H1 H2 E. pose proof (right_orth_partial O m fr to HO Hw Hp H0 H1 H2) as H.
  rewrite E in H. subst e. apply right_err in E as [E|[E|E]]; try discriminate. exact E.
Qed.

Lemma mixed_fails (O : lapack R) m k e :
  lapack_ok O -> wf m -> pos (fdata m) -> k < fL m -> mixed_orthogonalise O m k = Err e ->
  (e = LinAlgError /\ exists M, la_qr O M = None \/ la_rq O M = None) \/
  (e = Exception_ /\ exists A, la_nrm O A = None).
Proof.
  intros HO Hw Hp Hk E. pose proof (mixed_orth_ok O m k HO Hw Hp Hk) as H. rewrite E in H.
  unfold mixed_orthogonalise in E.
  destruct (right_orthogonalise O m k None) as [m1|e1] eqn:E1; cbn [bind] in E.
  2:{ injection E as ->. apply right_err in E1 as [->|[->|[-> [M HM]]]];
      [destruct H; discriminate|destruct H; discriminate|left; eauto]. }
  destruct (left_orthogonalise O m1 0 (Some k)) as [m2|e2] eqn:E2; cbn [bind] in E.
  2:{ injection E as ->. apply left_err in E2 as [->|[->|[-> [M HM]]]];
      [destruct H; discriminate|destruct H; discriminate|left; eauto]. }
  destruct (getitem (fdata m2) k) as [A|] eqn:E3; cbn [bind] in E.
  2:{ injection E as ->. apply getitem_err in E3. destruct H; congruence. }
  destruct (la_nrm O A) as [[n ninv]|] eqn:E4; [|injection E as <-; right; eauto].
  destruct (setitem (fdata m2) k _) eqn:E5; cbn [bind] in E; [discriminate|].
  injection E as ->. apply setitem_err in E5. destruct H; congruence.
Qed.

End Proofs.
