(** The states made of the recorded vectors when no MPS are recorded. *)
From Coq Require Import ZArith.
From Verif Require Import Alg ModelMPS SpecMPS ModelOrth SpecOrth ModelCanon SpecCanon ProofCanon4 ModelStruct ModelNcon ModelEk SpecEk ModelTensor ModelState SpecState ProofState
  ModelExp ModelTraj ProofTraj ProofImps10 SpecFull ModelEd SpecEd SpecLie PropCanon.
Local Open Scope nat_scope.

Section Proofs.
Context {R : sring}.
Local Open Scope sr_scope.
Add Ring Rr4 : (s_th R).

Lemma fill_ok (I : imag R) (O : lapack2 R) (e e' : edtraj R) hist : svd_ok O -> eig_ok O -> eig_zeros_last O -> @definite R -> @integral R -> (1:R) <> 0 ->
  let m := tmps (ed_t e) in let d := fd m in let L := fL m in
  ed_h e = Some hist -> thist (ed_t e) = [] -> (0 < d)%nat -> (0 < L)%nat ->
  Forall (fun v => exists s, incfg (repeat d L) s /\ nth (rowmajor d s) v 0 <> 0) hist ->
  fill_history I O e = Ok e' ->
  ed_h e' = Some hist /\ tmps (ed_t e') = m /\ tDs (ed_t e') = tDs (ed_t e) /\
  Forall2 (fun v w => exists x c, serialize_real I x = Ok w /\ wf x /\ dims (fdata x) = repeat d L /\ fcan x = Some true /\ Forall left_iso (fdata x) /\
    (forall s, incfg (repeat d L) s -> nth (rowmajor d s) v 0 = c * psi x s) /\
    forall k A, nth_error (fdata x) k = Some A -> exists Sk, diag_rgram (skipn k (fdata x)) (dl A) Sk /\ forall y, (y < dl A)%nat -> Sk y <> 0) hist (thist (ed_t e')).
Proof.
  intros HO HE HZ Hdf Hin H1 m d L Eh Et Hd HL Hnz E. unfold fill_history in E. rewrite Eh, Et in E. fold m in E.
  match type of E with bind ?u _ = _ => destruct u as [vs|] eqn:EM end; [|discriminate]. cbn [bind] in E. injection E as <-. cbn [ed_h ed_t tmps tDs thist].
  do 3 (split; [reflexivity|]). apply mapM_ok in EM. clear Eh Et. fold d L in EM. revert Hnz. induction EM as [|v w hist vs Ev EM IH]; intros Hnz; [constructor|].
  inversion Hnz as [|? ? (s0 & Hs0 & Hv0) Hnz']; subst. constructor; [|auto]. clear IH EM Hnz'.
  unfold as_state in Ev. destruct (Nat.eqb (length v) (Nat.pow d L)); [|discriminate]. cbn [bind] in Ev.
  set (st := mkSt L d _) in Ev. pose proof (left_from_state_ok O st HO Hd HL) as K. destruct (left_from_state O st) as [[m1 Ls1]|]; [|discriminate]. cbn [bind fst] in Ev.
  destruct K as ((c & W1 & _ & L1 & D1 & Dm & Ps & _) & _). cbn [st stL std] in L1, D1, Dm, Ps.
  destruct (lcan O m1 None) as [x|] eqn:El; [|discriminate]. cbn [bind] in Ev. apply lcan_inv in El as [Ls El].
  assert (U1 : uniform m1). { apply Forall_forall. intros B HB. apply (in_map (fun A : site R => phys A)) in HB. change (In (phys B) (dims (fdata m1))) in HB. rewrite Dm in HB. apply repeat_spec in HB. now rewrite D1. }
  assert (Hk : keeps_something_r None m1).
  { right. split; [exact Logic.I|]. exists s0. rewrite Dm. split; [exact Hs0|]. intros Z. apply Hv0. change (nth (rowmajor d s0) v 0) with (ste st s0). rewrite (Ps s0 Hs0), Z. ring. }
  pose proof (C12_left_canonicalise_sweep_back R O m1 None HO HE HZ Hdf Hin H1 W1 U1 ltac:(now rewrite D1) Hk) as C. rewrite El in C. destruct Ls as [Ls|]; [|destruct C].
  destruct C as (X1 & X2 & X3 & X4 & X5 & _ & _ & X8 & _ & (X & _ & _ & _ & XP) & _ & XD). destruct (XP Logic.I) as (u & _ & XQ).
  exists x, (c * (me X 0%nat 0%nat * u)). split; [exact Ev|]. split; [exact X1|]. split; [now rewrite X2|]. split; [exact X5|]. split; [exact X8|]. split.
  - intros s Hs. change (nth (rowmajor d s) v 0) with (ste st s). rewrite (Ps s Hs), (XQ s) by now rewrite Dm. ring.
  - intros k A HA. destruct (XD k A HA) as (Sk & Y & _ & _ & Y3 & Y4). eauto.
Qed.
End Proofs.
