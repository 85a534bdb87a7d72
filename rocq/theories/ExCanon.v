(** Concrete runs of the SVD-based sweeps over the Gaussian rationals.  No
    counterpart in /repo. *)
From Coq Require Import QArith Qcanon.
From Verif Require Import Alg QScalars ModelMPS SpecMPS ModelOrth SpecOrth ModelCanon SpecCanon
  Oracle Oracle2 ExOrth.
Local Open Scope nat_scope.

(** Two entangled qubits, norm 625, not in any canonical form. *)
Definition exC : fmps Qi := qobj
  [qsite 2 1 2 [qi (-6) 0; qi 84 0; qi (-42) 0; qi (-37) 0];
   qsite 2 2 1 [qi 6 0; qi 0 4; qi 0 8; qi 3 0]].
(** Its mirror image. *)
Definition exCl : fmps Qi := qobj
  [qsite 2 1 2 [qi 6 0; qi 0 (-4); qi 0 (-8); qi 3 0];
   qsite 2 2 1 [qi (-6) 0; qi 84 0; qi (-42) 0; qi (-37) 0]].

Definition exW : mat Qi := qmat 2 2 [qi (3#5) 0; qi (4#5) 0; qi (-4#5) 0; qi (3#5) 0].
Definition exI : mat Qi := qmat 2 2 [qi 1 0; qi 0 0; qi 0 0; qi 1 0].
Definition ex1 : mat Qi := qmat 1 1 [qi 1 0].

Definition exLA2 : lapack2 Qi := oracle2 true
  [(exI, [qi 10 0; qi 5 0], qmat 2 2 [qi (3#5) 0; qi 0 (4#5); qi 0 (4#5); qi (3#5) 0]);
   (ex1, [qi 625 0], qmat 1 4 [qi (-12#125) 0; qi (84#125) 0; qi (-84#125) 0; qi (-37#125) 0]);
   (exW, [qi (4#5) 0; qi (3#5) 0], exW);
   (ex1, [qi 1 0], qmat 1 4 [qi 0 0; qi 1 0; qi 0 0; qi 0 0]);
   (exI, [qi 1 0; qi 1 0], exI)]
  [(qmat 2 2 [qi (3#5) 0; qi 0 (-4#5); qi 0 (-4#5); qi (3#5) 0], [qi 10 0; qi 5 0], exI);
   (qmat 4 4 [qi (-12#125) 0; qi (-84#125) 0; qi (84#125) 0; qi (37#125) 0;
              qi (84#125) 0; qi (-12#125) 0; qi (-37#125) 0; qi (84#125) 0;
              qi (-84#125) 0; qi (37#125) 0; qi (-12#125) 0; qi (84#125) 0;
              qi (-37#125) 0; qi (-84#125) 0; qi (-84#125) 0; qi (-12#125) 0], [qi 625 0], ex1)]
  [(qmat 2 2 [qi (3#5) 0; qi (-4#5) 0; qi (4#5) 0; qi (3#5) 0], [qi (16#25) 0; qi (9#25) 0]);
   (ex1, [qi 1 0]);
   (qmat 2 2 [qi 0 0; qi 1 0; qi 1 0; qi 0 0], [qi 1 0; qi 0 0])].

Lemma exLA2_ok : svd_ok exLA2 /\ eig_ok exLA2 /\ eig_zeros_last exLA2.
Proof. split; [apply oracle2_svd|]. split; [apply oracle2_eig|apply oracle2_zl]. Qed.

Lemma exC_wf : wf exC /\ uniform exC /\ 0 < fd exC /\ pos (fdata exC) /\
  keeps_something None exC /\ keeps_something (Some 2) exC.
Proof.
  assert (H : exists s, incfg (dims (fdata exC)) s /\ psi exC s <> s0).
  { exists [0; 0]. split; [repeat constructor|]. apply Qi_neq. vm_compute. reflexivity. }
  split; [repeat split; discriminate|]. split; [repeat constructor|]. split; [repeat constructor|].
  split; [repeat constructor|]. split; [right; split; [exact I|exact H]|].
  left. split; repeat constructor.
Qed.

Lemma exCl_wf : wf exCl /\ uniform exCl /\ 0 < fd exCl /\ pos (fdata exCl) /\
  keeps_something_r None exCl.
Proof.
  assert (H : exists s, incfg (dims (fdata exCl)) s /\ psi exCl s <> s0).
  { exists [0; 0]. split; [repeat constructor|]. apply Qi_neq. vm_compute. reflexivity. }
  split; [repeat split; discriminate|]. split; [repeat constructor|]. split; [repeat constructor|].
  split; [repeat constructor|]. right; split; [exact I|exact H].
Qed.

Lemma ex_right_can :
  match right_canonicalise exLA2 exC None true true with
  | Ok (m, Some [L0; L1; L2]) =>
      qlist_eqb [psi exC [0;0]; psi exC [0;1]; psi exC [1;0]; psi exC [1;1]]
        (map (smul (qi 625 0)) [psi m [0;0]; psi m [0;1]; psi m [1;0]; psi m [1;1]]) &&
      Qi_eqb (me L1 0 0) (qi (16#25) 0) && Qi_eqb (me L1 1 1) (qi (9#25) 0)
  | _ => false end = true.
Proof. vm_compute. reflexivity. Qed.

Lemma ex_right_can_D :
  match right_canonicalise exLA2 exC (Some 2) false false with
  | Ok (m, None) => Qi_eqb (psi exC [1;1]) (smul (qi 625 0) (psi m [1;1]))
  | _ => false end = true.
Proof. vm_compute. reflexivity. Qed.

Lemma ex_left_can :
  match left_canonicalise exLA2 exCl None true true with
  | Ok (m, Some [L0; L1; L2]) =>
      match fnorm m with Some X => Qi_eqb (me X 0 0) (qi 625 0) | None => false end &&
      Qi_eqb (psi exCl [1;1]) (smul (qi 625 0) (psi m [1;1])) &&
      Qi_eqb (me L1 0 0) (qi (16#25) 0) && Qi_eqb (me L1 1 1) (qi (9#25) 0)
  | _ => false end = true.
Proof. vm_compute. reflexivity. Qed.

Lemma ex_left_can_D :
  match left_canonicalise exLA2 exCl (Some 2) false false with
  | Ok (m, None) => match fnorm m with Some X => Qi_eqb (me X 0 0) (qi 625 0) | None => false end
  | _ => false end = true.
Proof. vm_compute. reflexivity. Qed.

(** The projector on level 0 and sigma^+. *)
Definition qP0 : mat Qi := qmat 2 2 [qi 1 0; qi 0 0; qi 0 0; qi 0 0].
Definition qSp : mat Qi := qmat 2 2 [qi 0 0; qi 1 0; qi 0 0; qi 0 0].

Lemma ex_mixed_can :
  match mixed_canonicalise exLA2 exC 1 None true with
  | Ok m => Qi_eqb (psi exC [1;1]) (smul (qi 625 0) (psi m [1;1]))
  | _ => false end = true.
Proof. vm_compute. reflexivity. Qed.

Lemma ex_Es :
  match mps_Es exLA2 exC [qP0; qY] 1 with
  | Ok (vs, m) => qlist_eqb vs [qi (7984#15625) 0; qi (-1176#15625) 0]
  | _ => false end = true.
Proof. vm_compute. reflexivity. Qed.

Lemma ex_E_ :
  match mps_E_ exLA2 exC qY 1 with
  | Ok (v, m) => Qi_eqb v (qi (1176#15625) 0)
  | _ => false end = true.
Proof. vm_compute. reflexivity. Qed.

(** A product state on which numpy's unsorted eigenvalues (0, 1) make the rank
    cut keep the wrong vector. *)
Definition exU : fmps Qi := qobj
  [qsite 2 1 2 [qi 0 0; qi 1 0; qi 0 0; qi 0 0];
   qsite 2 2 1 [qi 1 0; qi 0 0; qi 0 0; qi 1 0]].
Definition exLAu : lapack2 Qi := oracle2 false
  [(ex1, [qi 1 0], qmat 1 4 [qi 0 0; qi 1 0; qi 0 0; qi 0 0]);
   (exI, [qi 1 0; qi 1 0], exI)] []
  [(exI, [qi 0 0; qi 1 0]); (ex1, [qi 1 0])].
Definition exUres : fmps Qi * option (list (mat Qi)) :=
  the (exU, None) (right_canonicalise exLAu exU None true true).

Lemma sumcfg4 (f : list nat -> Qi) : forall s, incfg [2; 2] s ->
  s = [0;0] \/ s = [0;1] \/ s = [1;0] \/ s = [1;1].
Proof.
  intros s H. inversion H as [|x y l1 l2 Hx H2]; subst. inversion H2 as [|x' y' l1' l2' Hx' H3]; subst.
  inversion H3; subst. assert (x = 0 \/ x = 1) by lia. assert (x' = 0 \/ x' = 1) by lia.
  intuition (subst; auto).
Qed.

Lemma ex_unsorted : exists (O : lapack2 Qi) (m m' : fmps Qi) Ls s,
  svd_ok O /\ eig_ok O /\ wf m /\ uniform m /\ 0 < fd m /\ pos (fdata m) /\
  right_canonicalise O m None true true = Ok (m', Ls) /\
  incfg (dims (fdata m)) s /\ psi m s <> s0 /\
  forall t, incfg (dims (fdata m)) t -> psi m' t = s0.
Proof.
  exists exLAu, exU, (fst exUres), (snd exUres), [0; 1].
  split; [apply oracle2_svd|]. split; [apply oracle2_eig|].
  split; [repeat split; discriminate|]. split; [repeat constructor|]. split; [repeat constructor|].
  split; [repeat constructor|].
  split. { rewrite <- surjective_pairing. apply the_ok. vm_compute. reflexivity. }
  split; [repeat constructor|]. split; [apply Qi_neq; vm_compute; reflexivity|].
  intros t Ht. apply (sumcfg4 (fun _ => s0)) in Ht.
  assert (H : ball 2 (fun a => ball 2 (fun b => Qi_eqb (psi (fst exUres) [a; b]) s0)) = true)
    by (vm_compute; reflexivity).
  assert (G : forall a b, a < 2 -> b < 2 -> psi (fst exUres) [a; b] = s0).
  { intros a b Ha Hb. apply Qi_eqb_eq. exact (ball2 _ _ _ H a b Ha Hb). }
  destruct Ht as [->|[->|[->| ->]]]; apply G; lia.
Qed.

(** mixed_canonicalise(1) records the centre 0: E then measures in the wrong place. *)
Definition exMc : fmps Qi := the exC (mixed_canonicalise exLA2 exC 1 None true).
Definition exMv : Qi * fmps Qi := the (s0, exC) (mps_E exLA exMc qP0 0).

Lemma ex_stale_centre : exists (O : lapack2 Qi) (P : lapack Qi) (m m' m'' : fmps Qi) op v,
  svd_ok O /\ lapack_ok P /\ wf m /\ uniform m /\ pos (fdata m) /\
  mixed_canonicalise O m 1 None true = Ok m' /\ mps_E P m' op 0 = Ok (v, m'') /\
  smul v (sumcfg (dims (fdata m)) (fun s => smul (psi m' s) (sconj (psi m' s)))) <>
  sre (expect1 (dims (fdata m)) (psi m') 0 (fun s t => me op t s)).
Proof.
  exists exLA2, exLA, exC, exMc, (snd exMv), qP0, (fst exMv).
  split; [apply exLA2_ok|]. split; [apply oracle_ok|]. split; [apply exC_wf|].
  split; [apply exC_wf|]. split; [apply exC_wf|].
  split; [apply the_ok; vm_compute; reflexivity|].
  split; [rewrite <- surjective_pairing; apply the_ok; vm_compute; reflexivity|].
  apply Qi_neq. vm_compute. reflexivity.
Qed.

(** E of Pauli Y is not the expectation of Pauli Y. *)
Definition exYv : Qi * fmps Qi := the (s0, exO) (mps_E exLA exO qY 1).
Lemma ex_E_transposes : exists (O : lapack Qi) (m m' : fmps Qi) op v,
  lapack_ok O /\ wf m /\ pos (fdata m) /\ mr op = 2 /\ mc op = 2 /\
  mps_E O m op 1 = Ok (v, m') /\
  smul v (sumcfg (dims (fdata m)) (fun s => smul (psi m s) (sconj (psi m s)))) <>
  sre (expect1 (dims (fdata m)) (psi m) 1 (me op)).
Proof.
  exists exLA, exO, (snd exYv), qY, (fst exYv).
  split; [apply oracle_ok|]. split; [apply exO_wf|]. split; [apply exO_wf|].
  split; [reflexivity|]. split; [reflexivity|].
  split; [rewrite <- surjective_pairing; apply the_ok; vm_compute; reflexivity|].
  apply Qi_neq. vm_compute. reflexivity.
Qed.

Definition exYv_ : Qi * fmps Qi := the (s0, exC) (mps_E_ exLA2 exC qY 1).
Lemma ex_E__transposes : exists (O : lapack2 Qi) (m m' : fmps Qi) op v,
  svd_ok O /\ wf m /\ uniform m /\ pos (fdata m) /\ mr op = 2 /\ mc op = 2 /\
  mps_E_ O m op 1 = Ok (v, m') /\
  smul v (sumcfg (dims (fdata m)) (fun s => smul (psi m s) (sconj (psi m s)))) <>
  sre (expect1 (dims (fdata m)) (psi m) 1 (me op)).
Proof.
  exists exLA2, exC, (snd exYv_), qY, (fst exYv_).
  split; [apply exLA2_ok|]. split; [apply exC_wf|]. split; [apply exC_wf|]. split; [apply exC_wf|].
  split; [reflexivity|]. split; [reflexivity|].
  split; [rewrite <- surjective_pairing; apply the_ok; vm_compute; reflexivity|].
  apply Qi_neq. vm_compute. reflexivity.
Qed.
