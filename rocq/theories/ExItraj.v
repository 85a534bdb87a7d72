(** Concrete trajectories of infinite MPS over the Gaussian rationals.  No counterpart in /repo. *)
From Coq Require Import QArith Qcanon.
From Verif Require Import Alg QScalars ModelMPS SpecMPS ModelOrth SpecOrth Oracle ModelCanon SpecCanon Oracle2 ExOrth ModelStruct ExStruct
  ExEnergy ModelNp ModelDecomp SpecDecomp ProofDecomp ProofDecomp2 ProofDecomp3 ExDecomp ModelTraj SpecTraj ModelLie ModelImps SpecImps ExImps ModelItraj SpecItraj.
Local Open Scope nat_scope.
Local Open Scope sr_scope.

(** What eigs does with the pairs it found. *)
Definition eigs_tail (C : icalls Qi) (D : nat) (er el : Qi * list Qi) : res (Qi * mat Qi * mat Qi) :=
  do r1 <- reshape2 D D (snd er);
  do l1 <- reshape2 D D (snd el);
  do x <- getitem (snd er) 0;
  do r <- rotated C r1 x;
  do y <- getitem (snd el) 0;
  do l <- rotated C l1 y;
  do lr <- mdot l r;
  do q <- root_ C (mtr_ lr);
  do c <- quot C 1 q;
  Ok (fst el, mscal c l, mscal c r).

Definition hermq (M : mat Qi) : bool := Nat.eqb (mr M) (mc M) && ball (mr M) (fun i => ball (mr M) (fun j => Qi_eqb (me M j i) (sconj (me M i j)))).
Lemma hermq_sound M : hermq M = true -> hermitian M.
Proof.
  unfold hermq. intros H. ands. apply Nat.eqb_eq in H. split; [exact H|]. intros i j Hi Hj. apply Qi_eqb_eq.
  exact (ball_sound _ _ (ball_sound _ _ H0 i Hi) j Hj).
Qed.
Definition good_b (C : icalls Qi) (D : nat) (pairs : list (Qi * list Qi)) : bool :=
  forallb (fun er => forallb (fun el => match eigs_tail C D er el with Ok (eta, l, r) => hermq l && hermq r && nonneg_b eta | Err _ => true end) pairs) pairs.

Lemma good_b_sound pairs chols svds invs roots d D : let C := icQ pairs chols svds invs roots in
  good_b C D pairs = true -> good_envs nonnegQ C d D.
Proof.
  intros C H m eta l r (A & Ha & _ & Hl & Hr & Hp & _) E. unfold imps_eigs in E. rewrite Hp, Ha in E. cbn [Nat.eqb getitem nth_error bind] in E.
  unfold tm_eigs in E. rewrite Hl, Hr in E. cbn [start bind] in E.
  destruct (arnoldi C (D * D) (D * D) (tm_mv A) None) as [er|] eqn:E1; [|discriminate]. cbn [bind] in E.
  destruct (arnoldi C (D * D) (D * D) (tm_mvr A) None) as [el|] eqn:E2; [|discriminate]. cbn [bind] in E.
  assert (K : forall f e, arnoldi C (D * D) (D * D) f None = Ok e -> In e pairs).
  { intros f e. unfold arnoldi. rewrite Nat.eqb_refl. cbn [negb]. destruct (Nat.leb (D * D) 2); [discriminate|]. cbn [C icQ ic_arn].
    destruct (find _ pairs) as [p|] eqn:Ef; [|discriminate]. cbn [lib]. intros X. injection X as <-. exact (proj1 (find_some _ _ Ef)). }
  apply K in E1, E2. change (eigs_tail C D er el = Ok (eta, l, r)) in E.
  unfold good_b in H. rewrite forallb_forall in H. specialize (H er E1). cbn beta in H. rewrite forallb_forall in H. specialize (H el E2). cbn beta in H. rewrite E in H. ands.
  split; [apply hermq_sound; assumption|]. split; [apply hermq_sound; assumption|apply nonneg_b_sound; assumption].
Qed.

(** A left canonical tensor of bond dimension two with the right fixed point diag(9, 16)/25. *)
Definition itA : site Qi := qsite 2 2 2 [qi (3 # 5) 0; qi 0 0; qi 0 0; qi (4 # 5) 0; qi 0 0; qi (3 # 5) 0; qi (4 # 5) 0; qi 0 0].
Definition it1 : mat Qi := qmat 2 2 [qi 1 0; qi 0 0; qi 0 0; qi 1 0].
Definition itX : mat Qi := qmat 2 2 [qi (3 # 5) 0; qi 0 0; qi 0 0; qi (4 # 5) 0].
Definition itXi : mat Qi := qmat 2 2 [qi (5 # 3) 0; qi 0 0; qi 0 0; qi (5 # 4) 0].
Definition itP : list (Qi * list Qi) := [(qi 1 0, [qi (9 # 25) 0; qi 0 0; qi 0 0; qi (16 # 25) 0]); (qi 1 0, [qi 1 0; qi 0 0; qi 0 0; qi 1 0])].
Definition itC : icalls Qi := icQ itP [itX; it1] [(it1, [qi (3 # 5) 0; qi (4 # 5) 0], it1)] [itXi; it1] [qi 1 0].

(** A vector field that turns every cell into minus itself for dt = 1. *)
Definition itF (m : imps Qi) : res (imps Qi) := imps_mul m (qi (-2) 0).
Definition itT : list Qi := [qi 3 0; qi 4 0].
Definition itr0 : itraj Qi := mkItraj (one_site itA) (one_site itA) [2]%nat [].

(** A constant vector field, and calls that also know the eigenvalue 1/9. *)
Definition itK (m : imps Qi) : res (imps Qi) := imps_mul (one_site itA) (qi (-1 # 6) 0).
Definition itC9 : icalls Qi := icQ (itP ++ map (fun p => (qi (1 # 9) 0, snd p)) itP) [itX; it1] [(it1, [qi (3 # 5) 0; qi (4 # 5) 0], it1)] [itXi; it1] [qi 1 0; qi (1 # 3) 0].

(** Two states of bond dimension three; 95800^4 + 217519^4 + 414560^4 = 422481^4. *)
Definition itx (i : nat) : Qi := nth i [qi (95800 # 422481) 0; qi (217519 # 422481) 0; qi (414560 # 422481) 0] s0.
Definition itxi (i : nat) : Qi := nth i [qi (422481 # 95800) 0; qi (422481 # 217519) 0; qi (422481 # 414560) 0] s0.
Definition it3 (f : nat -> Qi) : mat Qi := qmat 3 3 (flat_map (fun i => map (fun j => if Nat.eqb i j then f i else qi 0 0) (seq 0 3)) (seq 0 3)).
Definition itP3 : list (Qi * list Qi) := map (fun e => (e, flat2 (it3 (fun i => itx i * itx i)))) [qi 1 0; qi (3 # 5) 0].
Definition itC3 : icalls Qi := icQ itP3 [it3 itx] [(it3 (fun _ => qi 1 0), map (fun i => itx i * itx i) (seq 0 3), it3 (fun _ => qi 1 0))] [it3 itxi] [qi 1 0].
Definition itcell (a b : Qi) : site Qi := qsite 2 3 3 (flat2 (it3 (fun _ => a)) ++ flat2 (it3 (fun _ => b))).
Definition itB0 : imps Qi := one_site (itcell (qi 1 0) (qi 0 0)).
Definition itB1 : imps Qi := one_site (itcell (qi (3 # 5) 0) (qi (4 # 5) 0)).
Definition itser (m : imps Qi) : list Qi := the [] (imps_serialize_real qimag m).
Definition itr3 : itraj Qi := mkItraj itB1 itB0 [3; 3; 3]%nat [itser itB0; itser itB1].
