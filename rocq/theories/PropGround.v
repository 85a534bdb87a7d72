(** Property theorems C104: find_ground_state of iOptimize.py. *)
From Coq Require Import QArith Qcanon.
From Verif Require Import Alg QScalars ModelMPS SpecMPS ModelOrth SpecOrth Oracle ModelCanon SpecCanon Oracle2 ExOrth ModelStruct
  ModelNp ModelDecomp SpecDecomp ExDecomp ModelTraj SpecTraj ModelImps SpecImps ExImps ModelItraj SpecItraj ProofItraj ExItraj ModelGround SpecGround ProofGround.
Local Open Scope nat_scope.
Local Open Scope sr_scope.

(** The states visited are the descent from the left canonical form of the random state; all of
    them are left canonical; es lists the energies of all but the last one, which is returned; at
    most maxiters steps are taken and fewer only if the increment at the returned state is small. *)
Theorem C104_descent : forall (R : sring) (nonneg : R -> Prop) (C : icalls R) im eps field small d D (rnd psi : imps R) maxiters es,
  icalls_ok nonneg C -> good_envs nonneg C d D -> (forall m v e, icell d D m -> field m = Ok (v, e) -> icell d D v) -> icell d D rnd ->
  find_ground_state C im eps field small rnd maxiters = Ok (psi, es) ->
  exists x0 xs, ilcan C rnd = Ok x0 /\ length xs = length es /\ length es <= maxiters /\ Forall (icanon d D) (xs ++ [psi]) /\
    nth_error (xs ++ [psi]) 0 = Some x0 /\
    (forall k x e y, nth_error (xs ++ [psi]) k = Some x -> nth_error es k = Some e -> nth_error (xs ++ [psi]) (S k) = Some y -> descends C im eps field small x e y) /\
    (length es = maxiters \/ exists v e g, field psi = Ok (v, e) /\ imps_mul v (im * eps) = Ok g /\ small g = true).
Proof.
  intros R nonneg C im eps field small d D rnd psi maxiters es HC HG HK Hr E. unfold find_ground_state in E.
  destruct (ilcan C rnd) as [x0|] eqn:E0; [|discriminate]. cbn [bind] in E.
  destruct (gs_loop_ok nonneg C im eps field small d D HC HG HK maxiters x0 [] psi es (ilcan_ok nonneg C d D rnd x0 HC HG Hr E0) E) as (xs & es1 & -> & F).
  exists x0, xs. split; [reflexivity|exact F].
Qed.
Print Assumptions C104_descent.

(** The random start is a cell of the right shape. *)
Theorem C104_random : forall (R : sring) (im : R) a b d D, icell d D (imps_random im a b d D 1).
Proof. intros R im a b d D. eexists. split; [reflexivity|]. repeat split. Qed.
Print Assumptions C104_random.

(** Every entry is five times the complex number of the two draws. *)
Theorem C104_random_entries : forall (R : sring) (im : R) a b d D p, let m := imps_random im a b d D p in length (i_data m) = p /\ 
  forall k A, nth_error (i_data m) k = Some A -> phys A = d /\ dl A = D /\ dr A = D /\
    forall s i j, ent A s i j = (1 + 1 + 1 + 1 + 1) * a k s i j + im * ((1 + 1 + 1 + 1 + 1) * b k s i j).
Proof. exact (@random_entries). Qed.
Print Assumptions C104_random_entries.

Theorem C104_no_iterations : forall (R : sring) (C : icalls R) im eps field small rnd, find_ground_state C im eps field small rnd 0 = do m <- ilcan C rnd; Ok (m, []).
Proof. reflexivity. Qed.
Print Assumptions C104_no_iterations.

(** A field that turns the state into minus itself, with an energy that depends on the sign. *)
Definition gsF (m : imps Qi) : res (imps Qi * Qi) := do v <- imps_mul m (qi 0 (-2)); Ok (v, match i_data m with A :: _ => ent A 0%nat 0%nat 0%nat | [] => 0 end).

Definition gsr := the (one_site itA, []) (find_ground_state itC (qi 0 1) (qi 1 0) gsF (fun _ => false) (one_site itA) 1).
Lemma gsr_ok : find_ground_state itC (qi 0 1) (qi 1 0) gsF (fun _ => false) (one_site itA) 1 = Ok gsr.
Proof. exact (the_ok (one_site itA, []) (find_ground_state itC (qi 0 1) (qi 1 0) gsF (fun _ => false) (one_site itA) 1) (eq_refl true <: runs (find_ground_state itC (qi 0 1) (qi 1 0) gsF (fun _ => false) (one_site itA) 1) = true)). Qed.
Definition gsv := the (one_site itA, 0) (gsF (fst gsr)).
Lemma gsv_ok : gsF (fst gsr) = Ok gsv.
Proof. exact (the_ok (one_site itA, 0) (gsF (fst gsr)) (eq_refl true <: runs (gsF (fst gsr)) = true)). Qed.

(** The last entry of es is not the energy of the returned state. *)
Theorem C104_last_energy_refuted : exists (C : icalls Qi) im eps field small rnd maxiters psi es v e, icalls_ok nonnegQ C /\ good_envs nonnegQ C 2 2 /\ icell 2 2 rnd /\
  (forall m v e, icell 2 2 m -> field m = Ok (v, e) -> icell 2 2 v) /\
  find_ground_state C im eps field small rnd maxiters = Ok (psi, es) /\ es <> [] /\ field psi = Ok (v, e) /\ last es 0 <> e.
Proof.
  exists itC, (qi 0 1), (qi 1 0), gsF, (fun _ => false), (one_site itA), 1%nat,
    (fst gsr),
    (snd gsr),
    (fst gsv),
    (snd gsv).
  split; [apply icQ_ok; vm_compute; reflexivity|]. split; [apply good_b_sound; vm_compute; reflexivity|]. split; [exists itA; repeat split|].
  split. { intros m v e Hm E. unfold gsF in E. destruct (imps_mul m (qi 0 (-2))) as [w|] eqn:Ew; [|discriminate]. injection E as <- _. exact (mul_cell 2 2 m w _ Hm Ew). }
  split. { rewrite <- (surjective_pairing gsr). exact gsr_ok. }
  split.
  { assert (G : forall l : list Qi, Nat.eqb (length l) 1 = true -> l <> []) by (intros [|x l] H; discriminate). apply G. vm_compute. reflexivity. }
  split. { rewrite <- (surjective_pairing gsv). exact gsv_ok. }
  intros K. apply (f_equal (fun z => Qi_eqb z (qi (3 # 5) 0))) in K. vm_compute in K. discriminate.
Qed.
Print Assumptions C104_last_energy_refuted.

Example C104_example : match find_ground_state itC (qi 0 1) (qi 1 0) gsF (fun _ => false) (one_site itA) 2 with
  | Ok (psi, [a; b]) => Qi_eqb a (qi (3 # 5) 0) && Qi_eqb b (qi (-3 # 5) 0) | _ => false end = true.
Proof. vm_compute. reflexivity. Qed.
