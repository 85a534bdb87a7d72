(** Property theorems C102: trajectories of infinite MPS. *)
From Coq Require Import QArith Qcanon.
From Verif Require Import Alg QScalars ModelMPS SpecMPS ModelOrth SpecOrth Oracle ModelCanon SpecCanon Oracle2 ExOrth ModelStruct ExStruct
  ModelNp ModelDecomp SpecDecomp ExDecomp ModelTraj SpecTraj ModelImps SpecImps ExImps ExApprox PropImpsFix ModelItraj SpecItraj ProofItraj ProofItraj2 ExItraj.
Local Open Scope nat_scope.
Local Open Scope sr_scope.

(** eulerint stores one state per time point, before the step; the states are the orbit of the
    Euler step from the canonicalised state, all left canonical; the last step is not kept. *)
Theorem C102_eulerint : forall (R : sring) (nonneg : R -> Prop) (C : icalls R) (I : imag R) dA d D (tr tr' : itraj R) T,
  icalls_ok nonneg C -> good_envs nonneg C d D -> imag_ok I -> keeps d D dA -> icell d D (it_mps tr) ->
  ieulerint C I dA tr T = Ok tr' ->
  exists x0 xs y vs, ilcan C (it_mps tr) = Ok x0 /\ length xs = length T /\ orbit (ieuler_step C dA (nth 1 T 0 - nth 0 T 0)) x0 (xs ++ [y]) /\
    Forall (icanon d D) (xs ++ [y]) /\ Forall2 (fun x v => imps_serialize_real I x = Ok v) xs vs /\
    it_hist tr' = it_hist tr ++ vs /\ it_Ds tr' = it_Ds tr ++ repeat D (length T) /\ it_mps0 tr' = it_mps0 tr /\
    (forall ys z, xs = ys ++ [z] -> icell d D (it_mps tr') /\ same_cell z (it_mps tr')).
Proof.
  intros R nonneg C I dA d D tr tr' T HC HG HI HK Hm E. refine (iintegrate_ok nonneg C I _ d D tr T tr' HC HG HI _ Hm E).
  intros dt m m' H1 H2. exact (ieuler_canon nonneg C dA d D dt m m' HC HG HK H1 H2).
Qed.
Print Assumptions C102_eulerint.

Theorem C102_rk4int : forall (R : sring) (nonneg : R -> Prop) (C : icalls R) (I : imag R) dA d D (tr tr' : itraj R) T,
  icalls_ok nonneg C -> good_envs nonneg C d D -> imag_ok I -> keeps d D dA -> icell d D (it_mps tr) ->
  irk4int C I dA tr T = Ok tr' ->
  exists x0 xs y vs, ilcan C (it_mps tr) = Ok x0 /\ length xs = length T /\ orbit (irk4_step C dA (nth 1 T 0 - nth 0 T 0)) x0 (xs ++ [y]) /\
    Forall (icanon d D) (xs ++ [y]) /\ Forall2 (fun x v => imps_serialize_real I x = Ok v) xs vs /\
    it_hist tr' = it_hist tr ++ vs /\ it_Ds tr' = it_Ds tr ++ repeat D (length T) /\ it_mps0 tr' = it_mps0 tr /\
    (forall ys z, xs = ys ++ [z] -> icell d D (it_mps tr') /\ same_cell z (it_mps tr')).
Proof.
  intros R nonneg C I dA d D tr tr' T HC HG HI HK Hm E. refine (iintegrate_ok nonneg C I _ d D tr T tr' HC HG HI _ Hm E).
  intros dt m m' H1 H2. exact (irk4_canon nonneg C dA d D dt m m' HC HG HK H1 H2).
Qed.
Print Assumptions C102_rk4int.

(** grids with fewer than two points *)
Theorem C102_short_grids : forall (R : sring) (C : icalls R) (I : imag R) dA (tr : itraj R) T x0, ilcan C (it_mps tr) = Ok x0 ->
  (T = [] /\ it_hist tr = []) \/ length T = 1%nat -> ieulerint C I dA tr T = Err IndexError /\ irk4int C I dA tr T = Err IndexError.
Proof. intros R C I dA tr T x0 E H. split; exact (iintegrate_grid C I _ tr T x0 E H). Qed.
Print Assumptions C102_short_grids.

(** loschmidts: one number per stored state, -log of the squared modulus of an eigenvalue of the
    mixed transfer map of the state and the first one. *)
Theorem C102_loschmidts : forall (R : sring) (nonneg : R -> Prop) (C : icalls R) (I : imag R) (nabs nlog : R -> R) d D,
  icalls_ok nonneg C -> good_envs nonneg C d D -> imag_ok I -> @integral R -> (forall z : R, nonneg (z * sconj z)) -> ~ nonneg (- (1)) ->
  (forall x, de_sgn (ic_dec C) x = 0 \/ de_sgn (ic_dec C) x * sconj (de_sgn (ic_dec C) x) = 1) ->
  (forall n f v0 eta v, ic_arn C n f v0 = Some (eta, v) -> hdot v v = 1) ->
  forall tr x0 xs rs, Forall2 (fun x v => imps_serialize_real I x = Ok v) (x0 :: xs) (it_hist tr) -> Forall (icell d D) (x0 :: xs) ->
  icell d D (it_mps tr) -> it_Ds tr = repeat D (S (length (x0 :: xs))) -> iloschmidts C I nabs nlog tr = Ok rs ->
  Forall2 (fun x r => exists eta, overlap_per_site D x x0 eta /\ r = - nlog (nabs (nabs eta * nabs eta))) (x0 :: xs) rs.
Proof. exact @iloschmidts_ok. Qed.
Print Assumptions C102_loschmidts.

Theorem C102_no_history : forall (R : sring) (C : icalls R) (I : imag R) nabs nlog (tr : itraj R),
  it_hist tr = [] -> iloschmidts C I nabs nlog tr = Err AssertionError.
Proof. intros R C I nabs nlog tr H. unfold iloschmidts. now rewrite H. Qed.
Print Assumptions C102_no_history.

(** rk4 is not a Runge-Kutta step: such a step adds dt times the field when the field is
    constant, as euler does. *)
Theorem C102_rk4_refuted : exists (C : icalls Qi) dA v dt m m1 m2 A1 A2, icalls_ok nonnegQ C /\ (forall x, dA x = Ok v) /\ icanon 2 2 m /\
  ieuler_step C dA dt m = Ok m1 /\ irk4_step C dA dt m = Ok m2 /\ i_data m1 = [A1] /\ i_data m2 = [A2] /\ ent A1 0%nat 0%nat 0%nat <> ent A2 0%nat 0%nat 0%nat.
Proof.
  exists itC9, itK, (the (one_site itA) (itK (one_site itA))), (qi 4 0), (one_site itA),
    (the (one_site itA) (ieuler_step itC9 itK (qi 4 0) (one_site itA))), (the (one_site itA) (irk4_step itC9 itK (qi 4 0) (one_site itA))),
    (nth 0 (i_data (the (one_site itA) (ieuler_step itC9 itK (qi 4 0) (one_site itA)))) itA),
    (nth 0 (i_data (the (one_site itA) (irk4_step itC9 itK (qi 4 0) (one_site itA)))) itA).
  split; [apply icQ_ok; vm_compute; reflexivity|].
  split. { intros x. apply (the_ok (one_site itA) (itK (one_site itA))). vm_compute. reflexivity. }
  split. { split; [exists itA; repeat split|]. exists itA. split; [reflexivity|]. apply left_iso_b_sound. vm_compute. reflexivity. }
  split; [apply the_ok; vm_compute; reflexivity|]. split; [apply the_ok; vm_compute; reflexivity|].
  assert (G : forall (l : list (site Qi)) d, Nat.eqb (length l) 1 = true -> l = [nth 0 l d]) by (intros [|a [|b l]] d H; (reflexivity || discriminate)).
  split; [apply G; vm_compute; reflexivity|]. split; [apply G; vm_compute; reflexivity|].
  intros K. apply (f_equal (fun z => Qi_eqb z (qi (3 # 5) 0))) in K. vm_compute in K. discriminate.
Qed.
Print Assumptions C102_rk4_refuted.

(** the integrators go from minus to plus and back *)
Example C102_example : icalls_ok nonnegQ itC /\ good_envs nonnegQ itC 2 2 /\ imag_ok qimag /\ keeps 2 2 itF /\ icell 2 2 (it_mps itr0) /\
  match ieulerint itC qimag itF itr0 itT with
  | Ok tr => Nat.eqb (length (it_hist tr)) 2 && match i_data (it_mps tr) with [A] => Qi_eqb (ent A 0%nat 0%nat 0%nat) (qi (-3 # 5) 0) | _ => false end
             && qlist_eqb (firstn 4 (nth 0 (it_hist tr) [])) [qi (3 # 5) 0; qi 0 0; qi 0 0; qi (4 # 5) 0]
  | Err _ => false end = true.
Proof.
  split; [apply icQ_ok; vm_compute; reflexivity|]. split; [apply good_b_sound; vm_compute; reflexivity|]. split; [exact qimag_ok|].
  split. { intros m v Hm E. exact (mul_cell 2 2 m v _ Hm E). }
  split. { exists itA. repeat split. }
  vm_compute. reflexivity.
Qed.

Example C102_example_loschmidts : icalls_ok nonnegQ itC3 /\ good_envs nonnegQ itC3 2 3 /\ imag_ok qimag /\ @integral Qi /\ (forall z : Qi, nonnegQ (z * sconj z)) /\ ~ nonnegQ (- (1)) /\
  (forall x, de_sgn (ic_dec itC3) x = 0 \/ de_sgn (ic_dec itC3) x * sconj (de_sgn (ic_dec itC3) x) = 1) /\
  (forall n f v0 eta v, ic_arn itC3 n f v0 = Some (eta, v) -> hdot v v = 1) /\
  Forall2 (fun x v => imps_serialize_real qimag x = Ok v) [itB0; itB1] (it_hist itr3) /\ Forall (icell 2 3) [itB0; itB1] /\ icell 2 3 (it_mps itr3) /\ it_Ds itr3 = repeat 3%nat (S (length [itB0; itB1])) /\
  match iloschmidts itC3 qimag (fun x => x) (fun x => x) itr3 with Ok [a; b] => Qi_eqb a (qi (-1) 0) && Qi_eqb b (qi (-9 # 25) 0) | _ => false end = true.
Proof.
  split; [apply icQ_ok; vm_compute; reflexivity|]. split; [apply good_b_sound; vm_compute; reflexivity|]. split; [exact qimag_ok|].
  split; [exact Qi_integral|]. split; [exact square_nonneg|].
  split. { intros [_ H]. vm_compute in H. apply H. reflexivity. }
  split. { intros x. cbn [itC3 icQ ic_dec decQ de_sgn]. unfold sgnQ. destruct (Qccompare (fst x) 0%Qc); [left|right|right]; apply Qi_eqb_eq; vm_compute; reflexivity. }
  split. { intros n f v0 eta v H. cbn [itC3 icQ ic_arn] in H. apply find_some in H as [H _]. unfold itP3 in H. apply in_map_iff in H as (e & H & _). injection H as _ <-. apply Qi_eqb_eq. vm_compute. reflexivity. }
  split. { repeat constructor; apply the_ok; vm_compute; reflexivity. }
  split. { repeat constructor; eexists; repeat split. }
  split. { eexists; repeat split. }
  split; [reflexivity|]. vm_compute. reflexivity.
Qed.
