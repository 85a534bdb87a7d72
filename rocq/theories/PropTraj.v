(** Trajectories: history, Runge-Kutta step, bond bookkeeping, Lyapunov means
    (C34, C35, C36, C38). *)
From Coq Require Import QArith.
From Verif Require Import Alg QScalars ModelMPS SpecMPS ModelStruct SpecStruct ModelOrth ModelCanon SpecCanon ModelPad
  Oracle Oracle2 ExOrth ExStruct ModelTraj SpecTraj ProofTraj ProofRK ExTraj.
Local Open Scope nat_scope.
Local Open Scope sr_scope.

(** C34.  eulerint, rk4int and invfreeint are integrate with their preparation
    and step (ModelTraj.v). *)
Theorem C34_history : forall (R : sring) start (I : imag R) step (tr tr' : traj R) (T : list R),
  integrate start I step tr T = Ok tr' ->
  exists x0 xs y vs,
    start (tmps tr) = Ok x0 /\
    length xs = length T /\ iterates (step (nth 1 T 0 - nth 0 T 0)) x0 (xs ++ [y]) /\
    Forall2 (fun x v => serialize_real I x = Ok v) xs vs /\
    thist tr' = thist tr ++ vs /\ tDs tr' = tDs tr ++ map fD xs /\ tmps0 tr' = tmps0 tr /\
    (imag_ok I -> forall ys z, xs = ys ++ [z] -> fits z (fD x0) -> fL z = fL x0 -> fd z = fd x0 ->
       same_tensors z (tmps tr') /\ fL (tmps tr') = fL z /\ fd (tmps tr') = fd z).
Proof. exact (fun R start I step tr tr' T => integrate_ok start I step tr T tr'). Qed.
Print Assumptions C34_history.

Theorem C34_eulerint_starts_canonical : forall (R : sring) (O : lapack2 R) (I : imag R) dA (tr tr' : traj R) (T : list R),
  eulerint O I dA tr T = Ok tr' ->
  exists x0 Ls xs y vs,
    left_canonicalise O (tmps tr) None true true = Ok (x0, Ls) /\
    length xs = length T /\ iterates (euler_step O dA (nth 1 T 0 - nth 0 T 0)) x0 (xs ++ [y]) /\
    Forall2 (fun x v => serialize_real I x = Ok v) xs vs /\ thist tr' = thist tr ++ vs.
Proof. exact (@eulerint_ok). Qed.
Print Assumptions C34_eulerint_starts_canonical.

Theorem C34_rk4int_starts_canonical : forall (R : sring) (O : lapack2 R) (I : imag R) half sixth dA (tr tr' : traj R) (T : list R),
  rk4int O I half sixth dA tr T = Ok tr' ->
  exists x0 Ls xs y vs,
    left_canonicalise O (tmps tr) None true true = Ok (x0, Ls) /\
    length xs = length T /\ iterates (rk4_step O half sixth dA (nth 1 T 0 - nth 0 T 0)) x0 (xs ++ [y]) /\
    Forall2 (fun x v => serialize_real I x = Ok v) xs vs /\ thist tr' = thist tr ++ vs.
Proof. exact (@rk4int_ok). Qed.
Print Assumptions C34_rk4int_starts_canonical.

(** no sequence of calls loses an entry *)
Theorem C34_history_only_grows : forall (R : sring) (O : lapack2 R) (I : imag R) (tr tr' : traj R),
  later O I tr tr' -> exists vs, thist tr' = thist tr ++ vs.
Proof. exact (@later_grows). Qed.
Print Assumptions C34_history_only_grows.

(** grids with fewer than two points *)
Theorem C34_short_grids : forall (R : sring) start (I : imag R) step (tr : traj R) (T : list R) x0,
  start (tmps tr) = Ok x0 -> (T = [] /\ thist tr = []) \/ length T = 1%nat ->
  integrate start I step tr T = Err IndexError.
Proof. exact (@integrate_grid). Qed.
Print Assumptions C34_short_grids.

Example C34_example :
  match eulerint exLAt qimag exKick exTr0 exT with
  | Ok tr => Nat.eqb (length (thist tr)) 3 && Qi_eqb (psi (tmps tr) [0; 0]%nat) s1
             && qlist_eqb (nth 1 (thist tr) []) [s0; s1; s0; s1; s0; s0; s0; s0]
  | Err _ => false end = true.
Proof. exact ex_euler. Qed.

(** C35 *)
Theorem C35_classical_step : forall (R : sring) sh F (dA : fmps R -> res (fmps R)), is_field sh F dA -> sh <> [] ->
  forall half sixth dt m, shapes (fdata m) = sh ->
  exists m', rk4_point half sixth dA dt m = Ok m' /\ shapes (fdata m') = sh /\
    agree sh (entries (fdata m')) (classical_rk4 half sixth dt F (entries (fdata m))).
Proof. exact (@rk4_classical). Qed.
Print Assumptions C35_classical_step.

(** on a linear field the step is the Taylor polynomial of degree four *)
Theorem C35_taylor : forall (R : sring) sh F (dA : fmps R -> res (fmps R)), is_field sh F dA -> sh <> [] -> linear sh F ->
  forall half sixth dt m, (1 + 1) * half = 1 -> (1 + 1 + 1) * sixth = half -> shapes (fdata m) = sh ->
  let x := entries (fdata m) in
  exists m', rk4_point half sixth dA dt m = Ok m' /\ shapes (fdata m') = sh /\
    agree sh (entries (fdata m'))
      (fun p => x p + dt * F x p + half * (dt * dt) * F (F x) p + sixth * (dt * dt * dt) * F (F (F x)) p
                + half * half * sixth * (dt * dt * dt * dt) * F (F (F (F x))) p).
Proof. exact (@rk4_taylor_step). Qed.
Print Assumptions C35_taylor.

Theorem C35_itdvp_refuted : exists (half sixth dt : Qi) dA m m' p,
  smul (sadd s1 s1) half = s1 /\ smul (sadd (sadd s1 s1) s1) sixth = half /\ (forall l, dA l = Ok l) /\
  irk4_point half sixth dA dt m = Ok m' /\ within (shapes m) p /\
  entries m' p <> classical_rk4 half sixth dt (fun f => f) (entries m) p.
Proof. exact ex_irk4. Qed.
Print Assumptions C35_itdvp_refuted.

Example C35_example : is_field [(2,1,1);(2,1,1)]%nat exSpin exSpinA /\ linear [(2,1,1);(2,1,1)]%nat exSpin /\
  shapes (fdata exT0) = [(2,1,1);(2,1,1)]%nat /\
  match rk4_point (qi (1#2) 0) (qi (1#6) 0) exSpinA (qi 1 0) exT0 with
  | Ok m => Qi_eqb (entries (fdata m) (0, 0, 0, 0)%nat) (qi (13#24) 0)
            && Qi_eqb (entries (fdata m) (1, 1, 0, 0)%nat) (qi (5#6) 0)
  | Err _ => false end = true.
Proof. exact (conj (proj1 ex_field) (conj (proj2 ex_field) (conj eq_refl ex_rk4))). Qed.

(** C36 *)
Theorem C36_entries_decode : forall (R : sring) (O : lapack2 R) (I : imag R) tr xs,
  imag_ok I -> run O I tr xs -> xs <> [] ->
  exists ms, mps_list I tr = Ok ms /\ Forall2 same_tensors xs ms.
Proof. exact (@mps_list_ok). Qed.
Print Assumptions C36_entries_decode.

Theorem C36_lengths : forall (R : sring) (O : lapack2 R) (I : imag R) tr xs, imag_ok I -> run O I tr xs ->
  length (thist tr) = length xs /\ length (tDs tr) = S (length (thist tr)).
Proof. exact (@run_lengths). Qed.
Print Assumptions C36_lengths.

Theorem C36_clear_refuted : exists (O : lapack2 Qi) (I : imag Qi) tr tr1 tr2 tr0 trf xs step T ms,
  imag_ok I /\ run O I tr xs /\ traj_clear tr = Ok tr1 /\ invfreeint I step tr1 T = Ok tr2 /\
  mps_list I tr2 = Err ValueError /\
  traj_init (tmps tr1) = Ok tr0 /\ invfreeint I step tr0 T = Ok trf /\
  mps_list I trf = Ok ms.
Proof. exact ex_clear. Qed.
Print Assumptions C36_clear_refuted.

(** eulerint after expand fails although both succeed separately *)
Theorem C36_expand_then_eulerint_refuted : exists (O : lapack2 Qi) (I : imag Qi) tr tr' tr'' xs dA D T,
  svd_ok O /\ imag_ok I /\ run O I tr xs /\ traj_expand O tr D = Ok tr' /\ fits (tmps tr') D /\
  eulerint O I dA tr T = Ok tr'' /\ eulerint O I dA tr' T = Err ValueError.
Proof. exact ex_expand_lost. Qed.
Print Assumptions C36_expand_then_eulerint_refuted.

Example C36_example : imag_ok qimag /\ run exLAt qimag exTr3 (exXs ++ exYs) /\ exXs ++ exYs <> [].
Proof. split; [exact qimag_ok|]. split; [exact exRun|]. unfold exXs. discriminate. Qed.

(** C38 *)
Theorem C38_running_means : forall (R : sring) w (half : R) div (rs : list (list R * list R)),
  (forall m, sofnat (S m) * div m = 1) ->
  Forall (fun p => length (fst p) = w /\ length (snd p) = w) rs ->
  exists exps lys_ exps_, lyapunov half div rs = Ok (map fst rs, exps, (lys_, exps_)) /\
    length exps = S (length rs) /\ length exps_ = S (length rs) /\
    forall n, n < length rs ->
      length (nth (S n) exps []) = w /\ length (nth (S n) exps_ []) = w /\
      forall c, c < w ->
        sofnat (S n) * nth c (nth (S n) exps []) 0 = sum (S n) (fun k => nth c (fst (nth k rs ([], []))) 0) /\
        sofnat (S n) * nth c (nth (S n) exps_ []) 0
          = sum (S n) (fun k => (nth c (fst (nth k rs ([], []))) 0 + nth c (snd (nth k rs ([], []))) 0) * half).
Proof. exact (@lyapunov_ok). Qed.
Print Assumptions C38_running_means.

Example C38_example : (forall m, smul (sofnat (R := Qi) (S m)) (exDiv m) = s1) /\
  match lyapunov (qi (1#2) 0) exDiv [([qi 4 0; qi 1 0], [qi 0 0; qi 1 0]); ([qi 2 0; qi 3 0], [qi 2 0; qi 3 0]);
                                     ([qi 3 0; qi (-1) 0], [qi 1 0; qi 5 0])] with
  | Ok (_, exps, (_, exps_)) => qlist_eqb (nth 3 exps []) [qi 3 0; qi 1 0] && qlist_eqb (nth 3 exps_ []) [qi 2 0; qi 2 0]
                                && qlist_eqb (nth 2 exps []) [qi 3 0; qi 2 0]
  | Err _ => false end = true.
Proof. exact (conj exDiv_ok ex_lyap). Qed.
