(** Property theorems C17: state -> MPS -> state. *)
From Coq Require Import QArith.
From Verif Require Import Alg QScalars ModelMPS SpecMPS ModelOrth SpecOrth ModelCanon SpecCanon
  ModelState SpecState ProofState Oracle Oracle2 ExOrth ExCanon.
Local Open Scope nat_scope.
Local Open Scope sr_scope.

(** C17 *)
Theorem C17_right_from_state : forall (R : sring) (O : lapack2 R) (st : state R),
  svd_ok O -> 0 < std st -> 0 < stL st ->
  match right_from_state O st with
  | Err e => e = LinAlgError /\ exists M, la_svd O M = None
  | Ok (m, Ls) => (exists c, state_ok st m c) /\ Forall right_iso (fdata m) /\
      fcan m = Some false /\ forth m = Some true /\ foc m = Some 0%nat /\
      length Ls = stL st /\
      (forall i k Sv, nth_error Ls i = Some (k, Sv) -> schmidt (std st) (stL st) i (ste st) k Sv)
  end.
Proof. exact (@right_from_state_ok). Qed.
Print Assumptions C17_right_from_state.

Theorem C17_left_from_state : forall (R : sring) (O : lapack2 R) (st : state R),
  svd_ok O -> 0 < std st -> 0 < stL st ->
  match left_from_state O st with
  | Err e => e = LinAlgError /\ exists M, la_svd O M = None
  | Ok (m, Ls) => (exists c, state_ok st m c) /\ Forall left_iso (fdata m) /\
      fcan m = Some false /\ forth m = Some true /\ foc m = Some (stL st) /\
      length Ls = stL st /\
      (forall i k Sv, nth_error Ls i = Some (k, Sv) -> schmidt (std st) (stL st) (i + 1) (ste st) k Sv)
  end.
Proof. exact (@left_from_state_ok). Qed.
Print Assumptions C17_left_from_state.

(** The state 3|01> + 4|10>. *)
Definition exSt : state Qi := mkSt 2 2 (fun s => match s with
  | [x; y] => if Nat.eqb x y then qi 0 0 else if Nat.eqb x 0 then qi 3 0 else qi 4 0
  | _ => qi 7 0 end).
Definition exStLA : lapack2 Qi := oracle2 true
  [(qmat 2 2 [qi 0 0; qi 1 0; qi 1 0; qi 0 0], [qi 4 0; qi 3 0], qmat 2 2 [qi 1 0; qi 0 0; qi 0 0; qi 1 0]);
   (qmat 1 1 [qi 1 0], [qi 5 0], qmat 1 4 [qi 0 0; qi (3#5) 0; qi (4#5) 0; qi 0 0]);
   (qmat 4 1 [qi (4#5) 0; qi 0 0; qi 0 0; qi (3#5) 0], [qi 5 0], qmat 1 1 [qi 1 0])] [] [].

Example C17_example : svd_ok exStLA /\
  match right_from_state exStLA exSt, left_from_state exStLA exSt with
  | Ok (m, _), Ok (m', Ls) =>
      qlist_eqb [psi m [0;0]; psi m [0;1]; psi m [1;0]; psi m [1;1]]%nat [qi 0 0; qi (3#5) 0; qi (4#5) 0; qi 0 0] &&
      qlist_eqb [psi m' [0;0]; psi m' [0;1]; psi m' [1;0]; psi m' [1;1]]%nat [qi 0 0; qi (3#5) 0; qi (4#5) 0; qi 0 0] &&
      Nat.eqb (length Ls) 2 && Nat.eqb (fD m) 2
  | _, _ => false end = true.
Proof. split; [apply oracle2_svd|]. vm_compute. reflexivity. Qed.
