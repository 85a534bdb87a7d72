(** Model of E2, renyi and renyi_2_disentangler in /repo/xmps/peps_tools.py. *)
From Coq Require Import ZArith.
From Verif Require Import Alg ModelMPS ModelNcon ModelEk ModelTensor ModelImps.

Section Model.
Context {R : sring}.
Local Open Scope sr_scope.

(** peps_tools.py:67-71, E2. *)
Definition E2 (S : setio) (U th : tens R) : res (tens R) :=
  do V <- con U th [2; 3]%nat [0; 1]%nat;
  ncon S [tC U; V; tC V; V; tC V] [[7; 8; -1; -2]; [7; 8; 1; 2]; [3; -4; 4; 2]; [3; 5; 4; 6]; [-3; 5; 1; 6]]%Z None None false.

(** peps_tools.py:74-75: the argument of the logarithm in renyi, np.trace of the product as a
    square matrix.  Unpacking a shape that has not four entries is a ValueError. *)
Definition renyi_arg (S : setio) (U th : tens R) : res R :=
  match tsh th with
  | [d1; d2; _; _] =>
      do E <- E2 S U th;
      do X <- ncon S [U; E] [[-1; -2; 1; 2]; [1; 2; -3; -4]]%Z None None false;
      do M <- reshape_square (d1 * d2) X;
      Ok (sum (mr M) (fun k => me M k k))
  | _ => Err ValueError
  end.

(** peps_tools.py:73-75, renyi; nlog is numpy's log. *)
Definition renyi (S : setio) (nlog : R -> R) (U th : tens R) : res R :=
  do x <- renyi_arg S U th; Ok (- sre (nlog x)).

(** One application of E2 and polar (peps_tools.py:108 = 109): X.reshape(d1, d2, d1, d2), E2,
    reshape to a square matrix and the first factor of scipy's polar. *)
Definition dis_step (S : setio) (polar : mat R -> option (mat R)) (d1 d2 : nat) (psi : tens R) (X : mat R) : res (mat R) :=
  do T <- reshape_mat [d1; d2; d1; d2] X;
  do E <- E2 S T psi;
  do M <- reshape_square (d1 * d2) E;
  lib LinAlgError (polar M).

(** peps_tools.py:105-126, the two loops; None when the fuel is used up.  restart k is the
    unitary drawn in lines 122-124 at the k-th restart; big x is np.abs(x) > eps (117). *)
Fixpoint dis_loop (S : setio) (nlog : R -> R) (polar : mat R -> option (mat R)) (restart : nat -> mat R) (big : R -> bool) (d1 d2 : nat) (psi : tens R)
    (max_iter : nat) (fuel k : nat) (U : mat R) (m : nat) (go : bool) (Ss : list R) : option (res (mat R * list R)) :=
  match fuel with
  | 0%nat => None
  | Datatypes.S fuel =>
      if Nat.ltb m max_iter && go
      then
        match (do V <- dis_step S polar d1 d2 psi U;
               do V <- dis_step S polar d1 d2 psi V;
               do T <- reshape_mat [d1; d2; d1; d2] V;
               do x <- renyi S nlog T psi;
               let Ss := Ss ++ [x] in
               if Nat.ltb 1 m
               then do a <- getitem Ss (length Ss - 2); do b <- getitem Ss (length Ss - 1); Ok (V, Ss, big (a - b))
               else Ok (V, Ss, go)) with
        | Err e => Some (Err e)
        | Ok (V, Ss, go) => dis_loop S nlog polar restart big d1 d2 psi max_iter fuel k V (m + 1) go Ss
        end
      else if go then dis_loop S nlog polar restart big d1 d2 psi max_iter fuel (k + 1) (restart k) 0 go Ss
      else Some (Ok (U, Ss))
  end.

(** peps_tools.py:95-128, renyi_2_disentangler. *)
Definition renyi_2_disentangler (S : setio) (nlog : R -> R) (polar : mat R -> option (mat R)) (restart : nat -> mat R) (big : R -> bool)
    (psi : tens R) (max_iter fuel : nat) : option (res (mat R * list R)) :=
  match tsh psi with
  | [d1; d2; _; _] => dis_loop S nlog polar restart big d1 d2 psi max_iter fuel 0 (mkMat (d1 * d2) (d1 * d2) (fun i j => dlt i j)) 0 true []
  | _ => Some (Err ValueError)
  end.
End Model.
