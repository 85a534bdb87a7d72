(** Model of left_from_state and right_from_state of /repo/xmps/fMPS.py:284-345. *)
From Verif Require Import Alg ModelMPS ModelOrth ModelCanon.

Section Model.
Context {R : sring}.
Local Open Scope sr_scope.

(** A state tensor with L axes of equal length d (fMPS.py:289-290 reads L and d
    from its shape; unequal axes are not modelled). *)
Record state : Type := mkSt { stL : nat; std : nat; ste : list nat -> R }.

(** The multi-index of position r in the C-ordered / F-ordered flattening of
    an array with n axes of length d (reshape at fMPS.py:295, 326). *)
Fixpoint digitsC (d n r : nat) : list nat :=
  match n with
  | O => []
  | S n => digitsC d n (r / d)%nat ++ [(r mod d)%nat]
  end.
Fixpoint digitsF (d n r : nat) : list nat :=
  match n with
  | O => []
  | S n => (r mod d)%nat :: digitsF d n (r / d)%nat
  end.

(** M.reshape(nr, -1, order='C') (fMPS.py:326). *)
Definition reshapeC (nr : nat) (M : mat R) : res (mat R) :=
  if negb (Nat.eqb nr 0) && Nat.eqb ((mr M * mc M) mod nr) 0
  then let nc := (mr M * mc M / nr)%nat in
       Ok (mkMat nr nc (fun r c => me M ((r * nc + c) / mc M)%nat ((r * nc + c) mod mc M)%nat))
  else Err ValueError.

(** M.reshape(-1, nc, order='F') (fMPS.py:295). *)
Definition reshapeF (nc : nat) (M : mat R) : res (mat R) :=
  if negb (Nat.eqb nc 0) && Nat.eqb ((mr M * mc M) mod nc) 0
  then let nr := (mr M * mc M / nc)%nat in
       Ok (mkMat nr nc (fun r c => me M ((r + nr * c) mod mr M)%nat ((r + nr * c) / mr M)%nat))
  else Err ValueError.

(** fMPS.py:325-329 and 332-334: the loop n = L, ..., 1 of right_from_state; the
    tensors and the entries of Ls come out in site order (Bs[1:], Ls[::-1]).
    [Psi] is the current array as a matrix; the last one (1x1) is dropped by
    the caller. *)
Fixpoint right_split (O : lapack2 R) (d n : nat) (Psi : mat R)
    (acc : list (site R * (nat * (nat -> R)))) : res (mat R * list (site R * (nat * (nat -> R)))) :=
  match n with
  | 0%nat => Ok (Psi, acc)
  | S n' =>
      do M <- reshapeC (Nat.pow d n') Psi;
      match la_svd O M with
      | None => Err LinAlgError
      | Some (U, Sv, V) =>
          let k := Nat.min (mr M) (mc M) in
          do Psi' <- mdot U (mdiag k Sv);
          do B <- chop1 d V;
          right_split O d n' Psi' ((B, (k, Sv)) :: acc)
      end
  end.

(** fMPS.py:294-298 and 301-302: the loop of left_from_state, [n] sites to go. *)
Fixpoint left_split (O : lapack2 R) (d n : nat) (Psi : mat R)
    (acc : list (site R * (nat * (nat -> R)))) : res (mat R * list (site R * (nat * (nat -> R)))) :=
  match n with
  | 0%nat => Ok (Psi, acc)
  | S n' =>
      do M <- reshapeF (Nat.pow d n') Psi;
      match la_svd O M with
      | None => Err LinAlgError
      | Some (U, Sv, V) =>
          let k := Nat.min (mr M) (mc M) in
          do A <- chop0 d U;
          do Psi' <- mdot (mdiag k Sv) V;
          left_split O d n' Psi' (acc ++ [(A, (k, Sv))])
      end
  end.

(** fMPS.py:315-345, right_from_state: the object and self.Ls (each a vector of
    given length, for the diagonal matrix).  The state, as a d^L x 1 array in C
    order.  A state with no axes raises at state.shape[0]. *)
Definition right_from_state (O : lapack2 R) (st : state) : res (fmps R * list (nat * (nat -> R))) :=
  if Nat.eqb (stL st) 0 then Err IndexError else
  do r <- right_split O (std st) (stL st)
            (mkMat (Nat.pow (std st) (stL st)) 1 (fun r _ => ste st (digitsC (std st) (stL st) r))) [];
  let data := map fst (snd r) in
  do D <- max_bond data;
  Ok (mkF data (stL st) (std st) D (Some false) (Some true) (Some 0%nat) None, map snd (snd r)).

(** fMPS.py:284-313, left_from_state; the state as a 1 x d^L array in F order. *)
Definition left_from_state (O : lapack2 R) (st : state) : res (fmps R * list (nat * (nat -> R))) :=
  if Nat.eqb (stL st) 0 then Err IndexError else
  do r <- left_split O (std st) (stL st)
            (mkMat 1 (Nat.pow (std st) (stL st)) (fun _ c => ste st (digitsF (std st) (stL st) c))) [];
  let data := map fst (snd r) in
  do D <- max_bond data;
  Ok (mkF data (stL st) (std st) D (Some false) (Some true) (Some (stL st)) None, map snd (snd r)).

End Model.
Arguments state R : clear implicits.
