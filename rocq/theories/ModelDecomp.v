(** Model of the matrix helpers of /repo/xmps/tensor.py: unique QR and RQ, embedding of
    a vector in a unitary, direct sums, completion of an isometry, null vectors,
    rotation to a Hermitian matrix. *)
From Verif Require Import Alg ModelMPS ModelOrth ModelCanon ModelTensor.

Section Model.
Context {R : sring}.
Local Open Scope sr_scope.

(** What the functions call in numpy and scipy; [None] is an exception there.
    qr(mode='economic') (tensor.py:62, 69), rq(mode='economic') (tensor.py:68), qr in
    full mode (tensor.py:370), sign (tensor.py:63, 70), null_space (tensor.py:46, 90,
    91), norm of all entries with its inverse (tensor.py:45; the zero vector gives nan,
    which null_space rejects with ValueError), division (tensor.py:250; None for zero
    divisors, numpy gives nan and a warning) and sqrt (tensor.py:250; total on the
    complex numbers, partial here so that the contract can hold over rationals). *)
Record decomp : Type := mkDec
  { de_qr : mat R -> option (mat R * mat R);
    de_rq : mat R -> option (mat R * mat R);
    de_qrf : mat R -> option (mat R * mat R);
    de_sgn : R -> R;
    de_null : mat R -> option (mat R);
    de_nrm : mat R -> option (R * R);
    de_quot : R -> R -> option R;
    de_sqrt : R -> option R }.

(** The @ of two matrices (tensor.py:64, 71). *)
Definition mprod (A B : mat R) : res (mat R) :=
  if Nat.eqb (mc A) (mr B)
  then Ok (mkMat (mr A) (mc B) (fun i j => sum (mc A) (fun k => me A i k * me B k j)))
  else Err ValueError.

(** diag(sign(diag(r))) (tensor.py:63, 70): square of the length of the diagonal. *)
Definition signs (O : decomp) (r : mat R) : mat R :=
  mdiag (Nat.min (mr r) (mc r)) (fun i => de_sgn O (me r i i)).

(** tensor.py:60-64, uqr. *)
Definition uqr (O : decomp) (A : mat R) : res (mat R * mat R) :=
  match de_qr O A with
  | None => Err LinAlgError
  | Some (q, r) =>
      do q' <- mprod q (signs O r);
      do r' <- mprod (signs O r) r;
      Ok (q', r')
  end.

(** tensor.py:66-71, urq; the second factorisation is computed and dropped. *)
Definition urq (O : decomp) (A : mat R) : res (mat R * mat R) :=
  match de_rq O A with
  | None => Err LinAlgError
  | Some (r, q) =>
      match de_qr O A with
      | None => Err LinAlgError
      | Some _ =>
          do r' <- mprod r (signs O r);
          do q' <- mprod (signs O r) q;
          Ok (r', q')
      end
  end.

(** concatenate([A, B], 1) and concatenate([A, B], 0) (tensor.py:47, 94, 96). *)
Definition hcat (A B : mat R) : res (mat R) :=
  if Nat.eqb (mr A) (mr B)
  then Ok (mkMat (mr A) (mc A + mc B) (fun i j => if Nat.ltb j (mc A) then me A i j else me B i (j - mc A)))
  else Err ValueError.
Definition vcat (A B : mat R) : res (mat R) :=
  if Nat.eqb (mc A) (mc B)
  then Ok (mkMat (mr A + mr B) (mc A) (fun i j => if Nat.ltb i (mr A) then me A i j else me B (i - mr A) j))
  else Err ValueError.

(** v.reshape(1, -1) (tensor.py:45): row-major. *)
Definition as_row (v : mat R) : mat R :=
  mkMat 1 (mr v * mc v) (fun _ j => me v (j / mc v)%nat (j mod mc v)%nat).

(** The transpose of a matrix (tensor.py:47, 81). *)
Definition mtr (M : mat R) : mat R := mkMat (mc M) (mr M) (fun i j => me M j i).
(** .conj().T of a matrix (tensor.py:46, 91, 96). *)
Definition mct (M : mat R) : mat R := mkMat (mc M) (mr M) (fun i j => sconj (me M j i)).

(** tensor.py:36-47, embed, for a matrix v. *)
Definition embed (O : decomp) (v : mat R) : res (mat R) :=
  match de_nrm O v with
  | None => Err ValueError
  | Some (_, ninv) =>
      let row := mkMat 1 (mr v * mc v) (fun i j => me (as_row v) i j * ninv) in
      match de_null O row with
      | None => Err LinAlgError
      | Some N => do M <- vcat row (mct N); Ok (mtr M)
      end
  end.

(** tensor.py:49-58, deembed. *)
Definition deembed (u : mat R) : res (mat R) :=
  do c <- mprod u (mkMat 4 1 (fun i _ => dlt i 0));
  if Nat.eqb (mr c) 4 then Ok (mkMat 2 2 (fun i j => me c (i * 2 + j)%nat O)) else Err ValueError.

(** tensor.py:78-81, direct_sum: block([[A, O], [O.T, B]]) with O of shape (a2, b1). *)
Definition direct_sum (A B : mat R) : res (mat R) :=
  let Z := mkMat (mc A) (mr B) (fun _ _ => 0) in
  do top <- hcat A Z;
  do bot <- hcat (mtr Z) B;
  vcat top bot.

(** tensor.py:86-104, unitary_extension. *)
Definition unitary_extension (O : decomp) (Q : mat R) (D : option nat) : res (mat R) :=
  match de_null O Q with
  | None => Err LinAlgError
  | Some N1 =>
      match de_null O (mct Q) with
      | None => Err LinAlgError
      | Some N2 =>
          do Q' <- (if Nat.ltb (mc Q) (mr Q) then hcat Q N2
                    else if Nat.ltb (mr Q) (mc Q) then do T <- hcat (mct Q) N1; Ok (mct T)
                    else Ok Q);
          match D with
          | None => Ok Q'
          | Some D => if Nat.ltb (mr Q') D then direct_sum Q' (mid (D - mr Q')) else Ok Q'
          end
      end
  end.

(** tensor.py:363-371, get_null_space: the columns of Q from A.shape[0] on. *)
Definition get_null_space (O : decomp) (A : mat R) : res (mat R) :=
  match de_qrf O (mct A) with
  | None => Err LinAlgError
  | Some (Q, _) => Ok (mkMat (mr Q) (mc Q - mr A) (fun i j => me Q i (mr A + j)%nat))
  end.

(** tensor.py:244-253, rotate_to_hermitian with ret_phase=True: the phase and the
    rotated matrix (the second component is what is returned without ret_phase). *)
Definition rotate_to_hermitian (O : decomp) (r : mat R) : res (R * mat R) :=
  if (Nat.ltb 0 (mr r) && Nat.ltb 0 (mc r))%bool then
    match de_quot O (sconj (me r 0%nat 0%nat)) (me r 0%nat 0%nat) with
    | None => Err ValueError
    | Some x =>
        match de_sqrt O x with
        | None => Err ValueError
        | Some w => Ok (sconj w, mkMat (mr r) (mc r) (fun i j => me r i j * w))
        end
    end
  else Err IndexError.
End Model.
Arguments decomp : clear implicits.
