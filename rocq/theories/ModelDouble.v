(** Model of the read-outs and of the dynamics of thermofield doubles, /repo/xmps/fMPS.py:
    2014-2017 and 2132-2184.  (The class is repeated in /repo/xmps/projects/fTFD.py.) *)
From Verif Require Import Alg ModelMPS ModelNcon ModelNp ModelTensor ModelSpin ModelOrth ModelCanon ModelLie ModelTan ModelTdvp ModelEk.

Section Model.
Context {R : sring}.
Local Open Scope sr_scope.

(** fMPS.py:2176, 2181: the operator on one half of a site; lr == 0 is the first half. *)
Definition tfd_op (lr : nat) (op : mat R) : mat R :=
  if Nat.eqb lr 0 then kron op (eye (mr op)) else kron (eye (mr op)) op.

(** fMPS.py:2178, 2183: trace(sum(cT(M)@tensordot(op, M, [0, 0]), axis=0)).  tensordot contracts
    the first axis of op.  (The broadcast of an operator with one column is not modelled.) *)
Definition tfd_local (M : site R) (op : mat R) : res R :=
  if Nat.eqb (mr op) (phys M) && Nat.eqb (mc op) (phys M)
  then Ok (sum (dr M) (fun j => sum (phys M) (fun s => sum (dl M) (fun i =>
             sconj (ent M s i j) * sum (phys M) (fun a => me op a s * ent M a i j)))))
  else Err ValueError.

(** fMPS.py:2170-2178, E of a thermofield double: the value and the object after the call. *)
Definition tfd_E (O : lapack2 R) (m : fmps R) (op : mat R) (site_ lr : nat) : res (R * fmps R) :=
  let op := tfd_op lr op in
  do m <- mixed_canonicalise O m site_ None true;
  do M <- getitem (fdata m) site_;
  do v <- tfd_local M op;
  Ok (sre v, m).

(** fMPS.py:2180-2184, Es: no real part is taken. *)
Definition tfd_Es (O : lapack2 R) (m : fmps R) (ops : list (mat R)) (site_ lr : nat) : res (list R * fmps R) :=
  let ops := map (tfd_op lr) ops in
  do m <- mixed_canonicalise O m site_ None true;
  do M <- getitem (fdata m) site_;
  do vs <- mapM (tfd_local M) ops;
  Ok (vs, m).

(** fMPS.py:2166: the Hamiltonian handed to fMPS.dA_dt, term by term. *)
Definition tfd_term (h : mat R) : res (mat R) := madd (kron (eye (mr h)) h) (kron h (eye (mr h))).

(** fMPS.py:2165-2168, dA_dt.  fullH is passed in the place of store_energy, so that fMPS.dA_dt
    always runs with fullH=False (store_energy has no effect on the tensors); left_null_projector
    (2146-2163) has the same text as that of fMPS (1898-1915). *)
Definition tfd_dA_dt (K : tanlib R) (S : setio) (im : R) (m : fmps R) (H : list (mat R)) (fullH : bool) (e0 : list R) : res (fmps R * list R) :=
  do H_ <- mapM tfd_term H;
  dA_dt K S im m H_ None e0.

(** fMPS.py:2014-2017, fs on an array with three axes. *)
Definition fs (X : site R) : res (site R) :=
  let p := Nat.sqrt (phys X) in
  do T <- reshape_ [p; p; dl X; dr X] (tens_site X);
  do T <- transpose_ [1; 0; 2; 3]%nat T;
  do T <- reshape_ [phys X; dl X; dr X] T;
  Ok (mkSite (phys X) (dl X) (dr X) (fun s i j => te T [s; i; j])).

(** fMPS.py:2134-2136: bd(eye(n), -eye(k)), scipy.linalg.block_diag. *)
Definition bd_signs (n k : nat) : mat R :=
  mkMat (n + k) (n + k) (fun i j => if Nat.ltb i n then (if Nat.ltb j n then dlt i j else 0) else (if Nat.ltb j n then 0 else - dlt (i - n)%nat (j - n)%nat)).

(** fMPS.py:2132-2136, symm_asymm; half is 1/2. *)
Definition symm_asymm (half : R) (D : nat) : res (mat R * mat R * mat R) :=
  let D := Nat.sqrt D in
  let M := bd_signs (D * (D + 1) / 2) (D * (D - 1) / 2) in
  do P <- madd (eye (D ^ 2)) M;
  do Q <- msub (eye (D ^ 2)) M;
  Ok (mscal half P, mscal half Q, M).

(** M @ X for a matrix and an array with three axes (fMPS.py:2142). *)
Definition mat_site (M : mat R) (X : site R) : res (site R) :=
  if Nat.eqb (mc M) (dl X) then Ok (mkSite (phys X) (mr M) (dr X) (fun s i j => sum (dl X) (fun k => me M i k * ent X s k j))) else Err ValueError.

(** a X + b Y entrywise (fMPS.py:2142-2143); the shapes must agree. *)
Definition lin_site (a : R) (X : site R) (b : R) (Y : site R) : res (site R) :=
  if Nat.eqb (phys X) (phys Y) && (Nat.eqb (dl X) (dl Y) && Nat.eqb (dr X) (dr Y))
  then Ok (mkSite (phys X) (dl X) (dr X) (fun s i j => a * ent X s i j + b * ent Y s i j)) else Err ValueError.

(** fMPS.py:2140-2143, the function vLs of get_vL: D is the left bond dimension of the site and
    vL its null space (from left_null_projector). *)
Definition get_vL_at (half : R) (D : nat) (vL : site R) : res (site R * site R * mat R) :=
  do PQM <- symm_asymm half D;
  let M := snd PQM in
  do f <- fs vL;
  do Mf <- mat_site M f;
  do a <- lin_site half vL half Mf;
  do b <- lin_site half vL (- half) Mf;
  Ok (a, b, M).
End Model.
