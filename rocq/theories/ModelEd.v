(** Model of the exact evolution and of the read-outs of Trajectory in
    /repo/xmps/fTDVP.py. *)
From Coq Require Import ZArith.
From Verif Require Import Alg ModelMPS ModelStruct ModelNcon ModelEk ModelTensor ModelSpin ModelLie ModelExp ModelOrth ModelCanon ModelState ModelTraj.

Section Model.
Context {R : sring}.
Local Open Scope sr_scope.

(** self.H together with self.fullH (fTDVP.py:58, 64). *)
Inductive hamil : Type := Whole (M : mat R) | Terms (l : list (mat R)).

(** numpy's sum(l, axis=0) over a list of 2D arrays of one shape (fTDVP.py:233, 517).
    Arrays of different shapes raise ValueError.  For an empty list numpy returns the number
    0.0, which expm_multiply then rejects: ValueError stands for that too. *)
Definition sum_axis0 (l : list (mat R)) : res (mat R) :=
  match l with
  | [] => Err ValueError
  | x :: _ =>
      if forallb (fun y => Nat.eqb (mr y) (mr x) && Nat.eqb (mc y) (mc x)) l
      then Ok (mkMat (mr x) (mc x) (fun i j => suml (map (fun y => me y i j) l))) else Err ValueError
  end.

(** fTDVP.py:233-234 = 517-518: the matrix of the Hamiltonian; the 2 is in the source. *)
Definition ed_ham (ilog : nat -> nat -> option nat) (H : hamil) : res (mat R) :=
  match H with
  | Whole M => Ok M
  | Terms l =>
      do ms <- mapM (fun ia => n_body ilog (snd ia) (Z.of_nat (fst ia)) (length l) (Some 2%nat)) (combine (seq 0 (length l)) l);
      sum_axis0 ms
  end.

(** A @ v for a 2D array and a vector. *)
Definition matvec (A : mat R) (v : list R) : res (list R) :=
  if Nat.eqb (mc A) (length v)
  then Ok (map (fun i => sum (mc A) (fun j => me A i j * nth j v 0)) (seq 0 (mr A))) else Err ValueError.

(** scipy's expm_multiply(A, v) (fTDVP.py:239): the exponential of A applied to v.  It is
    computed without forming the exponential; the model takes the exponential from the
    oracle for expm. *)
Definition expm_multiply (F : mfun R) (A : mat R) (v : list R) : res (list R) :=
  do U <- expm_ F A; matvec U v.

(** fTDVP.py:238-240: the loop over T[:-1]; the vectors appended to ed_history. *)
Fixpoint ed_loop (F : mfun R) (A : mat R) (n : nat) (v : list R) : res (list (list R)) :=
  match n with
  | 0%nat => Ok []
  | S n => do w <- expm_multiply F A v; do r <- ed_loop F A n w; Ok (w :: r)
  end.

(** psi.reshape([d]*L) (fTDVP.py:245, 491, 531). *)
Definition as_state (d L : nat) (v : list R) : res (state R) :=
  if Nat.eqb (length v) (Nat.pow d L)
  then Ok (mkSt L d (fun s => nth (fold_left (fun a x => (a * d + x)%nat) s 0%nat) v 0)) else Err ValueError.

(** Trajectory with the attribute ed_history, which exists after edint only (fTDVP.py:236). *)
Record edtraj : Type := mkEd { ed_t : traj R; ed_h : option (list (list R)) }.

(** fTDVP.py:228-246, edint.  An exception leaves the object half updated; the model only
    says which exception. *)
Definition edint (ilog : nat -> nat -> option nat) (C : consts R) (F : mfun R) (O : lapack2 R)
    (H : hamil) (e : edtraj) (T : list R) : res edtraj :=
  let tr := ed_t e in
  do v0 <- recombine (tmps tr);
  do M <- ed_ham ilog H;
  do b <- getitem T 1;
  do a <- getitem T 0;
  do vs <- ed_loop F (mscal (b - a) (mscal (- c_im C) M)) (length T - 1) v0;
  let hist := v0 :: vs in
  do v <- last_item hist;
  do st <- as_state (fd (tmps tr)) (fL (tmps tr)) v;
  do r <- left_from_state O st;
  Ok (mkEd (mkTraj (fst r) (tmps0 tr) (tDs tr) (thist tr)) (Some hist)).

(** re(psi.conj()@op@psi) (fTDVP.py:573). *)
Definition ev (v : list R) (op : mat R) : res R :=
  if Nat.eqb (mr op) (length v) && Nat.eqb (mc op) (length v)
  then Ok (sre (sum (mc op) (fun j => sum (mr op) (fun i => sconj (nth i v 0) * me op i j) * nth j v 0)))
  else Err ValueError.

(** fTDVP.py:571-573, ed_evs. *)
Definition ed_evs (e : edtraj) (ops : list (mat R)) : res (list (list R)) :=
  match ed_h e with
  | None => Err AssertionError
  | Some hist => mapM (fun v => mapM (ev v) ops) hist
  end.

(** fTDVP.py:513-519, ed_energies. *)
Definition ed_energies (ilog : nat -> nat -> option nat) (H : hamil) (e : edtraj) : res (list (list R)) :=
  match ed_h e with
  | None => Err AssertionError
  | Some _ => do M <- ed_ham ilog H; ed_evs e [M]
  end.

(** fTDVP.py:488-492 = 498-502: the MPS made of the vectors of ed_history when no MPS are
    recorded; Ds is not touched. *)
Definition fill_history (I : imag R) (O : lapack2 R) (e : edtraj) : res edtraj :=
  match ed_h e, thist (ed_t e) with
  | Some hist, [] =>
      let m := tmps (ed_t e) in
      do vs <- mapM (fun v => do st <- as_state (fd m) (fL m) v;
                              do r <- left_from_state O st;
                              do x <- lcan O (fst r) None;
                              serialize_real I x) hist;
      Ok (mkEd (mkTraj (tmps (ed_t e)) (tmps0 (ed_t e)) (tDs (ed_t e)) vs) (ed_h e))
  | _, _ => Ok e
  end.

(** fTDVP.py:487-495, mps_list. *)
Definition mps_list_ed (I : imag R) (O : lapack2 R) (e : edtraj) : res (list (fmps R)) :=
  do e <- fill_history I O e; mps_list I (ed_t e).

(** fTDVP.py:497-506, mps_evs. *)
Definition mps_evs (I : imag R) (O : lapack2 R) (e : edtraj) (ops : list (mat R)) (site_ : nat) : res (list (list R)) :=
  do ms <- mps_list_ed I O e;
  mapM (fun m => do r <- mps_Es O m ops site_; Ok (fst r)) ms.

(** fTDVP.py:553-559, loschmidt without ed_history; abs is numpy.abs.  Every entry is
    decoded with the bond dimension of the current state. *)
Definition loschmidt (I : imag R) (abs : R -> R) (tr : traj R) : res (list R) :=
  match thist tr with
  | [] => Err AssertionError
  | v0 :: _ =>
      do st <- structure_LdD (fL (tmps tr)) (fd (tmps tr)) (fD (tmps tr));
      do m0 <- deserialize_real I v0 st;
      mapM (fun v => do m <- deserialize_real I v st;
                     do F <- overlap m0 m;
                     Ok (abs (me F 0%nat 0%nat))) (thist tr)
  end.

End Model.
Arguments hamil : clear implicits.
Arguments edtraj : clear implicits.
