(** Model of /repo/xmps/qmb.py and of the MPO constructor in /repo/xmps/projects/fMPO.py. *)
From Coq Require Import ZArith.
From Verif Require Import Alg ModelMPS ModelNcon ModelEk ModelTensor ModelSpin.

Section Model.
Context {R : sring}.
Local Open Scope sr_scope.
Variable C : consts R.

(** qutip's sigmap(), sigmam(), sigmax(), sigmay(), sigmaz() (qmb.py:3; fMPO.py:119-121). *)
Definition q_sp : mat R := lit 2 2 [0; 1; 0; 0].
Definition q_sm : mat R := lit 2 2 [0; 0; 1; 0].
Definition q_sx : mat R := lit 2 2 [0; 1; 1; 0].
Definition q_sy : mat R := lit 2 2 [0; - c_im C; c_im C; 0].
Definition q_sz : mat R := lit 2 2 [1; 0; 0; - (1)].

(** qutip's sum, product and multiple of operators.  The operands here always have equal
    dimensions, so the check of the dimensions is left out. *)
Definition q_add (A B : mat R) : mat R := mkMat (mr A) (mc A) (fun i j => me A i j + me B i j).
Definition q_sub (A B : mat R) : mat R := mkMat (mr A) (mc A) (fun i j => me A i j - me B i j).
Definition q_mul (A B : mat R) : mat R := mkMat (mr A) (mc B) (fun i j => sum (mc A) (fun k => me A i k * me B k j)).
Definition q_scal (c : R) (A : mat R) : mat R := mkMat (mr A) (mc A) (fun i j => c * me A i j).

(** What tensor returns is decided by the imports.  qmb.py:3 takes tensor from qutip: operators,
    whose * is the matrix product.  qmb.py:8, from spin import *, binds the name again, to
    spin.py:127-128, reduce(kron, ops) with numpy's kron: for two or more factors an array,
    whose * multiplies entry by entry and which has no method full.  [arr] says which it is;
    the code as it stands is arr = true.  (For one factor reduce returns the operator itself;
    nothing is multiplied then.) *)
Definition o_mul (arr : bool) (A B : mat R) : mat R :=
  if arr then mkMat (mr A) (mc A) (fun i j => me A i j * me B i j) else q_mul A B.
Definition o_full (arr : bool) (A : mat R) : res (mat R) := if arr then Err AttributeError else Ok A.

(** python's sum of a list of operators on n two-level sites: it starts from the number 0,
    which acts as the zero operator; for an empty list the result stays the number 0. *)
Definition q_sum (n : nat) (l : list (mat R)) : mat R :=
  mkMat (Nat.pow 2 n) (Nat.pow 2 n) (fun i j => suml (map (fun A => me A i j) l)).

(** qmb.py:11-26, S_n_body with tensorise=True: op**1 at place i, op**0 elsewhere; either
    tensor is the Kronecker product. *)
Definition S_n_body (op : mat R) (i : Z) (n : nat) : res (mat R) :=
  if Z.ltb i (Z.of_nat n)
  then tensor (map (fun j => if Z.eqb i (Z.of_nat j) then op else eye (mr op)) (seq 0 n))
  else Err Exception_.

(** The three exchange terms on the sites i and i+1 of n (qmb.py:67-69 = 77-78 = 84-85). *)
Definition exchange (arr : bool) (J Jz : R) (i n : nat) : res (mat R) :=
  do p <- S_n_body q_sp (Z.of_nat i) n; do m' <- S_n_body q_sm (Z.of_nat i + 1) n;
  do m <- S_n_body q_sm (Z.of_nat i) n; do p' <- S_n_body q_sp (Z.of_nat i + 1) n;
  do z <- S_n_body q_sz (Z.of_nat i) n; do z' <- S_n_body q_sz (Z.of_nat i + 1) n;
  Ok (q_add (q_scal (J * c_half C) (q_add (o_mul arr p m') (o_mul arr m p'))) (o_mul arr (q_scal Jz z) z')).

(** qmb.py:64-72, anisotropic_heisenberg. *)
Definition anisotropic_heisenberg (arr : bool) (h J Jz : R) (N : nat) : res (mat R) :=
  do nn <- mapM (fun i => exchange arr J Jz i N) (seq 0 (N - 1));
  do f <- mapM (fun i => do z <- S_n_body q_sz (Z.of_nat i) N; Ok (q_scal h z)) (seq 0 N);
  Ok (q_add (q_sum N nn) (q_scal (- (1)) (q_sum N f))).

(** qmb.py:74-79, local_anisotropic_heisenberg. *)
Definition local_anisotropic_heisenberg (arr : bool) (h J Jz : R) : res (mat R) :=
  do e <- exchange arr J Jz 0 2; do z0 <- S_n_body q_sz 0 2; o_full arr (q_sub e (q_scal h z0)).

(** qmb.py:86-87, the last bond. *)
Definition local_heis_last (arr : bool) (h J Jz : R) : res (mat R) :=
  do e <- exchange arr J Jz 0 2; do z0 <- S_n_body q_sz 0 2; do z1 <- S_n_body q_sz 1 2; o_full arr (q_sub e (q_scal h (q_add z0 z1))).

(** qmb.py:81-88, local_anisotropic_heisenbergs; [x]*(N-2) is empty for N < 2. *)
Definition local_anisotropic_heisenbergs (arr : bool) (h J Jz : R) (N : nat) : res (list (mat R)) :=
  do b <- local_anisotropic_heisenberg arr h J Jz; do l <- local_heis_last arr h J Jz; Ok (repeat b (N - 2) ++ [l]).

(** qmb.py:90-92, local_ising. *)
Definition local_ising (arr : bool) (J g : R) : res (mat R) :=
  do z0 <- S_n_body q_sz 0 2; do z1 <- S_n_body q_sz 1 2; do x0 <- S_n_body q_sx 0 2; do x1 <- S_n_body q_sx 1 2;
  o_full arr (q_scal (- (1)) (q_add (o_mul arr (q_scal J z0) z1) (q_scal (g * c_half C) (q_add x0 x1)))).

(** qmb.py:94-97, local_isings. *)
Definition local_isings (arr : bool) (J g : R) (N : nat) : res (list (mat R)) :=
  do z0 <- S_n_body q_sz 0 2; do z1 <- S_n_body q_sz 1 2; do x0 <- S_n_body q_sx 0 2; do x1 <- S_n_body q_sx 1 2;
  do b <- o_full arr (q_add (o_mul arr (q_scal J z0) z1) (q_scal g x0));
  do l <- o_full arr (q_add (o_mul arr (q_scal J z0) z1) (q_scal g (q_add x0 x1)));
  Ok (repeat (q_scal (- (1)) b) (N - 2) ++ [q_scal (- (1)) l]).

(** qmb.py:99-102, local_XX; g is not used. *)
Definition local_XX (arr : bool) (J g : R) : res (mat R) :=
  do z0 <- S_n_body q_sz 0 2; do x0 <- S_n_body q_sx 0 2; do x1 <- S_n_body q_sx 1 2; do y0 <- S_n_body q_sy 0 2; do y1 <- S_n_body q_sy 1 2;
  o_full arr (q_scal (- J) (q_add (q_add z0 (o_mul arr (q_scal (c_half C) x0) x1)) (o_mul arr (q_scal (c_half C) y0) y1))).

(** fMPO.py:123-129: the entries of first, bulk and last, each a 2x2 matrix. *)
Definition q_zero : mat R := mkMat 2 2 (fun _ _ => 0).
Definition mpo_row (h J Jz : R) : list (mat R) :=
  [q_scal (- h) q_sz; q_scal (J * c_half C) q_sm; q_scal (J * c_half C) q_sp; q_scal Jz q_sz; eye 2].
Definition mpo_first (h J Jz : R) : list (list (mat R)) := [mpo_row h J Jz].
Definition mpo_bulk (h J Jz : R) : list (list (mat R)) :=
  [[eye 2; q_zero; q_zero; q_zero; q_zero]; [q_sp; q_zero; q_zero; q_zero; q_zero]; [q_sm; q_zero; q_zero; q_zero; q_zero];
   [q_sz; q_zero; q_zero; q_zero; q_zero]; mpo_row h J Jz].
Definition mpo_last (h : R) : list (list (mat R)) := [[eye 2]; [q_sp]; [q_sm]; [q_sz]; [q_scal (- h) q_sz]].

(** array(mats) and the two swapaxes of fMPO.py:132-133: axes (out, in, left, right). *)
Definition mpo_tens (g : list (list (mat R))) : tens R :=
  mkT [2; 2; length g; length (nth 0 g [])]%nat
    (fun idx => match idx with [s; t; a; b] => me (nth b (nth a g []) q_zero) s t | _ => 0 end).

(** fMPO.py:105-136, anisotropic_heisenberg: self.data. *)
Definition fMPO_heisenberg (L : nat) (h J Jz : R) : list (tens R) :=
  map mpo_tens ([mpo_first h J Jz] ++ repeat (mpo_bulk h J Jz) (L - 2) ++ [mpo_last h]).
End Model.
