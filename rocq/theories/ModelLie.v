(** Model of /repo/xmps/spin.py, second part: commutation checks, swap symmetry, SU(4)
    generators, two-site spinors, Lie algebra components and their embedding. *)
From Coq Require Import ZArith.
From Verif Require Import Alg ModelMPS ModelNcon ModelEk ModelTensor ModelDecomp ModelSpin.

Section Model.
Context {R : sring}.
Local Open Scope sr_scope.
Variable C : consts R.

(** Entrywise A + B, A - B, c * A (numpy without broadcasting: shapes must agree). *)
Definition madd (A B : mat R) : res (mat R) :=
  if Nat.eqb (mr A) (mr B) && Nat.eqb (mc A) (mc B)
  then Ok (mkMat (mr A) (mc A) (fun i j => me A i j + me B i j)) else Err ValueError.
Definition msub (A B : mat R) : res (mat R) :=
  if Nat.eqb (mr A) (mr B) && Nat.eqb (mc A) (mc B)
  then Ok (mkMat (mr A) (mc A) (fun i j => me A i j - me B i j)) else Err ValueError.
Definition mscal (c : R) (A : mat R) : mat R := mkMat (mr A) (mc A) (fun i j => c * me A i j).

(** numpy.trace of a matrix (spin.py:586, 600). *)
Definition mtr_ (A : mat R) : R := sum (Nat.min (mr A) (mc A)) (fun i => me A i i).

(** spin.py:291-295, comm and acomm. *)
Definition comm (A B : mat R) : res (mat R) := do P <- mprod A B; do Q <- mprod B A; msub P Q.
Definition acomm (A B : mat R) : res (mat R) := do P <- mprod A B; do Q <- mprod B A; madd P Q.

(** The integers -1, 0, 1 as scalars. *)
Definition sgn_ (z : Z) : R := match z with Z0 => 0 | Zpos _ => 1 | Zneg _ => - (1) end.

(** tensordot(v, S, [0, 0]) for a list of matrices of the shape of the first one
    (spin.py:305, 316, 512, 517, 522, 528, 555, 559, 591, 593); lengths that differ raise ValueError. *)
Definition lincomb (N : nat) (v : list R) (l : list (mat R)) : res (mat R) :=
  if Nat.eqb (length v) (length l)
  then Ok (mkMat N N (fun a b => suml (map (fun p => fst p * me (snd p) a b) (combine v l))))
  else Err ValueError.

(** spin.py:297-317, CR and pCR: allclose(comm(S_j, S_k), sum_l c eps_jkl 1j S_l) for all
    j, k, with c = 1 in CR and c = 2 in pCR.  [close] is allclose.  The code conjoins with
    the short-circuiting and, so that commutators after a failure are not computed; with
    three square matrices of the same size nothing can raise and the value is the same. *)
Definition CR_c (close : mat R -> mat R -> bool) (c : R) (S3 : list (mat R)) : res bool :=
  do bs <- mapM (fun jk =>
      let j := (jk / 3)%nat in let k := (jk mod 3)%nat in
      let Sj := nth j S3 (lit 0 0 []) in let Sk := nth k S3 (lit 0 0 []) in
      do L <- comm Sj Sk;
      do T <- lincomb (mr Sj) (map (fun l => c * sgn_ (levi_civita 3 [j; k; l]) * c_im C) (seq 0 3)) S3;
      Ok (close L T)) (seq 0 9);
  Ok (forallb (fun b => b) bs).
Definition CR (close : mat R -> mat R -> bool) (x y z : mat R) : res bool := CR_c close 1 [x; y; z].
Definition pCR (close : mat R -> mat R -> bool) (x y z : mat R) : res bool := CR_c close (1 + 1) [x; y; z].

(** spin.py:256-284: N_body_spins, N_body_paulis, N_body_ladders.  ladders gives None
    outside the table, and n_body of None raises AttributeError. *)
Definition N_body_spins (ilog : nat -> nat -> option nat) (twoj : nat) (i : Z) (n : nat) : res (list (mat R)) :=
  mapM (fun s => n_body ilog s i n None) [Sx C twoj; Sy C twoj; Sz C twoj].
Definition N_body_paulis (ilog : nat -> nat -> option nat) (twoj : nat) (i : Z) (n : nat) : res (list (mat R)) :=
  mapM (fun s => n_body ilog s i n None) [twice (Sx C 1); twice (Sy C 1); twice (Sz C 1)].
Definition N_body_ladders (ilog : nat -> nat -> option nat) (twoj : nat) (i : Z) (n : nat) : res (list (mat R)) :=
  match ladders C twoj with
  | None => Err AttributeError
  | Some (lm, lp) => mapM (fun s => n_body ilog s i n None) [lm; lp]
  end.

(** ** Swap symmetry, spin.py:68-75 *)
(** (U + swap() @ U @ swap())/2 with the errors of @ and +. *)
Definition swap_sym_ (U : mat R) : res (mat R) :=
  do A <- mprod swap_gate U; do B <- mprod A swap_gate; do S_ <- madd U B; Ok (mscal (c_half C) S_).
Definition swap_symmetrise_ (U : mat R) : res (mat R) := swap_sym_ U.
Definition swap_antisymmetrise_ (U : mat R) : res (mat R) := swap_sym_ U.
(** spin.py:68-69: allclose(U - swap_antisymmetrise(U), 0); [close0] is allclose(., 0). *)
Definition is_swap_symmetric (close0 : mat R -> bool) (U : mat R) : res bool :=
  do A <- swap_antisymmetrise_ U; do D <- msub U A; Ok (close0 D).

(** ** Generators of SU(4), spin.py:388-451; r3 and r6 are 1/sqrt(3) and 1/sqrt(6). *)
Definition lambdas (r3 r6 : R) : list (mat R) :=
  let i := c_im C in
  let X := twice (Sx C 1) in let Y := twice (Sy C 1) in let Z := twice (Sz C 1) in
  let blk M := mkMat 4 4 (fun a b => if Nat.ltb a 2 && Nat.ltb b 2 then me M a b else 0) in
  [ blk X; blk Y; blk Z;
    lit 4 4 [0; 0; 1; 0;  0; 0; 0; 0;  1; 0; 0; 0;  0; 0; 0; 0];
    lit 4 4 [0; 0; - i; 0;  0; 0; 0; 0;  i; 0; 0; 0;  0; 0; 0; 0];
    lit 4 4 [0; 0; 0; 0;  0; 0; 1; 0;  0; 1; 0; 0;  0; 0; 0; 0];
    lit 4 4 [0; 0; 0; 0;  0; 0; - i; 0;  0; i; 0; 0;  0; 0; 0; 0];
    mscal r3 (lit 4 4 [1; 0; 0; 0;  0; 1; 0; 0;  0; 0; - (1 + 1); 0;  0; 0; 0; 0]);
    lit 4 4 [0; 0; 0; 1;  0; 0; 0; 0;  0; 0; 0; 0;  1; 0; 0; 0];
    lit 4 4 [0; 0; 0; - i;  0; 0; 0; 0;  0; 0; 0; 0;  i; 0; 0; 0];
    lit 4 4 [0; 0; 0; 0;  0; 0; 0; 1;  0; 0; 0; 0;  0; 1; 0; 0];
    lit 4 4 [0; 0; 0; 0;  0; 0; 0; - i;  0; 0; 0; 0;  0; i; 0; 0];
    lit 4 4 [0; 0; 0; 0;  0; 0; 0; 0;  0; 0; 0; 1;  0; 0; 1; 0];
    lit 4 4 [0; 0; 0; 0;  0; 0; 0; 0;  0; 0; 0; - i;  0; 0; i; 0];
    mscal r6 (lit 4 4 [1; 0; 0; 0;  0; 1; 0; 0;  0; 0; 1; 0;  0; 0; 0; - (1 + 1 + 1)]) ].

(** spin.py:453-470, slambdas. *)
Definition slambdas : list (mat R) :=
  let X := twice (Sx C 1) in let Y := twice (Sy C 1) in let Z := twice (Sz C 1) in let I_ := eye 2 in
  let plus A B := mkMat 4 4 (fun a b => me A a b + me B a b) in
  [ kron X X; kron Y Y; kron Z Z;
    plus (kron X Y) (kron Y X); plus (kron X Z) (kron Z X); plus (kron Y Z) (kron Z Y);
    plus (kron X I_) (kron I_ X); plus (kron Y I_) (kron I_ Y); plus (kron Z I_) (kron I_ Z) ].

(** ** Two-site spinors, spin.py:477-500.  N_body_ladders gives [S_-, S_+], so that the
    name sp1 of the code is bound to S_-. *)
Definition site2 (ilog : nat -> nat -> option nat) (op : mat R) (i : Z) : res (mat R) := n_body ilog op i 2 None.
Definition antiferro (ilog : nat -> nat -> option nat) : res (list (mat R)) :=
  do l1 <- N_body_ladders ilog 1 1 2; do l2 <- N_body_ladders ilog 1 2 2;
  let sp1 := nth 0 l1 (lit 0 0 []) in let sm1 := nth 1 l1 (lit 0 0 []) in
  let sp2 := nth 0 l2 (lit 0 0 []) in let sm2 := nth 1 l2 (lit 0 0 []) in
  do z1 <- site2 ilog (Sz C 1) 1; do z2 <- site2 ilog (Sz C 1) 2;
  do a <- mprod sp1 sm2; do b <- mprod sm1 sp2;
  do nx <- madd a b; do ny <- msub a b; do nz <- msub z1 z2;
  Ok [nx; mscal (- c_im C) ny; mscal (- (1)) nz].
Definition ferro (ilog : nat -> nat -> option nat) : res (list (mat R)) :=
  do l1 <- N_body_ladders ilog 1 1 2; do l2 <- N_body_ladders ilog 1 2 2;
  let sp1 := nth 0 l1 (lit 0 0 []) in let sm1 := nth 1 l1 (lit 0 0 []) in
  let sp2 := nth 0 l2 (lit 0 0 []) in let sm2 := nth 1 l2 (lit 0 0 []) in
  do z1 <- site2 ilog (Sz C 1) 1; do z2 <- site2 ilog (Sz C 1) 2;
  do a <- mprod sp1 sp2; do b <- mprod sm1 sm2;
  do mx <- madd a b; do my <- msub a b; do mz <- madd z1 z2;
  Ok [mx; mscal (c_im C) my; mscal (c_half C) mz].

(** ** Components, spin.py:597-601: [trace(Q @ u)/2 for u in su(Q.shape[0])]. *)
Definition components (scale : nat -> R) (Q : mat R) : res (list R) :=
  mapM (fun u => do P <- mprod Q u; Ok (c_half C * mtr_ P)) (su C scale (mr Q)).

(** ** insu2N, spin.py:562-587 *)
Inductive where_ := Mid | Right_ | Left_ | Elsewhere.
(** spin.py:570-580: expand(X, where); anything else returns None, and None @ V raises
    TypeError. *)
Definition expand_op (q : nat) (wh : where_) (X : mat R) : res (mat R) :=
  do S12 <- tensor (repeat (eye 2) (q - 1) ++ [swap_gate]);
  match wh with
  | Mid => do A <- mprod S12 (kron X (eye 2)); mprod A S12
  | Right_ => Ok (kron X (eye 2))
  | Left_ => Ok (kron (eye 2) X)
  | Elsewhere => Err TypeError
  end.
Definition insu2N (scale : nat -> R) (v : list R) (wh : where_) : res (list R) :=
  let n := Nat.sqrt (length v + 1) in
  let q := Nat.log2 n in
  do us <- mapM (expand_op q wh) (su C scale n);
  do g <- mapM (fun U => mapM (fun V => do P <- mprod U V; Ok (c_half C * mtr_ P)) (su C scale (2 * n))) us;
  if Nat.eqb (length v) (n * n - 1)
  then Ok (map (fun j => suml (map (fun p => fst p * nth j (snd p) 0) (combine v g))) (seq 0 ((2 * n) * (2 * n) - 1)))
  else Err ValueError.
End Model.
