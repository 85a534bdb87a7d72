(** Model of /repo/xmps/spin.py: operators on chains, spin matrices, su(N) generators,
    gates, sphere coordinates and the Levi-Civita symbol. *)
From Coq Require Import ZArith.
From Verif Require Import Alg ModelMPS ModelNcon ModelEk ModelTensor.

Section Model.
Context {R : sring}.
Local Open Scope sr_scope.

(** spin.py:127-128, tensor: reduce(kron, ops); TypeError on an empty list. *)
Definition tensor (ops : list (mat R)) : res (mat R) :=
  match ops with
  | [] => Err TypeError
  | x :: l => Ok (fold_left kron l x)
  end.

(** numpy.identity(d) (spin.py:141, 143). *)
Definition eye (d : nat) : mat R := mkMat d d (fun i j => dlt i j).

(** One element of the list of spin.py:141: identity(d)*(1-m) + op*m.  Shapes that do
    not agree raise ValueError (numpy's broadcasting of a single row or column is left
    out). *)
Definition body_item (op : mat R) (i : Z) (j : nat) : res (mat R) :=
  let m := if Z.eqb i (Z.of_nat j) then 1 else 0 in
  if Nat.eqb (mc op) (mr op)
  then Ok (mkMat (mr op) (mr op) (fun a b => dlt a b * (1 - m) + me op a b * m))
  else Err ValueError.

(** list.insert(i, x): negative positions count from the end, all are clamped. *)
Definition insert_at {A} (i : Z) (x : A) (l : list A) : list A :=
  let n := Z.of_nat (length l) in
  let i := if Z.ltb i 0 then Z.max 0 (n + i) else Z.min i n in
  firstn (Z.to_nat i) l ++ x :: skipn (Z.to_nat i) l.

(** spin.py:130-148, n_body(op, i, n, d).  [ilog a d] is int(math.log(a, d)) of
    spin.py:143, None when math.log raises. *)
Definition n_body (ilog : nat -> nat -> option nat) (op : mat R) (i : Z) (n : nat) (d : option nat) : res (mat R) :=
  let i := (i - 1)%Z in
  do l <- match d with
          | None => mapM (body_item op i) (seq 0 n)
          | Some d =>
              match ilog (mr op) d with
              | None => Err ValueError
              | Some k => Ok (insert_at (i + 1)%Z op (repeat (eye d) (Z.to_nat (Z.of_nat n + 1 - Z.of_nat k))))
              end
          end;
  if Z.ltb i (Z.of_nat n) then tensor l else Err Exception_.

(** The numbers the spin matrices are made of: 1/2, 1j, square roots of integers
    (spin.py:203-214). *)
Record consts : Type := mkConsts { c_half : R; c_im : R; c_sqrt : nat -> R }.

(** Cp of spin.py:206 on the a-th super-diagonal position, where m = j - 1 - a and
    twoj = 2 j: sqrt((j - m) (j + m + 1)). *)
Definition ladder_up (C : consts) (twoj a : nat) : R := c_sqrt C ((a + 1) * (twoj - a)).
(** Cm of spin.py:207 on the a-th sub-diagonal position, where m = j - a:
    sqrt((j + m) (j - m + 1)). *)
Definition ladder_dn (C : consts) (twoj a : nat) : R := c_sqrt C ((twoj - a) * (a + 1)).

(** spin.py:208-209: diag(..., 1) and diag(..., -1), 2j+1 rows. *)
Definition Sp (C : consts) (twoj : nat) : mat R :=
  mkMat (S twoj) (S twoj) (fun a b => if Nat.eqb b (S a) then ladder_up C twoj a else 0).
Definition Sm (C : consts) (twoj : nat) : mat R :=
  mkMat (S twoj) (S twoj) (fun a b => if Nat.eqb a (S b) then ladder_dn C twoj b else 0).

(** spin.py:211-213. *)
Definition Sx (C : consts) (twoj : nat) : mat R :=
  mkMat (S twoj) (S twoj) (fun a b => c_half C * (me (Sp C twoj) a b + me (Sm C twoj) a b)).
Definition Sy (C : consts) (twoj : nat) : mat R :=
  mkMat (S twoj) (S twoj) (fun a b => c_half C * (- c_im C) * (me (Sp C twoj) a b - me (Sm C twoj) a b)).
Definition Sz (C : consts) (twoj : nat) : mat R :=
  mkMat (S twoj) (S twoj) (fun a b => if Nat.eqb a b then c_half C * sofnat twoj - sofnat a else 0).

(** spin.py:150-216, spins(S) for S = twoj/2; the table of spin.py:160-199 is not used. *)
Definition spins (C : consts) (twoj : nat) : mat R * mat R * mat R := (Sx C twoj, Sy C twoj, Sz C twoj).

(** Matrix literals. *)
Definition lit (r c : nat) (l : list R) : mat R := mkMat r c (fun i j => nth (i * c + j)%nat l 0).

(** spin.py:218-250, ladders(S) = [S_-, S_+], a table for S = 1/2, 1, 3/2; None for
    every other S. *)
Definition ladders (C : consts) (twoj : nat) : option (mat R * mat R) :=
  let s2 := c_sqrt C 2 in let s3 := c_sqrt C 3 in
  match twoj with
  | 1%nat => Some (lit 2 2 [0; 0; 1; 0], lit 2 2 [0; 1; 0; 0])
  | 2%nat => Some (lit 3 3 [0; 0; 0; s2; 0; 0; 0; s2; 0], lit 3 3 [0; s2; 0; 0; 0; s2; 0; 0; 0])
  | 3%nat => Some (lit 4 4 [0; 0; 0; 0; s3; 0; 0; 0; 0; 1 + 1; 0; 0; 0; 0; s3; 0],
               lit 4 4 [0; s3; 0; 0; 0; 0; 1 + 1; 0; 0; 0; 0; s3; 0; 0; 0; 0])
  | _ => None
  end.

(** spin.py:252-254, paulis(S): twice the matrices of spin 1/2 for every S. *)
Definition twice (M : mat R) : mat R := mkMat (mr M) (mc M) (fun a b => (1 + 1) * me M a b).
Definition paulis (C : consts) (S_ : nat) : mat R * mat R * mat R := (twice (Sx C 1), twice (Sy C 1), twice (Sz C 1)).

(** ** su(N), spin.py:531-552 *)
(** x[i, j] = x[j, i] = 1 (spin.py:539). *)
Definition su_sym (N i j : nat) : mat R :=
  mkMat N N (fun a b => if (Nat.eqb a i && Nat.eqb b j) || (Nat.eqb a j && Nat.eqb b i) then 1 else 0).
(** x[i, j], x[j, i] = -1j, 1j (spin.py:541). *)
Definition su_asym (C : consts) (N i j : nat) : mat R :=
  mkMat N N (fun a b => if Nat.eqb a i && Nat.eqb b j then - c_im C
                        else if Nat.eqb a j && Nat.eqb b i then c_im C else 0).
(** spin.py:544-548: ones below i, -i at i, times sqrt(2)/norm; [scale i] is
    sqrt(2)/norm(diag(x)). *)
Definition su_diag (scale : nat -> R) (N i : nat) : mat R :=
  mkMat N N (fun a b => if Nat.eqb a b then scale i * (if Nat.ltb a i then 1 else if Nat.eqb a i then - sofnat i else 0) else 0).
(** spin.py:535-550. *)
Definition su (C : consts) (scale : nat -> R) (N : nat) : list (mat R) :=
  concat (map (fun i => concat (map (fun j => [su_sym N i j; su_asym C N i j]) (seq 0 i))) (seq 0 N))
  ++ map (su_diag scale N) (seq 1 (N - 1)).

(** ** Gates, spin.py:77-90 *)
Definition swap_gate : mat R := lit 4 4 [1; 0; 0; 0;  0; 0; 1; 0;  0; 1; 0; 0;  0; 0; 0; 1].
Definition CZ : mat R := lit 4 4 [1; 0; 0; 0;  0; 1; 0; 0;  0; 0; 1; 0;  0; 0; 0; - (1)].
Definition CNOT : mat R := lit 4 4 [1; 0; 0; 0;  0; 1; 0; 0;  0; 0; 0; 1;  0; 0; 1; 0].
(** CRy for an angle whose half has cosine c and sine s (sin(-x) = -sin(x)). *)
Definition CRy (c s : R) : mat R := lit 4 4 [1; 0; 0; 0;  0; 1; 0; 0;  0; 0; c; s;  0; 0; - s; c].

(** spin.py:20-31, Nsphere, for angles whose cosines and sines are given. *)
Definition sphere_cs (v : list (R * R)) : R := prodl (map snd (removelast v)) * fst (last v (1, 1)).
Definition sphere_ss (v : list (R * R)) : R := prodl (map snd v).
Definition Nsphere (v : list (R * R)) : list R :=
  map (fun b => sphere_cs (firstn b v)) (seq 1 (length v)) ++ [sphere_ss v].
End Model.
Arguments consts : clear implicits.

(** ** Levi-Civita symbol, spin.py:92-125 *)
(** b.index(x) of spin.py:110 and b.remove(x) of spin.py:111. *)
Fixpoint index_nat (x : nat) (b : list nat) : nat :=
  match b with [] => 0 | y :: b => if Nat.eqb y x then 0 else S (index_nat x b) end.
Fixpoint remove_first (x : nat) (b : list nat) : list nat :=
  match b with [] => [] | y :: b => if Nat.eqb y x then b else y :: remove_first x b end.
(** The while loop of spin.py:108-111. *)
Fixpoint inversions_loop (a b : list nat) : nat :=
  match a with [] => 0 | x :: a => index_nat x b + inversions_loop a (remove_first x b) end.
(** sorted(a) == sorted(b) (spin.py:106): equal multisets. *)
Definition same_multiset (a b : list nat) : bool :=
  forallb (fun x => Nat.eqb (count_occ Nat.eq_dec a x) (count_occ Nat.eq_dec b x)) (a ++ b).
(** spin.py:99-112, perm_parity. *)
Definition perm_parity (a b : list nat) : Z :=
  if same_multiset a b then (if Nat.odd (inversions_loop a b) then -1 else 1)%Z else 0%Z.
(** spin.py:114-120: the values in the order of the nested loops. *)
Fixpoint levi_loop (dim k : nat) (q : list nat) (check : list nat) : list Z :=
  match k with
  | 0 => [perm_parity q check]
  | S k => concat (map (fun x => levi_loop dim k (q ++ [x]) check) (seq 0 dim))
  end.
(** spin.py:121-125: entry q of the reshaped array. *)
Definition levi_civita (dim : nat) (q : list nat) : Z :=
  nth (ravel (repeat dim dim) q) (levi_loop dim dim [] (seq 0 dim)) 0%Z.
