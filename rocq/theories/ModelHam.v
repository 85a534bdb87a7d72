(** Model of /repo/xmps/Hamiltonians.py. *)
From Coq Require Import Ascii.
From Verif Require Import Alg ModelMPS ModelNcon ModelEk ModelTensor ModelSpin.

(** ** Dictionaries with strings as keys, in the order of insertion *)
Definition key := list ascii.
Fixpoint key_eqb (a b : key) : bool :=
  match a, b with
  | [], [] => true
  | x :: a, y :: b => Ascii.eqb x y && key_eqb a b
  | _, _ => false
  end.

Section Model.
Context {R : sring}.
Local Open Scope sr_scope.

Definition dict := list (key * R).
(** d.get(k), d[k] = v, d.pop(k), used in Hamiltonians.py:22-26, 97-112. *)
Fixpoint dget (d : dict) (k : key) : option R :=
  match d with [] => None | (a, v) :: d => if key_eqb a k then Some v else dget d k end.
Fixpoint dset (d : dict) (k : key) (v : R) : dict :=
  match d with [] => [(k, v)] | (a, w) :: d => if key_eqb a k then (a, v) :: d else (a, w) :: dset d k v end.
Fixpoint dpop (d : dict) (k : key) : dict :=
  match d with [] => [] | (a, w) :: d => if key_eqb a k then d else (a, w) :: dpop d k end.

(** The numbers: 1/2 and 1j (see ModelSpin), and x == 0 up to allclose (Hamiltonians.py:56)
    or != (Hamiltonians.py:97), both exact here. *)
Variable C : consts R.
Variable eqb : R -> R -> bool.

(** Hamiltonians.py:22-26: the loop over a copy of the items. *)
Definition widen (d : dict) : dict :=
  fold_left (fun acc kv => match fst kv with
                           | [c] => dpop (dset (dset acc ["I"%char; c] (snd kv)) [c; "I"%char] (snd kv)) [c]
                           | _ => acc
                           end) d d.

(** The attributes of a Hamiltonian (Hamiltonians.py:19-29); None: not set. *)
Record ham : Type := mkHam { h_strings : option dict; h_matrices : option (list (mat R)); h_d : option nat }.

(** Hamiltonians.py:19-29, __init__. *)
Definition ham_init (strings : option dict) (matrices : option (list (mat R))) (d : nat) : ham :=
  mkHam (option_map widen strings) matrices (match matrices with Some _ => Some d | None => None end).

(** self.strings, AttributeError if it is not set. *)
Definition strings_of (h : ham) : res dict := match h_strings h with Some d => Ok d | None => Err AttributeError end.

(** Hamiltonians.py:55-57, _squeeze. *)
Definition squeeze (d : dict) : dict := filter (fun kv => negb (eqb (snd kv) 0)) d.

(** Hamiltonians.py:8-10: S[j]. *)
Definition S_of (c : ascii) : res (mat R) :=
  if Ascii.eqb c "I" then Ok (eye 2)
  else if Ascii.eqb c "X" then Ok (fst (fst (paulis C 1)))
  else if Ascii.eqb c "Y" then Ok (snd (fst (paulis C 1)))
  else if Ascii.eqb c "Z" then Ok (snd (paulis C 1))
  else Err KeyError.

(** One pass of the loop of Hamiltonians.py:63-65: h_i += J*reduce(kron, ...). *)
Definition add_term (h : mat R) (kv : key * R) : res (mat R) :=
  do ops <- mapM S_of (fst kv);
  do M <- tensor ops;
  if Nat.eqb (mr M) 4 && Nat.eqb (mc M) 4
  then Ok (mkMat 4 4 (fun i j => me h i j + snd kv * me M i j))
  else Err ValueError.
Fixpoint add_terms (h : mat R) (d : dict) : res (mat R) :=
  match d with [] => Ok h | kv :: d => do h <- add_term h kv; add_terms h d end.

(** Hamiltonians.py:59-67, to_matrix. *)
Definition strings_to_matrix (d : dict) : res (mat R) := add_terms (mkMat 4 4 (fun _ _ => 0)) d.
Definition to_matrix (h : ham) : res (mat R) := do d <- strings_of h; strings_to_matrix d.

(** Hamiltonians.py:70-90, heis_mpo: W[a, b] as a matrix of the two physical axes. *)
Definition heis_W (Jx Jy Jz hx hy hz : R) (a b : nat) : nat -> nat -> R :=
  let sx := me (lit 2 2 [0; 1; 1; 0]) in
  let sy := me (lit 2 2 [0; - c_im C; c_im C; 0]) in
  let sz := me (lit 2 2 [1; 0; 0; - (1)]) in
  match a, b with
  | 0%nat, 0%nat => fun s t => dlt s t
  | 0%nat, 1%nat => sz
  | 0%nat, 2%nat => sy
  | 0%nat, 3%nat => sx
  | 0%nat, 4%nat => fun s t => hz * sz s t + hy * sy s t + hx * sx s t
  | 1%nat, 4%nat => fun s t => Jz * sz s t
  | 2%nat, 4%nat => fun s t => Jy * sy s t
  | 3%nat, 4%nat => fun s t => Jx * sx s t
  | 4%nat, 4%nat => fun s t => dlt s t
  | _, _ => fun _ _ => 0
  end.
Definition heis_mpo (Jx Jy Jz hx hy hz : R) : tens R :=
  mkT [5; 5; 2; 2]%nat (fun idx => match idx with [a; b; s; t] => heis_W Jx Jy Jz hx hy hz a b s t | _ => 0 end).

(** Hamiltonians.py:92. *)
Definition heis_keys : list key :=
  [["X"; "X"]; ["Y"; "Y"]; ["Z"; "Z"]; ["I"; "X"]; ["I"; "Y"]; ["I"; "Z"]]%char.
Definition dget0 (d : dict) (k : key) : R := match dget d k with Some v => v | None => 0 end.

(** Hamiltonians.py:93-98: the checks; the first failing key raises. *)
Definition heis_ok (d : dict) : bool :=
  forallb (fun kv => (existsb (key_eqb (fst kv)) heis_keys || existsb (key_eqb (rev (fst kv))) heis_keys)
                     && eqb (dget0 d (rev (fst kv))) (dget0 d (fst kv))) d.

(** Hamiltonians.py:69-99, to_mpo. *)
Definition to_mpo (h : ham) (L : nat) : res (list (tens R)) :=
  do d <- strings_of h;
  if heis_ok d
  then match map (dget0 d) heis_keys with
       | [Jx; Jy; Jz; hx; hy; hz] => Ok (repeat (heis_mpo Jx Jy Jz hx hy hz) L)
       | _ => Err TypeError
       end
  else Err NotImplementedError.

(** Hamiltonians.py:107-112: d[k] = d[k]/2 if k is a key. *)
Definition halve (d : dict) (k : key) : dict :=
  match dget d k with Some v => dset d k (v * c_half C) | None => d end.
Definition halve_left (d : dict) : dict := fold_left (fun d st => halve d [st; "I"%char]) ["X"; "Y"; "Z"]%char d.
Definition halve_right (d : dict) : dict := fold_left (fun d st => halve d ["I"%char; st]) ["X"; "Y"; "Z"]%char d.

(** Hamiltonians.py:101-122, to_matrices.  The three dictionaries are changed
    independently of each other, so the order of the halvings does not matter. *)
Definition to_matrices (h : ham) (L : nat) : res (list (mat R)) :=
  do d <- strings_of h;
  let H_0 := squeeze (widen (halve_right d)) in
  let H_L := squeeze (widen (halve_left d)) in
  let H_i := squeeze (widen (halve_right (halve_left d))) in
  if Nat.eqb L 2 then do a <- strings_to_matrix H_i; Ok [a]
  else if Nat.eqb L 3 then do a <- strings_to_matrix H_0; do b <- strings_to_matrix H_L; Ok [a; b]
  else do a <- strings_to_matrix H_0; do m <- strings_to_matrix H_i; do b <- strings_to_matrix H_L;
       Ok ([a] ++ repeat m (L - 3) ++ [b]).

(** Hamiltonians.py:39-45, k: [ilog] is int(math.log(., .)) with the assertion. *)
Definition ham_k (ilog : nat -> nat -> res nat) (h : ham) : res nat :=
  match h_matrices h with
  | None => Err TypeError
  | Some ms => do m <- getitem ms 0;
               match h_d h with None => Err AttributeError | Some d => ilog (mr m) d end
  end.
(** Hamiltonians.py:46-50, L = len(matrices) + k - 1. *)
Definition ham_L (ilog : nat -> nat -> res nat) (h : ham) : res nat :=
  match h_matrices h with
  | None => Err Exception_
  | Some ms => do k <- ham_k ilog h; Ok (length ms + k - 1)%nat
  end.

(** One pass of the loop of Hamiltonians.py:140-141: the identities are 2 x 2. *)
Definition full_term (L k : nat) (total : mat R) (im : nat * mat R) : res (mat R) :=
  do M <- tensor (repeat (eye 2) (fst im) ++ [snd im] ++ repeat (eye 2) (L - k - fst im));
  if Nat.eqb (mr M) (mr total) && Nat.eqb (mc M) (mc total)
  then Ok (mkMat (mr total) (mc total) (fun i j => me total i j + me M i j))
  else Err ValueError.
Fixpoint full_terms (L k : nat) (total : mat R) (l : list (nat * mat R)) : res (mat R) :=
  match l with [] => Ok total | im :: l => do total <- full_term L k total im; full_terms L k total l end.

(** Hamiltonians.py:131-142, to_full. *)
Definition to_full (ilog : nat -> nat -> res nat) (h : ham) (L : option nat) : res (mat R) :=
  do h <- match h_matrices h with
          | Some _ => Ok h
          | None => match h_strings h with
                    | None => Err Exception_
                    | Some _ => match L with
                                | None => Err AssertionError
                                | Some L => do ms <- to_matrices h L; Ok (mkHam (h_strings h) (Some ms) (h_d h))
                                end
                    end
          end;
  match h_matrices h with
  | None => Err Exception_
  | Some ms =>
      do L <- ham_L ilog h;
      do k <- ham_k ilog h;
      full_terms L k (mkMat (2 ^ L) (2 ^ L) (fun _ _ => 0)) (combine (seq 0 (length ms)) ms)
  end.
End Model.
Arguments dict : clear implicits.
Arguments ham : clear implicits.
