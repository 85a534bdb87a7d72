(** Model of the index tools of tensor.py: T, H, C, loc, loc_3, split_up, split_up_3,
    and of partial_trace (also spin.py) and rhoA. *)
From Verif Require Import Alg ModelMPS ModelNcon ModelEk.

(** The last two elements of a list exchanged. *)
Definition swap_last {A} (l : list A) : list A :=
  match rev l with
  | x :: y :: r => rev r ++ [x; y]
  | _ => l
  end.

(** tensor.py:373-389, loc(st, uv, d, p, q). *)
Definition loc (st uv : nat * nat) (d p q : option nat) : res (nat * nat) :=
  let pq := match d with Some d => (Some d, Some d) | None => (p, q) end in
  match pq with
  | (Some p, Some q) => Ok (p * fst st + fst uv, q * snd st + snd uv)
  | (None, None) => Err Exception_
  | _ => Err TypeError
  end.

(** tensor.py:394-412, loc_3(rs, tu, vw, d). *)
Definition loc_3 (rs tu vw : nat * nat) (d : nat) : nat * nat :=
  (d ^ 2 * fst rs + d * fst vw + fst tu, d ^ 2 * snd rs + d * snd vw + snd tu).

Section Model.
Context {R : sring}.
Local Open Scope sr_scope.

(** numpy.swapaxes(tensor, -1, -2); AxisError below rank 2. *)
Definition swapaxes_last (A : tens R) : res (tens R) :=
  if Nat.ltb (length (tsh A)) 2 then Err IndexError
  else Ok (mkT (swap_last (tsh A)) (fun idx => te A (swap_last idx))).

(** tensor.py:178-183, T. *)
Definition tT (A : tens R) : res (tens R) := swapaxes_last A.

(** tensor.py:192-197, C. *)
Definition tC (A : tens R) : tens R := mkT (tsh A) (fun idx => sconj (te A idx)).

(** tensor.py:185-190, H. *)
Definition tH (A : tens R) : res (tens R) := swapaxes_last (tC A).

(** numpy.matmul of two stacks of matrices with the same leading axes (no
    broadcasting), as used with H throughout iMPS.py and fMPS.py. *)
Definition matmul (A B : tens R) : res (tens R) :=
  match rev (tsh A), rev (tsh B) with
  | k :: n :: l, m :: k' :: l' =>
      if Nat.eqb k k' && nlist_eqb l l'
      then Ok (mkT (rev l ++ [n; m]) (fun idx =>
             match rev idx with
             | j :: i :: r => sum k (fun x => te A (rev r ++ [i; x]) * te B (rev r ++ [x; j]))
             | _ => 0
             end))
      else Err ValueError
  | _, _ => Err ValueError
  end.

(** numpy.kron of two matrices. *)
Definition kron (A B : mat R) : mat R :=
  mkMat (mr A * mr B)%nat (mc A * mc B)%nat
    (fun i j => me A (i / mr B)%nat (j / mc B)%nat * me B (i mod mr B)%nat (j mod mc B)%nat).

(** M[i, j] with IndexError out of range (tensor.py:422, 443). *)
Definition mget (M : mat R) (ij : nat * nat) : res R :=
  if Nat.ltb (fst ij) (mr M) && Nat.ltb (snd ij) (mc M) then Ok (me M (fst ij) (snd ij)) else Err IndexError.

(** All entries of an array of the given shape computed by a loop that may raise
    (tensor.py:416-422, 439-443). *)
Fixpoint fill (sh : list nat) (f : list nat -> res R) : res (tens R) :=
  match sh with
  | [] => do x <- f []; Ok (mkT [] (fun _ => x))
  | n :: sh => do Ts <- mapM (fun i => fill sh (fun idx => f (i :: idx))) (seq 0 n);
      Ok (mkT (n :: sh) (fun idx => match nth_error Ts (hd 0%nat idx) with Some T => te T (tl idx) | None => 0 end))
  end.

(** tensor.py:425-444, split_up(H, d): without d the loop raises TypeError; with d
    the arguments p and q are overwritten. *)
Definition split_up (M : mat R) (d p q : option nat) : res (tens R) :=
  match d with
  | None => match p, q with None, None => Err Exception_ | _, _ => Err TypeError end
  | Some d =>
      do h <- fill [d; d; d; d] (fun idx =>
        do ij <- loc (nth 0 idx 0%nat, nth 1 idx 0%nat) (nth 2 idx 0%nat, nth 3 idx 0%nat) None (Some d) (Some d);
        mget M ij);
      (* transpose(h, [2, 0, 3, 1]) *)
      Ok (mkT [d; d; d; d] (fun idx => te h [nth 1 idx 0; nth 3 idx 0; nth 0 idx 0; nth 2 idx 0]%nat))
  end.

(** tensor.py:414-423, split_up_3(H, d). *)
Definition split_up_3 (M : mat R) (d : nat) : res (tens R) :=
  fill [d; d; d; d; d; d] (fun idx =>
    mget M (loc_3 (nth 0 idx 0, nth 1 idx 0)%nat (nth 2 idx 0, nth 3 idx 0)%nat (nth 4 idx 0, nth 5 idx 0)%nat 2)).

(** ** einsum with integer labels *)

(** The size of a label: that of its first occurrence. *)
Definition label_dim (l : nat) (ops : list (tens R * list nat)) : nat :=
  let leg := concat (map (fun o => combine (snd o) (tsh (fst o))) ops) in
  match find (fun x => Nat.eqb (fst x) l) leg with Some x => snd x | None => 0%nat end.

(** numpy.einsum(op, labels, op, labels, ...) in implicit mode: the labels that
    occur once are the axes of the result, in increasing order; all others are
    summed (tensor.py:140, 175, spin.py:68).  Sizes that do not agree raise
    ValueError (numpy's broadcasting of size 1 is left out). *)
Definition einsum (ops : list (tens R * list nat)) : res (tens R) :=
  let labels := concat (map snd ops) in
  if forallb (fun o => nlist_eqb (tsh (fst o)) (map (fun l => label_dim l ops) (snd o))) ops
  then
    let all := seq 0 (S (list_max labels)) in
    let out := filter (fun l => Nat.eqb (count_occ Nat.eq_dec labels l) 1) all in
    let rep := filter (fun l => Nat.ltb 1 (count_occ Nat.eq_dec labels l)) all in
    Ok (mkT (map (fun l => label_dim l ops) out) (fun idx =>
      sumcfg (map (fun l => label_dim l ops) rep) (fun c =>
        let env l := match index_of Nat.eqb l (out ++ rep) with Some k => nth k (idx ++ c) 0%nat | None => 0%nat end in
        prodl (map (fun o => te (fst o) (map env (snd o))) ops))))
  else Err ValueError.

(** A.reshape(sh) of a matrix and of a vector, T.reshape(n, n). *)
Definition reshape_mat (sh : list nat) (M : mat R) : res (tens R) :=
  if Nat.eqb (mr M * mc M) (fold_right Nat.mul 1%nat sh)
  then Ok (mkT sh (fun idx => let n := ravel sh idx in me M (n / mc M)%nat (n mod mc M)%nat))
  else Err ValueError.
Definition reshape_vec (sh : list nat) (v : list R) : res (tens R) :=
  if Nat.eqb (length v) (fold_right Nat.mul 1%nat sh)
  then Ok (mkT sh (fun idx => nth (ravel sh idx) v 0))
  else Err ValueError.
Definition reshape_square (n : nat) (T : tens R) : res (mat R) :=
  if Nat.eqb (fold_right Nat.mul 1%nat (tsh T)) (n * n)
  then Ok (mkMat n n (fun r c => te T (unravel (tsh T) (r * n + c)%nat)))
  else Err ValueError.

(** idx2 of tensor.py:173 (138): Ndim+i if i in keep else i. *)
Definition idx2 (keep : list nat) (N : nat) : list nat :=
  map (fun i => if existsb (Nat.eqb i) keep then (N + i)%nat else i) (seq 0 N).

(** tensor.py:143-176 and spin.py:33-69, partial_trace.  An empty keep gives an index
    array of floats: IndexError. *)
Definition partial_trace (rho : mat R) (keep dims : list nat) : res (mat R) :=
  if Nat.eqb (length keep) 0 then Err IndexError else
  let Ndim := length dims in
  do kd <- mapM (getitem dims) keep;
  do T <- reshape_mat (dims ++ dims) rho;
  do T <- einsum [(T, seq 0 Ndim ++ idx2 keep Ndim)];
  reshape_square (fold_right Nat.mul 1%nat kd) T.

(** tensor.py:106-141, rhoA. *)
Definition rhoA (u : list R) (keep dims : list nat) : res (mat R) :=
  if Nat.eqb (length keep) 0
  then Ok (mkMat (length u) (length u) (fun i j => nth i u 0 * sconj (nth j u 0)))
  else
  let Ndim := length dims in
  do kd <- mapM (getitem dims) keep;
  do T <- reshape_vec dims u;
  do T <- einsum [(T, seq 0 Ndim); (tC T, idx2 keep Ndim)];
  reshape_square (fold_right Nat.mul 1%nat kd) T.
End Model.
