(** Model of /repo/xmps/fPEPS.py: projected entangled pair states and matrix product
    operators.  The arrays of a PEPS have the axes (physical, up, right, down, left), those
    of an MPO (up, right, down, left). *)
From Verif Require Import Alg ModelMPS ModelNcon ModelEk ModelNp.
Import ListNotations.

(** The rows of data, as list(map(list, zip( *data))) gives the columns (fPEPS.py:334, 371):
    zip stops at the shortest row and gives nothing for no row. *)
Fixpoint zips {A} (rows : list (list A)) : list (list A) :=
  match rows with
  | [] => []
  | [row] => map (fun x => [x]) row
  | row :: rows => map (fun xr => fst xr :: snd xr) (combine row (zips rows))
  end.

(** functools.reduce for a function that may raise; TypeError for an empty list (fPEPS.py:335,
    648-649, 706). *)
Fixpoint foldM {A} (f : A -> A -> res A) (l : list A) (a : A) : res A :=
  match l with
  | [] => Ok a
  | x :: l => do b <- f a x; foldM f l b
  end.
Definition reduce {A} (f : A -> A -> res A) (l : list A) : res A :=
  match l with
  | [] => Err TypeError
  | x :: l => foldM f l x
  end.

Section Model.
Context {R : sring}.
Local Open Scope sr_scope.

(** The fields of an fPEPS (fPEPS.py:257-267); oc is the centre set by isometrise, None when
    the attribute is missing. *)
Record peps := mkPeps { pdata : list (list (tens R)); pLx : nat; pLy : nat; pd : nat; pX : nat; poc : option (Z * Z) }.

(** fPEPS.py:257-267, fPEPS(data): Lx is the number of rows, Ly the length of the first row. *)
Definition peps_init (data : list (list (tens R))) : res peps :=
  match data with
  | [] => Err IndexError
  | row :: _ =>
      do A <- getitem row 0;
      do d <- getitem (tsh A) 0;
      if existsb (fun x => Nat.leb (length (tsh x)) 1) (concat data) then Err ValueError else
      Ok (mkPeps data (length data) (length row) d (list_max (concat (map (fun x => tl (tsh x)) (concat data)))) None)
  end.

(** a.conj() on an array (fPEPS.py:358, 700). *)
Definition tconj (A : tens R) : tens R := mkT (tsh A) (fun idx => sconj (te A idx)).

(** fPEPS.py:40-44, col_contract: the axes -2 and -4 of arrays with five axes are 3 and 1. *)
Definition col_contract (a b : tens R) : res (tens R) :=
  do t <- con a b [3%nat] [1%nat];
  do t <- transpose_ [0; 4; 1; 2; 5; 6; 3; 7]%nat t;
  do a0 <- getitem (tsh a) 0; do b0 <- getitem (tsh b) 0; do a1 <- getitem (tsh a) 1;
  do a2 <- getitem (tsh a) 2; do b2 <- getitem (tsh b) 2; do b3 <- getitem (tsh b) 3;
  do a4 <- getitem (tsh a) 4; do b4 <- getitem (tsh b) 4;
  reshape_ [a0 * b0; a1; a2 * b2; b3; a4 * b4]%nat t.

(** fPEPS.py:47-52, row_contract: the axes -3 and -1 are 2 and 4. *)
Definition row_contract (a b : tens R) : res (tens R) :=
  do t <- con a b [2%nat] [4%nat];
  do t <- transpose_ [0; 4; 1; 5; 6; 2; 7; 3]%nat t;
  do a0 <- getitem (tsh a) 0; do b0 <- getitem (tsh b) 0; do a1 <- getitem (tsh a) 1;
  do b1 <- getitem (tsh b) 1; do b2 <- getitem (tsh b) 2; do a3 <- getitem (tsh a) 3;
  do b3 <- getitem (tsh b) 3; do a4 <- getitem (tsh a) 4;
  reshape_ [a0 * b0; a1 * b1; b2; a3 * b3; a4]%nat t.

(** fPEPS.py:157-158, transpose_peps_tensor. *)
Definition transpose_peps_tensor (A : tens R) : res (tens R) := transpose_ [0; 4; 3; 2; 1]%nat A.

(** The attributes X and d copied over (fPEPS.py:376-379, 390-393, 404-407). *)
Definition keep_Xd (p ret : peps) (oc : option (Z * Z)) : peps :=
  mkPeps (pdata ret) (pLx ret) (pLy ret) (pd p) (pX p) oc.

(** fPEPS.py:368-380, T. *)
Definition peps_T (p : peps) : res peps :=
  do data <- mapM (mapM transpose_peps_tensor) (zips (pdata p));
  do ret <- peps_init data;
  Ok (keep_Xd p ret (match poc p with Some (j, i) => Some (i, j) | None => None end)).

(** fPEPS.py:382-394, R: the new centre is computed with Lx. *)
Definition peps_R (p : peps) : res peps :=
  do data <- mapM (fun row => do r <- mapM (transpose_ [0; 1; 4; 3; 2]%nat) row; Ok (rev r)) (pdata p);
  do ret <- peps_init data;
  Ok (keep_Xd p ret (match poc p with Some (i, j) => Some ((Z.of_nat (pLx p) - 1 - i)%Z, j) | None => None end)).

(** fPEPS.py:396-408, U: the new centre is computed with Ly. *)
Definition peps_U (p : peps) : res peps :=
  do data <- mapM (mapM (transpose_ [0; 3; 2; 1; 4]%nat)) (pdata p);
  do ret <- peps_init (rev data);
  Ok (keep_Xd p ret (match poc p with Some (i, j) => Some (i, (Z.of_nat (pLy p) - j - 1)%Z) | None => None end)).

(** fPEPS.py:333-336, fPEPS.row_contract(fr, to) for 0 <= fr, to. *)
Definition peps_row_contract (p : peps) (fr to : nat) : res peps :=
  let cols := zips (firstn (to - fr) (skipn fr (pdata p))) in
  do mid <- mapM (reduce col_contract) cols;
  peps_init (firstn fr (pdata p) ++ [mid] ++ skipn to (pdata p)).

(** fPEPS.py:338-339, fPEPS.col_contract(fr, to). *)
Definition peps_col_contract (p : peps) (fr to : nat) : res peps :=
  do q <- peps_T p;
  do q <- peps_row_contract q fr to;
  peps_T q.

(** fPEPS.py:341-346, contract. *)
Definition peps_contract (p : peps) (x y width height : nat) : res peps :=
  do q <- peps_row_contract p y (y + height);
  peps_col_contract q x (x + width).

(** np.squeeze (fPEPS.py:650, 660): axes of size 1 are dropped. *)
Fixpoint unsqueeze (sh idx : list nat) : list nat :=
  match sh with
  | [] => []
  | d :: sh => if Nat.eqb d 1 then 0%nat :: unsqueeze sh idx else hd 0%nat idx :: unsqueeze sh (tl idx)
  end.
Definition squeeze (A : tens R) : tens R :=
  mkT (filter (fun d => negb (Nat.eqb d 1)) (tsh A)) (fun idx => te A (unsqueeze (tsh A) idx)).

(** fPEPS.py:644-660, recombine('reading'). *)
Definition peps_recombine (p : peps) : res (tens R) :=
  do cols <- mapM (reduce row_contract) (pdata p);
  do r <- reduce col_contract cols;
  Ok (squeeze r).

(** fPEPS.py:651-660, recombine('row_snake'): the rows with odd number are flipped. *)
Fixpoint snake_rows (i : nat) (rows : list (list (tens R))) : res (list (tens R)) :=
  match rows with
  | [] => Ok []
  | row :: rows =>
      do c <- (if Nat.even i then reduce row_contract row
               else do f <- mapM (transpose_ [0; 1; 4; 3; 2]%nat) (rev row); reduce row_contract f);
      do cs <- snake_rows (S i) rows;
      Ok (c :: cs)
  end.
Definition peps_recombine_snake (p : peps) : res (tens R) :=
  do cols <- snake_rows 0 (pdata p);
  do r <- reduce col_contract cols;
  Ok (squeeze r).

(** np.pad(A, list(zip(before, after))) with zeros (fPEPS.py:519-569). *)
Definition pad (A : tens R) (before after : list nat) : res (tens R) :=
  if Nat.eqb (length (combine before after)) (length (tsh A))
  then Ok (mkT (map (fun bda => fst (fst bda) + snd (fst bda) + snd bda)%nat (combine (combine before (tsh A)) after))
         (fun idx =>
            if forallb (fun xbd => Nat.leb (fst (snd xbd)) (fst xbd) && Nat.ltb (fst xbd - fst (snd xbd)) (snd (snd xbd)))
                       (combine idx (combine before (tsh A)))
            then te A (map (fun xb => fst xb - snd xb)%nat (combine idx before)) else 0))
  else Err ValueError.

(** A + B on arrays of the same number of axes with broadcasting of axes of size 1; other
    numbers of axes are not modelled (ValueError here) (fPEPS.py:520-570). *)
Fixpoint bshape (a b : list nat) : res (list nat) :=
  match a, b with
  | [], [] => Ok []
  | x :: a, y :: b =>
      do sh <- bshape a b;
      if Nat.eqb x y then Ok (x :: sh) else if Nat.eqb x 1 then Ok (y :: sh) else if Nat.eqb y 1 then Ok (x :: sh) else Err ValueError
  | _, _ => Err ValueError
  end.
Definition bidx (sh idx : list nat) : list nat := map (fun dx => if Nat.eqb (fst dx) 1 then 0%nat else snd dx) (combine sh idx).
Definition badd (A B : tens R) : res (tens R) :=
  do sh <- bshape (tsh A) (tsh B);
  Ok (mkT sh (fun idx => te A (bidx (tsh A) idx) + te B (bidx (tsh B) idx))).

(** fPEPS.py:500-569: which of the axes up, right, down, left are padded at column i and row
    j, by the chain of branches on i = Lx-1, i = 0, j = Ly-1, j = 0. *)
Definition pad_axes (Lx Ly i j : nat) : list bool :=
  if Nat.eqb i (Lx - 1) then
    if Nat.eqb j (Ly - 1) then [false; true; false; false; true]
    else if Nat.eqb j 0 then [false; false; false; true; true]
    else [false; true; false; true; true]
  else if Nat.eqb i 0 then
    if Nat.eqb j (Ly - 1) then [false; true; true; false; false]
    else if Nat.eqb j 0 then [false; false; true; true; false]
    else [false; true; true; true; false]
  else
    if Nat.eqb j (Ly - 1) then [false; true; true; false; true]
    else if Nat.eqb j 0 then [false; false; true; true; true]
    else [false; true; true; true; true].

(** [0, shape[1], 0, ...] with the sizes of the padded axes (fPEPS.py:517-569); an array with
    fewer axes raises IndexError. *)
Fixpoint pads (k : nat) (axes : list bool) (sh : list nat) : res (list nat) :=
  match axes with
  | [] => Ok []
  | b :: axes =>
      do x <- (if b then getitem sh k else Ok 0%nat);
      do xs <- pads (S k) axes sh;
      Ok (x :: xs)
  end.

(** One site of the sum (fPEPS.py:513-569). *)
Definition add_site (Lx Ly i j : nat) (a b : tens R) : res (tens R) :=
  if Nat.ltb 1 Lx && Nat.ltb 1 Ly then
    do pads1 <- pads 0 (pad_axes Lx Ly i j) (tsh b);
    do pads2 <- pads 0 (pad_axes Lx Ly i j) (tsh a);
    do a' <- pad a (repeat 0%nat (length (tsh b))) pads1;
    do b' <- pad b pads2 (repeat 0%nat (length (tsh a)));
    badd a' b'
  else Err AssertionError.

Fixpoint add_row (Lx Ly i j : nat) (ab : list (tens R * tens R)) : res (list (tens R)) :=
  match ab with
  | [] => Ok []
  | (a, b) :: ab => do c <- add_site Lx Ly i j a b; do cs <- add_row Lx Ly (S i) j ab; Ok (c :: cs)
  end.
Fixpoint add_rows (Lx Ly j : nat) (rows : list (list (tens R) * list (tens R))) : res (list (list (tens R))) :=
  match rows with
  | [] => Ok []
  | (r1, r2) :: rows => do c <- add_row Lx Ly 0 j (combine r1 r2); do cs <- add_rows Lx Ly (S j) rows; Ok (c :: cs)
  end.

(** fPEPS.py:500-571, add. *)
Definition peps_add (p q : peps) : res peps :=
  do data <- add_rows (pLx p) (pLy p) 0 (combine (pdata p) (pdata q));
  peps_init data.

(** fPEPS.py:914-925, copy: fPEPS(data) with oc, X and d kept. *)
Definition peps_copy (p : peps) : res peps := do ret <- peps_init (pdata p); Ok (keep_Xd p ret (poc p)).

(** fPEPS.py:714-719, apply(op, (i, j)) for 0 <= i, j. *)
Definition peps_apply (p : peps) (op : mat R) (i j : nat) : res peps :=
  do ret <- peps_copy p;
  do row <- getitem (pdata p) j;
  do A <- getitem row i;
  do B <- con (tens_mat op) A [1%nat] [0%nat];
  do row' <- setitem row i B;
  do data <- setitem (pdata ret) j row';
  Ok (mkPeps data (pLx ret) (pLy ret) (pd ret) (pX ret) (poc ret)).

(** The fields of an fMPO (fPEPS.py:162-171). *)
Record mpo := mkMpo { odata : list (tens R); oL : nat; od : nat; oX : nat }.

(** fPEPS.py:162-171, fMPO(data). *)
Definition mpo_init (data : list (tens R)) : res mpo :=
  do A <- getitem data 0;
  do d <- getitem (tsh A) 0;
  if existsb (fun x => Nat.leb (length (tsh x)) 1) data then Err ValueError else
  Ok (mkMpo data (length data) d (list_max (concat (map (fun x => tl (tsh x)) data)))).

(** One site of the product (fPEPS.py:181-183). *)
Definition mul_site (S : setio) (W W_ : tens R) : res (tens R) :=
  do t <- ncon S [W; W_] [[1; -3; -4; -6]; [-1; -2; 1; -5]]%Z None None false;
  do w0 <- getitem (tsh W_) 0; do a1 <- getitem (tsh W) 1; do b1 <- getitem (tsh W_) 1;
  do a2 <- getitem (tsh W) 2; do bl <- getitem (rev (tsh W_)) 0; do al <- getitem (rev (tsh W)) 0;
  reshape_ [w0; a1 * b1; a2; bl * al]%nat t.

(** fPEPS.py:173-185, __mul__ with an fMPO. *)
Definition mpo_mul (S : setio) (a b : mpo) : res mpo :=
  do data <- mapM (fun WW => mul_site S (fst WW) (snd WW)) (combine (odata a) (odata b));
  Ok (mkMpo data (length data) (od a) (oX a * oX b)%nat).

(** fPEPS.py:237-243, from_mps: x.transpose([2, 0, 1]) with a new first axis of size 1.
    mps.d and mps.D must be set. *)
Definition mpo_from_mps (m : fmps R) : res mpo :=
  Ok (mkMpo (map (fun A => mkT [1%nat; dr A; phys A; dl A]
                    (fun idx => ent A (nth 2 idx 0%nat) (nth 3 idx 0%nat) (nth 1 idx 0%nat))) (fdata m))
            (fL m) (fd m) (fD m)).

(** fPEPS.py:246-247, the labels. *)
Definition mpo_labels (L : nat) : list (list Z) :=
  let L := Z.of_nat L in
  [[-1; 1; -L - 1; L + 1]%Z]
  ++ map (fun n => let n := Z.of_nat n in [-n - 2; n + 2; -L - 2 - n; n + 1]%Z) (seq 0 (Z.to_nat (L - 2)))
  ++ [[-L; L + 1; -2 * L; L - 1]%Z].

(** fPEPS.py:245-250, recombine: the conjugate transpose of the matrix with rows for the
    up legs and columns for the down legs. *)
Definition mpo_recombine (S : setio) (m : mpo) : res (mat R) :=
  do M <- ncon S (odata m) (mpo_labels (oL m)) None None false;
  let r := fold_right Nat.mul 1%nat (firstn (oL m) (tsh M)) in
  let c := fold_right Nat.mul 1%nat (skipn (oL m) (tsh M)) in
  do M <- reshape_ [r; c] M;
  Ok (mkMat c r (fun i j => sconj (te M [j; i]))).

(** fPEPS.py:700-704, the transfer tensor of one site. *)
Definition overlap_site (A B : tens R) : res (tens R) :=
  do t <- con A (tconj B) [0%nat] [0%nat];
  do t <- transpose_ [0; 4; 1; 5; 2; 6; 3; 7]%nat t;
  reshape_ (map (fun ab => fst ab * snd ab)%nat (combine (tl (tsh A)) (tl (tsh B)))) t.

(** fPEPS.py:699-707, overlap. *)
Definition peps_overlap (S : setio) (p q : peps) : res (mat R) :=
  do mpos <- mapM (fun rr => do data <- mapM (fun AB => overlap_site (fst AB) (snd AB)) (combine (fst rr) (snd rr)); mpo_init data)
                  (combine (pdata p) (pdata q));
  do m <- reduce (mpo_mul S) (rev mpos);
  mpo_recombine S m.

(** fPEPS.py:794-795, E. *)
Definition peps_E (S : setio) (p : peps) (op : mat R) (i j : nat) : res R :=
  do q <- peps_apply p op i j;
  do M <- peps_overlap S q p;
  if Nat.ltb 0 (mr M) && Nat.ltb 0 (mc M) then Ok (sre (me M 0 0)) else Err IndexError.

(** fPEPS.py:348-352, E_k. *)
Definition peps_E_k (S : setio) (p : peps) (op : mat R) (x y width height : nat) : res R :=
  do q <- peps_contract p x y width height;
  peps_E S q op x y.

(** fPEPS.py:927-928, full_overlap. *)
Definition flat_vec (A : tens R) : list R := map (fun n => te A (unravel (tsh A) n)) (seq 0 (fold_right Nat.mul 1%nat (tsh A))).
Definition peps_full_overlap (p q : peps) : res R :=
  do a <- peps_recombine p;
  do b <- peps_recombine q;
  if Nat.eqb (length (flat_vec a)) (length (flat_vec b))
  then Ok (suml (map (fun xy => sconj (fst xy) * snd xy) (combine (flat_vec a) (flat_vec b))))
  else Err ValueError.

(** The array placed at column i and row j by from_mps (fPEPS.py:592-617). *)
Definition snake_site (Lx i j : nat) (A : site R) : res (tens R) :=
  let a := tens_site A in
  let d := phys A in let X1 := dl A in let X2 := dr A in
  do at_ <- transpose_ [0; 2; 1]%nat a;
  if Nat.even j then
    if Nat.eqb i (Lx - 1) then reshape_ [d; 1; 1; X2; X1]%nat at_
    else if Nat.eqb i 0 then reshape_ [d; X1; X2; 1; 1]%nat a
    else reshape_ [d; 1; X2; 1; X1]%nat at_
  else
    if Nat.eqb i (Lx - 1) then reshape_ [d; X1; 1; 1; X2]%nat a
    else if Nat.eqb i 0 then reshape_ [d; 1; X1; X2; 1]%nat a
    else reshape_ [d; 1; X1; 1; X2]%nat a.

Fixpoint snake_row (Lx i j : nat) (l : list (site R)) : res (list (tens R)) :=
  match l with
  | [] => Ok []
  | A :: l => do t <- snake_site Lx i j A; do ts <- snake_row Lx (S i) j l; Ok (t :: ts)
  end.

(** fPEPS.py:573-617, from_mps(mps, Lx).  Without Lx the length must be a square number (the
    code allows a relative error of 1e-5 in its root).  Lx = 0 is ZeroDivisionError in the code. *)
Definition peps_from_mps (m : fmps R) (Lx : option nat) : res peps :=
  do LL <- match Lx with
           | None => let r := Nat.sqrt (fL m) in if Nat.eqb (r * r) (fL m) then Ok (r, r) else Err AssertionError
           | Some O => Err Exception_
           | Some (S k) => Ok (S k, fL m / S k)%nat
           end;
  let (Lx, Ly) := (LL : nat * nat) in
  do data <- mapM (fun j => let row := firstn Lx (skipn (Lx * j) (fdata m)) in
                            snake_row Lx 0 j (if Nat.even j then row else rev row)) (seq 0 Ly);
  peps_init data.
End Model.
Arguments peps : clear implicits.
Arguments mpo : clear implicits.
