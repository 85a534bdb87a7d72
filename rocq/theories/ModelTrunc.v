(** Model of the truncations of /repo/xmps/fPEPS.py: slices [:D] of the legs of arrays. *)
From Verif Require Import Alg ModelMPS ModelNcon ModelEk ModelNp ModelPeps.
Local Open Scope nat_scope.

Section Model.
Context {R : sring}.

(** The size of leg ax of a shape cut down to at most D. *)
Fixpoint cut_leg (sh : list nat) (ax D : nat) : list nat :=
  match sh, ax with
  | [], _ => []
  | n :: sh, O => Nat.min D n :: sh
  | n :: sh, S ax => n :: cut_leg sh ax D
  end.
(** x[:, .., :D, .., :] with five slices, :D on the axes axs (fPEPS.py:59, 67, 418-419, 426-427, 434-435,
    444, 452-471); D >= 0.  Fewer than five axes are an IndexError. *)
Definition slice5 (axs : list nat) (D : nat) (A : tens R) : res (tens R) :=
  if Nat.ltb (length (tsh A)) 5 then Err IndexError
  else Ok (mkT (fold_left (fun sh ax => cut_leg sh ax D) axs (tsh A)) (te A)).

(** self.data changed, everything else kept (X is not updated, fPEPS.py:414-473). *)
Definition with_data (p : peps R) (data : list (list (tens R))) : peps R := mkPeps data (pLx p) (pLy p) (pd p) (pX p) (poc p).

(** self.data[r] = f(self.data[r]) for every r of rows. *)
Fixpoint each_row (f : list (tens R) -> res (list (tens R))) (rows : list nat) (data : list (list (tens R))) : res (list (list (tens R))) :=
  match rows with
  | [] => Ok data
  | r :: rows =>
      do row <- getitem data r;
      do row <- f row;
      do data <- setitem data r row;
      each_row f rows data
  end.

(** fPEPS.py:414-420, truncate_above(row, D); `raise Exception` for row 0. *)
Definition truncate_above (p : peps R) (row D : nat) : res (peps R) :=
  if Nat.eqb row 0 then Err Exception_ else
  do data <- each_row (mapM (slice5 [3] D)) [row - 1] (pdata p);
  do data <- each_row (mapM (slice5 [1] D)) [row] data;
  Ok (with_data p data).

(** fPEPS.py:422-428, truncate_below(row, D); `raise Exception` for the last row. *)
Definition truncate_below (p : peps R) (row D : nat) : res (peps R) :=
  if Nat.eqb (row + 1) (pLx p) then Err Exception_ else
  do data <- each_row (mapM (slice5 [3] D)) [row] (pdata p);
  do data <- each_row (mapM (slice5 [1] D)) [row + 1] data;
  Ok (with_data p data).

(** fPEPS.py:434-435: the body of the loop of truncate_left for one row. *)
Definition left_row (col D : nat) (row : list (tens R)) : res (list (tens R)) :=
  do A <- getitem row col; do A <- slice5 [4] D A; do row <- setitem row col A;
  do B <- getitem row (col - 1); do B <- slice5 [2] D B; setitem row (col - 1) B.
(** fPEPS.py:430-436, truncate_left(col, D). *)
Definition truncate_left (p : peps R) (col D : nat) : res (peps R) :=
  if Nat.eqb col 0 then Err Exception_ else
  do data <- each_row (left_row col D) (seq 0 (pLx p)) (pdata p); Ok (with_data p data).

(** fPEPS.py:438-440 and 55-60, truncate_along_row(row, D) with row_truncate. *)
Definition truncate_along_row (p : peps R) (row D : nat) : res (peps R) :=
  do data <- each_row (mapM (slice5 [2; 4] D)) [row] (pdata p); Ok (with_data p data).

(** fPEPS.py:444: the body of the loop of truncate_along_column. *)
Definition column_row (col D : nat) (row : list (tens R)) : res (list (tens R)) :=
  do A <- getitem row col; do A <- slice5 [1; 3] D A; setitem row col A.
(** fPEPS.py:442-445, truncate_along_column(col, D). *)
Definition truncate_along_column (p : peps R) (col D : nat) : res (peps R) :=
  do data <- each_row (column_row col D) (seq 0 (length (pdata p))) (pdata p); Ok (with_data p data).

(** fPEPS.py:448: the five numbers of the shape of self.data[j][i]; ValueError for another number of axes. *)
Definition shape_at (data : list (list (tens R))) (j i : nat) : res (list nat) :=
  do row <- getitem data j; do A <- getitem row i;
  if Nat.eqb (length (tsh A)) 5 then Ok (tsh A) else Err ValueError.
(** self.data[j][i] = self.data[j][i][.., :D, ..] with :D on axis ax. *)
Definition cut_site (data : list (list (tens R))) (j i ax D : nat) : res (list (list (tens R))) :=
  each_row (fun row => do A <- getitem row i; do A <- slice5 [ax] D A; setitem row i A) [j] data.
(** fPEPS.py:450-454, and 456-460, 462-466, 468-472 with other legs: leg ax of the array at (j, i), of size n,
    and leg ax' of the one at (j', i') are cut to the smaller size. *)
Definition fix_pair (data : list (list (tens R))) (j i ax n j' i' ax' : nat) : res (list (list (tens R))) :=
  do sh <- shape_at data j' i';
  do n' <- getitem sh ax';
  let n := Nat.min n n' in
  do data <- cut_site data j' i' ax' n;
  do data <- cut_site data j i ax n;
  do a <- shape_at data j' i'; do a <- getitem a ax';
  do b <- shape_at data j i; do b <- getitem b ax;
  if Nat.eqb a b then Ok data else Err AssertionError.
(** fPEPS.py:447-473, fix_neighbours(i, j) for 0 <= i, j: column i is compared with Lx, row j with Ly. *)
Definition fix_neighbours (p : peps R) (i j : nat) : res (peps R) :=
  do sh <- shape_at (pdata p) j i;
  do up <- getitem sh 1; do rgt <- getitem sh 2; do down <- getitem sh 3; do lft <- getitem sh 4;
  let data := pdata p in
  do data <- (if Nat.ltb 0 j then fix_pair data j i 1 up (j - 1) i 3 else Ok data);
  do data <- (if Nat.ltb (i + 1) (pLx p) then fix_pair data j i 2 rgt j (i + 1) 4 else Ok data);
  do data <- (if Nat.ltb (j + 1) (pLy p) then fix_pair data j i 3 down (j + 1) i 1 else Ok data);
  do data <- (if Nat.ltb 0 i then fix_pair data j i 4 lft j (i - 1) 2 else Ok data);
  Ok (with_data p data).
End Model.
