(** Concrete PEPS and MPO used in the examples and refutations of PropPeps.v. *)
From Verif Require Import Alg ModelMPS SpecMPS ModelNcon SpecNcon ModelEk ModelNp ModelTensor ModelPeps SpecTensor SpecPeps.
Import ListNotations.

(** An array over the Gaussian integers filled from the number k. *)
Definition tz (k : nat) (sh : list nat) : tens Zi :=
  mkT sh (fun idx => let n := ravel sh idx in zi (Z.of_nat ((k + 3 * n) mod 5) - 2) (Z.of_nat ((k + n) mod 3) - 1)).

(** The shapes of create_structure (fPEPS.py:475-498) for 2 rows, 3 columns, d = X = 2, and for
    2 rows and 2 columns. *)
Definition d23 : list (list (tens Zi)) :=
  [[tz 1 [2;1;2;2;1]; tz 2 [2;1;2;2;2]; tz 3 [2;1;1;2;2]]; [tz 4 [2;2;2;1;1]; tz 5 [2;2;2;1;2]; tz 6 [2;2;1;1;2]]].
Definition e23 : list (list (tens Zi)) :=
  [[tz 7 [2;1;1;2;1]; tz 9 [2;1;3;1;1]; tz 3 [2;1;1;2;3]]; [tz 2 [2;2;2;1;1]; tz 0 [2;1;1;1;2]; tz 6 [2;2;1;1;1]]].
Definition d22 : list (list (tens Zi)) :=
  [[tz 1 [2;1;2;2;1]; tz 2 [2;1;1;2;2]]; [tz 4 [2;2;2;1;1]; tz 5 [2;2;1;1;2]]].

(** As built by fPEPS(data) (Lx = number of rows) and by random (Lx = number of columns), with
    the orthogonality centre at column 2, row 0. *)
Definition p23 : peps Zi := mkPeps d23 2 3 2 2 (Some (2, 0)%Z).
Definition r23 : peps Zi := mkPeps d23 3 2 2 2 None.
Definition q23 : peps Zi := mkPeps e23 3 2 2 3 None.
Definition p22 : peps Zi := mkPeps d22 2 2 2 2 None.

(** A PEPS of 2 rows and 2 columns whose rows are joined by two different pairs. *)
Definition t22 (f : list nat -> bool) (sh : list nat) : tens Zi := mkT sh (fun idx => if f idx then zi 1 0 else zi 0 0).
Definition pairs : list (list (tens Zi)) :=
  [[t22 (fun idx => Nat.eqb (nth 0 idx 0) (nth 3 idx 0)) [2;1;1;2;1]; t22 (fun idx => Nat.eqb (nth 3 idx 0) 0) [1;1;1;2;1]];
   [t22 (fun idx => Nat.eqb (nth 0 idx 0) (nth 1 idx 0)) [2;2;1;1;1]; t22 (fun _ => true) [1;2;1;1;1]]].
Definition pp22 : peps Zi := mkPeps pairs 2 2 2 2 None.

(** A product state of 2 rows and 3 columns: 1 in row 0, column 1, else 0. *)
Definition one : list (list (tens Zi)) :=
  let z := t22 (fun idx => Nat.eqb (nth 0 idx 0) 0) [2;1;1;1;1] in let o := t22 (fun idx => Nat.eqb (nth 0 idx 0) 1) [2;1;1;1;1] in
  let w := t22 (fun _ => true) [1;1;1;1;1] in [[z; o; w]; [z; z; w]].
Definition p_one : peps Zi := mkPeps one 2 3 2 1 None.
(** The projector on entry number n of 16. *)
Definition proj (n : nat) : mat Zi := mkMat 16 16 (fun i j => if (Nat.eqb i n && Nat.eqb j n)%bool then zi 1 0 else zi 0 0).

(** The observable of the docstring of E_k (fPEPS.py:352-356): the operator with its rows and
    columns in reading order of the block. *)
Definition reading (rows cols : list nat) (g : list (list nat)) : list nat :=
  flat_map (fun j => map (fun i => at_ 0 g j i) cols) rows.

(** Two operators on three sites. *)
Definition mA : mpo Zi := mkMpo [tz 1 [2;2;2;3]; tz 2 [2;2;2;2]; tz 4 [2;3;2;2]] 3 2 3.
Definition mB : mpo Zi := mkMpo [tz 0 [3;2;2;1]; tz 3 [2;2;2;2]; tz 8 [2;1;2;2]] 3 2 2.

(** A chain of six sites with bonds 2, 3, 3, 2, 2. *)
Definition sz (k p a b : nat) : site Zi := mkSite p a b (fun s i j => zi (Z.of_nat ((k + 3 * s + 2 * i + j) mod 5) - 2) (Z.of_nat ((k + s + i * j) mod 3) - 1)).
Definition chain6 : list (site Zi) := [sz 1 2 1 2; sz 2 2 2 3; sz 3 3 3 3; sz 4 2 3 2; sz 5 2 2 2; sz 6 2 2 1].
Definition m6 : fmps Zi := mkF chain6 6 2 3 None None None None.
