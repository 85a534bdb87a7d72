(** Model of class effH of /repo/xmps/projects/fMPO.py: the effective Hamiltonian of one
    site.  The module imports the tensor functions from a package pymps; they are taken
    to be those of xmps/tensor.py. *)
From Verif Require Import Alg ModelMPS ModelOrth ModelNcon ModelEk ModelNp.

Section Model.
Context {R : sring}.
Local Open Scope sr_scope.

(** tensor.py:185-190, H(A): the last two axes exchanged and conjugated. *)
Definition site_H (A : site R) : tens R :=
  mkT [phys A; dr A; dl A] (fun idx => sconj (ent A (nth 0 idx 0%nat) (nth 2 idx 0%nat) (nth 1 idx 0%nat))).

(** fMPO.py:25-30, env_right of effH at a site with tensors W and A; numpy.dot of two arrays sums over
    the last axis of the first and the last but one of the second. *)
Definition env_right (L W : tens R) (A : site R) : res (tens R) :=
  do X <- con (site_H A) L [2]%nat [1]%nat;
  do X <- con X W [0; 2]%nat [0; 2]%nat;
  do X <- con X (tens_site A) [2; 1]%nat [0; 1]%nat;
  transpose_ [1; 0; 2]%nat X.

(** fMPO.py:32-39, env_left of effH. *)
Definition env_left (R0 W : tens R) (A : site R) : res (tens R) :=
  do Y <- con R0 (site_H A) [2]%nat [1]%nat;
  do Y <- con W Y [0; 3]%nat [2; 0]%nat;
  do Y <- con (tens_site A) Y [0; 2]%nat [0; 2]%nat;
  transpose_ [1; 0; 2]%nat Y.

(** array([[[1.]]]) (fMPO.py:43, 53). *)
Definition one3 : tens R := mkT [1; 1; 1]%nat (fun _ => 1).

(** fMPO.py:41-49, get_left_env(k+1): the last of the list, Ls[-1], which is what get_envs asks for
    by calling it with 0. *)
Fixpoint left_env_from (L : tens R) (Ws : list (tens R)) (As : list (site R)) (ms : list nat) : res (tens R) :=
  match ms with
  | [] => Ok L
  | m :: ms =>
      do W <- getitem Ws m;
      do A <- getitem As m;
      do L <- env_right L W A;
      left_env_from L Ws As ms
  end.
Definition get_left_env (Ws : list (tens R)) (As : list (site R)) (k : nat) : res (tens R) :=
  left_env_from one3 Ws As (seq 0 k).

(** fMPO.py:51-59, get_right_env(k): Rs[::-1][0], the last one computed. *)
Fixpoint right_env_from (R0 : tens R) (Ws : list (tens R)) (As : list (site R)) (ms : list nat) : res (tens R) :=
  match ms with
  | [] => Ok R0
  | m :: ms =>
      do W <- getitem Ws m;
      do A <- getitem As m;
      do R0 <- env_left R0 W A;
      right_env_from R0 Ws As ms
  end.
Definition get_right_env (Ws : list (tens R)) (As : list (site R)) (k : nat) : res (tens R) :=
  right_env_from one3 Ws As (rev (seq k (length As - k))).

(** fMPO.py:61-67, get_envs(k): the attributes L, R, and shape (its two numbers). *)
Record effh : Type := mkEff { e_L : tens R; e_W : tens R; e_A : site R; e_R : tens R }.
Definition get_envs (Ws : list (tens R)) (As : list (site R)) (k : nat) : res effh :=
  do L <- get_left_env Ws As k;
  do R0 <- get_right_env Ws As (k + 1);
  do W <- getitem Ws k;
  do A <- getitem As k;
  Ok (mkEff L W A R0).

(** fMPO.py:64-65: the first number of shape. *)
Definition eff_rows (e : effh) : res nat :=
  do d <- getitem (tsh (e_W e)) 0; Ok (d * (dl (e_A e) * dr (e_A e)))%nat.

(** fMPO.py:69-77, mv; the vector is first given the shape of self.A[self.k]. *)
Definition eff_mv (e : effh) (x : tens R) : res (tens R) :=
  do A <- reshape_ [phys (e_A e); dl (e_A e); dr (e_A e)] x;
  do RA <- con (e_R e) A [2]%nat [2]%nat;
  do WRA <- con (e_W e) RA [1; 3]%nat [2; 0]%nat;
  con (e_L e) WRA [0; 2]%nat [1; 3]%nat.

(** fMPO.py:79-86, asmatrix. *)
Definition eff_matrix (e : effh) : res (tens R) :=
  do WR <- con (e_W e) (e_R e) [3]%nat [0]%nat;
  do T <- con (e_L e) WR [0]%nat [2]%nat;
  do T <- transpose_ [2; 0; 4; 3; 1; 5]%nat T;
  reshape_ [fold_right Nat.mul 1%nat (firstn 3 (tsh T)); fold_right Nat.mul 1%nat (skipn 3 (tsh T))] T.

(** fMPO.py:88-90, aslinearoperator() @ x for a vector x: scipy gives the result of mv the shape
    (shape[0],). *)
Definition eff_apply (e : effh) (x : tens R) : res (tens R) :=
  do y <- eff_mv e x; do n <- eff_rows e; reshape_ [n] y.
End Model.
Arguments effh : clear implicits.
