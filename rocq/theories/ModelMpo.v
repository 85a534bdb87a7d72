(** Model of the remaining methods of the class fMPO of /repo/xmps/fPEPS.py. *)
From Verif Require Import Alg ModelMPS ModelNcon ModelEk ModelNp ModelPeps.
Local Open Scope nat_scope.

Section Model.
Context {R : sring}.

(** fPEPS.py:187-189, transpose_ud. *)
Definition mpo_transpose_ud (m : mpo R) : res (mpo R) :=
  do data <- mapM (transpose_ [2; 1; 0; 3]) (odata m); Ok (mkMpo data (oL m) (od m) (oX m)).

(** fPEPS.py:191-193, transpose_lr. *)
Definition mpo_transpose_lr (m : mpo R) : res (mpo R) :=
  do data <- mapM (transpose_ [0; 3; 2; 1]) (odata m); Ok (mkMpo data (oL m) (od m) (oX m)).

(** fPEPS.py:195-198, rotate_90. *)
Definition mpo_rotate_90 (m : mpo R) : res (mpo R) :=
  do data <- mapM (transpose_ [3; 0; 1; 2]) (odata m); mpo_init data.

(** fPEPS.py:200-202, unrotate_90. *)
Definition mpo_unrotate_90 (m : mpo R) : res (mpo R) :=
  do data <- mapM (transpose_ [1; 2; 3; 0]) (odata m); mpo_init data.

(** fPEPS.py:204-206, reverse. *)
Definition mpo_reverse (m : mpo R) : mpo R := mkMpo (rev (odata m)) (oL m) (od m) (oX m).

(** fPEPS.py:208-217, create_structure. *)
Definition mpo_structure (L d X : nat) : list (list nat) :=
  [[d; X; d; 1]] ++ map (fun _ => [d; X; d; X]) (seq 0 (L - 2)) ++ [[d; 1; d; X]].

(** fPEPS.py:225-229, random; draw k is the k-th array drawn. *)
Definition mpo_random (draw : nat -> list nat -> R) (L d X : nat) : mpo R :=
  mkMpo (map (fun ks => mkT (snd ks) (draw (fst ks))) (combine (seq 0 (length (mpo_structure L d X))) (mpo_structure L d X))) L d X.

(** fPEPS.py:231-236, the arrays of trivial(L).  The attribute L is not set by trivial and is not
    part of the result here. *)
Definition mpo_trivial_data (L : nat) : list (tens R) := map (fun sh => mkT sh (fun _ => s1)) (mpo_structure L 1 1).
End Model.
