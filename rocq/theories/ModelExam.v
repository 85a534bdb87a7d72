(** Model of /repo/xmps/mps_examples.py and of the two matrices in fMPS.py:67-81. *)
From Verif Require Import Alg ModelMPS ModelPad ModelNcon ModelTensor ModelSpin ModelOrth ModelCanon ModelTraj.

Section Model.
Context {R : sring}.
Local Open Scope sr_scope.

(** A tensor with two physical states given by its two matrices, row by row: the assignments
    matrices[k][0] = .. and matrices[k][1] = .. of mps_examples.py. *)
Definition two (l r : nat) (a b : list R) : site R :=
  mkSite 2 l r (fun s i j => nth (i * r + j)%nat (match s with 0%nat => a | _ => b end) 0).

(** mps_examples.py:17-40: the tensors of bell(i); None where the function returns None. *)
Definition bell_data (i : nat) : option (list (site R)) :=
  match i with
  | 1%nat => Some [two 1 2 [0; 1] [1; 0]; two 2 1 [0; 1] [1; 0]]
  | 2%nat => Some [two 1 2 [0; 1] [1; 0]; two 2 1 [0; 1] [- (1); - 0]]
  | 3%nat => Some [two 1 2 [0; 1] [1; 0]; two 2 1 [1; 0] [0; 1]]
  | 4%nat => Some [two 1 2 [0; 1] [1; 0]; two 2 1 [1; 0] [- 0; - (1)]]
  | _ => None
  end.

(** mps_examples.py:10-41, bell. *)
Definition bell (O : lapack2 R) (i : nat) : res (option (fmps R)) :=
  match bell_data i with
  | None => Ok None
  | Some l => do m <- fMPS_init l (Some 2%nat) None; do m <- lcan O m None; Ok (Some m)
  end.

(** The two pads of mps_examples.py:65-66 = 101-102. *)
Definition padded (A B : site R) : list (site R) := [pad_site A 0 1; pad_site B 1 0].

(** mps_examples.py:43-67, comp_z. *)
Definition comp_z (i : nat) : res (fmps R) :=
  let up := two 1 1 [1] [0] in let dn := two 1 1 [0] [1] in
  let l := match i with
           | 1%nat => padded up up
           | 2%nat => padded up dn
           | 3%nat => padded dn up
           | 4%nat => padded dn dn
           | _ => padded (two 1 1 [0] [0]) (two 1 1 [0] [0])
           end in
  fMPS_init l (Some 2%nat) None.

(** mps_examples.py:69-103, comp_x; im is 1j. *)
Definition comp_x_data (im : R) (i : nat) : list (site R) :=
  match i with
  | 1%nat => [two 1 1 [1] [1]; two 1 1 [1] [1]]
  | 2%nat => padded (two 1 1 [im] [im]) (two 1 1 [im] [- im])
  | 3%nat => padded (two 1 1 [- im] [im]) (two 1 1 [im] [im])
  | 4%nat => padded (two 1 1 [1] [- (1)]) (two 1 1 [1] [- (1)])
  | _ => padded (two 1 1 [0] [0]) (two 1 1 [0] [0])
  end.
Definition comp_x (O : lapack2 R) (im : R) (i : nat) : res (fmps R) :=
  do m <- fMPS_init (comp_x_data im i) (Some 2%nat) None; lcan O m None.

(** mps_examples.py:133-141, AKLT: the tensor handed to iMPS.  r23 and r12 are sqrt(2/3) and
    sqrt(1/2); ladders(0.5) is unpacked as sp, sm. *)
Definition AKLT_site (C : consts R) (r23 r12 : R) : option (site R) :=
  match ladders C 1 with
  | None => None
  | Some (sp, sm) =>
      let sz := snd (spins C 1) in
      Some (mkSite 3 2 2 (fun s i j => match s with
                                       | 0%nat => r23 * me sp i j
                                       | 1%nat => - r12 * me sz i j
                                       | _ => - r23 * me sm i j
                                       end))
  end.

(** fMPS.py:67-72, sympmat. *)
Definition sympmat (N : nat) : mat R :=
  mkMat (N + N) (N + N) (fun i j =>
    if Nat.ltb i N then (if Nat.ltb j N then 0 else dlt i (j - N))
    else (if Nat.ltb j N then - dlt (i - N) j else 0)).

(** m[a, b] = x (fMPS.py:78-80). *)
Definition put (m : mat R) (a b : nat) (x : R) : mat R :=
  mkMat (mr m) (mc m) (fun i j => if Nat.eqb i a && Nat.eqb j b then x else me m i j).

(** fMPS.py:74-81, changebasis. *)
Definition changebasis (n : nat) : mat R :=
  fold_left (fun m i => put (put m (2 * i) i 1) (2 * i + 1) (i + n) 1) (seq 0 n)
    (mkMat (2 * n) (2 * n) (fun _ _ => 0)).
End Model.
