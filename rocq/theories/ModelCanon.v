(** Model of the SVD-based canonicalisation of /repo/xmps/fMPS.py and of the
    measurements built on it. *)
From Verif Require Import Alg ModelMPS ModelOrth.

Section Model.
Context {R : sring}.
Local Open Scope sr_scope.

(** svd_robust.svd (svd_robust.py:84-141) and numpy.linalg.eig as used by
    tensor.py:238-242: partial functions, [None] is LinAlgError.  Singular values
    are a function on indices.  [la_is0] is the exact test behind count_nonzero
    (tensor.py:304). *)
Record lapack2 : Type := mkLA2
  { la_svd : mat R -> option (mat R * (nat -> R) * mat R);   (* full_matrices=False *)
    la_svdf : mat R -> option (mat R * (nat -> R) * mat R);  (* full_matrices=True *)
    la_eig : mat R -> option (mat R * (nat -> R));
    la_is0 : R -> bool }.

(** numpy.diag of a vector of length k (fMPS.py:484). *)
Definition mdiag (k : nat) (Sv : nat -> R) : mat R :=
  mkMat k k (fun i j => if Nat.eqb i j then Sv i else 0).

(** numpy.identity (fMPS.py:499). *)
Definition mid (k : nat) : mat R := mkMat k k (fun i j => dlt i j).

(** tensor.py:299-304, rank: number of non-zero diagonal entries. *)
Definition rank (O : lapack2) (M : mat R) : nat :=
  length (filter (fun i => negb (la_is0 O (me M i i))) (seq 0 (Nat.min (mr M) (mc M)))).

(** M[:, :D] and M[:D, :]: slices clamp (tensor.py:214-232). *)
Definition mcols (D : nat) (M : mat R) : mat R := mkMat (mr M) (Nat.min D (mc M)) (me M).
Definition mrows (D : nat) (M : mat R) : mat R := mkMat (Nat.min D (mr M)) (mc M) (me M).

(** A[:, :, :D] and B[:, :D, :] on tensors (tensor.py:214, 232). *)
Definition scols (D : nat) (A : site R) : site R :=
  mkSite (phys A) (dl A) (Nat.min D (dr A)) (ent A).
Definition srows (D : nat) (A : site R) : site R :=
  mkSite (phys A) (Nat.min D (dl A)) (dr A) (ent A).

(** The bond to cut to: D, or rank(S), or none (tensor.py:207-211, 226-230). *)
Definition cut_to (O : lapack2) (Sv : mat R) (D : option nat) (minD : bool) : option nat :=
  match D with
  | Some D => Some D
  | None => if minD then Some (rank O Sv) else None
  end.

(** tensor.py:199-217, truncate_A. *)
Definition truncate_A (O : lapack2) (A : site R) (Sv V : mat R) (D : option nat) (minD : bool)
  : site R * mat R * mat R :=
  match cut_to O Sv D minD with
  | None => (A, Sv, V)
  | Some D => (scols D A, mcols D (mrows D Sv), mrows D V)
  end.

(** tensor.py:219-232, truncate_B. *)
Definition truncate_B (O : lapack2) (U Sv : mat R) (B : site R) (D : option nat) (minD : bool)
  : mat R * mat R * site R :=
  match cut_to O Sv D minD with
  | None => (U, Sv, B)
  | Some D => (mcols D U, mcols D (mrows D Sv), srows D B)
  end.

(** numpy.split(M, d, axis=1) stacked (fMPS.py:484): d equal column blocks,
    ValueError when d does not divide the width. *)
Definition chop1 (d : nat) (M : mat R) : res (site R) :=
  if negb (Nat.eqb d 0) && Nat.eqb (mc M mod d) 0
  then Ok (rungroup d (mc M / d) M) else Err ValueError.

(** numpy.split(M, d, axis=0) stacked (fMPS.py:558, 632). *)
Definition chop0 (d : nat) (M : mat R) : res (site R) :=
  if negb (Nat.eqb d 0) && Nat.eqb (mr M mod d) 0
  then Ok (lungroup d (mr M / d) M) else Err ValueError.

(** fMPS.py:477-484 and 488: split(concatenate(self[m], axis=1)). *)
Definition split_B (O : lapack2) (d : nat) (A : site R) : res (mat R * mat R * site R) :=
  match la_svd O (rgroup A) with
  | None => Err LinAlgError
  | Some (U, Sv, V) =>
      do B <- chop1 d V;
      Ok (U, mdiag (Nat.min (dl A) (phys A * dr A)) Sv, B)
  end.

(** fMPS.py:487-491: the left-going sweep of right_canonicalise over sites [ms]. *)
Fixpoint right_can_loop (O : lapack2) (d : nat) (D : option nat) (minD : bool)
    (ms : list nat) (data : list (site R)) : res (list (site R)) :=
  match ms with
  | [] => Ok data
  | m :: ms =>
      do A <- getitem data m;
      do usb <- split_B O d A;
      let '(U, Sv, B) := usb in
      let '(U, Sv, B) := truncate_B O U Sv B D minD in
      do data <- setitem data m B;
      do data <- match m with
                 | O => Ok data
                 | Datatypes.S m' =>
                     do C <- getitem data m';
                     do C <- site_rmul C U;
                     do C <- site_rmul C Sv;
                     setitem data m' C
                 end;
      right_can_loop O d D minD ms data
  end.

(** H of tensor.py:185-190 on a matrix. *)
Definition mH (M : mat R) : mat R := mkMat (mc M) (mr M) (fun i j => sconj (me M j i)).

(** fMPS.py:501-505: sum_s A_s^dagger V S V^dagger A_s. *)
Definition left_env_step (A : site R) (V : mat R) (Sv : nat -> R) : res (mat R) :=
  if Nat.eqb (dl A) (mr V)
  then Ok (mkMat (dr A) (dr A) (fun i j =>
        sum (phys A) (fun s => sum (dl A) (fun p => sum (mc V) (fun k => sum (dl A) (fun q =>
          sconj (ent A s p i) * me V p k * Sv k * sconj (me V q k) * ent A s q j))))))
  else Err ValueError.

(** fMPS.py:570-574: sum_s A_s V S V^dagger A_s^dagger. *)
Definition right_env_step (A : site R) (V : mat R) (Sv : nat -> R) : res (mat R) :=
  if Nat.eqb (dr A) (mr V)
  then Ok (mkMat (dl A) (dl A) (fun i j =>
        sum (phys A) (fun s => sum (dr A) (fun p => sum (mc V) (fun k => sum (dr A) (fun q =>
          ent A s i p * me V p k * Sv k * sconj (me V q k) * sconj (ent A s j q)))))))
  else Err ValueError.

(** fMPS.py:500-511: the gauge-fixing sweep of right_canonicalise.  [V], [S] are
    the previous eigenvectors and eigenvalues; returns the new tensors and the
    list Ls as (size, eigenvalues). *)
Fixpoint right_gauge (O : lapack2) (V : mat R) (Sv : nat -> R) (data : list (site R))
  : res (list (site R) * list (mat R)) :=
  match data with
  | [] => Ok ([], [])
  | A :: data =>
      do M <- left_env_step A V Sv;
      match la_eig O M with
      | None => Err LinAlgError
      | Some (V', Sv') =>
          do A <- site_lmul (mH V) A;
          do A <- site_rmul A V';
          do rest <- right_gauge O V' Sv' data;
          Ok (A :: fst rest, mdiag (mr M) Sv' :: snd rest)
      end
  end.

(** fMPS.py:569-583: the gauge-fixing sweep of left_canonicalise, from the last
    site: here on the reversed list. *)
Fixpoint left_gauge (O : lapack2) (V : mat R) (Sv : nat -> R) (rdata : list (site R))
  : res (list (site R) * list (mat R)) :=
  match rdata with
  | [] => Ok ([], [])
  | A :: rdata =>
      do M <- right_env_step A V Sv;
      match la_eig O M with
      | None => Err LinAlgError
      | Some (V', Sv') =>
          do A <- site_lmul (mH V') A;
          do A <- site_rmul A V;
          do rest <- left_gauge O V' Sv' rdata;
          Ok (A :: fst rest, mdiag (mr M) Sv' :: snd rest)
      end
  end.

(** concatenate([identity(t), zeros((t, D-t))], axis=1) (fMPS.py:519). *)
Definition mproj (t D : nat) : mat R := mkMat t D (fun i j => dlt i j).

(** numpy.ones_like (fMPS.py:513, 585). *)
Definition ones_like (M : mat R) : mat R := mkMat (mr M) (mc M) (fun _ _ => 1).

(** The index -1 of Python lists (fMPS.py:520 with m = 0). *)
Definition prev_index (m n : nat) : nat := match m with O => n - 1 | Datatypes.S m => m end.

(** fMPS.py:515-523 and 587-595: cutting the bonds to the rank of Ls. *)
Fixpoint rank_loop (O : lapack2) (ms : list nat) (Ls : list (mat R)) (data : list (site R))
  : res (list (site R) * list (mat R)) :=
  match ms with
  | [] => Ok (data, Ls)
  | m :: ms =>
      do Lm <- getitem Ls m;
      let P := mproj (rank O Lm) (mr Lm) in
      do B <- getitem data (prev_index m (length data));
      do B <- site_rmul B (mH P);
      do data <- setitem data (prev_index m (length data)) B;
      do A <- getitem data m;
      do A <- site_lmul P A;
      do data <- setitem data m A;
      do PL <- mdot P Lm;
      do PLP <- mdot PL (mH P);
      do Ls <- setitem Ls m PLP;
      rank_loop O ms Ls data
  end.

(** self.D = min(D, self.D) (fMPS.py:472-473). *)
Definition cap_D (D : option nat) (m : fmps R) : nat :=
  match D with None => fD m | Some D => Nat.min D (fD m) end.

(** fMPS.py:463-535, right_canonicalise (testing=False).  self.Ls is returned
    beside the object; [None] when it is not assigned. *)
Definition right_canonicalise (O : lapack2) (m : fmps R) (D : option nat)
    (sweep_back minD : bool) : res (fmps R * option (list (mat R))) :=
  do data <- right_can_loop O (fd m) D minD (rev (seq 0 (length (fdata m)))) (fdata m);
  do dl <- (if sweep_back && minD
            then do g <- right_gauge O (mid 1) (fun _ => 1) data;
                 match rev (snd g) with
                 | [] => Err IndexError
                 | last :: _ =>
                     do r <- rank_loop O (seq 0 (length (fst g))) (ones_like last :: snd g) (fst g);
                     Ok (fst r, Some (snd r))
                 end
            else Ok (data, None));
  Ok (mkF (fst dl) (fL m) (fd m) (cap_D D m) (Some true) (Some true) (Some 0%nat) (fnorm m), snd dl).

(** fMPS.py:549-558: split of left_canonicalise: u[:, :len(S)], v[:len(S), :]. *)
Definition split_A (O : lapack2) (d : nat) (A : site R) : res (site R * mat R * mat R) :=
  match la_svdf O (lgroup A) with
  | None => Err LinAlgError
  | Some (u, Sv, v) =>
      let k := Nat.min (phys A * dl A) (dr A) in
      do A' <- chop0 d (mcols k u);
      Ok (A', mdiag k Sv, mrows k v)
  end.

(** fMPS.py:560-567: the right-going sweep of left_canonicalise. *)
Fixpoint left_can_loop (O : lapack2) (d : nat) (D : option nat) (minD : bool)
    (ms : list nat) (data : list (site R)) (nrm : option (mat R))
  : res (list (site R) * option (mat R)) :=
  match ms with
  | [] => Ok (data, nrm)
  | m :: ms =>
      do A <- getitem data m;
      do asv <- split_A O d A;
      let '(A', Sv, V) := asv in
      let '(A', Sv, V) := truncate_A O A' Sv V D minD in
      do data <- setitem data m A';
      do SV <- mdot Sv V;
      if Nat.ltb (m + 1) (length data)
      then do C <- getitem data (m + 1);
           do C <- site_lmul SV C;
           do data <- setitem data (m + 1) C;
           left_can_loop O d D minD ms data nrm
      else left_can_loop O d D minD ms data (Some SV)
  end.

(** fMPS.py:537-613, left_canonicalise (testing=False). *)
Definition left_canonicalise (O : lapack2) (m : fmps R) (D : option nat)
    (sweep_back minD : bool) : res (fmps R * option (list (mat R))) :=
  do dn <- left_can_loop O (fd m) D minD (seq 0 (length (fdata m))) (fdata m) (fnorm m);
  do dl <- (if sweep_back && minD
            then do g <- left_gauge O (mid 1) (fun _ => 1) (rev (fst dn));
                 let data := rev (fst g) in
                 let Ls := rev (snd g) in
                 match Ls with
                 | [] => Err IndexError
                 | first :: _ =>
                     do r <- rank_loop O (seq 0 (length data)) (Ls ++ [ones_like first]) data;
                     Ok (fst r, Some (snd r))
                 end
            else Ok (fst dn, None));
  Ok (mkF (fst dl) (fL m) (fd m) (cap_D D m) (Some true) (Some true) (Some (fL m)) (snd dn), snd dl).

(** fMPS.py:627-633: split of mixed_canonicalise (thin SVD). *)
Definition split_A_thin (O : lapack2) (d : nat) (A : site R) : res (site R * mat R * mat R) :=
  match la_svd O (lgroup A) with
  | None => Err LinAlgError
  | Some (u, Sv, v) =>
      do A' <- chop0 d u;
      Ok (A', mdiag (Nat.min (phys A * dl A) (dr A)) Sv, v)
  end.

(** fMPS.py:635-640: the right-going sweep of mixed_canonicalise. *)
Fixpoint mixed_can_loop (O : lapack2) (d : nat) (D : option nat)
    (ms : list nat) (data : list (site R)) : res (list (site R)) :=
  match ms with
  | [] => Ok data
  | m :: ms =>
      do A <- getitem data m;
      do asv <- split_A_thin O d A;
      let '(A', Sv, V) := asv in
      let '(A', Sv, V) := truncate_A O A' Sv V D true in
      do data <- setitem data m A';
      do data <- (if Nat.ltb (m + 1) (length data)
                  then do SV <- mdot Sv V;
                       do C <- getitem data (m + 1);
                       do C <- site_lmul SV C;
                       setitem data (m + 1) C
                  else Ok data);
      mixed_can_loop O d D ms data
  end.

(** fMPS.py:615-648, mixed_canonicalise (testing=False): self.oc = oc is
    overwritten with 0 by the call of right_canonicalise. *)
Definition mixed_canonicalise (O : lapack2) (m : fmps R) (oc : nat) (D : option nat)
    (sweep_back : bool) : res (fmps R) :=
  do r <- right_canonicalise O m D sweep_back false;
  let m := fst r in
  do data <- mixed_can_loop O (fd m) D (firstn oc (seq 0 (length (fdata m)))) (fdata m);
  Ok (mkF data (fL m) (fd m) (fD m) (Some true) (Some true) (foc m) (fnorm m)).

(** fMPS.py:928-936, E_. *)
Definition mps_E_ (O : lapack2) (m : fmps R) (op : mat R) (site_ : nat) : res (R * fmps R) :=
  do m <- mixed_canonicalise O m site_ None true;
  do M <- getitem (fdata m) site_;
  do v <- E_local M op;
  Ok (v, m).

(** fMPS.py:940: re(tensordot(op, trace(dot(cT(M), M), axis1=1, axis2=3),
    [[0, 1], [0, 1]])). *)
Definition Es_local (M : site R) (op : mat R) : res R :=
  if Nat.eqb (mr op) (phys M) && Nat.eqb (mc op) (phys M)
  then Ok (sre (sum (phys M) (fun s => sum (phys M) (fun t => me op s t *
             sum (dr M) (fun j => sum (dl M) (fun i =>
               sconj (ent M s i j) * ent M t i j))))))
  else Err ValueError.

(** fMPS.py:938-941, Es. *)
Definition mps_Es (O : lapack2) (m : fmps R) (ops : list (mat R)) (site_ : nat)
  : res (list R * fmps R) :=
  do m <- mixed_canonicalise O m site_ None true;
  do M <- getitem (fdata m) site_;
  do vs <- mapM (Es_local M) ops;
  Ok (vs, m).

End Model.

Arguments lapack2 : clear implicits.
