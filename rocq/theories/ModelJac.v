(** Model of /repo/xmps/fMPS.py:1630-1792 (F2), the second part of the Jacobian: testing=False,
    fullH=False, without the caches keyed by id (those are modelled in ModelMisc). *)
From Verif Require Import Alg ModelMPS ModelOrth ModelNcon ModelEk ModelNp ModelEnergy ModelTan ModelTdvp.

Section Model.
Context {R : sring}.
Local Open Scope sr_scope.
Variable K : tanlib R.
Variable S : setio.

(** l[i-1] for a list l: the last entry for i = 0 (fMPS.py:1658, 1660). *)
Definition getprev {X} (l : list X) (i : nat) : res X :=
  match i with O => getitem l (length l - 1) | Datatypes.S k => getitem l k end.

(** The four lists icr, icl, cr, cl passed as inv_envs (fMPS.py:1305, 1657-1662). *)
Record invenvs := mkIE { ie_icr : list (mat R); ie_icl : list (mat R); ie_cr : list (mat R); ie_cl : list (mat R) }.

(** fMPS.py:1646-1652, the defaults for inv_envs: inv(ch(r(i))), inv(ch(l(i))), ch(r(i)),
    ch(l(i)) for every site; r(i) is rs[i+1], l(i) is ls[i+1]. *)
Definition roots_of (es : list (mat R)) (L : nat) : res (list (mat R)) := mapM (fun i => do e <- getitem es (i + 1); t_ch K e) (seq 0 L).
Definition inv_roots_of (es : list (mat R)) (L : nat) : res (list (mat R)) := mapM (fun i => do e <- getitem es (i + 1); do C <- t_ch K e; t_inv K C) (seq 0 L).
Definition inv_envs (ls rs : list (mat R)) (L : nat) : res invenvs :=
  do icr <- inv_roots_of rs L; do icl <- inv_roots_of ls L; do cr <- roots_of rs L; do cl <- roots_of ls L; Ok (mkIE icr icl cr cl).

(** M @ N (fMPS.py:1703). *)
Definition mdot (M N : mat R) : res (mat R) :=
  if Nat.eqb (mc M) (mr N) then Ok (mkMat (mr M) (mc N) (fun i j => sum (mc M) (fun k => me M i k * me N k j))) else Err ValueError.

(** l @ C for an array C with four axes (fMPS.py:1709, 1716). *)
Definition ldot4 (l : mat R) (C : tens R) : res (tens R) :=
  match tsh C with
  | [d1; d2; a; b] =>
      if Nat.eqb (mc l) a
      then Ok (mkT [d1; d2; mr l; b] (fun idx => sum a (fun x => me l (nth 2 idx 0%nat) x * te C [nth 0 idx 0%nat; nth 1 idx 0%nat; x; nth 3 idx 0%nat])))
      else Err ValueError
  | _ => Err ValueError
  end.

(** G_ += X (fMPS.py:1702-1731), as for add_scaled. *)
Definition add_to (G X : tens R) : res (tens R) :=
  if nlist_eqb (tsh G) (tsh X) then Ok (mkT (tsh G) (fun idx => te G idx + te X idx)) else Err ValueError.

(** fMPS.py:1694-1731, one pass of the loop over the terms.  vi and vj are the null vectors of
    the sites i < j, Ris and Rjs the functions returned by left_transfer. *)
Definition F2_term (m : fmps R) (ls : list (mat R)) (ie : invenvs) (vi vj : site R) (Ris Rjs : nat -> res (tens R)) (i j : nat)
    (G : tens R) (kh : nat * tens R) : res (tens R) :=
  let k := fst kh in
  let h := snd kh in
  if Nat.ltb i k then Ok G else
  match firstn 2 (skipn k (fdata m)) with
  | [A; A1] =>
      do C <- ncon S [h; tens_site A; tens_site A1] [[-1; -2; 1; 2]; [1; -3; 3]; [2; 3; -4]]%Z None None false;
      if Nat.eqb k i then
        if Nat.eqb j (i + 1)
        then do cl <- getprev (ie_cl ie) i;
             do cr <- getitem (ie_cr ie) j;
             do X <- dot4 cl C cr;
             do e <- getitem (ie_icr ie) i;
             do f <- getprev (ie_icl ie) j;
             do ef <- mdot e f;
             do Y <- mat_site ef (site_conj vj);
             do T <- ncon S [X; tens_site (site_conj vi); tens_site Y] [[1; 2; 3; -4]; [1; 3; -1]; [2; -2; -3]]%Z None None false;
             add_to G T
        else do cl <- getprev (ie_cl ie) i;
             do X <- ldot4 cl C;
             do e <- getitem (ie_icr ie) i;
             do Y <- mat_site e (site_conj A1);
             do T <- ncon S [X; tens_site (site_conj vi); tens_site Y] [[3; 4; 1; -3]; [3; 1; -1]; [4; -2; -4]]%Z None None false;
             do W <- Rjs (k + 2)%nat;
             do U <- con T W [2; 3]%nat [0; 1]%nat;
             add_to G U
      else if Nat.eqb (k + 1) i
      then do l <- getitem ls k;
           do X <- ldot4 l C;
           do f <- getprev (ie_icl ie) i;
           do Y <- mat_site f (site_conj vi);
           do T <- ncon S [X; tens_site (site_conj A); tens_site Y] [[2; 4; 1; -2]; [2; 1; 3]; [4; 3; -1]]%Z None None false;
           do e <- getitem (ie_icr ie) i;
           do W <- Rjs (k + 2)%nat;
           do N <- ncon S [tens_mat e; W] [[-2; 1]; [-1; 1; -3; -4]]%Z None None false;
           do U <- con T N [1]%nat [0]%nat;
           add_to G U
      else do l <- getitem ls k;
           do X <- mat_site l (site_conj A);
           do M <- ncon S [tens_site X; tens_site (site_conj A1); C] [[1; 3; 4]; [2; 4; -2]; [1; 2; 3; -1]]%Z None None false;
           do W <- Ris (k + 2)%nat;
           do T <- con M W [0; 1]%nat [0; 1]%nat;
           do W2 <- Rjs (i + 1)%nat;
           do U <- con T W2 [1]%nat [0]%nat;
           do e <- getitem (ie_icr ie) i;
           do N <- ncon S [U; tens_mat e] [[-1; 1; -3; -4]; [1; -2]]%Z None None false;
           add_to G N
  | _ => Err ValueError
  end.

(** fMPS.py:1680-1731, the case i < j: what G_ becomes. *)
Definition F2_loop (m : fmps R) (H : list (mat R)) (ls : list (mat R)) (ie : invenvs) (vi vj : site R) (i j : nat) (G : tens R) : res (tens R) :=
  do hs <- mapM (reshape_op (fd m) 2) H;
  do A <- getitem (fdata m) i;
  if Nat.eqb (phys A * dl A) (dr A) then Ok G else
  do f <- getprev (ie_icl ie) j;
  do X <- mat_site f (site_conj vj);
  do Aj <- getitem (fdata m) j;
  do cr <- getitem (ie_cr ie) j;
  do Y <- site_mat Aj cr;
  do Rj <- ncon S [tens_site X; tens_site Y] [[1; -2; -3]; [1; -1; -4]]%Z None None false;
  do Rjs <- left_transfer m Rj i j;
  do f <- getprev (ie_icl ie) i;
  do X <- mat_site f (site_conj vi);
  do Ri <- ncon S [tens_site X; tens_site A] [[1; -2; -3]; [1; -1; -4]]%Z None None false;
  do Ris <- left_transfer m Ri 0 i;
  foldM (F2_term m ls ie vi vj Ris Rjs i j) G (rev (combine (seq 0 (length hs)) hs)).

(** fMPS.py:1667-1674, the size of the axis to the right of site i: A[i+1].shape[1], or 1. *)
Definition next_dim (m : fmps R) (i : nat) : res nat :=
  if Nat.eqb (i + 1) (fL m) then Ok 1%nat else do A <- getitem (fdata m) (i + 1); Ok (dl A).

(** fMPS.py:1630-1792, F2 (i_, j_ counted from 0, below L).  prs_vLs and inv_envs are what the
    caller passes, or the defaults. *)
Definition F2 (m : fmps R) (i_ j_ : nat) (H : list (mat R)) (ie : option invenvs) (prs : option (list (tens R * site R))) : res (tens R) :=
  do lr <- get_envs m;
  do prs <- match prs with
            | Some prs => Ok prs
            | None => mapM (fun n => left_null_projector K S m n (Some (fst lr)) None) (seq 0 (fL m))
            end;
  do ie <- match ie with Some ie => Ok ie | None => inv_envs (fst lr) (snd lr) (fL m) end;
  let i := Nat.min i_ j_ in
  let j := Nat.max i_ j_ in
  do pi <- getitem prs i;
  do pj <- getitem prs j;
  do bi <- next_dim m i;
  do bj <- next_dim m j;
  let G0 := mkT [dr (snd pi); bi; dr (snd pj); bj] (fun _ => 0) in
  do G <- (if Nat.eqb i j then Ok G0 else F2_loop m H (fst lr) ie (snd pi) (snd pj) i j G0);
  if Nat.ltb j_ i_ then transpose_ [2; 3; 0; 1]%nat G else Ok G.
End Model.
