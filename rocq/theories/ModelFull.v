(** Model of dA_dt with fullH=True (fMPS.py:1170-1182 and 1216-1231). *)
From Verif Require Import Alg ModelMPS ModelOrth ModelNcon ModelEk ModelNp ModelEnergy ModelTan ModelTdvp.

(** fMPS.py:1219-1226: the labels of the network of site n, those of links() opened for the
    projector. *)
Definition full_links (L n : nat) : res (list (list Z)) :=
  let l := links L true in
  do w <- getitem l n;
  do l <- setitem l n ([-1; -2]%Z ++ firstn 2 w);
  if Nat.eqb n (L - 1)
  then do w <- getitem l (length l - 1);
       setitem l (length l - 1) (firstn 2 w ++ [(-3)%Z])
  else do w <- getitem l (n + 1);
       do x <- getitem w 0;
       do y <- getitem w 2;
       setitem l (n + 1) [x; (-3)%Z; y].

Section Model.
Context {R : sring}.
Local Open Scope sr_scope.
Variable K : tanlib R.
Variable S : setio.

(** fMPS.py:1227: the m-th tensor in the bra layer of the network of site n; r(n) is rs[n+1]. *)
Definition full_bra (rs : list (mat R)) (prs : list (tens R * site R)) (n : nat) (ma : nat * site R) : res (tens R) :=
  if Nat.eqb (fst ma) n
  then do pv <- getitem prs (fst ma); Ok (fst pv)
  else if Nat.eqb (fst ma) (n + 1)
  then do r <- getitem rs (n + 1);
       do ri <- t_inv K r;
       do Z <- mat_site (mkMat (mr ri) (mc ri) (fun i j => sconj (me ri i j))) (site_conj (snd ma));
       Ok (tens_site Z)
  else Ok (tens_site (site_conj (snd ma))).

(** fMPS.py:1217-1227, B(n) with fullH=True.  The result always has three axes. *)
Definition dA_full_site (im : R) (m : fmps R) (H : mat R) (rs : list (mat R)) (prs : list (tens R * site R)) (n : nat) : res (site R) :=
  do T <- reshape_op (fd m) (fL m) H;
  do l <- full_links (fL m) n;
  do bra <- mapM (full_bra rs prs n) (combine (seq 0 (length (fdata m))) (fdata m));
  do X <- ncon S (bra ++ [T] ++ map tens_site (fdata m)) l None None false;
  match tsh X with
  | [p; a; b] => Ok (mkSite p a b (fun s i j => - im * te X [s; i; j]))
  | _ => Err ValueError
  end.

(** fMPS.py:1170-1182 and 1231, dA_dt with fullH=True; self.e is not set on this path. *)
Definition dA_dt_full (im : R) (m : fmps R) (H : mat R) (prs : option (list (tens R * site R))) : res (fmps R) :=
  do lr <- get_envs m;
  do prs <- match prs with
            | Some prs => Ok prs
            | None => mapM (fun n => left_null_projector K S m n (Some (fst lr)) None) (seq 0 (fL m))
            end;
  do Bs <- mapM (dA_full_site im m H (snd lr) prs) (seq 0 (fL m));
  fMPS_init Bs None None.
End Model.
