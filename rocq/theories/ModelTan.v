(** Model of the null-space projectors and of the tangent vectors of
    /repo/xmps/fMPS.py:1898-2012. *)
From Verif Require Import Alg ModelMPS ModelOrth ModelNcon ModelEk ModelNp ModelEnergy.

(** numpy.linalg.cholesky, numpy.linalg.inv and scipy.linalg.null_space, imported as ch, inv
    and null (fMPS.py:11, 23): parameters, described in SpecTan. *)
Record tanlib (R : sring) := mkTL { t_ch : mat R -> res (mat R); t_inv : mat R -> res (mat R); t_null : mat R -> res (mat R) }.
Arguments mkTL {R}. Arguments t_ch {R}. Arguments t_inv {R}. Arguments t_null {R}.

Section Model.
Context {R : sring}.
Local Open Scope sr_scope.
Variable K : tanlib R.
Variable S : setio.

(** M @ A and A @ M for a matrix M and an array A with three axes: products of stacks of
    matrices (e.g. fMPS.py:1909, 1912, 2010). *)
Definition mat_site (M : mat R) (A : site R) : res (site R) :=
  if Nat.eqb (mc M) (dl A) then Ok (mkSite (phys A) (mr M) (dr A) (fun s i j => sum (mc M) (fun k => me M i k * ent A s k j))) else Err ValueError.
Definition site_mat (A : site R) (M : mat R) : res (site R) :=
  if Nat.eqb (dr A) (mr M) then Ok (mkSite (phys A) (dl A) (mc M) (fun s i j => sum (dr A) (fun k => ent A s i k * me M k j))) else Err ValueError.

(** cT on the last two axes (tensor.py, H; fMPS.py:1909). *)
Definition cT_site (A : site R) : site R := mkSite (phys A) (dr A) (dl A) (fun s i j => sconj (ent A s j i)).

(** sw(X, 0, 1).reshape(-1, d*X.shape[-1]) (fMPS.py:1909-1910, 1921-1922): the first size is
    the quotient; ValueError if the division leaves a rest or the divisor is 0. *)
Definition rows_of (d : nat) (X : site R) : res (mat R) :=
  let c := (d * dr X)%nat in
  let n := (dl X * (phys X * dr X))%nat in
  if Nat.eqb c 0 then Err ValueError else
  if Nat.eqb (n mod c) 0
  then do T <- reshape_ [n / c; c]%nat (mkT [dl X; phys X; dr X] (fun idx => ent X (nth 1 idx 0%nat) (nth 0 idx 0%nat) (nth 2 idx 0%nat)));
       Ok (mkMat (n / c) c (fun i j => te T [i; j]))
  else Err ValueError.

(** N.reshape((d, e, -1)) (fMPS.py:1911, 1923). *)
Definition cols_of (d e : nat) (N : mat R) : res (site R) :=
  let n := (mr N * mc N)%nat in
  if Nat.eqb (d * e) 0 then Err ValueError else
  if Nat.eqb (n mod (d * e)) 0
  then do T <- reshape_ [d; e; n / (d * e)]%nat (tens_mat N);
       Ok (mkSite d e (n / (d * e)) (fun s i j => te T [s; i; j]))
  else Err ValueError.

(** fMPS.py:1907-1915, left_null_projector with get_vL: the pair of the projector and of the
    null vectors.  The environments are the list ls of get_envs, l(n-1) being ls[n]. *)
Definition left_null_projector (m : fmps R) (n : nat) (ls : option (list (mat R))) (vL : option (site R)) : res (tens R * site R) :=
  do ls <- match ls with Some ls => Ok ls | None => do lr <- get_envs m; Ok (fst lr) end;
  do vL <- match vL with
           | Some v => Ok v
           | None =>
             do A <- getitem (fdata m) n;
             do l <- getitem ls n;
             do C <- t_ch K l;
             do X <- site_mat (cT_site A) C;
             do Lm <- rows_of (fd m) X;
             do N <- t_null K Lm;
             cols_of (fd m) (mc Lm / fd m)%nat N
           end;
  do l <- getitem ls n;
  do C <- t_ch K l;
  do Ci <- t_inv K C;
  do X <- mat_site Ci vL;
  do Y <- mat_site Ci (site_conj vL);
  do pr <- ncon S [tens_site X; tens_site Y] [[-1; -2; 1]; [-3; -4; 1]]%Z None None false;
  Ok (pr, vL).

(** fMPS.py:1917-1928, right_null_projector with get_vR; r(n) is rs[n+1]. *)
Definition right_null_projector (m : fmps R) (n : nat) (rs : option (list (mat R))) (vR : option (site R)) : res (tens R * site R) :=
  do rs <- match rs with Some rs => Ok rs | None => do lr <- get_envs m; Ok (snd lr) end;
  do vR <- match vR with
           | Some v => Ok v
           | None =>
             do A <- getitem (fdata m) n;
             do r <- getitem rs (n + 1);
             do X <- site_mat (site_conj A) r;
             do Rm <- rows_of (fd m) X;
             do N <- t_null K Rm;
             do v <- cols_of (fd m) (dr X) N;
             Ok (mkSite (phys v) (dr v) (dl v) (fun s i j => ent v s j i))
           end;
  do r <- getitem rs (n + 1);
  do C <- t_ch K r;
  do Ci <- t_inv K C;
  do pr <- ncon S [tens_mat Ci; tens_site vR; tens_site (site_conj vR); tens_mat Ci]
             [[-2; 2]; [-1; 1; 2]; [-3; 1; 4]; [-4; 4]]%Z None None false;
  Ok (pr, vR).

(** fMPS.py:1934-1942, tangent_space_dims: the null vectors and the shapes. *)
Definition tangent_space_dims (m : fmps R) (ls : option (list (mat R))) : res (list (site R) * list (nat * nat)) :=
  do ls <- match ls with Some ls => Ok ls | None => do lr <- get_envs m; Ok (fst lr) end;
  do vLs <- mapM (fun n => do pv <- left_null_projector m n (Some ls) None; Ok (snd pv)) (seq 0 (fL m));
  do shapes <- mapM (fun vn => if Nat.ltb (snd vn + 1) (fL m)
                               then do A <- getitem (fdata m) (snd vn + 1); Ok (dr (fst vn), dl A)
                               else Ok (dr (fst vn), 1%nat)) (combine vLs (seq 0 (fL m)));
  Ok (vLs, shapes).

(** x.reshape(-1) and v.reshape(a, b) (fMPS.py:1998, 2008). *)
Definition flat (T : tens R) : list R := map (fun k => te T (unravel (tsh T) k)) (seq 0 (fold_right Nat.mul 1%nat (tsh T))).
Definition unflat (a b : nat) (v : list R) : res (mat R) :=
  if Nat.eqb (length v) (a * b) then Ok (mkMat a b (fun i j => nth (i * b + j) v 0)) else Err ValueError.

(** fMPS.py:1993-1998, one pass of the loop of extract_tangent_vector. *)
Definition extract_site (m : fmps R) (dA : list (site R)) (n : nat) (shape : nat * nat) : res (list R) :=
  if Nat.eqb (fst shape * snd shape) 0 then Ok [] else
  do lr <- get_envs m;
  do pv <- left_null_projector m n None None;
  do l <- getitem (fst lr) n;
  do C <- t_ch K l;
  do B <- getitem dA n;
  do X <- mat_site C B;
  do r <- getitem (snd lr) (n + 1);
  do E <- t_ch K r;
  do X <- site_mat X E;
  do x <- ncon S [tens_site (site_conj (snd pv)); tens_site X] [[1; 2; -1]; [1; 2; -2]]%Z None None false;
  Ok (flat x).

(** fMPS.py:1986-1999, extract_tangent_vector; numpy.concatenate of an empty list raises
    ValueError. *)
Definition extract_tangent_vector (m : fmps R) (dA : list (site R)) : res (list R) :=
  do sh <- tangent_space_dims m None;
  do xs <- mapM (fun ns => extract_site m dA (fst ns) (snd ns)) (combine (seq 0 (length (snd sh))) (snd sh));
  if forallb (fun s => Nat.eqb (fst s * snd s) 0) (snd sh) then Err ValueError else Ok (concat xs).

(** chop(v, cumsum(sizes)) without its last piece (numpy.split, fMPS.py:2007; zip in line
    2008 drops the rest of v). *)
Fixpoint chop (v : list R) (sizes : list nat) : list (list R) :=
  match sizes with
  | [] => []
  | s :: sizes => firstn s v :: chop (skipn s v) sizes
  end.

(** fMPS.py:2001-2012, import_tangent_vector. *)
Definition import_tangent_vector (m : fmps R) (v : list R) : res (fmps R) :=
  do lr <- get_envs m;
  do sh <- tangent_space_dims m (Some (fst lr));
  let vLs := filter (fun vL => negb (Nat.eqb (phys vL * (dl vL * dr vL)) 0)) (fst sh) in
  let ss := filter (fun s => negb (Nat.eqb (fst s * snd s) 0)) (snd sh) in
  let nulls := length (filter (fun s => Nat.eqb (fst s * snd s) 0) (snd sh)) in
  let vs := chop v (map (fun s => (fst s * snd s)%nat) ss) in
  do xs <- mapM (fun xs => unflat (fst (snd xs)) (snd (snd xs)) (fst xs)) (combine vs ss);
  do Bs <- mapM (fun nvx =>
             do l <- getitem (fst lr) (fst nvx + nulls);
             do C <- t_ch K l;
             do Ci <- t_inv K C;
             do X <- mat_site Ci (fst (snd nvx));
             do X <- site_mat X (snd (snd nvx));
             do r <- getitem (snd lr) (fst nvx + nulls + 1);
             do E <- t_ch K r;
             do Ei <- t_inv K E;
             site_mat X Ei) (combine (seq 0 (length vLs)) (combine vLs xs));
  fMPS_init (map (fun A => mkSite (phys A) (dl A) (dr A) (fun _ _ _ => 0)) (firstn nulls (fdata m)) ++ Bs) None None.
End Model.
