(** Model of /repo/xmps/fMPS.py:1794-1897 (christoffel): a fresh id (the caches keyed by id are
    modelled in ModelMisc), no dA_cache, and closed = (None, None, None) or (None, None, B). *)
From Verif Require Import Alg ModelMPS ModelOrth ModelNcon ModelEk ModelNp ModelEnergy ModelTan ModelTdvp.

Section Model.
Context {R : sring}.
Local Open Scope sr_scope.
Variable K : tanlib R.
Variable S : setio.

(** -G (fMPS.py:1877-1879). *)
Definition tens_neg (G : tens R) : tens R := mkT (tsh G) (fun idx => - te G idx).

(** fMPS.py:1862-1863 and 1871-1872: R and the function Rs returned by left_transfer. *)
Definition chris_Rs (m : fmps R) (prs : list (tens R * site R)) (i j : nat) : res (nat -> res (tens R)) :=
  do pj <- getitem prs j;
  do Aj <- getitem (fdata m) j;
  do T <- ncon S [fst pj; tens_site Aj] [[-3; -4; 1; -2]; [1; -1; -5]]%Z None None false;
  left_transfer m T i j.

(** fMPS.py:1856-1873, G of the function Γ for i <= j; r(i) is rs[i+1].  B is closed[-1], given
    in the contracted case. *)
Definition chris_G (m : fmps R) (rs : list (mat R)) (prs : list (tens R * site R)) (i j k : nat) (B : option (site R)) : res (tens R) :=
  do A <- getitem (fdata m) i;
  do Aj <- getitem (fdata m) j;
  if Nat.eqb j i || negb (Nat.eqb i k) || Nat.eqb (fd m * dl A) (dr A) then
    match B with
    | Some _ => Ok (mkT [phys A; dl A; dr A; phys Aj; dl Aj; dr Aj] (fun _ => 0))
    | None => do Ak <- getitem (fdata m) k;
              Ok (mkT [phys A; dl A; dr A; phys Aj; dl Aj; dr Aj; phys Ak; dl Ak; dr Ak] (fun _ => 0))
    end
  else
    do Rs <- chris_Rs m prs i j;
    do pi <- getitem prs i;
    do r <- getitem rs (i + 1);
    do ri <- t_inv K r;
    match B with
    | Some B =>
        do X <- site_mat B ri;
        do W <- Rs (i + 1)%nat;
        ncon S [fst pi; tens_site X; W; tens_mat ri] [[-1; -2; 1; 2]; [1; 2; 3]; [3; 4; -4; -5; -6]; [4; -3]]%Z (Some [1; 2; 3; 4]%Z) None false
    | None =>
        do W <- Rs (i + 1)%nat;
        ncon S [fst pi; W; tens_mat ri; tens_mat ri] [[-1; -2; -7; -8]; [1; 2; -4; -5; -6]; [1; -9]; [2; -3]]%Z None None false
    end.

(** fMPS.py:1849-1881, Γ. *)
Definition chris_gamma (m : fmps R) (rs : list (mat R)) (prs : list (tens R * site R)) (i_ j_ k : nat) (B : option (site R)) : res (tens R) :=
  do G <- (if Nat.ltb j_ i_ then chris_G m rs prs j_ i_ k B else chris_G m rs prs i_ j_ k B);
  if Nat.ltb j_ i_
  then do T <- transpose_ (match B with Some _ => [3; 4; 5; 0; 1; 2] | None => [3; 4; 5; 0; 1; 2; 6; 7; 8] end)%nat G; Ok (tens_neg T)
  else Ok (tens_neg G).

(** fMPS.py:1822-1831, ungauge_i with conj=True for an array with six axes; l(i-1) is ls[i]. *)
Definition ungauge_i (ls rs : list (mat R)) (prs : list (tens R * site R)) (T : tens R) (i : nat) : res (tens R) :=
  do l <- getitem ls i;
  do C <- t_ch K l;
  do pi <- getitem prs i;
  do X <- mat_site C (site_conj (snd pi));
  do r <- getitem rs (i + 1);
  do E <- t_ch K r;
  do Y <- ncon S [T; tens_mat E] [[-1; -2; 1; -4; -5; -6]; [1; -3]]%Z None None false;
  ncon S [tens_site X; Y] [[1; 2; -1]; [1; 2; -2; -3; -4; -5]]%Z None None false.

(** fMPS.py:1832-1838, ungauge_j with conj=True for an array with five axes; tens@M sums over
    the last axis of tens and the first axis of the matrix M. *)
Definition ungauge_j (ls rs : list (mat R)) (prs : list (tens R * site R)) (T : tens R) (j : nat) : res (tens R) :=
  do l <- getitem ls j;
  do C <- t_ch K l;
  do pj <- getitem prs j;
  do X <- mat_site C (site_conj (snd pj));
  do r <- getitem rs (j + 1);
  do E <- t_ch K r;
  do Y <- con T (tens_mat E) [4]%nat [0]%nat;
  ncon S [tens_site X; Y] [[1; 2; -3]; [-1; -2; 1; 2; -4]]%Z None None false.

(** fMPS.py:1794-1897, christoffel. *)
Definition christoffel (m : fmps R) (i j k : nat) (prs : option (list (tens R * site R))) (B : option (site R)) : res (tens R) :=
  do lr <- get_envs m;
  do prs <- match prs with
            | Some prs => Ok prs
            | None => mapM (fun n => left_null_projector K S m n (Some (fst lr)) None) (seq 0 (fL m))
            end;
  do G <- chris_gamma m (snd lr) prs i j k B;
  match B with
  | None => Ok G
  | Some _ => do X <- ungauge_i (fst lr) (snd lr) prs G i; ungauge_j (fst lr) (snd lr) prs X j
  end.
End Model.
