(** Model of get_envs and energy of fMPS.py. *)
From Verif Require Import Alg ModelMPS ModelOrth ModelNcon ModelEk.

Section Model.
Context {R : sring}.
Local Open Scope sr_scope.

(** fMPS.py:797, diag(diag(sum(re(cT(A) @ l @ A), axis=0))): only the diagonal and
    the real part are kept. *)
Definition env_l (l : mat R) (A : site R) : res (mat R) :=
  if Nat.eqb (mr l) (dl A) && Nat.eqb (mc l) (dl A)
  then Ok (mkMat (dr A) (dr A) (fun x y =>
         if Nat.eqb x y
         then sum (phys A) (fun s => sre (sum (dl A) (fun a => sum (dl A) (fun b =>
                sconj (ent A s a x) * me l a b * ent A s b y))))
         else 0))
  else Err ValueError.

(** fMPS.py:803, diag(diag(sum(re(A @ r @ cT(A)), axis=0))). *)
Definition env_r (r : mat R) (A : site R) : res (mat R) :=
  if Nat.eqb (mr r) (dr A) && Nat.eqb (mc r) (dr A)
  then Ok (mkMat (dl A) (dl A) (fun x y =>
         if Nat.eqb x y
         then sum (phys A) (fun s => sre (sum (dr A) (fun a => sum (dr A) (fun b =>
                ent A s x a * me r a b * sconj (ent A s y b)))))
         else 0))
  else Err ValueError.

(** array([[1]]) (fMPS.py:795, 801). *)
Definition env_1 : mat R := mkMat 1 1 (fun _ _ => 1).

(** The loop of fMPS.py:796-797 (802-803): the list of the environments, the last
    one computed last. *)
Fixpoint envs (step : mat R -> site R -> res (mat R)) (e : mat R) (l : list (site R)) : res (list (mat R)) :=
  match l with
  | [] => Ok [e]
  | A :: l => do e' <- step e A; do es <- envs step e' l; Ok (e :: es)
  end.

(** fMPS.py:790-809, get_envs: the lists ls and rs[::-1]; l(n) and r(n) are the
    elements at n+1 of these lists. *)
Definition get_envs (m : fmps R) : res (list (mat R) * list (mat R)) :=
  do ls <- envs env_l env_1 (fdata m);
  do rs <- envs env_r env_1 (rev (fdata m));
  Ok (ls, rev rs).

(** c(l) @ A.conj() and A.conj() @ c(r): products of stacks of matrices (fMPS.py:1009). *)
Definition dot_l (l : mat R) (A : site R) : res (site R) :=
  if Nat.eqb (mc l) (dl A)
  then Ok (mkSite (phys A) (mr l) (dr A) (fun s a b => sum (mc l) (fun x => sconj (me l a x) * ent A s x b)))
  else Err ValueError.
Definition dot_r (A : site R) (r : mat R) : res (site R) :=
  if Nat.eqb (dr A) (mr r)
  then Ok (mkSite (phys A) (dl A) (mc r) (fun s a b => sum (dr A) (fun x => ent A s a x * sconj (me r x b))))
  else Err ValueError.

(** fMPS.py:1007-1009, one pass of the loop of energy. *)
Definition energy_term (S : setio) (m : fmps R) (ls rs : list (mat R)) (i : nat) (h : mat R) : res R :=
  do h <- reshape_op (fd m) 2 h;
  do C <- ncon S (h :: map tens_site (firstn 2 (skipn i (fdata m))))
            [[-1; -2; 1; 2]; [1; -3; 3]; [2; 3; -4]]%Z None None false;
  do l <- getitem ls i;
  do A <- getitem (fdata m) i;
  do X <- dot_l l (site_conj A);
  do B <- getitem (fdata m) (i + 1);
  do r <- getitem rs (i + 2);
  do Y <- dot_r (site_conj B) r;
  do e <- ncon S [tens_site X; tens_site Y; C] [[1; 3; 4]; [2; 4; 5]; [1; 2; 3; 5]]%Z None None false;
  Ok (te e []).

(** fMPS.py:998-1010, energy with fullH=False.  quot x n is the quotient of a number
    by the integer self.L. *)
Definition mps_energy (S : setio) (quot : R -> nat -> R) (m : fmps R) (H : list (mat R)) : res R :=
  do lr <- get_envs m;
  do e <- mapM (fun ih => energy_term S m (fst lr) (snd lr) (fst ih) (snd ih)) (combine (seq 0 (length H)) H);
  Ok (quot (sre (suml e)) (fL m)).
End Model.
