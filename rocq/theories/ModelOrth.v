(** Model of the orthogonalisation sweeps and of the local measurements of
    /repo/xmps/fMPS.py. *)
From Verif Require Import Alg ModelMPS.

Section Model.
Context {R : sring}.
Local Open Scope sr_scope.

(** LAPACK as used by /repo: partial functions, [None] stands for LinAlgError
    (svd_robust.py:125-141, scipy's qr/rq; fMPS.py:658, 676).  [nrm2] is
    numpy.linalg.norm of a list of entries, returned with its inverse because
    the source divides by it (fMPS.py:696-697); [None] when the norm is zero:
    numpy then divides by zero, warns and fills the tensor with nan, which is
    outside the model. *)
Record lapack : Type := mkLA
  { la_qr : mat R -> option (mat R * mat R);
    la_rq : mat R -> option (mat R * mat R);
    la_nrm : site R -> option (R * R) }.

(** group_legs(A, [[0, 1], [2]]) (peps_tools.py:5-32 at fMPS.py:675), also
    concatenate(A, axis=0) (fMPS.py:562): rows are (s, i) row-major. *)
Definition lgroup (A : site R) : mat R :=
  mkMat (phys A * dl A)%nat (dr A) (fun r j => ent A (r / dl A)%nat (r mod dl A)%nat j).

(** ungroup_legs(Q, pipe) for that pipe (peps_tools.py:41-65 at fMPS.py:677):
    the lone leg takes Q's size. *)
Definition lungroup (d a : nat) (Q : mat R) : site R :=
  mkSite d a (mc Q) (fun s i j => me Q (s * a + i)%nat j).

(** group_legs(A, [[1], [0, 2]]) (peps_tools.py:5-32 at fMPS.py:657), also
    concatenate(A, axis=1) (fMPS.py:488): columns are (s, j) row-major. *)
Definition rgroup (A : site R) : mat R :=
  mkMat (dl A) (phys A * dr A)%nat (fun i c => ent A (c / dr A)%nat i (c mod dr A)%nat).

(** ungroup_legs(Q, pipe) for that pipe (peps_tools.py:41-65 at fMPS.py:659). *)
Definition rungroup (d b : nat) (Q : mat R) : site R :=
  mkSite d (mr Q) b (fun s i j => me Q i (s * b + j)%nat).

(** fMPS.py:674-681: the loop of left_orthogonalise over the sites [ms]; the
    state is (self.data, self.norm_). *)
Fixpoint left_orth_loop (O : lapack) (L : nat) (ms : list nat)
    (data : list (site R)) (nrm : option (mat R)) : res (list (site R) * option (mat R)) :=
  match ms with
  | [] => Ok (data, nrm)
  | m :: ms =>
      do A <- getitem data m;
      match la_qr O (lgroup A) with
      | None => Err LinAlgError
      | Some (Q, Rm) =>
          do data <- setitem data m (lungroup (phys A) (dl A) Q);
          if negb (Nat.eqb m (L - 1))
          then do B <- getitem data (m + 1);
               do B' <- site_lmul Rm B;
               do data <- setitem data (m + 1) B';
               left_orth_loop O L ms data nrm
          else left_orth_loop O L ms data (Some Rm)
      end
  end.

(** fMPS.py:668-684, left_orthogonalise(fr, to). *)
Definition left_orthogonalise (O : lapack) (m : fmps R) (fr : nat) (to : option nat) : res (fmps R) :=
  let to := match to with None => fL m | Some t => t end in
  do dn <- left_orth_loop O (fL m) (seq fr (to - fr)) (fdata m) (fnorm m);
  let full := Nat.eqb fr 0 && Nat.eqb to (fL m) in
  Ok (mkF (fst dn) (fL m) (fd m) (fD m) (fcan m)
          (if full then Some true else forth m)
          (if full then Some (fL m) else foc m) (snd dn)).

(** fMPS.py:656-664: the loop of right_orthogonalise over the sites [ms]. *)
Fixpoint right_orth_loop (O : lapack) (ms : list nat)
    (data : list (site R)) (nrm : option (mat R)) : res (list (site R) * option (mat R)) :=
  match ms with
  | [] => Ok (data, nrm)
  | m :: ms =>
      do A <- getitem data m;
      match la_rq O (rgroup A) with
      | None => Err LinAlgError
      | Some (Rm, Q) =>
          do data <- setitem data m (rungroup (phys A) (dr A) Q);
          if negb (Nat.eqb m 0)
          then do B <- getitem data (m - 1);
               do B' <- site_rmul B Rm;
               do data <- setitem data (m - 1) B';
               right_orth_loop O ms data nrm
          else right_orth_loop O ms data (Some Rm)
      end
  end.

(** fMPS.py:650-666, right_orthogonalise(fr, to). *)
Definition right_orthogonalise (O : lapack) (m : fmps R) (fr : nat) (to : option nat) : res (fmps R) :=
  let to := match to with None => fL m | Some t => t end in
  do dn <- right_orth_loop O (rev (seq fr (to - fr))) (fdata m) (fnorm m);
  let full := Nat.eqb fr 0 && Nat.eqb to (fL m) in
  Ok (mkF (fst dn) (fL m) (fd m) (fD m) (fcan m)
          (if full then Some true else forth m)
          (if full then Some 0%nat else foc m) (snd dn)).

(** fMPS.py:686-700, mixed_orthogonalise(oc) with current_oc None.  The nan
    branch (norm zero) is reported as [Exception_]; numpy only warns there. *)
Definition mixed_orthogonalise (O : lapack) (m : fmps R) (oc : nat) : res (fmps R) :=
  do m <- right_orthogonalise O m oc None;
  do m <- left_orthogonalise O m 0 (Some oc);
  do A <- getitem (fdata m) oc;
  match la_nrm O A with
  | None => Err Exception_
  | Some (n, ninv) =>
      do data <- setitem (fdata m) oc (site_scale ninv A);
      Ok (mkF data (fL m) (fd m) (fD m) (fcan m) (Some true) (Some oc)
              (Some (mkMat 1 1 (fun _ _ => n))))
  end.

(** Is an optional flag set?  A missing attribute raises AttributeError (the
    reads [self.canonical], [self.orthogonal] of fMPS.py:922). *)
Definition flag (b : option bool) : res bool :=
  match b with Some b => Ok b | None => Err AttributeError end.

(** fMPS.py:922-923 and 950-951: the guard of E and E_k.  [and]/[or] short
    circuit: [self.orthogonal] is only read when canonical is False. *)
Definition needs_centre (m : fmps R) (sites : list nat) : res bool :=
  do c <- flag (fcan m);
  do b <- (if c then Ok false else do o <- flag (forth m); Ok (negb o));
  Ok (b || match foc m with
           | None => false
           | Some k => negb (existsb (Nat.eqb k) sites)
           end).

(** fMPS.py:925: re(ncon([M, c(M), op], [[1,3,4],[2,3,4],[1,2]])). *)
Definition E_local (M : site R) (op : mat R) : res R :=
  if Nat.eqb (mr op) (phys M) && Nat.eqb (mc op) (phys M)
  then Ok (sre (sum (phys M) (fun s => sum (phys M) (fun t =>
             sum (dl M) (fun i => sum (dr M) (fun j =>
               ent M s i j * sconj (ent M t i j) * me op s t))))))
  else Err ValueError.

(** fMPS.py:916-926, E: returns the value and the (mutated) object. *)
Definition mps_E (O : lapack) (m : fmps R) (op : mat R) (site_ : nat) : res (R * fmps R) :=
  do b <- needs_centre m [site_];
  do m <- (if b then mixed_orthogonalise O m site_ else Ok m);
  do M <- getitem (fdata m) site_;
  do v <- E_local M op;
  Ok (v, m).

End Model.

Arguments lapack : clear implicits.
