(** Model of the time-dependent variational principle of /repo/xmps/fMPS.py:41-46, 811-823 and
    1170-1231 (left_transfer and dA_dt). *)
From Verif Require Import Alg ModelMPS ModelOrth ModelNcon ModelEk ModelNp ModelEnergy ModelTan.

Section Model.
Context {R : sring}.
Local Open Scope sr_scope.
Variable K : tanlib R.
Variable S : setio.

(** fMPS.py:44, one step of lt_: tensordot(A, tensordot(A.conj(), L, [2, 1]), [[0, 2], [0, 2]]). *)
Definition lt_step (A : site R) (L : tens R) : res (tens R) :=
  do X <- con (tens_site (site_conj A)) L [2]%nat [1]%nat;
  con (tens_site A) X [0; 2]%nat [0; 2]%nat.

(** fMPS.py:41-46, lt_, the loop over ms; the list Ls[::-1]. *)
Fixpoint lt_loop (As : list (site R)) (ms : list nat) (L : tens R) : res (list (tens R)) :=
  match ms with
  | [] => Ok [L]
  | m :: ms => do A <- getitem As m; do W <- lt_step A L; do Ls <- lt_loop As ms W; Ok (Ls ++ [L])
  end.
Definition lt_ (op : tens R) (As : list (site R)) (j i : nat) : res (list (tens R)) := lt_loop As (rev (seq j (i - j))) op.

(** fMPS.py:811-823, left_transfer with ret_all (the local function lt of 815-820 is not used):
    the function n -> Ls[n-j].  Only j <= n is modelled: Ls[n-j] with n < j counts from the end. *)
Definition left_transfer (m : fmps R) (op : tens R) (j i : nat) : res (nat -> res (tens R)) :=
  do Ls <- lt_ op (fdata m) j i; Ok (fun n => getitem Ls (n - j)).

(** l @ C @ r for an array C with four axes (fMPS.py:1209): products of stacks of matrices. *)
Definition dot4 (l : mat R) (C : tens R) (r : mat R) : res (tens R) :=
  match tsh C with
  | [d1; d2; a; b] =>
      if Nat.eqb (mc l) a && Nat.eqb b (mr r)
      then Ok (mkT [d1; d2; mr l; mc r] (fun idx =>
             sum a (fun x => sum b (fun y => me l (nth 2 idx 0%nat) x * te C [nth 0 idx 0%nat; nth 1 idx 0%nat; x; y] * me r y (nth 3 idx 0%nat)))))
      else Err ValueError
  | _ => Err ValueError
  end.

(** trace(K @ r) (fMPS.py:1204). *)
Definition trace_dot (M : tens R) (r : mat R) : res R :=
  match tsh M with
  | [a; b] => if Nat.eqb b (mr r) then Ok (sum (Nat.min a (mc r)) (fun x => sum b (fun y => te M [x; y] * me r y x))) else Err ValueError
  | _ => Err ValueError
  end.

(** B += c*X (fMPS.py:1209-1213) for arrays of the same shape; arrays of different shapes
    are rejected here (numpy might broadcast; the networks below never give another shape). *)
Definition add_scaled (B : tens R) (c : R) (X : tens R) : res (tens R) :=
  if nlist_eqb (tsh B) (tsh X) then Ok (mkT (tsh B) (fun idx => te B idx + c * te X idx)) else Err ValueError.

(** fMPS.py:1195-1213, one pass of the loop over the terms of the Hamiltonian: the tensor and
    the list of the energies.  l(m-1) is ls[m], r(m+1) is rs[m+2], r(m) is rs[m+1]. *)
Definition dA_term (im : R) (m : fmps R) (ls rs : list (mat R)) (pr : tens R) (Rs : nat -> res (tens R)) (i : nat)
    (Be : tens R * list R) (kh : nat * tens R) : res (tens R * list R) :=
  let k := fst kh in
  let h := snd kh in
  if Nat.ltb i k then Ok Be else
  match firstn 2 (skipn k (fdata m)) with
  | [A; A1] =>
      do C <- ncon S [h; tens_site A; tens_site A1] [[-1; -2; 1; 2]; [1; -3; 3]; [2; 3; -4]]%Z None None false;
      do l <- getitem ls k;
      do X <- mat_site l (site_conj A);
      do M <- ncon S [tens_site X; tens_site (site_conj A1); C] [[1; 3; 4]; [2; 4; -2]; [1; 2; 3; -1]]%Z None None false;
      do r <- getitem rs (k + 2);
      do e <- trace_dot M r;
      do B <- (if Nat.eqb k i
               then do Y <- dot4 l C r;
                    do r0 <- getitem rs (k + 1);
                    do ri <- t_inv K r0;
                    do Z <- mat_site ri (site_conj A1);
                    do T <- ncon S [Y; pr; tens_site Z] [[3; 4; 1; 2]; [-1; -2; 3; 1]; [4; -3; 2]]%Z None None false;
                    add_scaled (fst Be) (- im) T
               else if Nat.eqb (k + 1) i
               then do T <- ncon S [tens_site X; pr; C] [[1; 3; 4]; [-1; -2; 2; 4]; [1; 2; 3; -3]]%Z None None false;
                    add_scaled (fst Be) (- im) T
               else do W <- Rs (k + 2)%nat;
                    do T <- ncon S [M; W] [[1; 2]; [1; 2; -1; -2; -3]]%Z None None false;
                    add_scaled (fst Be) (- im) T);
      Ok (B, snd Be ++ [e])
  | _ => Err ValueError
  end.

(** for over a list. *)
Fixpoint foldM {A B} (f : A -> B -> res A) (a : A) (l : list B) : res A :=
  match l with [] => Ok a | x :: l => do a <- f a x; foldM f a l end.

(** fMPS.py:1184-1215, B(i) with fullH=False: the tensor and what is stored in self.e, None if
    the function returns before it. *)
Definition dA_site (im : R) (m : fmps R) (H : list (mat R)) (ls rs : list (mat R)) (prs : list (tens R * site R)) (i : nat) : res (site R * option (list R)) :=
  do A <- getitem (fdata m) i;
  do hs <- mapM (reshape_op (fd m) 2) H;
  if Nat.eqb (fd m * dl A) (dr A) then Ok (mkSite (phys A) (dl A) (dr A) (fun _ _ _ => 0), None) else
  do pv <- getitem prs i;
  do T <- ncon S [fst pv; tens_site A] [[-3; -4; 1; -2]; [1; -1; -5]]%Z None None false;
  do Rs <- left_transfer m T 0 i;
  do Be <- foldM (dA_term im m ls rs (fst pv) Rs i) (mkT [phys A; dl A; dr A] (fun _ => 0), []) (rev (combine (seq 0 (length hs)) hs));
  Ok (mkSite (phys A) (dl A) (dr A) (fun s a b => te (fst Be) [s; a; b]), Some (snd Be)).

(** fMPS.py:1170-1231, dA_dt with fullH=False: the new object and self.e after the call (the
    last list stored, e0 if none is).  The cache self.dA_cache is not modelled. *)
Definition dA_dt (im : R) (m : fmps R) (H : list (mat R)) (prs : option (list (tens R * site R))) (e0 : list R) : res (fmps R * list R) :=
  do lr <- get_envs m;
  do prs <- match prs with
            | Some prs => Ok prs
            | None => mapM (fun n => left_null_projector K S m n (Some (fst lr)) None) (seq 0 (fL m))
            end;
  do Bs <- mapM (dA_site im m H (fst lr) (snd lr) prs) (seq 0 (fL m));
  do m' <- fMPS_init (map fst Bs) None None;
  Ok (m', fold_left (fun e Be => match snd Be with Some e' => e' | None => e end) Bs e0).
End Model.
