(** Model of further methods of fMPS in /repo/xmps/fMPS.py: right_transfer, rho_proj,
    random and apply_two_site_isometry. *)
From Coq Require Import ZArith.
From Verif Require Import Alg ModelMPS ModelOrth ModelCanon ModelNcon ModelEk ModelStruct ModelTensor ModelSpin ModelTwo.

Section Model.
Context {R : sring}.
Local Open Scope sr_scope.

(** fMPS.py:830-832: the labels of self[m].conj(), self[m] and Rs[-1] when op has n axes.
    range(-1, -n+1, -1) is empty for n < 3. *)
Definition rt_links (n : nat) : list (list Z) :=
  [[1; 3; - Z.of_nat n + 1]; [1; 2; - Z.of_nat n];
   map (fun k => - Z.of_nat k) (seq 1 (n - 2)) ++ [2; 3]]%Z.

(** fMPS.py:831-832: the loop over m; the entries appended to Rs. *)
Fixpoint rt_loop (S : setio) (n : nat) (As : list (site R)) (ms : list nat) (op : tens R) : res (list (tens R)) :=
  match ms with
  | [] => Ok []
  | m :: ms =>
      do A <- getitem As m;
      do W <- ncon S [tens_site (site_conj A); tens_site A; op] (rt_links n) None None false;
      do Ws <- rt_loop S n As ms W; Ok (W :: Ws)
  end.

(** fMPS.py:825-833, right_transfer with ret_all: the function n -> Rs[n-i-1].  Only
    i < n is modelled: Rs[n-i-1] with n <= i counts from the end. *)
Definition right_transfer (S : setio) (m : fmps R) (op : tens R) (i j : nat) : res (nat -> res (tens R)) :=
  do Ws <- rt_loop S (length (tsh op)) (fdata m) (seq (i + 1) (j - i)) op;
  Ok (fun n => getitem (op :: Ws) (n - i - 1)).

(** fMPS.py:825-833, right_transfer with ret_all=False: Rs[0]. *)
Definition right_transfer_one (S : setio) (m : fmps R) (op : tens R) (i j : nat) : res (tens R) :=
  do Ws <- rt_loop S (length (tsh op)) (fdata m) (seq (i + 1) (j - i)) op;
  getitem (op :: Ws) 0.

(** fMPS.py:994, squeeze(self[i]).conj().T @ squeeze(other[i].conj()) of two vectors. *)
Definition part_overlap (A B : site R) : res R :=
  do v <- squeeze_site A;
  do w <- squeeze_site (site_conj B);
  if Nat.eqb (phys A) (phys B)
  then Ok (sum (phys A) (fun x => sconj (te v [x]) * te w [x])) else Err ValueError.

(** fMPS.py:995, ncon([squeeze(self[i]), squeeze(other[i].conj()).T], [[-1], [-2]]). *)
Definition part_matrix (S : setio) (A B : site R) : res (mat R) :=
  do v <- squeeze_site A;
  do w <- squeeze_site (site_conj B);
  do T <- ncon S [v; w] [[(-1)%Z]; [(-2)%Z]] None None false;
  Ok (mkMat (nth 0 (tsh T) 0%nat) (nth 1 (tsh T) 0%nat) (fun r c => te T [r; c])).

(** Two indexings, self[i] and other[i] (fMPS.py:994-995). *)
Definition both (a b : fmps R) (i : nat) : res (site R * site R) :=
  do A <- getitem (fdata a) i; do B <- getitem (fdata b) i; Ok (A, B).

(** fMPS.py:986-995, rho_proj; None when the condition of line 992 fails (the function
    then ends without return).  np.prod of the empty list is 1. *)
Definition rho_proj (S : setio) (a b : fmps R) (sites : list nat) (single_string : bool) : res (option (mat R)) :=
  if Nat.eqb (bond_dimension a) 1 && single_string
  then
    let not_sites := filter (fun i => negb (existsb (Nat.eqb i) sites)) (seq 0 (fL a)) in
    do po <- mapM (fun i => do AB <- both a b i; part_overlap (fst AB) (snd AB)) not_sites;
    do ms <- mapM (fun i => do AB <- both a b i; part_matrix S (fst AB) (snd AB)) sites;
    do M <- tensor ms;
    Ok (Some (mscale (fold_right (@smul R) 1 po) M))
  else Ok None.

(** What the random generator and the trigonometric functions return: two normal draws for
    every entry of every site; for every site of a product state two angles, of which only
    cos(th/2), sin(th/2) and exp(1j*f) are used. *)
Record rng : Type := mkRng
  { rn_re : nat -> nat -> nat -> nat -> R; rn_im : nat -> nat -> nat -> nat -> R;
    rn_cos : nat -> R; rn_sin : nat -> R; rn_phase : nat -> R; rn_i : R }.

(** fMPS.py:425, array([cos(th/2), exp(1j*f*(1-int(real)))*sin(th/2)]) with two axes added;
    the angles come from normalised draws (413-423), which are not modelled. *)
Definition spin_site (G : rng) (real : bool) (k : nat) : site R :=
  mkSite 2 1 1 (fun s _ _ => match s with 0%nat => rn_cos G k | _ => (if real then 1 else rn_phase G k) * rn_sin G k end).

(** fMPS.py:428, randn(d, a, b) + (1-int(real))*1j*randn(d, a, b). *)
Definition draw_site (G : rng) (real : bool) (d : nat) (k : nat) (sh : nat * nat) : site R :=
  mkSite d (fst sh) (snd sh) (fun s i j => rn_re G k s i j + (if real then 0 else 1) * rn_i G * rn_im G k s i j).

(** fMPS.py:401-434, random, called on an object m.  max([]) is a ValueError.  max(shape[1:])
    of line 430 is the maximum of shape[1:], the right bond alone, since the shapes of
    create_structure (without phys) have two entries. *)
Definition random (G : rng) (m : fmps R) (L d D : nat) (real : bool) : res (fmps R) :=
  if Nat.eqb D 1
  then Ok (mkF (map (spin_site G real) (seq 0 L)) L d 1 (fcan m) (forth m) (foc m) (fnorm m))
  else
    do st <- create_structure L d (Some D);
    match st with
    | [] => Err ValueError
    | _ => Ok (mkF (map (fun ks => draw_site G real d (fst ks) (snd ks)) (combine (seq 0 (length st)) st))
                   L d (list_max (map snd st)) (Some false) (Some false) (foc m) (fnorm m))
    end.

(** fMPS.py:92-93, apply_isometry. *)
Definition apply_isometry (A B : site R) (Is : mat R) : res (site R) :=
  do G <- group_tensors A B; gate_site Is G.

(** fMPS.py:897-911, apply_two_site_isometry; lr is false for 0 and true for 1.  The calls
    of apply_two_site((SWAP, (i_, i_+1))) are without truncation. *)
Definition apply_two_site_isometry (O : lapack2 R) (P : lapack R) (m : fmps R) (op : mat R) (a b : nat) (lr : bool) : res (fmps R) :=
  if Nat.eqb a b then Err AssertionError
  else
    let '(i, j) := if Nat.ltb a b then (a, b) else (b, a) in
    do data <- gates_at O P SWAP true None (rev (seq (i + 1) (j - 1 - i))) (fdata m);
    do A <- getitem data i;
    do B <- getitem data (i + 1);
    do G <- apply_isometry A B op;
    do data <- setitem data (if lr then j else i) G;
    do data <- gates_at O P SWAP true None (seq (i + 1) (j - 1 - i)) data;
    Ok (with_data m data).
End Model.
