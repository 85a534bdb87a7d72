(** Model of /repo/xmps/iMPS.py: transfer matrices, their fixed points, canonical forms,
    expectation values, energy and storage of infinite MPS. *)
From Verif Require Import Alg ModelMPS ModelOrth ModelCanon ModelNcon ModelEk ModelTensor ModelNp ModelDecomp ModelLie ModelStruct.

Section Model.
Context {R : sring}.
Local Open Scope sr_scope.

(** ** Stacks of matrices *)

(** tensor.py:178-190, T and H on an array of shape (d, a, b). *)
Definition site_T (A : site R) : site R := mkSite (phys A) (dr A) (dl A) (fun s i j => ent A s j i).
Definition site_H (A : site R) : site R := mkSite (phys A) (dr A) (dl A) (fun s i j => sconj (ent A s j i)).

(** A @ B for two stacks of matrices (iMPS.py:60, 70): the leading axes are broadcast. *)
Definition stack_mul (A B : site R) : res (site R) :=
  if Nat.eqb (dr A) (dl B) && (Nat.eqb (phys A) (phys B) || Nat.eqb (phys A) 1 || Nat.eqb (phys B) 1)
  then Ok (mkSite (if Nat.eqb (phys A) 1 then phys B else phys A) (dl A) (dr B) (fun s i j =>
         sum (dr A) (fun k => ent A (if Nat.eqb (phys A) 1 then 0%nat else s) i k
                              * ent B (if Nat.eqb (phys B) 1 then 0%nat else s) k j)))
  else Err ValueError.

(** sum(A, axis=0) (iMPS.py:60). *)
Definition stack_sum (A : site R) : mat R :=
  mkMat (dl A) (dr A) (fun i j => sum (phys A) (fun s => ent A s i j)).

(** v.reshape(a, b) of a vector (iMPS.py:59); ValueError if the sizes differ. *)
Definition reshape2 (a b : nat) (v : list R) : res (mat R) :=
  if Nat.eqb (length v) (a * b) then Ok (mkMat a b (fun i j => nth (i * b + j)%nat v 0)) else Err ValueError.

(** M.reshape(n) of a matrix (iMPS.py:60): the entries in row-major order. *)
Definition flat2 (M : mat R) : list R :=
  flat_map (fun i => map (fun j => me M i j) (seq 0 (mc M))) (seq 0 (mr M)).
Definition reshape1 (n : nat) (M : mat R) : res (list R) :=
  if Nat.eqb (mr M * mc M) n then Ok (flat2 M) else Err ValueError.

(** An array of two axes as a matrix. *)
Definition as_mat (T : tens R) : mat R :=
  mkMat (nth 0 (tsh T) 0%nat) (nth 1 (tsh T) 0%nat) (fun i j => te T [i; j]).

(** ** Map *)

(** iMPS.py:45-49, Map.asmatrix. *)
Definition map_asmatrix (A B : site R) : res (mat R) :=
  do T <- con (tens_site A) (tens_site (site_H B)) [0%nat] [0%nat];
  do T <- transpose_ [0; 3; 1; 2]%nat T;
  do T <- reshape_ [dl A * dl A; dr A * dr A]%nat T;
  Ok (as_mat T).

(** iMPS.py:51-60, Map.mv. *)
Definition map_mv (A B : site R) (r : list R) : res (list R) :=
  let D := dl A in
  do r <- reshape2 D D r;
  do X <- site_rmul A r;
  do X <- stack_mul X (site_H B);
  reshape1 (D * D) (stack_sum X).

(** iMPS.py:62-70, Map.mvr. *)
Definition map_mvr (A B : site R) (l : list R) : res (list R) :=
  let D := dl A in
  do l <- reshape2 D D l;
  do X <- site_rmul (site_H A) l;
  do X <- stack_mul X B;
  reshape1 (D * D) (stack_sum X).

(** scipy LinearOperator of the given shape: a vector of the wrong length is refused
    with ValueError before the function is called (iMPS.py:72-74, 132-134). *)
Definition linop (cols : nat) (f : list R -> res (list R)) (v : list R) : res (list R) :=
  if Nat.eqb (length v) cols then f v else Err ValueError.

(** iMPS.py:95-104, is_right_eigenvector and is_left_eigenvector.  [close] is
    allclose. *)
Definition is_right_eigenvector (close : mat R -> mat R -> bool) (A B : site R) (r : mat R) (lam : R) : res bool :=
  let D := dl A in
  do v <- reshape1 (D * D) r;
  do v <- linop (dr A * dr A) (map_mv A B) v;
  do r_ <- reshape2 D D v;
  Ok (close r (mscal lam r_)).
Definition is_left_eigenvector (close : mat R -> mat R -> bool) (A B : site R) (l : mat R) (lam : R) : res bool :=
  let D := dl A in
  do v <- reshape1 (D * D) l;
  do v <- linop (dl A * dl A) (map_mvr A B) v;
  do l_ <- reshape2 D D v;
  Ok (close l (mscal lam l_)).

(** ** TransferMatrix *)

(** iMPS.py:114-121, TransferMatrix.mv. *)
Definition tm_mv (A : site R) (r : list R) : res (list R) :=
  do r <- reshape2 (dl A) (dr A) r;
  do X <- site_rmul A r;
  do X <- stack_mul X (site_H A);
  reshape1 (dl A * dr A) (stack_sum X).

(** iMPS.py:123-130, TransferMatrix.mvr. *)
Definition tm_mvr (A : site R) (l : list R) : res (list R) :=
  do l <- reshape2 (dl A) (dr A) l;
  do X <- site_rmul (site_T A) l;
  do X <- stack_mul X (site_conj A);
  reshape1 (dl A * dr A) (stack_sum X).

(** iMPS.py:136-139, TransferMatrix.asmatrix. *)
Definition tm_asmatrix (A : site R) : res (mat R) :=
  do T <- con (tens_site A) (tens_site (site_conj A)) [0%nat] [0%nat];
  do T <- transpose_ [0; 2; 1; 3]%nat T;
  do T <- reshape_ [dl A * dl A; dr A * dr A]%nat T;
  Ok (as_mat T).

(** ** Library calls *)

(** What iMPS.py calls in scipy and numpy; None is an exception there.
    eigs (arnoldi) of a linear operator given by its number of rows and its function,
    with start vector (iMPS.py:80, 90, 147-148); quotient, square root, sign and norm as
    in ModelDecomp; cholesky (iMPS.py:361-362), svd (iMPS.py:364), inv (iMPS.py:369),
    null_space (iMPS.py:641), root (iMPS.py:577); [ic_small] decides norm(x) <= eta
    (iMPS.py:285-342). *)
Record icalls : Type := mkIc
  { ic_arn : nat -> (list R -> res (list R)) -> option (list R) -> option (R * list R);
    ic_dec : decomp R;
    ic_chol : mat R -> option (mat R);
    ic_svd : mat R -> option (mat R * (nat -> R) * mat R);
    ic_inv : mat R -> option (mat R);
    ic_root : (list R -> res (list R)) -> list R -> option (list R);
    ic_small : mat R -> bool }.

(** The value of a library call, or the exception. *)
Definition lib {A} (e : exn) (x : option A) : res A := match x with Some a => Ok a | None => Err e end.

(** scipy.sparse.linalg.eigs(op, k=1, v0): ValueError if op is not square, TypeError for
    a LinearOperator with at most two rows (iMPS.py:80, 90, 147-148).  Failure to
    converge is a RuntimeError, here Exception_. *)
Definition arnoldi (C : icalls) (rows cols : nat) (f : list R -> res (list R)) (v0 : option (list R)) : res (R * list R) :=
  if negb (Nat.eqb rows cols) then Err ValueError
  else if Nat.leb rows 2 then Err TypeError
  else lib Exception_ (ic_arn C rows (linop cols f) v0).

(** x / y for numbers; sqrt(x) (iMPS.py:150-156); a zero divisor is an error here where
    numpy goes on with nan. *)
Definition quot (C : icalls) (x y : R) : res R := lib ValueError (de_quot (ic_dec C) x y).
Definition root_ (C : icalls) (x : R) : res R := lib ValueError (de_sqrt (ic_dec C) x).

(** rotate_to_hermitian(M)/sign(x) (iMPS.py:150-151): division by multiplication with the
    reciprocal. *)
Definition rotated (C : icalls) (M : mat R) (x : R) : res (mat R) :=
  do wM <- rotate_to_hermitian (ic_dec C) M;
  do s <- quot C 1 (de_sgn (ic_dec C) x);
  Ok (mscal s (snd wM)).

(** l0.reshape(n) of an optional start vector (iMPS.py:143-146). *)
Definition start (n : nat) (v0 : option (mat R)) : res (option (list R)) :=
  match v0 with None => Ok None | Some M => do v <- reshape1 n M; Ok (Some v) end.

(** iMPS.py:141-157, TransferMatrix.eigs.  real_if_close changes nothing in exact
    arithmetic; trace of a product as numpy computes it. *)
Definition tm_eigs (C : icalls) (A : site R) (l0 r0 : option (mat R)) : res (R * mat R * mat R) :=
  let rows := (dl A * dl A)%nat in
  let cols := (dr A * dr A)%nat in
  do l0 <- start cols l0;
  do r0 <- start cols r0;
  do er <- arnoldi C rows cols (tm_mv A) r0;
  do el <- arnoldi C cols rows (tm_mvr A) l0;
  do r1 <- reshape2 (dl A) (dr A) (snd er);
  do l1 <- reshape2 (dl A) (dr A) (snd el);
  do x <- getitem (snd er) 0;
  do r <- rotated C r1 x;
  do y <- getitem (snd el) 0;
  do l <- rotated C l1 y;
  do lr <- mdot l r;
  do q <- root_ C (mtr_ lr);
  do c <- quot C 1 q;
  Ok (fst el, mscal c l, mscal c r).

(** iMPS.py:76-84, Map.right_fixed_point with rotate=True: r[0] is read after the
    rotation. *)
Definition right_fixed_point (C : icalls) (A B : site R) (r0 : option (mat R)) : res (R * mat R) :=
  let D := dl A in
  do r0 <- start (D * D) r0;
  do er <- arnoldi C (dl A * dl A) (dr A * dr A) (map_mv A B) r0;
  do r1 <- reshape2 (length (snd er)) 1 (snd er);
  do wr <- rotate_to_hermitian (ic_dec C) r1;
  do v <- reshape1 (length (snd er)) (snd wr);
  do r <- reshape2 D D v;
  do x <- getitem v 0;
  do s <- quot C 1 (de_sgn (ic_dec C) x);
  Ok (fst er, mscal s r).

(** iMPS.py:86-93, Map.left_fixed_point. *)
Definition left_fixed_point (C : icalls) (A B : site R) (l0 : option (mat R)) : res (R * mat R) :=
  let D := dl A in
  do l0 <- start (D * D) l0;
  do el <- arnoldi C (dr A * dr A) (dl A * dl A) (map_mvr A B) l0;
  do l1 <- reshape2 (length (snd el)) 1 (snd el);
  do y <- getitem (snd el) 0;
  do l1 <- rotated C l1 y;
  do v <- reshape1 (length (snd el)) l1;
  do l <- reshape2 D D v;
  do ll <- mdot (mct l) l;
  do n <- root_ C (mtr_ ll);
  do c <- quot C 1 n;
  Ok (fst el * n, mscal c l).

(** ** iMPS *)

(** The argument of canonicalise (iMPS.py:350). *)
Inductive hand := hand_r | hand_l | hand_m | hand_other.

(** The attributes of an iMPS object (iMPS.py:161-173, 359, 375): L, l and r are
    only set on some paths. *)
Record imps : Type := mkI
  { i_data : list (site R); i_period : nat; i_d : nat; i_D : nat;
    i_can : option hand; i_L : option (mat R); i_l : option (mat R); i_r : option (mat R) }.

(** iMPS.py:161-173, __init__ with data. *)
Definition iMPS_init (data : list (site R)) (can : option hand) : res imps :=
  match data with
  | [] => Err IndexError
  | A :: _ => Ok (mkI data (length data) (phys A) (dr A) can None None None)
  end.

(** iMPS.py:175-180, __call__, documented as 1-based. *)
Definition imps_call (m : imps) (k : nat) : res (site R) := getitem (i_data m) (k + 1).
(** iMPS.py:182-187, __getitem__. *)
Definition imps_get (m : imps) (k : nat) : res (site R) := getitem (i_data m) k.

(** iMPS.py:213-227, __add__ and __sub__: item by item. *)
Definition imps_add (a b : imps) : res imps :=
  do l <- mapM (fun ab => site_zip sadd (fst ab) (snd ab)) (pyzip (i_data a) (i_data b)); iMPS_init l None.
Definition imps_sub (a b : imps) : res imps :=
  do l <- mapM (fun ab => site_zip ssub (fst ab) (snd ab)) (pyzip (i_data a) (i_data b)); iMPS_init l None.
(** iMPS.py:229-243, __mul__ and __rmul__: every tensor is scaled. *)
Definition imps_mul (m : imps) (c : R) : res imps := iMPS_init (map (site_scale c) (i_data m)) None.
(** iMPS.py:245-252, __truediv__. *)
Definition imps_div (C : icalls) (m : imps) (c : R) : res imps := do x <- quot C 1 c; imps_mul m x.

(** iMPS.py:195-207, __eq__ and __ne__: allclose on the items that zip pairs; [close] is allclose,
    None if the shapes cannot be broadcast (ValueError). *)
Definition imps_eq (close : site R -> site R -> option bool) (a b : imps) : res bool :=
  do bs <- mapM (fun ab => lib ValueError (close (fst ab) (snd ab))) (pyzip (i_data a) (i_data b));
  Ok (forallb (fun x => x) bs).
Definition imps_ne (close : site R -> site R -> option bool) (a b : imps) : res bool :=
  do x <- imps_eq close a b; Ok (negb x).

(** iMPS.py:261-265, copy: without l or r a missing attribute stays missing; if only one
    of them is there the other raises AttributeError. *)
Definition imps_copy (m : imps) : res imps :=
  do n <- iMPS_init (i_data m) None;
  match i_l m, i_r m with
  | None, None => Ok n
  | Some l, Some r => Ok (mkI (i_data n) (i_period n) (i_d n) (i_D n) (i_can n) (i_L n) (Some l) (Some r))
  | _, _ => Err AttributeError
  end.

(** iMPS.py:280-283 and 400-402, transfer_matrix and eigs. *)
Definition imps_eigs (C : icalls) (m : imps) (l0 r0 : option (mat R)) : res (R * mat R * mat R) :=
  if Nat.eqb (i_period m) 1
  then do A <- getitem (i_data m) 0; tm_eigs C A l0 r0
  else Err AssertionError.

(** self.data[0] = A (iMPS.py:377-383). *)
Definition set0 (m : imps) (A : site R) : res (list (site R)) := setitem (i_data m) 0 A.

(** iMPS.py:350-389, canonicalise: the changed object and the Vidal pair (G_, L_), which
    is what is returned with to_vidal=True.  Quotients are products with reciprocals. *)
Definition canonicalise (C : icalls) (m : imps) (h : hand) (l0 r0 : option (mat R)) (to_vidal : bool)
    : res (imps * (site R * mat R)) :=
  do A <- getitem (i_data m) 0;
  do elr <- imps_eigs C m l0 r0;
  let eta := fst (fst elr) in
  let v_l := snd (fst elr) in
  let v_r := snd elr in
  do X <- lib LinAlgError (ic_chol C v_r);
  do Y <- lib LinAlgError (ic_chol C v_l);
  do YX <- mdot (mtr Y) X;
  do usv <- lib LinAlgError (ic_svd C YX);
  let U := fst (fst usv) in
  let Lv := snd (fst usv) in
  let V := snd usv in
  let k := Nat.min (mr YX) (mc YX) in
  let ll := sum k (fun i => Lv i * Lv i) in
  do Xi <- lib LinAlgError (ic_inv C X);
  do Yi <- lib LinAlgError (ic_inv C (mtr Y));
  do P <- mdot V Xi;
  do Q <- mdot Yi U;
  do G <- site_lmul P A;
  do G <- site_rmul G Q;
  let L := mdiag k Lv in
  do q <- quot C eta ll;
  do q <- root_ C q;
  do c1 <- quot C 1 q;
  let G := site_scale c1 G in
  do q2 <- root_ C ll;
  do c2 <- quot C 1 q2;
  let L := mscal c2 L in
  do A' <- match h with
           | hand_r => site_rmul G L
           | hand_l => site_lmul L G
           | hand_m => do sL <- mapM (fun i => root_ C (Lv i)) (seq 0 k);
                       let S := mdiag k (fun i => nth i sL 0) in
                       do X <- site_lmul S G; site_rmul X S
           | hand_other => Ok A
           end;
  do data <- set0 m A';
  Ok (mkI data (i_period m) (i_d m) (i_D m) (if to_vidal then i_can m else Some h)
          (Some L) (Some v_l) (Some v_r), (G, L)).

(** op @ over the physical axis: tensordot(op, X, [1, 0]) (iMPS.py:423). *)
Definition op_site (op : mat R) (X : site R) : res (site R) :=
  if Nat.eqb (mc op) (phys X)
  then Ok (mkSite (mr op) (dl X) (dr X) (fun s i j => sum (mc op) (fun t => me op s t * ent X t i j)))
  else Err ValueError.

(** sum(A) over all axes (iMPS.py:423). *)
Definition total (A : site R) : R := sum (phys A) (fun s => sum (dl A) (fun i => sum (dr A) (fun j => ent A s i j))).

(** L**2, entry by entry (iMPS.py:427). *)
Definition square (L : mat R) : mat R := mkMat (mr L) (mc L) (fun i j => me L i j * me L i j).

(** a.dot(b) for arrays: last axis of a with the last but one of b (iMPS.py:435). *)
Definition ndot (A B : tens R) : res (tens R) :=
  con A B [(length (tsh A) - 1)%nat] [(length (tsh B) - 2)%nat].

(** tr(G.dot(L).dot(L).dot(H(G)).dot(L).dot(L), axis1=1, axis2=3) (iMPS.py:435, 810). *)
Definition circle (G : site R) (L : mat R) : res (tens R) :=
  do x <- ndot (tens_site G) (tens_mat L);
  do x <- ndot x (tens_mat L);
  do x <- ndot x (tens_site (site_H G));
  do x <- ndot x (tens_mat L);
  do x <- ndot x (tens_mat L);
  trace x [1; 3]%nat.

(** The four ways of iMPS.py:420-441 to compute an expectation value with what the
    object holds: forms 'm', 'r' and 'l'. *)
Definition E_form (h : hand) (L : mat R) (A : site R) (op : mat R) : res R :=
  match h with
  | hand_m => do X <- site_rmul (site_conj A) L; do X <- op_site op X;
              do Y <- site_lmul L A; do Z <- site_zip smul Y X; Ok (total Z)
  | hand_r => do X <- site_lmul (square L) (site_conj A); do X <- op_site op X;
              do Z <- site_zip smul A X; Ok (total Z)
  | hand_l => do X <- op_site op (site_conj A); do Y <- site_rmul A (square L);
              do Z <- site_zip smul Y X; Ok (total Z)
  | hand_other => Err UnboundLocalError
  end.

(** tr(circle @ op) (iMPS.py:441, 480). *)
Definition E_circle (circ : tens R) (op : mat R) : res R :=
  do M <- mdot (as_mat circ) op; Ok (mtr_ M).

(** iMPS.py:412-441, E: the value and the changed object.  For a value of c other than
    'm', 'r', 'l' and None Python returns None: here an error. *)
Definition imps_E (C : icalls) (m : imps) (op : mat R) (c : option hand) : res (R * imps) :=
  match c with
  | Some h =>
      do L <- match i_L m with Some L => Ok L | None => Err AttributeError end;
      do A <- getitem (i_data m) 0;
      do x <- E_form h L A op; Ok (x, m)
  | None =>
      do mGL <- canonicalise C m hand_r None None true;
      do circ <- circle (fst (snd mGL)) (snd (snd mGL));
      do x <- E_circle circ op; Ok (x, fst mGL)
  end.

(** iMPS.py:443-481, Es: the same for a list of operators. *)
Definition imps_Es (C : icalls) (m : imps) (ops : list (mat R)) (c : option hand) : res (list R * imps) :=
  match c with
  | Some h =>
      do L <- match i_L m with Some L => Ok L | None => Err AttributeError end;
      do A <- getitem (i_data m) 0;
      do xs <- mapM (E_form h L A) ops; Ok (xs, m)
  | None =>
      do mGL <- canonicalise C m hand_r None None true;
      do circ <- circle (fst (snd mGL)) (snd (snd mGL));
      do xs <- mapM (E_circle circ) ops; Ok (xs, fst mGL)
  end.

(** iMPS.py:806-816, ivMPS.E: tensordot(circle, op, [[0, 1], [0, 1]]). *)
Definition iv_E (G : site R) (L : mat R) (op : mat R) : res R :=
  do circ <- circle G L;
  do T <- con circ (tens_mat op) [0; 1]%nat [0; 1]%nat; Ok (te T []).

(** iMPS.py:802-804, ivMPS.to_iMPS: dot(G, L). *)
Definition to_iMPS (data : list (site R * mat R)) : res imps :=
  do l <- mapM (fun GL => site_rmul (fst GL) (snd GL)) data; iMPS_init l None.

(** The local part of the energy (iMPS.py:491-493 and again in 551-552, 666-668):
    HAA and AAHAA. *)
Definition haa (S : setio) (d : nat) (h : mat R) (A : site R) : res (tens R) :=
  do h <- reshape_op d 2 h;
  ncon S [h; tens_site A; tens_site A] [[-1; -2; 1; 2]; [1; -3; 3]; [2; 3; -4]]%Z None None false.
Definition aahaa (S : setio) (l : mat R) (A : site R) (HAA : tens R) : res (mat R) :=
  do X <- site_lmul l (site_conj A);
  do K <- ncon S [tens_site X; tens_site (site_conj A); HAA] [[1; 3; 4]; [2; 4; -2]; [1; 2; 3; -1]]%Z None None false;
  Ok (as_mat K).

(** iMPS.py:483-495, energy (the attribute e is not kept). *)
Definition imps_energy (S : setio) (C : icalls) (m : imps) (H : list (mat R)) : res R :=
  do h <- getitem H 0;
  do A <- getitem (i_data m) 0;
  do elr <- imps_eigs C m None None;
  do T <- haa S (i_d m) h A;
  do K <- aahaa S (snd (fst elr)) A T;
  do Kr <- mdot K (snd elr);
  Ok (sre (mtr_ Kr)).

(** ** Storage *)

(** iMPS.py:497-503, serialize. *)
Definition imps_serialize (m : imps) : res (list R) :=
  match i_data m with [] => Err ValueError | data => Ok (flat_map flatten data) end.
Definition imps_serialize_real (I : imag R) (m : imps) : res (list R) :=
  do v <- imps_serialize m; Ok (map sre v ++ map (im_part I) v).

(** iMPS.py:505-522, deserialize on an object with the optional attributes of m. *)
Definition imps_deserialize (m : imps) (vec : list R) (d D p : nat) : res imps :=
  do data <- deserialize_loop vec (repeat (d, D, D) p);
  Ok (mkI data p d D (i_can m) (i_L m) (i_l m) (i_r m)).
Definition imps_deserialize_real (I : imag R) (m : imps) (vec : list R) (d D p : nat) : res imps :=
  do xy <- chop2 vec;
  imps_deserialize m (map (fun p => fst p + im_unit I * snd p) (combine (fst xy) (snd xy))) d D p.

(** iMPS.py:524-528, store: the array in the file. *)
Definition imps_store (N : numio R) (m : imps) : res (list R) :=
  do v <- imps_serialize m; Ok (map (of_nat N) [i_d m; i_D m; i_period m] ++ v).
(** iMPS.py:530-537, load. *)
Definition imps_load (N : numio R) (m : imps) (file : list R) : res imps :=
  match firstn 3 file with
  | [a; b; c] => imps_deserialize m (skipn 3 file) (to_nat N a) (to_nat N b) (to_nat N c)
  | _ => Err ValueError
  end.

End Model.
Arguments icalls : clear implicits.
Arguments imps : clear implicits.
