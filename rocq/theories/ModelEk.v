(** Model of the measurements of fMPS.py that contract a network with ncon:
    links, E_k, E_L, rho and local_overlap. *)
From Verif Require Import Alg ModelMPS ModelOrth ModelNcon.

(** fMPS.py:835-848, links(k, op). *)
Definition links (L : nat) (op : bool) : list (list Z) :=
  if op
  then map (fun n => map Z.of_nat [n; 2 * L + n; 2 * L + n + 1]) (seq 1 L)
       ++ [map Z.of_nat (seq 1 (2 * L))]
       ++ map (fun n => map Z.of_nat [L + n; (if Nat.eqb n 1 then 2 * L + n else 3 * L + n);
                                      (if Nat.eqb n L then 2 * L + n + 1 else 3 * L + n + 1)]) (seq 1 L)
  else map (fun n => map Z.of_nat [n; L + n; L + n + 1]) (seq 1 L)
       ++ map (fun n => map Z.of_nat [n; (1 + (if Nat.eqb n 1 then 0 else 1)) * L + n;
                                      (1 + (if Nat.eqb n L then 0 else 1)) * L + n + 1]) (seq 1 L).

(** Row-major position of an index in an array of shape sh, and its inverse
    (numpy.reshape, fMPS.py:954, 968, 984). *)
Fixpoint ravel (sh idx : list nat) : nat :=
  match sh, idx with
  | _ :: sh, x :: idx => x * fold_right Nat.mul 1 sh + ravel sh idx
  | _, _ => 0
  end.
Fixpoint unravel (sh : list nat) (n : nat) : list nat :=
  match sh with
  | [] => []
  | _ :: sh => (n / fold_right Nat.mul 1 sh) :: unravel sh (n mod fold_right Nat.mul 1 sh)
  end.

Section Model.
Context {R : sring}.
Local Open Scope sr_scope.

(** A site tensor as an array of shape (d, Dl, Dr) (fMPS.py:951). *)
Definition tens_site (A : site R) : tens R :=
  mkT [phys A; dl A; dr A] (fun idx => ent A (nth 0 idx 0%nat) (nth 1 idx 0%nat) (nth 2 idx 0%nat)).

(** A matrix as an array (the elements of op, fMPS.py:961). *)
Definition tens_mat (M : mat R) : tens R :=
  mkT [mr M; mc M] (fun idx => me M (nth 0 idx 0%nat) (nth 1 idx 0%nat)).

(** op.reshape([self.d, self.d]*k) (fMPS.py:954, 968). *)
Definition reshape_op (d k : nat) (op : mat R) : res (tens R) :=
  if Nat.eqb (mr op * mc op) (Nat.pow d (2 * k))
  then Ok (mkT (repeat d (2 * k)) (fun idx =>
         let n := ravel (repeat d (2 * k)) idx in me op (n / mc op)%nat (n mod mc op)%nat))
  else Err ValueError.

(** .reshape(self.d**len(sites), -1) (fMPS.py:984). *)
Definition reshape_rows (n : nat) (T : tens R) : res (mat R) :=
  let size := fold_right Nat.mul 1%nat (tsh T) in
  if Nat.eqb n 0 || negb (Nat.eqb (size mod n) 0) then Err ValueError
  else Ok (mkMat n (size / n)%nat (fun r c => te T (unravel (tsh T) (r * (size / n) + c)%nat))).

(** fMPS.py:949-950: the guard of E_k. *)
Definition centre_block (O : lapack R) (m : fmps R) (sites : list nat) : res (fmps R) :=
  do b <- needs_centre m sites;
  if b then do s <- getitem sites 0; mixed_orthogonalise O m s else Ok m.

(** fMPS.py:943-955, E_k without single_string: the value and the (mutated) object. *)
Definition mps_Ek (S : setio) (O : lapack R) (m : fmps R) (op : mat R) (sites : list nat) : res (R * fmps R) :=
  do m <- centre_block O m sites;
  do Ms <- mapM (getitem (fdata m)) sites;
  let k := length sites in
  do T <- reshape_op (fd m) k op;
  do r <- ncon S (map (fun M => tens_site (site_conj M)) Ms ++ [T] ++ map tens_site Ms) (links k true) None None false;
  Ok (sre (te r []), m).

(** fMPS.py:957-960: the links with the k operators in place of the big one. *)
Definition string_links (k : nat) : res (list (list Z)) :=
  let l := links k true in
  let h := Nat.div (length l) 2 in
  do big <- getitem l h;
  do op_links <- mapM (fun i => do a <- getitem big i; do b <- getitem big (i + k); Ok [a; b]) (seq 0 k);
  Ok (firstn h l ++ op_links ++ skipn (h + 1) l).

(** fMPS.py:943-961, E_k with single_string. *)
Definition mps_Ek_string (S : setio) (O : lapack R) (m : fmps R) (ops : list (mat R)) (sites : list nat)
    : res (R * fmps R) :=
  do m <- centre_block O m sites;
  do Ms <- mapM (getitem (fdata m)) sites;
  do l <- string_links (length sites);
  do r <- ncon S (map (fun M => tens_site (site_conj M)) Ms ++ map tens_mat ops ++ map tens_site Ms) l None None false;
  Ok (sre (te r []), m).

(** fMPS.py:963-969, E_L. *)
Definition mps_EL (S : setio) (m : fmps R) (op : mat R) : res R :=
  do T <- reshape_op (fd m) (fL m) op;
  do r <- ncon S (map (fun M => tens_site (site_conj M)) (fdata m) ++ [T] ++ map tens_site (fdata m))
            (links (fL m) true) None None false;
  Ok (sre (te r [])).

(** fMPS.py:981-982. *)
Definition rho_links (k : nat) : list (list Z) :=
  map (fun i => [(- Z.of_nat i)%Z; Z.of_nat i; Z.of_nat (if Nat.eqb i k then 2 * k + 1 else i + 1)]) (seq 1 k)
  ++ map (fun i => [(- Z.of_nat i)%Z; Z.of_nat (if Nat.eqb i (k + 1) then 1 else i); Z.of_nat (i + 1)]) (seq (k + 1) k).

(** fMPS.py:979-984, rho when a matrix is returned. *)
Definition mps_rho (S : setio) (O : lapack R) (m : fmps R) (sites : list nat) : res (mat R * fmps R) :=
  do m <- (if match foc m with None => true | Some c => negb (existsb (Nat.eqb c) sites) end
           then do s <- getitem sites 0; mixed_orthogonalise O m s else Ok m);
  do Ms <- mapM (getitem (fdata m)) sites;
  do T <- ncon S (map tens_site Ms ++ map (fun M => tens_site (site_conj M)) Ms) (rho_links (length sites)) None None false;
  do r <- reshape_rows (Nat.pow (fd m) (length sites)) T;
  Ok (r, m).

(** np.squeeze of a site tensor, when it is a vector (fMPS.py:977). *)
Definition squeeze_site (A : site R) : res (tens R) :=
  if negb (Nat.eqb (phys A) 1) && Nat.eqb (dl A) 1 && Nat.eqb (dr A) 1
  then Ok (mkT [phys A] (fun idx => ent A (nth 0 idx 0%nat) 0%nat 0%nat))
  else Err ValueError.

(** fMPS.py:976-977, rho of a product state (bond_dimension = 1): the list of the
    one-site matrices. *)
Definition mps_rho_list (S : setio) (m : fmps R) (sites : list nat) : res (list (mat R)) :=
  mapM (fun i =>
    do A <- getitem (fdata m) i;
    do v <- squeeze_site A;
    do w <- squeeze_site (site_conj A);
    do T <- ncon S [v; w] [[(-1)%Z]; [(-2)%Z]] None None false;
    Ok (mkMat (nth 0 (tsh T) 0%nat) (nth 1 (tsh T) 0%nat) (fun r c => te T [r; c]))) sites.

(** fMPS.py:281-282, the property bond_dimension (max of an empty list raises
    ValueError; simplified to 0 here). *)
Definition bond_dimension (m : fmps R) : nat :=
  list_max (map (fun A => Nat.max (dl A) (dr A)) (fdata m)).

(** fMPS.py:755-764, local_overlap: the value and both (mutated) objects. *)
Definition mps_local_overlap (S : setio) (O : lapack R) (a b : fmps R) (sites : list nat)
    : res (R * fmps R * fmps R) :=
  if Nat.eqb (bond_dimension a) 1
  then do r <- mps_rho_list S a sites; do vb <- mps_Ek_string S O b r sites; Ok (fst vb, a, snd vb)
  else if Nat.eqb (bond_dimension b) 1
  then do r <- mps_rho_list S b sites; do va <- mps_Ek_string S O a r sites; Ok (fst va, snd va, b)
  else do rb <- mps_rho S O b sites; do va <- mps_Ek S O a (fst rb) sites; Ok (fst va, snd va, snd rb).

End Model.
