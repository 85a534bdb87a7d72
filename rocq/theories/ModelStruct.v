(** Model of the structure, serialisation and storage functions of
    /repo/xmps/fMPS.py. *)
From Verif Require Import Alg ModelMPS.

(** fMPS.py:448-452, transpose inside create_structure. *)
Definition transpose_tups (l : list (nat * nat)) : list (nat * nat) :=
  map (fun t => (snd t, fst t)) l.

(** l[-1] on a Python list (fMPS.py:456); IndexError on the empty list. *)
Definition last_item {A} (l : list A) : res A :=
  match rev l with [] => Err IndexError | x :: _ => Ok x end.

(** fMPS.py:436-461, create_structure (phys=False). *)
Definition create_structure (L d : nat) (D : option nat) : res (list (nat * nat)) :=
  let D := match D with None => d ^ L | Some D => D end in
  let left := map (fun n => (Nat.min (d ^ n) D, Nat.min (d ^ (n + 1)) D)) (seq 0 (L / 2)) in
  if Nat.eqb (L mod 2) 0
  then Ok (left ++ transpose_tups (rev left))
  else do a <- last_item left;
       do b <- getitem (transpose_tups (rev left)) 0;
       Ok (left ++ [(snd a, fst b)] ++ transpose_tups (rev left)).

Section Model.
Context {R : sring}.
Local Open Scope sr_scope.

(** An array shape (d, Dl, Dr). *)
Definition shape3 : Type := (nat * nat * nat)%type.

(** prod(shape) (fMPS.py:1036). *)
Definition size3 (sh : shape3) : nat := (fst (fst sh) * snd (fst sh) * snd sh)%nat.

(** x.shape (fMPS.py:1053). *)
Definition shape_of (A : site R) : shape3 := (phys A, dl A, dr A).

(** a.reshape(-1): the entries in row-major order (fMPS.py:1016). *)
Definition flatten (A : site R) : list R :=
  flat_map (fun s => flat_map (fun i => map (fun j => ent A s i j) (seq 0 (dr A)))
                              (seq 0 (dl A))) (seq 0 (phys A)).

(** vec.reshape(shape): ValueError when the sizes differ (fMPS.py:1036). *)
Definition reshape3 (l : list R) (sh : shape3) : res (site R) :=
  let '(d, a, b) := sh in
  if Nat.eqb (length l) (d * a * b)
  then Ok (mkSite d a b (fun s i j => nth ((s * a + i) * b + j)%nat l 0))
  else Err ValueError.

(** fMPS.py:1014-1017, serialize(real=False): concatenate needs one array. *)
Definition serialize (m : fmps R) : res (list R) :=
  match fdata m with
  | [] => Err ValueError
  | data => Ok (flat_map flatten data)
  end.

(** Real and imaginary parts of an array (vec.real, vec.imag) and 1j. *)
Record imag : Type := mkImag { im_part : R -> R; im_unit : R }.

(** fMPS.py:1018-1019, serialize(real=True). *)
Definition serialize_real (I : imag) (m : fmps R) : res (list R) :=
  do v <- serialize m; Ok (map sre v ++ map (im_part I) v).

(** chop(vec, 2): numpy.split in two equal parts, ValueError if odd (fMPS.py:1032). *)
Definition chop2 (v : list R) : res (list R * list R) :=
  if Nat.eqb (length v mod 2) 0
  then Ok (firstn (length v / 2) v, skipn (length v / 2) v) else Err ValueError.

(** fMPS.py:1034-1038: the loop of deserialize over the shapes. *)
Fixpoint deserialize_loop (vec : list R) (structure : list shape3) : res (list (site R)) :=
  match structure with
  | [] => Ok []
  | sh :: st =>
      do A <- reshape3 (firstn (size3 sh) vec) sh;
      do rest <- deserialize_loop (skipn (size3 sh) vec) st;
      Ok (A :: rest)
  end.

(** fMPS.py:1022-1040, deserialize with a structure. *)
Definition deserialize (vec : list R) (structure : list shape3) : res (fmps R) :=
  do data <- deserialize_loop vec structure; fMPS_init data None None.

(** fMPS.py:1031-1032, deserialize with real=True: x + 1j*y. *)
Definition deserialize_real (I : imag) (vec : list R) (structure : list shape3) : res (fmps R) :=
  do xy <- chop2 vec;
  deserialize (map (fun p => fst p + im_unit I * snd p) (combine (fst xy) (snd xy))) structure.

(** fMPS.py:1033-1034: the structure from L, d, D. *)
Definition structure_LdD (L d D : nat) : res (list shape3) :=
  do st <- create_structure L d (Some D);
  Ok (map (fun x => (d, fst x, snd x)) st).

(** Integers stored in and read from a numeric file: array([..]) and
    int(re(x)) / astype(int) (fMPS.py:1051, 1062-1063, 1069). *)
Record numio : Type := mkIO { of_nat : nat -> R; to_nat : R -> nat }.

(** fMPS.py:1042-1056, store: the array written to the file. *)
Definition store (N : numio) (m : fmps R) (structured : bool) : res (list R) :=
  if structured
  then do v <- serialize m;
       let st := flat_map (fun A => [phys A; dl A; dr A]) (fdata m) in
       Ok (map (of_nat N) (length st :: st) ++ v)
  else do v <- serialize m;
       Ok (map (of_nat N) [fL m; fd m; fD m] ++ v).

(** [tuple(st[3*i:3*(i+1)]) for i in range(n)] (fMPS.py:1064); a tuple of
    another length is rejected by reshape. *)
Fixpoint triples (n : nat) (st : list nat) : res (list shape3) :=
  match n with
  | O => Ok []
  | S n => match st with
           | a :: b :: c :: st => do r <- triples n st; Ok ((a, b, c) :: r)
           | _ => Err ValueError
           end
  end.

(** fMPS.py:1058-1070, load. *)
Definition load (N : numio) (file : list R) (structured : bool) : res (fmps R) :=
  if structured
  then do x <- getitem file 0;
       let L := to_nat N x in
       do st <- triples (L / 3) (map (to_nat N) (firstn L (skipn 1 file)));
       deserialize (skipn (L + 1) file) st
  else match firstn 3 file with
       | [a; b; c] =>
           do st <- structure_LdD (to_nat N a) (to_nat N b) (to_nat N c);
           deserialize (skipn 3 file) st
       | _ => Err ValueError
       end.

End Model.
Arguments numio : clear implicits.
Arguments imag : clear implicits.
