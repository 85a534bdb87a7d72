(** Model of the zero-padding functions of /repo/xmps (expand, mps_pad). *)
From Verif Require Import Alg ModelMPS ModelStruct ModelOrth ModelCanon.

Section Model.
Context {R : sring}.
Local Open Scope sr_scope.

(** numpy.pad(A, [(0,0),(0,a),(0,b)], 'constant') for a, b >= 0 (fMPS.py:1113,
    tensor.py:327-336). *)
Definition pad_site (A : site R) (a b : nat) : site R :=
  mkSite (phys A) (dl A + a) (dr A + b)
    (fun s i j => if Nat.ltb i (dl A) && Nat.ltb j (dr A) then ent A s i j else 0).

(** The same with integer pads: ValueError for a negative one (fMPS.py:1113). *)
Definition pad_siteZ (A : site R) (a b : Z) : res (site R) :=
  if (a <? 0)%Z || (b <? 0)%Z then Err ValueError
  else Ok (pad_site A (Z.to_nat a) (Z.to_nat b)).

(** fMPS.py:727-729, structure: [x[0].shape] (no empty physical axis). *)
Definition structure (m : fmps R) : list (nat * nat) := map (fun A => (dl A, dr A)) (fdata m).

(** fMPS.py:1112-1113: the loop of expand over zip(structure, new structure);
    tensors beyond the shorter list stay. *)
Fixpoint pad_loop (data : list (site R)) (st : list (nat * nat)) : res (list (site R)) :=
  match data, st with
  | A :: data, (a, b) :: st =>
      do A <- pad_siteZ A (Z.of_nat a - Z.of_nat (dl A)) (Z.of_nat b - Z.of_nat (dr A));
      do rest <- pad_loop data st;
      Ok (A :: rest)
  | _, _ => Ok data
  end.

(** fMPS.py:1108-1115, expand.  The canonicalisation returns the object. *)
Definition expand (O : lapack2 R) (m : fmps R) (D_ : nat) : res (fmps R) :=
  do st <- create_structure (fL m) (fd m) (Some D_);
  do data <- pad_loop (fdata m) st;
  do r <- left_canonicalise O
            (mkF data (fL m) (fd m) D_ (fcan m) (forth m) (foc m) (fnorm m)) None true false;
  Ok (fst r).

(** tensor.py:313-337, the body of the loop of mps_pad for one site: shapes
    (a1,b1) of the first and (a2,b2) of the second tensor. *)
Definition mps_pad_site (A B : site R) : res (site R * site R) :=
  let p1 := (Z.of_nat (dl B) - Z.of_nat (dl A))%Z in
  let p2 := (Z.of_nat (dr B) - Z.of_nat (dr A))%Z in
  if (p1 <? 0)%Z || (p2 <? 0)%Z
  then if (p1 >? 0)%Z || (p2 >? 0)%Z
       then do A' <- pad_siteZ A (if (p1 >? 0)%Z then p1 else 0%Z) (if (p2 >? 0)%Z then p2 else 0%Z);
            do B' <- pad_siteZ B (if (p1 <? 0)%Z then - p1 else 0%Z)%Z (if (p2 <? 0)%Z then - p2 else 0%Z)%Z;
            Ok (A', B')
       else do B' <- pad_siteZ B (- p1) (- p2); Ok (A, B')
  else do A' <- pad_siteZ A p1 p2; Ok (A', B).

(** The loop of mps_pad over the zipped tensors. *)
Fixpoint mps_pad_loop (l1 l2 : list (site R)) : res (list (site R) * list (site R)) :=
  match l1, l2 with
  | A :: l1, B :: l2 =>
      do ab <- mps_pad_site A B;
      do r <- mps_pad_loop l1 l2;
      Ok (fst ab :: fst r, snd ab :: snd r)
  | _, _ => Ok (l1, l2)
  end.

(** list equality of two structures (tensor.py:314). *)
Fixpoint st_eqb (a b : list (nat * nat)) : bool :=
  match a, b with
  | [], [] => true
  | (x, y) :: a, (x', y') :: b => Nat.eqb x x' && Nat.eqb y y' && st_eqb a b
  | _, _ => false
  end.

(** tensor.py:306-339, mps_pad: both arguments are modified in place. *)
Definition mps_pad (m1 m2 : fmps R) : res (fmps R * fmps R) :=
  if negb (st_eqb (structure m1) (structure m2))
  then do r <- mps_pad_loop (fdata m1) (fdata m2);
       Ok (mkF (fst r) (fL m1) (fd m1) (fD m1) (fcan m1) (forth m1) (foc m1) (fnorm m1),
           mkF (snd r) (fL m2) (fd m2) (fD m2) (fcan m2) (forth m2) (foc m2) (fnorm m2))
  else Ok (m1, m2).

End Model.
