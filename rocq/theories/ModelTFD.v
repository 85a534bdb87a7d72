(** Model of the thermofield doubles of /repo/xmps/fMPS.py:2019-2130. *)
From Verif Require Import Alg ModelMPS ModelNcon ModelEk ModelNp.

Section Model.
Context {R : sring}.
Local Open Scope sr_scope.

(** numpy.kron of two arrays with three axes (fMPS.py:2089, 2099). *)
Definition kron_site (A B : site R) : site R :=
  mkSite (phys A * phys B)%nat (dl A * dl B)%nat (dr A * dr B)%nat (fun s i j =>
    ent A (s / phys B)%nat (i / dl B)%nat (j / dr B)%nat * ent B (s mod phys B)%nat (i mod dl B)%nat (j mod dr B)%nat).

(** fMPS.py:2097-2103, from_fMPS on an object self. *)
Definition tfd_from_fMPS (self mps : fmps R) : fmps R :=
  mkF (map (fun a => kron_site a a) (fdata mps)) (fL mps) (fd mps ^ 2)%nat (fD mps ^ 2)%nat (fcan self) (forth self) (foc self) (fnorm self).

(** The element of fMPS.py:2124-2127 for one tensor: int(sqrt(n)) is the integer square
    root; reshape raises ValueError if the sizes differ. *)
Definition sym_site (X : site R) : res (site R) :=
  let p := Nat.sqrt (phys X) in let a := Nat.sqrt (dl X) in let b := Nat.sqrt (dr X) in
  do T <- reshape_ [p; p; a; a; b; b] (tens_site X);
  do T <- transpose_ [1; 0; 3; 2; 5; 4]%nat T;
  do T <- reshape_ [phys X; dl X; dr X] T;
  Ok (mkSite (phys X) (dl X) (dr X) (fun s i j => te T [s; i; j])).

(** fMPS.py:2123-2127, symmetry. *)
Definition tfd_symmetry (m : fmps R) : res (fmps R) :=
  do l <- mapM sym_site (fdata m);
  fMPS_init l None None.

(** fMPS.py:2129-2130, symmetrise (with __add__ of fMPS.py:2027-2033, itemwise). *)
Definition tfd_symmetrise (m : fmps R) : res (fmps R) :=
  do m' <- tfd_symmetry m;
  itemwise_add m m'.
End Model.
