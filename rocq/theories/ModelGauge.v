(** Model of fMPS.py:173-209 (indexing and comparison), 702-707 (entanglement_entropy),
    1253-1266 (match_gauge_to) and 2186-2216 (vfMPS). *)
From Verif Require Import Alg ModelMPS ModelOrth ModelCanon.

Section Model.
Context {R : sring}.
Local Open Scope sr_scope.

(** fMPS.py:173-178, __call__: item k+1, although the docstring says 1-based. *)
Definition mps_call (m : fmps R) (k : nat) : res (site R) := getitem (fdata m) (k + 1).

(** fMPS.py:180-185, __getitem__, for k >= 0. *)
Definition mps_getitem (m : fmps R) (k : nat) : res (site R) := getitem (fdata m) k.

(** fMPS.py:187-190, __setitem__, for key >= 0; the object is changed in place. *)
Definition mps_setitem (m : fmps R) (k : nat) (A : site R) : res (fmps R) :=
  do l <- setitem (fdata m) k A; Ok (with_data m l).

(** fMPS.py:192-198, __eq__; [close] is allclose on two tensors, which raises where the shapes
    do not broadcast. *)
Definition mps_eq (close : site R -> site R -> res bool) (a b : fmps R) : res bool :=
  do l <- mapM (fun x => close (fst x) (snd x)) (pyzip (fdata a) (fdata b)); Ok (forallb (fun x => x) l).

(** fMPS.py:200-205, __ne__. *)
Definition mps_ne (close : site R -> site R -> res bool) (a b : fmps R) : res bool :=
  do x <- mps_eq close a b; Ok (negb x).

(** fMPS.py:207-209, __len__. *)
Definition mps_len (m : fmps R) : nat := length (fdata m).

(** sum(A@cT(B), axis=0) of fMPS.py:1260 for two tensors; broadcasting of a physical axis of
    length one is not modelled. *)
Definition gauge_overlap (A B : site R) : res (mat R) :=
  if Nat.eqb (phys A) (phys B) && Nat.eqb (dr A) (dr B)
  then Ok (mkMat (dl A) (dl B) (fun i j => sum (phys A) (fun s => sum (dr A) (fun k => ent A s i k * sconj (ent B s j k)))))
  else Err ValueError.

(** The loop of match_gauge_to (fMPS.py:1259-1265) over the sites [ms]; [polar] is
    scipy.linalg.polar, None standing for LinAlgError. *)
Fixpoint gauge_loop (polar : mat R -> option (mat R * mat R)) (ms : list nat) (data other : list (site R)) : res (list (site R)) :=
  match ms with
  | [] => Ok data
  | i :: ms =>
      do A <- getitem data i;
      do B <- getitem other i;
      do M <- gauge_overlap A B;
      match polar M with
      | None => Err LinAlgError
      | Some (U, _) =>
          do A' <- site_lmul (mH U) A;
          do data <- setitem data i A';
          if Nat.ltb 0 i
          then do C <- getitem data (i - 1);
               do C' <- site_rmul C U;
               do data <- setitem data (i - 1) C';
               gauge_loop polar ms data other
          else gauge_loop polar ms data other
      end
  end.

(** fMPS.py:1253-1266, match_gauge_to; self and mps are taken to be different objects.  Only the
    data change, also where a flag says canonical. *)
Definition match_gauge_to (polar : mat R -> option (mat R * mat R)) (m other : fmps R) : res (fmps R) :=
  do data <- gauge_loop polar (rev (seq 0 (fL m))) (fdata m) (fdata other); Ok (with_data m data).

(** fMPS.py:702-707, entanglement_entropy: -LL@np.log(LL) with LL the entries of
    abs(diag(Ls[site])) above 1e-8; the argument thresh is not used by the code.  [abs], [above]
    and [log] are numpy's abs, the comparison with 1e-8 and the logarithm. *)
Definition entanglement_entropy (abs : R -> R) (above : R -> bool) (log : R -> R) (O : lapack2 R) (m : fmps R) (site_ : nat)
    : res (R * fmps R) :=
  do x <- left_canonicalise O m None true true;
  match snd x with
  | None => Err AttributeError
  | Some Ls =>
      do X <- getitem Ls site_;
      let LL := filter above (map (fun i => abs (me X i i)) (seq 0 (Nat.min (mr X) (mc X)))) in
      Ok (- suml (map (fun p => p * log p) LL), fst x)
  end.

(** The attributes of a vfMPS object: d and the list of pairs (L, G); None where the attribute was
    never set. *)
Record vfmps : Type := mkVf { vf_d : option nat; vf_data : option (list (mat R * site R)) }.

(** fMPS.py:2189-2198, vfMPS.__init__(data, d): L, d and D are set, data is not.  L and D are not
    used by the other methods and are left out. *)
Definition vf_init (data : option (list (mat R * site R))) (d : option nat) : res vfmps :=
  match data, d with
  | Some [], Some _ => Err ValueError
  | Some _, Some d => Ok (mkVf (Some d) None)
  | _, _ => Ok (mkVf None None)
  end.

(** fMPS.py:2200-2212, from_fMPS: swapaxes(dot(inv(L), A), 0, 1) is inv(L)@A.  The fMPS is
    canonicalised in place; [inv] is numpy.linalg.inv, None standing for LinAlgError. *)
Definition vf_from_fMPS (inv : mat R -> option (mat R)) (O : lapack2 R) (m : fmps R) : res (vfmps * fmps R) :=
  do x <- right_canonicalise O m None true true;
  match snd x with
  | None => Err AttributeError
  | Some Ls =>
      do l <- mapM (fun LA => match inv (fst LA) with
                              | None => Err LinAlgError
                              | Some Li => do G <- site_lmul Li (snd LA); Ok (fst LA, G)
                              end) (pyzip Ls (fdata (fst x)));
      Ok (mkVf (Some (fd m)) (Some l), fst x)
  end.

(** fMPS.py:2214-2216, to_fMPS: swapaxes(dot(L, G), 0, 1) is L@G. *)
Definition vf_to_fMPS (v : vfmps) : res (fmps R) :=
  match vf_data v with
  | None => Err AttributeError
  | Some l =>
      do data <- mapM (fun x => site_lmul (fst x) (snd x)) l;
      match vf_d v with None => Err AttributeError | Some d => fMPS_init data (Some d) None end
  end.
End Model.
Arguments vfmps : clear implicits.
