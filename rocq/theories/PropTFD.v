(** C52: thermofield doubles. *)
From Coq Require Import ZArith QArith Qcanon.
From Verif Require Import Alg QScalars Oracle ModelMPS SpecMPS ModelTFD SpecTFD ProofTFD.
Local Open Scope nat_scope.
Local Open Scope sr_scope.

(** symmetry exchanges the two halves of every index of every tensor; the amplitude of a
    configuration is that of the configuration with its halves exchanged. *)
Theorem C52_symmetry : forall (R : sring) (m : fmps R), square_dims (fdata m) -> wf m ->
  exists m', tfd_symmetry m = Ok m' /\ Forall2 exchanged (fdata m) (fdata m') /\ wf m' /\
    forall s, incfg (dims (fdata m)) s -> psi m' s = psi m (exch_cfg (dims (fdata m)) s).
Proof. intros R. exact symmetry_state. Qed.
Print Assumptions C52_symmetry.

(** A tensor with a dimension that is not a square makes it raise ValueError. *)
Theorem C52_symmetry_error : forall (R : sring) (m : fmps R) (A : site R),
  Forall (fun B => 0 < phys B /\ 0 < dl B /\ 0 < dr B)%nat (fdata m) ->
  In A (fdata m) -> ~ (is_square (phys A) /\ is_square (dl A) /\ is_square (dr A)) -> tfd_symmetry m = Err ValueError.
Proof. intros R. exact symmetry_err. Qed.
Print Assumptions C52_symmetry_error.

(** symmetry is an involution. *)
Theorem C52_involution : forall (R : sring) (m m' : fmps R), square_dims (fdata m) -> tfd_symmetry m = Ok m' ->
  exists m'', tfd_symmetry m' = Ok m'' /\ Forall2 site_eq (fdata m) (fdata m'').
Proof. intros R. exact symmetry_involution. Qed.
Print Assumptions C52_involution.

(** symmetrise adds the exchanged tensors to the given ones, and symmetry fixes its result. *)
Theorem C52_symmetrise_fixed : forall (R : sring) (m : fmps R), square_dims (fdata m) -> fdata m <> [] ->
  exists m' m'', tfd_symmetrise m = Ok m' /\
    Forall2 (fun A B => phys B = phys A /\ dl B = dl A /\ dr B = dr A /\ forall s i j, (s < phys A)%nat -> (i < dl A)%nat -> (j < dr A)%nat ->
      ent B s i j = ent A s i j + ent A (exch (phys A) s) (exch (dl A) i) (exch (dr A) j)) (fdata m) (fdata m') /\
    tfd_symmetry m' = Ok m'' /\ Forall2 site_eq (fdata m') (fdata m'').
Proof. intros R. exact symmetrise_fixed. Qed.
Print Assumptions C52_symmetrise_fixed.

(** The double of any MPS is fixed by symmetry ... *)
Theorem C52_double_fixed : forall (R : sring) (self m : fmps R), fdata m <> [] ->
  exists m', tfd_symmetry (tfd_from_fMPS self m) = Ok m' /\ Forall2 site_eq (fdata (tfd_from_fMPS self m)) (fdata m').
Proof. intros R. exact double_symmetry. Qed.
Print Assumptions C52_double_fixed.

(** ... and its amplitudes are the products of those of the MPS. *)
Theorem C52_double_amplitudes : forall (R : sring) (self m : fmps R), wf m ->
  wf (tfd_from_fMPS self m) /\ dims (fdata (tfd_from_fMPS self m)) = map (fun d => d * d)%nat (dims (fdata m)) /\
  forall s t, incfg (dims (fdata m)) s -> incfg (dims (fdata m)) t ->
    psi (tfd_from_fMPS self m) (pair_cfg (dims (fdata m)) s t) = psi m s * psi m t.
Proof. intros R. exact double_state. Qed.
Print Assumptions C52_double_amplitudes.

(** The double records the square of the local dimension. *)
Theorem C52_double_uniform : forall (R : sring) (self m : fmps R), uniform m -> uniform (tfd_from_fMPS self m).
Proof. intros R. exact double_uniform. Qed.
Print Assumptions C52_double_uniform.

(** symmetrise has no factor 1/2: it is not a projection onto symmetric tensors.  Applied to
    the double of an MPS it doubles every tensor, that is it multiplies the state by 2^L. *)
Theorem C52_symmetrise_double : forall (R : sring) (self m : fmps R), wf m ->
  exists m', tfd_symmetrise (tfd_from_fMPS self m) = Ok m' /\
    forall s t, incfg (dims (fdata m)) s -> incfg (dims (fdata m)) t ->
      psi m' (pair_cfg (dims (fdata m)) s t) = spow (1 + 1) (length (fdata m)) * (psi m s * psi m t).
Proof. intros R. exact symmetrise_double. Qed.
Print Assumptions C52_symmetrise_double.

(** A two-site chain with bond dimension 2 and its double. *)
Definition tfd_ex : fmps Qi :=
  mkF [qsite 2 1 2 [qi 1 0; qi 0 1; qi 2 0; qi 0 0]; qsite 2 2 1 [qi 1 1; qi 0 0; qi 0 0; qi 3 0]] 2 2 2 None None None None.
Example tfd_ex_wf : wf tfd_ex.
Proof. repeat split; cbn; try reflexivity. discriminate. Qed.
Example tfd_ex_square : square_dims (fdata (tfd_from_fMPS tfd_ex tfd_ex)).
Proof. apply double_square. Qed.
Example tfd_ex_values : Qi_eqb (psi (tfd_from_fMPS tfd_ex tfd_ex) [1; 2]%nat) (psi tfd_ex [0; 1]%nat * psi tfd_ex [1; 0]%nat) = true /\
  Qi_eqb (psi tfd_ex [0; 1]%nat * psi tfd_ex [1; 0]%nat) s0 = false.
Proof. split; vm_compute; reflexivity. Qed.

(** A tensor that symmetry does change. *)
Definition tfd_ex2 : fmps Qi := mkF [qsite 4 1 1 [qi 1 0; qi 2 0; qi 0 3; qi 4 0]] 1 4 1 None None None None.
Example tfd_ex2_square : square_dims (fdata tfd_ex2).
Proof. repeat constructor; cbn; [exists 2%nat|exists 1%nat|exists 1%nat]; reflexivity. Qed.
Example tfd_ex2_changes : match tfd_symmetry tfd_ex2 with Ok m => Qi_eqb (psi m [1]%nat) (psi tfd_ex2 [2]%nat) && negb (Qi_eqb (psi m [1]%nat) (psi tfd_ex2 [1]%nat)) | Err _ => false end = true.
Proof. vm_compute. reflexivity. Qed.
Example tfd_ex2_not_square : match tfd_symmetry tfd_ex with Err ValueError => true | _ => false end = true.
Proof. vm_compute. reflexivity. Qed.
