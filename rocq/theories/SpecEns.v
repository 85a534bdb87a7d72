(** Specification: the energy of a state under a Hamiltonian given in either form. *)
From Verif Require Import Alg ModelMPS SpecMPS SpecOrth SpecEk SpecEnergy ModelEns.

Section Spec.
Context {R : sring}.
Local Open Scope sr_scope.

(** <psi|psi>. *)
Definition sq_norm (m : fmps R) : R := sumcfg (dims (fdata m)) (fun s => psi m s * sconj (psi m s)).

(** <psi|H|psi>. *)
Definition ham_mean (m : fmps R) (h : hamil R) : R :=
  match h with
  | HFull H => sumcfg (dims (fdata m)) (fun s => sumcfg (dims (fdata m)) (fun t =>
                 sconj (psi m s) * block_op (fd m) H s t * psi m t))
  | HTerms H => total_energy (fd m) m H
  end.

(** The number v is reported for a mean value e on L sites: a full Hamiltonian gives the
    total, a list of terms gives the energy per site. *)
Definition reports (h : hamil R) (L : nat) (v e : R) : Prop :=
  match h with HFull _ => v = e | HTerms _ => sofnat L * v = e end.

(** The Hamiltonian has the size of a chain of L sites of dimension d. *)
Definition ham_size (L d : nat) (h : hamil R) : Prop :=
  match h with
  | HFull H => mr H = Nat.pow d L /\ mc H = Nat.pow d L
  | HTerms H => (length H < L)%nat /\ Forall (fun t => mr t = (d * d)%nat /\ mc t = (d * d)%nat) H
  end.
End Spec.
