(** Model of mps_energies and deserialize of Trajectory (fTDVP.py). *)
From Verif Require Import Alg ModelMPS ModelStruct ModelOrth ModelCanon ModelNcon ModelEk ModelEnergy ModelTraj.

Section Model.
Context {R : sring}.
Local Open Scope sr_scope.

(** fTDVP.py:49-66: the attributes H and fullH of a trajectory: one matrix on the whole
    chain (fullH=True) or a list of two-site terms. *)
Inductive hamil : Type := HFull (H : mat R) | HTerms (H : list (mat R)).

(** fMPS.py:998-1012, energy with both values of fullH. *)
Definition energy_any (S : setio) (quot : R -> nat -> R) (m : fmps R) (h : hamil) : res R :=
  match h with
  | HTerms H => mps_energy S quot m H
  | HFull H => mps_EL S m H
  end.

(** fTDVP.py:508-511, mps_energies of a trajectory without an ed_history; h = None is
    self.H = None.  The states of mps_list are new objects, so left_canonicalise
    does not touch the trajectory. *)
Definition mps_energies (S : setio) (O : lapack2 R) (I : imag R) (quot : R -> nat -> R) (h : option hamil)
    (tr : traj R) : res (list R) :=
  match h with
  | None => Err AssertionError
  | Some h =>
      match thist tr with
      | [] => Err AssertionError
      | _ => do ms <- mps_list I tr;
             mapM (fun m => do m <- lcan O m None; energy_any S quot m h) ms
      end
  end.

(** fTDVP.py:521-523, Trajectory.deserialize: every entry is read with the bond
    dimension the current state has. *)
Definition traj_deserialize (I : imag R) (tr : traj R) : res (list (fmps R)) :=
  mapM (fun x => do st <- structure_LdD (fL (tmps tr)) (fd (tmps tr)) (fD (tmps tr)); deserialize_real I x st) (thist tr).
End Model.
Arguments hamil : clear implicits.
