(** Specification vocabulary for right_transfer, rho_proj, random and isometries on two sites. *)
From Coq Require Import ZArith.
From Verif Require Import Alg ModelMPS SpecMPS ModelNcon ModelRest.

Section Spec.
Context {R : sring}.
Local Open Scope sr_scope.

(** f, a function of a ket and a bra bond index at the left end of the sites l, carried to
    their right end: the sum over all configurations and both bond indices on the left, the
    tensors on the ket side, their conjugates on the bra side. *)
Definition carried (D : nat) (l : list (site R)) (f : nat -> nat -> R) (p q : nat) : R :=
  sumcfg (dims l) (fun s => sum D (fun a => sum D (fun b => amp l s a p * sconj (amp l s b q) * f a b))).

(** The tensor with conjugated entries, and a chain in which the second, fourth, ... tensor
    is conjugated. *)
Definition csite (A : site R) : site R := mkSite (phys A) (dl A) (dr A) (fun s i j => sconj (ent A s i j)).
Fixpoint alternating (l : list (site R)) : list (site R) :=
  match l with [] => [] | A :: l => A :: map csite (alternating l) end.

(** No imaginary parts. *)
Definition real_sites (l : list (site R)) : Prop := Forall (fun A => forall s i j, sconj (ent A s i j) = ent A s i j) l.

(** The entries s, t of the partial trace of |phi><chi| over configurations u to the left
    and v to the right. *)
Definition partial (dsl dsr : list nat) (phi chi : list nat -> R) (s t : list nat) : R :=
  sumcfg dsl (fun u => sumcfg dsr (fun v => phi (u ++ s ++ v) * sconj (chi (u ++ t ++ v)))).

(** With an odd number of steps the two ends are exchanged. *)
Definition ends (n : nat) (g : nat -> nat -> R) (p q : nat) : R := if Nat.even n then g p q else g q p.

(** Two tensors of product states, with the same physical dimension. *)
Definition pairing (A B : site R) : Prop :=
  (dl A = 1%nat /\ dr A = 1%nat) /\ (dl B = 1%nat /\ dr B = 1%nat) /\ phys A = phys B /\ phys A <> 1%nat.

(** What the trigonometric functions satisfy. *)
Definition rng_ok (G : rng (R := R)) : Prop :=
  forall k, sconj (rn_cos G k) = rn_cos G k /\ sconj (rn_sin G k) = rn_sin G k /\
    rn_cos G k * rn_cos G k + rn_sin G k * rn_sin G k = 1 /\ rn_phase G k * sconj (rn_phase G k) = 1.
End Spec.
