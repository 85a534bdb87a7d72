(** Specification vocabulary for C95 and C96: operators on one half of a doubled site; the two
    copies of a Hamiltonian. *)
From Verif Require Import Alg ModelMPS SpecMPS SpecEnergy SpecTFD SpecTdvp.

Section Spec.
Context {R : sring}.
Local Open Scope sr_scope.

(** Matrix elements of o on the first (lr = 0) or second half of an index x p + y. *)
Definition half_op (p lr : nat) (o : nat -> nat -> R) (s t : nat) : R :=
  if Nat.eqb lr 0 then o (s / p)%nat (t / p)%nat * dlt (s mod p)%nat (t mod p)%nat
  else dlt (s / p)%nat (t / p)%nat * o (s mod p)%nat (t mod p)%nat.

(** The two halves of every site exchanged leave the state as it is. *)
Definition exch_invariant (ds : list nat) (f : list nat -> R) : Prop := forall s, incfg ds s -> f (exch_cfg ds s) = f s.

(** <l'| h on the site k |l>. *)
Definition onsite_elem (d : nat) (l' l : list (site R)) (k : nat) (h : mat R) : R :=
  melem (repeat d k) [d] (repeat d (length l - k - 1)) (state l') (fun b b' => me h (nth 0 b 0%nat) (nth 0 b' 0%nat)) (state l).

(** The matrix element of h (x) 1 + 1 (x) h between two doubled sites, where the first h acts on
    the first halves a1, a2 and the other on the second halves b1, b2 of the sites
    a1 p + b1 and a2 p + b2. *)
Definition two_copies (p : nat) (h : mat R) (x1 x2 y1 y2 : nat) : R :=
  me h (x1 / p * p + x2 / p)%nat (y1 / p * p + y2 / p)%nat * (dlt (x1 mod p) (y1 mod p) * dlt (x2 mod p) (y2 mod p))
  + dlt (x1 / p) (y1 / p) * dlt (x2 / p) (y2 / p) * me h (x1 mod p * p + x2 mod p)%nat (y1 mod p * p + y2 mod p)%nat.

(** The array with the two halves of the physical index exchanged. *)
Definition phys_exch (X : site R) (s i j : nat) : R := ent X (exch (phys X) s) i j.
End Spec.
