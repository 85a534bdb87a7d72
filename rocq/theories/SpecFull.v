(** Specification of evolution with a Hamiltonian given as one matrix. *)
From Verif Require Import Alg ModelMPS SpecMPS SpecOrth ModelEk SpecEk SpecEnergy ModelEnergy ModelTan SpecTan ModelTdvp SpecTdvp.

Section Spec.
Context {R : sring}.
Local Open Scope sr_scope.

(** <l'| M |l> for a matrix on the whole chain. *)
Definition full_elem (d : nat) (l' l : list (site R)) (M : mat R) : R :=
  sumcfg (repeat d (length l)) (fun w => sumcfg (repeat d (length l)) (fun w' => sconj (state l' w) * block_op d M w w' * state l w')).

(** The gradient of <l|M|l> with respect to the conjugate of the entry (t, c, b) of site i. *)
Definition full_gradient (d : nat) (l : list (site R)) (M : mat R) (i : nat) (A : site R) (t c b : nat) : R :=
  full_elem d (with_site l i (unit_site A t c b)) l M.

(** <f| M |g> for functions f and g on the configurations of n sites. *)
Definition full_between (d n : nat) (f : list nat -> R) (M : mat R) (g : list nat -> R) : R :=
  sumcfg (repeat d n) (fun w => sumcfg (repeat d n) (fun w' => sconj (f w) * block_op d M w w' * g w')).

(** Matrix elements of h on the sites k, k+1 and the identity elsewhere. *)
Definition local_op (d k : nat) (h : mat R) (w w' : list nat) : R :=
  if list_eq_dec Nat.eq_dec (firstn k w ++ skipn (k + 2) w) (firstn k w' ++ skipn (k + 2) w')
  then block_op d h (firstn 2 (skipn k w)) (firstn 2 (skipn k w')) else 0.

(** M is the sum of the terms of H, the k-th one on the sites k, k+1. *)
Definition full_of (d n : nat) (H : list (mat R)) (M : mat R) : Prop :=
  mr M = Nat.pow d n /\ mc M = Nat.pow d n /\
  forall w w', incfg (repeat d n) w -> incfg (repeat d n) w' ->
    block_op d M w w' = suml (map (fun kh => local_op d (fst kh) (snd kh) w w') (combine (seq 0 (length H)) H)).
End Spec.
