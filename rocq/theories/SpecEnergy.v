(** Specification of environments and of the energy. *)
From Verif Require Import Alg ModelMPS SpecMPS SpecOrth SpecEk.

Section Spec.
Context {R : sring}.
Local Open Scope sr_scope.

(** The environments of a cut: what is left of the norm when the sites on one side
    of the cut are contracted with their conjugates. *)
Definition true_l (p : list (site R)) (x y : nat) : R :=
  sumcfg (dims p) (fun u => sconj (amp p u 0 x) * amp p u 0 y).
Definition true_r (q : list (site R)) (x y : nat) : R :=
  sumcfg (dims q) (fun v => amp q v x 0 * sconj (amp q v y 0)).

(** All environments of a chain are diagonal: the chain is in canonical form up to
    the normalisation. *)
Definition envs_diagonal (l : list (site R)) : Prop :=
  forall p q a, l = p ++ q -> chain 1 p a -> forall x y, (x < a)%nat -> (y < a)%nat -> x <> y ->
    true_l p x y = 0 /\ true_r q x y = 0.

(** <psi| h |psi> for a two-site operator on the sites i, i+1 of a chain of sites of
    dimension d. *)
Definition bond_energy (d : nat) (m : fmps R) (i : nat) (h : mat R) : R :=
  expect (repeat d i) [d; d] (repeat d (length (fdata m) - i - 2)) (psi m) (block_op d h).
Definition total_energy (d : nat) (m : fmps R) (H : list (mat R)) : R :=
  suml (map (fun ih => bond_energy d m (fst ih) (snd ih)) (combine (seq 0 (length H)) H)).
End Spec.
