(** Specification vocabulary for grouping the legs of a tensor. *)
From Verif Require Import Alg ModelMPS ModelNcon SpecTensor.
From Coq Require Import Permutation.

(** The groups are a partition of the n legs, in any order. *)
Definition partition_of (n : nat) (legs : list (list nat)) : Prop := Permutation (concat legs) (seq 0 n).

(** The sizes of the legs of one group, the position of an index within a group, and the
    index of the grouped tensor. *)
Definition sizes (sh leg : list nat) : list nat := map (fun l => nth l sh 0) leg.
Definition group_index (sh idx leg : list nat) : nat := position (sizes sh leg) (sizes idx leg).
