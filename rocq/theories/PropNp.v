(** C46: grouping the legs of a tensor and ungrouping them again. *)
From Coq Require Import ZArith Permutation.
From Verif Require Import Alg ModelMPS ModelNcon ModelEk SpecTensor ModelNp SpecNp ProofNp.

(** The grouped tensor: sizes are the products of the sizes of the grouped legs, and the entry
    at the grouped index is the entry at the original index. *)
Theorem C46_group : forall (R : sring) (T : tens R) (legs : list (list nat)),
  partition_of (length (tsh T)) legs -> ~ In [] legs ->
  exists T' pipe, group_legs T legs = Ok (T', pipe) /\
    tsh T' = map (fun l => fold_right Nat.mul 1 (sizes (tsh T) l)) legs /\
    forall idx, incfg (tsh T) idx -> te T' (map (group_index (tsh T) idx) legs) = te T idx.
Proof. intros R T legs Hp Hn. destruct (group_ok T legs Hp Hn) as (T' & E & S & V). exists T', (concat legs, map (sizes (tsh T)) legs). now split. Qed.
Print Assumptions C46_group.

(** ungroup_legs undoes group_legs. *)
Theorem C46_roundtrip : forall (R : sring) (T T' : tens R) (legs : list (list nat)) pipe,
  partition_of (length (tsh T)) legs -> ~ In [] legs -> group_legs T legs = Ok (T', pipe) ->
  exists T'', ungroup_legs T' pipe = Ok T'' /\ tens_eq T'' T.
Proof. intros R T T' legs pipe Hp Hn E. exact (ungroup_ok T T' legs pipe E Hp Hn). Qed.
Print Assumptions C46_roundtrip.

(** Legs that are not a partition, and empty groups, raise. *)
Theorem C46_errors : forall (R : sring) (T : tens R) (legs : list (list nat)),
  (~ partition_of (length (tsh T)) legs -> group_legs T legs = Err ValueError) /\
  (partition_of (length (tsh T)) legs -> In [] legs -> group_legs T legs = Err TypeError).
Proof. intros R T legs. split; [exact (group_bad T legs)|exact (group_empty T legs)]. Qed.
Print Assumptions C46_errors.

(** inverse_transpose inverts permutations. *)
Theorem C46_inverse : forall (n : nat) (perm : list nat), Permutation perm (seq 0 n) ->
  exists inv, inverse_transpose perm = Ok inv /\ Permutation inv (seq 0 n) /\
    (forall k, k < n -> nth (nth k perm 0) inv 0 = k) /\ (forall k, k < n -> nth (nth k inv 0) perm 0 = k).
Proof. intros n perm Hp. exact (inverse_ok perm n Hp). Qed.
Print Assumptions C46_inverse.

(** A tensor with sizes 2, 3, 4 and its last and first legs grouped. *)
Definition T46 : tens Zi := mkT [2; 3; 4] (fun idx => zi (Z.of_nat (ravel [2; 3; 4] idx)) 0).
Example C46_example : partition_of (length (tsh T46)) [[2; 0]; [1]] /\ ~ In [] [[2; 0]; [1]] /\
  exists T', group_legs T46 [[2; 0]; [1]] = Ok (T', ([2; 0; 1], [[4; 2]; [3]])) /\ tsh T' = [8; 3] /\ te T' [7; 1] = te T46 [1; 1; 3].
Proof.
  split; [apply (perm_of_check [2; 0; 1] 3); reflexivity|]. split; [intros [H|[H|[]]]; discriminate|].
  eexists. split; [reflexivity|]. split; reflexivity.
Qed.
