(** Property theorems C108: transposing, mirroring and rotating matrix product operators. *)
From Coq Require Import ZArith.
From Verif Require Import Alg ModelMPS SpecMPS ModelNcon SpecNcon PropNcon ModelEk ExEk ModelNp ModelTensor ModelDecomp ModelPeps SpecTensor SpecPeps ExPeps ModelMpo ProofMpo.
Import ListNotations.
Local Open Scope nat_scope.
Local Open Scope sr_scope.

(** transpose_ud() exchanges the two sides of the operator. *)
Theorem C108_transpose_ud : forall (R : sring) (m : mpo R), mpo_ok (odata m) ->
  exists q, mpo_transpose_ud m = Ok q /\ mpo_ok (odata q) /\ length (odata q) = length (odata m) /\ oL q = oL m /\ od q = od m /\ oX q = oX m /\
    map (leg 0) (odata q) = map (leg 2) (odata m) /\ map (leg 2) (odata q) = map (leg 0) (odata m) /\
    forall us ds, mop (odata q) us ds = mop (odata m) ds us.
Proof. exact (@mpo_ud_spec). Qed.
Print Assumptions C108_transpose_ud.

(** The matrix is the transpose, without conjugation. *)
Theorem C108_matrix : forall (R : sring) S (m : mpo R), setio_ok S -> mpo_ok (odata m) -> oL m = length (odata m) -> (1 < oL m)%nat ->
  exists q M N, mpo_transpose_ud m = Ok q /\ mpo_recombine S m = Ok M /\ mpo_recombine S q = Ok N /\ mat_eq N (mtr M).
Proof. exact (@mpo_ud_matrix). Qed.
Print Assumptions C108_matrix.

(** transpose_lr().reverse() is the operator with its sites in the opposite order. *)
Theorem C108_mirror : forall (R : sring) (m : mpo R), mpo_ok (odata m) ->
  exists q, mpo_transpose_lr m = Ok q /\ mpo_ok (odata (mpo_reverse q)) /\ length (odata (mpo_reverse q)) = length (odata m) /\
    oL (mpo_reverse q) = oL m /\ od (mpo_reverse q) = od m /\ oX (mpo_reverse q) = oX m /\
    (forall us ds, length us = length (odata m) -> length ds = length (odata m) -> mop (odata (mpo_reverse q)) (rev us) (rev ds) = mop (odata m) us ds).
Proof. exact (@mpo_mirror_spec). Qed.
Print Assumptions C108_mirror.

(** Not so for reverse() or transpose_lr() alone: the bonds no longer fit. *)
Theorem C108_mirror_refuted : exists m q : mpo Zi, mpo_ok (odata m) /\ ~ mpo_ok (odata (mpo_reverse m)) /\ mpo_transpose_lr m = Ok q /\ ~ mpo_ok (odata q).
Proof.
  exists mB. eexists. split; [split; [discriminate|intros n Hn; do 3 (destruct n as [|n]; [split; reflexivity|]); cbn in Hn; lia]|].
  split; [intros [_ K]; specialize (K 1%nat ltac:(cbn; lia)); cbn in K; destruct K; discriminate|]. split; [reflexivity|].
  intros [_ K]. specialize (K 1%nat ltac:(cbn; lia)). cbn in K. destruct K. discriminate.
Qed.
Print Assumptions C108_mirror_refuted.

(** unrotate_90() undoes rotate_90(); L and d are those of the arrays, whatever was recorded. *)
Theorem C108_rotate : forall (R : sring) (m : mpo R), mpo_ok (odata m) ->
  exists q r, mpo_rotate_90 m = Ok q /\ mpo_unrotate_90 q = Ok r /\ Forall2 (permuted [3; 0; 1; 2]%nat) (odata m) (odata q) /\
    Forall2 (fun A B => tsh B = tsh A /\ forall i, length i = 4%nat -> te B i = te A i) (odata m) (odata r) /\
    oL q = length (odata m) /\ oL r = length (odata m) /\ od q = leg 3 (nth 0 (odata m) (mkT [] (fun _ => 0))) /\ od r = leg 0 (nth 0 (odata m) (mkT [] (fun _ => 0))).
Proof. exact (@mpo_rotate_spec). Qed.
Print Assumptions C108_rotate.

(** random(L, d, X) is an operator with open ends on max(2, L) sites of dimension d. *)
Theorem C108_random : forall (R : sring) (draw : nat -> list nat -> R) L d X, let m := mpo_random draw L d X in
  mpo_ok (odata m) /\ length (odata m) = Nat.max 2 L /\ oL m = L /\ od m = d /\ oX m = X /\ leg 3 (nth 0 (odata m) (mkT [] (fun _ => 0))) = 1%nat /\
  map (leg 0) (odata m) = repeat d (length (odata m)) /\ map (leg 2) (odata m) = repeat d (length (odata m)).
Proof. exact (@mpo_random_spec). Qed.
Print Assumptions C108_random.

(** So the recorded length is wrong for one site. *)
Theorem C108_random_refuted : exists L d X, forall draw : nat -> list nat -> Zi, (0 < L)%nat /\ length (odata (mpo_random draw L d X)) <> oL (mpo_random draw L d X).
Proof. exists 1%nat, 2%nat, 2%nat. intros draw. split; [lia|]. cbn. lia. Qed.
Print Assumptions C108_random_refuted.

(** trivial(L): the number one. *)
Theorem C108_trivial : forall (R : sring) L, let data := @mpo_trivial_data R L in
  mpo_ok data /\ length data = Nat.max 2 L /\ forall us ds, mop data us ds = 1.
Proof. exact (@mpo_trivial_spec). Qed.
Print Assumptions C108_trivial.

(** * Example: a ring of three arrays with bonds 2, 2, 3 that is not symmetric *)
Example C108_example : setio_ok setA /\ mpo_ok (odata mA) /\ oL mA = length (odata mA) /\ (1 < oL mA)%nat /\
  mop (odata mA) [0;1;1]%nat [1;0;1]%nat <> mop (odata mA) [1;0;1]%nat [0;1;1]%nat /\
  mop (odata mA) [0;1;1]%nat [1;0;1]%nat <> mop (odata mA) [1;1;0]%nat [1;0;1]%nat.
Proof.
  split; [exact setA_ok|]. split; [split; [discriminate|intros n Hn; do 3 (destruct n as [|n]; [split; reflexivity|]); cbn in Hn; lia]|].
  split; [reflexivity|]. split; [cbn; lia|]. split; vm_compute; discriminate.
Qed.
