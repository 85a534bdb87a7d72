(** Executable scalars with division: Gaussian rationals.  No counterpart in
    /repo; used for examples and refutations. *)
From Coq Require Import QArith Qcanon.
From Verif Require Import Alg.

Lemma Qcdouble (x : Qc) : Qcopp x = x -> x = 0%Qc.
Proof.
  intros H.
  assert (E : ((1 + 1) * x = 0)%Qc).
  { replace ((1 + 1) * x)%Qc with (x + x)%Qc by ring. rewrite <- H at 1. ring. }
  destruct (Qcmult_integral _ _ E) as [H1|H1]; [discriminate H1|exact H1].
Qed.

(** Gaussian rationals: executable scalars for examples with division. *)
Definition Qi : sring :=
  pair_sring Qc 0%Qc 1%Qc Qcplus Qcmult Qcminus Qcopp Qcrt Qcdouble.

(** Decidable equality. *)
Definition Qi_eqb (x y : Qi) : bool :=
  Qeq_bool (this (fst x)) (this (fst y)) && Qeq_bool (this (snd x)) (this (snd y)).

Lemma Qi_eqb_eq x y : Qi_eqb x y = true -> x = y.
Proof.
  unfold Qi_eqb. destruct x, y; simpl. intros H. apply andb_prop in H as [H1 H2].
  apply Qeq_bool_eq in H1, H2. apply Qc_is_canon in H1, H2. subst; reflexivity.
Qed.

(** Literals. *)
Definition qi (a b : Q) : Qi := (Q2Qc a, Q2Qc b).
