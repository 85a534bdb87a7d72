(** The chain of three sites of ExTdvp with its Hamiltonian as one matrix.  No counterpart in /repo. *)
From Coq Require Import QArith Qcanon.
From Verif Require Import Alg QScalars ModelMPS SpecMPS ModelOrth Oracle ExOrth ModelNcon SpecNcon PropNcon ModelEk SpecEk ModelNp SpecEnergy ModelEnergy ModelTan SpecTan ExTan
  ModelTdvp SpecTdvp ExTdvp ModelFull SpecFull.
Local Open Scope nat_scope.

Definition tdTerm (k : nat) : mat Qi := nth k tdH (qmat 0 0 []).
(** The sum of the two terms on the whole chain. *)
Definition tdFull : mat Qi := mkMat 8 8 (fun i j =>
  sadd (if Nat.eqb (i mod 2) (j mod 2) then me (tdTerm 0) (i / 2) (j / 2) else q0)
       (if Nat.eqb (i / 4) (j / 4) then me (tdTerm 1) (i mod 4) (j mod 4) else q0)).

Definition cfgs : list (list nat) := concat (map (fun a => concat (map (fun b => map (fun c => [a; b; c]) [0; 1]) [0; 1])) [0; 1]).
Lemma cfgs_all w : incfg (repeat 2 3) w -> In w cfgs.
Proof.
  intros H. inversion H as [|x ? w1 ? H1 H2]; subst. inversion H2 as [|y ? w2 ? H3 H4]; subst. inversion H4 as [|z ? w3 ? H5 H6]; subst. inversion H6; subst.
  destruct x as [|[|]]; [| |lia]; destruct y as [|[|]]; try lia; destruct z as [|[|]]; try lia; cbn; tauto.
Qed.
Lemma tdFull_of : full_of 2 3 tdH tdFull.
Proof.
  split; [reflexivity|]. split; [reflexivity|]. intros w w' Hw Hw'. apply cfgs_all in Hw, Hw'.
  assert (G : forallb (fun w => forallb (fun w' => Qi_eqb (block_op 2 tdFull w w') (suml (map (fun kh => local_op 2 (fst kh) (snd kh) w w') (combine (seq 0 (length tdH)) tdH)))) cfgs) cfgs = true) by (vm_compute; reflexivity).
  rewrite forallb_forall in G. specialize (G w Hw). rewrite forallb_forall in G. specialize (G w' Hw'). apply Qi_eqb_eq. exact G.
Qed.
Lemma tdFull_hermitian : hermitian_op tdFull.
Proof. intros i j Hi Hj. cbn in Hi, Hj. assert (G : forallb (fun i => forallb (fun j => Qi_eqb (me tdFull j i) (sconj (me tdFull i j))) (seq 0 8)) (seq 0 8) = true) by (vm_compute; reflexivity).
  rewrite forallb_forall in G. specialize (G i ltac:(apply in_seq; lia)). rewrite forallb_forall in G. apply Qi_eqb_eq, G. apply in_seq. lia. Qed.
Definition tdMf := the exX (dA_dt_full tdK setA (qi 0 1) exX tdFull None).
Lemma tdf_run : dA_dt_full tdK setA (qi 0 1) exX tdFull None = Ok tdMf /\
  qlist_eqb (concat (map show (fdata tdMf)))
    [qi 0 (96#3125); qi 0 (-72#3125);  q0; q0; q0; q0;
     qi (752#625) (-27076#15625); qi (-423#1250) (-162#15625); qi (336#625) (11607#15625); qi (168#625) (-4566#15625)] = true.
Proof. split; [apply the_ok; vm_compute; reflexivity|]. vm_compute; reflexivity. Qed.
