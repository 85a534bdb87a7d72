(** Concrete effective Hamiltonians.  No counterpart in /repo. *)
From Coq Require Import QArith Qcanon.
From Verif Require Import Alg QScalars ModelMPS SpecMPS ModelOrth ModelNcon ModelEk ModelNp ModelQmb SpecQmb ModelEffh SpecEffh ExOrth PropHam.
Local Open Scope nat_scope.

(** the chain sm sp + sp sm on two sites *)
Definition exWs : list (tens Qi) := fMPO_heisenberg hamC 2 (qi 0 0) (qi 2 0) (qi 0 0).
Definition exW0 : tens Qi := nth 0 exWs (mkT [] (fun _ => s0)).
Definition exW1 : tens Qi := nth 1 exWs (mkT [] (fun _ => s0)).
Definition exA0 : site Qi := mkSite 2 1 2 (fun i _ y => if Nat.eqb i y then qi 1 0 else qi 0 0).
Definition exA1 : site Qi := mkSite 2 2 1 (fun i x _ => if Nat.eqb i x then qi 1 0 else qi 0 0).
(** the tensors of 01 and of 10 at the first site *)
Definition exB01 : site Qi := mkSite 2 1 2 (fun i _ y => if Nat.eqb i 0 && Nat.eqb y 1 then qi 1 0 else qi 0 0).
Definition exB10 : site Qi := mkSite 2 1 2 (fun i _ y => if Nat.eqb i 1 && Nat.eqb y 0 then qi 1 0 else qi 0 0).
Definition exV : tens Qi := mkT [4] (fun idx => match idx with [1] => qi 1 0 | _ => qi 0 0 end).

Lemma ex_fits0 : eff_fits 2 [] [exW1] exW0 [] [exA1] exA0 1 5.
Proof. unfold eff_fits. repeat split; try reflexivity; repeat constructor. exists 1. split; reflexivity. Qed.
Lemma ex_fits1 : eff_fits 2 [exW0] [] exW1 [exA0] [] exA1 5 1.
Proof. unfold eff_fits. repeat split; try reflexivity; repeat constructor. exists 5. split; reflexivity. Qed.

Definition eff0 : effh Qi := mkEff (mkT [] (fun _ => s0)) (mkT [] (fun _ => s0)) exA0 (mkT [] (fun _ => s0)).
Definition exE (k : nat) : effh Qi := the eff0 (get_envs exWs [exA0; exA1] k).
Lemma exE_ok k : k < 2 -> get_envs exWs [exA0; exA1] k = Ok (exE k).
Proof. intros H. apply the_ok. destruct k as [|[|]]; [vm_compute; reflexivity|vm_compute; reflexivity|lia]. Qed.
Definition exM (k : nat) : tens Qi := the (mkT [] (fun _ => s0)) (eff_matrix (exE k)).
Lemma exM_ok k : k < 2 -> eff_matrix (exE k) = Ok (exM k).
Proof. intros H. apply the_ok. destruct k as [|[|]]; [vm_compute; reflexivity|vm_compute; reflexivity|lia]. Qed.
Definition exY : tens Qi := the (mkT [] (fun _ => s0)) (eff_apply (exE 1) exV).
Lemma exY_ok : eff_apply (exE 1) exV = Ok exY.
Proof. apply the_ok. vm_compute. reflexivity. Qed.

Lemma ex_quad : quad (exM 0) exB01 exB10 <> mpo_elem 2 exWs [exB01; exA1] [exB10; exA1].
Proof. intros K. apply (f_equal (fun z => Qi_eqb z (qi 0 0))) in K. vm_compute in K. discriminate. Qed.
Lemma ex_mv : te exY [1] <> sum 4 (fun j => smul (te (exM 1) [1; j]) (te exV [j])).
Proof. intros K. apply (f_equal (fun z => Qi_eqb z (qi 0 0))) in K. vm_compute in K. discriminate. Qed.

Definition exC01 : site Qi := mkSite 2 2 1 (fun i x _ => if Nat.eqb i 0 && Nat.eqb x 1 then qi 1 0 else qi 0 0).
Definition exC10 : site Qi := mkSite 2 2 1 (fun i x _ => if Nat.eqb i 1 && Nat.eqb x 0 then qi 1 0 else qi 0 0).
