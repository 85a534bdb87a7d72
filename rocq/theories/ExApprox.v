(** Concrete states for the averages of local overlaps.  No counterpart in /repo. *)
From Coq Require Import QArith Qcanon.
From Verif Require Import Alg QScalars ModelMPS SpecMPS ModelOrth SpecOrth Oracle ExOrth ModelNcon SpecNcon PropNcon ModelEk SpecEk ModelApprox SpecApprox.
Local Open Scope nat_scope.

Definition left_iso_b (A : site Qi) : bool := ball (dr A) (fun i => ball (dr A) (fun j =>
  Qi_eqb (sum (phys A) (fun s => sum (dl A) (fun k => smul (sconj (ent A s k i)) (ent A s k j)))) (dlt i j))).
Definition right_iso_b (A : site Qi) : bool := ball (dl A) (fun i => ball (dl A) (fun j =>
  Qi_eqb (sum (phys A) (fun s => sum (dr A) (fun k => smul (ent A s i k) (sconj (ent A s j k))))) (dlt i j))).
Lemma left_iso_b_sound A : left_iso_b A = true -> left_iso A.
Proof. intros H i j Hi Hj. apply Qi_eqb_eq. exact (ball_sound _ _ (ball_sound _ _ H i Hi) j Hj). Qed.
Lemma right_iso_b_sound A : right_iso_b A = true -> right_iso A.
Proof. intros H i j Hi Hj. apply Qi_eqb_eq. exact (ball_sound _ _ (ball_sound _ _ H i Hi) j Hj). Qed.

(** Three qubits, bonds 2 and 2, centre at site 1. *)
Definition apl : list (site Qi) :=
  [qsite 2 1 2 [qi (3#5) 0; qi 0 (4#5); qi (4#5) 0; qi 0 (-3#5)];
   qsite 2 2 2 [qi (1#2) 0; qi 0 0; qi 0 0; qi 0 (1#2); qi 0 0; qi (1#2) 0; qi (-1#2) 0; qi 0 0];
   qsite 2 2 1 [qi (4#5) 0; qi 0 (-3#5); qi (3#5) 0; qi 0 (4#5)]].
Definition apr : list (site Qi) :=
  [qsite 2 1 2 [qi 1 0; qi 0 0; qi 0 0; qi 0 1];
   qsite 2 2 2 [qi (1#3) 0; qi 0 (2#3); qi 0 0; qi 0 0; qi (2#3) 0; qi 0 0; qi 0 0; qi 0 0];
   qsite 2 2 1 [qi (3#5) 0; qi (4#5) 0; qi (4#5) 0; qi (-3#5) 0]].
Definition apA : fmps Qi := mkF apl 3 2 2 (Some false) (Some true) (Some 1) None.
Definition apB : fmps Qi := mkF apr 3 2 2 (Some false) (Some true) (Some 1) None.
Definition apdiv (x y : Qi) : option Qi :=
  if Qi_eqb y (qi 2 0) then let z := smul x (qi (1#2) 0) in if Qi_eqb (smul z y) x then Some z else None else None.
Lemma apdiv_ok x y z : apdiv x y = Some z -> smul z y = x.
Proof. unfold apdiv. destruct (Qi_eqb y _); [|discriminate]. destruct (Qi_eqb _ x) eqn:E; [|discriminate]. intros H; injection H as <-. now apply Qi_eqb_eq. Qed.

Lemma ap_settled : settled apA /\ settled apB.
Proof.
  assert (G : forall A B C, left_iso_b A = true -> right_iso_b C = true -> mixed_at 1 [A; B; C]).
  { intros A B C HA HC i X HX. destruct i as [|[|[|i]]]; cbn in HX; try (injection HX as <-).
    - split; [intros _; now apply left_iso_b_sound|lia].
    - split; lia.
    - split; [lia|intros _; now apply right_iso_b_sound].
    - destruct i; discriminate. }
  split; (split; [repeat split; discriminate|]; split; [repeat constructor|]; split; [repeat constructor|]; split; [exists false, true; auto|]; split;
    [exists 1; split; [reflexivity|apply G; vm_compute; reflexivity]|apply Qi_eqb_eq; vm_compute; reflexivity]).
Qed.
Lemma ap_value :
  match k_local_approx_overlap setA exLA apdiv apA apB (Some 2) with Ok (v, _, _) => Qi_eqb v (qi (1033#4500) 0) | _ => false end = true /\
  Qi_eqb (sadd (window_overlap 2 3 (psi apA) (psi apB) 0 2) (window_overlap 2 3 (psi apA) (psi apB) 1 2)) (qi (1033#2250) 0) = true /\
  Qi_eqb (window_overlap 2 3 (psi apA) (psi apB) 0 2) (window_overlap 2 3 (psi apA) (psi apB) 1 2) = false /\
  bond_dimension apA = 2 /\ bond_dimension apB = 2.
Proof. repeat split; vm_compute; reflexivity. Qed.
