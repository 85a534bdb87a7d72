(** Concrete splittings and gates.  No counterpart in /repo. *)
From Coq Require Import QArith Qcanon.
From Verif Require Import Alg QScalars ModelMPS SpecMPS ModelOrth SpecOrth ModelCanon SpecCanon
  Oracle Oracle2 ExOrth ExCanon ModelTwo SpecTwo.
Local Open Scope nat_scope.

Definition q0 := qi 0 0.
Definition q1 := qi 1 0.
Definition exI2 : mat Qi := qmat 2 2 [q1; q0; q0; q1].

(** (|0> + 2|1>) |0> |1>, and a NOT of the first qubit controlled by the second. *)
Definition exG : fmps Qi := qobj
  [qsite 2 1 1 [q1; qi 2 0]; qsite 2 1 1 [q1; q0]; qsite 2 1 1 [q0; q1]].
Definition exC : mat Qi := qmat 4 4
  [q1; q0; q0; q0;  q0; q0; q0; q1;  q0; q0; q1; q0;  q0; q1; q0; q0].
Definition exGLA : lapack Qi := oracle [(exI2, qmat 2 2 [q0; q0; q1; q0])]
  [(qmat 2 2 [q0; q0; q1; q0], exI2);
   (qmat 2 2 [qi 2 0; q0; q1; q0], qmat 2 4 [q0; q0; q1; q0;  q1; q0; q0; q0]);
   (qmat 4 2 [q0; q1;  q1; q0;  q0; q0;  q0; q0], exI2)] [(qi 1 0, qi 1 0)].

Lemma ex_gate : lapack_ok exGLA /\ wf exG /\ dims (fdata exG) = repeat 2 (fL exG) /\
  match apply_two_site exLA2 exGLA exG exC [2; 0] false None true with
  | Ok m => qlist_eqb [psi m [0;0;0]; psi m [0;0;1]; psi m [1;0;0]; psi m [1;0;1]; psi m [1;1;1]]
                      [q0; qi 2 0; q0; q1; q0]
  | Err _ => false end = true.
Proof.
  split; [apply oracle_ok|]. split; [repeat split; discriminate|]. split; [reflexivity|].
  vm_compute. reflexivity.
Qed.

(** Two sites of dimensions 2 and 3. *)
Definition exT1 : site Qi := qsite 2 1 1 [qi 1 0; qi 2 0].
Definition exT2 : site Qi := qsite 3 1 1 [qi 2 0; qi 0 0; qi 0 1].
Definition exT : site Qi := the exT1 (group_tensors exT1 exT2).
Definition exTLA : lapack Qi := oracle []
  [(qmat 3 2 [qi 2 0; qi 0 0; qi 0 1; qi 4 0; qi 0 0; qi 0 2], exI2)] [].
Definition exTs : site Qi * site Qi := the (exT1, exT2) (separate_tensor_rq exTLA exT).

Lemma ex_unequal : exists (O : lapack Qi) (A B T A' B' : site Qi),
  lapack_ok O /\ group_tensors A B = Ok T /\ separate_tensor_rq O T = Ok (A', B') /\
  phys A = 2 /\ phys B = 3 /\ phys A' = 3 /\ phys B' = 2.
Proof.
  exists exTLA, exT1, exT2, exT, (fst exTs), (snd exTs).
  split; [apply oracle_ok|]. split; [apply the_ok; vm_compute; reflexivity|].
  split; [rewrite <- surjective_pairing; apply the_ok; vm_compute; reflexivity|].
  repeat split; vm_compute; reflexivity.
Qed.

(** A truncated splitting: singular values 4, 3; and a full one (norm 5). *)
Definition exS : site Qi := qsite 4 1 1 [q0; qi 3 0; qi 4 0; q0].
Definition exSLA : lapack2 Qi := oracle2 true
  [(qmat 2 2 [q0; q1; q1; q0], [qi 4 0; qi 3 0], qmat 2 2 [q1; q0; q0; q1])] [] [].
Definition exSP : lapack Qi := oracle [] [] [(qi 5 0, qi (1#5) 0); (qi 4 0, qi (1#4) 0)].

Lemma ex_svd : svd_ok exSLA /\ lapack_ok exSP /\ factors (phys exS) = Ok (2, 2) /\
  match separate_tensor_svd exSLA exSP exS (Some 1) true, separate_tensor_svd exSLA exSP exS None false with
  | Ok (A, B), Ok (A', B') =>
      Nat.eqb (dr A) 1 && Nat.eqb (dr A') 2 &&
      qlist_eqb [ent A 0 0 0; ent A 1 0 0; ent B 0 0 0; ent B 1 0 0] [q0; q1; q1; q0] &&
      qlist_eqb [ent A' 0 0 1; ent A' 1 0 0] [qi (3#5) 0; qi (4#5) 0]
  | _, _ => false end = true.
Proof.
  split; [apply oracle2_svd|]. split; [apply oracle_ok|]. split; [reflexivity|].
  vm_compute. reflexivity.
Qed.

(** A gate on an object with truthful flags leaves false ones: the product
    state |0>|0>|1>, orthogonality centre recorded at site 0, then the operator
    |00> -> |00> + |01>, on qubits 1, 2. *)
Definition exFo : fmps Qi := mkF (fdata (qobj
  [qsite 2 1 1 [q1; q0]; qsite 2 1 1 [q1; q0]; qsite 2 1 1 [q1; q0]])) 3 2 1
  (Some false) (Some true) (Some 0) None.
Definition exFop : mat Qi := qmat 4 4
  [q1; q0; q0; q0;  q1; q0; q0; q0;  q0; q0; q0; q0;  q0; q0; q0; q0].
Definition exFLA : lapack Qi := oracle [(exI2, qmat 2 2 [q1; q1; q0; q0])] [] [].
Definition exFr : fmps Qi := the exFo (apply_two_site exLA2 exFLA exFo exFop [1; 2] true None true).

Lemma ex_gate_stale : exists (O : lapack2 Qi) (P : lapack Qi) (m m' : fmps Qi) op,
  lapack_ok P /\ wf m /\ mixed_at 0 (fdata m) /\ foc m = Some 0 /\ forth m = Some true /\
  apply_two_site O P m op [1; 2] true None true = Ok m' /\ foc m' = Some 0 /\ forth m' = Some true /\
  ~ mixed_at 0 (fdata m').
Proof.
  exists exLA2, exFLA, exFo, exFr, exFop.
  split; [apply oracle_ok|]. split; [repeat split; discriminate|].
  split.
  { assert (H : forall A : site Qi, phys A = 2 -> dl A = 1 -> dr A = 1 -> ent A 0 0 0 = q1 -> ent A 1 0 0 = q0 ->
      right_iso A).
    { intros A h1 h2 h3 h4 h5 [|i] [|j] Hi Hj; try lia. rewrite h1, h3. cbn [sum]. rewrite h4, h5.
      apply Qi_eqb_eq. vm_compute. reflexivity. }
    intros i A HA. split; [lia|intros _].
    destruct i as [|[|[|i]]]; cbn in HA; try (injection HA as <-; apply H; reflexivity).
    destruct i; discriminate. }
  split; [reflexivity|]. split; [reflexivity|].
  split; [apply the_ok; vm_compute; reflexivity|].
  split; [vm_compute; reflexivity|]. split; [vm_compute; reflexivity|].
  intros H.
  assert (K : match nth_error (fdata exFr) 2 with Some c =>
      negb (Qi_eqb (sum (phys c) (fun s => sum (dr c) (fun k => smul (ent c s 0 k) (sconj (ent c s 0 k))))) (dlt 0 0))
       && Nat.ltb 0 (dl c) | _ => false end = true) by (vm_compute; reflexivity).
  specialize (H 2). destruct (nth_error (fdata exFr) 2) as [c|]; [|discriminate].
  destruct (H c eq_refl) as [_ H2]. specialize (H2 ltac:(lia)).
  apply andb_prop in K as [K1 K2]. apply negb_true_iff in K1. apply Nat.ltb_lt in K2.
  specialize (H2 0 0 K2 K2). apply Qi_neq in K1. contradiction.
Qed.

(** The same gate with a truncation of the gate to bond dimension 2, on
    (3|0> + 4|1>) |0> |1>: the result is divided by the norm 5. *)
Definition exD : fmps Qi := qobj
  [qsite 2 1 1 [qi 3 0; qi 4 0]; qsite 2 1 1 [q1; q0]; qsite 2 1 1 [q0; q1]].
Definition exDP : lapack Qi := oracle []
  [(qmat 2 2 [q0; q0; q1; q0], exI2); (qmat 4 2 [q0; q1;  q1; q0;  q0; q0;  q0; q0], exI2)] [(qi 5 0, qi (1#5) 0)].
Definition exDO : lapack2 Qi := oracle2 true
  [(qmat 2 2 [qi (4#5) 0; qi (-3#5) 0; qi (3#5) 0; qi (4#5) 0], [qi 5 0; q0],
    qmat 2 4 [q0; q0; q1; q0;  q1; q0; q0; q0])] [] [].

Lemma ex_gate_trunc : svd_ok exDO /\ lapack_ok exDP /\ wf exD /\ dims (fdata exD) = repeat 2 (fL exD) /\
  (forall A, nth_error (fdata exD) 0 = Some A -> 2 * dl A <= 2) /\
  match apply_two_site exDO exDP exD exC [2; 0] false (Some 2) false with
  | Ok m => qlist_eqb [psi m [0;0;0]; psi m [0;0;1]; psi m [1;0;0]; psi m [1;0;1]; psi m [1;1;1]]
                      [q0; qi (4#5) 0; q0; qi (3#5) 0; q0]
  | Err _ => false end = true.
Proof.
  split; [apply oracle2_svd|]. split; [apply oracle_ok|]. split; [repeat split; discriminate|]. split; [reflexivity|].
  split; [intros A H; cbn in H; injection H as <-; cbn; lia|].
  vm_compute. reflexivity.
Qed.
