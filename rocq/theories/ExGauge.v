(** Concrete runs of match_gauge_to, entanglement_entropy and vfMPS.  No counterpart in /repo. *)
From Coq Require Import QArith Qcanon.
From Verif Require Import Alg QScalars ModelMPS SpecMPS ModelOrth SpecOrth Oracle ExOrth ModelCanon SpecCanon Oracle2 ExCanon ModelGauge SpecGauge ExApprox.
Local Open Scope nat_scope.

(** A candidate (U, P, X) is the answer for M after it was checked: M = U P, P = U^dagger M = X^dagger X. *)
Definition polar_b (M : mat Qi) (c : mat Qi * mat Qi * mat Qi) : bool :=
  let '(U, P, X) := c in
  Nat.eqb (mr U) (mr M) && Nat.eqb (mc U) (mc M) && Nat.eqb (mr P) (mc M) && Nat.eqb (mc P) (mc M) && Nat.eqb (mr M) (mc M) &&
  (ball (mr M) (fun i => ball (mc M) (fun j => Qi_eqb (me M i j) (sum (mc M) (fun k => smul (me U i k) (me P k j))))) &&
  (ball (mc M) (fun i => ball (mc M) (fun j => Qi_eqb (me P i j) (sum (mr M) (fun k => smul (sconj (me U k i)) (me M k j))))) &&
  (ball (mc M) (fun i => ball (mc M) (fun j => Qi_eqb (me P i j) (sum (mr X) (fun k => smul (sconj (me X k i)) (me X k j))))) &&
  (ball (mr M) (fun i => ball (mr M) (fun j => Qi_eqb (sum (mc M) (fun k => smul (me U i k) (sconj (me U j k)))) (dlt i j))) &&
   ball (mc M) (fun i => ball (mc M) (fun j => Qi_eqb (sum (mr M) (fun k => smul (sconj (me U k i)) (me U k j))) (dlt i j))))))).
Definition polar_of (l : list (mat Qi * mat Qi * mat Qi)) (M : mat Qi) : option (mat Qi * mat Qi) :=
  match find (polar_b M) l with Some (U, P, _) => Some (U, P) | None => None end.
Lemma ball2 n m (f : nat -> nat -> bool) : ball n (fun i => ball m (f i)) = true -> forall i j, i < n -> j < m -> f i j = true.
Proof. intros H i j Hi Hj. exact (ball_sound _ _ (ball_sound _ _ H i Hi) j Hj). Qed.
Lemma polar_of_ok l : polar_ok (polar_of l).
Proof.
  intros M U P H. unfold polar_of in H. destruct (find (polar_b M) l) as [[[U' P'] X]|] eqn:E; [|discriminate]. injection H as -> ->.
  apply find_some in E as [_ E]. unfold polar_b in E.
  apply andb_prop in E as [E0 E]. apply andb_prop in E as [E1 E]. apply andb_prop in E as [E2 E]. apply andb_prop in E as [E3 E]. apply andb_prop in E as [E4 E5].
  apply andb_prop in E0 as [E0 F5]. apply andb_prop in E0 as [E0 F4]. apply andb_prop in E0 as [E0 F3]. apply andb_prop in E0 as [F1 F2]. apply Nat.eqb_eq in F1, F2, F3, F4, F5.
  split; [exact F1|]. split; [exact F2|]. split; [exact F3|]. split; [exact F4|].
  split; [intros i j Hi Hj; apply Qi_eqb_eq; exact (ball2 _ _ _ E1 i j Hi Hj)|].
  split; [intros i j Hi Hj; apply Qi_eqb_eq; exact (ball2 _ _ _ E2 i j Hi Hj)|].
  split; [exists (mr X), (me X); intros i j Hi Hj; apply Qi_eqb_eq; exact (ball2 _ _ _ E3 i j Hi Hj)|].
  split; intros _ i j Hi Hj; apply Qi_eqb_eq; [exact (ball2 _ _ _ E4 i j Hi Hj)|exact (ball2 _ _ _ E5 i j Hi Hj)].
Qed.

(** The same state of two qubits in two gauges: gB = (i A0 V, V^dagger A1). *)
Definition gV : mat Qi := qmat 2 2 [qi (3#5) 0; qi 0 (4#5); qi 0 (4#5); qi (3#5) 0].
Definition gA : fmps Qi := qobj [qsite 2 1 2 [qi (1#2) 0; qi (1#2) 0; qi 0 (1#2); qi (-1#2) 0]; qsite 2 2 1 [qi 1 0; qi 0 0; qi 0 0; qi 0 1]].
Definition gB : fmps Qi := qobj [qsite 2 1 2 [qi (-4#10) (3#10); qi (-4#10) (3#10); qi (1#10) 0; qi 0 (-7#10)]; qsite 2 2 1 [qi (3#5) 0; qi 0 (-4#5); qi (4#5) 0; qi 0 (3#5)]].
Definition gI : mat Qi := qmat 2 2 [qi 1 0; qi 0 0; qi 0 0; qi 1 0].
Definition gP : mat Qi -> option (mat Qi * mat Qi) := polar_of [(gV, gI, gI); (qmat 1 1 [qi 0 (-1)], qmat 1 1 [qi 1 0], qmat 1 1 [qi 1 0])].
Lemma g_wf : wf gA /\ wf gB /\ dims (fdata gA) = dims (fdata gB) /\ Forall2 (fun A B => dl A <= dl B) (fdata gA) (fdata gB) /\ map (@dl Qi) (fdata gA) = map (@dl Qi) (fdata gB).
Proof. repeat split; try discriminate; repeat constructor. Qed.
Lemma g_run : match match_gauge_to gP gA gB with
  | Ok m => forallb (fun AB => qlist_eqb (flat_map (fun s => flat_map (fun i => map (ent (fst AB) s i) (seq 0 (dr (snd AB)))) (seq 0 (dl (snd AB)))) [0;1])
                        (flat_map (fun s => flat_map (fun i => map (ent (snd AB) s i) (seq 0 (dr (snd AB)))) (seq 0 (dl (snd AB)))) [0;1])) (combine (fdata m) (fdata gB))
            && Qi_eqb (psi gA [1;0]) (qi 0 (1#2)) && Qi_eqb (psi m [1;0]) (qi (-1#2) 0)
  | _ => false end = true.
Proof. vm_compute. reflexivity. Qed.
(** eigenvalues 16/25 and 9/25; x + 1 in place of the logarithm *)
Lemma g_entropy : match entanglement_entropy (fun x => x) (fun _ => true) (fun x => sadd x (qi 1 0)) exLA2 exCl 1 with
  | Ok (v, _) => Qi_eqb v (qi (-962#625) 0) | _ => false end = true.
Proof. vm_compute. reflexivity. Qed.

Definition ginv (M : mat Qi) : option (mat Qi) :=
  match mr M, mc M with
  | 1, 1 => if Qi_eqb (me M 0 0) (qi 1 0) then Some (qmat 1 1 [qi 1 0]) else None
  | 2, 2 => if Qi_eqb (me M 0 1) (qi 0 0) && Qi_eqb (me M 1 0) (qi 0 0) && Qi_eqb (me M 0 0) (qi (16#25) 0) && Qi_eqb (me M 1 1) (qi (9#25) 0)
            then Some (qmat 2 2 [qi (25#16) 0; qi 0 0; qi 0 0; qi (25#9) 0]) else None
  | _, _ => None
  end.
Lemma ginv_ok M N : ginv M = Some N -> mr N = mr M /\ mc N = mc M /\ forall i j, i < mr M -> j < mr M -> sum (mr M) (fun k => smul (me M i k) (me N k j)) = dlt i j.
Proof.
  unfold ginv. destruct M as [a b e]. cbn [mr mc me]. destruct a as [|[|[|a]]]; try discriminate; destruct b as [|[|[|b]]]; try discriminate.
  - destruct (Qi_eqb (e 0 0) _) eqn:E; [|discriminate]. apply Qi_eqb_eq in E. intros H; injection H as <-. split; [reflexivity|]. split; [reflexivity|].
    intros i j Hi Hj. assert (i = 0) as -> by lia. assert (j = 0) as -> by lia. cbn [sum]. rewrite E. apply Qi_eqb_eq. vm_compute. reflexivity.
  - destruct (_ && _) eqn:E; [|discriminate]. apply andb_prop in E as [E E4]. apply andb_prop in E as [E E3]. apply andb_prop in E as [E1 E2].
    apply Qi_eqb_eq in E1, E2, E3, E4. intros H; injection H as <-. split; [reflexivity|]. split; [reflexivity|].
    intros i j Hi Hj. cbn [sum]. destruct i as [|[|i]]; [| |lia]; destruct j as [|[|j]]; try lia; rewrite ?E1, ?E2, ?E3, ?E4; apply Qi_eqb_eq; vm_compute; reflexivity.
Qed.
Lemma g_vidal : match vf_from_fMPS ginv exLA2 exC with
  | Ok (v, m) => match vf_to_fMPS v with
      | Ok x => qlist_eqb (map (psi x) [[0;0];[0;1];[1;0];[1;1]]) (map (psi m) [[0;0];[0;1];[1;0];[1;1]]) && Qi_eqb (psi exC [1;0]) (smul (qi 625 0) (psi x [1;0]))
          && negb (Qi_eqb (psi x [1;0]) (qi 0 0))
      | _ => false end
  | _ => false end = true.
Proof. vm_compute. reflexivity. Qed.
