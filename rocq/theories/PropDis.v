(** Property theorems C103: the second Renyi entropy and the disentangler of peps_tools. *)
From Coq Require Import ZArith QArith Qcanon.
From Verif Require Import Alg QScalars ModelMPS ModelNcon SpecNcon PropNcon ModelEk ModelTensor Oracle Oracle2 ExOrth ModelDis SpecDis ProofDis ProofDis2.
Local Open Scope nat_scope.
Local Open Scope sr_scope.

(** For a unitary U, renyi(U, th) is minus the log of Tr rho^2, rho the density matrix of the left
    half of the wave function U th. *)
Theorem C103_renyi : forall (R : sring) (S : setio) (nlog : R -> R) d1 d2 Xl Xr (U th : tens R),
  setio_ok S -> tsh U = [d1; d2; d1; d2] -> tsh th = [d1; d2; Xl; Xr] -> unitary4 d1 d2 U ->
  renyi S nlog U th = Ok (- sre (nlog (purity_left d1 d2 Xl Xr (gated d1 d2 U th)))).
Proof. intros R S nlog d1 d2 Xl Xr U th HS HU Ht HN. unfold renyi. now rewrite (renyi_arg_ok S d1 d2 Xl Xr U th HS HU Ht HN). Qed.
Print Assumptions C103_renyi.

(** Both halves give the same number. *)
Theorem C103_halves : forall (R : sring) d1 d2 Xl Xr (f : nat -> nat -> nat -> nat -> R), purity_left d1 d2 Xl Xr f = purity_right d1 d2 Xl Xr f.
Proof. exact @purity_sym. Qed.
Print Assumptions C103_halves.

(** Unitaries on single sites after U do not matter. *)
Theorem C103_local : forall (R : sring) (S : setio) (nlog : R -> R) d1 d2 Xl Xr (U U' th : tens R) u v,
  setio_ok S -> tsh U = [d1; d2; d1; d2] -> tsh U' = [d1; d2; d1; d2] -> tsh th = [d1; d2; Xl; Xr] -> unitary4 d1 d2 U -> unitary4 d1 d2 U' ->
  iso_cols d1 u -> iso_cols d2 v ->
  (forall a b x y, a < d1 -> b < d2 -> x < d1 -> y < d2 -> te U' [a; b; x; y] = sum d1 (fun a' => sum d2 (fun b' => u a a' * v b b' * te U [a'; b'; x; y]))) ->
  renyi S nlog U' th = renyi S nlog U th.
Proof.
  intros R S nlog d1 d2 Xl Xr U U' th u v HS HU HU' Ht HN HN' Hu Hv E. rewrite (C103_renyi R S nlog d1 d2 Xl Xr U' th HS HU' Ht HN'), (C103_renyi R S nlog d1 d2 Xl Xr U th HS HU Ht HN). do 4 f_equal.
  rewrite <- (purity_local d1 d2 Xl Xr u v (gated d1 d2 U th) Hu Hv). apply purity_ext. intros a b l r Ha Hb. unfold gated, local2.
  etransitivity. { apply sum_ext; intros x Hx. apply sum_ext; intros y Hy. rewrite E by assumption. rewrite <- sum_mul_r. apply sum_ext; intros a' _. rewrite <- sum_mul_r. reflexivity. }
  symmetry. etransitivity. { apply sum_ext; intros a' _. apply sum_ext; intros b' _. rewrite <- sum_mul_l. apply sum_ext; intros x _. rewrite <- sum_mul_l. reflexivity. }
  symmetry. etransitivity. { apply sum_ext; intros x _. rewrite sum_swap. apply sum_ext; intros a' _. apply sum_swap. }
  rewrite sum_swap. apply sum_ext; intros a' _. rewrite sum_swap. apply sum_ext; intros b' _. apply sum_ext; intros x _. apply sum_ext; intros y _.
  symmetry. apply (s_th R).(Rmul_assoc).
Qed.
Print Assumptions C103_local.

(** A product of two normalised halves has Tr rho^2 = 1. *)
Theorem C103_product : forall (R : sring) (S : setio) (nlog : R -> R) d1 d2 Xl Xr (U th : tens R) g h,
  setio_ok S -> tsh U = [d1; d2; d1; d2] -> tsh th = [d1; d2; Xl; Xr] -> unitary4 d1 d2 U ->
  (forall a b l r, a < d1 -> b < d2 -> gated d1 d2 U th a b l r = g a l * h b r) ->
  sum d1 (fun a => sum Xl (fun l => g a l * sconj (g a l))) = 1 -> sum d2 (fun b => sum Xr (fun r => h b r * sconj (h b r))) = 1 ->
  renyi S nlog U th = Ok (- sre (nlog 1)).
Proof.
  intros R S nlog d1 d2 Xl Xr U th g h HS HU Ht HN E Hg Hh. rewrite (C103_renyi R S nlog d1 d2 Xl Xr U th HS HU Ht HN). do 4 f_equal.
  rewrite (purity_ext d1 d2 Xl Xr _ (fun a b l r => g a l * h b r)) by exact E. rewrite purity_product, Hg, Hh. rewrite !(s_th R).(Rmul_1_l). reflexivity.
Qed.
Print Assumptions C103_product.

Theorem C103_shape : forall (R : sring) (S : setio) (nlog : R -> R) (U th : tens R), length (tsh th) <> 4%nat -> renyi S nlog U th = Err ValueError.
Proof. intros R S nlog U th H. unfold renyi, renyi_arg. destruct (tsh th) as [|a [|b [|c [|d [|e l]]]]]; try reflexivity. now elim H. Qed.
Print Assumptions C103_shape.

(** When renyi_2_disentangler returns, whatever the restarts. *)
Theorem C103_disentangler : forall (R : sring) (S : setio) (nlog : R -> R) polar restart big (psi : tens R) d1 d2 Xl Xr max_iter fuel U Ss,
  setio_ok S -> polar_ok polar -> tsh psi = [d1; d2; Xl; Xr] ->
  renyi_2_disentangler S nlog polar restart big psi max_iter fuel = Some (Ok (U, Ss)) -> finished d1 d2 Xl Xr nlog big psi U Ss.
Proof.
  intros R S nlog polar restart big psi d1 d2 Xl Xr max_iter fuel U Ss HS HP Ht E. unfold renyi_2_disentangler in E. rewrite Ht in E.
  refine (dis_loop_ok S nlog polar restart big d1 d2 Xl Xr psi max_iter HS HP Ht _ _ _ _ _ _ _ _ _ E). apply Nat.le_refl.
Qed.
Print Assumptions C103_disentangler.

(** With max_iter < 3 it never returns: convergence is tested from the third pass on, and m starts
    again at 0 after a restart. *)
Theorem C103_never_returns : forall (R : sring) (S : setio) (nlog : R -> R) polar restart big (psi : tens R) max_iter fuel r, max_iter < 3 ->
  renyi_2_disentangler S nlog polar restart big psi max_iter fuel <> Some (Ok r).
Proof.
  intros R S nlog polar restart big psi max_iter fuel r H E. unfold renyi_2_disentangler in E. destruct (tsh psi) as [|a [|b [|c [|d [|e l]]]]]; try discriminate E.
  refine (dis_loop_short S nlog polar restart big a b psi max_iter _ _ _ _ _ _ _ E). lia.
Qed.
Print Assumptions C103_never_returns.

(** The number of entropies: max_iter for every run that did not converge, then three at least. *)
Theorem C103_passes : forall (R : sring) (S : setio) (nlog : R -> R) polar restart big (psi : tens R) max_iter fuel U Ss,
  renyi_2_disentangler S nlog polar restart big psi max_iter fuel = Some (Ok (U, Ss)) ->
  exists n j, length Ss = (n * max_iter + j)%nat /\ (3 <= j <= max_iter)%nat.
Proof.
  intros R S nlog polar restart big psi max_iter fuel U Ss E. unfold renyi_2_disentangler in E. destruct (tsh psi) as [|a [|b [|c [|d [|e l]]]]]; try discriminate E.
  refine (dis_loop_length S nlog polar restart big a b psi max_iter _ _ _ _ _ _ _ _ 0%nat _ _ _ E); [reflexivity|lia|discriminate].
Qed.
Print Assumptions C103_passes.

Definition disT (l : list Qi) (sh : list nat) : tens Qi := mkT sh (fun idx => nth (ravel sh idx) l 0).
(** (3/5) |00> + (4/5) |11> and the controlled not. *)
Definition disp : tens Qi := disT [qi (3 # 5) 0; 0; 0; qi (4 # 5) 0] [2; 2; 1; 1]%nat.
Definition disU : tens Qi := disT [1;0;0;0; 0;1;0;0; 0;0;0;1; 0;0;1;0] [2; 2; 2; 2]%nat.
Definition disI : tens Qi := disT [1;0;0;0; 0;1;0;0; 0;0;1;0; 0;0;0;1] [2; 2; 2; 2]%nat.
Definition dis2 : tens Qi := mkT [2; 2; 2; 2]%nat (fun i => (1 + 1) * te disI i).
Definition uni_b (U : tens Qi) : bool := ball 2 (fun a => ball 2 (fun b => ball 2 (fun a' => ball 2 (fun b' =>
  Qi_eqb (sum 2 (fun x => sum 2 (fun y => te U [a; b; x; y] * sconj (te U [a'; b'; x; y])))) (dlt a a' * dlt b b'))))).
Lemma uni_b_sound U : uni_b U = true -> unitary4 2 2 U.
Proof. intros H a b a' b' Ha Hb Ha' Hb'. apply Qi_eqb_eq. exact (ball_sound _ _ (ball_sound _ _ (ball_sound _ _ (ball_sound _ _ H a Ha) b Hb) a' Ha') b' Hb'). Qed.
Definition okq (r : res Qi) (x : Qi) : bool := match r with Ok y => Qi_eqb y x | Err _ => false end.

(** For an operator that is not unitary the number is not Tr rho^2. *)
Theorem C103_unitary_refuted : exists (S : setio) (U th : tens Qi), setio_ok S /\ tsh U = [2; 2; 2; 2]%nat /\ tsh th = [2; 2; 1; 1]%nat /\
  forall x, renyi_arg S U th = Ok x -> x <> purity_left 2 2 1 1 (gated 2 2 U th).
Proof.
  exists setA, dis2, disp. split; [exact setA_ok|]. split; [reflexivity|]. split; [reflexivity|]. intros x E K.
  assert (H : okq (renyi_arg setA dis2 disp) (purity_left 2 2 1 1 (gated 2 2 dis2 disp)) = false) by (vm_compute; reflexivity).
  rewrite E, K in H. unfold okq in H. rewrite Qi_eqb_refl in H. discriminate.
Qed.
Print Assumptions C103_unitary_refuted.

(** The controlled not takes the entanglement away. *)
Example C103_example : setio_ok setA /\ unitary4 2 2 disU /\ unitary4 2 2 disI /\
  okq (renyi_arg setA disI disp) (qi (337 # 625) 0) && okq (renyi_arg setA disU disp) (qi 1 0) = true.
Proof.
  split; [exact setA_ok|]. split; [apply uni_b_sound; vm_compute; reflexivity|]. split; [apply uni_b_sound; vm_compute; reflexivity|]. vm_compute. reflexivity.
Qed.
Definition dispolar (M : mat Qi) : option (mat Qi) := Some (mkMat (mr M) (mr M) (fun i j => dlt i j)).
Example C103_example_disentangler : polar_ok dispolar /\
  match renyi_2_disentangler setA (fun x => x) dispolar (fun _ => mkMat 4 4 (fun _ _ => 0)) (fun x => negb (Qi_eqb x 0)) disp 5 6 with
  | Some (Ok (_, Ss)) => Nat.eqb (length Ss) 3 | _ => false end = true.
Proof.
  split; [|vm_compute; reflexivity]. intros M u HM E. injection E as <-. split; [reflexivity|]. split; [reflexivity|]. intros i j Hi Hj. cbn [me].
  etransitivity; [|exact (sum_dlt_l (mr M) i (fun k => dlt k j) Hi)]. apply sum_ext; intros k _.
  destruct (Nat.eq_dec j k) as [->|N]; [rewrite !dlt_eq, conj_1; reflexivity|]. rewrite (dlt_neq j k) by exact N. rewrite (dlt_neq k j) by congruence. now rewrite conj_0.
Qed.

(** A call whose first run does not converge and that returns after a restart. *)
Definition disM (c : Qi) (T : tens Qi) : mat Qi := mkMat 4 4 (fun i j => c * te T [i / 2; i mod 2; j / 2; j mod 2]%nat).
Definition cycle (M : mat Qi) : option (mat Qi) :=
  if Nat.eqb (mr M) 4 then
    Some (if Qi_eqb (me M 0%nat 0%nat) (qi (81 # 625) 0) then disM (qi 0 1) disI
          else if Qi_eqb (me M 0%nat 0%nat) (qi 0 (- 81 # 625)) then disM (qi 1 0) disU
          else if Qi_eqb (me M 0%nat 0%nat) (qi (9 # 25) 0) then disM (qi 0 1) disU
          else if Qi_eqb (me M 0%nat 0%nat) (qi 0 (- 9 # 25)) then disM (qi 1 0) disI
          else disM (qi (- 1) 0) disI)
  else None.
Definition orth_b (U : mat Qi) : bool :=
  forallb (fun i => forallb (fun j => Qi_eqb (sum 4 (fun k => me U i k * sconj (me U j k))) (dlt i j)) (seq 0 4)) (seq 0 4).
Lemma orth_b_ok U : mr U = 4%nat -> mc U = 4%nat -> orth_b U = true -> orth_rows 4 U.
Proof.
  intros H1 H2 H. split; [exact H1|]. split; [exact H2|]. intros i j Hi Hj. unfold orth_b in H. rewrite forallb_forall in H.
  specialize (H i ltac:(apply in_seq; lia)). rewrite forallb_forall in H. apply Qi_eqb_eq, H, in_seq. lia.
Qed.
Lemma cycle_ok : polar_ok cycle.
Proof.
  intros M u HM E. unfold cycle in E. destruct (Nat.eqb_spec (mr M) 4) as [E4|]; [|discriminate]. rewrite E4. injection E as <-.
  repeat match goal with |- context [if ?b then _ else _] => destruct b end; apply orth_b_ok; try reflexivity; vm_compute; reflexivity.
Qed.

(** C103: a run that does not converge within max_iter is followed by a fresh one. *)
Theorem C103_restart : exists (S : setio) nlog polar restart big (psi : tens Qi) max_iter fuel U Ss, setio_ok S /\ polar_ok polar /\ tsh psi = [2; 2; 1; 1]%nat /\
  renyi_2_disentangler S nlog polar restart big psi max_iter fuel = Some (Ok (U, Ss)) /\ length Ss = (2 * max_iter)%nat.
Proof.
  set (r := renyi_2_disentangler setA (fun x => x) cycle (fun _ => mkMat 4 4 (fun _ _ => 0)) (fun x => negb (Qi_eqb x 0)) disp 3 12).
  assert (H : match r with Some (Ok (_, Ss)) => Nat.eqb (length Ss) 6 | _ => false end = true) by (vm_compute; reflexivity).
  exists setA, (fun x => x), cycle, (fun _ => mkMat 4 4 (fun _ _ => 0)), (fun x => negb (Qi_eqb x 0)), disp, 3%nat, 12%nat. fold r.
  destruct r as [[[U Ss]|]|]; try discriminate H. exists U, Ss. split; [exact setA_ok|]. split; [exact cycle_ok|]. split; [reflexivity|]. split; [reflexivity|]. now apply Nat.eqb_eq in H.
Qed.
Print Assumptions C103_restart.
