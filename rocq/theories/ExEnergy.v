(** Concrete runs of energy.  No counterpart in /repo. *)
From Coq Require Import QArith Qcanon.
From Verif Require Import Alg QScalars ModelMPS SpecMPS ModelOrth SpecOrth Oracle ExOrth ModelNcon SpecNcon PropNcon
  ModelEk SpecEk ExEk ModelEnergy SpecEnergy ProofEnergy.
Local Open Scope nat_scope.
Local Open Scope sr_scope.

(** division by an integer *)
Definition quotQ (x : Qi) (n : nat) : Qi := (fst x * / Q2Qc (inject_Z (Z.of_nat n)), snd x * / Q2Qc (inject_Z (Z.of_nat n)))%Qc.

Lemma sofnat_Qi n : (sofnat n : Qi) = (Q2Qc (inject_Z (Z.of_nat n)), 0%Qc).
Proof.
  induction n as [|n IH]; [reflexivity|]. cbn [sofnat]. rewrite IH. rewrite Nat2Z.inj_succ. unfold Z.succ.
  assert (E : (Q2Qc (inject_Z (Z.of_nat n)) + 1 = Q2Qc (inject_Z (Z.of_nat n + 1)))%Qc).
  { apply Qc_is_canon. rewrite inject_Z_plus. change (this (Q2Qc (inject_Z (Z.of_nat n)) + 1)%Qc) with (Qred (this (Q2Qc (inject_Z (Z.of_nat n))) + 1)).
    rewrite Qred_correct. unfold Q2Qc, this. rewrite !Qred_correct. reflexivity. }
  rewrite <- E. cbn. f_equal.
Qed.

Lemma quotQ_ok : forall x n, (0 < n)%nat -> sofnat n * quotQ x n = (x : Qi).
Proof.
  intros [a b] n Hn. rewrite sofnat_Qi. unfold quotQ. cbn.
  assert (Hz : Q2Qc (inject_Z (Z.of_nat n)) <> 0%Qc).
  { intros E. assert (E' : inject_Z (Z.of_nat n) == 0).
    { rewrite <- (Qred_correct (inject_Z (Z.of_nat n))). change (this (Q2Qc (inject_Z (Z.of_nat n))) == 0). rewrite E. reflexivity. }
    unfold Qeq in E'. cbn in E'. lia. }
  f_equal; field; exact Hz.
Qed.

(** three sites with diagonal environments *)
Definition exC3 : fmps Qi := qobj
  [qsite 2 1 2 [qi 1 0; qi 0 0; qi 0 0; qi 2 0];
   qsite 2 2 2 [qi 2 0; qi 2 0; qi 1 0; qi (-1) 0;  qi 4 0; qi 0 0; qi 4 0; qi 0 0];
   qsite 2 2 1 [qi 1 0; qi 0 0; qi 0 0; qi 0 3]].
Definition qG : mat Qi := qmat 4 4 [qi 1 0; qi 2 1; qi 0 3; qi 5 0;  qi 0 0; qi (-1) 0; qi 4 0; qi 2 2;
  qi 1 1; qi 0 1; qi 3 0; qi 7 0;  qi 2 0; qi 0 (-4); qi 1 0; qi 6 0].

Lemma exC3_ok : wf exC3 /\ uniform exC3 /\ fL exC3 = 3%nat.
Proof. repeat split; try discriminate; repeat constructor. Qed.

Lemma exC3_diagonal : envs_diagonal (fdata exC3).
Proof.
  intros p q a E Hp x y Hx Hy Hne.
  assert (Hl : (length p <= 3)%nat) by (apply (f_equal (@length _)) in E; rewrite app_length in E; cbn in E; lia).
  assert (Ep : p = firstn (length p) (fdata exC3)) by (rewrite E, firstn_app, Nat.sub_diag, firstn_all, app_nil_r; reflexivity).
  assert (Eq : q = skipn (length p) (fdata exC3)) by (rewrite E, skipn_app, Nat.sub_diag, skipn_all; reflexivity).
  clear E. revert Ep Eq Hl. generalize (length p). intros n -> -> Hn.
  destruct n as [|[|[|[|]]]]; cbn in Hp; try (exfalso; lia).
  all: decompose [and] Hp; subst a.
  all: destruct x as [|[|]]; destruct y as [|[|]]; try (exfalso; lia).
  all: split; apply Qi_eqb_eq; vm_compute; reflexivity.
Qed.

Lemma ex_energy : match mps_energy setA quotQ exC3 [qYP; qG] with Ok v => Qi_eqb v (qi (224#3) 0) | _ => false end = true.
Proof. vm_compute. reflexivity. Qed.

(** a chain with an environment that is not diagonal *)
Definition exN3 : fmps Qi := qobj
  [qsite 2 1 2 [qi 1 0; qi 0 0; qi 0 0; qi 1 0];
   qsite 2 2 2 [qi 1 0; qi 0 0; qi 0 0; qi 1 0;  qi 0 0; qi 0 0; qi 0 0; qi 0 0];
   qsite 2 2 1 [qi 1 0; qi 1 0; qi 0 0; qi 1 0]].
Definition qXI : mat Qi := qmat 4 4 [qi 0 0; qi 0 0; qi 1 0; qi 0 0;  qi 0 0; qi 0 0; qi 0 0; qi 1 0;
  qi 1 0; qi 0 0; qi 0 0; qi 0 0;  qi 0 0; qi 1 0; qi 0 0; qi 0 0].
Definition exN3v : Qi := the s0 (mps_energy setA quotQ exN3 [qXI]).

Lemma ex_energy_wrong : exists (S : setio) quot (m : fmps Qi) H v,
  setio_ok S /\ (forall x n, (0 < n)%nat -> sofnat n * quot x n = x) /\ wf m /\ uniform m /\ (length H < fL m)%nat /\
  Forall (fun h => mr h = (fd m * fd m)%nat /\ mc h = (fd m * fd m)%nat) H /\
  mps_energy S quot m H = Ok v /\ sofnat (fL m) * v <> sre (total_energy (fd m) m H).
Proof.
  exists setA, quotQ, exN3, [qXI], exN3v.
  split; [apply setA_ok|]. split; [exact quotQ_ok|].
  split; [repeat split; try discriminate; repeat constructor|]. split; [repeat constructor|]. split; [cbn; lia|].
  split; [repeat constructor|]. split; [apply the_ok; vm_compute; reflexivity|].
  apply Qi_neq. vm_compute. reflexivity.
Qed.
