(** C84: spin, Pauli and ladder operators on a chain. *)
From Coq Require Import QArith Qcanon ZArith.
From Verif Require Import Alg QScalars ModelMPS SpecMPS ModelNcon ModelEk ModelTensor SpecTensor ModelDecomp ModelSpin SpecSpin ModelLie SpecLie ProofNbody.
Local Open Scope nat_scope.
Local Open Scope sr_scope.

(** Place k of n is site k + 1; the three operators act there as S_x, S_y and S_z. *)
Theorem C84_spins : forall (R : sring) (C : consts R) (ilog : nat -> nat -> option nat) (j k n : nat) x y z,
  consts_ok C (spin_roots j) -> spins C j = (x, y, z) -> (k < n)%nat ->
  exists X Y Z, N_body_spins C ilog j (Z.of_nat (k + 1)) n = Ok [X; Y; Z] /\
    acts_at (repeat (S j) n) k x X /\ acts_at (repeat (S j) n) k y Y /\ acts_at (repeat (S j) n) k z Z /\
    mat_eq (madj X) X /\ mat_eq (madj Y) Y /\ mat_eq (madj Z) Z /\ triple (c_im C) X Y Z.
Proof. exact (@body_spins). Qed.
Print Assumptions C84_spins.

(** Whatever the first argument is, the Pauli matrices are those of spin 1/2; they anticommute. *)
Theorem C84_paulis : forall (R : sring) (C : consts R) (ilog : nat -> nat -> option nat) (j k n : nat),
  consts_ok C (fun _ => False) -> c_sqrt C 1 = 1 -> (k < n)%nat ->
  exists l, N_body_paulis C ilog j (Z.of_nat (k + 1)) n = Ok l /\ length l = 3%nat /\
    acts_at (repeat 2%nat n) k (lit 2 2 [0; 1; 1; 0]) (nth 0 l (mone 0)) /\
    acts_at (repeat 2%nat n) k (lit 2 2 [0; - c_im C; c_im C; 0]) (nth 1 l (mone 0)) /\
    acts_at (repeat 2%nat n) k (lit 2 2 [1; 0; 0; - (1)]) (nth 2 l (mone 0)) /\
    forall a b, (a < 3)%nat -> (b < 3)%nat ->
      exists A, acomm (nth a l (mone 0)) (nth b l (mone 0)) = Ok A /\ mat_eq A (mscale ((1 + 1) * dlt a b) (mone (2 ^ n))).
Proof. exact (@body_paulis). Qed.
Print Assumptions C84_paulis.

(** S_- first, S_+ second: [S_+, S_-] = 2 S_z and [S_z, S_+] = S_+ at the site. *)
Theorem C84_ladders : forall (R : sring) (C : consts R) (ilog : nat -> nat -> option nat) (j k n : nat) x y z,
  consts_ok C (spin_roots j) -> c_sqrt C 1 = 1 -> c_sqrt C 4 = 1 + 1 -> (1 <= j <= 3)%nat ->
  spins C j = (x, y, z) -> (k < n)%nat ->
  exists Lm Lp X Y Z, N_body_ladders C ilog j (Z.of_nat (k + 1)) n = Ok [Lm; Lp] /\
    N_body_spins C ilog j (Z.of_nat (k + 1)) n = Ok [X; Y; Z] /\
    mat_eq Lp (mplus X (mscale (c_im C) Y)) /\ mat_eq Lm (mminus X (mscale (c_im C) Y)) /\ mat_eq (madj Lp) Lm /\
    (exists P, comm Lp Lm = Ok P /\ mat_eq P (mscale (1 + 1) Z)) /\ (exists P, comm Z Lp = Ok P /\ mat_eq P Lp).
Proof. exact (@body_ladders). Qed.
Print Assumptions C84_ladders.

Theorem C84_ladders_unknown : forall (R : sring) (C : consts R) (ilog : nat -> nat -> option nat) (j : nat) (i : Z) (n : nat),
  ~ (1 <= j <= 3)%nat -> N_body_ladders C ilog j i n = Err AttributeError.
Proof. exact (@body_ladders_none). Qed.
Print Assumptions C84_ladders_unknown.

(** Operators at different sites commute: spins, ladders and Pauli matrices. *)
Theorem C84_sites_commute : forall (R : sring) (C : consts R) (ilog : nat -> nat -> option nat) (j k l n : nat) la lb A B,
  (k < n)%nat -> (l < n)%nat -> k <> l ->
  N_body_spins C ilog j (Z.of_nat (k + 1)) n = Ok la \/ N_body_ladders C ilog j (Z.of_nat (k + 1)) n = Ok la \/
    (j = 1%nat /\ N_body_paulis C ilog j (Z.of_nat (k + 1)) n = Ok la) ->
  N_body_spins C ilog j (Z.of_nat (l + 1)) n = Ok lb \/ N_body_ladders C ilog j (Z.of_nat (l + 1)) n = Ok lb \/
    (j = 1%nat /\ N_body_paulis C ilog j (Z.of_nat (l + 1)) n = Ok lb) ->
  In A la -> In B lb ->
  exists P, comm A B = Ok P /\ mat_eq P (mkMat (S j ^ n) (S j ^ n) (fun _ _ => 0)).
Proof. exact (@sites_commute). Qed.
Print Assumptions C84_sites_commute.

(** Spin 1/2 over the Gaussian rationals: the constants exist, and the third of three sites *)
Definition cQ : consts Qi := mkConsts (qi (1 # 2) 0) (qi 0 1) (fun k => if Nat.eqb k 4 then qi 2 0 else qi 1 0).
Example C84_example : consts_ok cQ (spin_roots 1) /\ consts_ok cQ (fun _ => False) /\ c_sqrt cQ 1 = s1 /\ c_sqrt cQ 4 = sadd s1 s1 /\
  match N_body_spins cQ (fun _ _ => None) 1 3 3 with
  | Ok [X; Y; Z] => Qi_eqb (me X 4%nat 5%nat) (qi (1 # 2) 0) && Qi_eqb (me Y 4%nat 5%nat) (qi 0 (- 1 # 2)) && Qi_eqb (me Z 5%nat 5%nat) (qi (- 1 # 2) 0)
  | _ => false end = true /\
  match N_body_ladders cQ (fun _ _ => None) 1 1 2, N_body_ladders cQ (fun _ _ => None) 1 1 2 with
  | Ok [Lm; _], Ok [_; Lp] => match comm Lp Lm with Ok P => Qi_eqb (me P 0%nat 0%nat) (qi 1 0) && Qi_eqb (me P 2%nat 2%nat) (qi (-1) 0) | _ => false end
  | _, _ => false end = true.
Proof.
  assert (H : forall ks : nat -> Prop, (forall k, ks k -> k = 1%nat) -> consts_ok cQ ks).
  { intros ks Hk. repeat split; try (apply Qi_eqb_eq; vm_compute; reflexivity); apply Hk in H; subst k; apply Qi_eqb_eq; vm_compute; reflexivity. }
  split; [apply H; intros k (a & Ha & ->); assert (a = 0%nat) as -> by lia; reflexivity|]. split; [apply H; tauto|].
  split; [apply Qi_eqb_eq; vm_compute; reflexivity|]. split; [apply Qi_eqb_eq; vm_compute; reflexivity|].
  split; vm_compute; reflexivity.
Qed.
Print Assumptions C84_example.
