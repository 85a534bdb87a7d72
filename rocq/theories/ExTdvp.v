(** A chain of three sites over the Gaussian rationals for the time-dependent variational
    principle.  No counterpart in /repo. *)
From Coq Require Import QArith Qcanon.
From Verif Require Import Alg QScalars ModelMPS SpecMPS ModelOrth Oracle ExOrth ModelNcon SpecNcon PropNcon ModelEk ModelNp SpecEnergy ModelEnergy ModelTan SpecTan ProofTan ExTan
  ModelTdvp SpecTdvp.
Local Open Scope nat_scope.

Definition tdRoots : list (mat Qi * mat Qi) := exRoots ++ [(qmat 2 2 [q1; q0; q0; q1], qmat 2 2 [qi (25#9) 0; q0; q0; qi (25#4) 0])].
Definition q25 (n : Z) := qi (Qmake n 25) 0.
Definition tdNulls : list (mat Qi * mat Qi) := exNulls ++
  [(qmat 4 3 (map q25 [16; 12; -12;  9; -12; 12;  -12; 16; 9;  12; 9; 16])%Z, qmat 4 1 (map q25 [9; 16; 12; -12])%Z)].
Definition tdK : tanlib Qi := tan_oracle tdRoots tdNulls.
(** Bonds 1, 1, 2, 1 with the environments diag(1,4) and diag(9,4)/25 on the third bond. *)
Definition exX : fmps Qi := qobj [qsite 2 1 1 [qi (3#5) 0; qi (4#5) 0]; exT1; qsite 2 2 1 (map q25 [9; 8; 12; -6])%Z].
Definition exXe := the ([], []) (get_envs exX).

Definition tdB roots nulls (l : list (site Qi)) (ls rs : list (mat Qi)) : bool :=
  ball (length l) (fun n => match nth_error l n, nth_error ls n, nth_error rs (n + 1) with
    | Some A, Some e, Some f => left_b roots nulls A e && runs (t_inv (tan_oracle roots nulls) f)
    | _, _, _ => false end).
Lemma tdB_ok roots nulls l ls rs : tdB roots nulls l ls rs = true -> tdvp_ready (tan_oracle roots nulls) l ls rs.
Proof.
  intros H n A e f EA Ee Ef. assert (Hn : n < length l) by (apply nth_error_Some; congruence). pose proof (ball_sound _ _ H n Hn) as G. cbv beta in G. rewrite EA, Ee, Ef in G.
  apply andb_prop in G as [G1 G2]. split; [exact (left_b_ok _ _ _ _ G1)|]. exists (the f (t_inv (tan_oracle roots nulls) f)). now apply the_ok.
Qed.

(** Two Hermitian terms. *)
Definition tdH : list (mat Qi) :=
  [qmat 4 4 [q1; qi 0 1; q0; qi 2 0;  qi 0 (-1); q0; qi 1 1; q0;  q0; qi 1 (-1); qi 3 0; q1;  qi 2 0; q0; q1; qi (-1) 0];
   qmat 4 4 [q0; q1; qi 0 2; q0;  q1; q1; q0; qi 1 (-1);  qi 0 (-2); q0; qi 2 0; q0;  q0; qi 1 1; q0; qi 5 0]].

Lemma exX_diagonal : envs_diagonal (fdata exX).
Proof.
  intros p q a E Hp x y Hx Hy Hne.
  assert (Hl : (length p <= 3)%nat) by (apply (f_equal (@length _)) in E; rewrite app_length in E; cbn in E; lia).
  assert (Ep : p = firstn (length p) (fdata exX)) by (rewrite E, firstn_app, Nat.sub_diag, firstn_all, app_nil_r; reflexivity).
  assert (Eq : q = skipn (length p) (fdata exX)) by (rewrite E, skipn_app, Nat.sub_diag, skipn_all; reflexivity).
  clear E. revert Ep Eq Hl. generalize (length p). intros n -> -> Hn.
  destruct n as [|[|[|[|]]]]; cbn in Hp; try (exfalso; lia).
  all: decompose [and] Hp; subst a.
  all: destruct x as [|[|]]; destruct y as [|[|]]; try (exfalso; lia).
  all: split; apply Qi_eqb_eq; vm_compute; reflexivity.
Qed.

Lemma td_input : tdvp_input tdK exX tdH (fst exXe) (snd exXe).
Proof.
  split; [repeat split; try discriminate; repeat constructor|]. split; [repeat constructor|]. split; [repeat constructor|]. split; [cbn; lia|]. split; [exact exX_diagonal|].
  split; [rewrite <- surjective_pairing; apply the_ok; vm_compute; reflexivity|]. split; [apply tdB_ok; vm_compute; reflexivity|]. split; [cbn; lia|]. repeat constructor.
Qed.
Lemma td_hermitian : Forall hermitian_op tdH.
Proof.
  repeat constructor; intros i j Hi Hj; cbn in Hi, Hj; destruct i as [|[|[|[|]]]]; destruct j as [|[|[|[|]]]]; try lia; apply Qi_eqb_eq; vm_compute; reflexivity.
Qed.
(** The rates: the second site has no tangent space. *)
Definition tdM := fst (the (exX, []) (dA_dt tdK setA (qi 0 1) exX tdH None [])).
Definition tdE := snd (the (exX, []) (dA_dt tdK setA (qi 0 1) exX tdH None [])).
Definition show (A : site Qi) : list Qi := concat (map (fun s => concat (map (fun i => map (ent A s i) (seq 0 (dr A))) (seq 0 (dl A)))) (seq 0 (phys A))).
Lemma td_run : dA_dt tdK setA (qi 0 1) exX tdH None [] = Ok (tdM, tdE) /\
  qlist_eqb (concat (map show (fdata tdM)))
    [qi 0 (96#3125); qi 0 (-72#3125);  q0; q0; q0; q0;
     qi (752#625) (-27076#15625); qi (-423#1250) (-162#15625); qi (336#625) (11607#15625); qi (168#625) (-4566#15625)] = true /\
  qlist_eqb tdE [qi (1304#625) 0; qi (257#625) 0] = true.
Proof. split; [unfold tdM, tdE; rewrite <- surjective_pairing; apply the_ok; vm_compute; reflexivity|]. split; vm_compute; reflexivity. Qed.
