(** The chain of ExTdvp for the second derivatives, and the same state of norm 2.  No
    counterpart in /repo. *)
From Coq Require Import QArith Qcanon.
From Verif Require Import Alg QScalars ModelMPS SpecMPS ModelOrth Oracle ExOrth ModelNcon SpecNcon PropNcon ModelEk ModelNp SpecEnergy ModelEnergy ModelTan SpecTan ProofTan ExTan
  ModelTdvp SpecTdvp ExTdvp ModelJac SpecJac ProofJac5.
Local Open Scope nat_scope.

Definition noIE : @invenvs Qi := mkIE [] [] [] [].
Definition jacE := the noIE (inv_envs tdK (fst exXe) (snd exXe) 3).
Definition jacP := the [] (mapM (fun n => left_null_projector tdK setA exX n (Some (fst exXe)) None) (seq 0 3)).
Definition noT : tens Qi := mkT [] (fun _ => q0).
Definition jacG := the noT (F2 tdK setA exX 0 2 tdH None None).
Lemma jac_in : jac_input tdK exX tdH (fst exXe) (snd exXe) jacE.
Proof.
  split; [exact td_input|]. split; [apply Qi_eqb_eq; vm_compute; reflexivity|].
  apply (inv_envs_correct tdK (tan_oracle_ok _ _) exX _ _ jacE tdH td_input). apply the_ok. vm_compute. reflexivity.
Qed.
Lemma jacP_ok : mapM (fun n => left_null_projector tdK setA exX n (Some (fst exXe)) None) (seq 0 (fL exX)) = Ok jacP.
Proof. apply the_ok. vm_compute. reflexivity. Qed.
Lemma jac_run : F2 tdK setA exX 0 2 tdH None None = Ok jacG /\ tsh jacG = [1; 1; 3; 1] /\
  qlist_eqb (map (fun x => te jacG [0; 0; x; 0]) (seq 0 3)) [qi (2#25) (372#625); qi (-432#625) 0; qi (-12#25) (-204#625)] = true.
Proof. split; [apply the_ok; vm_compute; reflexivity|]. split; vm_compute; reflexivity. Qed.

(** The last tensor doubled: <psi|psi> = 4. *)
Definition dblRoots : list (mat Qi * mat Qi) := tdRoots ++
  [(qmat 1 1 [qi 2 0], qmat 1 1 [qi (1#2) 0]); (qmat 2 2 [qi (6#5) 0; q0; q0; qi (4#5) 0], qmat 2 2 [qi (5#6) 0; q0; q0; qi (5#4) 0]);
   (qmat 1 1 [q1], qmat 1 1 [qi (1#4) 0]); (qmat 2 2 [q1; q0; q0; q1], qmat 2 2 [qi (25#36) 0; q0; q0; qi (25#16) 0])].
Definition q50 (n : Z) := qi (Qmake n 50) 0.
Definition dblNulls : list (mat Qi * mat Qi) := tdNulls ++
  [(qmat 4 3 (map q25 [16; 12; -12;  9; -12; 12;  -12; 16; 9;  12; 9; 16])%Z, qmat 4 1 (map q50 [9; 16; 12; -12])%Z)].
Definition dblK : tanlib Qi := tan_oracle dblRoots dblNulls.
Definition exD : fmps Qi := qobj [qsite 2 1 1 [qi (3#5) 0; qi (4#5) 0]; exT1; qsite 2 2 1 (map q25 [18; 16; 24; -12])%Z].
Definition exDe := the ([], []) (get_envs exD).
Definition dblE := the noIE (inv_envs dblK (fst exDe) (snd exDe) 3).
Definition dblP := the [] (mapM (fun n => left_null_projector dblK setA exD n (Some (fst exDe)) None) (seq 0 3)).
Lemma exD_diagonal : envs_diagonal (fdata exD).
Proof.
  intros p q a E Hp x y Hx Hy Hne.
  assert (Hl : (length p <= 3)%nat) by (apply (f_equal (@length _)) in E; rewrite app_length in E; cbn in E; lia).
  assert (Ep : p = firstn (length p) (fdata exD)) by (rewrite E, firstn_app, Nat.sub_diag, firstn_all, app_nil_r; reflexivity).
  assert (Eq : q = skipn (length p) (fdata exD)) by (rewrite E, skipn_app, Nat.sub_diag, skipn_all; reflexivity).
  clear E. revert Ep Eq Hl. generalize (length p). intros n -> -> Hn.
  destruct n as [|[|[|[|]]]]; cbn in Hp; try (exfalso; lia).
  all: decompose [and] Hp; subst a.
  all: destruct x as [|[|]]; destruct y as [|[|]]; try (exfalso; lia).
  all: split; apply Qi_eqb_eq; vm_compute; reflexivity.
Qed.
Lemma dbl_in : tdvp_input dblK exD tdH (fst exDe) (snd exDe).
Proof.
  split; [repeat split; try discriminate; repeat constructor|]. split; [repeat constructor|]. split; [repeat constructor|]. split; [cbn; lia|]. split; [exact exD_diagonal|].
  split; [rewrite <- surjective_pairing; apply the_ok; vm_compute; reflexivity|]. split; [apply tdB_ok; vm_compute; reflexivity|]. split; [cbn; lia|]. repeat constructor.
Qed.
Lemma dbl_ie : inv_envs_ok dblK (fst exDe) (snd exDe) (fL exD) dblE.
Proof. apply (inv_envs_correct dblK (tan_oracle_ok _ _) exD _ _ dblE tdH dbl_in). apply the_ok. vm_compute. reflexivity. Qed.
Lemma dblP_ok : mapM (fun n => left_null_projector dblK setA exD n (Some (fst exDe)) None) (seq 0 (fL exD)) = Ok dblP.
Proof. apply the_ok. vm_compute. reflexivity. Qed.
Definition dblT := with_site (fdata exD) 0 (frame dblE (fdata exD) (map snd dblP) 0 0 0).
Lemma dbl_frame : frame_dim (fdata exD) (map snd dblP) 0 = (1, 1) /\ overlap 2 dblT dblT = qi (1#4) 0.
Proof. split; [vm_compute; reflexivity|]. apply Qi_eqb_eq. vm_compute. reflexivity. Qed.
