(** A chain of three sites over the Gaussian rationals for the Christoffel symbols.  No
    counterpart in /repo. *)
From Coq Require Import QArith Qcanon.
From Verif Require Import Alg QScalars ModelMPS SpecMPS ModelOrth Oracle ExOrth ModelNcon SpecNcon PropNcon ModelEk ModelNp SpecEnergy ModelEnergy ModelTan SpecTan ProofTan ExTan
  ModelTdvp SpecTdvp ExTdvp ModelJac SpecJac ProofJac5 ExJac ModelChrist SpecChrist ProofChrist4.
Require Verif.ExDecomp.
Local Open Scope nat_scope.

Definition chRoots : list (mat Qi * mat Qi) :=
  [(qmat 1 1 [q1], qmat 1 1 [q1]); (qmat 2 2 [q1; q0; q0; q1], qmat 2 2 [q1; q0; q0; q1]);
   (qmat 2 2 [qi (3#5) 0; q0; q0; qi (4#5) 0], qmat 2 2 [qi (5#3) 0; q0; q0; qi (5#4) 0]);
   (qmat 2 2 [q1; q0; q0; q1], qmat 2 2 [qi (25#9) 0; q0; q0; qi (25#16) 0])].
Definition chNulls : list (mat Qi * mat Qi) :=
  [(qmat 2 0 [], qmat 2 2 [q1; q0; q0; q1]);
   (qmat 4 2 [q0; q0;  qi (3#5) 0; qi (4#5) 0;  qi 0 (4#5); qi 0 (-3#5);  q0; q0], qmat 4 2 [q1; q0;  q0; q0;  q0; q0;  q0; qi 0 1]);
   (qmat 4 3 [q0; q0; qi (4#5) 0;  q1; q0; q0;  q0; q1; q0;  q0; q0; qi 0 (-3#5)], qmat 4 1 [qi (3#5) 0; q0; q0; qi 0 (4#5)])].
Definition chK : tanlib Qi := tan_oracle chRoots chNulls.
(** Bonds 1, 2, 2, 1 with the environments 1 and diag(9,16)/25 on the inner bonds. *)
Definition exC : fmps Qi := qobj [qsite 2 1 2 [q1; q0; q0; q1]; qsite 2 2 2 [q1; q0; q0; q0;  q0; q0; q0; qi 0 1]; qsite 2 2 1 [qi (3#5) 0; q0;  q0; qi 0 (4#5)]].
Definition exCe := the ([], []) (get_envs exC).
Lemma exC_diagonal : envs_diagonal (fdata exC).
Proof.
  intros p q a E Hp x y Hx Hy Hne.
  assert (Hl : (length p <= 3)%nat) by (apply (f_equal (@length _)) in E; rewrite app_length in E; cbn in E; lia).
  assert (Ep : p = firstn (length p) (fdata exC)) by (rewrite E, firstn_app, Nat.sub_diag, firstn_all, app_nil_r; reflexivity).
  assert (Eq : q = skipn (length p) (fdata exC)) by (rewrite E, skipn_app, Nat.sub_diag, skipn_all; reflexivity).
  clear E. revert Ep Eq Hl. generalize (length p). intros n -> -> Hn.
  destruct n as [|[|[|[|]]]]; cbn in Hp; try (exfalso; lia).
  all: decompose [and] Hp; subst a.
  all: destruct x as [|[|]]; destruct y as [|[|]]; try (exfalso; lia).
  all: split; apply Qi_eqb_eq; vm_compute; reflexivity.
Qed.
Lemma ch_in : tdvp_input chK exC tdH (fst exCe) (snd exCe).
Proof.
  split; [repeat split; try discriminate; repeat constructor|]. split; [repeat constructor|]. split; [repeat constructor|]. split; [cbn; lia|]. split; [exact exC_diagonal|].
  split; [rewrite <- surjective_pairing; apply the_ok; vm_compute; reflexivity|]. split; [apply tdB_ok; vm_compute; reflexivity|]. split; [cbn; lia|]. repeat constructor.
Qed.
Definition chP := the [] (mapM (fun n => left_null_projector chK setA exC n (Some (fst exCe)) None) (seq 0 3)).
Lemma chP_ok : mapM (fun n => left_null_projector chK setA exC n (Some (fst exCe)) None) (seq 0 (fL exC)) = Ok chP.
Proof. apply the_ok. vm_compute. reflexivity. Qed.

Definition noM : mat Qi := mkMat 0 0 (fun _ _ => q0).
Definition chRoot (M : mat Qi) : mat Qi := the noM (do C <- t_ch chK M; t_inv chK C).
Definition chCi (n : nat) : mat Qi := chRoot (nth n (fst exCe) no_mat).
Definition chEi (n : nat) : mat Qi := chRoot (nth (n + 1) (snd exCe) no_mat).
Lemma root_runs (M : mat Qi) : runs (do C <- t_ch chK M; if Nat.eqb (mr C) (mc C) then t_inv chK C else Err ValueError) = true -> inv_root chK M (chRoot M).
Proof.
  unfold inv_root, chRoot. destruct (t_ch chK M) as [C|] eqn:E; [|discriminate]. cbn [bind]. destruct (Nat.eqb_spec (mr C) (mc C)) as [Es|]; [|discriminate].
  destruct (t_inv chK C) as [Ci|] eqn:E'; [|discriminate]. intros _. exists C. split; [reflexivity|]. cbn [the]. apply (tan_oracle_ok chRoots chNulls); assumption.
Qed.
Lemma ch_roots : inv_roots chK (fL exC) (fst exCe) (snd exCe) chCi chEi.
Proof.
  intros n Hn. cbn in Hn. destruct n as [|[|[|]]]; try (exfalso; lia); (split; apply root_runs; vm_compute; reflexivity).
Qed.
(** The first direction at the second site and the array that represents it. *)
Definition chX : site Qi := root_frame chCi chEi (fdata exC) (map snd chP) 1 0 0.
Definition chB : site Qi := let A := nth 1 (fdata exC) no_site in
  mkSite (phys A) (dl A) (dr A) (fun s a b => sum (dl A) (fun a' => sum (dr A) (fun b' => smul (smul (me (nth 1 (fst exCe) no_mat) a a') (ent chX s a' b')) (me (nth 2 (snd exCe) no_mat) b' b)))).
Lemma ch_rep : represents (fd exC) (fdata exC) 1 chB chX.
Proof.
  apply (lower_all chK setA (tan_oracle_ok _ _) setA_ok ExDecomp.char0_Q exC tdH (fst exCe) (snd exCe) ch_in chP chP_ok chCi chEi ch_roots 1 chX chB (nth 1 (fst exCe) no_mat) (nth 2 (snd exCe) no_mat)).
  - cbn; lia.
  - apply (frame_dir chK setA (tan_oracle_ok _ _) setA_ok ExDecomp.char0_Q exC tdH (fst exCe) (snd exCe) ch_in chP chP_ok chCi chEi ch_roots 1 0 0); [cbn; lia|]. vm_compute. lia.
  - repeat split.
  - apply nth_error_nth'. vm_compute. lia.
  - apply nth_error_nth'. vm_compute. lia.
  - intros s a b _. reflexivity.
Qed.
Definition chG := the noT (christoffel chK setA exC 1 2 1 None (Some chB)).
Definition chO := the noT (christoffel chK setA exC 2 1 1 None None).
Lemma ch_run : christoffel chK setA exC 1 2 1 None (Some chB) = Ok chG /\ tsh chG = [2; 2; 3; 1] /\
  qlist_eqb (map (fun x => te chG [0; 1; x; 0]) (seq 0 3)) [qi (-5#4) 0; q0; q0] = true /\
  christoffel chK setA exC 2 1 1 None None = Ok chO /\ tsh chO = [2; 2; 1; 2; 2; 2; 2; 2; 2] /\
  qlist_eqb (map (fun x => te chO [1; 1; 0; 1; 0; x; 1; 0; x]) (seq 0 2)) [qi 0 (20#9); qi 0 (-45#64)] = true.
Proof. split; [apply the_ok; vm_compute; reflexivity|]. split; [vm_compute; reflexivity|]. split; [vm_compute; reflexivity|]. split; [apply the_ok; vm_compute; reflexivity|]. split; vm_compute; reflexivity. Qed.
