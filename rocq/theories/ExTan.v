(** Concrete null-space projectors and tangent vectors over the Gaussian rationals, with
    oracles that look candidates up in a table and check them.  No counterpart in /repo. *)
From Coq Require Import QArith Qcanon.
From Verif Require Import Alg QScalars ModelMPS SpecMPS ModelOrth Oracle ExOrth ModelNcon SpecNcon PropNcon ModelEk ModelNp ModelEnergy ModelTan SpecTan ProofTan ProofTan2.
Local Open Scope nat_scope.

Definition herm_b (M : mat Qi) : bool := Nat.eqb (mr M) (mc M) && ball (mr M) (fun i => ball (mr M) (fun j => Qi_eqb (sconj (me M i j)) (me M j i))).
(** C with the inverse Ci is the Cholesky factor of M. *)
Definition chol_b (M C Ci : mat Qi) : bool :=
  Nat.eqb (mr C) (mr M) && Nat.eqb (mc C) (mr M) &&
  ball (mr M) (fun j => ball j (fun i => Qi_eqb (me C i j) s0)) &&
  ball (mr M) (fun i => Qi_eqb (sconj (me C i i)) (me C i i) && Qi_eqb (smul (me C i i) (me Ci i i)) s1) &&
  ball (mr M) (fun i => ball (mr M) (fun j => Qi_eqb (sum (mr M) (fun k => smul (me C i k) (sconj (me C j k)))) (me M i j))).
Definition inv_b (M N : mat Qi) : bool :=
  Nat.eqb (mr N) (mr M) && Nat.eqb (mc N) (mr M) &&
  ball (mr M) (fun i => ball (mr M) (fun j => Qi_eqb (sum (mr M) (fun k => smul (me M i k) (me N k j))) (dlt i j) &&
    Qi_eqb (sum (mr M) (fun k => smul (me N i k) (me M k j))) (dlt i j))).
(** N has orthonormal columns in the null space of M, and N N^dagger + G M = 1. *)
Definition null_b (M N G : mat Qi) : bool :=
  Nat.eqb (mr N) (mc M) &&
  ball (mr M) (fun i => ball (mc N) (fun k => Qi_eqb (sum (mc M) (fun j => smul (me M i j) (me N j k))) s0)) &&
  ball (mc N) (fun k => ball (mc N) (fun k' => Qi_eqb (sum (mc M) (fun j => smul (sconj (me N j k)) (me N j k'))) (dlt k k'))) &&
  ball (mc M) (fun x => ball (mc M) (fun y => Qi_eqb (sadd (sum (mc N) (fun k => smul (me N x k) (sconj (me N y k)))) (sum (mr M) (fun i => smul (me G x i) (me M i y)))) (dlt x y))).

Definition ask {A} (o : option A) : res A := match o with Some x => Ok x | None => Err ValueError end.
Definition tan_oracle (roots : list (mat Qi * mat Qi)) (nulls : list (mat Qi * mat Qi)) : tanlib Qi :=
  mkTL (fun M => do c <- ask (find (fun c => chol_b M (fst c) (snd c)) roots); Ok (fst c))
       (fun M => do c <- ask (find (fun c => inv_b M (snd c)) roots); Ok (snd c))
       (fun M => do c <- ask (find (fun c => null_b M (fst c) (snd c)) nulls); Ok (fst c)).

Lemma ball2_sound n n' f : ball n (fun i => ball (n' i) (f i)) = true -> forall i j, i < n -> j < n' i -> f i j = true.
Proof. intros H i j Hi Hj. exact (ball_sound _ _ (ball_sound _ _ H i Hi) j Hj). Qed.

Add Ring Qir : (s_th Qi).
Lemma null_b_sound M N G : null_b M N G = true -> is_null M N.
Proof.
  unfold null_b, is_null. intros H. ands. apply Nat.eqb_eq in H. split; [exact H|]. split; [|split].
  - intros i k Hi Hk. apply Qi_eqb_eq. exact (ball2_sound _ (fun _ => mc N) _ H2 i k Hi Hk).
  - intros k k' Hk Hk'. apply Qi_eqb_eq. exact (ball2_sound _ (fun _ => mc N) _ H1 k k' Hk Hk').
  - intros w Hw j Hj. assert (HB : forall x y, x < mc M -> y < mc M -> sadd (sum (mc N) (fun k => smul (me N x k) (sconj (me N y k)))) (sum (mr M) (fun i => smul (me G x i) (me M i y))) = dlt x y).
    { intros x y Hx Hy. apply Qi_eqb_eq. exact (ball2_sound _ (fun _ => mc M) _ H0 x y Hx Hy). }
    rewrite <- (sum_dlt1 (mc M) j w Hj).
    transitivity (sum (mc M) (fun y => sadd (sum (mc N) (fun k => smul (smul (me N j k) (sconj (me N y k))) (w y))) (sum (mr M) (fun i => smul (me G j i) (smul (me M i y) (w y)))))).
    { apply sum_ext; intros y Hy. rewrite <- HB by assumption. rewrite sum_mul_r. replace (sum (mr M) (fun i => smul (me G j i) (smul (me M i y) (w y)))) with (smul (sum (mr M) (fun i => smul (me G j i) (me M i y))) (w y)); [ring|]. rewrite <- sum_mul_r. apply sum_ext; intros; ring. }
    rewrite sum_add. rewrite sum_swap. rewrite (sum_swap (mc M) (mr M)).
    replace (sum (mr M) (fun i => sum (mc M) (fun y => smul (me G j i) (smul (me M i y) (w y))))) with (s0 : Qi).
    2: { symmetry. apply sum_zero. intros i Hi. rewrite sum_mul_l. rewrite Hw by exact Hi. ring. }
    transitivity (sum (mc N) (fun i => sum (mc M) (fun j0 => smul (smul (me N j i) (sconj (me N j0 i))) (w j0)))); [ring|].
    apply sum_ext; intros k _. rewrite <- sum_mul_l. apply sum_ext; intros; ring.
Qed.

Lemma tan_oracle_ok roots nulls : tanlib_ok (tan_oracle roots nulls).
Proof.
  split; [|split]; cbn [t_ch t_inv t_null tan_oracle].
  - intros M C _ H. destruct (find _ roots) as [c|] eqn:E; [|discriminate]. injection H as <-. apply find_some in E as [_ E]. unfold chol_b in E. ands. apply Nat.eqb_eq in H, H3.
    split; [exact H|]. split; [exact H3|]. split; [|split].
    + intros i j Hij Hj. apply Qi_eqb_eq. exact (ball2_sound _ (fun j => j) _ H2 j i Hj Hij).
    + intros i Hi. pose proof (ball_sound _ _ H1 i Hi) as G. cbv beta in G. apply andb_prop in G as [G1 G2]. split; [now apply Qi_eqb_eq|]. exists (me (snd c) i i). now apply Qi_eqb_eq.
    + intros i j Hi Hj. apply Qi_eqb_eq. exact (ball2_sound _ (fun _ => mr M) _ H0 i j Hi Hj).
  - intros M N _ H. destruct (find _ roots) as [c|] eqn:E; [|discriminate]. injection H as <-. apply find_some in E as [_ E]. unfold inv_b in E. ands. apply Nat.eqb_eq in H, H1.
    split; [exact H|]. split; [exact H1|]. intros i j Hi Hj. pose proof (ball2_sound _ (fun _ => mr M) _ H0 i j Hi Hj) as G. cbv beta in G. apply andb_prop in G as [G1 G2]. split; now apply Qi_eqb_eq.
  - intros M N H. destruct (find _ nulls) as [c|] eqn:E; [|discriminate]. injection H as <-. apply find_some in E as [_ E]. exact (null_b_sound _ _ _ E).
Qed.

Lemma ball_ext n f g : (forall i, i < n -> f i = g i) -> ball n f = ball n g.
Proof. intros H. unfold ball. assert (G : forall l, (forall i, In i l -> i < n) -> forallb f l = forallb g l). { induction l as [|i l IH]; intros Hl; [reflexivity|]. cbn. rewrite H, IH; auto. intros j Hj. apply Hl. now right. apply Hl. now left. } apply G. intros i Hi. apply in_seq in Hi. lia. Qed.
Lemma null_b_ext M M' N G : mat_eq M M' -> null_b M N G = null_b M' N G.
Proof.
  intros (E1 & E2 & E). unfold null_b. rewrite <- E1, <- E2. f_equal; [f_equal; f_equal|].
  - apply ball_ext; intros i Hi. apply ball_ext; intros k _. f_equal. apply sum_ext; intros j Hj. now rewrite E.
  - apply ball_ext; intros x Hx. apply ball_ext; intros y Hy. f_equal. f_equal. apply sum_ext; intros i Hi. now rewrite E.
Qed.

(** Checks that the table suffices. *)
Definition has_null (nulls : list (mat Qi * mat Qi)) (M : mat Qi) : bool := existsb (fun c => null_b M (fst c) (snd c)) nulls.
Definition left_b roots nulls (A : site Qi) (l : mat Qi) : bool :=
  match t_ch (tan_oracle roots nulls) l with
  | Ok C => runs (t_inv (tan_oracle roots nulls) C) && has_null nulls (gauge_mat A C)
  | Err _ => false
  end.
Definition right_b roots nulls (A : site Qi) (r : mat Qi) : bool :=
  match t_ch (tan_oracle roots nulls) r with
  | Ok C => runs (t_inv (tan_oracle roots nulls) C) && has_null nulls (gauge_mat_r A r)
  | Err _ => false
  end.
Lemma has_null_ok roots nulls M M' : has_null nulls M = true -> mat_eq M' M -> exists N, t_null (tan_oracle roots nulls) M' = Ok N.
Proof.
  intros H E. unfold has_null in H. apply existsb_exists in H as (c & Hc & Hb). cbn [t_null tan_oracle]. destruct (find (fun c => null_b M' (fst c) (snd c)) nulls) as [c'|] eqn:F; [now exists (fst c')|].
  pose proof (find_none _ _ F c Hc) as G. cbv beta in G. rewrite (null_b_ext _ _ _ _ E) in G. congruence.
Qed.
Lemma left_b_ok roots nulls A l : left_b roots nulls A l = true -> left_ready (tan_oracle roots nulls) A l.
Proof.
  unfold left_b. destruct (t_ch _ l) as [C|] eqn:E; [|discriminate]. intros H. apply andb_prop in H as [H1 H2]. exists C, (the C (t_inv (tan_oracle roots nulls) C)). split; [exact E|]. split; [now apply the_ok|].
  intros M HM. exact (has_null_ok _ _ _ _ H2 HM).
Qed.
Lemma right_b_ok roots nulls A r : right_b roots nulls A r = true -> right_ready (tan_oracle roots nulls) A r.
Proof.
  unfold right_b. destruct (t_ch _ r) as [C|] eqn:E; [|discriminate]. intros H. apply andb_prop in H as [H1 H2]. exists C, (the C (t_inv (tan_oracle roots nulls) C)). split; [exact E|]. split; [now apply the_ok|].
  intros M HM. exact (has_null_ok _ _ _ _ H2 HM).
Qed.
Definition tangent_b roots nulls (l : list (site Qi)) (ls rs : list (mat Qi)) : bool :=
  ball (length l) (fun n => match nth_error l n, nth_error ls n, nth_error rs (n + 1) with
    | Some A, Some e, Some f => left_b roots nulls A e && match t_ch (tan_oracle roots nulls) f with Ok E => runs (t_inv (tan_oracle roots nulls) E) | Err _ => false end
    | _, _, _ => false end).
Lemma tangent_b_ok roots nulls l ls rs : tangent_b roots nulls l ls rs = true -> tangent_ready (tan_oracle roots nulls) l ls rs.
Proof.
  intros H n A e f EA Ee Ef. assert (Hn : n < length l) by (apply nth_error_Some; congruence). pose proof (ball_sound _ _ H n Hn) as G. cbv beta in G. rewrite EA, Ee, Ef in G.
  apply andb_prop in G as [G1 G2]. split; [exact (left_b_ok _ _ _ _ G1)|]. destruct (t_ch _ f) as [E|] eqn:EE; [|discriminate]. exists E, (the E (t_inv (tan_oracle roots nulls) E)). split; [reflexivity|now apply the_ok].
Qed.

(** Square roots with their inverses. *)
Definition q0 := qi 0 0.
Definition q1 := qi 1 0.
Definition exRoots : list (mat Qi * mat Qi) :=
  [(qmat 1 1 [q1], qmat 1 1 [q1]);
   (qmat 2 2 [q1; q0; q0; qi 2 0], qmat 2 2 [q1; q0; q0; qi (1#2) 0]);
   (qmat 2 2 [qi (3#5) 0; q0; q0; qi (2#5) 0], qmat 2 2 [qi (5#3) 0; q0; q0; qi (5#2) 0]);
   (qmat 2 2 [q1; q0; q1; q1], qmat 2 2 [q1; q0; qi (-1) 0; q1])].
(** Null spaces N with matrices G such that N N^dagger + G M = 1. *)
Definition exNulls : list (mat Qi * mat Qi) :=
  [(qmat 2 0 [], qmat 2 2 [q1; q0; q0; qi (1#2) 0]);
   (qmat 4 3 [qi (4#5) 0; q0; qi (12#25) 0;  q0; qi (4#5) 0; qi (-9#25) 0;  qi (-3#5) 0; q0; qi (16#25) 0;  q0; qi (-3#5) 0; qi (-12#25) 0],
    qmat 4 1 [qi (9#25) 0; qi (12#25) 0; qi (12#25) 0; qi (16#25) 0]);
   (qmat 2 1 [qi (4#5) 0; qi (-3#5) 0], qmat 2 1 [qi (3#5) 0; qi (4#5) 0]);
   (qmat 4 3 [q0; q0; q0;  q1; q0; q0;  q0; q1; q0;  q0; q0; q1], qmat 4 1 [q1; q0; q0; q0]);
   (qmat 4 3 [qi (4#5) 0; q0; q0;  qi (-3#5) 0; q0; q0;  q0; q1; q0;  q0; q0; q1], qmat 4 1 [qi (3#25) 0; qi (4#25) 0; q0; q0])].
Definition exK : tanlib Qi := tan_oracle exRoots exNulls.

(** Two sites, bonds 1, 2, 1, with environments diag(1,4) and diag(9,4)/25. *)
Definition exT1 : site Qi := qsite 2 1 2 [q1; q0; q0; qi 2 0].
Definition exT2 : site Qi := qsite 2 2 1 [qi (9#25) 0; qi (6#25) 0; qi (12#25) 0; qi (8#25) 0].
Definition exT : fmps Qi := qobj [exT1; exT2].
Definition exTe := the ([], []) (get_envs exT).
Definition exTs := the ([], []) (tangent_space_dims exK setA exT None).

Lemma exT_ok : wf exT /\ uniform exT /\ positive_dims (fdata exT) /\ get_envs exT = Ok (fst exTe, snd exTe) /\ tangent_ready exK (fdata exT) (fst exTe) (snd exTe).
Proof.
  split; [repeat split; try discriminate; repeat constructor|]. split; [repeat constructor|]. split; [repeat constructor|].
  split; [rewrite <- surjective_pairing; apply the_ok; vm_compute; reflexivity|]. apply tangent_b_ok. vm_compute. reflexivity.
Qed.
Lemma exT_dims : tangent_space_dims exK setA exT None = Ok (fst exTs, snd exTs) /\ snd exTs = [(0, 2); (3, 1)].
Proof. split; [rewrite <- surjective_pairing; apply the_ok; vm_compute; reflexivity|vm_compute; reflexivity]. Qed.
Lemma exT_empty_first : empty_first (snd exTs) /\ tangent_dim (snd exTs) = 3.
Proof.
  rewrite (proj2 exT_dims). split; [|reflexivity]. exists 1. split; [cbn; lia|]. intros [|[|[|n]]] s H; try discriminate; injection H as <-; cbn; lia.
Qed.
Lemma exT_run : match import_tangent_vector exK setA exT [qi 1 1; qi 0 2; qi 3 0] with
  | Ok m => qlist_eqb [ent (nth 1 (fdata m) exT1) 0 0 0; ent (nth 1 (fdata m) exT1) 1 1 0] [qi (56#25) (4#5); qi (-18#25) (-3#5)] &&
      match extract_tangent_vector exK setA exT (fdata m) with Ok v => qlist_eqb v [qi 1 1; qi 0 2; qi 3 0] | _ => false end
  | _ => false end = true.
Proof. vm_compute. reflexivity. Qed.

(** Three sites, bonds 1, 1, 2, 1: the second site has no tangent space, the first has one. *)
Definition exU : fmps Qi := qobj [qsite 2 1 1 [qi (3#5) 0; qi (4#5) 0]; exT1; exT2].
Definition exUe := the ([], []) (get_envs exU).
Definition exUs := the ([], []) (tangent_space_dims exK setA exU None).
Definition exUv := the [] (extract_tangent_vector exK setA exU (fdata exU)).
Lemma exU_fails : exists (K : tanlib Qi) S (m : fmps Qi) ls rs vLs shapes v,
  tanlib_ok K /\ setio_ok S /\ wf m /\ uniform m /\ positive_dims (fdata m) /\ get_envs m = Ok (ls, rs) /\ tangent_ready K (fdata m) ls rs /\
  tangent_space_dims K S m None = Ok (vLs, shapes) /\ shapes = [(1, 1); (0, 2); (3, 1)] /\
  extract_tangent_vector K S m (fdata m) = Ok v /\ length v = tangent_dim shapes /\ import_tangent_vector K S m v = Err ValueError.
Proof.
  exists exK, setA, exU, (fst exUe), (snd exUe), (fst exUs), (snd exUs), exUv.
  split; [apply tan_oracle_ok|]. split; [apply setA_ok|]. split; [repeat split; try discriminate; repeat constructor|]. split; [repeat constructor|]. split; [repeat constructor|].
  split; [rewrite <- surjective_pairing; apply the_ok; vm_compute; reflexivity|]. split; [apply tangent_b_ok; vm_compute; reflexivity|].
  split; [rewrite <- surjective_pairing; apply the_ok; vm_compute; reflexivity|]. split; [vm_compute; reflexivity|]. split; [apply the_ok; vm_compute; reflexivity|]. split; [vm_compute; reflexivity|].
  assert (H : match import_tangent_vector exK setA exU exUv with Err ValueError => true | _ => false end = true) by (vm_compute; reflexivity).
  destruct (import_tangent_vector exK setA exU exUv) as [|[]]; try discriminate. reflexivity.
Qed.

(** A chain whose environment l(0) = ((1,1),(1,2)) is not diagonal. *)
Definition exV2 : site Qi := qsite 2 2 1 [q1; q0; q0; q0].
Definition exV : fmps Qi := qobj [qsite 2 1 2 [q1; q1; q0; q1]; exV2].
Definition exVl : mat Qi := qmat 2 2 [q1; q1; q1; qi 2 0].
Definition exVp := the (mkT [] (fun _ => s0), exV2) (left_null_projector exK setA exV 1 (Some [qmat 1 1 [q1]; exVl]) None).
Lemma exV_fails : exists (K : tanlib Qi) S (m : fmps Qi) l A B pr V t c,
  tanlib_ok K /\ setio_ok S /\ wf m /\ uniform m /\ fdata m = [A; B] /\ hermitian l /\ left_ready K B l /\
  (forall b b', (b < 2)%nat -> (b' < 2)%nat -> me l b b' = sum 2 (fun s => smul (sconj (ent A s 0 b)) (ent A s 0 b'))) /\
  left_null_projector K S m 1 (Some [mkMat 1 1 (fun _ _ => s1); l]) None = Ok (pr, V) /\ (t < phys B)%nat /\ (c < dl B)%nat /\
  ~ left_gauge B l (fun s a => te pr [s; a; t; c]).
Proof.
  exists exK, setA, exV, exVl, (qsite 2 1 2 [q1; q1; q0; q1]), exV2, (fst exVp), (snd exVp), 0, 1.
  split; [apply tan_oracle_ok|]. split; [apply setA_ok|]. split; [repeat split; try discriminate; repeat constructor|]. split; [repeat constructor|]. split; [reflexivity|].
  split; [split; [reflexivity|]; intros i j Hi Hj; destruct i as [|[|]]; destruct j as [|[|]]; try (cbn in *; lia); apply Qi_eqb_eq; vm_compute; reflexivity|].
  split; [apply left_b_ok; vm_compute; reflexivity|].
  split; [intros i j Hi Hj; destruct i as [|[|]]; destruct j as [|[|]]; try (cbn in *; lia); apply Qi_eqb_eq; vm_compute; reflexivity|].
  split; [rewrite <- surjective_pairing; apply the_ok; vm_compute; reflexivity|]. split; [cbn; lia|]. split; [cbn; lia|].
  intros H. specialize (H 0). assert (H0 : 0 < dr exV2) by (cbn; lia). specialize (H H0). revert H. apply Qi_neq. vm_compute. reflexivity.
Qed.

(** A chain with r(0) = diag(1,4), for right_null_projector. *)
Definition exW1 : site Qi := qsite 2 1 2 [qi 3 0; q1; q0; q0].
Definition exW : fmps Qi := qobj [exW1; qsite 2 2 1 [q1; q0; q0; qi 2 0]].
Definition exWe := the ([], []) (get_envs exW).
Definition exWp := the (mkT [] (fun _ => s0), exV2) (right_null_projector exK setA exW 0 None None).
Definition exWr : mat Qi := nth 1 (snd exWe) exVl.
Lemma exW_fails : exists (K : tanlib Qi) S (m : fmps Qi) ls rs A r pr V t c,
  tanlib_ok K /\ setio_ok S /\ wf m /\ uniform m /\ positive_dims (fdata m) /\ nth_error (fdata m) 0 = Some A /\ get_envs m = Ok (ls, rs) /\ nth_error rs 1 = Some r /\ right_ready K A r /\
  right_null_projector K S m 0 None None = Ok (pr, V) /\ (t < phys A)%nat /\ (c < dr A)%nat /\ ~ right_gauge A r (fun s b => te pr [s; b; t; c]).
Proof.
  exists exK, setA, exW, (fst exWe), (snd exWe), exW1, exWr, (fst exWp), (snd exWp), 0, 0.
  split; [apply tan_oracle_ok|]. split; [apply setA_ok|]. split; [repeat split; try discriminate; repeat constructor|]. split; [repeat constructor|]. split; [repeat constructor|]. split; [reflexivity|].
  split; [rewrite <- surjective_pairing; apply the_ok; vm_compute; reflexivity|].
  split; [apply nth_error_nth'; vm_compute; lia|].
  split; [apply right_b_ok; vm_compute; reflexivity|].
  split; [rewrite <- surjective_pairing; apply the_ok; vm_compute; reflexivity|]. split; [cbn; lia|]. split; [cbn; lia|].
  intros H. specialize (H 0). assert (H0 : 0 < dl exW1) by (cbn; lia). specialize (H H0). revert H. apply Qi_neq. vm_compute. reflexivity.
Qed.
Lemma exW_ready : right_ready exK exW1 exWr /\ left_ready exK exT2 (nth 1 (fst exTe) exVl).
Proof. split; [apply right_b_ok|apply left_b_ok]; vm_compute; reflexivity. Qed.
