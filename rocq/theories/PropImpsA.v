(** C83: arithmetic, copies, comparison and conversion of infinite MPS. *)
From Coq Require Import QArith Qcanon.
From Verif Require Import Alg QScalars ModelMPS SpecMPS ModelOrth SpecOrth Oracle ModelDecomp SpecDecomp ModelStruct ModelImps SpecImps
  SpecTraj SpecImpsA ProofImps12 ExImps.
Local Open Scope nat_scope.
Local Open Scope sr_scope.

Theorem C83_add : forall (R : sring) (a b : imps R), i_data a <> [] -> shapes (i_data a) = shapes (i_data b) ->
  exists m, imps_add a b = Ok m /\ shapes (i_data m) = shapes (i_data a) /\ cell_attrs m /\ no_memory m /\
    forall p, entries (i_data m) p = entries (i_data a) p + entries (i_data b) p.
Proof. exact (@imps_add_ok). Qed.
Print Assumptions C83_add.

Theorem C83_sub : forall (R : sring) (a b : imps R), i_data a <> [] -> shapes (i_data a) = shapes (i_data b) ->
  exists m, imps_sub a b = Ok m /\ shapes (i_data m) = shapes (i_data a) /\ cell_attrs m /\ no_memory m /\
    forall p, entries (i_data m) p = entries (i_data a) p - entries (i_data b) p.
Proof. exact (@imps_sub_ok). Qed.
Print Assumptions C83_sub.

Theorem C83_mul : forall (R : sring) (a : imps R) c, i_data a <> [] ->
  exists m, imps_mul a c = Ok m /\ shapes (i_data m) = shapes (i_data a) /\ cell_attrs m /\ no_memory m /\
    forall p, entries (i_data m) p = c * entries (i_data a) p.
Proof. exact (@imps_mul_ok). Qed.
Print Assumptions C83_mul.

Theorem C83_div : forall (R : sring) (nonneg : R -> Prop) (C : icalls R) (a m : imps R) c,
  icalls_ok nonneg C -> imps_div C a c = Ok m ->
  shapes (i_data m) = shapes (i_data a) /\ cell_attrs m /\ no_memory m /\
    forall p, c * entries (i_data m) p = entries (i_data a) p.
Proof. exact (@imps_div_ok). Qed.
Print Assumptions C83_div.

(** The norm per site of a scaled state: every eigenvalue of the transfer map is multiplied by |c|^2. *)
Theorem C83_scaled_transfer : forall (R : sring) (a m : imps R) c A, i_data a = [A] -> imps_mul a c = Ok m ->
  exists B, i_data m = [B] /\
    (forall eta x, right_eigen A eta x -> right_eigen B (c * sconj c * eta) x) /\
    (forall eta x, left_eigen A eta x -> left_eigen B (c * sconj c * eta) x).
Proof. exact (@imps_mul_transfer). Qed.
Print Assumptions C83_scaled_transfer.

Theorem C83_copy : forall (R : sring) (a : imps R), i_data a <> [] ->
  (forall m, imps_copy a = Ok m -> i_data m = i_data a /\ i_l m = i_l a /\ i_r m = i_r a /\ cell_attrs m /\
     i_can m = None /\ i_L m = None) /\
  (imps_copy a = Err AttributeError <-> ((i_l a = None) <-> (i_r a <> None))) /\
  ((exists m, imps_copy a = Ok m) <-> ((i_l a = None) <-> (i_r a = None))).
Proof. exact (@imps_copy_ok). Qed.
Print Assumptions C83_copy.

Theorem C83_eq : forall (R : sring) (close : site R -> site R -> option bool) (a b : imps R) x,
  length (i_data a) = length (i_data b) -> imps_eq close a b = Ok x ->
  (x = true <-> pairs_all (fun A B => close A B = Some true) (i_data a) (i_data b)) /\
  imps_ne close a b = Ok (negb x).
Proof. exact (@imps_eq_ok). Qed.
Print Assumptions C83_eq.

Theorem C83_to_iMPS : forall (R : sring) D (G : site R) L, vidal_form D G L ->
  exists m A, to_iMPS [(G, L)] = Ok m /\ i_data m = [A] /\ cell_attrs m /\ phys A = phys G /\ square_site D A /\
    right_iso A /\ left_eigen A 1 (square L) /\
    (forall s i j, i < D -> j < D -> ent A s i j = ent G s i j * me L j j).
Proof. exact (@to_iMPS_ok). Qed.
Print Assumptions C83_to_iMPS.

Definition zA : site Zi := mkSite 2 1 1 (fun s _ _ => if Nat.eqb s 0 then zi 1 0 else zi 0 2).
Definition zB : site Zi := mkSite 2 1 1 (fun s _ _ => if Nat.eqb s 0 then zi 0 0 else zi 5 0).
Definition cell (l : list (site Zi)) : imps Zi := mkI l (length l) 2 1 None None None None.
Definition same_b (A B : site Zi) : option bool :=
  Some (forallb (fun s => Zi_eqb (ent A s 0%nat 0%nat) (ent B s 0%nat 0%nat)) (seq 0 (phys A))).

(** Cells of different length: the longer one is cut off, in sums as well as in comparisons *)
Theorem C83_periods_refuted : exists (close : site Zi -> site Zi -> option bool) a b m,
  (forall A B, close A B = Some true -> phys A = 2%nat -> forall s, s < 2 -> ent A s 0%nat 0%nat = ent B s 0%nat 0%nat) /\
  cell_attrs a /\ cell_attrs b /\ i_period a = 2%nat /\ i_period b = 1%nat /\
  imps_eq close a b = Ok true /\ imps_add a b = Ok m /\ i_period m = 1%nat.
Proof.
  exists same_b, (cell [zA; zB]), (cell [zA]). eexists. split.
  { unfold same_b. intros A B H HA s Hs. rewrite HA in H. cbn [seq forallb] in H. injection H as H.
    apply andb_prop in H as [H0 H1]. apply andb_prop in H1 as [H1 _].
    assert (Z : forall x y : Zi, Zi_eqb x y = true -> x = y).
    { intros [x1 x2] [y1 y2] E. unfold Zi_eqb in E. apply andb_prop in E as [E1 E2]. cbn in E1, E2.
      apply Z.eqb_eq in E1, E2. congruence. }
    destruct s as [|[|s]]; [now apply Z|now apply Z|lia]. }
  split; [eexists; eexists; cbn; auto|]. split; [eexists; eexists; cbn; auto|]. repeat split.
Qed.
Print Assumptions C83_periods_refuted.

(** A Vidal form with Schmidt values 3/5, 4/5, and objects meeting the hypotheses *)
Definition vG : site Qi := mkSite 4 2 2 (fun s i j => if Nat.eqb s (2 * i + j) then (if Nat.eqb s 1 then qi 0 1 else qi 1 0) else s0).
Definition vL : mat Qi := mkMat 2 2 (fun i j => if Nat.eqb i j then (if Nat.eqb i 0 then qi (3 # 5) 0 else qi (4 # 5) 0) else s0).
Example C83_vidal_example : vidal_form 2 vG vL.
Proof.
  assert (B : ball 2 (fun i => ball 2 (fun j => Nat.eqb i j || Qi_eqb (me vL i j) s0)) &&
    ball 2 (fun i => Qi_eqb (sconj (me vL i i)) (me vL i i)) &&
    Qi_eqb (sum 2 (fun i => smul (me vL i i) (me vL i i))) s1 &&
    ball 2 (fun i => ball 2 (fun j => Qi_eqb (sum 4 (fun s => sum 2 (fun k => smul (smul (ent vG s i k) (smul (me vL k k) (me vL k k))) (sconj (ent vG s j k))))) (dlt i j))) &&
    ball 2 (fun i => ball 2 (fun j => Qi_eqb (sum 4 (fun s => sum 2 (fun k => smul (smul (sconj (ent vG s k i)) (smul (me vL k k) (me vL k k))) (ent vG s k j)))) (dlt i j))) = true)
    by (vm_compute; reflexivity).
  apply andb_prop in B as [B B5]. apply andb_prop in B as [B B4]. apply andb_prop in B as [B B3]. apply andb_prop in B as [B B2].
  split; [split; reflexivity|]. split; [split; [reflexivity|split; [reflexivity|split]]|split; [|split]].
  - intros i j Hi Hj Hne. assert (E := ball_sound _ _ (ball_sound _ _ B i Hi) j Hj). cbn beta in E.
    apply orb_prop in E as [E|E]; [apply Nat.eqb_eq in E; congruence|now apply Qi_eqb_eq].
  - intros i Hi. apply Qi_eqb_eq. exact (ball_sound _ _ B2 i Hi).
  - now apply Qi_eqb_eq.
  - intros i j Hi Hj. apply Qi_eqb_eq. exact (ball_sound _ _ (ball_sound _ _ B4 i Hi) j Hj).
  - intros i j Hi Hj. apply Qi_eqb_eq. exact (ball_sound _ _ (ball_sound _ _ B5 i Hi) j Hj).
Qed.
Print Assumptions C83_vidal_example.

Example C83_example : shapes (i_data (cell [zA; zB])) = shapes (i_data (cell [zB; zA])) /\
  match imps_sub (cell [zA; zB]) (cell [zB; zA]) with Ok m => entries (i_data m) (0, 1, 0, 0)%nat = zi (-5) 2 | _ => False end /\
  match imps_div exC (one_site vG) (qi 0 2) with Ok m => Qi_eqb (entries (i_data m) (0, 1, 0, 1)%nat) (qi (1 # 2) 0) | _ => false end = true /\
  imps_copy (mkI [zA] 1 2 1 None None (Some (mkMat 1 1 (fun _ _ => zi 1 0))) None) = Err AttributeError /\
  imps_eq same_b (cell [zA; zB]) (cell [zB; zA]) = Ok false.
Proof. repeat split; vm_compute; reflexivity. Qed.
Print Assumptions C83_example.
