(** Concrete trajectories over the Gaussian rationals.  No counterpart in /repo. *)
From Coq Require Import QArith Qcanon Ascii.
From Verif Require Import Alg QScalars ModelMPS SpecMPS ModelStruct SpecStruct ModelOrth ModelCanon SpecCanon
  ModelPad Oracle Oracle2 ExOrth ExCanon ExStruct ModelTraj SpecTraj ModelMisc.
Local Open Scope nat_scope.

(** Two qubits in the state 00; the step exchanges 0 and 1 on both. *)
Definition exT0 : fmps Qi := qobj [qsite 2 1 1 [qi 1 0; qi 0 0]; qsite 2 1 1 [qi 1 0; qi 0 0]].
Definition exFlip (_ : Qi) (m : fmps Qi) : res (fmps Qi) :=
  fMPS_init (map (fun A => mkSite (phys A) (dl A) (dr A) (fun s => ent A (1 - s))) (fdata m)) None None.
Definition exLAt : lapack2 Qi := oracle2 true []
  [(qmat 2 2 [qi 1 0; qi 0 0; qi 0 0; qi 1 0], [qi 1 0; qi 0 0], qmat 2 2 [qi 1 0; qi 0 0; qi 0 0; qi 1 0]);
   (exI4, [qi 1 0], qmat 1 1 [qi 1 0]);
   (qmat 2 2 [qi 1 0; qi 0 0; qi 0 0; qi 1 0], [qi 1 0], qmat 1 1 [qi 1 0]);
   (qmat 2 2 [qi 0 0; qi 1 0; qi 1 0; qi 0 0], [qi 1 0], qmat 1 1 [qi 1 0]);
   (exI, [qi 1 0; qi 1 0], exI)]
  [(qmat 1 1 [qi 1 0], [qi 1 0]); (exI, [qi 1 0; qi 0 0])].

Fixpoint shapes_b (L d D k : nat) (l : list (site Qi)) : bool :=
  match l with
  | [] => true
  | A :: l => Nat.eqb (phys A) d && Nat.eqb (dl A) (bond L d D k) && Nat.eqb (dr A) (bond L d D (k + 1))
              && shapes_b L d D (S k) l
  end.
Definition fits_b (m : fmps Qi) (D : nat) : bool :=
  Nat.leb 2 (fL m) && Nat.eqb (length (fdata m)) (fL m) && shapes_b (fL m) (fd m) D 0 (fdata m).

Lemma shapes_b_ok L d D l : forall k0, shapes_b L d D k0 l = true -> forall k A, nth_error l k = Some A ->
  phys A = d /\ dl A = bond L d D (k0 + k) /\ dr A = bond L d D (k0 + k + 1).
Proof.
  induction l as [|B l IH]; intros k0 H k A E; [destruct k; discriminate|].
  cbn [shapes_b] in H. apply andb_prop in H as [H H4]. apply andb_prop in H as [H H3]. apply andb_prop in H as [H1 H2].
  apply Nat.eqb_eq in H1, H2, H3. destruct k as [|k]; cbn in E.
  - injection E as <-. rewrite Nat.add_0_r. auto.
  - destruct (IH (S k0) H4 k A E) as (I1 & I2 & I3). rewrite Nat.add_succ_r. auto.
Qed.

Lemma fits_b_ok m D : fits_b m D = true -> fits m D.
Proof.
  unfold fits_b, fits. intros H. apply andb_prop in H as [H H3]. apply andb_prop in H as [H1 H2].
  apply Nat.leb_le in H1. apply Nat.eqb_eq in H2. split; [exact H1|]. split; [exact H2|].
  exact (shapes_b_ok _ _ _ _ 0 H3).
Qed.

Definition exTd : traj Qi := mkTraj exT0 exT0 [] [].
Definition exTr0 : traj Qi := the exTd (traj_init exT0).
Definition exT : list Qi := [qi 0 0; qi (1#2) 0; qi 1 0].
Definition exTr1 : traj Qi := the exTd (invfreeint qimag exFlip exTr0 exT).
Definition exTr2 : traj Qi := the exTd (traj_expand exLAt exTr1 2).
Definition exTr3 : traj Qi := the exTd (invfreeint qimag exFlip exTr2 exT).
Definition flipd (m : fmps Qi) : fmps Qi := the m (exFlip s0 m).
Definition exXs : list (fmps Qi) := [tmps exTr0; flipd (tmps exTr0); flipd (flipd (tmps exTr0))].
Definition exYs : list (fmps Qi) := [tmps exTr2; flipd (tmps exTr2); flipd (flipd (tmps exTr2))].

Definition sh_eqb (a b : list (nat * nat * nat)) : bool :=
  if list_eq_dec (fun x y : nat * nat * nat => ltac:(repeat decide equality)) a b then true else false.
Definition good_b (z y : fmps Qi) : bool :=
  fits_b y (fD y) && Nat.eqb (fL y) (fL z) && Nat.eqb (fd y) (fd z) &&
  sh_eqb (map shape_of (fdata y)) (map shape_of (fdata z)).

Lemma good_b_ok z ys : forallb (good_b z) ys = true ->
  Forall (fun y => regular y /\ fL y = fL z /\ fd y = fd z /\ map shape_of (fdata y) = map shape_of (fdata z)) ys.
Proof.
  intros H. apply Forall_forall. intros y Hy. rewrite forallb_forall in H. specialize (H y Hy). unfold good_b in H.
  apply andb_prop in H as [H H4]. apply andb_prop in H as [H H3]. apply andb_prop in H as [H1 H2].
  apply Nat.eqb_eq in H2, H3. unfold sh_eqb in H4. destruct (list_eq_dec _ _ _) as [E|]; [|discriminate].
  split; [apply fits_b_ok; exact H1|auto].
Qed.

Lemma flip_iterates dt x : runs (exFlip s0 x) = true -> runs (exFlip s0 (flipd x)) = true ->
  iterates (exFlip dt) x [x; flipd x; flipd (flipd x)].
Proof.
  intros H1 H2. split; [intros y E; cbn in E; injection E as <-; reflexivity|].
  intros [|[|k]] y z E1 E2; cbn [nth_error] in E1, E2.
  - injection E1 as <-. injection E2 as <-. apply (the_ok x (exFlip s0 x) H1).
  - injection E1 as <-. injection E2 as <-. apply (the_ok (flipd x) (exFlip s0 (flipd x)) H2).
  - destruct k; discriminate.
Qed.

Lemma exRun : run exLAt qimag exTr3 (exXs ++ exYs).
Proof.
  apply (run_int exLAt qimag (fun m => Ok m) exFlip exT exTr2 exXs exTr3 exYs).
  - apply (run_expand exLAt qimag 2 exTr1 exXs exTr2).
    + apply (run_int exLAt qimag (fun m => Ok m) exFlip exT exTr0 [] exTr1 exXs).
      * apply (run_init exLAt qimag exT0 exTr0).
        -- apply the_ok. vm_compute. reflexivity.
        -- apply fits_b_ok. vm_compute. reflexivity.
      * apply (the_ok exTd (invfreeint qimag exFlip exTr0 exT)). vm_compute. reflexivity.
      * discriminate.
      * reflexivity.
      * exists (tmps exTr0). split; [reflexivity|]. apply flip_iterates; vm_compute; reflexivity.
      * apply good_b_ok. vm_compute. reflexivity.
    + apply the_ok. vm_compute. reflexivity.
    + apply fits_b_ok. vm_compute. reflexivity.
  - apply (the_ok exTd (invfreeint qimag exFlip exTr2 exT)). vm_compute. reflexivity.
  - discriminate.
  - reflexivity.
  - exists (tmps exTr2). split; [reflexivity|]. apply flip_iterates; vm_compute; reflexivity.
  - apply good_b_ok. vm_compute. reflexivity.
Qed.

(** clear keeps the list of bond dimensions *)
Definition exTc : traj Qi := the exTd (traj_clear exTr3).
Definition exTcc : traj Qi := the exTd (invfreeint qimag exFlip exTc [s0; s1; s0; s1]).
Definition exTn : traj Qi := the exTd (traj_init (tmps exTc)).
Definition exTf : traj Qi := the exTd (invfreeint qimag exFlip exTn [s0; s1; s0; s1]).
Lemma ex_clear : exists (O : lapack2 Qi) (I : imag Qi) tr tr1 tr2 tr0 trf xs step T ms,
  imag_ok I /\ run O I tr xs /\ traj_clear tr = Ok tr1 /\ invfreeint I step tr1 T = Ok tr2 /\
  mps_list I tr2 = Err ValueError /\
  traj_init (tmps tr1) = Ok tr0 /\ invfreeint I step tr0 T = Ok trf /\
  mps_list I trf = Ok ms.
Proof.
  exists exLAt, qimag, exTr3, exTc, exTcc, exTn, exTf, (exXs ++ exYs), exFlip, [s0; s1; s0; s1],
    (the [] (mps_list qimag exTf)).
  split; [exact qimag_ok|]. split; [exact exRun|]. split; [apply the_ok; vm_compute; reflexivity|].
  split; [apply (the_ok exTd (invfreeint qimag exFlip exTc [s0; s1; s0; s1])); vm_compute; reflexivity|].
  split; [apply is_value_error_eq; vm_compute; reflexivity|].
  split; [apply the_ok; vm_compute; reflexivity|].
  split; [apply (the_ok exTd (invfreeint qimag exFlip exTn [s0; s1; s0; s1])); vm_compute; reflexivity|].
  apply the_ok. vm_compute. reflexivity.
Qed.

(** expand followed by eulerint: the canonicalisation at the start removes the
    padding again, but the history is decoded with the larger bond *)
Definition exField (m : fmps Qi) : res (fmps Qi) := itemwise_mul m s0.
Lemma ex_expand_lost : exists (O : lapack2 Qi) (I : imag Qi) tr tr' tr'' xs dA D T,
  svd_ok O /\ imag_ok I /\ run O I tr xs /\ traj_expand O tr D = Ok tr' /\ fits (tmps tr') D /\
  eulerint O I dA tr T = Ok tr'' /\ eulerint O I dA tr' T = Err ValueError.
Proof.
  exists exLAt, qimag, exTr1, exTr2, (the exTd (eulerint exLAt qimag exField exTr1 exT)), exXs, exField, 2, exT.
  split; [apply oracle2_svd|]. split; [exact qimag_ok|].
  split.
  { apply (run_int exLAt qimag (fun m => Ok m) exFlip exT exTr0 [] exTr1 exXs).
    * apply (run_init exLAt qimag exT0 exTr0).
      -- apply the_ok. vm_compute. reflexivity.
      -- apply fits_b_ok. vm_compute. reflexivity.
    * apply (the_ok exTd (invfreeint qimag exFlip exTr0 exT)). vm_compute. reflexivity.
    * discriminate.
    * reflexivity.
    * exists (tmps exTr0). split; [reflexivity|]. apply flip_iterates; vm_compute; reflexivity.
    * apply good_b_ok. vm_compute. reflexivity. }
  split; [apply the_ok; vm_compute; reflexivity|]. split; [apply fits_b_ok; vm_compute; reflexivity|].
  split; [apply (the_ok exTd (eulerint exLAt qimag exField exTr1 exT)); vm_compute; reflexivity|].
  apply is_value_error_eq. vm_compute. reflexivity.
Qed.

(** one Euler run: the history holds three states, the current one is the last *)
Definition exKick (m : fmps Qi) : res (fmps Qi) :=
  do f <- exFlip s0 m; do d <- itemwise_sub f m; itemwise_mul d (qi 2 0).
Lemma ex_euler : match eulerint exLAt qimag exKick exTr0 exT with
  | Ok tr => Nat.eqb (length (thist tr)) 3 && Qi_eqb (psi (tmps tr) [0; 0]) s1
             && qlist_eqb (nth 1 (thist tr) []) [s0; s1; s0; s1; s0; s0; s0; s0]
  | Err _ => false end = true.
Proof. vm_compute. reflexivity. Qed.

(** the step of iTDVP.py on the identity field *)
Lemma ex_irk4 : exists (half sixth dt : Qi) dA m m' p,
  smul (sadd s1 s1) half = s1 /\ smul (sadd (sadd s1 s1) s1) sixth = half /\ (forall l, dA l = Ok l) /\
  irk4_point half sixth dA dt m = Ok m' /\ within (shapes m) p /\
  entries m' p <> classical_rk4 half sixth dt (fun f => f) (entries m) p.
Proof.
  exists (qi (1#2) 0), (qi (1#6) 0), (qi 2 0), (fun l => Ok l), [qsite 1 1 1 [qi 1 0]],
    (the [] (irk4_point (qi (1#2) 0) (qi (1#6) 0) (fun l => Ok l) (qi 2 0) [qsite 1 1 1 [qi 1 0]])), (0, 0, 0, 0)%nat.
  split; [apply Qi_eqb_eq; vm_compute; reflexivity|]. split; [apply Qi_eqb_eq; vm_compute; reflexivity|].
  split; [reflexivity|]. split; [apply the_ok; vm_compute; reflexivity|].
  split; [cbn; lia|]. apply Qi_neq. vm_compute. reflexivity.
Qed.

(** a rotation field on two entries: half a turn of the plane, one step *)
Definition exSpin (f : place -> Qi) (p : place) : Qi :=
  let '(n, s, i, j) := p in smul (if Nat.eqb s 0 then sopp s1 else s1) (f (n, 1 - s, i, j)).
Definition exSpinA (m : fmps Qi) : res (fmps Qi) :=
  fMPS_init (map (fun A => mkSite (phys A) (dl A) (dr A)
    (fun s i j => smul (if Nat.eqb s 0 then sopp s1 else s1) (ent A (1 - s) i j))) (fdata m)) None None.

Lemma ex_field : is_field [(2,1,1);(2,1,1)] exSpin exSpinA /\ linear [(2,1,1);(2,1,1)] exSpin.
Proof.
  split; [split|split].
  - intros f g H [[[n s] i] j] Hp. unfold exSpin. f_equal. apply H.
    unfold within in *. destruct n as [|[|n]]; cbn [nth_error] in *; [lia|lia|]. destruct n; contradiction.
  - intros m Hm. destruct m as [data ? ? ? ? ? ? ?]. cbn [fdata] in *.
    destruct data as [|A [|B [|]]]; try discriminate. cbn in Hm. injection Hm as ? ? ? ? ? ?.
    eexists. split; [reflexivity|]. cbn [fdata]. split; [cbn; congruence|].
    intros [[[[|[|n]] s] i] j] Hp; cbn in *; try reflexivity. destruct n; contradiction.
  - intros f g [[[n s] i] j] Hp. unfold exSpin. destruct (Nat.eqb s 0); cbn; f_equal; ring.
  - intros c f [[[n s] i] j] Hp. unfold exSpin. destruct (Nat.eqb s 0); cbn; f_equal; ring.
Qed.

Lemma ex_rk4 : match rk4_point (qi (1#2) 0) (qi (1#6) 0) exSpinA (qi 1 0) exT0 with
  | Ok m => Qi_eqb (entries (fdata m) (0, 0, 0, 0)%nat) (qi (13#24) 0)
            && Qi_eqb (entries (fdata m) (1, 1, 0, 0)%nat) (qi (5#6) 0)
  | Err _ => false end = true.
Proof. vm_compute. reflexivity. Qed.

(** directories *)
Definition chars (n : list nat) : list ascii := map ascii_of_nat n.
Lemma ex_interference : exists fs r,
  ~ In r (map (drop_last 2) fs) /\ (exists q, stops 2 fs r = Ok q) /\ stops 3 fs r = Err FileExistsError.
Proof.
  exists [["a"%char; "_"%char; "b"%char; "_"%char; "9"%char]], ["a"%char].
  split; [cbn; intros [H|[]]; discriminate|]. split; [eexists; vm_compute; reflexivity|]. vm_compute. reflexivity.
Qed.

(** division by whole numbers *)
Definition exDiv (m : nat) : Qi := qi (1 # Pos.of_succ_nat m) 0.
Lemma sofnat_qi n : sofnat (R := Qi) n = qi (Z.of_nat n # 1) 0.
Proof.
  induction n as [|n IH]; [reflexivity|].
  change (sofnat (R := Qi) (S n)) with (sadd (sofnat n) (s1 : Qi)). rewrite IH. apply Qi_eqb_eq.
  apply andb_true_intro. split; apply Qeq_bool_iff; unfold qi; cbn -[Qred Z.of_nat]; rewrite !Qred_correct;
    unfold Qplus, Qeq; cbn -[Z.of_nat]; lia.
Qed.
Lemma exDiv_ok : forall m, smul (sofnat (R := Qi) (S m)) (exDiv m) = s1.
Proof.
  intros m. rewrite sofnat_qi. unfold exDiv. apply Qi_eqb_eq.
  apply andb_true_intro. split; apply Qeq_bool_iff; unfold qi; cbn -[Qred Z.of_nat Pos.of_succ_nat]; rewrite !Qred_correct;
    unfold Qminus, Qopp, Qplus, Qmult, Qeq; cbn -[Z.of_nat Pos.of_succ_nat]; lia.
Qed.
Lemma ex_lyap : match lyapunov (qi (1#2) 0) exDiv [([qi 4 0; qi 1 0], [qi 0 0; qi 1 0]); ([qi 2 0; qi 3 0], [qi 2 0; qi 3 0]);
                                     ([qi 3 0; qi (-1) 0], [qi 1 0; qi 5 0])] with
  | Ok (_, exps, (_, exps_)) => qlist_eqb (nth 3 exps []) [qi 3 0; qi 1 0] && qlist_eqb (nth 3 exps_ []) [qi 2 0; qi 2 0]
                                && qlist_eqb (nth 2 exps []) [qi 3 0; qi 2 0]
  | Err _ => false end = true.
Proof. vm_compute. reflexivity. Qed.
