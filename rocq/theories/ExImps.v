(** Executable library calls for infinite MPS over the Gaussian rationals: candidates that
    are checked before they are returned.  No counterpart in /repo. *)
From Coq Require Import QArith Qcanon.
From Verif Require Import Alg QScalars ModelMPS SpecMPS ModelOrth SpecOrth Oracle ModelCanon SpecCanon Oracle2 ExOrth
  ExEnergy ModelNp ModelDecomp SpecDecomp ProofDecomp ProofDecomp2 ProofDecomp3 ExDecomp ModelImps SpecImps.
Local Open Scope nat_scope.
Local Open Scope sr_scope.

Definition nonneg_b (x : Qi) : bool :=
  Qi_eqb (sconj x) x && match Qccompare (fst x) 0%Qc with Lt => false | _ => true end.
Lemma nonneg_b_sound x : nonneg_b x = true -> nonnegQ x.
Proof.
  unfold nonneg_b. intros H. ands. destruct x as [a b]. apply Qi_eqb_eq in H. split.
  - cbn [snd]. apply Qcdouble. exact (f_equal snd H).
  - cbn [fst] in *. destruct (Qccompare a 0%Qc) eqn:E; [| discriminate |].
    + apply Qceq_alt in E. subst. apply Qcle_refl.
    + apply Qcgt_alt in E. now apply Qclt_le_weak.
Qed.
Lemma nonneg_b_complete x : nonnegQ x -> nonneg_b x = true.
Proof.
  intros [H1 H2]. destruct x as [a b]. cbn [fst snd] in *. subst b. unfold nonneg_b. cbn [fst]. apply andb_true_intro. split.
  - assert (E : @sconj Qi (a, 0%Qc) = (a, 0%Qc)) by (cbn; f_equal; ring). rewrite E. apply Qi_eqb_refl.
  - destruct (Qccompare a 0%Qc) eqn:E; try reflexivity. apply Qclt_alt in E. exfalso. apply (Qclt_not_le _ _ E). exact H2.
Qed.

Fixpoint leqb (u v : list Qi) : bool :=
  match u, v with [], [] => true | x :: u, y :: v => Qi_eqb x y && leqb u v | _, _ => false end.
Lemma leqb_eq u v : leqb u v = true -> u = v.
Proof. revert v. induction u as [|x u IH]; intros [|y v]; cbn; try discriminate; [reflexivity|]. intros H. ands. f_equal; [now apply Qi_eqb_eq|auto]. Qed.

Definition chol_b (M X : mat Qi) : bool :=
  Nat.eqb (mr X) (mr M) && Nat.eqb (mc X) (mr M) &&
  ball (mr M) (fun j => ball j (fun i => Qi_eqb (me X i j) s0)) &&
  ball (mr M) (fun i => ball (mr M) (fun j => Qi_eqb (me M i j) (sum (mr M) (fun k => smul (me X i k) (sconj (me X j k)))))).
Lemma chol_b_sound M X : chol_b M X = true -> is_chol M X.
Proof.
  unfold chol_b. intros H. ands. apply Nat.eqb_eq in H, H2. split; [exact H|]. split; [exact H2|]. split.
  - intros i j Hij Hj. apply Qi_eqb_eq, (ball_sound _ _ (ball_sound _ _ H1 j Hj) i Hij).
  - intros i j Hi Hj. apply Qi_eqb_eq, (ball_sound _ _ (ball_sound _ _ H0 i Hi) j Hj).
Qed.

Definition svd_b (M U : mat Qi) (v : list Qi) (V : mat Qi) : bool :=
  Nat.eqb (mr U) (mr M) && Nat.eqb (mc U) (mr M) && ocols_b U && orows_b U &&
  (Nat.eqb (mr V) (mr M) && Nat.eqb (mc V) (mr M) && ocols_b V && orows_b V) &&
  ball (mr M) (fun i => nonneg_b (nth i v s0)) &&
  ball (mr M) (fun i => ball (mr M) (fun j => Qi_eqb (me M i j) (sum (mr M) (fun k => smul (smul (me U i k) (nth k v s0)) (me V k j))))).
Lemma svd_b_sound M U v V : svd_b M U v V = true -> is_svd_sq nonnegQ M U (fun i => nth i v s0) V.
Proof.
  unfold svd_b. intros H. ands. repeat match goal with H : Nat.eqb _ _ = true |- _ => apply Nat.eqb_eq in H end.
  split; [repeat split; try assumption; [now apply ocols_b_sound|now apply orows_b_sound]|].
  split; [repeat split; try assumption; [now apply ocols_b_sound|now apply orows_b_sound]|].
  split; [intros i Hi; apply nonneg_b_sound; exact (ball_sound _ _ H1 i Hi)|].
  intros i j Hi Hj. apply Qi_eqb_eq.
  exact (ball_sound _ _ (ball_sound _ _ H0 i Hi) j Hj).
Qed.

Definition inv_b (M N : mat Qi) : bool :=
  Nat.eqb (mr N) (mr M) && Nat.eqb (mc N) (mr M) &&
  ball (mr M) (fun i => ball (mr M) (fun j => Qi_eqb (sum (mr M) (fun k => smul (me M i k) (me N k j))) (dlt i j))) &&
  ball (mr M) (fun i => ball (mr M) (fun j => Qi_eqb (sum (mr M) (fun k => smul (me N i k) (me M k j))) (dlt i j))).
Lemma inv_b_sound M N : inv_b M N = true -> is_inverse M N.
Proof.
  unfold inv_b. intros H. ands. apply Nat.eqb_eq in H, H2. split; [exact H|]. split; [exact H2|]. split.
  - intros i j Hi Hj. apply Qi_eqb_eq, (ball_sound _ _ (ball_sound _ _ H1 i Hi) j Hj).
  - intros i j Hi Hj. apply Qi_eqb_eq, (ball_sound _ _ (ball_sound _ _ H0 i Hi) j Hj).
Qed.

Definition eig_b (n : nat) (f : list Qi -> res (list Qi)) (ev : Qi * list Qi) : bool :=
  Nat.eqb (length (snd ev)) n && match f (snd ev) with Ok w => leqb w (map (smul (fst ev)) (snd ev)) | Err _ => false end.

Definition icQ (pairs : list (Qi * list Qi)) (chols : list (mat Qi)) (svds : list (mat Qi * list Qi * mat Qi)) (invs : list (mat Qi)) (roots : list Qi) : icalls Qi :=
  {| ic_arn := fun n f _ => find (eig_b n f) pairs;
     ic_dec := decQ [] [] [] [] [] roots;
     ic_chol := fun M => find (chol_b M) chols;
     ic_svd := fun M => option_map (fun c => (fst (fst c), (fun i => nth i (snd (fst c)) s0), snd c)) (find (fun c => svd_b M (fst (fst c)) (snd (fst c)) (snd c)) svds);
     ic_inv := fun M => find (inv_b M) invs;
     ic_root := fun _ _ => None;
     ic_small := fun _ => false |}.

Definition roots_b (roots : list Qi) : bool := forallb (fun w => if nonneg_b (smul w w) then nonneg_b w else true) roots.

Lemma nonneg_div x y z : divQ x y = Some z -> nonnegQ x -> nonnegQ y -> nonnegQ z.
Proof.
  intros H [X1 X2] [Y1 Y2]. unfold divQ in H. destruct (Qi_eqb _ x) eqn:E; [|discriminate]. injection H as <-.
  destruct x as [a b], y as [c e]. cbn [fst snd] in *. subst b e. split; cbn.
  - ring.
  - match goal with |- (0 <= ?t)%Qc => replace t with ((a * c) * / (c * c + 0 * 0))%Qc by ring end.
    assert (H1 : (0 <= a * c)%Qc) by (rewrite <- (Qcmult_0_l c); apply Qcmult_le_compat_r; assumption).
    destruct (Qclt_le_dec 0 (c * c + 0 * 0)) as [Hp|Hn].
    + assert (Hi : (0 <= / (c * c + 0 * 0))%Qc).
      { apply Qclt_le_weak. unfold Qclt, Qcinv, Q2Qc in *. cbn. rewrite Qred_correct. apply Qinv_lt_0_compat. exact Hp. }
      rewrite <- (Qcmult_0_l (/ (c * c + 0 * 0))). apply Qcmult_le_compat_r; assumption.
    + assert (Hc : (c * c + 0 * 0 = 0)%Qc).
      { apply Qcle_antisym; [exact Hn|]. replace (c * c + 0 * 0)%Qc with (c * c)%Qc by ring. rewrite <- (Qcmult_0_l c). apply Qcmult_le_compat_r; assumption. }
      rewrite Hc. change (/ 0)%Qc with 0%Qc. replace (a * c * 0)%Qc with 0%Qc by ring. apply Qcle_refl.
Qed.

Lemma icQ_ok pairs chols svds invs roots : roots_b roots = true -> icalls_ok nonnegQ (icQ pairs chols svds invs roots).
Proof.
  intros HR. unfold icalls_ok. cbn [icQ ic_arn ic_dec ic_chol ic_svd ic_inv ic_root].
  split; [apply decQ_ok|].
  split. { intros n f v0 eta v H. apply find_some in H as [_ H]. unfold eig_b in H. cbn [fst snd] in H. ands. apply Nat.eqb_eq in H. split; [exact H|].
    destruct (f v) as [w|]; [|discriminate]. f_equal. now apply leqb_eq. }
  split. { intros M X _ H. apply find_some in H as [_ H]. now apply chol_b_sound. }
  split. { intros M U Sv V _ H. destruct (find _ svds) as [[[U' v] V']|] eqn:E; [|discriminate]. cbn in H. injection H as <- <- <-. apply find_some in E as [_ E]. now apply svd_b_sound. }
  split. { intros M N _ H. apply find_some in H as [_ H]. now apply inv_b_sound. }
  split; [discriminate|].
  split; [split; [reflexivity|apply Qcle_refl]|].
  split. { intros [a a'] [b b'] [H1 H2] [H3 H4]. cbn [fst snd] in *. subst. split; cbn; [ring|]. rewrite <- (Qcplus_0_l 0). apply Qcplus_le_compat; assumption. }
  split. { intros [a a'] [H1 H2]. cbn [fst snd] in *. subst. cbn. f_equal. }
  split. { intros [a b] H. assert (Hb : b = 0%Qc) by (apply Qcdouble; exact (f_equal snd H)). subst b. split; cbn; [ring|].
    replace (a * a - 0 * 0)%Qc with (a * a)%Qc by ring.
    destruct (Qclt_le_dec a 0) as [Hl|Hl].
    - apply Qclt_le_weak in Hl. apply Qcopp_le_compat in Hl. replace (- 0)%Qc with 0%Qc in Hl by ring. replace (a * a)%Qc with (- a * - a)%Qc by ring.
      rewrite <- (Qcmult_0_l (- a)). apply Qcmult_le_compat_r; assumption.
    - rewrite <- (Qcmult_0_l a). apply Qcmult_le_compat_r; assumption. }
  split; [exact nonneg_div|].
  intros x w H Hx. apply find_some in H as [Hin H]. apply Qi_eqb_eq in H. unfold roots_b in HR. rewrite forallb_forall in HR. specialize (HR w Hin). cbn beta in HR.
  rewrite H, (nonneg_b_complete x Hx) in HR. now apply nonneg_b_sound.
Qed.

(** ** Data *)
Definition exA (k : Qi) : site Qi := site_scale k (qsite 2 2 2 [qi (143 # 375) 0; qi 0 (96 # 125); qi 0 (1147 # 6750); qi (136 # 375) 0; qi 0 (8 # 125); qi (72 # 125) 0; qi (409 # 1125) 0; qi 0 (116 # 125)]).
Definition ex_r : mat Qi := qmat 2 2 [qi 1 0; qi 0 (-5 # 18); qi 0 (5 # 18); qi (349 # 324) 0].
Definition ex_l : mat Qi := qmat 2 2 [qi (841 # 7225) 0; qi 0 (-288 # 1445); qi 0 (288 # 1445); qi (5184 # 7225) 0].
Definition ex_X : mat Qi := qmat 2 2 [qi 1 0; qi 0 0; qi 0 (5 # 18); qi 1 0].
Definition ex_Xi : mat Qi := qmat 2 2 [qi 1 0; qi 0 0; qi 0 (-5 # 18); qi 1 0].
Definition ex_Y : mat Qi := qmat 2 2 [qi (29 # 85) 0; qi 0 0; qi 0 (288 # 493); qi (1512 # 2465) 0].
Definition ex_Yi : mat Qi := qmat 2 2 [qi (85 # 29) 0; qi 0 (-1700 # 609); qi 0 0; qi (2465 # 1512) 0].
Definition ex_U : mat Qi := qmat 2 2 [qi 0 (20 # 29); qi (21 # 29) 0; qi (21 # 29) 0; qi 0 (20 # 29)].
Definition ex_V : mat Qi := qmat 2 2 [qi 0 0; qi 1 0; qi 1 0; qi 0 0].
Definition ex_rv : list Qi := [qi (3 # 5) (4 # 5); qi (2 # 9) (-1 # 6); qi (-2 # 9) (1 # 6); qi (349 # 540) (349 # 405)].
Definition ex_lv : list Qi := [qi (841 # 7225) 0; qi 0 (-288 # 1445); qi 0 (288 # 1445); qi (5184 # 7225) 0].
Definition exC : icalls Qi := icQ
  [(qi 4 0, ex_rv); (qi 4 0, ex_lv); (qi 1 0, ex_rv); (qi 1 0, ex_lv)]
  [ex_X; ex_Y] [(ex_U, [qi (72 # 85) 0; qi (21 # 85) 0], ex_V)] [ex_Xi; ex_Yi]
  [qi 1 0; qi (3 # 5) (-4 # 5); qi (34 # 15) 0; qi (17 # 15) 0; qi (15 # 17) 0].

(** A real tensor of four states and bond dimension four whose singular values have
    rational roots: 30^4 + 120^4 + 272^4 + 315^4 = 353^4. *)
Definition exx (i : nat) : Qi := nth i [qi (30 # 353) 0; qi (120 # 353) 0; qi (272 # 353) 0; qi (315 # 353) 0] s0.
Definition exB : site Qi := mkSite 4 4 4 (fun s i j => if Nat.eqb j ((i + s) mod 4) then smul (exx j) (exx j) else s0).
Definition exx2 (i : nat) : Qi := smul (exx i) (exx i).
Definition ex4 (f : nat -> Qi) : mat Qi := qmat 4 4 (flat_map (fun i => map (fun j => if Nat.eqb i j then f i else qi 0 0) (seq 0 4)) (seq 0 4)).
Definition ex1 : mat Qi := ex4 (fun _ => qi 1 0).
Definition ex_lB : mat Qi := ex4 (fun i => smul (exx2 i) (exx2 i)).
Definition exCB : icalls Qi := icQ [(qi 1 0, flat2 ex1); (qi 1 0, flat2 ex_lB)]
  [ex1; ex4 exx2] [(ex1, map exx2 (seq 0 4), ex1)]
  [ex1; ex4 (fun i => nth i [qi (124609 # 900) 0; qi (124609 # 14400) 0; qi (124609 # 73984) 0; qi (124609 # 99225) 0] s0)]
  (qi 1 0 :: map exx (seq 0 4)).

(** Objects with one tensor. *)
Definition one_site (A : site Qi) : imps Qi := mkI [A] 1 (phys A) (dr A) None None None None.
