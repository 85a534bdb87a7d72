(** Proofs about tensor and n_body. *)
From Coq Require Import ZArith.
From Verif Require Import Alg ModelMPS SpecMPS ModelNcon ModelEk ProofEk4 ModelTensor SpecTensor ProofTensor ProofTrace ProofTrace2 ModelSpin SpecSpin.

Section Proof.
Context {R : sring}.
Add Ring Rr : (s_th R).
Local Open Scope sr_scope.

(** * Matrix algebra *)
Lemma mat_eq_refl (A : mat R) : mat_eq A A.
Proof. repeat split. Qed.
Lemma mat_eq_sym (A B : mat R) : mat_eq A B -> mat_eq B A.
Proof. intros (H1 & H2 & H3). repeat split; try congruence. intros i j Hi Hj. symmetry. apply H3; congruence. Qed.
Lemma mat_eq_trans (A B C : mat R) : mat_eq A B -> mat_eq B C -> mat_eq A C.
Proof.
  intros (H1 & H2 & H3) (G1 & G2 & G3). split; [congruence|]. split; [congruence|]. intros i j Hi Hj.
  rewrite H3 by assumption. apply G3; congruence.
Qed.

Lemma mmul_eq (A A' B B' : mat R) : mc A = mr B -> mat_eq A A' -> mat_eq B B' -> mat_eq (mmul A B) (mmul A' B').
Proof.
  intros Hd (H1 & H2 & H3) (G1 & G2 & G3). split; [exact H1|]. split; [exact G2|]. cbn. intros i j Hi Hj.
  rewrite <- H2. apply sum_ext. intros k Hk. rewrite H3, G3 by congruence. reflexivity.
Qed.

Lemma kron_eq (A A' B B' : mat R) : mat_eq A A' -> mat_eq B B' -> mat_eq (kron A B) (kron A' B').
Proof.
  intros (H1 & H2 & H3) (G1 & G2 & G3). split; [cbn; congruence|]. split; [cbn; congruence|]. cbn [kron mr mc me]. intros i j Hi Hj.
  rewrite <- G1, <- G2. assert (mr B <> 0%nat) by (intros E; rewrite E in Hi; lia). assert (mc B <> 0%nat) by (intros E; rewrite E in Hj; lia).
  rewrite H3, G3; try reflexivity; try (apply Nat.mod_upper_bound; assumption); apply Nat.div_lt_upper_bound; lia.
Qed.

(** (A x B)(C x D) = AC x BD. *)
Lemma kron_mixed (A B C D : mat R) : mc A = mr C -> mc B = mr D ->
  mat_eq (mmul (kron A B) (kron C D)) (kron (mmul A C) (mmul B D)).
Proof.
  intros H1 H2. split; [reflexivity|]. split; [reflexivity|]. cbn [kron mmul mr mc me]. intros i j Hi Hj.
  rewrite <- H2. rewrite (sum_mul_divmod (mc A) (mc B) (fun a b => me A (i / mr B)%nat a * me B (i mod mr B)%nat b * (me C a (j / mc D)%nat * me D b (j mod mc D)%nat))).
  rewrite <- sum_mul_r. apply sum_ext. intros a Ha. rewrite <- sum_mul_l. apply sum_ext. intros b Hb. ring.
Qed.

Fixpoint map2 {A B C} (f : A -> B -> C) (l : list A) (m : list B) : list C :=
  match l, m with x :: l, y :: m => f x y :: map2 f l m | _, _ => [] end.

Lemma fold_kron_eq l : forall l' (A A' : mat R), Forall2 mat_eq l l' -> mat_eq A A' -> mat_eq (fold_left kron l A) (fold_left kron l' A').
Proof.
  induction l as [|x l IH]; intros l' A A' H HA; inversion H; subst; cbn; [exact HA|]. apply IH; [assumption|]. now apply kron_eq.
Qed.

Lemma mmul_shape_r (A B : mat R) : mr (mmul A B) = mr A /\ mc (mmul A B) = mc B.
Proof. split; reflexivity. Qed.

Lemma fold_kron_mc l : forall (A : mat R), mc (fold_left kron l A) = (mc A * fold_right Nat.mul 1 (map (@mc R) l))%nat.
Proof. induction l as [|x l IH]; intros A; cbn; [lia|]. rewrite IH. cbn. lia. Qed.
Lemma fold_kron_mr l : forall (A : mat R), mr (fold_left kron l A) = (mr A * fold_right Nat.mul 1 (map (@mr R) l))%nat.
Proof. induction l as [|x l IH]; intros A; cbn; [lia|]. rewrite IH. cbn. lia. Qed.

Lemma fold_kron_mul l : forall l' (A A' : mat R), Forall2 (fun x y => mc x = mr y) l l' -> mc A = mr A' ->
  mat_eq (mmul (fold_left kron l A) (fold_left kron l' A')) (fold_left kron (map2 mmul l l') (mmul A A')).
Proof.
  induction l as [|x l IH]; intros l' A A' H HA; inversion H; subst; cbn; [apply mat_eq_refl|].
  eapply mat_eq_trans; [apply IH; [assumption|cbn; congruence]|]. apply fold_kron_eq.
  - clear. set (m := map2 mmul l l'0). induction m; constructor; [apply mat_eq_refl|assumption].
  - now apply kron_mixed.
Qed.

(** * Entries of a Kronecker product of several matrices *)
Fixpoint prod_entries (l : list (mat R)) (s t : list nat) : R :=
  match l, s, t with
  | x :: l, a :: s, b :: t => me x a b * prod_entries l s t
  | _, _, _ => 1
  end.

Lemma fold_kron_entry l : forall (A : mat R) a b s t, incfg (map (@mr R) l) s -> incfg (map (@mc R) l) t ->
  me (fold_left kron l A) (a * fold_right Nat.mul 1 (map (@mr R) l) + ravel (map (@mr R) l) s)%nat
     (b * fold_right Nat.mul 1 (map (@mc R) l) + ravel (map (@mc R) l) t)%nat = me A a b * prod_entries l s t.
Proof.
  induction l as [|x l IH]; intros A a b s t Hs Ht.
  - inversion Hs; inversion Ht; subst. cbn. rewrite !Nat.mul_1_r, !Nat.add_0_r. ring.
  - cbn [map] in Hs, Ht. inversion Hs as [|? ? ? ? Hx Hs']; subst. inversion Ht as [|? ? ? ? Hy Ht']; subst.
    rename x0 into u. rename x1 into v. cbn [fold_left map fold_right ravel prod_entries].
    replace (a * (mr x * fold_right Nat.mul 1 (map (@mr R) l)) + (u * fold_right Nat.mul 1 (map (@mr R) l) + ravel (map (@mr R) l) l0))%nat
      with ((mr x * a + u) * fold_right Nat.mul 1 (map (@mr R) l) + ravel (map (@mr R) l) l0)%nat by nia.
    replace (b * (mc x * fold_right Nat.mul 1 (map (@mc R) l)) + (v * fold_right Nat.mul 1 (map (@mc R) l) + ravel (map (@mc R) l) l1))%nat
      with ((mc x * b + v) * fold_right Nat.mul 1 (map (@mc R) l) + ravel (map (@mc R) l) l1)%nat by nia.
    rewrite IH by assumption. destruct (kron_loc A x a b u v Hx Hy) as [_ ->]. ring.
Qed.

Lemma tensor_entry ops s t : ops <> [] -> incfg (map (@mr R) ops) s -> incfg (map (@mc R) ops) t ->
  exists M, tensor ops = Ok M /\ mr M = fold_right Nat.mul 1%nat (map (@mr R) ops) /\ mc M = fold_right Nat.mul 1%nat (map (@mc R) ops) /\
    me M (position (map (@mr R) ops) s) (position (map (@mc R) ops) t) = prod_entries ops s t.
Proof.
  destruct ops as [|x l]; [congruence|]. intros _ Hs Ht. cbn [tensor]. eexists. split; [reflexivity|].
  split; [rewrite fold_kron_mr; reflexivity|]. split; [rewrite fold_kron_mc; reflexivity|].
  rewrite !position_ravel by (eapply incfg_length; eassumption). cbn [map] in *.
  inversion Hs as [|? ? ? ? Hx Hs']; subst. inversion Ht as [|? ? ? ? Hy Ht']; subst.
  cbn [ravel prod_entries]. now apply fold_kron_entry.
Qed.

(** * n_body *)
Variable ilog : nat -> nat -> option nat.

Definition body_mat (op : mat R) (k j : nat) : mat R :=
  mkMat (mr op) (mr op) (fun a b => dlt a b * (1 - (if Nat.eqb k j then 1 else 0)) + me op a b * (if Nat.eqb k j then 1 else 0)).

Lemma body_mat_hit (op : mat R) k : mr op = mc op -> mat_eq (body_mat op k k) op.
Proof.
  intros H. split; [reflexivity|]. split; [exact H|]. cbn. intros i j _ _. rewrite Nat.eqb_refl. ring.
Qed.
Lemma body_mat_miss (op : mat R) k j : k <> j -> mat_eq (body_mat op k j) (eye (mr op)).
Proof.
  intros H. split; [reflexivity|]. split; [reflexivity|]. cbn. intros a b _ _. destruct (Nat.eqb_spec k j); [contradiction|]. ring.
Qed.

Lemma n_body_run (op : mat R) k n : mr op = mc op -> k < n ->
  n_body ilog op (Z.of_nat (k + 1)) n None = tensor (map (body_mat op k) (seq 0 n)).
Proof.
  intros Hsq Hk. unfold n_body. rewrite (mapM_ok _ (body_mat op k)).
  - cbn [bind]. destruct (Z.ltb_spec (Z.of_nat (k + 1) - 1) (Z.of_nat n)); [reflexivity|lia].
  - intros j _. unfold body_item. rewrite Hsq, Nat.eqb_refl. f_equal. unfold body_mat. rewrite Hsq.
    replace (Z.eqb (Z.of_nat (k + 1) - 1) (Z.of_nat j)) with (Nat.eqb k j); [reflexivity|].
    destruct (Nat.eqb_spec k j), (Z.eqb_spec (Z.of_nat (k + 1) - 1) (Z.of_nat j)); try reflexivity; lia.
Qed.

Lemma prod_ids (op : mat R) k : forall (js s t : list nat), ~ In k js -> length s = length js -> length t = length js ->
  Forall (fun a => (a < mr op)%nat) s -> Forall (fun a => (a < mr op)%nat) t ->
  prod_entries (map (body_mat op k) js) s t = if nlist_eqb s t then 1 else 0.
Proof.
  induction js as [|j js IH]; intros s t Hn Hs Ht Bs Bt.
  - destruct s, t; try discriminate. reflexivity.
  - destruct s as [|a s]; [discriminate|]. destruct t as [|b t]; [discriminate|]. cbn [map prod_entries].
    inversion Bs; inversion Bt; subst.
    rewrite (IH s t); [|intros H; apply Hn; now right|now injection Hs|now injection Ht|assumption|assumption].
    destruct (body_mat_miss op k j) as (_ & _ & E); [intros ->; apply Hn; now left|].
    rewrite E by assumption. cbn [eye me]. unfold dlt. cbn [nlist_eqb]. destruct (Nat.eqb_spec a b); cbn.
    + destruct (nlist_eqb s t); ring.
    + ring.
Qed.

Lemma prod_entries_app (l l2 : list (mat R)) : forall s s2 t t2, length s = length l -> length t = length l ->
  prod_entries (l ++ l2) (s ++ s2) (t ++ t2) = prod_entries l s t * prod_entries l2 s2 t2.
Proof.
  induction l as [|x l IH]; intros [|a s] s2 [|b t] t2 Hs Ht; try discriminate; cbn; [ring|].
  rewrite IH by (injection Hs; injection Ht; auto). ring.
Qed.

Lemma nlist_eqb_app a b : forall a' b', length a = length a' -> nlist_eqb (a ++ b) (a' ++ b') = (nlist_eqb a a' && nlist_eqb b b')%bool.
Proof.
  induction a as [|x a IH]; intros [|y a'] b' H; try discriminate; cbn; [reflexivity|].
  rewrite IH by (injection H; auto). now rewrite andb_assoc.
Qed.

Lemma split_at {A} (k : nat) (l : list A) (d0 : A) : (k < length l)%nat -> l = firstn k l ++ nth k l d0 :: skipn (S k) l.
Proof.
  revert l. induction k as [|k IH]; intros [|x l] H; cbn in H; try lia; [reflexivity|]. cbn. f_equal. apply IH. lia.
Qed.

Lemma incfg_cut ds es : forall s t, length s = length ds -> incfg (ds ++ es) (s ++ t) -> incfg ds s /\ incfg es t.
Proof.
  induction ds as [|d ds IH]; intros [|x s] t H Hi; try discriminate; cbn in *; [split; [constructor|exact Hi]|].
  inversion Hi; subst. destruct (IH s t) as [H1 H2]; [now injection H|assumption|]. split; [now constructor|exact H2].
Qed.

(** A list of identities with op in the middle acts at the place of op. *)
Lemma middle_acts (pre post : list (mat R)) (op : mat R) (d : list nat) (d2 : list nat) :
  Forall2 (fun x n => mat_eq x (eye n)) pre d -> Forall2 (fun x n => mat_eq x (eye n)) post d2 -> mr op = mc op ->
  exists M, tensor (pre ++ op :: post) = Ok M /\ acts_at (d ++ mr op :: d2) (length pre) op M.
Proof.
  intros H1 H2 Hsq.
  assert (Hd : forall l ds, Forall2 (fun (x : mat R) n => mat_eq x (eye n)) l ds -> map (@mr R) l = ds /\ map (@mc R) l = ds).
  { induction 1 as [|x n l ds (E1 & E2 & _) _ [IH1 IH2]]; [split; reflexivity|]. cbn. rewrite IH1, IH2, E1, E2. split; reflexivity. }
  destruct (Hd _ _ H1) as [R1 C1]. destruct (Hd _ _ H2) as [R2 C2].
  assert (HR : map (@mr R) (pre ++ op :: post) = d ++ mr op :: d2) by (rewrite map_app; cbn; congruence).
  assert (HC : map (@mc R) (pre ++ op :: post) = d ++ mr op :: d2) by (rewrite map_app; cbn; congruence).
  assert (Hid : forall l ds, Forall2 (fun (x : mat R) n => mat_eq x (eye n)) l ds -> forall s t, incfg ds s -> incfg ds t -> prod_entries l s t = if nlist_eqb s t then 1 else 0).
  { induction 1 as [|x n l ds (E1 & E2 & E3) _ IH]; intros s t Hs Ht; inversion Hs; inversion Ht; subst; [reflexivity|].
    cbn [prod_entries nlist_eqb]. rewrite IH by assumption. cbn [eye mr mc me] in E1, E2, E3. rewrite E3 by lia.
    unfold dlt. match goal with |- context [Nat.eqb ?a ?b] => destruct (Nat.eqb_spec a b) end; cbn.
    - destruct (nlist_eqb _ _); ring.
    - ring. }
  assert (Hlen : length pre = length d) by (clear -H1; induction H1; cbn; congruence).
  assert (Hlen2 : length post = length d2) by (clear -H2; induction H2; cbn; congruence).
  destruct (pre ++ op :: post) as [|x l] eqn:El; [destruct pre; discriminate|].
  exists (fold_left kron l x). split; [reflexivity|]. split; [|split].
  - rewrite fold_kron_mr, <- HR. reflexivity.
  - rewrite fold_kron_mc, <- HC. reflexivity.
  - intros s t Hs Ht.
    destruct (tensor_entry (x :: l) s t ltac:(discriminate)) as (M & EM & _ & _ & V); [rewrite HR; exact Hs|rewrite HC; exact Ht|].
    injection EM as <-. rewrite HR, HC in V. rewrite V, <- El.
    pose proof (incfg_length _ _ Hs) as Ls. pose proof (incfg_length _ _ Ht) as Lt. rewrite app_length in Ls, Lt. cbn in Ls, Lt.
    rewrite (split_at (length pre) s 0%nat) in Hs by lia. rewrite (split_at (length pre) t 0%nat) in Ht by lia.
    rewrite (split_at (length pre) s 0%nat) at 1 by lia. rewrite (split_at (length pre) t 0%nat) at 1 by lia.
    apply incfg_cut in Hs as [Hs1 Hs2]; [|rewrite firstn_length; lia]. apply incfg_cut in Ht as [Ht1 Ht2]; [|rewrite firstn_length; lia].
    apply incfg_cons in Hs2 as [Hs2 Hs3]. apply incfg_cons in Ht2 as [Ht2 Ht3].
    rewrite prod_entries_app by (rewrite firstn_length; lia). cbn [prod_entries].
    rewrite (Hid _ _ H1) by assumption. rewrite (Hid _ _ H2) by assumption.
    unfold agree_off. rewrite nlist_eqb_app by (rewrite !firstn_length; lia).
    destruct (nlist_eqb _ _), (nlist_eqb _ _); cbn; ring.
Qed.

Lemma tensor_eq (l l' : list (mat R)) M : Forall2 mat_eq l l' -> tensor l = Ok M -> exists M', tensor l' = Ok M' /\ mat_eq M M'.
Proof.
  intros H E. destruct l as [|x l]; [discriminate|]. inversion H; subst. injection E as <-. cbn. eexists. split; [reflexivity|].
  now apply fold_kron_eq.
Qed.

Lemma acts_eq ds k (op M M' : mat R) : mat_eq M M' -> acts_at ds k op M -> acts_at ds k op M'.
Proof.
  intros (E1 & E2 & E3) (A1 & A2 & A3). split; [congruence|]. split; [congruence|]. intros s t Hs Ht. rewrite <- A3 by assumption.
  symmetry. apply E3; [rewrite A1|rewrite A2]; now apply position_lt.
Qed.

Lemma acts_unique ds k (op M M' : mat R) : acts_at ds k op M -> acts_at ds k op M' -> mat_eq M M'.
Proof.
  intros (A1 & A2 & A3) (B1 & B2 & B3). split; [congruence|]. split; [congruence|]. intros i j Hi Hj. rewrite A1 in Hi. rewrite A2 in Hj.
  destruct (position_onto ds i Hi) as (s & Hs & <-). destruct (position_onto ds j Hj) as (t & Ht & <-).
  rewrite A3, B3 by assumption. reflexivity.
Qed.

Lemma repeat_app_mid {A} (x : A) k n : (k < n)%nat -> repeat x n = repeat x k ++ x :: repeat x (n - k - 1).
Proof. intros H. change (x :: repeat x (n - k - 1)) with (repeat x (S (n - k - 1))). rewrite <- repeat_app. f_equal. lia. Qed.

Lemma Forall2_map_const {A} (f : A -> mat R) n (js : list A) : (forall j, In j js -> mat_eq (f j) (eye n)) ->
  Forall2 (fun x n => mat_eq x (eye n)) (map f js) (repeat n (length js)).
Proof.
  induction js as [|j js IH]; intros H; cbn; constructor; [apply H; now left|]. apply IH. intros; apply H; now right.
Qed.

(** op at site k (counted from zero) of n sites of the same dimension. *)
Lemma n_body_acts (op : mat R) k n : mr op = mc op -> (k < n)%nat ->
  exists M, n_body ilog op (Z.of_nat (k + 1)) n None = Ok M /\ acts_at (repeat (mr op) n) k op M.
Proof.
  intros Hsq Hk. rewrite (n_body_run op k n Hsq Hk).
  assert (Hl : map (body_mat op k) (seq 0 n) = map (body_mat op k) (seq 0 k) ++ body_mat op k k :: map (body_mat op k) (seq (S k) (n - k - 1))).
  { replace n with (k + S (n - k - 1))%nat at 1 by lia. rewrite seq_app, map_app. reflexivity. }
  rewrite Hl.
  destruct (middle_acts (map (body_mat op k) (seq 0 k)) (map (body_mat op k) (seq (S k) (n - k - 1))) (body_mat op k k)
    (repeat (mr op) (length (seq 0 k))) (repeat (mr op) (length (seq (S k) (n - k - 1))))) as (M & EM & HM).
  - apply Forall2_map_const. intros j Hj. apply in_seq in Hj. apply body_mat_miss. lia.
  - apply Forall2_map_const. intros j Hj. apply in_seq in Hj. apply body_mat_miss. lia.
  - reflexivity.
  - rewrite map_length, !seq_length in HM. exists M. split; [exact EM|]. cbn [body_mat mr] in HM.
    rewrite <- repeat_app_mid in HM by exact Hk. destruct HM as (A1 & A2 & A3). split; [exact A1|]. split; [exact A2|].
    intros s t Hs Ht. rewrite A3 by assumption. destruct (agree_off k s t); [|reflexivity].
    assert (Hb : forall s, incfg (repeat (mr op) n) s -> (nth k s 0 < mr op)%nat).
    { clear -Hk. intros s H. revert k Hk s H. induction n as [|n IH]; intros k Hk s H; [lia|]. inversion H; subst. destruct k; cbn; [assumption|].
      apply IH; [lia|assumption]. }
    destruct (body_mat_hit op k Hsq) as (_ & _ & E). apply E; [apply Hb, Hs|cbn; apply Hb, Ht].
Qed.

(** Sites outside the chain. *)
Lemma n_body_low (op : mat R) (i : Z) n : mr op = mc op -> (i <= 0)%Z -> (0 < n)%nat ->
  exists M, n_body ilog op i n None = Ok M /\ mat_eq M (mone (mr op ^ n)).
Proof.
  intros Hsq Hi Hn. unfold n_body. rewrite (mapM_ok _ (fun _ => mkMat (mr op) (mr op) (fun a b => dlt a b * (1 - 0) + me op a b * 0))).
  2:{ intros j _. unfold body_item. rewrite Hsq, Nat.eqb_refl. destruct (Z.eqb_spec (i - 1) (Z.of_nat j)); [lia|]. reflexivity. }
  cbn [bind]. destruct (Z.ltb_spec (i - 1) (Z.of_nat n)); [|lia].
  destruct n as [|n]; [lia|]. cbn [seq map].
  destruct (middle_acts [] (map (fun _ : nat => mkMat (mr op) (mr op) (fun a b => dlt a b * (1 - 0) + me op a b * 0)) (seq 1 n))
    (mkMat (mr op) (mr op) (fun a b => dlt a b * (1 - 0) + me op a b * 0)) [] (repeat (mr op) (length (seq 1 n)))) as (M & EM & A1 & A2 & A3).
  - constructor.
  - apply Forall2_map_const. intros j _. split; [reflexivity|]. split; [reflexivity|]. cbn. intros. ring.
  - reflexivity.
  - cbn [app length mr] in *. rewrite seq_length in *. exists M. split; [exact EM|].
    assert (Hp : fold_right Nat.mul 1%nat (mr op :: repeat (mr op) n) = (mr op ^ S n)%nat).
    { clear. cbn. f_equal. induction n; cbn; [reflexivity|]. now rewrite IHn. }
    rewrite Hp in A1, A2. split; [exact A1|]. split; [exact A2|]. intros a b Ha Hb. rewrite A1, <- Hp in Ha. rewrite A2, <- Hp in Hb.
    destruct (position_onto _ a Ha) as (s & Hs & <-). destruct (position_onto _ b Hb) as (t & Ht & <-).
    rewrite A3 by assumption. cbn [mone me eye].
    inversion Hs; inversion Ht; subst. unfold agree_off. cbn [firstn skipn app nth me].
    assert (Hinj : forall ds s t, incfg ds s -> incfg ds t -> position ds s = position ds t -> s = t).
    { clear. intros ds s t Hs Ht E. rewrite !position_ravel in E by (eapply incfg_length; eassumption).
      destruct (unravel_ravel ds s Hs) as [E1 _]. destruct (unravel_ravel ds t Ht) as [E2 _]. congruence. }
    unfold dlt at 2. destruct (Nat.eqb_spec (position (mr op :: repeat (mr op) n) (x :: l)) (position (mr op :: repeat (mr op) n) (x0 :: l0))) as [E|E].
    + apply Hinj in E; [|assumption|assumption]. injection E as -> ->. rewrite dlt_eq.
      replace (nlist_eqb l0 l0) with true by (clear; induction l0; cbn; [reflexivity|now rewrite Nat.eqb_refl]). ring.
    + destruct (nlist_eqb l l0) eqn:El; [|reflexivity]. unfold dlt. destruct (Nat.eqb_spec x x0) as [->|]; [|ring].
      exfalso. apply E. f_equal. f_equal. revert El. clear. revert l0. induction l as [|y l IH]; intros [|z l0] H; try discriminate; [reflexivity|].
      cbn in H. apply andb_prop in H as [H1 H2]. apply Nat.eqb_eq in H1. f_equal; [exact H1|now apply IH].
Qed.

Lemma n_body_high (op : mat R) (i : Z) n : mr op = mc op -> (Z.of_nat n < i)%Z -> n_body ilog op i n None = Err Exception_.
Proof.
  intros Hsq Hi. unfold n_body. rewrite (mapM_ok _ (fun j => mkMat (mr op) (mr op) (fun a b => dlt a b * (1 - (if Z.eqb (i - 1) (Z.of_nat j) then 1 else 0)) + me op a b * (if Z.eqb (i - 1) (Z.of_nat j) then 1 else 0)))).
  2:{ intros j _. unfold body_item. rewrite Hsq, Nat.eqb_refl. reflexivity. }
  cbn [bind]. destruct (Z.ltb_spec (i - 1) (Z.of_nat n)); [lia|reflexivity].
Qed.

(** With d: op at place i (from zero) among n + 1 - k identities. *)
Lemma n_body_d_acts (op : mat R) (i n d k : nat) : mr op = mc op -> ilog (mr op) d = Some k -> (i <= n)%nat -> (i + k <= n + 1)%nat ->
  exists M, n_body ilog op (Z.of_nat i) n (Some d) = Ok M /\
    acts_at (repeat d i ++ mr op :: repeat d (n + 1 - k - i)) i op M.
Proof.
  intros Hsq Hl Hi Hk. unfold n_body. rewrite Hl. cbn [bind]. destruct (Z.ltb_spec (Z.of_nat i - 1) (Z.of_nat n)); [|lia].
  unfold insert_at. rewrite repeat_length. destruct (Z.ltb_spec (Z.of_nat i - 1 + 1) 0); [lia|].
  set (N := (n + 1 - k)%nat). replace (Z.to_nat (Z.of_nat n + 1 - Z.of_nat k)) with N by (unfold N; lia).
  replace (Z.to_nat (Z.min (Z.of_nat i - 1 + 1) (Z.of_nat N))) with i by (unfold N; lia).
  assert (Hf : firstn i (repeat (eye d) N) = repeat (eye (R := R) d) i).
  { assert (HN : (i <= N)%nat) by (unfold N; lia). clear -HN. revert i HN. generalize N. clear. intros N; induction N as [|N IH]; intros [|i] H; cbn; try reflexivity; try lia. f_equal. apply IH. lia. }
  assert (Hs : skipn i (repeat (eye d) N) = repeat (eye (R := R) d) (N - i)).
  { assert (HN : (i <= N)%nat) by (unfold N; lia). clear -HN. revert i HN. generalize N. clear. intros N; induction N as [|N IH]; intros [|i] H; cbn; try reflexivity; try lia. apply IH. lia. }
  rewrite Hf, Hs.
  assert (Hr : forall m, Forall2 (fun (x : mat R) n => mat_eq x (eye n)) (repeat (eye d) m) (repeat d m)).
  { induction m; cbn; constructor; [apply mat_eq_refl|assumption]. }
  destruct (middle_acts (repeat (eye d) i) (repeat (eye d) (N - i)) op (repeat d i) (repeat d (N - i)) (Hr _) (Hr _) Hsq) as (M & EM & HM).
  rewrite repeat_length in HM. exists M. split; [exact EM|exact HM].
Qed.

(** * Products of operators on chains *)
Lemma mone_l (A : mat R) n : mr A = n -> mat_eq (mmul (eye n) A) A.
Proof.
  intros H. split; [cbn; congruence|]. split; [reflexivity|]. cbn. intros i j Hi Hj.
  rewrite (sum_single _ i) by (try lia; intros z Hz Hne; rewrite dlt_neq by congruence; ring). rewrite dlt_eq. ring.
Qed.
Lemma mone_r (A : mat R) n : mc A = n -> mat_eq (mmul A (eye n)) A.
Proof.
  intros H. split; [reflexivity|]. split; [cbn; congruence|]. cbn. intros i j Hi Hj.
  rewrite (sum_single _ j) by (try lia; intros z Hz Hne; rewrite dlt_neq by congruence; ring). rewrite dlt_eq. ring.
Qed.

Lemma body_prod_list (A B : mat R) k l : mr A = mc A -> mr B = mc B -> mr A = mr B -> forall js,
  Forall2 (fun x y => mc x = mr y) (map (body_mat A k) js) (map (body_mat B l) js).
Proof. intros H1 H2 H3 js. induction js; cbn; constructor; [cbn; congruence|assumption]. Qed.

Lemma map2_map {X Y Z W} (f : Y -> Z -> W) (g : X -> Y) (h : X -> Z) l : map2 f (map g l) (map h l) = map (fun x => f (g x) (h x)) l.
Proof. induction l; cbn; congruence. Qed.

Lemma n_body_prod (A B : mat R) k l n : mr A = mc A -> mr B = mc B -> mr A = mr B -> (k < n)%nat -> (l < n)%nat ->
  exists MA MB P, n_body ilog A (Z.of_nat (k + 1)) n None = Ok MA /\ n_body ilog B (Z.of_nat (l + 1)) n None = Ok MB /\
    tensor (map (fun j => mmul (body_mat A k j) (body_mat B l j)) (seq 0 n)) = Ok P /\ mat_eq (mmul MA MB) P.
Proof.
  intros HA HB HAB Hk Hl. rewrite !n_body_run by assumption.
  destruct n as [|n]; [lia|]. cbn [seq map tensor]. eexists. eexists. eexists. split; [reflexivity|]. split; [reflexivity|]. split; [reflexivity|].
  rewrite <- (map2_map mmul (body_mat A k) (body_mat B l)). apply fold_kron_mul; [now apply body_prod_list|cbn; congruence].
Qed.

Lemma tensor_map_eq (f g : nat -> mat R) js P : (forall j, In j js -> mat_eq (f j) (g j)) -> tensor (map f js) = Ok P ->
  exists P', tensor (map g js) = Ok P' /\ mat_eq P P'.
Proof.
  intros H E. eapply tensor_eq; [|exact E]. clear E. induction js as [|j js IH]; cbn; constructor; [apply H; now left|].
  apply IH. intros; apply H; now right.
Qed.

Lemma n_body_commute (A B : mat R) k l n : mr A = mc A -> mr B = mc B -> mr A = mr B -> (k < n)%nat -> (l < n)%nat -> k <> l ->
  exists MA MB, n_body ilog A (Z.of_nat (k + 1)) n None = Ok MA /\ n_body ilog B (Z.of_nat (l + 1)) n None = Ok MB /\
    mat_eq (mmul MA MB) (mmul MB MA).
Proof.
  intros HA HB HAB Hk Hl Hkl.
  destruct (n_body_prod A B k l n HA HB HAB Hk Hl) as (MA & MB & P & EA & EB & EP & HP).
  destruct (n_body_prod B A l k n HB HA (eq_sym HAB) Hl Hk) as (MB' & MA' & P' & EB' & EA' & EP' & HP').
  rewrite EA in EA'. injection EA' as <-. rewrite EB in EB'. injection EB' as <-.
  exists MA, MB. split; [exact EA|]. split; [exact EB|].
  destruct (fun H => tensor_map_eq _ (fun j => mmul (body_mat B l j) (body_mat A k j)) (seq 0 n) P H EP) as (P2 & EP2 & HP2).
  - intros j _. destruct (Nat.eq_dec k j) as [->|Nk].
    + assert (E1 : mat_eq (body_mat B l j) (eye (mr A))) by (rewrite HAB; apply body_mat_miss; congruence).
      eapply mat_eq_trans; [apply mmul_eq; [cbn; congruence|apply mat_eq_refl|exact E1]|].
      eapply mat_eq_trans; [apply mone_r; reflexivity|]. apply mat_eq_sym.
      eapply mat_eq_trans; [apply mmul_eq; [cbn; congruence|exact E1|apply mat_eq_refl]|]. apply mone_l. reflexivity.
    + assert (E1 : mat_eq (body_mat A k j) (eye (mr B))) by (rewrite <- HAB; apply body_mat_miss; congruence).
      eapply mat_eq_trans; [apply mmul_eq; [cbn; congruence|exact E1|apply mat_eq_refl]|].
      eapply mat_eq_trans; [apply mone_l; reflexivity|]. apply mat_eq_sym.
      eapply mat_eq_trans; [apply mmul_eq; [cbn; congruence|apply mat_eq_refl|exact E1]|]. apply mone_r. reflexivity.
  - rewrite EP' in EP2. injection EP2 as <-. eapply mat_eq_trans; [exact HP|]. eapply mat_eq_trans; [exact HP2|]. now apply mat_eq_sym.
Qed.

Lemma n_body_multiply (A B : mat R) k n : mr A = mc A -> mr B = mc B -> mr A = mr B -> (k < n)%nat ->
  exists MA MB MAB, n_body ilog A (Z.of_nat (k + 1)) n None = Ok MA /\ n_body ilog B (Z.of_nat (k + 1)) n None = Ok MB /\
    n_body ilog (mmul A B) (Z.of_nat (k + 1)) n None = Ok MAB /\ mat_eq (mmul MA MB) MAB.
Proof.
  intros HA HB HAB Hk. destruct (n_body_prod A B k k n HA HB HAB Hk Hk) as (MA & MB & P & EA & EB & EP & HP).
  destruct (fun H => tensor_map_eq _ (body_mat (mmul A B) k) (seq 0 n) P H EP) as (P2 & EP2 & HP2).
  - intros j _. destruct (Nat.eq_dec k j) as [->|Nk].
    + eapply mat_eq_trans; [apply mmul_eq; [cbn; congruence|apply body_mat_hit; assumption|apply body_mat_hit; assumption]|].
      apply mat_eq_sym, body_mat_hit. cbn. congruence.
    + eapply mat_eq_trans; [apply mmul_eq; [cbn; congruence|apply body_mat_miss; exact Nk|apply body_mat_miss; exact Nk]|].
      apply mat_eq_sym. eapply mat_eq_trans; [apply body_mat_miss; exact Nk|]. apply mat_eq_sym. cbn [mmul mr]. rewrite HAB. apply mone_l. reflexivity.
  - exists MA, MB, P2. split; [exact EA|]. split; [exact EB|]. rewrite n_body_run by (cbn; congruence || exact Hk).
    split; [exact EP2|]. eapply mat_eq_trans; eassumption.
Qed.
End Proof.
