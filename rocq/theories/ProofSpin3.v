(** Proofs about the generators su(N). *)
From Coq Require Import ZArith.
From Verif Require Import Alg ModelMPS SpecMPS ModelNcon ModelEk ModelTensor SpecTensor ModelSpin SpecSpin ProofSpin ProofSpin2.

Lemma NoDup_app_intro {A} (l m : list A) : NoDup l -> NoDup m -> (forall x, In x l -> ~ In x m) -> NoDup (l ++ m).
Proof.
  induction l as [|x l IH]; intros Hl Hm H; cbn; [exact Hm|]. inversion Hl; subst. constructor.
  - rewrite in_app_iff. intros [K|K]; [contradiction|]. apply (H x); [now left|exact K].
  - apply IH; try assumption. intros y Hy. apply H. now right.
Qed.

Lemma NoDup_concat_map {A B} (f : A -> list B) l : NoDup l -> (forall x, In x l -> NoDup (f x)) ->
  (forall x y b, In x l -> In y l -> In b (f x) -> In b (f y) -> x = y) -> NoDup (concat (map f l)).
Proof.
  induction l as [|x l IH]; intros Hl Hf Hd; cbn; [constructor|]. inversion Hl; subst. apply NoDup_app_intro.
  - apply Hf. now left.
  - apply IH; [assumption|intros; apply Hf; now right|]. intros y z b Hy Hz. apply Hd; now right.
  - intros b Hb Hc. apply in_concat in Hc as (m & Hm & Hb'). apply in_map_iff in Hm as (y & <- & Hy).
    assert (x = y) by (apply (Hd x y b); try assumption; [now left|now right]). subst. contradiction.
Qed.

Inductive gen := GS (i j : nat) | GA (i j : nat) | GD (i : nat).
Definition gens (N : nat) : list gen :=
  concat (map (fun i => concat (map (fun j => [GS i j; GA i j]) (seq 0 i))) (seq 0 N)) ++ map GD (seq 1 (N - 1)).
Definition gen_ok (N : nat) (g : gen) : Prop :=
  match g with GS i j | GA i j => (j < i < N)%nat | GD i => (1 <= i < N)%nat end.

Lemma gens_ok N g : In g (gens N) -> gen_ok N g.
Proof.
  unfold gens. rewrite in_app_iff, in_concat, in_map_iff. intros [(l & Hl & Hg)|(i & <- & Hi)].
  - apply in_map_iff in Hl as (i & <- & Hi). apply in_concat in Hg as (l & Hl & Hg). apply in_map_iff in Hl as (j & <- & Hj).
    apply in_seq in Hi, Hj. destruct Hg as [<-|[<-|[]]]; cbn; lia.
  - apply in_seq in Hi. cbn. lia.
Qed.

Lemma gens_nodup N : NoDup (gens N).
Proof.
  apply NoDup_app_intro.
  - apply NoDup_concat_map; [apply seq_NoDup| |].
    + intros i _. apply NoDup_concat_map; [apply seq_NoDup| |].
      * intros j _. constructor; [|constructor; [intros []|constructor]]. intros [H|[]]. discriminate.
      * intros j k b _ _ [<-|[<-|[]]] [H|[H|[]]]; congruence.
    + intros i k b _ _ H1 H2. apply in_concat in H1 as (l1 & Hl1 & H1). apply in_concat in H2 as (l2 & Hl2 & H2).
      apply in_map_iff in Hl1 as (j1 & <- & _). apply in_map_iff in Hl2 as (j2 & <- & _).
      destruct H1 as [<-|[<-|[]]], H2 as [H|[H|[]]]; congruence.
  - apply FinFun.Injective_map_NoDup; [|apply seq_NoDup]. intros i j H. congruence.
  - intros g H1 H2. apply in_map_iff in H2 as (k & <- & _). apply in_concat in H1 as (l1 & Hl1 & H1).
    apply in_map_iff in Hl1 as (i & <- & _). apply in_concat in H1 as (l2 & Hl2 & H2). apply in_map_iff in Hl2 as (j & <- & _).
    destruct H2 as [H|[H|[]]]; discriminate.
Qed.

Lemma gens_length N : (1 <= N)%nat -> length (gens N) = (N * N - 1)%nat.
Proof.
  intros H. unfold gens. rewrite app_length, map_length, seq_length.
  assert (E : length (concat (map (fun i => concat (map (fun j => [GS i j; GA i j]) (seq 0 i))) (seq 0 N))) = (N * (N - 1))%nat).
  { clear H. induction N as [|N IH]; [reflexivity|]. rewrite seq_S, map_app, concat_app, app_length, IH. cbn [map concat]. rewrite app_nil_r. cbn [Nat.add].
    assert (E : forall i, length (concat (map (fun j => [GS i j; GA i j]) (seq 0 N))) = (2 * N)%nat).
    { intros i. clear. induction N as [|N IH]; [reflexivity|]. rewrite seq_S, map_app, concat_app, app_length, IH. cbn. lia. }
    rewrite E. nia. }
  rewrite E. nia.
Qed.

Section Proof.
Context {R : sring}.
Add Ring Rr : (s_th R).
Local Open Scope sr_scope.
Variables (C : consts R) (scale : nat -> R) (N : nat).

Definition gmat (g : gen) : mat R :=
  match g with GS i j => su_sym N i j | GA i j => su_asym C N i j | GD i => su_diag scale N i end.

Lemma su_gens : su C scale N = map gmat (gens N).
Proof.
  unfold su, gens. rewrite map_app, map_map. f_equal.
  rewrite concat_map, map_map. f_equal. apply map_ext. intros i. rewrite concat_map, map_map. reflexivity.
Qed.

Lemma gmat_shape g : mr (gmat g) = N /\ mc (gmat g) = N.
Proof. destruct g; split; reflexivity. Qed.

Definition dv (i a : nat) : R := if Nat.ltb a i then 1 else if Nat.eqb a i then - sofnat i else 0.

(** Entries by Kronecker deltas. *)
Lemma sym_form i j a b : j <> i -> me (su_sym N i j) a b = dlt a i * dlt b j + dlt a j * dlt b i :> R.
Proof.
  intros H. cbn [su_sym me]. unfold dlt.
  destruct (Nat.eqb_spec a i), (Nat.eqb_spec b j), (Nat.eqb_spec a j), (Nat.eqb_spec b i); cbn; subst; try congruence; ring.
Qed.
Lemma asym_form i j a b : j <> i -> me (su_asym C N i j) a b = c_im C * (dlt a j * dlt b i - dlt a i * dlt b j).
Proof.
  intros H. cbn [su_asym me]. unfold dlt.
  destruct (Nat.eqb_spec a i), (Nat.eqb_spec b j), (Nat.eqb_spec a j), (Nat.eqb_spec b i); cbn; subst; try congruence; ring.
Qed.
Lemma diag_form i a b : me (su_diag scale N i) a b = dlt a b * (scale i * dv i a).
Proof. cbn [su_diag me]. unfold dlt, dv. destruct (Nat.eqb a b); ring. Qed.

(** Sums over the diagonals. *)
Lemma dv_split (f : nat -> R) i : (i < N)%nat -> sum N (fun a => dv i a * f a) = sum i f - sofnat i * f i.
Proof.
  intros H. replace N with (i + S (N - i - 1))%nat by lia. rewrite sum_split, sum_S_l.
  rewrite (sum_zero (N - i - 1)).
  - rewrite (sum_ext i _ f).
    + unfold dv at 1. rewrite Nat.add_0_r. destruct (Nat.ltb_spec i i); [lia|]. rewrite Nat.eqb_refl. ring.
    + intros a Ha. unfold dv. destruct (Nat.ltb_spec a i); [ring|lia].
  - intros a Ha. unfold dv. destruct (Nat.ltb_spec (i + S a) i); [lia|]. destruct (Nat.eqb_spec (i + S a) i); [lia|]. ring.
Qed.
Lemma sum_ones n : sum n (fun _ => 1) = sofnat n :> R.
Proof. induction n; cbn; [reflexivity|]. rewrite IHn. ring. Qed.

Lemma dv_sum i : (i < N)%nat -> sum N (dv i) = 0.
Proof.
  intros H. rewrite (sum_ext N _ (fun a => dv i a * 1)) by (intros; ring). rewrite (dv_split (fun _ => 1)) by exact H. rewrite sum_ones. ring.
Qed.
Lemma dv_low i k a : (a <= i)%nat -> (i < k)%nat -> dv k a = 1.
Proof. intros. unfold dv. destruct (Nat.ltb_spec a k); [reflexivity|lia]. Qed.
Lemma dv_orth i k : (i < k)%nat -> (k < N)%nat -> sum N (fun a => dv i a * dv k a) = 0.
Proof.
  intros Hi Hk. rewrite (dv_split (dv k)) by lia. rewrite (sum_ext i (dv k) (fun _ => 1)) by (intros; apply dv_low with i; lia).
  rewrite (dv_low i k i) by lia. rewrite sum_ones. ring.
Qed.
Lemma dv_norm i : (i < N)%nat -> sum N (fun a => dv i a * dv i a) = sofnat i + sofnat i * sofnat i.
Proof.
  intros H. rewrite (dv_split (dv i)) by exact H.
  rewrite (sum_ext i (dv i) (fun _ => 1)) by (intros a Ha; unfold dv; destruct (Nat.ltb_spec a i); [reflexivity|lia]).
  rewrite sum_ones. unfold dv. destruct (Nat.ltb_spec i i); [lia|]. rewrite Nat.eqb_refl. ring.
Qed.

(** Tr (Q g). *)
Definition tr2 (Q : mat R) (g : gen) : R := sum N (fun a => sum N (fun b => me Q a b * me (gmat g) b a)).

Lemma sum2_dlt (Q : mat R) i j : (i < N)%nat -> (j < N)%nat -> sum N (fun a => sum N (fun b => me Q a b * (dlt b i * dlt a j))) = me Q j i.
Proof.
  intros Hi Hj. rewrite (sum_single N j).
  - rewrite (sum_single N i); [rewrite !dlt_eq; ring|exact Hi|]. intros b Hb Hne. rewrite dlt_neq by congruence. ring.
  - exact Hj.
  - intros a Ha Hne. apply sum_zero. intros b Hb. rewrite (dlt_neq a j) by congruence. ring.
Qed.

Lemma tr2_sym Q i j : (j < i)%nat -> (i < N)%nat -> tr2 Q (GS i j) = me Q j i + me Q i j.
Proof.
  intros H1 H2. unfold tr2. cbn [gmat].
  rewrite (sum_ext N _ (fun a => sum N (fun b => me Q a b * (dlt b i * dlt a j)) + sum N (fun b => me Q a b * (dlt b j * dlt a i)))).
  2:{ intros a Ha. rewrite <- sum_add. apply sum_ext. intros b Hb. rewrite sym_form by lia. ring. }
  rewrite sum_add, !sum2_dlt by lia. reflexivity.
Qed.
Lemma tr2_asym Q i j : (j < i)%nat -> (i < N)%nat -> tr2 Q (GA i j) = c_im C * (me Q i j - me Q j i).
Proof.
  intros H1 H2. unfold tr2. cbn [gmat].
  rewrite (sum_ext N _ (fun a => c_im C * (sum N (fun b => me Q a b * (dlt b j * dlt a i)) - sum N (fun b => me Q a b * (dlt b i * dlt a j))))).
  2:{ intros a Ha. rewrite <- sum_sub, <- sum_mul_l. apply sum_ext. intros b Hb. rewrite asym_form by lia. ring. }
  rewrite sum_mul_l, sum_sub, !sum2_dlt by lia. reflexivity.
Qed.
Lemma tr2_diag Q i : tr2 Q (GD i) = scale i * sum N (fun a => dv i a * me Q a a).
Proof.
  unfold tr2. cbn [gmat]. rewrite <- sum_mul_l. apply sum_ext. intros a Ha.
  rewrite (sum_single N a); [rewrite diag_form, dlt_eq; ring|exact Ha|]. intros b Hb Hne. rewrite diag_form, dlt_neq by congruence. ring.
Qed.

Hypothesis HC : consts_ok C (fun _ => False).
Hypothesis Hs : scale_ok scale N.

Definition gen_eqb (g h : gen) : bool :=
  match g, h with
  | GS i j, GS k l | GA i j, GA k l => Nat.eqb i k && Nat.eqb j l
  | GD i, GD k => Nat.eqb i k
  | _, _ => false
  end.
Lemma gen_eqb_spec g h : reflect (g = h) (gen_eqb g h).
Proof.
  destruct g as [i j|i j|i], h as [k l|k l|k]; cbn; try (constructor; discriminate);
    destruct (Nat.eqb_spec i k); cbn; try (constructor; congruence); destruct (Nat.eqb_spec j l); constructor; congruence.
Qed.

Lemma tr2_gen g h : gen_ok N g -> gen_ok N h -> tr2 (gmat g) h = if gen_eqb g h then 1 + 1 else 0.
Proof.
  intros Hg Hh. destruct HC as (_ & _ & Hi & _).
  destruct h as [k l|k l|k]; cbn [gen_ok] in Hh; [rewrite tr2_sym by lia|rewrite tr2_asym by lia|rewrite tr2_diag];
    destruct g as [i j|i j|i]; cbn [gen_ok gmat gen_eqb] in *.
  - rewrite !sym_form by lia. unfold dlt.
    destruct (Nat.eqb_spec l i), (Nat.eqb_spec k j), (Nat.eqb_spec l j), (Nat.eqb_spec k i), (Nat.eqb_spec i k), (Nat.eqb_spec j l); cbn; try lia; ring.
  - rewrite !asym_form by lia. unfold dlt.
    destruct (Nat.eqb_spec l i), (Nat.eqb_spec k j), (Nat.eqb_spec l j), (Nat.eqb_spec k i); cbn; try lia; ring.
  - rewrite !diag_form. rewrite !dlt_neq by lia. ring.
  - rewrite !sym_form by lia. unfold dlt.
    destruct (Nat.eqb_spec l i), (Nat.eqb_spec k j), (Nat.eqb_spec l j), (Nat.eqb_spec k i); cbn; try lia; ring.
  - rewrite !asym_form by lia.
    transitivity (c_im C * c_im C * ((dlt k j * dlt l i - dlt k i * dlt l j) - (dlt l j * dlt k i - dlt l i * dlt k j))); [ring|]. rewrite Hi.
    unfold dlt.
    destruct (Nat.eqb_spec l i), (Nat.eqb_spec k j), (Nat.eqb_spec l j), (Nat.eqb_spec k i), (Nat.eqb_spec i k), (Nat.eqb_spec j l); cbn; try lia; ring.
  - rewrite !diag_form. rewrite !dlt_neq by lia. ring.
  - rewrite sum_zero; [ring|]. intros a Ha. rewrite sym_form by lia. unfold dlt. destruct (Nat.eqb_spec a i), (Nat.eqb_spec a j); try lia; ring.
  - rewrite sum_zero; [ring|]. intros a Ha. rewrite asym_form by lia. unfold dlt. destruct (Nat.eqb_spec a i), (Nat.eqb_spec a j); try lia; ring.
  - rewrite (sum_ext N _ (fun a => scale i * (dv i a * dv k a))) by (intros; rewrite diag_form, dlt_eq; ring). rewrite sum_mul_l.
    destruct (Nat.eqb_spec i k) as [<-|Hne].
    + rewrite dv_norm by lia. destruct (Hs i) as [_ E]; [lia|lia|]. rewrite <- E. ring.
    + destruct (Nat.lt_ge_cases i k).
      * rewrite dv_orth by lia. ring.
      * rewrite (sum_ext N _ (fun a => dv k a * dv i a)) by (intros; ring). rewrite dv_orth by lia. ring.
Qed.

Lemma gmat_herm g : gen_ok N g -> mat_eq (madj (gmat g)) (gmat g).
Proof.
  destruct HC as (_ & _ & _ & Hi & _).
  intros Hg. destruct g as [i j|i j|i]; cbn [gen_ok gmat] in *; (split; [reflexivity|split; [reflexivity|]]); intros a b Ha Hb; cbn [madj me].
  - rewrite !sym_form by lia. rewrite conj_add, !conj_mul, !dlt_conj. ring.
  - rewrite !asym_form by lia. rewrite conj_mul, conj_sub, !conj_mul, !dlt_conj, Hi. ring.
  - rewrite !diag_form. rewrite !conj_mul, dlt_conj. destruct (Hs i) as [E _]; [lia|lia|]. rewrite E. rewrite (dlt_sym b a). unfold dlt.
    destruct (Nat.eqb_spec a b) as [<-|]; [|ring]. f_equal. f_equal. unfold dv.
    destruct (Nat.ltb a i); [apply conj_1|]. destruct (Nat.eqb a i); [|apply conj_0]. now rewrite conj_opp, sofnat_conj.
Qed.

Lemma gmat_traceless g : gen_ok N g -> mtrace (gmat g) = 0.
Proof.
  intros Hg. unfold mtrace. destruct (gmat_shape g) as [-> _]. destruct g as [i j|i j|i]; cbn [gen_ok gmat] in *.
  - apply sum_zero. intros a Ha. rewrite sym_form by lia. unfold dlt. destruct (Nat.eqb_spec a i), (Nat.eqb_spec a j); try lia; ring.
  - apply sum_zero. intros a Ha. rewrite asym_form by lia. unfold dlt. destruct (Nat.eqb_spec a i), (Nat.eqb_spec a j); try lia; ring.
  - rewrite (sum_ext N _ (fun a => scale i * dv i a)) by (intros; rewrite diag_form, dlt_eq; ring). rewrite sum_mul_l, dv_sum by lia. ring.
Qed.

(** * Completeness *)
Lemma suml_concat {A} (f : A -> R) (l : list (list A)) : suml (map f (concat l)) = suml (map (fun m => suml (map f m)) l).
Proof. induction l as [|m l IH]; cbn; [reflexivity|]. now rewrite map_app, suml_app, IH. Qed.

(** sum over pairs j < i *)
Lemma pairs_sum (X : nat -> nat -> R) a b : (a < N)%nat -> (b < N)%nat ->
  sum N (fun i => sum i (fun j => X i j * (dlt a i * dlt b j) + X j i * (dlt a j * dlt b i))) = if Nat.eqb a b then 0 else X a b.
Proof.
  intros Ha Hb.
  assert (E : forall a b, (a < N)%nat -> (b < N)%nat -> forall Y : nat -> nat -> R, sum N (fun i => sum i (fun j => Y i j * (dlt a i * dlt b j))) = if Nat.ltb b a then Y a b else 0).
  { clear. intros a b Ha Hb Y. rewrite (sum_single N a).
    - destruct (Nat.ltb_spec b a).
      + rewrite (sum_single a b) by (first [assumption|intros j Hj Hne; rewrite (dlt_neq b j) by congruence; ring]). rewrite !dlt_eq. ring.
      + apply sum_zero. intros j Hj. rewrite (dlt_neq b j) by lia. ring.
    - exact Ha.
    - intros i Hi Hne. apply sum_zero. intros j Hj. rewrite (dlt_neq a i) by congruence. ring. }
  transitivity (sum N (fun i => sum i (fun j => X i j * (dlt a i * dlt b j))) + sum N (fun i => sum i (fun j => X j i * (dlt b i * dlt a j)))).
  { rewrite <- sum_add. apply sum_ext. intros i Hi. rewrite <- sum_add. apply sum_ext. intros j Hj. ring. }
  rewrite E, (E b a Hb Ha (fun i j => X j i)) by assumption.
  destruct (Nat.ltb_spec b a), (Nat.ltb_spec a b), (Nat.eqb_spec a b); try lia; ring.
Qed.

Lemma diag_complete (inv : nat -> R) n : (forall i, (1 <= i)%nat -> (i <= n)%nat -> sofnat i * inv i = 1) ->
  (forall i, (1 <= i)%nat -> (i < n)%nat -> scale i * scale i * (sofnat i + sofnat i * sofnat i) = 1 + 1) -> (1 <= n)%nat ->
  forall a c, (a < n)%nat -> (c < n)%nat ->
  suml (map (fun i => scale i * scale i * (dv i a * dv i c)) (seq 1 (n - 1))) = (1 + 1) * (dlt a c - inv n).
Proof.
  intros Hinv Hsc. induction n as [|n IH]; [lia|]. intros _ a c Ha Hc. destruct n as [|n].
  - assert (a = 0%nat) as -> by lia. assert (c = 0%nat) as -> by lia. cbn [Nat.sub seq map suml]. rewrite dlt_eq.
    assert (E : inv 1%nat = 1). { transitivity (sofnat 1 * inv 1%nat); [cbn [sofnat]; ring|apply Hinv; lia]. } rewrite E. ring.
  - set (m := S n) in *. replace (S m - 1)%nat with (S (m - 1)) by (unfold m; lia). rewrite seq_S, map_app, suml_app. cbn [map suml].
    replace (1 + (m - 1))%nat with m by (unfold m; lia).
    assert (Hm : sofnat m * inv m = 1) by (apply Hinv; unfold m; lia).
    assert (Hm1 : (sofnat m + 1) * inv (S m) = 1). { transitivity (sofnat (S m) * inv (S m)); [cbn [sofnat]; ring|apply Hinv; unfold m; lia]. }
    assert (Hsm : scale m * scale m = (1 + 1) * (inv m * inv (S m))).
    { transitivity (scale m * scale m * (sofnat m * inv m) * ((sofnat m + 1) * inv (S m))); [rewrite Hm, Hm1; ring|].
      transitivity (scale m * scale m * (sofnat m + sofnat m * sofnat m) * (inv m * inv (S m))); [ring|]. rewrite Hsc by (unfold m; lia). reflexivity. }
    rewrite Hsm.
    assert (Hz : forall c, suml (map (fun i => scale i * scale i * (dv i m * dv i c)) (seq 1 (m - 1))) = 0).
    { intros x. assert (K : forall l, (forall i, In i l -> (i < m)%nat) -> suml (map (fun i => scale i * scale i * (dv i m * dv i x)) l) = 0).
      { induction l as [|y l IHl]; intros Hl; cbn; [reflexivity|]. rewrite IHl by (intros; apply Hl; now right).
        assert (y < m)%nat by (apply Hl; now left). unfold dv at 1. destruct (Nat.ltb_spec m y); [lia|]. destruct (Nat.eqb_spec m y); [lia|]. ring. }
      apply K. intros i Hi. apply in_seq in Hi. lia. }
    assert (Dm : dv m m = - sofnat m) by (unfold dv; destruct (Nat.ltb_spec m m); [lia|]; now rewrite Nat.eqb_refl).
    assert (Dl : forall x, (x < m)%nat -> dv m x = 1) by (intros x Hx; unfold dv; destruct (Nat.ltb_spec x m); [reflexivity|lia]).
    destruct (Nat.eq_dec a m) as [->|Na], (Nat.eq_dec c m) as [->|Nc].
    + rewrite Hz, dlt_eq, Dm.
      transitivity ((1 + 1) * (sofnat m * inv m * (sofnat m * inv (S m)))); [ring|]. rewrite Hm.
      transitivity ((1 + 1) * ((sofnat m + 1) * inv (S m) - inv (S m))); [ring|]. rewrite Hm1. reflexivity.
    + rewrite Hz, dlt_neq, Dm, Dl by lia. transitivity (- ((1 + 1) * (sofnat m * inv m * inv (S m)))); [ring|]. rewrite Hm. ring.
    + rewrite (suml_map_ext _ (fun i => scale i * scale i * (dv i m * dv i a))) by (intros; ring).
      rewrite Hz, dlt_neq, Dm, Dl by lia. transitivity (- ((1 + 1) * (sofnat m * inv m * inv (S m)))); [ring|]. rewrite Hm. ring.
    + rewrite IH by (first [lia | intros; apply Hinv; lia | intros; apply Hsc; lia | unfold m; lia]). rewrite !Dl by lia.
      transitivity ((1 + 1) * (dlt a c - (inv m - inv m * inv (S m)))); [ring|]. f_equal. f_equal.
      transitivity (inv m * ((sofnat m + 1) * inv (S m)) - inv m * inv (S m)); [rewrite Hm1; ring|].
      transitivity (sofnat m * inv m * inv (S m)); [ring|]. rewrite Hm. ring.
Qed.

Lemma complete (inv : nat -> R) (Q : mat R) a b : (forall i, (1 <= i)%nat -> (i <= N)%nat -> sofnat i * inv i = 1) ->
  (1 <= N)%nat -> (a < N)%nat -> (b < N)%nat ->
  suml (map (fun g => tr2 Q g * me (gmat g) a b) (gens N)) = (1 + 1) * (me Q a b - dlt a b * (inv N * sum N (fun c => me Q c c))).
Proof.
  intros Hinv HN Ha Hb. unfold gens. rewrite map_app, suml_app, suml_concat, !map_map.
  destruct HC as (_ & _ & Hi & _).
  rewrite (suml_map_seq N (fun i => suml (map (fun g => tr2 Q g * me (gmat g) a b) (concat (map (fun j => [GS i j; GA i j]) (seq 0 i)))))).
  rewrite (sum_ext N _ (fun i => sum i (fun j => (1 + 1) * me Q i j * (dlt a i * dlt b j) + (1 + 1) * me Q j i * (dlt a j * dlt b i)))).
  2:{ intros i Hiv. rewrite suml_concat, map_map. rewrite (suml_map_seq i (fun j => suml (map (fun g => tr2 Q g * me (gmat g) a b) [GS i j; GA i j]))).
      apply sum_ext. intros j Hj. cbn [map suml]. rewrite tr2_sym, tr2_asym by lia. cbn [gmat]. rewrite sym_form, asym_form by lia.
      transitivity ((me Q j i + me Q i j) * (dlt a i * dlt b j + dlt a j * dlt b i) + c_im C * c_im C * ((me Q i j - me Q j i) * (dlt a j * dlt b i - dlt a i * dlt b j))); [ring|].
      rewrite Hi. ring. }
  rewrite (pairs_sum (fun i j => (1 + 1) * me Q i j)) by assumption.
  rewrite (suml_map_ext _ (fun i => dlt a b * sum N (fun c => me Q c c * (scale i * scale i * (dv i a * dv i c))))).
  2:{ intros i Hiv. rewrite tr2_diag. cbn [gmat]. rewrite diag_form. rewrite (sum_ext N (fun c => me Q c c * _) (fun c => scale i * scale i * dv i a * (dv i c * me Q c c))) by (intros; ring).
      rewrite sum_mul_l. ring. }
  assert (E : suml (map (fun i => dlt a b * sum N (fun c => me Q c c * (scale i * scale i * (dv i a * dv i c)))) (seq 1 (N - 1)))
    = dlt a b * sum N (fun c => me Q c c * ((1 + 1) * (dlt a c - inv N)))).
  { rewrite (sum_ext N (fun c => me Q c c * ((1 + 1) * (dlt a c - inv N))) (fun c => me Q c c * suml (map (fun i => scale i * scale i * (dv i a * dv i c)) (seq 1 (N - 1))))).
    2:{ intros c Hc. rewrite (diag_complete inv N); try assumption; [reflexivity|]. intros i H1 H2. now apply Hs. }
    generalize (seq 1 (N - 1)). induction l as [|i l IHl]; cbn.
    - rewrite sum_zero by (intros; ring). ring.
    - rewrite IHl. rewrite <- !sum_mul_l, <- sum_add. apply sum_ext. intros; ring. }
  rewrite E. rewrite (sum_ext N _ (fun c => (1 + 1) * (dlt a c * me Q c c) - (1 + 1) * (inv N * me Q c c))) by (intros; ring).
  rewrite sum_sub, !sum_mul_l. rewrite (sum_single N a (fun c => dlt a c * me Q c c)) by (first [assumption|intros c Hc Hne; rewrite dlt_neq by congruence; ring]).
  rewrite dlt_eq. unfold dlt. destruct (Nat.eqb_spec a b) as [<-|]; ring.
Qed.
End Proof.
