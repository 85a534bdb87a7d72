(** Proofs about components and insu2N. *)
From Coq Require Import ZArith Permutation.
From Verif Require Import Alg ModelMPS SpecMPS ModelNcon ModelEk ModelTensor SpecTensor ModelDecomp ModelSpin SpecSpin ProofSpin ProofSpin2 ProofSpin3 ModelLie SpecLie.

Section Proof.
Context {R : sring}.
Add Ring Rr : (s_th R).
Local Open Scope sr_scope.

Lemma suml_combine {A} (f : R -> A -> R) (d : A) : forall (v : list R) (l : list A), length v = length l ->
  suml (map (fun p => f (fst p) (snd p)) (combine v l)) = sum (length l) (fun k => f (nth k v 0) (nth k l d)).
Proof.
  intros v l; revert v. induction l as [|x l IH]; intros [|y v] H; try discriminate; [reflexivity|].
  cbn [combine map suml length fst snd]. rewrite sum_S_l. cbn [nth]. rewrite IH by (now injection H). reflexivity.
Qed.

Lemma lincomb_ok N v (l : list (mat R)) : length v = length l ->
  exists M, lincomb N v l = Ok M /\ sq N M /\ forall a b, me M a b = comb_entry v l a b.
Proof.
  intros H. unfold lincomb. rewrite H, Nat.eqb_refl. eexists. split; [reflexivity|]. split; [split; reflexivity|].
  intros a b. cbn [me]. unfold comb_entry. apply (suml_combine (fun c M => c * me M a b) (mone 0)). exact H.
Qed.

Section Su.
Variables (C : consts R) (scale : nat -> R) (N : nat).
Hypothesis HC : consts_ok C (fun _ => False).
Hypothesis Hs : scale_ok scale N.

Lemma h2 : c_half C * (1 + 1) = 1.
Proof. destruct HC as (H & _). transitivity (c_half C + c_half C); [ring|exact H]. Qed.

Lemma su_length : (1 <= N)%nat -> length (su C scale N) = (N * N - 1)%nat.
Proof. intros H. rewrite su_gens, map_length. now apply gens_length. Qed.

Lemma mtrace_tr2 (Q : mat R) g : sq N Q -> mtrace (mmul Q (gmat C scale N g)) = tr2 C scale N Q g.
Proof.
  intros [H1 H2]. unfold mtrace, tr2. cbn [mmul mr me]. rewrite H1, H2. reflexivity.
Qed.

Lemma su_orth : orthogonal_generators N (su C scale N).
Proof.
  rewrite su_gens. split.
  - intros T H. apply in_map_iff in H as (g & <- & Hg). apply gens_ok in Hg. split; [apply gmat_shape|].
    split; [now apply gmat_herm|now apply gmat_traceless].
  - intros a b A B HA HB. rewrite nth_error_map in HA, HB.
    destruct (nth_error (gens N) a) as [g|] eqn:Ea; [|discriminate]. destruct (nth_error (gens N) b) as [h|] eqn:Eb; [|discriminate].
    cbn in HA, HB. injection HA as <-. injection HB as <-.
    assert (Hg := gens_ok N g (nth_error_In _ _ Ea)). assert (Hh := gens_ok N h (nth_error_In _ _ Eb)).
    rewrite mtrace_tr2 by (apply gmat_shape). rewrite tr2_gen by assumption.
    destruct (gen_eqb_spec g h) as [<-|Hne]; destruct (Nat.eqb_spec a b) as [Hab|Hab]; try reflexivity.
    + exfalso. apply Hab. apply (proj1 (NoDup_nth_error (gens N)) (gens_nodup N)); [apply nth_error_Some; congruence|congruence].
    + congruence.
Qed.

Lemma components_run (Q : mat R) : sq N Q -> components C scale Q = Ok (map (fun g => c_half C * tr2 C scale N Q g) (gens N)).
Proof.
  intros [H1 H2]. unfold components. rewrite H1, su_gens.
  rewrite (mapM_ok _ (fun u => c_half C * sum N (fun a => sum N (fun b => me Q a b * me u b a)))).
  - rewrite map_map. reflexivity.
  - intros u Hu. apply in_map_iff in Hu as (g & <- & Hg). unfold mprod. destruct (gmat_shape C scale N g) as [E1 E2].
    rewrite H2, E1, Nat.eqb_refl. cbn [bind]. unfold mtr_. cbn [mr mc me]. rewrite H1, E2, Nat.min_id. reflexivity.
Qed.

(** Rebuilding a matrix from its components. *)
Lemma components_complete (inv : nat -> R) (Q : mat R) : inverses inv N -> (1 <= N)%nat -> sq N Q -> mtrace Q = 0 ->
  exists v M, components C scale Q = Ok v /\ lincomb N v (su C scale N) = Ok M /\ mat_eq M Q.
Proof.
  intros Hi HN HQ HT. rewrite (components_run Q HQ). exists (map (fun g => c_half C * tr2 C scale N Q g) (gens N)).
  unfold lincomb. rewrite su_gens, !map_length, Nat.eqb_refl. eexists. split; [reflexivity|]. split; [reflexivity|].
  destruct HQ as [H1 H2]. split; [symmetry; exact H1|]. split; [symmetry; exact H2|]. cbn [mr mc me]. intros a b Ha Hb.
  assert (E : forall l, suml (map (fun p => fst p * me (snd p) a b) (combine (map (fun g => c_half C * tr2 C scale N Q g) l) (map (gmat C scale N) l)))
    = c_half C * suml (map (fun g => tr2 C scale N Q g * me (gmat C scale N g) a b) l)).
  { induction l as [|g l IH]; cbn; [ring|]. rewrite IH. ring. }
  rewrite E, (complete C scale N HC Hs inv) by assumption.
  unfold mtrace in HT. rewrite H1 in HT. rewrite HT.
  transitivity (c_half C * (1 + 1) * (me Q a b - dlt a b * (inv N * 0))); [ring|]. rewrite h2. ring.
Qed.

Lemma su_complete (inv : nat -> R) (Q : mat R) : inverses inv N -> (1 <= N)%nat -> sq N Q -> mtrace Q = 0 -> forall a b, (a < N)%nat -> (b < N)%nat ->
  me Q a b = comb_entry (map (fun T => c_half C * mtrace (mmul Q T)) (su C scale N)) (su C scale N) a b.
Proof.
  intros Hi HN HQ HT a b Ha Hb. assert (E := complete C scale N HC Hs inv Q a b Hi HN Ha Hb).
  unfold mtrace in HT. rewrite (proj1 HQ) in HT. rewrite HT in E.
  unfold comb_entry. rewrite <- (suml_combine (fun c M => c * me M a b) (mone 0)) by (now rewrite map_length). rewrite su_gens.
  transitivity (c_half C * ((1 + 1) * (me Q a b - dlt a b * (inv N * 0)))).
  { transitivity (c_half C * (1 + 1) * me Q a b); [rewrite h2|]; ring. }
  rewrite <- E. clear E. induction (gens N) as [|g l IH]; cbn [map combine suml fst snd]; [ring|]. rewrite <- IH, (mtrace_tr2 Q g HQ). ring.
Qed.

(** Components of a combination. *)
Lemma pick_gen (l : list gen) : NoDup l -> forall v : list R, length v = length l ->
  map (fun g => suml (map (fun p => fst p * (if gen_eqb (snd p) g then 1 + 1 else 0)) (combine v l))) l = map (fun x => x * (1 + 1)) v.
Proof.
  induction l as [|g l IH]; intros Hn [|x v] H; try discriminate; [reflexivity|]. inversion Hn; subst. cbn [combine map suml fst snd]. f_equal.
  - destruct (gen_eqb_spec g g); [|contradiction].
    assert (E : forall (l : list gen) v, ~ In g l -> suml (map (fun p => fst p * (if gen_eqb (snd p) g then 1 + 1 else 0)) (combine v l)) = 0 :> R).
    { clear. induction l as [|k l IH]; intros v Hk; [now destruct v|]. destruct v as [|y v]; [reflexivity|]. cbn [combine map suml fst snd].
      destruct (gen_eqb_spec k g); [exfalso; apply Hk; now left|]. rewrite IH by (intros K; apply Hk; now right). ring. }
    rewrite E by assumption. ring.
  - rewrite <- IH by (assumption || now injection H). apply map_ext_in. intros k Hk. destruct (gen_eqb_spec g k) as [->|]; [contradiction|]. ring.
Qed.

Lemma tr2_lin (v : list R) (l : list gen) (Q : mat R) g : length v = length l ->
  (forall a b, me Q a b = suml (map (fun p => fst p * me (gmat C scale N (snd p)) a b) (combine v l))) ->
  tr2 C scale N Q g = suml (map (fun p => fst p * tr2 C scale N (gmat C scale N (snd p)) g) (combine v l)).
Proof.
  intros H HQ. unfold tr2.
  rewrite (sum_ext N _ (fun a => sum N (fun b => suml (map (fun p => fst p * me (gmat C scale N (snd p)) a b) (combine v l)) * me (gmat C scale N g) b a)))
    by (intros; apply sum_ext; intros; now rewrite HQ).
  clear HQ H. induction (combine v l) as [|p m IH]; cbn [map suml].
  - apply sum_zero. intros. apply sum_zero. intros. ring.
  - rewrite <- IH. rewrite <- sum_mul_l, <- sum_add. apply sum_ext. intros a Ha. rewrite <- sum_mul_l, <- sum_add. apply sum_ext. intros b Hb. ring.
Qed.

Lemma comb_gens (v : list R) : length v = length (gens N) -> forall a b,
  suml (map (fun p => fst p * me (snd p) a b) (combine v (map (gmat C scale N) (gens N)))) =
  suml (map (fun p => fst p * me (gmat C scale N (snd p)) a b) (combine v (gens N))).
Proof.
  generalize (gens N). intros l; revert v. induction l as [|g l IH]; intros [|x v] H a b; try discriminate; [reflexivity|].
  cbn. rewrite IH by (now injection H). reflexivity.
Qed.

Lemma components_unique (v : list R) M : (1 <= N)%nat -> lincomb N v (su C scale N) = Ok M -> components C scale M = Ok v.
Proof.
  intros HN E. unfold lincomb in E. destruct (Nat.eqb_spec (length v) (length (su C scale N))) as [Hl|]; [|discriminate]. injection E as <-.
  rewrite su_gens, map_length in Hl. rewrite components_run by (split; reflexivity). f_equal.
  rewrite su_gens.
  transitivity (map (fun y => c_half C * y) (map (fun x => x * (1 + 1)) v)).
  - rewrite <- (pick_gen (gens N) (gens_nodup N) v Hl), map_map. apply map_ext_in. intros g Hg. f_equal.
    rewrite (tr2_lin v (gens N)); [|exact Hl|intros a b; cbn [me]; now apply comb_gens].
    apply suml_map_ext. intros p Hp. f_equal. apply tr2_gen; try assumption; apply gens_ok; [|exact Hg].
    destruct p as [x k]. now apply in_combine_r in Hp.
  - rewrite map_map. rewrite <- (map_id v) at 2. apply map_ext. intros x. transitivity (c_half C * (1 + 1) * x); [ring|]. rewrite h2. ring.
Qed.
End Su.

Lemma components_real C scale N (Q : mat R) v : consts_ok C (fun _ => False) -> scale_ok scale N -> sq N Q -> mat_eq (madj Q) Q ->
  components C scale Q = Ok v -> Forall (fun x => sconj x = x) v.
Proof.
  intros HC Hs HQ Hh E. rewrite (components_run C scale N Q HQ) in E. injection E as <-. apply Forall_forall. intros x Hx.
  apply in_map_iff in Hx as (g & <- & Hg). apply gens_ok in Hg. rewrite conj_mul. destruct HC as (H1 & H2 & H3). rewrite H2. f_equal.
  unfold tr2. rewrite sum_conj.
  transitivity (sum N (fun a => sum N (fun b => me Q b a * me (gmat C scale N g) a b))).
  - apply sum_ext. intros a Ha. rewrite sum_conj. apply sum_ext. intros b Hb. rewrite conj_mul.
    destruct Hh as (_ & _ & Hh). destruct HQ as [Q1 Q2]. cbn [madj mr mc me] in Hh. rewrite (Hh b a) by (rewrite ?Q1, ?Q2; assumption).
    destruct (gmat_shape C scale N g) as [G1 G2].
    destruct (gmat_herm C scale N (conj H1 (conj H2 H3)) Hs g Hg) as (_ & _ & Hg'). cbn [madj mr mc me] in Hg'.
    rewrite Hg' by (rewrite ?G1, ?G2; assumption). reflexivity.
  - rewrite sum_swap. reflexivity.
Qed.
End Proof.
