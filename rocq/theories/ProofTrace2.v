(** Consequences of the value of the partial trace. *)
From Verif Require Import Alg ModelMPS SpecMPS ModelNcon SpecNcon ModelEk ModelTensor SpecTensor ProofNcon ProofEk4 ProofTensor ProofTrace.
From Coq Require Import Permutation.
Local Notation prod_ := (fold_right Nat.mul 1).

Lemma position_onto ds : forall i, i < prod_ ds -> exists s, incfg ds s /\ position ds s = i.
Proof.
  assert (H : forall i, i < prod_ ds -> exists s, incfg ds s /\ ravel ds s = i).
  { induction ds as [|d ds IH]; intros i Hi; cbn in Hi.
    - exists []. split; [constructor|]. cbn. lia.
    - assert (prod_ ds <> 0) by (intros E; rewrite E in Hi; lia).
      destruct (IH (i mod prod_ ds)) as (s & Hs & Es); [apply Nat.mod_upper_bound; assumption|].
      exists (i / prod_ ds :: s). split.
      + apply Forall2_cons; [|exact Hs]. apply Nat.div_lt_upper_bound; [assumption|]. lia.
      + cbn. rewrite Es. rewrite (Nat.mul_comm (_ / _)). symmetry. apply Nat.div_mod. assumption. }
  intros i Hi. destruct (H i Hi) as (s & Hs & E). exists s. split; [exact Hs|]. rewrite position_ravel; [exact E|].
  eapply incfg_length; exact Hs.
Qed.

Lemma mask_perm N keep keep' : (forall i, In i keep <-> In i keep') -> mask_of N keep = mask_of N keep'.
Proof.
  intros H. unfold mask_of. apply map_ext. intros i. destruct (in_dec Nat.eq_dec i keep), (in_dec Nat.eq_dec i keep'); try reflexivity; exfalso; apply H in i0 || apply H in i0; contradiction || idtac.
  all: firstorder.
Qed.

Lemma mask_length N keep : length (mask_of N keep) = N.
Proof. unfold mask_of. rewrite map_length, seq_length. reflexivity. Qed.

Section Trace.
Context {R : sring}.
Local Open Scope sr_scope.
Add Ring Rr : (s_th R).

Lemma sum_position (ds : list nat) : forall (g : nat -> R), sum (prod_ ds) g = sumcfg ds (fun s => g (position ds s)).
Proof.
  assert (H : forall ds (g : nat -> R), sum (prod_ ds) g = sumcfg ds (fun s => g (ravel ds s))).
  { clear. induction ds as [|d ds IH]; intros g; [cbn; ring|]. cbn [fold_right sumcfg].
    rewrite (sum_mul d (prod_ ds)). apply sum_ext. intros x _. rewrite IH. apply sumcfg_ext. intros s _. reflexivity. }
  intros g. rewrite H. apply sumcfg_ext. intros s Hs. rewrite position_ravel; [reflexivity|]. eapply incfg_length; exact Hs.
Qed.

Lemma sumcfg_weave ds : forall mask (f : list nat -> R), length mask = length ds ->
  sumcfg ds f = sumcfg (pick true mask ds) (fun s => sumcfg (pick false mask ds) (fun u => f (weave mask s u))).
Proof.
  induction ds as [|d ds IH]; intros [|b mask] f Hl; try discriminate; [reflexivity|]. cbn [sumcfg].
  assert (Hl' : length mask = length ds) by (cbn in Hl; lia).
  destruct b; cbn [pick Bool.eqb weave sumcfg].
  - apply sum_ext. intros x _. rewrite (IH mask _ Hl'). reflexivity.
  - transitivity (sum d (fun x => sumcfg (pick true mask ds) (fun s => sumcfg (pick false mask ds) (fun u => f (x :: weave mask s u))))).
    + apply sum_ext. intros x _. rewrite (IH mask _ Hl'). reflexivity.
    + rewrite <- sumcfg_sum. reflexivity.
Qed.

Theorem partial_trace_trace (rho : mat R) keep dims_ : keep_ok keep dims_ ->
  mr rho = prod_ dims_ -> mc rho = prod_ dims_ ->
  exists r, partial_trace rho keep dims_ = Ok r /\ mr r = mc r /\
    sum (mr r) (fun i => me r i i) = sum (mr rho) (fun i => me rho i i).
Proof.
  intros (H0 & H1 & H2) Hr Hc.
  destruct (partial_trace_ok keep dims_ H2 H1 H0 rho Hr Hc) as (r & E & R1 & R2 & V).
  exists r. split; [exact E|]. split; [congruence|]. rewrite R1, Hr, !sum_position.
  rewrite (sumcfg_weave dims_ (mask_of (length dims_) keep)) by apply mask_length.
  apply sumcfg_ext. intros s Hs. apply V; exact Hs.
Qed.

Theorem partial_trace_order (rho : mat R) keep keep' dims_ : keep_ok keep dims_ -> Permutation keep keep' ->
  mr rho = prod_ dims_ -> mc rho = prod_ dims_ ->
  exists r r', partial_trace rho keep dims_ = Ok r /\ partial_trace rho keep' dims_ = Ok r' /\ mat_eq r r'.
Proof.
  intros (H0 & H1 & H2) HP Hr Hc.
  assert (HI : forall i, In i keep <-> In i keep').
  { intros i. split; apply Permutation_in; [exact HP|apply Permutation_sym, HP]. }
  destruct (partial_trace_ok keep dims_ H2 H1 H0 rho Hr Hc) as (r & E & R1 & R2 & V).
  destruct (partial_trace_ok (R := R) keep' dims_) with (rho := rho) as (r' & E' & R1' & R2' & V').
  { intros i Hi. apply H2, HI, Hi. } { eapply Permutation_NoDup; eassumption. }
  { intros ->. apply Permutation_sym, Permutation_nil in HP. contradiction. } { exact Hr. } { exact Hc. }
  rewrite <- (mask_perm (length dims_) keep keep' HI) in *.
  exists r, r'. split; [exact E|]. split; [exact E'|]. split; [congruence|]. split; [congruence|].
  intros i j Hi Hj. rewrite R1 in Hi. rewrite R2 in Hj.
  destruct (position_onto _ i Hi) as (s & Hs & <-). destruct (position_onto _ j Hj) as (t & Ht & <-).
  rewrite V, V' by assumption. reflexivity.
Qed.

Lemma pick_all (ds : list nat) : forall mask, length mask = length ds -> Forall (fun b => b = true) mask ->
  pick true mask ds = ds /\ pick false mask ds = [] /\ forall s u, length s = length ds -> weave mask s u = s.
Proof.
  induction ds as [|d ds IH]; intros [|b mask] Hl HF; try discriminate.
  - split; [reflexivity|]. split; [reflexivity|]. intros [|]; [reflexivity|discriminate].
  - inversion HF; subst. destruct (IH mask) as (I1 & I2 & I3); [cbn in Hl; lia|assumption|]. cbn. rewrite I1, I2.
    split; [reflexivity|]. split; [reflexivity|]. intros [|x s] u Hs; [discriminate|]. cbn. rewrite I3; [reflexivity|]. cbn in Hs; lia.
Qed.

Theorem partial_trace_all (rho : mat R) keep dims_ : keep_ok keep dims_ -> (forall i, (i < length dims_)%nat -> In i keep) ->
  mr rho = prod_ dims_ -> mc rho = prod_ dims_ ->
  exists r, partial_trace rho keep dims_ = Ok r /\ mat_eq r rho.
Proof.
  intros (H0 & H1 & H2) HA Hr Hc.
  destruct (partial_trace_ok keep dims_ H2 H1 H0 rho Hr Hc) as (r & E & R1 & R2 & V).
  destruct (pick_all dims_ (mask_of (length dims_) keep)) as (P1 & P2 & P3).
  { apply mask_length. }
  { unfold mask_of. apply Forall_forall. intros b Hb. apply in_map_iff in Hb as (i & <- & Hi). apply in_seq in Hi.
    destruct (in_dec Nat.eq_dec i keep) as [|n]; [reflexivity|]. exfalso. apply n, HA. lia. }
  rewrite P1, P2 in *. exists r. split; [exact E|]. split; [congruence|]. split; [congruence|].
  intros i j Hi Hj. rewrite R1 in Hi. rewrite R2 in Hj.
  destruct (position_onto _ i Hi) as (s & Hs & <-). destruct (position_onto _ j Hj) as (t & Ht & <-).
  rewrite V by assumption. cbn [sumcfg]. rewrite !P3 by (eapply incfg_length; eassumption). reflexivity.
Qed.

Theorem rhoA_partial_trace (u : list R) keep dims_ : keep_ok keep dims_ -> length u = prod_ dims_ ->
  exists r r', rhoA u keep dims_ = Ok r /\
    partial_trace (mkMat (length u) (length u) (fun i j => nth i u 0 * sconj (nth j u 0))) keep dims_ = Ok r' /\ mat_eq r r'.
Proof.
  intros (H0 & H1 & H2) Hu.
  destruct (rhoA_ok keep dims_ H2 H1 H0 u Hu) as (r & E & R1 & R2 & V).
  destruct (partial_trace_ok keep dims_ H2 H1 H0 (mkMat (length u) (length u) (fun i j => nth i u 0 * sconj (nth j u 0))) Hu Hu) as (r' & E' & R1' & R2' & V').
  exists r, r'. split; [exact E|]. split; [exact E'|]. split; [congruence|]. split; [congruence|].
  intros i j Hi Hj. rewrite R1 in Hi. rewrite R2 in Hj.
  destruct (position_onto _ i Hi) as (s & Hs & <-). destruct (position_onto _ j Hj) as (t & Ht & <-).
  rewrite V, V' by assumption. reflexivity.
Qed.

Theorem rhoA_hermitian (u : list R) keep dims_ : keep_ok keep dims_ -> length u = prod_ dims_ ->
  exists r, rhoA u keep dims_ = Ok r /\ mr r = mc r /\ forall i j, (i < mr r)%nat -> (j < mr r)%nat -> me r j i = sconj (me r i j).
Proof.
  intros (H0 & H1 & H2) Hu.
  destruct (rhoA_ok keep dims_ H2 H1 H0 u Hu) as (r & E & R1 & R2 & V).
  exists r. split; [exact E|]. split; [congruence|]. rewrite R1. intros i j Hi Hj.
  destruct (position_onto _ i Hi) as (s & Hs & <-). destruct (position_onto _ j Hj) as (t & Ht & <-).
  rewrite !V by assumption. rewrite sumcfg_conj. apply sumcfg_ext. intros c _. rewrite conj_mul, conj_conj. ring.
Qed.

Lemma partial_trace_empty (rho : mat R) dims_ : partial_trace rho [] dims_ = Err IndexError.
Proof. reflexivity. Qed.
Lemma rhoA_empty (u : list R) dims_ : exists r, rhoA u [] dims_ = Ok r /\ mr r = length u /\ mc r = length u /\
  forall i j, me r i j = nth i u 0 * sconj (nth j u 0).
Proof. eexists. split; [reflexivity|]. repeat split. Qed.
End Trace.
