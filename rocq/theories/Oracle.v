(** Executable LAPACK oracles over the Gaussian rationals, for the examples and
    the refutations: a finite list of candidate factorisations; a candidate is
    returned only after it was checked to be one.  No counterpart in /repo. *)
From Coq Require Import QArith Qcanon.
From Verif Require Import Alg QScalars ModelMPS SpecMPS ModelOrth SpecOrth.
Local Open Scope nat_scope.

(** Bounded universal quantification. *)
Definition ball (n : nat) (f : nat -> bool) : bool := forallb f (seq 0 n).

Lemma ball_sound n f : ball n f = true -> forall i, i < n -> f i = true.
Proof.
  intros H i Hi. unfold ball in H. rewrite forallb_forall in H. apply H, in_seq. lia.
Qed.

(** Boolean versions of the contracts. *)
Definition qr_b (M Q Rm : mat Qi) : bool :=
  Nat.eqb (mr Q) (mr M) && Nat.eqb (mc Q) (Nat.min (mr M) (mc M)) &&
  Nat.eqb (mr Rm) (Nat.min (mr M) (mc M)) && Nat.eqb (mc Rm) (mc M) &&
  ball (mr M) (fun i => ball (mc M) (fun j =>
    Qi_eqb (me M i j) (sum (mc Q) (fun k => smul (me Q i k) (me Rm k j))))) &&
  ball (mc Q) (fun i => ball (mc Q) (fun j =>
    Qi_eqb (sum (mr Q) (fun k => smul (sconj (me Q k i)) (me Q k j))) (dlt i j))).

Definition rq_b (M Rm Q : mat Qi) : bool :=
  Nat.eqb (mc Q) (mc M) && Nat.eqb (mr Q) (Nat.min (mr M) (mc M)) &&
  Nat.eqb (mc Rm) (Nat.min (mr M) (mc M)) && Nat.eqb (mr Rm) (mr M) &&
  ball (mr M) (fun i => ball (mc M) (fun j =>
    Qi_eqb (me M i j) (sum (mr Q) (fun k => smul (me Rm i k) (me Q k j))))) &&
  ball (mr Q) (fun i => ball (mr Q) (fun j =>
    Qi_eqb (sum (mc Q) (fun k => smul (me Q i k) (sconj (me Q j k)))) (dlt i j))).

Definition nrm_b (A : site Qi) (n ninv : Qi) : bool :=
  Qi_eqb (sconj n) n && Qi_eqb (smul n n) (frob A) && Qi_eqb (smul n ninv) s1.

Definition oracle (qrs rqs : list (mat Qi * mat Qi)) (ns : list (Qi * Qi)) : lapack Qi :=
  mkLA (fun M => find (fun c => qr_b M (fst c) (snd c)) qrs)
       (fun M => find (fun c => rq_b M (fst c) (snd c)) rqs)
       (fun A => find (fun c => nrm_b A (fst c) (snd c)) ns).

Ltac ands := repeat match goal with H : _ && _ = true |- _ =>
  apply andb_prop in H; destruct H end.

Lemma qr_b_sound M Q Rm : qr_b M Q Rm = true -> is_qr M Q Rm.
Proof.
  unfold qr_b, is_qr. intros H. ands.
  repeat match goal with H : Nat.eqb _ _ = true |- _ => apply Nat.eqb_eq in H end.
  repeat (split; [assumption|]). split; intros i j Hi Hj.
  - pose proof (ball_sound _ _ H1 i Hi) as G. apply (ball_sound _ _ G j) in Hj.
    apply Qi_eqb_eq, Hj.
  - pose proof (ball_sound _ _ H0 i Hi) as G. apply (ball_sound _ _ G j) in Hj.
    apply Qi_eqb_eq, Hj.
Qed.

Lemma rq_b_sound M Rm Q : rq_b M Rm Q = true -> is_rq M Rm Q.
Proof.
  unfold rq_b, is_rq. intros H. ands.
  repeat match goal with H : Nat.eqb _ _ = true |- _ => apply Nat.eqb_eq in H end.
  repeat (split; [assumption|]). split; intros i j Hi Hj.
  - pose proof (ball_sound _ _ H1 i Hi) as G. apply (ball_sound _ _ G j) in Hj.
    apply Qi_eqb_eq, Hj.
  - pose proof (ball_sound _ _ H0 i Hi) as G. apply (ball_sound _ _ G j) in Hj.
    apply Qi_eqb_eq, Hj.
Qed.

Lemma oracle_ok qrs rqs ns : lapack_ok (oracle qrs rqs ns).
Proof.
  split; [|split]; cbn.
  - intros M Q Rm H. apply find_some in H as [_ H]. apply qr_b_sound, H.
  - intros M Rm Q H. apply find_some in H as [_ H]. apply rq_b_sound, H.
  - intros A n ninv H. apply find_some in H as [_ H]. unfold nrm_b in H. ands.
    repeat split; apply Qi_eqb_eq; assumption.
Qed.

(** Literals. *)
Definition qmat (a b : nat) (l : list Qi) : mat Qi :=
  mkMat a b (fun i j => nth (i * b + j) l (qi 0 0)).
Definition qsite (d a b : nat) (l : list Qi) : site Qi :=
  mkSite d a b (fun s i j => nth ((s * a + i) * b + j) l (qi 0 0)).
Definition qobj (l : list (site Qi)) : fmps Qi :=
  match fMPS_init l None None with
  | Ok m => m
  | Err _ => mkF [] 0 0 0 None None None None
  end.
(** A list of scalars equals another, entry by entry. *)
Definition qlist_eqb (a b : list Qi) : bool :=
  Nat.eqb (length a) (length b) && forallb (fun xy => Qi_eqb (fst xy) (snd xy)) (combine a b).
