(** Scalars: commutative rings with an involution, and finite sums.

    numpy's complex numbers are modelled by an arbitrary commutative ring with
    a conjugation and a real-part map, with exact arithmetic.  This file has no
    counterpart in /repo: it is the arithmetic numpy provides to it. *)

From Coq Require Export List Arith Lia Bool ZArith.
From Coq Require Export Ring.
Export ListNotations.

(** Models the number type of every array in /repo (numpy complex128), exact:
    no rounding, overflow, nan or inf.  [sre] is numpy.real (fMPS.py:17). *)
Record sring : Type := mkSR {
  car :> Type;
  s0 : car; s1 : car;
  sadd : car -> car -> car; smul : car -> car -> car; ssub : car -> car -> car;
  sopp : car -> car; sconj : car -> car; sre : car -> car;
  s_th : ring_theory s0 s1 sadd smul ssub sopp (@eq car);
  conj_add : forall x y, sconj (sadd x y) = sadd (sconj x) (sconj y);
  conj_mul : forall x y, sconj (smul x y) = smul (sconj x) (sconj y);
  conj_conj : forall x, sconj (sconj x) = x;
  re_add : forall x y, sre (sadd x y) = sadd (sre x) (sre y);
  re_conj : forall x, sre (sconj x) = sre x;
  re_real : forall x, sconj x = x -> sre x = x;
  conj_re : forall x, sconj (sre x) = sre x;
  re_mul : forall x y, sconj x = x -> sre (smul x y) = smul x (sre y)
}.

Arguments s0 {s}. Arguments s1 {s}.
Arguments sadd {s}. Arguments smul {s}. Arguments ssub {s}.
Arguments sopp {s}. Arguments sconj {s}. Arguments sre {s}.

Declare Scope sr_scope.
Delimit Scope sr_scope with sr.
Notation "0" := s0 : sr_scope.
Notation "1" := s1 : sr_scope.
Notation "x + y" := (sadd x y) : sr_scope.
Notation "x * y" := (smul x y) : sr_scope.
Notation "x - y" := (ssub x y) : sr_scope.
Notation "- x" := (sopp x) : sr_scope.

Section Sums.
Context {R : sring}.
Add Ring Rring : (s_th R).
Local Open Scope sr_scope.

(** [sum n f] = f 0 + ... + f (n-1): numpy's contraction over one axis of
    length n (tensordot, matmul, trace; e.g. fMPS.py:44, 742). *)
Fixpoint sum (n : nat) (f : nat -> R) : R :=
  match n with O => 0 | S n => sum n f + f n end.

(** Kronecker delta, the entries of numpy.identity (fMPS.py:502). *)
Definition dlt (i j : nat) : R := if Nat.eqb i j then 1 else 0.

Lemma conj_0 : sconj (0 : R) = 0.
Proof.
  assert (H : sconj (0:R) + sconj (0:R) = sconj (0:R)).
  { rewrite <- conj_add. f_equal. ring. }
  transitivity (sconj (0:R) + sconj (0:R) - sconj (0:R)); [ring|].
  rewrite H. ring.
Qed.

Lemma conj_1 : sconj (1 : R) = 1.
Proof.
  transitivity (sconj (1:R) * sconj (sconj (1:R))).
  - rewrite conj_conj. ring.
  - rewrite <- conj_mul. transitivity (sconj (sconj (1:R))).
    + f_equal. ring.
    + apply conj_conj.
Qed.

Lemma conj_opp (x : R) : sconj (- x) = - sconj x.
Proof.
  transitivity (sconj (- x) + sconj x - sconj x); [ring|].
  rewrite <- conj_add. replace (- x + x) with (0:R) by ring.
  rewrite conj_0. ring.
Qed.

Lemma conj_sub (x y : R) : sconj (x - y) = sconj x - sconj y.
Proof.
  replace (x - y) with (x + - y) by ring.
  rewrite conj_add, conj_opp. ring.
Qed.

Lemma re_0 : sre (0 : R) = 0.
Proof. apply re_real, conj_0. Qed.

Lemma sum_ext n (f g : nat -> R) :
  (forall i, i < n -> f i = g i) -> sum n f = sum n g.
Proof.
  induction n as [|n IH]; intros H; simpl; [reflexivity|].
  rewrite IH, H; auto.
Qed.

Lemma sum_0 n : sum n (fun _ => 0) = 0.
Proof. induction n as [|n IH]; simpl; [reflexivity|]. rewrite IH. ring. Qed.

Lemma sum_zero n (f : nat -> R) : (forall i, i < n -> f i = 0) -> sum n f = 0.
Proof. intros H. rewrite (sum_ext n f (fun _ => 0) H). apply sum_0. Qed.

Lemma sum_add n (f g : nat -> R) :
  sum n (fun i => f i + g i) = sum n f + sum n g.
Proof. induction n as [|n IH]; simpl; [ring|]. rewrite IH. ring. Qed.

Lemma sum_sub n (f g : nat -> R) :
  sum n (fun i => f i - g i) = sum n f - sum n g.
Proof. induction n as [|n IH]; simpl; [ring|]. rewrite IH. ring. Qed.

Lemma sum_opp n (f : nat -> R) :
  sum n (fun i => - f i) = - sum n f.
Proof. induction n as [|n IH]; simpl; [ring|]. rewrite IH. ring. Qed.

Lemma sum_mul_l n (c : R) (f : nat -> R) :
  sum n (fun i => c * f i) = c * sum n f.
Proof. induction n as [|n IH]; simpl; [ring|]. rewrite IH. ring. Qed.

Lemma sum_mul_r n (c : R) (f : nat -> R) :
  sum n (fun i => f i * c) = sum n f * c.
Proof. induction n as [|n IH]; simpl; [ring|]. rewrite IH. ring. Qed.

Lemma sum_swap n m (f : nat -> nat -> R) :
  sum n (fun i => sum m (fun j => f i j)) = sum m (fun j => sum n (fun i => f i j)).
Proof.
  induction n as [|n IH]; simpl.
  - symmetry. apply sum_0.
  - rewrite IH. symmetry. apply sum_add.
Qed.

Lemma sum_conj n (f : nat -> R) : sconj (sum n f) = sum n (fun i => sconj (f i)).
Proof.
  induction n as [|n IH]; simpl; [apply conj_0|].
  rewrite conj_add, IH. reflexivity.
Qed.

Lemma sum_re n (f : nat -> R) : sre (sum n f) = sum n (fun i => sre (f i)).
Proof.
  induction n as [|n IH]; simpl; [apply re_0|].
  rewrite re_add, IH. reflexivity.
Qed.

Lemma sum_split n m (f : nat -> R) :
  sum (n + m) f = sum n f + sum m (fun i => f (n + i)%nat).
Proof.
  induction m as [|m IH].
  - rewrite Nat.add_0_r. simpl. ring.
  - rewrite Nat.add_succ_r. simpl. rewrite IH. ring.
Qed.

Lemma sum_S_l n (f : nat -> R) : sum (S n) f = f O + sum n (fun i => f (S i)).
Proof.
  change (S n) with (1 + n)%nat. rewrite sum_split. simpl. ring.
Qed.

Lemma sum_one (f : nat -> R) : sum 1 f = f O.
Proof. simpl. ring. Qed.

Lemma sum_single n k (f : nat -> R) :
  k < n -> (forall i, i < n -> i <> k -> f i = 0) -> sum n f = f k.
Proof.
  induction n as [|n IH]; intros Hk H; [lia|]. simpl.
  destruct (Nat.eq_dec k n) as [->|Hne].
  - rewrite sum_zero; [ring|]. intros i Hi. apply H; lia.
  - rewrite IH; [|lia|intros; apply H; lia].
    rewrite (H n); [ring|lia|lia].
Qed.

Lemma dlt_eq i : dlt i i = 1.
Proof. unfold dlt. rewrite Nat.eqb_refl. reflexivity. Qed.

Lemma dlt_neq i j : i <> j -> dlt i j = 0.
Proof. intros H. unfold dlt. apply Nat.eqb_neq in H. rewrite H. reflexivity. Qed.

Lemma dlt_sym i j : dlt i j = dlt j i.
Proof. unfold dlt. rewrite Nat.eqb_sym. reflexivity. Qed.

Lemma dlt_conj i j : sconj (dlt i j) = dlt i j.
Proof. unfold dlt. destruct (Nat.eqb i j); [apply conj_1|apply conj_0]. Qed.

Lemma sum_dlt_l n k (f : nat -> R) :
  k < n -> sum n (fun i => dlt k i * f i) = f k.
Proof.
  intros Hk. rewrite (sum_single n k); [rewrite dlt_eq; ring|exact Hk|].
  intros i _ Hne. rewrite dlt_neq; [ring|]. intros E. apply Hne. symmetry; exact E.
Qed.

Lemma sum_dlt_l' n k (f : nat -> R) :
  k < n -> sum n (fun i => dlt i k * f i) = f k.
Proof.
  intros Hk. rewrite <- (sum_dlt_l n k f Hk). apply sum_ext.
  intros i _. rewrite dlt_sym. reflexivity.
Qed.

Lemma sum_dlt_r n k (f : nat -> R) :
  k < n -> sum n (fun i => f i * dlt i k) = f k.
Proof.
  intros Hk. rewrite <- (sum_dlt_l' n k f Hk). apply sum_ext.
  intros i _. ring.
Qed.

Lemma sum_dlt_r' n k (f : nat -> R) :
  k < n -> sum n (fun i => f i * dlt k i) = f k.
Proof.
  intros Hk. rewrite <- (sum_dlt_l n k f Hk). apply sum_ext.
  intros i _. ring.
Qed.

(** A sum over [0,n*m) is a double sum through div/mod. *)
Lemma sum_mul n m (f : nat -> R) :
  sum (n * m) f = sum n (fun i => sum m (fun j => f (i * m + j)%nat)).
Proof.
  induction n as [|n IH]; simpl; [reflexivity|].
  rewrite Nat.add_comm, sum_split, IH. reflexivity.
Qed.

Lemma sum_mul_divmod n m (f : nat -> nat -> R) :
  sum (n * m) (fun k => f (k / m) (k mod m)) = sum n (fun i => sum m (fun j => f i j)).
Proof.
  rewrite sum_mul. apply sum_ext. intros i _. apply sum_ext. intros j Hj.
  rewrite Nat.div_add_l by lia. rewrite (Nat.div_small j m) by lia.
  rewrite Nat.add_0_r. f_equal.
  rewrite Nat.add_comm, Nat.mod_add by lia. apply Nat.mod_small; lia.
Qed.

(** Product of a list of scalars (numpy.prod, fMPS.py:995). *)
Fixpoint prodl (l : list R) : R :=
  match l with [] => 1 | x :: l => x * prodl l end.

(** Sum of a list of scalars (numpy.sum / builtin sum, fMPS.py:1010). *)
Fixpoint suml (l : list R) : R :=
  match l with [] => 0 | x :: l => x + suml l end.

Lemma suml_app l m : suml (l ++ m) = suml l + suml m.
Proof. induction l as [|x l IH]; simpl; [ring|]. rewrite IH. ring. Qed.

Lemma suml_map_ext {A} (f g : A -> R) l :
  (forall x, In x l -> f x = g x) -> suml (map f l) = suml (map g l).
Proof.
  induction l as [|x l IH]; intros H; simpl; [reflexivity|].
  rewrite IH, (H x); auto. left; reflexivity. intros; apply H; right; assumption.
Qed.

Lemma suml_map_seq n (f : nat -> R) : suml (map f (seq 0 n)) = sum n f.
Proof.
  induction n as [|n IH]; [reflexivity|].
  rewrite seq_S, map_app, suml_app, IH. simpl. ring.
Qed.

(** Power with natural exponent (Python's [**], fMPS.py:256). *)
Fixpoint spow (x : R) (n : nat) : R :=
  match n with O => 1 | S n => x * spow x n end.

(** Embedding of natural numbers (numeric literals and counts). *)
Fixpoint sofnat (n : nat) : R :=
  match n with O => 0 | S n => sofnat n + 1 end.

End Sums.

Arguments dlt {R} i j : simpl never.

(** Sum over all configurations of a list of local dimensions: the sum over the
    iterator product(range(d), ...) of fMPS.py:350, dimensions may differ. *)
Fixpoint sumcfg {R : sring} (ds : list nat) (f : list nat -> R) : R :=
  match ds with
  | [] => f []
  | d :: ds => sum d (fun s => sumcfg ds (fun c => f (s :: c)))
  end.

(** [incfg ds s]: s is a configuration for the dimensions ds, an index tuple of
    the array fMPS.py:348 allocates. *)
Definition incfg (ds s : list nat) : Prop := Forall2 (fun x d => x < d) s ds.

Section SumCfg.
Context {R : sring}.
Add Ring Rring2 : (s_th R).
Local Open Scope sr_scope.

Lemma sumcfg_ext ds (f g : list nat -> R) :
  (forall s, incfg ds s -> f s = g s) -> sumcfg ds f = sumcfg ds g.
Proof.
  revert f g; induction ds as [|d ds IH]; intros f g H; simpl.
  - apply H. constructor.
  - apply sum_ext. intros i Hi. apply IH. intros s Hs. apply H. constructor; assumption.
Qed.

Lemma sumcfg_0 ds : sumcfg ds (fun _ => 0 : R) = 0.
Proof.
  induction ds as [|d ds IH]; simpl; [reflexivity|].
  apply sum_zero. intros; exact IH.
Qed.

Lemma sumcfg_add ds (f g : list nat -> R) :
  sumcfg ds (fun s => f s + g s) = sumcfg ds f + sumcfg ds g.
Proof.
  revert f g; induction ds as [|d ds IH]; intros f g; simpl; [reflexivity|].
  rewrite <- sum_add. apply sum_ext. intros; apply IH.
Qed.

Lemma sumcfg_mul_l ds c (f : list nat -> R) :
  sumcfg ds (fun s => c * f s) = c * sumcfg ds f.
Proof.
  revert f; induction ds as [|d ds IH]; intros f; simpl; [reflexivity|].
  rewrite <- sum_mul_l. apply sum_ext. intros; apply IH.
Qed.

Lemma sumcfg_mul_r ds c (f : list nat -> R) :
  sumcfg ds (fun s => f s * c) = sumcfg ds f * c.
Proof.
  revert f; induction ds as [|d ds IH]; intros f; simpl; [reflexivity|].
  rewrite <- sum_mul_r. apply sum_ext. intros; apply IH.
Qed.

Lemma sumcfg_sum ds n (f : list nat -> nat -> R) :
  sumcfg ds (fun s => sum n (f s)) = sum n (fun i => sumcfg ds (fun s => f s i)).
Proof.
  revert f; induction ds as [|d ds IH]; intros f; simpl; [reflexivity|].
  rewrite sum_swap. apply sum_ext. intros i _.
  rewrite <- (IH (fun s => f (i :: s))). reflexivity.
Qed.

Lemma sumcfg_swap ds es (f : list nat -> list nat -> R) :
  sumcfg ds (fun s => sumcfg es (fun t => f s t))
  = sumcfg es (fun t => sumcfg ds (fun s => f s t)).
Proof.
  revert f; induction es as [|e es IH]; intros f; simpl; [reflexivity|].
  rewrite sumcfg_sum. apply sum_ext. intros i _. apply IH.
Qed.

Lemma sumcfg_conj ds (f : list nat -> R) :
  sconj (sumcfg ds f) = sumcfg ds (fun s => sconj (f s)).
Proof.
  revert f; induction ds as [|d ds IH]; intros f; simpl; [reflexivity|].
  rewrite sum_conj. apply sum_ext. intros; apply IH.
Qed.

Lemma sumcfg_re ds (f : list nat -> R) :
  sre (sumcfg ds f) = sumcfg ds (fun s => sre (f s)).
Proof.
  revert f; induction ds as [|d ds IH]; intros f; simpl; [reflexivity|].
  rewrite sum_re. apply sum_ext. intros; apply IH.
Qed.

Lemma sumcfg_app ds es (f : list nat -> R) :
  sumcfg (ds ++ es) f = sumcfg ds (fun s => sumcfg es (fun t => f (s ++ t))).
Proof.
  revert f; induction ds as [|d ds IH]; intros f; simpl; [reflexivity|].
  apply sum_ext. intros i _. apply IH.
Qed.

Lemma incfg_length ds s : incfg ds s -> length s = length ds.
Proof. intros H; induction H; simpl; auto. Qed.

Lemma incfg_cons d ds x s : incfg (d :: ds) (x :: s) <-> x < d /\ incfg ds s.
Proof.
  split.
  - intros H; inversion H; subst; auto.
  - intros [H1 H2]; constructor; auto.
Qed.

Lemma incfg_app ds es s t :
  incfg ds s -> incfg es t -> incfg (ds ++ es) (s ++ t).
Proof. intros H1 H2. apply Forall2_app; assumption. Qed.

End SumCfg.

(** ** Concrete scalars *)

Section Pairs.

(** Complex numbers over a commutative ring, as pairs: used for the Gaussian
    integers and rationals; the pair (a,b) is Python's a+1j*b. *)
Variable A : Type.
Variables (a0 a1 : A) (aadd amul asub : A -> A -> A) (aopp : A -> A).
Variable ath : ring_theory a0 a1 aadd amul asub aopp (@eq A).
Add Ring Aring : ath.

Lemma pair_th :
  ring_theory (a0, a0) (a1, a0)
    (fun x y => (aadd (fst x) (fst y), aadd (snd x) (snd y)))
    (fun x y => (asub (amul (fst x) (fst y)) (amul (snd x) (snd y)),
                 aadd (amul (fst x) (snd y)) (amul (snd x) (fst y))))
    (fun x y => (asub (fst x) (fst y), asub (snd x) (snd y)))
    (fun x => (aopp (fst x), aopp (snd x)))
    (@eq (A * A)).
Proof.
  constructor; intros; repeat match goal with x : (A * A)%type |- _ => destruct x end;
    simpl; f_equal; ring.
Qed.

(** The star ring of pairs. *)
Definition pair_sring (adouble : forall x : A, aopp x = x -> x = a0) : sring.
Proof.
  refine (mkSR (A * A) (a0, a0) (a1, a0)
    (fun x y => (aadd (fst x) (fst y), aadd (snd x) (snd y)))
    (fun x y => (asub (amul (fst x) (fst y)) (amul (snd x) (snd y)),
                 aadd (amul (fst x) (snd y)) (amul (snd x) (fst y))))
    (fun x y => (asub (fst x) (fst y), asub (snd x) (snd y)))
    (fun x => (aopp (fst x), aopp (snd x)))
    (fun x => (fst x, aopp (snd x)))
    (fun x => (fst x, a0))
    pair_th _ _ _ _ _ _ _ _).
  - intros [] []; simpl; f_equal; ring.
  - intros [] []; simpl; f_equal; ring.
  - intros []; simpl; f_equal; ring.
  - intros [] []; simpl; f_equal; ring.
  - intros []; reflexivity.
  - intros [x y]; simpl; intros E. injection E as E. rewrite (adouble y E). reflexivity.
  - intros [x y]; simpl. f_equal. ring.
  - intros [x y] [x' y']; simpl; intros E. injection E as E. rewrite (adouble y E).
    f_equal; ring.
Defined.

End Pairs.

Lemma Zdouble (x : Z) : Z.opp x = x -> x = 0%Z.
Proof. lia. Qed.

(** Gaussian integers: executable scalars for examples. *)
Definition Zi : sring := pair_sring Z 0%Z 1%Z Z.add Z.mul Z.sub Z.opp Zth Zdouble.

(** Decidable equality on the executable scalars. *)
Definition Zi_eqb (x y : Zi) : bool := Z.eqb (fst x) (fst y) && Z.eqb (snd x) (snd y).

Lemma Zi_eqb_eq x y : Zi_eqb x y = true -> x = y.
Proof.
  unfold Zi_eqb. destruct x, y; simpl. intros H. apply andb_prop in H as [H1 H2].
  apply Z.eqb_eq in H1, H2. subst; reflexivity.
Qed.

(** Literals. *)
Definition zi (a b : Z) : Zi := (a, b).

(** ** Python exceptions as values *)

(** The exception classes /repo's functions can raise. *)
Inductive exn : Set :=
| ValueError | IndexError | AssertionError | AttributeError | TypeError
| KeyError | LinAlgError | NotImplementedError | UnboundLocalError
| FileExistsError | NameError | FileNotFoundError | Exception_.

(** Result of a Python call: a value or a raised exception. *)
Inductive res (A : Type) : Type := Ok (a : A) | Err (e : exn).
Arguments Ok {A} a. Arguments Err {A} e.

(** Sequencing: the statement after a raising statement is not executed. *)
Definition bind {A B} (x : res A) (f : A -> res B) : res B :=
  match x with Ok a => f a | Err e => Err e end.
Notation "'do' x <- e1 ; e2" := (bind e1 (fun x => e2))
  (at level 200, x pattern, e1 at level 100, e2 at level 200, right associativity).

(** Run a list comprehension whose body can raise. *)
Fixpoint mapM {A B} (f : A -> res B) (l : list A) : res (list B) :=
  match l with
  | [] => Ok []
  | x :: l => do y <- f x; do ys <- mapM f l; Ok (y :: ys)
  end.

Lemma mapM_ok {A B} (f : A -> res B) (g : A -> B) l :
  (forall x, In x l -> f x = Ok (g x)) -> mapM f l = Ok (map g l).
Proof.
  induction l as [|x l IH]; intros H; simpl; [reflexivity|].
  rewrite H by (left; reflexivity). simpl. rewrite IH; [reflexivity|].
  intros; apply H; right; assumption.
Qed.
