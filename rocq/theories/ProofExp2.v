(** Proofs about the exponentials, second part: the gates and their coordinates. *)
From Coq Require Import ZArith.
From Verif Require Import Alg ModelMPS SpecMPS ModelNcon ModelEk ModelTensor SpecTensor ModelDecomp ModelOrth SpecOrth SpecDecomp ModelSpin SpecSpin ProofSpin ProofSpin2 ProofSpin3 ProofSpin4
  ModelLie SpecLie ProofLie ProofLie2 ProofLie3 ProofLie4 ProofLie5 ModelExp SpecExp ProofExp.

Section Proof.
Context {R : sring}.
Add Ring Rr2 : (s_th R).
Local Open Scope sr_scope.

Lemma lincomb_inv N v (l : list (mat R)) M : lincomb N v l = Ok M -> length v = length l /\ sq N M /\ forall a b, me M a b = comb_entry v l a b.
Proof.
  intros E. assert (H : length v = length l). { unfold lincomb in E. destruct (Nat.eqb_spec (length v) (length l)); [assumption|discriminate]. }
  split; [exact H|]. destruct (lincomb_ok N v l H) as (M' & E' & P). rewrite E in E'. injection E' as <-. exact P.
Qed.

Lemma nth_real (v : list R) k : Forall (fun x => sconj x = x) v -> sconj (nth k v 0) = nth k v 0.
Proof.
  intros H. destruct (nth_in_or_default k v 0) as [Hi| ->]; [|apply conj_0]. exact (proj1 (Forall_forall _ _) H _ Hi).
Qed.

Lemma comb_herm N v (l : list (mat R)) M : (forall T, In T l -> sq N T /\ mat_eq (madj T) T) -> Forall (fun x => sconj x = x) v ->
  lincomb N v l = Ok M -> sq N M /\ mat_eq (madj M) M.
Proof.
  intros Hl Hv E. destruct (lincomb_inv _ _ _ _ E) as (Hlen & HM & Hc). split; [exact HM|]. destruct HM as [M1 M2].
  split; [cbn; congruence|]. split; [cbn; congruence|]. cbn [madj mr mc me]. rewrite M1, M2. intros i j Hi Hj. rewrite !Hc. unfold comb_entry. rewrite sum_conj.
  apply sum_ext. intros k Hk. rewrite conj_mul, nth_real by exact Hv. f_equal.
  destruct (Hl _ (nth_In l (mone 0) Hk)) as ([T1 T2] & _ & _ & H). cbn [madj mr mc me] in H. rewrite T1, T2 in H. now apply H.
Qed.

Lemma comb_trace N v (l : list (mat R)) M : (forall T, In T l -> sq N T /\ mtrace T = 0) -> lincomb N v l = Ok M -> mtrace M = 0.
Proof.
  intros Hl E. destruct (lincomb_inv _ _ _ _ E) as (Hlen & [M1 M2] & Hc). unfold mtrace. rewrite M1.
  rewrite (sum_ext N _ (fun i => sum (length l) (fun k => nth k v 0 * me (nth k l (mone 0)) i i))) by (intros; apply Hc).
  rewrite sum_swap. apply sum_zero. intros k Hk. rewrite sum_mul_l. destruct (Hl _ (nth_In l (mone 0) Hk)) as ([T1 _] & HT). unfold mtrace in HT. rewrite T1 in HT. rewrite HT. ring.
Qed.

Section Exp.
Variable C : consts R.
Variable F : mfun R.
Variable scale : nat -> R.
Hypothesis HC : consts_ok C (fun _ => False).
Hypothesis HE : expm_ok (f_exp F).

Lemma anti_of_herm n (M : mat R) : sq n M -> mat_eq (madj M) M -> mat_eq (madj (mscal (- c_im C) M)) (mscale (- (1)) (mscal (- c_im C) M)).
Proof.
  destruct HC as (_ & _ & Hi & Hc). intros [M1 M2] (E1 & E2 & E). cbn [madj mr mc me] in *. split; [exact E1|]. split; [exact E2|]. cbn [madj mscal mscale mr mc me]. intros i j Hi' Hj.
  rewrite conj_mul, conj_opp, (E i j Hi' Hj). destruct Hc as [Hc _] || idtac. rewrite Hc. ring.
Qed.

Lemma exp_comb_inv N v (l : list (mat R)) V : exp_comb C F N v l = Ok V ->
  exists M, lincomb N v l = Ok M /\ f_exp F (mscal (- c_im C) M) = Some V.
Proof.
  unfold exp_comb, expm_. intros E. destruct (lincomb N v l) as [M|] eqn:EM; [|discriminate]. cbn [bind] in E. exists M. split; [reflexivity|].
  destruct (f_exp F _); [|discriminate]. now injection E as <-.
Qed.

Lemma exp_comb_unitary N v (l : list (mat R)) V : (forall T, In T l -> sq N T /\ mat_eq (madj T) T) -> Forall (fun x => sconj x = x) v ->
  exp_comb C F N v l = Ok V -> unitary_ N V.
Proof.
  intros Hl Hv E. destruct (exp_comb_inv _ _ _ _ E) as (M & EM & EV). destruct (comb_herm N v l M Hl Hv EM) as (HM & Hh).
  refine (exp_antiherm _ HE N (mscal (- c_im C) M) V _ (anti_of_herm N M HM Hh) EV). exact HM.
Qed.

Lemma SU_unitary N v V : scale_ok scale N -> Forall (fun x => sconj x = x) v -> SU C F scale v N Adj = Ok V -> unitary_ N V.
Proof.
  intros Hs Hv E. refine (exp_comb_unitary N v _ V _ Hv E). intros T HT. destruct (su_orth C scale N HC Hs) as [H _]. destruct (H T HT) as (H1 & H2 & _). now split.
Qed.

Lemma SU_2N (inv : nat -> R) n v V W : scale_ok scale (2 * n) -> inverses inv (2 * n) -> (1 <= n)%nat -> place_ok Mid n -> 
  SU C F scale v n Adj = Ok V -> SU C F scale v n TwoN = Ok W -> inserted Mid n V W.
Proof.
  intros Hs Hinv Hn Hp EV EW. cbn [SU] in EV, EW. destruct (exp_comb_inv _ _ _ _ EV) as (M & EM & EM').
  destruct (lincomb_inv _ _ _ _ EM) as (Hlen & HM & _). 
  assert (Hl : length v = (n * n - 1)%nat) by (rewrite Hlen; apply su_length; lia).
  destruct (insu2N_ok C scale inv n v Mid HC Hs Hinv Hn Hp Hl) as (w & X & Y & Ew & EX & EY & Hins). rewrite EM in EX. injection EX as <-.
  rewrite Ew in EW. cbn [bind] in EW. destruct (exp_comb_inv _ _ _ _ EW) as (Y' & EY' & EW'). rewrite EY in EY'. injection EY' as <-.
  refine (exp_inserted _ HE Mid n (mscal (- c_im C) M) (mscal (- c_im C) Y) V W Hp HM _ EM' EW').
  destruct Hins as [HY H]. split; [exact HY|]. intros. cbn [mscal me]. rewrite H by assumption. ring.
Qed.

Lemma exp_swap (A X : mat R) : sq 4 A -> swap_comm A -> f_exp F A = Some X -> swap_comm X.
Proof. intros HA Hs EX. exact (ex_inter _ HE 4 4 exchange A A X X eq_refl eq_refl HA HA EX EX Hs). Qed.
End Exp.
End Proof.
