(** Proofs about levi_civita, Nsphere and the gates. *)
From Coq Require Import ZArith Permutation Sorted.
From Verif Require Import Alg ModelMPS SpecMPS ModelNcon ModelEk ModelTensor SpecTensor ModelSpin SpecSpin.

(** * Levi-Civita *)
Lemma nth_concat_eq {A} (f : nat -> list A) m n (d : A) : forall s x r, (forall y, length (f y) = m) -> x < n -> r < m ->
  nth (x * m + r) (concat (map f (seq s n))) d = nth r (f (s + x)) d.
Proof.
  induction n as [|n IH]; intros s x r Hl Hx Hr; [lia|]. cbn. destruct x as [|x].
  - rewrite app_nth1 by (rewrite Hl; cbn; lia). rewrite Nat.add_0_r. reflexivity.
  - rewrite app_nth2 by (rewrite Hl; cbn; lia). rewrite Hl. replace (S x * m + r - m) with (x * m + r) by (cbn; lia).
    rewrite IH by (assumption || lia). f_equal. f_equal. lia.
Qed.

Lemma concat_len {A} (f : nat -> list A) m n : forall s, (forall y, length (f y) = m) -> length (concat (map f (seq s n))) = n * m.
Proof. induction n as [|n IH]; intros s H; cbn; [reflexivity|]. rewrite app_length, H, IH by assumption. reflexivity. Qed.

Lemma levi_len dim k : forall q c, length (levi_loop dim k q c) = dim ^ k.
Proof.
  induction k as [|k IH]; intros q c; cbn [levi_loop Nat.pow]; [reflexivity|]. apply concat_len. intros; apply IH.
Qed.

Lemma prod_repeat d k : fold_right Nat.mul 1 (repeat d k) = d ^ k.
Proof. induction k; cbn; [reflexivity|]. now rewrite IHk. Qed.

Lemma ravel_lt_pow d q : incfg (repeat d (length q)) q -> ravel (repeat d (length q)) q < d ^ length q.
Proof.
  induction q as [|x q IH]; intros H; cbn; [lia|]. inversion H; subst. specialize (IH H5). rewrite prod_repeat. nia.
Qed.

Lemma levi_nth dim c : forall q p, Forall (fun x => x < dim) q ->
  nth (ravel (repeat dim (length q)) q) (levi_loop dim (length q) p c) 0%Z = perm_parity (p ++ q) c.
Proof.
  induction q as [|x q IH]; intros p H; [cbn; now rewrite app_nil_r|]. inversion H; subst.
  cbn [length levi_loop repeat ravel]. rewrite prod_repeat. rewrite (nth_concat_eq _ (dim ^ length q)).
  - cbn [Nat.add]. rewrite IH by assumption. now rewrite <- app_assoc.
  - intros y. apply levi_len.
  - assumption.
  - apply ravel_lt_pow. clear -H3. induction q; cbn; constructor; inversion H3; subst; [assumption|apply IHq; assumption].
Qed.

Lemma index_sorted x b : StronglySorted lt b -> In x b -> index_nat x b = length (filter (fun y => Nat.ltb y x) b).
Proof.
  induction b as [|y b IH]; intros Hs Hi; [destruct Hi|]. apply StronglySorted_inv in Hs as [Hs Hf]. cbn [index_nat filter].
  destruct (Nat.eqb_spec y x) as [->|Hne].
  - rewrite Nat.ltb_irrefl. clear IH Hi. induction b as [|z b IH]; [reflexivity|]. inversion Hf; subst. cbn [filter].
    destruct (Nat.ltb_spec z x); [lia|]. apply IH; [now apply StronglySorted_inv in Hs|assumption].
  - destruct Hi as [|Hi]; [contradiction|]. rewrite Forall_forall in Hf. specialize (Hf x Hi). destruct (Nat.ltb_spec y x); [|lia].
    cbn [length]. f_equal. now apply IH.
Qed.

Lemma remove_sorted x b : StronglySorted lt b -> StronglySorted lt (remove_first x b).
Proof.
  induction b as [|y b IH]; intros Hs; cbn; [constructor|]. apply StronglySorted_inv in Hs as [Hs Hf].
  destruct (Nat.eqb y x); [exact Hs|]. constructor; [now apply IH|]. rewrite Forall_forall in *. intros z Hz. apply Hf.
  clear -Hz. induction b as [|w b IH]; cbn in Hz; [exact Hz|]. destruct (Nat.eqb w x); [now right|]. destruct Hz; [now left|right; auto].
Qed.

Lemma remove_perm x b : In x b -> Permutation b (x :: remove_first x b).
Proof.
  induction b as [|y b IH]; intros H; [destruct H|]. cbn. destruct (Nat.eqb_spec y x) as [->|Hne]; [reflexivity|].
  destruct H as [|H]; [contradiction|]. rewrite (IH H) at 1. apply perm_swap.
Qed.

Lemma filter_len_perm (f : nat -> bool) a b : Permutation a b -> length (filter f a) = length (filter f b).
Proof.
  induction 1 as [|x l l' H IH|x y l|l l' l'' H1 IH1 H2 IH2]; cbn; [reflexivity| | |congruence].
  - destruct (f x); cbn; congruence.
  - destruct (f x), (f y); reflexivity.
Qed.

Lemma inv_loop a : forall b, StronglySorted lt b -> Permutation a b -> inversions_loop a b = inversions a.
Proof.
  induction a as [|x a IH]; intros b Hs Hp; cbn [inversions_loop inversions]; [reflexivity|].
  assert (Hx : In x b) by (eapply Permutation_in; [exact Hp|now left]).
  rewrite IH.
  - f_equal. rewrite index_sorted by assumption. rewrite <- (filter_len_perm _ _ _ Hp). cbn [filter]. now rewrite Nat.ltb_irrefl.
  - now apply remove_sorted.
  - apply Permutation_cons_inv with x. rewrite Hp. now apply remove_perm.
Qed.

Lemma seq_sorted n : forall s, StronglySorted lt (seq s n).
Proof.
  induction n as [|n IH]; intros s; cbn; constructor; [apply IH|]. apply Forall_forall. intros x Hx. apply in_seq in Hx. lia.
Qed.

Lemma nodup_perm q n : NoDup q -> length q = n -> Forall (fun x => x < n) q -> Permutation q (seq 0 n).
Proof.
  intros Hn Hl Hf. apply NoDup_Permutation_bis; [exact Hn| |].
  - rewrite seq_length. lia.
  - intros x Hx. rewrite Forall_forall in Hf. apply in_seq. specialize (Hf x Hx). lia.
Qed.

Lemma same_multiset_perm a b : Permutation a b -> same_multiset a b = true.
Proof.
  intros H. unfold same_multiset. apply forallb_forall. intros x _. apply Nat.eqb_eq. now apply Permutation_count_occ.
Qed.

Lemma same_multiset_seq q n : same_multiset q (seq 0 n) = true -> NoDup q.
Proof.
  intros H. unfold same_multiset in H. rewrite forallb_forall in H. apply (NoDup_count_occ Nat.eq_dec). intros x.
  destruct (in_dec Nat.eq_dec x q) as [Hi|Hi].
  - specialize (H x). rewrite in_app_iff in H. specialize (H (or_introl Hi)). apply Nat.eqb_eq in H. rewrite H.
    apply NoDup_count_occ. apply seq_NoDup.
  - rewrite (count_occ_not_In Nat.eq_dec) in Hi. lia.
Qed.

Lemma levi_ok n q : length q = n -> Forall (fun x => x < n) q -> NoDup q ->
  levi_civita n q = if Nat.odd (inversions q) then (-1)%Z else 1%Z.
Proof.
  intros Hl Hf Hn. unfold levi_civita. subst n. rewrite levi_nth by exact Hf. cbn [app]. unfold perm_parity.
  assert (Hp := nodup_perm q _ Hn eq_refl Hf). rewrite same_multiset_perm by exact Hp. rewrite inv_loop by (exact Hp || apply seq_sorted). reflexivity.
Qed.
Lemma levi_zero n q : length q = n -> Forall (fun x => x < n) q -> ~ NoDup q -> levi_civita n q = 0%Z.
Proof.
  intros Hl Hf Hn. unfold levi_civita. subst n. rewrite levi_nth by exact Hf. cbn [app]. unfold perm_parity.
  destruct (same_multiset q (seq 0 (length q))) eqn:E; [|reflexivity]. apply same_multiset_seq in E. contradiction.
Qed.

(** * Nsphere *)
Section Proof.
Context {R : sring}.
Add Ring Rr : (s_th R).
Local Open Scope sr_scope.

Lemma cs_first (p : R * R) v : sphere_cs (p :: v) = match v with [] => fst p | _ => snd p * sphere_cs v end.
Proof. destruct p as [c s]. unfold sphere_cs. destruct v as [|q v]; cbn; ring. Qed.

Lemma Nsphere_cons (p : R * R) v : Nsphere (p :: v) = fst p :: map (fun x => snd p * x) (Nsphere v).
Proof.
  unfold Nsphere. cbn [length seq map firstn]. rewrite cs_first. cbn [app]. f_equal. rewrite map_app. f_equal.
  rewrite <- seq_shift, !map_map. apply map_ext_in. intros b Hb. apply in_seq in Hb. cbn [firstn]. rewrite cs_first.
  destruct v as [|x v]; [cbn in Hb; lia|]. destruct b; [lia|]. reflexivity.
Qed.

Lemma Nsphere_unit (v : list (R * R)) : Forall (fun p => fst p * fst p + snd p * snd p = 1) v ->
  suml (map (fun x => x * x) (Nsphere v)) = 1.
Proof.
  induction v as [|p v IH]; intros H.
  - unfold Nsphere. cbn. ring.
  - inversion H; subst. rewrite Nsphere_cons. cbn [map suml]. rewrite map_map.
    rewrite (suml_map_ext _ (fun x => snd p * snd p * (x * x))) by (intros; ring).
    assert (E : forall (c : R) l, suml (map (fun x => c * (x * x)) l) = c * suml (map (fun x => x * x) l)).
    { intros c l. induction l; cbn; [ring|]. rewrite IHl. ring. }
    rewrite E, IH by assumption. rewrite <- H2 at 2. ring.
Qed.

Lemma Nsphere_length (v : list (R * R)) : length (Nsphere v) = S (length v).
Proof. unfold Nsphere. rewrite app_length, map_length, seq_length. cbn. lia. Qed.

Lemma Nsphere_entry (v : list (R * R)) k : (k < length v)%nat -> nth k (Nsphere v) 0 = prodl (map snd (firstn k v)) * fst (nth k v (0, 0)).
Proof.
  revert k. induction v as [|p v IH]; intros k Hk; [cbn in Hk; lia|]. rewrite Nsphere_cons. destruct k as [|k]; cbn; [ring|].
  rewrite (nth_indep _ 0 (snd p * 0)) by (rewrite map_length, Nsphere_length; cbn in Hk; lia). rewrite map_nth.
  rewrite IH by (cbn in Hk; lia). ring.
Qed.
Lemma Nsphere_last (v : list (R * R)) : nth (length v) (Nsphere v) 0 = prodl (map snd v).
Proof.
  unfold Nsphere. rewrite app_nth2 by (rewrite map_length, seq_length; lia). rewrite map_length, seq_length, Nat.sub_diag. reflexivity.
Qed.

(** * Gates *)
Ltac bits := repeat match goal with H : (?x < 2)%nat |- _ => destruct x as [|[|x]]; [clear H|clear H|exfalso; lia] end.
Lemma swap_action a b c d : (a < 2)%nat -> (b < 2)%nat -> (c < 2)%nat -> (d < 2)%nat ->
  me swap_gate (a * 2 + b) (c * 2 + d) = dlt a d * dlt b c :> R.
Proof. intros. bits; unfold dlt; cbn; ring. Qed.
Lemma CNOT_action a b c d : (a < 2)%nat -> (b < 2)%nat -> (c < 2)%nat -> (d < 2)%nat ->
  me CNOT (a * 2 + b) (c * 2 + d) = dlt a c * dlt b ((c + d) mod 2) :> R.
Proof. intros. bits; unfold dlt; cbn; ring. Qed.
Lemma CZ_action a b c d : (a < 2)%nat -> (b < 2)%nat -> (c < 2)%nat -> (d < 2)%nat ->
  me CZ (a * 2 + b) (c * 2 + d) = dlt a c * dlt b d * (if Nat.eqb c 1 && Nat.eqb d 1 then - (1) else 1) :> R.
Proof. intros. bits; unfold dlt; cbn; ring. Qed.
Lemma CRy_action (c s : R) a b c' d : (a < 2)%nat -> (b < 2)%nat -> (c' < 2)%nat -> (d < 2)%nat ->
  me (CRy c s) (a * 2 + b) (c' * 2 + d) = dlt a c' * (if Nat.eqb a 0 then dlt b d else me (lit 2 2 [c; s; - s; c]) b d).
Proof. intros. bits; unfold dlt; cbn; ring. Qed.

Lemma mat4 (A B : mat R) : mr A = 4%nat -> mc A = 4%nat -> mr B = 4%nat -> mc B = 4%nat ->
  (forall i, In i [0; 1; 2; 3]%nat -> forall j, In j [0; 1; 2; 3]%nat -> me A i j = me B i j) -> mat_eq A B.
Proof.
  intros H1 H2 H3 H4 H. split; [congruence|]. split; [congruence|]. intros i j Hi Hj. rewrite H1 in Hi. rewrite H2 in Hj.
  apply H; [clear -Hi; do 4 (destruct i as [|i]; [now cbn; auto 6|]); lia | clear -Hj; do 4 (destruct j as [|j]; [now cbn; auto 6|]); lia].
Qed.
Ltac four := apply mat4; try reflexivity; intros i Hi j Hj;
  repeat (destruct Hi as [<-|Hi]); try destruct Hi; repeat (destruct Hj as [<-|Hj]); try destruct Hj.

Lemma swap_self : mat_eq (mmul swap_gate swap_gate) (mone 4 : mat R).
Proof. four; cbn; unfold dlt; cbn; ring. Qed.
Lemma CNOT_self : mat_eq (mmul CNOT CNOT) (mone 4 : mat R).
Proof. four; cbn; unfold dlt; cbn; ring. Qed.
Lemma CZ_self : mat_eq (mmul CZ CZ) (mone 4 : mat R).
Proof. four; cbn; unfold dlt; cbn; ring. Qed.
Lemma swap_herm : mat_eq (madj swap_gate) (swap_gate : mat R).
Proof. four; cbn; rewrite ?conj_0, ?conj_1; reflexivity. Qed.
Lemma CNOT_herm : mat_eq (madj CNOT) (CNOT : mat R).
Proof. four; cbn; rewrite ?conj_0, ?conj_1; reflexivity. Qed.
Lemma CZ_herm : mat_eq (madj CZ) (CZ : mat R).
Proof. four; cbn; rewrite ?conj_opp, ?conj_0, ?conj_1; reflexivity. Qed.
Lemma CRy_unitary (c s : R) : sconj c = c -> sconj s = s -> c * c + s * s = 1 -> mat_eq (mmul (madj (CRy c s)) (CRy c s)) (mone 4).
Proof.
  intros Hc Hs H. four; cbn; rewrite ?conj_opp, ?conj_0, ?conj_1, ?Hc, ?Hs; unfold dlt; cbn; try ring;
    (transitivity (c * c + s * s); [ring|rewrite H; reflexivity]).
Qed.
Lemma CRy_compose (c s c' s' : R) : mat_eq (mmul (CRy c s) (CRy c' s')) (CRy (c * c' - s * s') (c * s' + s * c')).
Proof. four; cbn; unfold dlt; cbn; ring. Qed.
End Proof.
