(** The constructors of qmb.py and projects/fMPO.py give one operator. *)
From Coq Require Import ZArith.
From Verif Require Import Alg ModelMPS SpecMPS ModelNcon ModelEk ModelTensor SpecTensor SpecEk ModelSpin SpecSpin SpecLie ProofTensor ProofTrace ProofSpin ProofSpin2 ProofEk3 ModelHam SpecHam ProofHam ProofHam2 ProofHam3 ModelQmb SpecQmb.

Section P.
Context {R : sring}.
Local Open Scope sr_scope.
Add Ring Rr : (s_th R).

(** * Strings of matrices *)
Lemma string_app (l l' : list (mat R)) : forall s t s' t', length s = length l -> length t = length l ->
  string_op (l ++ l') (s ++ s') (t ++ t') = string_op l s t * string_op l' s' t'.
Proof.
  induction l as [|a l IH]; intros [|x s] [|y t] s' t' Hs Ht; try discriminate; cbn [app string_op]; [ring|].
  rewrite IH by (cbn in *; lia). ring.
Qed.
Lemma string_ids n s t : length s = n -> length t = n -> string_op (repeat (eye 2) n) s t = if nlist_eqb s t then 1 else 0 :> R.
Proof.
  revert s t. induction n as [|n IH]; intros [|x s] [|y t] Hs Ht; try discriminate; [reflexivity|].
  cbn [repeat string_op nlist_eqb eye me]. rewrite IH by (cbn in *; lia). unfold dlt. destruct (Nat.eqb x y), (nlist_eqb s t); cbn [andb]; ring.
Qed.
Definition placed (L i : nat) (ops : list (mat R)) : list (mat R) := repeat (eye 2) i ++ ops ++ repeat (eye 2) (L - i - length ops).
Lemma string_place L i ops s t : (i + length ops <= L)%nat -> incfg (repeat 2%nat L) s -> incfg (repeat 2%nat L) t ->
  string_op (placed L i ops) s t =
    if nlist_eqb (firstn i s ++ skipn (i + length ops) s) (firstn i t ++ skipn (i + length ops) t)
    then string_op ops (firstn (length ops) (skipn i s)) (firstn (length ops) (skipn i t)) else 0.
Proof.
  intros HL Hs Ht. set (k := length ops) in *. unfold placed.
  pose proof (incfg_length _ _ Hs) as Ls. pose proof (incfg_length _ _ Ht) as Lt. rewrite repeat_length in Ls, Lt.
  assert (SK : forall l : list nat, skipn (i + k) l = skipn k (skipn i l)) by (clear; induction i as [|i IH]; intros [|x l]; cbn; try reflexivity; [now rewrite skipn_nil|apply IH]).
  rewrite !SK.
  rewrite <- (firstn_skipn i s), <- (firstn_skipn i t) at 1.
  rewrite <- (firstn_skipn k (skipn i s)), <- (firstn_skipn k (skipn i t)) at 1.
  assert (L1 : length (firstn i s) = i) by (rewrite firstn_length; lia). assert (L2 : length (firstn i t) = i) by (rewrite firstn_length; lia).
  assert (L3 : length (firstn k (skipn i s)) = k) by (rewrite firstn_length, skipn_length; lia). assert (L4 : length (firstn k (skipn i t)) = k) by (rewrite firstn_length, skipn_length; lia).
  rewrite string_app by (rewrite repeat_length; assumption). rewrite string_app by (fold k; assumption).
  fold k. rewrite !string_ids; try assumption; try (rewrite !skipn_length; lia).
  rewrite nlist_eqb_app by lia. destruct (nlist_eqb (firstn i s) (firstn i t)), (nlist_eqb (skipn k (skipn i s)) (skipn k (skipn i t))); cbn [andb]; ring.
Qed.

Lemma string_eq (l l' : list (mat R)) : Forall2 mat_eq l l' -> forall s t, incfg (map (@mr R) l) s -> incfg (map (@mc R) l) t -> string_op l s t = string_op l' s t.
Proof.
  induction 1 as [|A B l l' (E1 & E2 & E3) H IH]; intros s t Hs Ht; cbn [map] in *; [reflexivity|]. inversion Hs; subst. inversion Ht; subst. cbn [string_op].
  rewrite E3, IH by assumption. reflexivity.
Qed.
Lemma prod_string (l : list (mat R)) : forall s t, length s = length l -> length t = length l -> prod_entries l s t = string_op l s t.
Proof. induction l as [|A l IH]; intros [|x s] [|y t] Hs Ht; try discriminate; [reflexivity|]. cbn [prod_entries string_op]. rewrite IH by (cbn in *; lia). reflexivity. Qed.

Lemma prod_two n : fold_right Nat.mul 1%nat (repeat 2%nat n) = Nat.pow 2 n.
Proof. induction n; cbn in *; lia. Qed.

(** the Kronecker product of n two-by-two matrices *)
Lemma tensor_string (l : list (mat R)) : l <> [] -> Forall (sq 2) l ->
  exists M, tensor l = Ok M /\ sq (Nat.pow 2 (length l)) M /\
    forall s t, incfg (repeat 2%nat (length l)) s -> incfg (repeat 2%nat (length l)) t -> block_op 2 M s t = string_op l s t.
Proof.
  intros Hne HF. assert (Hr : map (@mr R) l = repeat 2%nat (length l)) by (clear Hne; induction HF as [|A l [A1 A2] HF IH]; cbn; congruence).
  assert (Hc : map (@mc R) l = repeat 2%nat (length l)) by (clear Hne; induction HF as [|A l [A1 A2] HF IH]; cbn; [reflexivity|]; f_equal; [exact A2|apply IH; injection Hr; auto]).
  assert (HM : exists M, tensor l = Ok M) by (destruct l; [congruence|eexists; reflexivity]). destruct HM as (M & EM). exists M. split; [exact EM|].
  assert (Hsh : sq (Nat.pow 2 (length l)) M).
  { destruct l as [|A l]; [congruence|]. cbn [tensor] in EM. injection EM as <-. split; [rewrite fold_kron_mr|rewrite fold_kron_mc]; rewrite <- prod_two; [rewrite <- Hr|rewrite <- Hc]; reflexivity. }
  split; [exact Hsh|]. intros s t Hs Ht. destruct (tensor_entry l s t Hne) as (M' & EM' & _ & _ & He); [now rewrite Hr|now rewrite Hc|].
  rewrite EM in EM'. injection EM' as <-. pose proof (incfg_length _ _ Hs) as Ls. pose proof (incfg_length _ _ Ht) as Lt. rewrite repeat_length in Ls, Lt.
  rewrite Hr, Hc in He. rewrite !position_ravel in He by (rewrite repeat_length; assumption).
  unfold block_op. rewrite <- !ravel_rowmajor, Ls, Lt, He. now apply prod_string.
Qed.

Definition site_op (op : mat R) (i j : nat) : mat R := if Nat.eqb i j then op else eye 2.
Lemma S_n_body_list (op : mat R) i n : sq 2 op -> (i < n)%nat -> S_n_body op (Z.of_nat i) n = tensor (map (site_op op i) (seq 0 n)).
Proof.
  intros [H1 H2] Hi. unfold S_n_body. destruct (Z.ltb_spec (Z.of_nat i) (Z.of_nat n)); [|lia]. f_equal. apply map_ext. intros j. unfold site_op. rewrite H1.
  destruct (Z.eqb_spec (Z.of_nat i) (Z.of_nat j)), (Nat.eqb_spec i j); try reflexivity; lia.
Qed.
Lemma S_n_body_high (op : mat R) i n : (Z.of_nat n <= i)%Z -> S_n_body op i n = Err Exception_.
Proof. intros H. unfold S_n_body. destruct (Z.ltb_spec i (Z.of_nat n)); [lia|reflexivity]. Qed.

Lemma site_sq op i (js : list nat) : sq 2 op -> Forall (sq 2) (map (site_op op i) js).
Proof. intros H. apply Forall_forall. intros A HA. apply in_map_iff in HA as (j & <- & _). unfold site_op. destruct (Nat.eqb i j); [exact H|split; reflexivity]. Qed.

(** lists that are the identity outside one place, or two neighbouring ones *)
Lemma seq_place (f : nat -> mat R) (ops : list (mat R)) i n : (i + length ops <= n)%nat ->
  (forall j, (j < n)%nat -> (j < i)%nat \/ (i + length ops <= j)%nat -> mat_eq (f j) (eye 2)) ->
  (forall k, (k < length ops)%nat -> mat_eq (f (i + k)%nat) (nth k ops (eye 2))) ->
  Forall2 mat_eq (map f (seq 0 n)) (placed n i ops).
Proof.
  intros Hn Hout Hin. set (k := length ops) in *. replace n with (i + (k + (n - i - k)))%nat at 1 by lia. rewrite !seq_app, !map_app. unfold placed. fold k.
  assert (G : forall o m, (forall j, (o <= j < o + m)%nat -> mat_eq (f j) (eye 2)) -> Forall2 mat_eq (map f (seq o m)) (repeat (eye 2) m)).
  { intros o m. revert o. induction m as [|m IH]; intros o H; [constructor|]. cbn [seq map repeat]. constructor; [apply H; lia|]. apply IH. intros j Hj. apply H. lia. }
  apply Forall2_app; [apply G; intros j Hj; apply Hout; lia|]. apply Forall2_app; [|apply G; intros j Hj; apply Hout; lia].
  assert (G2 : forall (l : list (mat R)) o, (forall m, (m < length l)%nat -> mat_eq (f (o + m)%nat) (nth m l (eye 2))) -> Forall2 mat_eq (map f (seq o (length l))) l).
  { induction l as [|A l IH]; intros o H; [constructor|]. cbn [length seq map]. constructor; [specialize (H 0%nat ltac:(cbn; lia)); now rewrite Nat.add_0_r in H|].
    apply IH. intros m Hm. specialize (H (S m) ltac:(cbn; lia)). now rewrite Nat.add_succ_r in H. }
  rewrite Nat.add_0_l. now apply G2.
Qed.

Lemma map_dims n (f : nat -> mat R) : (forall j, sq 2 (f j)) -> map (@mr R) (map f (seq 0 n)) = repeat 2%nat n /\ map (@mc R) (map f (seq 0 n)) = repeat 2%nat n.
Proof.
  intros H. assert (G : forall o, map (@mr R) (map f (seq o n)) = repeat 2%nat n /\ map (@mc R) (map f (seq o n)) = repeat 2%nat n); [|apply G].
  induction n as [|n IH]; intros o; [split; reflexivity|]. cbn [seq map repeat]. destruct (IH (S o)) as [I1 I2]. destruct (H o) as [H1 H2]. split; congruence.
Qed.

Lemma S_one (op : mat R) i n : sq 2 op -> (i < n)%nat -> exists M, S_n_body op (Z.of_nat i) n = Ok M /\ sq (Nat.pow 2 n) M /\
  forall s t, incfg (repeat 2%nat n) s -> incfg (repeat 2%nat n) t -> block_op 2 M s t = string_op (placed n i [op]) s t.
Proof.
  intros H Hi. rewrite S_n_body_list by assumption. assert (Hl : length (map (site_op op i) (seq 0 n)) = n) by now rewrite map_length, seq_length.
  destruct (tensor_string (map (site_op op i) (seq 0 n))) as (M & E & Hs & He); [destruct n; [lia|discriminate]|now apply site_sq|].
  rewrite Hl in *. exists M. split; [exact E|]. split; [exact Hs|]. intros s t Is It. rewrite He by assumption.
  assert (Hsite : forall j, sq 2 (site_op op i j)) by (intros j; unfold site_op; destruct (Nat.eqb i j); [exact H|split; reflexivity]).
  destruct (map_dims n (site_op op i) Hsite) as [D1 D2]. apply string_eq; [|now rewrite D1|now rewrite D2].
  apply seq_place; cbn [length].
  - lia.
  - intros j Hj Ho. unfold site_op. destruct (Nat.eqb_spec i j); [lia|apply mat_eq_refl].
  - intros [|k] Hk; [|lia]. rewrite Nat.add_0_r. unfold site_op. rewrite Nat.eqb_refl. apply mat_eq_refl.
Qed.

Lemma row_lt2 n s : incfg (repeat 2%nat n) s -> (rowmajor 2 s < Nat.pow 2 n)%nat.
Proof. intros Hs. pose proof (incfg_length _ _ Hs) as Ls. rewrite repeat_length in Ls. rewrite <- Ls. apply rowmajor_lt. now rewrite Ls. Qed.

Lemma S_two (A B : mat R) i n P Q : sq 2 A -> sq 2 B -> (i + 1 < n)%nat -> S_n_body A (Z.of_nat i) n = Ok P -> S_n_body B (Z.of_nat i + 1) n = Ok Q ->
  forall s t, incfg (repeat 2%nat n) s -> incfg (repeat 2%nat n) t -> block_op 2 (q_mul P Q) s t = string_op (placed n i [A; B]) s t.
Proof.
  intros HA HB Hi EP EQ s t Is It. rewrite S_n_body_list in EP by (assumption || lia). replace (Z.of_nat i + 1)%Z with (Z.of_nat (S i)) in EQ by lia. rewrite S_n_body_list in EQ by (assumption || lia).
  set (f := fun j => mmul (site_op A i j) (site_op B (S i) j)).
  assert (SA : forall j, sq 2 (site_op A i j)) by (intros j; unfold site_op; destruct (Nat.eqb i j); [exact HA|split; reflexivity]).
  assert (SB : forall j, sq 2 (site_op B (S i) j)) by (intros j; unfold site_op; destruct (Nat.eqb (S i) j); [exact HB|split; reflexivity]).
  assert (Sf : forall j, sq 2 (f j)) by (intros j; split; cbn; [apply SA|apply SB]).
  assert (EM : exists T, tensor (map f (seq 0 n)) = Ok T /\ mat_eq (q_mul P Q) T).
  { destruct n as [|n]; [lia|]. cbn [seq map tensor] in *. injection EP as <-. injection EQ as <-. eexists. split; [reflexivity|].
    assert (K := fold_kron_mul (map (site_op A i) (seq 1 n)) (map (site_op B (S i)) (seq 1 n)) (site_op A i 0) (site_op B (S i) 0)).
    rewrite map2_map in K. apply K.
    - generalize (seq 1 n). intros js. induction js as [|j js IH]; cbn; constructor; [|exact IH]. destruct (SA j), (SB j). congruence.
    - destruct (SA 0%nat), (SB 0%nat). congruence. }
  destruct EM as (T & ET & EPQ). assert (Hl : length (map f (seq 0 n)) = n) by now rewrite map_length, seq_length.
  destruct (tensor_string (map f (seq 0 n))) as (T' & ET' & HsT & He); [destruct n; [lia|discriminate]|apply Forall_forall; intros X HX; apply in_map_iff in HX as (j & <- & _); apply Sf|].
  rewrite ET in ET'. injection ET' as <-. rewrite Hl in *. destruct EPQ as (Q1 & Q2 & Q3). destruct HsT as [T1 T2].
  unfold block_op. rewrite Q3 by (rewrite ?Q1, ?Q2, ?T1, ?T2; now apply row_lt2). change (me T (rowmajor 2 s) (rowmajor 2 t)) with (block_op 2 T s t). rewrite He by assumption.
  destruct (map_dims n f Sf) as [D1 D2]. apply string_eq; [|now rewrite D1|now rewrite D2].
  apply seq_place; cbn [length].
  - lia.
  - intros j Hj Ho. unfold f, site_op. destruct (Nat.eqb_spec i j); [lia|]. destruct (Nat.eqb_spec (S i) j); [lia|]. apply mone_l. reflexivity.
  - intros [|[|k]] Hk; [| |lia]; unfold f, site_op; cbn [nth].
    + rewrite Nat.add_0_r, Nat.eqb_refl. destruct (Nat.eqb_spec (S i) i); [lia|]. apply mone_r. apply HA.
    + rewrite Nat.add_1_r, Nat.eqb_refl. destruct (Nat.eqb_spec i (S i)); [lia|]. apply mone_l. apply HB.
Qed.
End P.
