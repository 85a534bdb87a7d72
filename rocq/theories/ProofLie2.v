(** Proofs about insu2N. *)
From Coq Require Import ZArith.
From Verif Require Import Alg ModelMPS SpecMPS ModelNcon ModelEk ModelTensor SpecTensor ModelDecomp ModelSpin SpecSpin ProofSpin ProofSpin2 ProofSpin3 ProofSpin4
  ModelLie SpecLie ProofLie.

(** Index maps: the level of X and of the inserted qubit. *)
Definition alpha (wh : where_) (n a : nat) : nat :=
  match wh with Right_ => a / 2 | Left_ => a mod n | _ => a / 4 * 2 + a mod 2 end.
Definition beta (wh : where_) (n a : nat) : nat :=
  match wh with Right_ => a mod 2 | Left_ => a / n | _ => (a / 2) mod 2 end.
Definition sig (a : nat) : nat := a / 4 * 4 + (a mod 2) * 2 + (a / 2) mod 2.

Lemma split4 a : exists x r, a = x * 4 + r /\ r < 4.
Proof. exists (a / 4), (a mod 4). split; [rewrite (Nat.div_mod a 4) at 1; lia|apply Nat.mod_upper_bound; lia]. Qed.
Lemma parts4 x r : r < 4 -> (x * 4 + r) / 4 = x /\ (x * 4 + r) mod 4 = r /\ (x * 4 + r) mod 2 = r mod 2 /\ (x * 4 + r) / 2 = x * 2 + r / 2.
Proof.
  intros H. split; [rewrite Nat.div_add_l, Nat.div_small by lia; lia|]. split; [rewrite Nat.add_comm, Nat.mod_add, Nat.mod_small by lia; reflexivity|].
  split; [replace (x * 4 + r) with (r + (x * 2) * 2) by lia; now rewrite Nat.mod_add by lia|].
  replace (x * 4 + r) with ((x * 2) * 2 + r) by lia. now rewrite Nat.div_add_l by lia.
Qed.

Lemma sig_parts a : sig a / 2 = a / 4 * 2 + a mod 2 /\ (sig a) mod 2 = (a / 2) mod 2 /\ sig (sig a) = a.
Proof.
  destruct (split4 a) as (x & r & -> & Hr). destruct (parts4 x r Hr) as (E1 & _ & E3 & E4). unfold sig at 1 2 4.
  rewrite E1, E3, E4. replace ((x * 2 + r / 2) mod 2) with ((r / 2) mod 2) by (rewrite (Nat.add_comm (x * 2)), Nat.mod_add by lia; reflexivity).
  set (s := r mod 2 * 2 + (r / 2) mod 2). assert (Hs : s < 4) by (unfold s; assert (r mod 2 < 2) by (apply Nat.mod_upper_bound; lia); assert ((r / 2) mod 2 < 2) by (apply Nat.mod_upper_bound; lia); lia).
  replace (x * 4 + r mod 2 * 2 + (r / 2) mod 2) with (x * 4 + s) by (unfold s; lia).
  destruct (parts4 x s Hs) as (F1 & _ & F3 & F4). rewrite F3, F4. unfold sig. rewrite F1, F3, F4.
  rewrite (Nat.add_comm (x * 2) (s / 2)), Nat.mod_add by lia. unfold s.
  destruct r as [|[|[|[|r]]]]; try lia; cbn; lia.
Qed.
Lemma sig_lt a m : a < m * 4 -> sig a < m * 4.
Proof.
  intros H. unfold sig. assert (a / 4 < m) by (apply Nat.div_lt_upper_bound; lia).
  assert (a mod 2 < 2) by (apply Nat.mod_upper_bound; lia). assert ((a / 2) mod 2 < 2) by (apply Nat.mod_upper_bound; lia). lia.
Qed.

Section Proof.
Context {R : sring}.
Add Ring Rr : (s_th R).
Local Open Scope sr_scope.

Lemma eye_kron m k : mat_eq (kron (eye m) (eye k)) (eye (m * k) : mat R).
Proof.
  split; [reflexivity|]. split; [reflexivity|]. cbn [kron eye mr mc me]. intros i j Hi Hj. assert (k <> 0%nat) by nia. unfold dlt.
  destruct (Nat.eqb_spec i j) as [<-|Hne].
  - rewrite !Nat.eqb_refl. ring.
  - destruct (Nat.eqb_spec (i / k) (j / k)) as [E1|]; [|ring]. destruct (Nat.eqb_spec (i mod k) (j mod k)) as [E2|]; [|ring].
    exfalso. apply Hne. rewrite (Nat.div_mod i k), (Nat.div_mod j k) by assumption. congruence.
Qed.

Lemma fold_eyes (G : mat R) k : forall m, mat_eq (fold_left kron (repeat (eye 2) k ++ [G]) (eye m)) (kron (eye (m * 2 ^ k)) G).
Proof.
  induction k as [|k IH]; intros m.
  - cbn. rewrite Nat.mul_1_r. apply mat_eq_refl.
  - cbn [repeat app fold_left]. eapply mat_eq_trans.
    + apply fold_kron_eq with (l' := repeat (eye 2) k ++ [G]) (A' := eye (m * 2)).
      * clear. set (l := repeat (eye 2) k ++ [G]). induction l; constructor; [apply mat_eq_refl|assumption].
      * apply eye_kron.
    + eapply mat_eq_trans; [apply IH|]. replace (m * 2 * 2 ^ k)%nat with (m * 2 ^ S k)%nat by (cbn [Nat.pow]; lia). apply mat_eq_refl.
Qed.

Lemma S12_run q : exists S12, tensor (repeat (eye 2) (q - 1) ++ [swap_gate]) = Ok S12 /\ mat_eq S12 (kron (eye (2 ^ (q - 1))) (swap_gate : mat R)).
Proof.
  destruct (q - 1)%nat as [|k]; cbn [repeat app tensor].
  - eexists. split; [reflexivity|]. cbn [fold_left Nat.pow].
    split; [reflexivity|]. split; [reflexivity|]. intros i j Hi Hj. cbn [kron eye mr mc me swap_gate lit] in *.
    rewrite !Nat.div_small, !Nat.mod_small by lia. rewrite dlt_eq. cbn [me lit]. ring.
  - eexists. split; [reflexivity|]. eapply mat_eq_trans; [apply fold_eyes|]. cbn [Nat.pow]. replace (2 * 2 ^ k)%nat with (2 ^ k + (2 ^ k + 0))%nat by lia. apply mat_eq_refl.
Qed.

Lemma S12_entry m a b : (a < m * 4)%nat -> (b < m * 4)%nat -> me (kron (eye m) (swap_gate : mat R)) a b = dlt (sig a) b.
Proof.
  intros Ha Hb. cbn [kron eye mr mc me]. change (mr (swap_gate : mat R)) with 4%nat. change (mc (swap_gate : mat R)) with 4%nat.
  destruct (split4 a) as (x & r & -> & Hr). destruct (split4 b) as (y & s & -> & Hs).
  destruct (parts4 x r Hr) as (E1 & E2 & E3 & E4). destruct (parts4 y s Hs) as (F1 & F2 & _).
  unfold sig. rewrite E1, E2, E3, E4, F1, F2. rewrite (Nat.add_comm (x * 2)), Nat.mod_add by lia.
  unfold dlt. destruct (Nat.eqb_spec x y) as [->|Hne].
  - destruct r as [|[|[|[|r]]]]; try lia; destruct s as [|[|[|[|s]]]]; try lia;
      (match goal with |- context [Nat.eqb (y * 4 + ?p + ?q) (y * 4 + ?z)] => destruct (Nat.eqb_spec (y * 4 + p + q) (y * 4 + z)) as [E|E] end; cbn in E; try (exfalso; lia); cbn; ring).
  - destruct (Nat.eqb_spec (x * 4 + r mod 2 * 2 + (r / 2) mod 2) (y * 4 + s)) as [E|]; [|ring].
    exfalso. assert (r mod 2 < 2)%nat by (apply Nat.mod_upper_bound; lia). assert ((r / 2) mod 2 < 2)%nat by (apply Nat.mod_upper_bound; lia). lia.
Qed.

Lemma expand_run wh n (X : mat R) : sq n X -> place_ok wh n -> exists Y, expand_op (Nat.log2 n) wh X = Ok Y /\ sq (2 * n) Y /\
  forall a b, (a < 2 * n)%nat -> (b < 2 * n)%nat -> me Y a b = me X (alpha wh n a) (alpha wh n b) * dlt (beta wh n a) (beta wh n b).
Proof.
  intros [H1 H2] Hp. unfold expand_op. destruct (S12_run (Nat.log2 n)) as (S12 & -> & HS). cbn [bind]. destruct wh; cbn [place_ok alpha beta] in *.
  - destruct Hp as (q & Hq & Hn).
    assert (Hlog : Nat.log2 n = q) by (rewrite Hn; apply Nat.log2_pow2; lia). rewrite Hlog in HS. set (m := (2 ^ (q - 1))%nat) in *.
    assert (Hm : (2 * n = m * 4)%nat). { rewrite Hn. unfold m. replace q with (S (q - 1)) at 1 by lia. cbn [Nat.pow]. lia. }
    destruct HS as (S1 & S2 & S3). cbn [kron eye mr mc] in S1, S2. change (mr (swap_gate : mat R)) with 4%nat in S1. change (mc (swap_gate : mat R)) with 4%nat in S2.
    unfold mprod at 1. cbn [kron eye mr]. rewrite S2, H1. replace (n * 2)%nat with (m * 4)%nat by lia. rewrite Nat.eqb_refl. cbn [bind].
    unfold mprod. cbn [mc kron eye mr]. rewrite S1, S2, H2. replace (n * 2)%nat with (m * 4)%nat by lia. rewrite Nat.eqb_refl.
    eexists. split; [reflexivity|]. split; [split; cbn; lia|]. cbn [me mr mc]. intros a b Ha Hb. rewrite Hm in Ha, Hb.
    assert (K : forall i j, (i < m * 4)%nat -> (j < m * 4)%nat -> me S12 i j = dlt (sig i) j).
    { intros i j Hi Hj. rewrite S3 by (rewrite ?S1, ?S2; assumption). now apply S12_entry. }
    destruct (sig_parts a) as (A1 & A2 & A3). destruct (sig_parts b) as (B1 & B2 & B3).
    rewrite (sum_single (m * 4) (sig b)).
    + rewrite K, B3, dlt_eq by (try apply sig_lt; assumption).
      rewrite (sum_single (m * 4) (sig a)).
      * rewrite K, dlt_eq by (try apply sig_lt; assumption). cbn [kron eye mr mc me]. rewrite A1, B1, A2, B2. ring.
      * now apply sig_lt.
      * intros k Hk Hne. rewrite K, dlt_neq by (assumption || congruence). ring.
    + now apply sig_lt.
    + intros k Hk Hne. rewrite (K k b) by assumption. rewrite dlt_neq; [ring|]. intros E. apply Hne. destruct (sig_parts k) as (_ & _ & E'). congruence.
  - eexists. split; [reflexivity|]. split; [split; cbn; lia|]. cbn [kron eye mr mc me]. intros. reflexivity.
  - eexists. split; [reflexivity|]. split; [split; cbn; lia|]. cbn [kron eye mr mc me]. intros. rewrite H1, H2. ring.
  - destruct Hp.
Qed.

(** The diagonal. *)
Lemma beta_alpha_sum wh n (f : nat -> R) : place_ok wh n -> (1 <= n)%nat -> sum (2 * n) (fun a => f (alpha wh n a)) = (1 + 1) * sum n f.
Proof.
  intros Hp Hn. destruct wh; cbn [alpha place_ok] in *.
  - destruct Hp as (q & Hq & Hq'). set (m := (2 ^ (q - 1))%nat). assert (Hm : n = (m * 2)%nat). { rewrite Hq'. unfold m. replace q with (S (q - 1)) at 1 by lia. cbn [Nat.pow]. lia. }
    rewrite Hm. replace (2 * (m * 2))%nat with (m * 4)%nat by lia.
    rewrite (sum_ext (m * 4) _ (fun a => (fun x r => f (x * 2 + r mod 2)%nat) (a / 4)%nat (a mod 4)%nat)).
    2:{ intros a _. destruct (split4 a) as (x & r & -> & Hr). destruct (parts4 x r Hr) as (E1 & E2 & E3 & _). now rewrite E1, E2, E3. }
    rewrite (sum_mul_divmod m 4 (fun x r => f (x * 2 + r mod 2)%nat)). rewrite (sum_mul m 2 f). rewrite <- sum_mul_l. apply sum_ext. intros x Hx. cbn. ring.
  - rewrite (Nat.mul_comm 2 n). rewrite (sum_mul_divmod n 2 (fun x _ => f x)). rewrite <- sum_mul_l. apply sum_ext. intros. cbn. ring.
  - rewrite (sum_mul_divmod 2 n (fun _ r => f r)). transitivity (0 + sum n f + sum n f); [reflexivity|ring].
  - destruct Hp.
Qed.

Lemma inserted_of wh n (X Y : mat R) : place_ok wh n -> sq (2 * n) Y ->
  (forall a b, (a < 2 * n)%nat -> (b < 2 * n)%nat -> me Y a b = me X (alpha wh n a) (alpha wh n b) * dlt (beta wh n a) (beta wh n b)) ->
  inserted wh n X Y.
Proof.
  intros Hp Hsq H. split; [exact Hsq|]. destruct wh; cbn [alpha beta place_ok] in *.
  - destruct Hp as (q & Hq & Hq'). set (m := (2 ^ (q - 1))%nat). assert (Hm : n = (m * 2)%nat). { rewrite Hq'. unfold m. replace q with (S (q - 1)) at 1 by lia. cbn [Nat.pow]. lia. }
    replace (n / 2)%nat with m by (rewrite Hm; symmetry; apply Nat.div_mul; lia).
    intros x z b x' z' d Hx Hz Hb Hx' Hz' Hd.
    assert (P : forall x b z, (b < 2)%nat -> (z < 2)%nat -> (((x * 2 + b) * 2 + z) / 4 = x)%nat /\ (((x * 2 + b) * 2 + z) mod 2 = z)%nat /\ ((((x * 2 + b) * 2 + z) / 2) mod 2 = b)%nat).
    { clear. intros x b z Hb Hz. replace ((x * 2 + b) * 2 + z)%nat with (x * 4 + (b * 2 + z))%nat by lia.
      destruct (parts4 x (b * 2 + z)) as (E1 & _ & E3 & E4); [lia|]. rewrite E1, E3, E4. rewrite (Nat.add_comm (x * 2)), Nat.mod_add by lia.
      destruct b as [|[|b]]; try lia; destruct z as [|[|z]]; try lia; cbn; auto. }
    destruct (P x b z Hb Hz) as (E1 & E2 & E3). destruct (P x' d z' Hd Hz') as (F1 & F2 & F3).
    rewrite H by lia. now rewrite E1, E2, E3, F1, F2, F3.
  - intros a b c d Ha Hb Hc Hd. rewrite H by lia. rewrite !Nat.div_add_l, !(Nat.div_small _ 2) by lia.
    rewrite !Nat.add_0_r. rewrite !(Nat.add_comm (_ * 2)), !Nat.mod_add, !Nat.mod_small by lia. reflexivity.
  - intros a b c d Ha Hb Hc Hd. rewrite H by nia. rewrite !Nat.div_add_l, !(Nat.div_small _ n) by lia.
    rewrite !Nat.add_0_r. rewrite !(Nat.add_comm (_ * n)), !Nat.mod_add, !Nat.mod_small by lia. reflexivity.
  - exact Hp.
Qed.

Lemma map_seq_nth {A B} (F : A -> B) (l : list A) d : map (fun j => F (nth j l d)) (seq 0 (length l)) = map F l.
Proof.
  induction l as [|x l IH]; [reflexivity|]. cbn [length seq map nth]. f_equal. rewrite <- seq_shift, map_map. exact IH.
Qed.

Lemma insu2N_ok C scale (inv : nat -> R) n v wh : consts_ok C (fun _ => False) -> scale_ok scale (2 * n) -> inverses inv (2 * n) -> (1 <= n)%nat ->
  place_ok wh n -> length v = (n * n - 1)%nat ->
  exists w X Y, insu2N C scale v wh = Ok w /\ lincomb n v (su C scale n) = Ok X /\ lincomb (2 * n) w (su C scale (2 * n)) = Ok Y /\
    @inserted R wh n X Y.
Proof.
  intros HC Hs Hinv Hn Hp Hv.
  assert (Hs' : scale_ok scale n) by (intros i H1 H2; apply Hs; lia).
  unfold insu2N. rewrite Hv. replace (n * n - 1 + 1)%nat with (n * n)%nat by nia. rewrite Nat.sqrt_square, Nat.eqb_refl.
  set (E := fun X : mat R => match expand_op (Nat.log2 n) wh X with Ok Y => Y | Err _ => X end).
  assert (HE : forall g, expand_op (Nat.log2 n) wh (gmat C scale n g) = Ok (E (gmat C scale n g)) /\ sq (2 * n) (E (gmat C scale n g)) /\
    forall a b, (a < 2 * n)%nat -> (b < 2 * n)%nat -> me (E (gmat C scale n g)) a b = me (gmat C scale n g) (alpha wh n a) (alpha wh n b) * dlt (beta wh n a) (beta wh n b)).
  { intros g. destruct (expand_run wh n (gmat C scale n g) (gmat_shape C scale n g) Hp) as (Y & EY & H1 & H2). unfold E. rewrite EY. repeat split; try reflexivity; try apply H1; exact H2. }
  rewrite (su_gens C scale n). rewrite (mapM_ok _ E).
  2:{ intros u Hu. apply in_map_iff in Hu as (g & <- & _). apply HE. }
  cbn [bind]. rewrite map_map. set (N2 := (2 * n)%nat) in *.
  rewrite (mapM_ok _ (fun U => map (fun gj => c_half C * tr2 C scale N2 U gj) (gens N2))).
  2:{ intros U HU. apply in_map_iff in HU as (g & <- & _). destruct (HE g) as (_ & [Hr Hc] & _). rewrite (su_gens C scale N2).
      rewrite (mapM_ok _ (fun u => c_half C * sum N2 (fun a => sum N2 (fun b => me (E (gmat C scale n g)) a b * me u b a)))).
      - rewrite map_map. reflexivity.
      - intros u Hu. apply in_map_iff in Hu as (gj & <- & _). unfold mprod. destruct (gmat_shape C scale N2 gj) as [E1 E2].
        rewrite Hc, E1, Nat.eqb_refl. cbn [bind]. unfold mtr_. cbn [mr mc me]. rewrite Hr, E2, Nat.min_id. reflexivity. }
  cbn [bind]. rewrite map_map.
  destruct (lincomb_ok n v (map (gmat C scale n) (gens n))) as (X & EX & [X1 X2] & _).
  { rewrite map_length, gens_length by exact Hn. exact Hv. }
  set (Y0 := mkMat N2 N2 (fun a b => me X (alpha wh n a) (alpha wh n b) * dlt (beta wh n a) (beta wh n b))).
  assert (HX : forall a b, me X a b = suml (map (fun p => fst p * me (gmat C scale n (snd p)) a b) (combine v (gens n)))).
  { intros a b. unfold lincomb in EX. rewrite map_length, gens_length, Hv, Nat.eqb_refl in EX by exact Hn. injection EX as <-. cbn [me].
    apply comb_gens. rewrite gens_length by exact Hn. exact Hv. }
  assert (HTX : sum n (fun a => me X a a) = 0).
  { rewrite (sum_ext n _ (fun a => suml (map (fun p => fst p * me (gmat C scale n (snd p)) a a) (combine v (gens n))))) by (intros; apply HX).
    assert (K : forall l : list (R * gen), (forall p, In p l -> gen_ok n (snd p)) -> sum n (fun a => suml (map (fun p => fst p * me (gmat C scale n (snd p)) a a) l)) = 0).
    { induction l as [|p l IH]; intros Hl; cbn [map suml]; [apply sum_0|]. rewrite sum_add, IH by (intros; apply Hl; now right).
      rewrite sum_mul_l. assert (T := gmat_traceless C scale n (snd p) (Hl p (or_introl eq_refl))). unfold mtrace in T.
      destruct (gmat_shape C scale n (snd p)) as [-> _] in T. rewrite T. ring. }
    apply K. intros [x g] Hi. apply in_combine_r in Hi. now apply gens_ok. }
  assert (HT0 : mtrace Y0 = 0).
  { unfold mtrace, Y0. cbn [mr me]. rewrite (sum_ext N2 _ (fun a => (fun i => me X i i) (alpha wh n a))) by (intros; rewrite dlt_eq; ring).
    unfold N2. rewrite (beta_alpha_sum wh n (fun i => me X i i)) by assumption. rewrite HTX. ring. }
  assert (HQ0 : sq N2 Y0) by (split; reflexivity).
  destruct (components_complete C scale N2 HC Hs inv Y0 Hinv) as (w & M & Ew & EM & HM); [unfold N2; lia|exact HQ0|exact HT0|].
  rewrite (components_run C scale N2 Y0 HQ0) in Ew. injection Ew as Ew.
  exists w, X, M. split; [|split; [exact EX|split; [exact EM|]]].
  - f_equal. rewrite <- Ew.
    rewrite <- (map_seq_nth (fun gj => c_half C * tr2 C scale N2 Y0 gj) (gens N2) (GD 0)).
    rewrite gens_length by (unfold N2; lia). apply map_ext_in. intros j Hj. apply in_seq in Hj.
    assert (Hj' : (j < length (gens N2))%nat) by (rewrite gens_length by (unfold N2; lia); lia).
    assert (K : forall l : list gen, suml (map (fun p => fst p * nth j (snd p) 0) (combine v (map (fun x => map (fun gj => c_half C * tr2 C scale N2 (E (gmat C scale n x)) gj) (gens N2)) l)))
      = c_half C * suml (map (fun p => fst p * tr2 C scale N2 (E (gmat C scale n (snd p))) (nth j (gens N2) (GD 0))) (combine v l))).
    { clear -Hj'. intros l; revert v. induction l as [|g l IH]; intros [|x v]; cbn [map combine suml fst snd]; try ring. rewrite IH.
      rewrite (nth_indep _ 0 (c_half C * tr2 C scale N2 (E (gmat C scale n g)) (GD 0))) by (rewrite map_length; exact Hj').
      rewrite (map_nth (fun gj => c_half C * tr2 C scale N2 (E (gmat C scale n g)) gj)). ring. }
    rewrite K. f_equal. set (gj := nth j (gens N2) (GD 0)). unfold tr2.
    assert (K2 : forall l : list (R * gen),
      suml (map (fun p => fst p * sum N2 (fun a => sum N2 (fun b => me (E (gmat C scale n (snd p))) a b * me (gmat C scale N2 gj) b a))) l)
      = sum N2 (fun a => sum N2 (fun b => suml (map (fun p => fst p * me (gmat C scale n (snd p)) (alpha wh n a) (alpha wh n b)) l) * dlt (beta wh n a) (beta wh n b) * me (gmat C scale N2 gj) b a))).
    { induction l as [|p l IH]; cbn [map suml].
      - symmetry. apply sum_zero. intros. apply sum_zero. intros. ring.
      - rewrite IH, <- sum_mul_l, <- sum_add. apply sum_ext. intros a Ha. rewrite <- sum_mul_l, <- sum_add. apply sum_ext. intros b Hb.
        destruct (HE (snd p)) as (_ & _ & Hent). rewrite Hent by assumption. ring. }
    rewrite K2. apply sum_ext. intros a Ha. apply sum_ext. intros b Hb. unfold Y0. cbn [me]. now rewrite HX.
  - destruct HM as (M1 & M2 & M3). apply inserted_of; [exact Hp|split; [rewrite M1|rewrite M2]; reflexivity|].
    intros a b Ha Hb. rewrite M3 by (rewrite ?M1, ?M2; assumption). reflexivity.
Qed.
End Proof.
