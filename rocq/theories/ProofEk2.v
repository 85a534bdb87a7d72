(** The networks of links, the single-string links and the density matrix are
    well formed; their Einstein sums. *)
From Verif Require Import Alg ModelMPS SpecMPS ProofMPS ModelOrth SpecOrth ProofOrth2 ModelNcon SpecNcon ProofNcon ProofNcon3 ProofNcon4 ModelEk ProofEk.
From Coq Require Import Permutation Sorted.

Notation cnt l x := (count_occ Z.eq_dec l x).

Definition lp (n : nat) : Z := Z.of_nat (n + 1).
Definition lq (k n : nat) : Z := Z.of_nat (k + (n + 1)).
Definition lb (k n : nat) : Z := Z.of_nat (2 * k + (n + 1)).
Definition lc (k n : nat) : Z :=
  Z.of_nat (if Nat.eqb n 0 then 2 * k + 1 else if Nat.eqb n k then 3 * k + 1 else 3 * k + (n + 1)).

Lemma seq_shift1 k : seq 1 k = map S (seq 0 k).
Proof. symmetry. apply seq_shift. Qed.

Lemma links_op k : links k true = lnk lp (lb k) 0 k ++ [map lp (seq 0 k) ++ map (lq k) (seq 0 k)] ++ lnk (lq k) (lc k) 0 k.
Proof.
  unfold links, lnk. rewrite seq_shift1, !map_map. f_equal; [|f_equal].
  - apply map_ext. intros n. unfold lp, lb. cbn [map]. do 3 (f_equal; try lia).
  - f_equal. replace (2 * k) with (k + k) by lia. rewrite seq_app, map_app. f_equal.
    + rewrite seq_shift1, map_map. apply map_ext. intros n. unfold lp. lia.
    + replace (1 + k) with (k + 1) by lia. rewrite <- (Nat.add_0_r (k + 1)) at 1.
      assert (H : forall a n s, seq (a + s) n = map (Nat.add a) (seq s n)).
      { intros a n. induction n; intros s; cbn; [reflexivity|]. f_equal. rewrite <- IHn. f_equal. lia. }
      rewrite H, map_map. apply map_ext. intros n. unfold lq. lia.
  - apply map_ext_in. intros n Hn. apply in_seq in Hn. unfold lq, lc. cbn [map].
    destruct (Nat.eqb_spec (S n) 1), (Nat.eqb_spec n 0), (Nat.eqb_spec n k), (Nat.eqb_spec (S n) k), (Nat.eqb_spec (S n) 0);
      try lia; repeat (f_equal; try lia).
Qed.

Definition la (k n : nat) : Z := Z.of_nat (k + (n + 1)).
Definition ld_ (k n : nat) : Z :=
  Z.of_nat (if Nat.eqb n 0 then k + 1 else if Nat.eqb n k then 2 * k + 1 else 2 * k + (n + 1)).

Lemma links_noop k : links k false = lnk lp (la k) 0 k ++ lnk lp (ld_ k) 0 k.
Proof.
  unfold links, lnk. rewrite seq_shift1, !map_map. f_equal.
  - apply map_ext. intros n. unfold lp, la. cbn [map]. do 3 (f_equal; try lia).
  - apply map_ext_in. intros n Hn. apply in_seq in Hn. unfold lp, ld_. cbn [map].
    destruct (Nat.eqb_spec (S n) 1), (Nat.eqb_spec n 0), (Nat.eqb_spec n k), (Nat.eqb_spec (S n) k), (Nat.eqb_spec (S n) 0);
      try lia; repeat (f_equal; try lia).
Qed.

(** counting *)
Lemma cnt_lnk p b k l : forall n0, cnt (concat (lnk p b n0 k)) l
  = cnt (map p (seq n0 k)) l + cnt (map b (seq n0 k)) l + cnt (map b (seq (S n0) k)) l.
Proof.
  unfold lnk. induction k as [|k IH]; intros n0; [reflexivity|]. cbn [seq map concat app].
  cbn [count_occ]. rewrite IH. cbn [seq map count_occ].
  destruct (Z.eq_dec (p n0) l), (Z.eq_dec (b n0) l), (Z.eq_dec (b (S n0)) l); lia.
Qed.

Lemma cnt_lnk0 p b k l : 0 < k -> cnt (concat (lnk p b 0 k)) l
  = cnt (map p (seq 0 k)) l + cnt [b 0; b k] l + 2 * cnt (map b (seq 1 (k - 1))) l.
Proof.
  intros Hk. rewrite cnt_lnk. destruct k as [|k]; [lia|]. cbn [Nat.sub]. rewrite Nat.sub_0_r.
  assert (E : seq 1 (S k) = seq 1 k ++ [S k]) by (rewrite seq_S; reflexivity). rewrite E, map_app, count_occ_app.
  change (seq 0 (S k)) with (0 :: seq 1 k). cbn [map count_occ].
  destruct (Z.eq_dec (b 0) l), (Z.eq_dec (b (S k)) l); lia.
Qed.

Definition bonds_of (b c : nat -> Z) k : list Z := [b 0; b k] ++ map b (seq 1 (k - 1)) ++ map c (seq 1 (k - 1)).

Lemma cnt_bonds b c k l : cnt (bonds_of b c k) l = cnt [b 0; b k] l + cnt (map b (seq 1 (k - 1))) l + cnt (map c (seq 1 (k - 1))) l.
Proof. unfold bonds_of. rewrite !count_occ_app. lia. Qed.

Lemma map_shift (f : nat -> Z) a s n : (forall i, s <= i < s + n -> f i = Z.of_nat (a + i)) ->
  map f (seq s n) = map Z.of_nat (seq (a + s) n).
Proof.
  revert s. induction n as [|n IH]; intros s H; cbn; [reflexivity|]. rewrite (H s) by lia. f_equal.
  replace (S (a + s)) with (a + S s) by lia. apply IH. intros i Hi. apply H. lia.
Qed.

Lemma nodup_l {A} (a b : list A) : NoDup (a ++ b) -> NoDup a.
Proof.
  induction a as [|x a IH]; cbn; intros H; [constructor|]. inversion H; subst. constructor; [|apply IH; assumption].
  intros G. apply H2, in_or_app. left. exact G.
Qed.

Lemma app_inv_len {A} (x : list A) : forall y u v, length x = length u -> x ++ y = u ++ v -> x = u /\ y = v.
Proof.
  induction x as [|n x IH]; intros y [|m u] v HL H; try discriminate; [split; [reflexivity|exact H]|].
  cbn in *. injection H as -> H. apply IH in H as [-> ->]; [split; reflexivity|lia].
Qed.

Lemma order_op k : 0 < k ->
  Permutation (map lp (seq 0 k) ++ map (lq k) (seq 0 k) ++ bonds_of (lb k) (lc k) k) (map Z.of_nat (seq 1 (4 * k))).
Proof.
  intros Hk. replace (4 * k) with (k + (k + ((1 + (k - 1) + 1) + (k - 1)))) by lia.
  rewrite !seq_app, !map_app. unfold bonds_of.
  apply Permutation_app; [|apply Permutation_app; [|rewrite app_assoc; apply Permutation_app]].
  - rewrite (map_shift lp 1 0 k). { apply Permutation_refl. } intros i _. unfold lp. lia.
  - rewrite (map_shift (lq k) (k + 1) 0 k). 2: { intros i _. unfold lq. lia. }
    replace (k + 1 + 0) with (1 + k) by lia. apply Permutation_refl.
  - rewrite (map_shift (lb k) (2 * k + 1) 1 (k - 1)). 2: { intros i _. unfold lb. lia. }
    cbn [seq map app]. replace (lb k 0) with (Z.of_nat (1 + k + k)) by (unfold lb; lia).
    apply perm_skip. replace (2 * k + 1 + 1) with (1 + k + k + 1) by lia.
    replace (lb k k) with (Z.of_nat (1 + k + k + (1 + (k - 1)))) by (unfold lb; lia).
    apply Permutation_cons_append.
  - rewrite (map_shift (lc k) (3 * k + 1) 1 (k - 1)).
    + replace (3 * k + 1 + 1) with (1 + k + k + (1 + (k - 1) + 1)) by lia. apply Permutation_refl.
    + intros i Hi. unfold lc. destruct (Nat.eqb_spec i 0), (Nat.eqb_spec i k); lia.
Qed.

Lemma order_noop k : 0 < k ->
  Permutation (map lp (seq 0 k) ++ bonds_of (la k) (ld_ k) k) (map Z.of_nat (seq 1 (3 * k))).
Proof.
  intros Hk. replace (3 * k) with (k + ((1 + (k - 1) + 1) + (k - 1))) by lia.
  rewrite !seq_app, !map_app. unfold bonds_of.
  apply Permutation_app; [|rewrite app_assoc; apply Permutation_app].
  - rewrite (map_shift lp 1 0 k). { apply Permutation_refl. } intros i _. unfold lp. lia.
  - rewrite (map_shift (la k) (k + 1) 1 (k - 1)). 2: { intros i _. unfold la. lia. }
    cbn [seq map app]. replace (la k 0) with (Z.of_nat (1 + k)) by (unfold la; lia).
    apply perm_skip. replace (k + 1 + 1) with (1 + k + 1) by lia.
    replace (la k k) with (Z.of_nat (1 + k + (1 + (k - 1)))) by (unfold la; lia).
    apply Permutation_cons_append.
  - rewrite (map_shift (ld_ k) (2 * k + 1) 1 (k - 1)).
    + replace (2 * k + 1 + 1) with (1 + k + (1 + (k - 1) + 1)) by lia. apply Permutation_refl.
    + intros i Hi. unfold ld_. destruct (Nat.eqb_spec i 0), (Nat.eqb_spec i k); lia.
Qed.

Lemma nodup_zseq a n : NoDup (map Z.of_nat (seq a n)).
Proof. apply FinFun.Injective_map_NoDup; [intros x y; lia|apply seq_NoDup]. Qed.

(** C23 *)
Lemma ends_op k : [lb k 0; lb k k] = [lc k 0; lc k k] \/ k = 0.
Proof. destruct k; [right; reflexivity|left]. unfold lb, lc. cbn [Nat.eqb]. rewrite Nat.eqb_refl. repeat (f_equal; try lia). Qed.

Lemma links_op_twice k : 0 < k -> Permutation (concat (links k true)) (map Z.of_nat (seq 1 (4 * k)) ++ map Z.of_nat (seq 1 (4 * k))).
Proof.
  intros Hk. transitivity ((map lp (seq 0 k) ++ map (lq k) (seq 0 k) ++ bonds_of (lb k) (lc k) k)
    ++ (map lp (seq 0 k) ++ map (lq k) (seq 0 k) ++ bonds_of (lb k) (lc k) k)).
  2: apply Permutation_app; apply order_op, Hk.
  apply (Permutation_count_occ Z.eq_dec). intros l. rewrite links_op, !concat_app. cbn [concat]. rewrite app_nil_r.
  rewrite !count_occ_app, !cnt_lnk0, !cnt_bonds by exact Hk. destruct (ends_op k) as [<-|]; lia.
Qed.

Lemma ends_noop k : [la k 0; la k k] = [ld_ k 0; ld_ k k] \/ k = 0.
Proof. destruct k; [right; reflexivity|left]. unfold la, ld_. cbn [Nat.eqb]. rewrite Nat.eqb_refl. repeat (f_equal; try lia). Qed.

Lemma links_noop_twice k : 0 < k -> Permutation (concat (links k false)) (map Z.of_nat (seq 1 (3 * k)) ++ map Z.of_nat (seq 1 (3 * k))).
Proof.
  intros Hk. transitivity ((map lp (seq 0 k) ++ bonds_of (la k) (ld_ k) k)
    ++ (map lp (seq 0 k) ++ bonds_of (la k) (ld_ k) k)).
  2: apply Permutation_app; apply order_noop, Hk.
  apply (Permutation_count_occ Z.eq_dec). intros l. rewrite links_noop, !concat_app.
  rewrite !count_occ_app, !cnt_lnk0, !cnt_bonds by exact Hk. destruct (ends_noop k) as [<-|]; lia.
Qed.

Section Sandwich.
Context {R : sring}.
Local Open Scope sr_scope.
Add Ring Rr : (s_th R).

Lemma map_ld_nth {A} (ld : Z -> nat) (p : nat -> Z) (f : A -> nat) (L : list A) s i x :
  map ld (map p (seq s (length L))) = map f L -> nth_error L i = Some x -> ld (p (s + i)%nat) = f x.
Proof.
  revert s i. induction L as [|y L IH]; intros s i H Hi; [destruct i; discriminate|].
  cbn [length seq map] in H. injection H as H1 H2. destruct i as [|i]; cbn in Hi.
  - injection Hi as <-. rewrite Nat.add_0_r. exact H1.
  - replace (s + S i)%nat with (S s + i)%nat by lia. apply IH; assumption.
Qed.

Lemma map_nth_ld {A} (ld : Z -> nat) (p : nat -> Z) (f : A -> nat) (L : list A) s :
  (forall i x, nth_error L i = Some x -> ld (p (s + i)%nat) = f x) -> map ld (map p (seq s (length L))) = map f L.
Proof.
  revert s. induction L as [|y L IH]; intros s H; [reflexivity|]. cbn [length seq map]. f_equal.
  - rewrite <- (H 0%nat y eq_refl). f_equal. f_equal. lia.
  - apply IH. intros i x Hi. replace (S s + i)%nat with (s + S i)%nat by lia. apply H. exact Hi.
Qed.

Lemma ld_exists (Ms : list (site R)) p q b c k a z :
  NoDup (map p (seq 0 k) ++ map q (seq 0 k) ++ bonds_of b c k) -> chain a Ms z -> length Ms = k -> (0 < k)%nat ->
  b 0%nat = c 0%nat ->
  exists ld, (forall i A, nth_error Ms i = Some A -> ld (p i) = phys A /\ ld (q i) = phys A /\ ld (b i) = dl A /\ ld (c i) = dl A)
    /\ ld (b k) = z.
Proof.
  intros HN Hc HL Hk E0.
  set (ls := map p (seq 0 k) ++ map q (seq 0 k) ++ bonds_of b c k) in *.
  set (bint := map (fun A => dl A) (tl Ms)).
  set (ds := dims Ms ++ dims Ms ++ [a; z] ++ bint ++ bint).
  assert (Hlb : length bint = (k - 1)%nat). { unfold bint. rewrite map_length. destruct Ms; cbn in *; lia. }
  assert (HM : map (assign ls ds) ls = ds).
  { apply assign_map; [exact HN|]. unfold ls, ds, bonds_of. rewrite !app_length, !map_length, !seq_length, !Hlb. unfold dims. rewrite map_length. cbn [length]. lia. }
  exists (assign ls ds). set (ld := assign ls ds) in *. clearbody ld. unfold ls, ds, bonds_of in HM. rewrite !map_app in HM.
  apply app_inv_len in HM as [HP HM]; [|unfold dims; rewrite !map_length, seq_length; lia].
  apply app_inv_len in HM as [HQ HM]; [|unfold dims; rewrite !map_length, seq_length; lia].
  apply app_inv_len in HM as [HE HM]; [|reflexivity]. cbn [map] in HE. injection HE as Ha Hz.
  apply app_inv_len in HM as [HB HC]; [|rewrite !map_length, seq_length; lia].
  split; [|exact Hz]. intros i A Hi. unfold dims in HP, HQ. subst k.
  split; [apply (map_ld_nth ld p _ Ms 0 i A HP Hi)|]. split; [apply (map_ld_nth ld q _ Ms 0 i A HQ Hi)|].
  destruct i as [|i].
  - rewrite <- E0. destruct Ms as [|M Ms]; [discriminate|]. cbn in Hi. injection Hi as ->. destruct Hc as [Hc _]. split; congruence.
  - destruct Ms as [|M Ms]; [discriminate|]. cbn [length Nat.sub nth_error] in *. rewrite Nat.sub_0_r in *.
    unfold bint in HB, HC. cbn [tl] in HB, HC.
    split; [apply (map_ld_nth ld b _ Ms 1 i A HB Hi)|apply (map_ld_nth ld c _ Ms 1 i A HC Hi)].
Qed.

Lemma chain_conj (l : list (site R)) : forall a z, chain a l z -> chain a (map site_conj l) z.
Proof. induction l as [|A l IH]; intros a z H; cbn in *; [exact H|]. destruct H as [H1 H2]. split; [exact H1|apply IH, H2]. Qed.

Lemma amp_conj (l : list (site R)) : forall s i j, amp (map site_conj l) s i j = sconj (amp l s i j).
Proof.
  induction l as [|A l IH]; intros [|x s] i j; cbn [map amp].
  - unfold dlt. destruct (Nat.eqb i j); [symmetry; apply conj_1|symmetry; apply conj_0].
  - symmetry; apply conj_0.
  - symmetry; apply conj_0.
  - rewrite sum_conj. apply sum_ext. intros k _. rewrite IH, conj_mul. reflexivity.
Qed.

(** the bra chain with labels (p, b), the ket chain with labels (q, c) and
    operators in between *)
Lemma sandwich_ok S (Ms : list (site R)) (AA : list (tens R)) v G k a z chk p q b c :
  setio_ok S -> length Ms = k -> (0 < k)%nat -> chain a Ms z ->
  NoDup (map p (seq 0 k) ++ map q (seq 0 k) ++ bonds_of b c k) ->
  (forall l, In l (map p (seq 0 k) ++ map q (seq 0 k) ++ bonds_of b c k) -> (0 < l)%Z) ->
  b 0%nat = c 0%nat -> b k = c k -> injb b 0 k -> injb c 0 k ->
  (forall n m, (n < k)%nat -> (m <= k)%nat -> p n <> b m /\ p n <> c m /\ q n <> b m /\ q n <> c m) ->
  (forall n m, (0 < n < k)%nat -> (m <= k)%nat -> b n <> c m) ->
  (forall n m, (0 < n < k)%nat -> (m <= k)%nat -> c n <> b m) ->
  (forall l, cnt (concat v) l = cnt (map p (seq 0 k)) l + cnt (map q (seq 0 k)) l)%nat ->
  (forall ld, (forall i A, nth_error Ms i = Some A -> ld (p i) = phys A /\ ld (q i) = phys A) ->
     Forall2 (fun A w => tsh A = map ld w) AA v) ->
  (forall e, tprod AA v e = G (map e (map p (seq 0 k))) (map e (map q (seq 0 k)))) ->
  exists T, ncon S (map (fun M => tens_site (site_conj M)) Ms ++ AA ++ map tens_site Ms)
              (lnk p b 0 k ++ v ++ lnk q c 0 k) None None chk = Ok T /\ tsh T = [] /\
    te T [] = sumcfg (dims Ms) (fun w => sumcfg (dims Ms) (fun w' => G w w' *
                sum a (fun i => sum z (fun j => sconj (amp Ms w i j) * amp Ms w' i j)))).
Proof.
  intros HS HL Hk Hc HN Hpos E0 Ek Hb Hcc Hpq Hbc Hcb Hcnt HAA HG.
  destruct (ld_exists Ms p q b c k a z HN Hc HL Hk E0) as (ld & Hld & Hz).
  set (P := map p (seq 0 k)) in *. set (Q := map q (seq 0 k)) in *.
  assert (HldP : map ld P = dims Ms /\ map ld Q = dims Ms).
  { assert (H : forall f, (forall i A, nth_error Ms i = Some A -> ld (f i) = phys A) -> map ld (map f (seq 0 k)) = dims Ms).
    { intros f Hf. rewrite <- HL. apply (map_nth_ld ld f (fun A => phys A) Ms 0). exact Hf. }
    split; apply H; intros i A Hi; apply Hld; exact Hi. }
  destruct HldP as [HldP HldQ].
  assert (Hcl : length (map site_conj Ms) = k) by (rewrite map_length; exact HL).
  assert (HldC : forall i A, nth_error (map site_conj Ms) i = Some A -> ld (p i) = phys A /\ ld (b i) = dl A).
  { intros i A Hi. rewrite nth_error_map in Hi. destruct (nth_error Ms i) as [B|] eqn:E; [|discriminate]. cbn in Hi. injection Hi as <-.
    destruct (Hld i B E) as (H1 & _ & H2 & _). split; assumption. }
  assert (WF : well_formed ld (map (fun M => tens_site (site_conj M)) Ms ++ AA ++ map tens_site Ms)
              (lnk p b 0 k ++ v ++ lnk q c 0 k) (P ++ Q ++ bonds_of b c k) []).
  { assert (HC : forall l, cnt (concat (lnk p b 0 k ++ v ++ lnk q c 0 k)) l = (2 * cnt (P ++ Q ++ bonds_of b c k) l)%nat).
    { intros l. rewrite !concat_app, !count_occ_app, !cnt_lnk0, !cnt_bonds, Hcnt by exact Hk. fold P Q. rewrite <- E0, <- Ek. lia. }
    repeat split.
    - destruct k; [lia|]. discriminate.
    - rewrite <- (map_map site_conj tens_site). apply Forall2_app; [|apply Forall2_app].
      + pose proof (lnk_dims ld (map site_conj Ms) 0 p b a z (chain_conj _ _ _ Hc) HldC) as H. rewrite Hcl in H. exact (H Hz).
      + apply HAA. intros i A Hi. destruct (Hld i A Hi) as (H1 & H2 & _). split; assumption.
      + pose proof (lnk_dims ld Ms 0 q c a z Hc) as H. rewrite HL in H. apply H.
        * intros i A Hi. destruct (Hld i A Hi) as (_ & H1 & _ & H2). split; assumption.
        * cbn [Nat.add]. rewrite <- Ek. exact Hz.
    - exact HN.
    - constructor.
    - apply Hpos; assumption.
    - rewrite HC. assert (cnt (P ++ Q ++ bonds_of b c k) l = 1%nat) by (apply NoDup_count_occ'; assumption). lia.
    - contradiction.
    - contradiction.
    - intros l Hl. left. apply (count_occ_In Z.eq_dec) in Hl. rewrite HC in Hl. apply (count_occ_In Z.eq_dec). lia. }
  destruct (ncon_default_ok S ld _ _ _ _ chk HS WF) as (T & ET & HT & HV); [constructor|].
  exists T. split; [exact ET|]. split; [exact HT|]. rewrite (HV [] eq_refl).
  rewrite app_assoc, esum_app, esum_cfg, map_app, HldP, HldQ, sumcfg_app.
  apply sumcfg_ext; intros w Hw. apply sumcfg_ext; intros w' Hw'.
  apply incfg_length in Hw. apply incfg_length in Hw'.
  set (e := eupds (assign [] []) (P ++ Q) (w ++ w')).
  assert (HPQ : map e P = w /\ map e Q = w').
  { assert (HE : map e (P ++ Q) = w ++ w').
    { apply eupds_map.
      - rewrite app_assoc in HN. exact (nodup_l _ _ HN).
      - rewrite !app_length, Hw, Hw'. unfold P, Q, dims. rewrite !map_length, seq_length. lia. }
    rewrite map_app in HE. apply app_inv_len in HE; [exact HE|].
    rewrite Hw. unfold P, dims. rewrite !map_length, seq_length. lia. }
  destruct HPQ as [HPw HQw].
  assert (HF : forall d, tprod (map (fun M => tens_site (site_conj M)) Ms ++ AA ++ map tens_site Ms) (lnk p b 0 k ++ v ++ lnk q c 0 k) d
     = (tprod (map tens_site (map site_conj Ms)) (lnk p b 0 k) d * tprod (map tens_site Ms) (lnk q c 0 k) d) * G (map d P) (map d Q)).
  { intros d. rewrite <- (map_map site_conj tens_site). rewrite !tprod_app.
    - rewrite HG. fold P Q. ring.
    - specialize (HAA ld). assert (HF2 : Forall2 (fun A w => tsh A = map ld w) AA v).
      { apply HAA. intros i A Hi. destruct (Hld i A Hi) as (H1 & H2 & _). split; assumption. }
      clear -HF2. induction HF2; cbn; congruence.
    - rewrite map_length, lnk_length. exact Hcl. }
  rewrite (esum_ext _ _ _ _ HF).
  rewrite (esum_factor ld _ (fun d => G (map d P) (map d Q))).
  2: { intros d l x Hl. assert (Hout : forall n, In n (P ++ Q) -> n <> l).
       { intros n Hn ->. rewrite app_assoc in HN. revert HN Hn Hl. generalize (P ++ Q), (bonds_of b c k). clear. intros A B HN HA HB.
         induction A as [|x A IH]; [contradiction|]. cbn in HN. inversion HN; subst. destruct HA as [->|HA].
         - apply H1, in_or_app. right. exact HB.
         - apply IH; assumption. }
       f_equal; apply map_ext_in; intros n Hn; apply eupd_other, Hout, in_or_app; [left|right]; exact Hn. }
  rewrite HPw, HQw. unfold bonds_of.
  rewrite (pair_esum ld (map site_conj Ms) Ms p b q c k a z); try assumption.
  - rewrite (s_th R).(Rmul_comm). f_equal. apply sum_ext. intros i _. apply sum_ext. intros j _.
    rewrite <- (map_map p e), <- (map_map q e). fold P Q. rewrite HPw, HQw, amp_conj. reflexivity.
  - apply chain_conj, Hc.
  - intros i A Hi. apply HldC, Hi.
  - intros i A Hi. destruct (Hld i A Hi) as (_ & _ & _ & H). exact H.
Qed.
End Sandwich.
