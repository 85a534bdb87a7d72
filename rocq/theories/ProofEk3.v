(** E_k, E_L, rho and local_overlap. *)
From Verif Require Import Alg ModelMPS SpecMPS ProofMPS ModelOrth SpecOrth ProofOrth ProofOrth2 ProofOrth3 ProofMeas
  ModelNcon SpecNcon ProofNcon ProofNcon3 ProofNcon4 ModelEk SpecEk ProofEk ProofEk2.
From Coq Require Import Permutation Sorted.

Ltac labels := unfold lp, lq, lb, lc, injb in *; intros;
  repeat match goal with |- context [Nat.eqb ?a ?b] => destruct (Nat.eqb_spec a b) end;
  repeat match goal with H : context [Nat.eqb ?a ?b] |- _ => destruct (Nat.eqb_spec a b) end; try lia.

Lemma nodup_op k : 0 < k -> NoDup (map lp (seq 0 k) ++ map (lq k) (seq 0 k) ++ bonds_of (lb k) (lc k) k).
Proof. intros Hk. eapply Permutation_NoDup; [symmetry; apply order_op, Hk|]. apply nodup_zseq. Qed.

Lemma pos_op k l : 0 < k -> In l (map lp (seq 0 k) ++ map (lq k) (seq 0 k) ++ bonds_of (lb k) (lc k) k) -> (0 < l)%Z.
Proof.
  intros Hk H. apply (Permutation_in _ (order_op k Hk)) in H. apply in_map_iff in H as (n & <- & Hn). apply in_seq in Hn. lia.
Qed.

Lemma prod_repeat d n : fold_right Nat.mul 1 (repeat d n) = Nat.pow d n.
Proof. induction n as [|n IHn]; cbn; [reflexivity|]. rewrite IHn. reflexivity. Qed.

Lemma ravel_app_fold d s : forall acc, fold_left (fun a x => a * d + x) s acc = acc * Nat.pow d (length s) + ravel (repeat d (length s)) s.
Proof.
  induction s as [|x s IH]; intros acc; cbn [fold_left length Nat.pow repeat ravel]; [lia|]. rewrite IH.
  rewrite prod_repeat. nia.
Qed.

Lemma ravel_rowmajor d s : ravel (repeat d (length s)) s = rowmajor d s.
Proof. unfold rowmajor. rewrite ravel_app_fold. lia. Qed.

Lemma rowmajor_app d s t : rowmajor d (s ++ t) = rowmajor d s * Nat.pow d (length t) + rowmajor d t.
Proof. unfold rowmajor. rewrite fold_left_app, ravel_app_fold, ravel_rowmajor. reflexivity. Qed.

Lemma rowmajor_lt d s : incfg (repeat d (length s)) s -> rowmajor d s < Nat.pow d (length s).
Proof.
  rewrite <- ravel_rowmajor. induction s as [|x s IH]; intros H; cbn [length repeat ravel Nat.pow]; [lia|].
  inversion H; subst.
  rewrite prod_repeat. specialize (IH H5). nia.
Qed.

Section Block.
Context {R : sring}.
Local Open Scope sr_scope.
Add Ring Rr : (s_th R).

Lemma op_net_ok S (Ms : list (site R)) (T : tens R) k a z chk :
  setio_ok S -> length Ms = k -> (0 < k)%nat -> chain a Ms z -> tsh T = dims Ms ++ dims Ms ->
  exists r, ncon S (map (fun M => tens_site (site_conj M)) Ms ++ [T] ++ map tens_site Ms) (links k true) None None chk = Ok r /\
    tsh r = [] /\ te r [] = block_value Ms a z (fun w w' => te T (w ++ w')).
Proof.
  intros HS HL Hk Hc HT. rewrite links_op.
  destruct (sandwich_ok S Ms [T] [map lp (seq 0 k) ++ map (lq k) (seq 0 k)] (fun w w' => te T (w ++ w')) k a z chk lp (lq k) (lb k) (lc k)) as (r & E & Hr & HV); try assumption.
  - apply nodup_op, Hk.
  - intros l. apply pos_op, Hk.
  - labels.
  - labels.
  - labels.
  - labels.
  - labels.
  - labels.
  - labels.
  - intros l. cbn [concat]. rewrite app_nil_r, count_occ_app. reflexivity.
  - intros ld Hld. constructor; [|constructor]. rewrite HT, map_app. subst k.
    rewrite (map_nth_ld ld lp (fun A => phys A) Ms 0), (map_nth_ld ld (lq (length Ms)) (fun A => phys A) Ms 0); [reflexivity| |];
      intros i A Hi; apply (Hld i A Hi).
  - intros e. unfold tprod. cbn [combine map prodl fst snd]. rewrite map_app. ring.
  - exists r. split; [exact E|]. split; [exact Hr|]. rewrite HV. reflexivity.
Qed.

(** string of one-site operators *)
Lemma getitem_seq {A} (l : list A) i x : nth_error l i = Some x -> getitem l i = Ok x.
Proof. intros H. unfold getitem. rewrite H. reflexivity. Qed.

Lemma mapM_seq {A B} (f : nat -> res B) (g : nat -> B) l : (forall i, In i l -> f i = Ok (g i)) -> @mapM A B (fun _ => Err IndexError) [] = Ok [] -> mapM f l = Ok (map g l).
Proof.
  intros H _. induction l as [|i l IH]; [reflexivity|]. cbn [mapM map]. rewrite H by (left; reflexivity). cbn [bind].
  rewrite IH by (intros j Hj; apply H; right; exact Hj). reflexivity.
Qed.

Lemma string_links_ok k : string_links k = Ok (lnk lp (lb k) 0 k ++ map (fun i => [lp i; lq k i]) (seq 0 k) ++ lnk (lq k) (lc k) 0 k).
Proof.
  unfold string_links. rewrite links_op.
  assert (HL : Nat.div (length (lnk lp (lb k) 0 k ++ [map lp (seq 0 k) ++ map (lq k) (seq 0 k)] ++ lnk (lq k) (lc k) 0 k)) 2 = k).
  { rewrite !app_length, !lnk_length. cbn [length]. replace (k + (1 + k))%nat with (1 + k * 2)%nat by lia. rewrite Nat.div_add by lia. reflexivity. }
  rewrite HL. unfold getitem at 1. rewrite nth_error_app2 by (rewrite lnk_length; lia). rewrite lnk_length, Nat.sub_diag. cbn [nth_error app bind].
  rewrite (@mapM_seq unit _ _ (fun i => [lp i; lq k i])); [|intros i Hi|reflexivity].
  - cbn [bind]. f_equal. f_equal.
    + rewrite firstn_app, lnk_length, Nat.sub_diag, firstn_O, app_nil_r. rewrite <- (lnk_length lp (lb k) 0 k) at 1. apply firstn_all.
    + f_equal. rewrite skipn_app, lnk_length. replace (k + 1 - k)%nat with 1%nat by lia. cbn [skipn].
      rewrite skipn_all2 by (rewrite lnk_length; lia). reflexivity.
  - apply in_seq in Hi. unfold getitem.
    assert (Hn : forall (f : nat -> Z) j, (j < k)%nat -> nth_error (map f (seq 0 k)) j = Some (f j)).
    { intros f j Hj. apply map_nth_error. rewrite (nth_error_nth' _ 0%nat) by (rewrite seq_length; lia). rewrite seq_nth by lia. reflexivity. }
    rewrite nth_error_app1 by (rewrite map_length, seq_length; lia). rewrite Hn by lia. cbn [bind].
    rewrite nth_error_app2 by (rewrite map_length, seq_length; lia). rewrite map_length, seq_length. rewrite Hn by lia.
    cbn [bind]. do 3 f_equal. f_equal. lia.
Qed.

Lemma pair_concat (p q : nat -> Z) l k : forall s, cnt (concat (map (fun i => [p i; q i]) (seq s k))) l = (cnt (map p (seq s k)) l + cnt (map q (seq s k)) l)%nat.
Proof.
  induction k as [|k IH]; intros s; [reflexivity|]. cbn [seq map concat app count_occ]. rewrite IH.
  destruct (Z.eq_dec (p s) l), (Z.eq_dec (q s) l); lia.
Qed.

Lemma string_prod (p q : nat -> Z) (ops : list (mat R)) e : forall s,
  tprod (map tens_mat ops) (map (fun i => [p i; q i]) (seq s (length ops))) e
  = string_op ops (map e (map p (seq s (length ops)))) (map e (map q (seq s (length ops)))).
Proof. induction ops as [|M ops IH]; intros s; [reflexivity|]. cbn [length seq map string_op]. rewrite tprod_cons, IH. reflexivity. Qed.

Lemma string_dims (p q : nat -> Z) ld (ops : list (mat R)) : forall (Ms : list (site R)) s,
  Forall2 (fun (A : site R) M => mr M = phys A /\ mc M = phys A) Ms ops ->
  (forall i A, nth_error Ms i = Some A -> ld (p (s + i)%nat) = phys A /\ ld (q (s + i)%nat) = phys A) ->
  Forall2 (fun A w => tsh A = map ld w) (map tens_mat ops) (map (fun i => [p i; q i]) (seq s (length ops))).
Proof.
  induction ops as [|M ops IH]; intros Ms s HF Hl; cbn; constructor; inversion HF as [|A ? Ms' ? [H1 H2] HF']; subst.
  - destruct (Hl 0%nat A eq_refl) as [H3 H4]. rewrite Nat.add_0_r in H3, H4. cbn. congruence.
  - apply (IH Ms'); [exact HF'|]. intros i B Hi. replace (S s + i)%nat with (s + S i)%nat by lia. apply Hl. exact Hi.
Qed.

Lemma string_net_ok S (Ms : list (site R)) (ops : list (mat R)) k a z chk l :
  setio_ok S -> length Ms = k -> (0 < k)%nat -> chain a Ms z ->
  Forall2 (fun (A : site R) M => mr M = phys A /\ mc M = phys A) Ms ops -> string_links k = Ok l ->
  exists r, ncon S (map (fun M => tens_site (site_conj M)) Ms ++ map tens_mat ops ++ map tens_site Ms) l None None chk = Ok r /\
    tsh r = [] /\ te r [] = block_value Ms a z (string_op ops).
Proof.
  intros HS HL Hk Hc HF El. rewrite string_links_ok in El. injection El as <-.
  assert (HO : length ops = k). { rewrite <- HL. clear -HF. induction HF; cbn; congruence. }
  destruct (sandwich_ok S Ms (map tens_mat ops) (map (fun i => [lp i; lq k i]) (seq 0 k)) (string_op ops) k a z chk lp (lq k) (lb k) (lc k)) as (r & E & Hr & HV); try assumption.
  - apply nodup_op, Hk.
  - intros l. apply pos_op, Hk.
  - labels.
  - labels.
  - labels.
  - labels.
  - labels.
  - labels.
  - labels.
  - intros l. apply pair_concat.
  - intros ld Hld. rewrite <- HO. apply (string_dims lp (lq (length ops)) ld ops Ms 0 HF). rewrite HO. exact Hld.
  - intros e. rewrite <- HO. apply string_prod.
  - exists r. split; [exact E|]. split; [exact Hr|]. rewrite HV. reflexivity.
Qed.

(** density matrix network *)
Definition rp (n : nat) : Z := (- Z.of_nat (n + 1))%Z.
Definition rq (k n : nat) : Z := (- Z.of_nat (k + (n + 1)))%Z.
Definition rb (k n : nat) : Z := Z.of_nat (if Nat.eqb n k then 2 * k + 1 else n + 1).
Definition rc (k n : nat) : Z := Z.of_nat (if Nat.eqb n 0 then 1 else k + (n + 1)).

Lemma map_seq_add {A} (f : nat -> A) k n : forall s, map f (seq (k + s) n) = map (fun i => f (k + i)%nat) (seq s n).
Proof. induction n as [|n IH]; intros s; cbn; [reflexivity|]. f_equal. rewrite <- IH. do 2 f_equal. lia. Qed.

Lemma rho_links_ok k : rho_links k = lnk rp (rb k) 0 k ++ lnk (rq k) (rc k) 0 k.
Proof.
  unfold rho_links, lnk. f_equal.
  - rewrite seq_shift1, map_map. apply map_ext_in. intros n Hn. apply in_seq in Hn. unfold rp, rb.
    destruct (Nat.eqb_spec (S n) k), (Nat.eqb_spec n k); try lia; repeat (f_equal; try lia).
  - assert (E : seq (k + 1) k = seq (k + 1 + 0) k) by (f_equal; lia). rewrite E, (map_seq_add _ (k + 1) k 0). apply map_ext_in. intros n Hn. apply in_seq in Hn. unfold rq, rc.
    destruct (Nat.eqb_spec (k + 1 + n) (k + 1)), (Nat.eqb_spec n 0), (Nat.eqb_spec (S n) 0); try lia; repeat (f_equal; try lia).
Qed.

Ltac rlabels := unfold rp, rq, rb, rc, injb in *; intros;
  repeat match goal with |- context [Nat.eqb ?a ?b] => destruct (Nat.eqb_spec a b) end;
  repeat match goal with H : context [Nat.eqb ?a ?b] |- _ => destruct (Nat.eqb_spec a b) end; try lia.

Lemma map_inj_nodup (f : nat -> Z) s n : (forall i j, s <= i < s + n -> s <= j < s + n -> f i = f j -> i = j)%nat -> NoDup (map f (seq s n)).
Proof.
  revert s. induction n as [|n IH]; intros s H; cbn; constructor.
  - intros G. apply in_map_iff in G as (j & E & Hj). apply in_seq in Hj. apply H in E; lia.
  - apply IH. intros i j Hi Hj. apply H; lia.
Qed.

Lemma nodup_app' {A} (a b : list A) : NoDup a -> NoDup b -> (forall x, In x a -> ~ In x b) -> NoDup (a ++ b).
Proof.
  induction a as [|x a IH]; cbn; intros Ha Hb H; [exact Hb|]. inversion Ha; subst. constructor.
  - intros G. apply in_app_or in G as [G|G]; [contradiction|]. apply (H x); [left; reflexivity|exact G].
  - apply IH; [assumption|exact Hb|]. intros y Hy. apply H. right. exact Hy.
Qed.

Lemma nodup_rbonds k : (0 < k)%nat -> NoDup (bonds_of (rb k) (rc k) k).
Proof.
  intros Hk. unfold bonds_of. apply nodup_app'; [|apply nodup_app'|].
  - constructor; [|constructor; [intros []|constructor]]. intros [G|[]]. revert G. rlabels.
  - apply map_inj_nodup. rlabels.
  - apply map_inj_nodup. rlabels.
  - intros x G1 G2. apply in_map_iff in G1 as (i & <- & Hi). apply in_map_iff in G2 as (j & E & Hj). apply in_seq in Hi. apply in_seq in Hj. revert E. rlabels.
  - intros x G1 G2. apply in_app_or in G2. assert (Hx : x = rb k 0 \/ x = rb k k) by (destruct G1 as [<-|[<-|[]]]; auto).
    destruct G2 as [G2|G2]; apply in_map_iff in G2 as (j & E & Hj); apply in_seq in Hj; destruct Hx as [->| ->]; revert E; rlabels.
Qed.

Definition rfree k := map rp (seq 0 k) ++ map (rq k) (seq 0 k).

Lemma rfree_eq k : rfree k = map (fun n => (- Z.of_nat (S n))%Z) (seq 0 (2 * k)).
Proof.
  unfold rfree. replace (2 * k)%nat with (k + k)%nat by lia. rewrite seq_app, map_app. f_equal.
  - apply map_ext. intros n. unfold rp. lia.
  - replace (0 + k)%nat with (k + 0)%nat by lia. rewrite (map_seq_add _ k k 0). apply map_ext. intros n. unfold rq. lia.
Qed.

Lemma rfree_sorted n : forall s, StronglySorted Z.gt (map (fun n => (- Z.of_nat (S n))%Z) (seq s n)).
Proof.
  induction n as [|n IH]; intros s; cbn [seq map]; constructor; [apply IH|]. apply Forall_forall. intros x Hx.
  apply in_map_iff in Hx as (j & <- & Hj). apply in_seq in Hj. lia.
Qed.

Lemma rho_net_ok S (Ms : list (site R)) k a z chk :
  setio_ok S -> length Ms = k -> (0 < k)%nat -> chain a Ms z ->
  exists T, ncon S (map tens_site Ms ++ map (fun M => tens_site (site_conj M)) Ms) (rho_links k) None None chk = Ok T /\
    tsh T = dims Ms ++ dims Ms /\
    forall w w', length w = k -> length w' = k -> te T (w ++ w') = sum a (fun i => sum z (fun j => amp Ms w i j * sconj (amp Ms w' i j))).
Proof.
  intros HS HL Hk Hc. rewrite rho_links_ok.
  assert (HNf : NoDup (rfree k)) by (rewrite rfree_eq; apply sortedg_nodup, rfree_sorted).
  assert (Hneg : forall l, In l (rfree k) -> (l < 0)%Z).
  { intros l. rewrite rfree_eq. intros G. apply in_map_iff in G as (n & <- & _). lia. }
  assert (Hposb : forall l, In l (bonds_of (rb k) (rc k) k) -> (0 < l)%Z).
  { intros l G. unfold bonds_of in G. apply in_app_or in G as [G|G].
    - destruct G as [<-|[<-|[]]]; rlabels.
    - apply in_app_or in G as [G|G]; apply in_map_iff in G as (n & <- & _); rlabels. }
  assert (HNN : NoDup (map rp (seq 0 k) ++ map (rq k) (seq 0 k) ++ bonds_of (rb k) (rc k) k)).
  { rewrite app_assoc. apply nodup_app'; [exact HNf|apply nodup_rbonds, Hk|]. intros x G1 G2. apply Hneg in G1. apply Hposb in G2. lia. }
  assert (E0 : rb k 0 = rc k 0) by rlabels. assert (Ek : rb k k = rc k k) by rlabels.
  destruct (ld_exists Ms rp (rq k) (rb k) (rc k) k a z HNN Hc HL Hk E0) as (ld & Hld & Hz).
  assert (Hcl : length (map site_conj Ms) = k) by (rewrite map_length; exact HL).
  assert (HldC : forall i A, nth_error (map site_conj Ms) i = Some A -> ld (rq k i) = phys A /\ ld (rc k i) = dl A).
  { intros i A Hi. rewrite nth_error_map in Hi. destruct (nth_error Ms i) as [B|] eqn:E; [|discriminate]. cbn in Hi. injection Hi as <-.
    destruct (Hld i B E) as (_ & H1 & _ & H2). split; assumption. }
  assert (WF : well_formed ld (map tens_site Ms ++ map (fun M => tens_site (site_conj M)) Ms)
              (lnk rp (rb k) 0 k ++ lnk (rq k) (rc k) 0 k) (bonds_of (rb k) (rc k) k) (rfree k)).
  { assert (HC : forall l, cnt (concat (lnk rp (rb k) 0 k ++ lnk (rq k) (rc k) 0 k)) l = (cnt (rfree k) l + 2 * cnt (bonds_of (rb k) (rc k) k) l)%nat).
    { intros l. unfold rfree. rewrite !concat_app, !count_occ_app, !cnt_lnk0, !cnt_bonds by exact Hk. rewrite <- E0, <- Ek. lia. }
    assert (Z1 : forall l, In l (bonds_of (rb k) (rc k) k) -> cnt (rfree k) l = 0%nat).
    { intros l Hl. apply count_occ_not_In. intros G. apply Hneg in G. apply Hposb in Hl. lia. }
    assert (Z2 : forall l, In l (rfree k) -> cnt (bonds_of (rb k) (rc k) k) l = 0%nat).
    { intros l Hl. apply count_occ_not_In. intros G. apply Hneg in Hl. apply Hposb in G. lia. }
    repeat split.
    - destruct k; [lia|]. discriminate.
    - rewrite <- (map_map site_conj tens_site). apply Forall2_app.
      + pose proof (lnk_dims ld Ms 0 rp (rb k) a z Hc) as H. rewrite HL in H. apply H; [|exact Hz].
        intros i A Hi. destruct (Hld i A Hi) as (H1 & _ & H2 & _). split; assumption.
      + pose proof (lnk_dims ld (map site_conj Ms) 0 (rq k) (rc k) a z (chain_conj _ _ _ Hc) HldC) as H. rewrite Hcl in H. apply H.
        cbn [Nat.add]. rewrite <- Ek. exact Hz.
    - apply nodup_rbonds, Hk.
    - exact HNf.
    - apply Hposb. assumption.
    - rewrite HC, Z1 by assumption. rewrite (proj1 (NoDup_count_occ' Z.eq_dec _) (nodup_rbonds k Hk)) by assumption. reflexivity.
    - apply Hneg. assumption.
    - rewrite HC, Z2 by assumption. rewrite (proj1 (NoDup_count_occ' Z.eq_dec _) HNf) by assumption. reflexivity.
    - intros l Hl. apply (count_occ_In Z.eq_dec) in Hl. rewrite HC in Hl.
      destruct (in_dec Z.eq_dec l (rfree k)) as [G|G]; [right; exact G|left].
      apply (count_occ_not_In Z.eq_dec) in G. apply (count_occ_In Z.eq_dec). lia. }
  destruct (ncon_default_ok S ld _ _ _ _ chk HS WF) as (T & ET & HT & HV); [rewrite rfree_eq; apply rfree_sorted|].
  exists T. split; [exact ET|]. split.
  { rewrite HT. unfold rfree. rewrite map_app. subst k.
    rewrite (map_nth_ld ld rp (fun A => phys A) Ms 0), (map_nth_ld ld (rq (length Ms)) (fun A => phys A) Ms 0); [reflexivity| |];
      intros i A Hi; apply (Hld i A Hi). }
  intros w w' Hw Hw'.
  assert (Hlen : length (w ++ w') = length (rfree k)).
  { rewrite app_length. unfold rfree. rewrite app_length, !map_length, !seq_length. lia. }
  rewrite (HV (w ++ w') Hlen). set (e := assign (rfree k) (w ++ w')).
  assert (HPQ : map e (map rp (seq 0 k)) = w /\ map e (map (rq k) (seq 0 k)) = w').
  { assert (HE : map e (rfree k) = w ++ w') by (apply assign_map; assumption). unfold rfree in HE. rewrite map_app in HE.
    apply app_inv_len in HE; [exact HE|]. rewrite !map_length, seq_length. lia. }
  destruct HPQ as [HPw HQw].
  assert (HF : forall d, tprod (map tens_site Ms ++ map (fun M => tens_site (site_conj M)) Ms) (lnk rp (rb k) 0 k ++ lnk (rq k) (rc k) 0 k) d
     = tprod (map tens_site Ms) (lnk rp (rb k) 0 k) d * tprod (map tens_site (map site_conj Ms)) (lnk (rq k) (rc k) 0 k) d).
  { intros d. rewrite <- (map_map site_conj tens_site). apply tprod_app. rewrite map_length, lnk_length. exact HL. }
  rewrite (esum_ext _ _ _ _ HF). unfold bonds_of.
  rewrite (pair_esum ld Ms (map site_conj Ms) rp (rb k) (rq k) (rc k) k a z); try assumption.
  - apply sum_ext. intros i _. apply sum_ext. intros j _.
    rewrite <- (map_map rp e), <- (map_map (rq k) e). rewrite HPw, HQw, amp_conj. reflexivity.
  - apply chain_conj, Hc.
  - rlabels.
  - rlabels.
  - rlabels.
  - rlabels.
  - rlabels.
  - intros i A Hi. apply (Hld i A Hi).
  - intros i A Hi. apply HldC, Hi.
Qed.
End Block.
