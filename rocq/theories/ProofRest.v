(** right_transfer *)
From Coq Require Import ZArith Sorted.
From Verif Require Import Alg ModelMPS SpecMPS ProofMPS ModelOrth SpecOrth ModelNcon SpecNcon ProofNcon ProofNcon3 ProofNcon4 ModelEk SpecEk ProofEk ProofEk2
  ModelRest SpecRest.

Lemma ssorted_negs n : forall a, StronglySorted Z.gt (map (fun k => (- Z.of_nat k)%Z) (seq a n)).
Proof.
  induction n as [|n IH]; intros a; cbn; constructor; [apply IH|].
  rewrite Forall_map, Forall_forall. intros x Hx. apply in_seq in Hx. lia.
Qed.

Lemma assign_negs xs : forall a ls, length ls = length xs -> ls = map (fun k => (- Z.of_nat k)%Z) (seq a (length xs)) ->
  forall k, (a <= k < a + length xs)%nat -> assign ls xs (- Z.of_nat k)%Z = nth (k - a) xs 0%nat.
Proof.
  induction xs as [|x xs IH]; intros a ls Hl E k Hk; cbn [length] in *; [lia|].
  destruct ls as [|l ls]; [discriminate|]. cbn [seq map] in E. injection E as -> E. cbn [assign]. unfold eupd.
  destruct (Z.eqb_spec (- Z.of_nat k) (- Z.of_nat a)) as [H|H].
  - replace (k - a)%nat with 0%nat by lia. reflexivity.
  - rewrite (IH (a + 1)%nat ls); [replace (k - a)%nat with (S (k - (a + 1)))%nat by lia; reflexivity|injection Hl; auto| |lia].
    rewrite E. now rewrite Nat.add_1_r.
Qed.

Section Transfer.
Context {R : sring}.
Local Open Scope sr_scope.
Add Ring Rr : (s_th R).

Lemma nth_seq_self (xs z : list nat) : map (fun k => nth (k - 1) (xs ++ z) 0%nat) (seq 1 (length xs)) = xs.
Proof.
  revert z. induction xs as [|x xs IH]; intros z; [reflexivity|]. cbn [length seq map]. f_equal.
  rewrite <- seq_shift, map_map. rewrite <- (IH z) at 2. apply map_ext_in. intros k Hk. apply in_seq in Hk.
  replace (S k - 1)%nat with (S (k - 1)) by lia. reflexivity.
Qed.

Lemma rt_step (S : setio) (A : site R) (op : tens R) spect : setio_ok S -> tsh op = spect ++ [dl A; dl A] ->
  exists W, ncon S [tens_site (site_conj A); tens_site A; op] (rt_links (length (tsh op))) None None false = Ok W /\
    tsh W = spect ++ [dr A; dr A] /\
    forall x p q, length x = length spect ->
      te W (x ++ [p; q]) = sum (phys A) (fun s => sum (dl A) (fun a => sum (dl A) (fun b =>
        ent A s a q * sconj (ent A s b p) * te op (x ++ [a; b])))).
Proof.
  intros HS Eop. set (n := length spect). assert (En : length (tsh op) = (n + 2)%nat) by (rewrite Eop, app_length; cbn; lia).
  rewrite En. unfold rt_links. replace (n + 2 - 2)%nat with n by lia.
  set (negs := map (fun k => (- Z.of_nat k)%Z) (seq 1 (n + 2))).
  assert (Enegs : negs = map (fun k => (- Z.of_nat k)%Z) (seq 1 n) ++ [(- Z.of_nat (n + 2) + 1)%Z; (- Z.of_nat (n + 2))%Z]).
  { unfold negs. rewrite seq_app, map_app. cbn [seq map]. f_equal. f_equal; [lia|]. f_equal. lia. }
  set (ld := fun z : Z => match z with 1 => phys A | 2 => dl A | 3 => dl A | _ => nth (Z.to_nat (- z) - 1) (spect ++ [dr A; dr A]) 0%nat end%Z).
  assert (Ll : forall k, (1 <= k)%nat -> ld (- Z.of_nat k)%Z = nth (k - 1) (spect ++ [dr A; dr A]) 0%nat).
  { intros k Hk. unfold ld. destruct k; [lia|]. cbn [Z.of_nat Z.opp]. f_equal. lia. }
  assert (L1 : ld (- Z.of_nat (n + 2) + 1)%Z = dr A).
  { replace (- Z.of_nat (n + 2) + 1)%Z with (- Z.of_nat (n + 1))%Z by lia. rewrite Ll by lia.
    rewrite app_nth2 by (fold n; lia). replace (n + 1 - 1 - length spect)%nat with 0%nat by (fold n; lia). reflexivity. }
  assert (L2 : ld (- Z.of_nat (n + 2))%Z = dr A).
  { rewrite Ll by lia. rewrite app_nth2 by (fold n; lia). replace (n + 2 - 1 - length spect)%nat with 1%nat by (fold n; lia). reflexivity. }
  assert (L3 : map ld (map (fun k => (- Z.of_nat k)%Z) (seq 1 n)) = spect).
  { rewrite map_map. etransitivity; [|exact (nth_seq_self spect [dr A; dr A])]. apply map_ext_in. intros k Hk. apply in_seq in Hk. apply Ll. lia. }
  assert (NDn : NoDup negs).
  { unfold negs. apply FinFun.Injective_map_NoDup; [intros a b H; lia|apply seq_NoDup]. }
  destruct (ncon_default_ok S ld [tens_site (site_conj A); tens_site A; op]
    [[1; 3; - Z.of_nat (n + 2) + 1]; [1; 2; - Z.of_nat (n + 2)]; map (fun k => - Z.of_nat k) (seq 1 n) ++ [2; 3]]%Z
    [1; 2; 3]%Z negs false HS) as (T & ET & ST & VT).
  - assert (Npos : forall l, In l (map (fun k => (- Z.of_nat k)%Z) (seq 1 n)) -> (l < 0)%Z /\ (- Z.of_nat n <= l)%Z).
    { intros l Hl. apply in_map_iff in Hl as (k & <- & Hk). apply in_seq in Hk. lia. }
    split; [discriminate|]. split; [|split; [|split; [|split; [|split]]]].
    + constructor; [|constructor; [|constructor; [|constructor]]].
      * cbn [tens_site tsh site_conj phys dl dr map]. rewrite L1. reflexivity.
      * cbn [tens_site tsh map]. rewrite L2. reflexivity.
      * rewrite map_app, L3, Eop. reflexivity.
    + repeat constructor; cbn; intuition discriminate.
    + exact NDn.
    + intros l Hl. split; [destruct Hl as [<-|[<-|[<-|[]]]]; lia|].
      cbn [concat]. rewrite !app_nil_r, !count_occ_app.
      rewrite (proj1 (count_occ_not_In Z.eq_dec (map (fun k => (- Z.of_nat k)%Z) (seq 1 n)) l)).
      2: { intros G. apply Npos in G. destruct Hl as [<-|[<-|[<-|[]]]]; lia. }
      assert (G1 : (- Z.of_nat (n + 2) + 1)%Z <> l) by (destruct Hl as [<-|[<-|[<-|[]]]]; lia).
      assert (G2 : (- Z.of_nat (n + 2))%Z <> l) by (destruct Hl as [<-|[<-|[<-|[]]]]; lia).
      cbn [count_occ]. destruct (Z.eq_dec (- Z.of_nat (n + 2) + 1) l); [contradiction|].
      destruct (Z.eq_dec (- Z.of_nat (n + 2)) l); [contradiction|]. destruct Hl as [<-|[<-|[<-|[]]]]; reflexivity.
    + intros l Hl. pose proof Hl as Hl0. unfold negs in Hl0. apply in_map_iff in Hl0 as (k & Ek & Hk). apply in_seq in Hk. split; [lia|].
      assert (Hc : count_occ Z.eq_dec negs l = 1%nat) by (apply NoDup_count_occ'; assumption).
      rewrite Enegs, count_occ_app in Hc. cbn [concat]. rewrite !app_nil_r, !count_occ_app.
      cbn [count_occ] in *. destruct (Z.eq_dec 1 l); [lia|]. destruct (Z.eq_dec 2 l); [lia|]. destruct (Z.eq_dec 3 l); [lia|].
      destruct (Z.eq_dec (- Z.of_nat (n + 2) + 1) l), (Z.eq_dec (- Z.of_nat (n + 2)) l); lia.
    + intros l Hl. cbn [concat] in Hl. rewrite !app_nil_r in Hl. rewrite Enegs.
      repeat (apply in_app_or in Hl as [Hl|Hl]).
      * destruct Hl as [<-|[<-|[<-|[]]]]; [left; cbn; tauto|left; cbn; tauto|right; apply in_or_app; right; cbn; tauto].
      * destruct Hl as [<-|[<-|[<-|[]]]]; [left; cbn; tauto|left; cbn; tauto|right; apply in_or_app; right; cbn; tauto].
      * right. apply in_or_app. now left.
      * left. cbn in *. tauto.
  - apply ssorted_negs.
  - exists T. split; [exact ET|]. split.
    + rewrite ST, Enegs, map_app, L3. cbn [map]. rewrite L1, L2. reflexivity.
    + intros x p q Hx. assert (Lx : length (x ++ [p; q]) = (n + 2)%nat) by (rewrite app_length, Hx; cbn; fold n; lia).
      rewrite VT by (unfold negs; rewrite map_length, seq_length; exact Lx).
      cbn [esum]. unfold ld at 1 2 3. apply sum_ext; intros s _. apply sum_ext; intros a _. apply sum_ext; intros b _.
      set (e0 := assign negs (x ++ [p; q])).
      assert (A1 : forall k, (1 <= k < 1 + (n + 2))%nat -> e0 (- Z.of_nat k)%Z = nth (k - 1) (x ++ [p; q]) 0%nat).
      { intros k Hk. unfold e0. apply assign_negs; [unfold negs; rewrite map_length, seq_length; lia|unfold negs; now rewrite Lx|lia]. }
      set (e := eupd (eupd (eupd e0 1 s) 2 a) 3 b).
      assert (Ee : forall z, (z < 0)%Z -> e z = e0 z).
      { intros z Hz. unfold e, eupd. destruct (Z.eqb_spec z 3), (Z.eqb_spec z 2), (Z.eqb_spec z 1); try lia. }
      unfold tprod. cbn [combine map fst snd prodl fold_right].
      assert (E1 : e (- Z.of_nat (n + 2) + 1)%Z = p).
      { rewrite Ee by lia. replace (- Z.of_nat (n + 2) + 1)%Z with (- Z.of_nat (n + 1))%Z by lia. rewrite A1 by lia.
        rewrite app_nth2 by lia. replace (n + 1 - 1 - length x)%nat with 0%nat by lia. reflexivity. }
      assert (E2 : e (- Z.of_nat (n + 2))%Z = q).
      { rewrite Ee by lia. rewrite A1 by lia. rewrite app_nth2 by lia. replace (n + 2 - 1 - length x)%nat with 1%nat by lia. reflexivity. }
      assert (E3 : map e (map (fun k => (- Z.of_nat k)%Z) (seq 1 n) ++ [2; 3]%Z) = x ++ [a; b]).
      { rewrite map_app. f_equal. rewrite map_map. etransitivity; [|exact (nth_seq_self x [p; q])]. rewrite Hx. fold n.
        apply map_ext_in. intros k Hk. apply in_seq in Hk. rewrite Ee by lia. rewrite A1 by (unfold n; lia). reflexivity. }
      rewrite E1, E2, E3. change (e 1%Z) with s. change (e 2%Z) with a. change (e 3%Z) with b.
      cbn [te tens_site site_conj ent nth]. ring.
Qed.

(** the loop *)
Lemma csite_conj (A : site R) : csite A = site_conj A. Proof. reflexivity. Qed.

Lemma amp_csite (l : list (site R)) s i j : amp (map csite l) s i j = sconj (amp l s i j).
Proof. exact (amp_conj l s i j). Qed.

Lemma dims_csite (l : list (site R)) : dims (map csite l) = dims l.
Proof. unfold dims. rewrite map_map. reflexivity. Qed.

Lemma dims_alternating (l : list (site R)) : dims (alternating l) = dims l.
Proof. induction l as [|A l IH]; [reflexivity|]. cbn [alternating dims map]. f_equal. etransitivity; [exact (dims_csite _)|exact IH]. Qed.

Lemma amp_real (l : list (site R)) : real_sites l -> forall s i j, sconj (amp l s i j) = amp l s i j.
Proof.
  induction 1 as [|A l HA Hl IH]; intros s i j; destruct s as [|x s]; cbn [amp]; try apply conj_0.
  - unfold dlt. destruct (Nat.eqb i j); [apply conj_1|apply conj_0].
  - rewrite sum_conj. apply sum_ext. intros k _. rewrite conj_mul, HA, IH. reflexivity.
Qed.

Lemma amp_alternating_real (l : list (site R)) : real_sites l -> forall s i j, amp (alternating l) s i j = amp l s i j.
Proof.
  induction 1 as [|A l HA Hl IH]; intros s i j; destruct s as [|x s]; cbn [alternating amp]; try reflexivity.
  apply sum_ext. intros k _. rewrite amp_csite, IH. rewrite amp_real by assumption. reflexivity.
Qed.

Lemma chain_csite (l : list (site R)) a z : chain a l z -> chain a (map csite l) z.
Proof. exact (chain_conj l a z). Qed.

Lemma chain_alternating (l : list (site R)) : forall a z, chain a l z -> chain a (alternating l) z.
Proof. induction l as [|A l IH]; intros a z H; cbn in *; [exact H|]. destruct H as [H1 H2]. split; [exact H1|]. apply chain_csite, IH, H2. Qed.

Lemma carried_nil D (f : nat -> nat -> R) p q : (p < D)%nat -> (q < D)%nat -> carried D [] f p q = f p q.
Proof.
  intros Hp Hq. unfold carried. cbn [dims map sumcfg amp].
  rewrite (sum_single D p) by (first [exact Hp|intros a _ Ha; apply sum_zero; intros b _; rewrite (dlt_neq a p) by exact Ha; ring]).
  rewrite (sum_single D q) by (first [exact Hq|intros b _ Hb; rewrite (dlt_neq b q) by exact Hb; rewrite conj_0; ring]).
  rewrite !dlt_eq, conj_1. ring.
Qed.

(** one more site on the left, which exchanges the two ends *)
Lemma carried_cons (A : site R) l (f : nat -> nat -> R) p q :
  carried (dr A) l (fun a b => sum (phys A) (fun s => sum (dl A) (fun a' => sum (dl A) (fun b' =>
    ent A s a' b * sconj (ent A s b' a) * f a' b')))) p q =
  carried (dl A) (A :: map csite l) f q p.
Proof.
  unfold carried. cbn [dims map sumcfg]. change (map (fun A0 : site R => phys A0) (map csite l)) with (dims (map csite l)).
  rewrite dims_csite. change (map (fun A0 : site R => phys A0) l) with (dims l).
  rewrite <- sumcfg_sum. apply sumcfg_ext; intros s _.
  (* the sum over the outer site outside *)
  transitivity (sum (phys A) (fun x => sum (dr A) (fun a => sum (dr A) (fun b => sum (dl A) (fun a' => sum (dl A) (fun b' =>
    amp l s a p * sconj (amp l s b q) * (ent A x a' b * sconj (ent A x b' a) * f a' b'))))))).
  { rewrite (sum_swap (phys A) (dr A)). apply sum_ext; intros a _. rewrite (sum_swap (phys A) (dr A)). apply sum_ext; intros b _. rewrite <- sum_mul_l.
    apply sum_ext; intros x _. rewrite <- sum_mul_l. apply sum_ext; intros a' _. rewrite <- sum_mul_l. reflexivity. }
  apply sum_ext; intros x _.
  transitivity (sum (dl A) (fun a' => sum (dl A) (fun b' => sum (dr A) (fun a => sum (dr A) (fun b =>
    amp l s a p * sconj (amp l s b q) * (ent A x a' b * sconj (ent A x b' a) * f a' b')))))).
  { rewrite (sum_ext (dr A) _ (fun a => sum (dl A) (fun a' => sum (dl A) (fun b' => sum (dr A) (fun b =>
      amp l s a p * sconj (amp l s b q) * (ent A x a' b * sconj (ent A x b' a) * f a' b')))))).
    2: { intros a _. rewrite sum_swap. apply sum_ext; intros a' _. apply sum_swap. }
    rewrite sum_swap. apply sum_ext; intros a' _. apply sum_swap. }
  apply sum_ext; intros a' _. apply sum_ext; intros b' _. cbn [amp].
  rewrite sum_conj. rewrite <- !sum_mul_r. rewrite sum_swap. apply sum_ext; intros b _.
  rewrite amp_csite. rewrite <- sum_mul_l, <- sum_mul_r. apply sum_ext; intros a _. rewrite conj_mul, amp_csite, conj_conj. ring.
Qed.


Lemma rt_loop_ok (S : setio) spect : setio_ok S -> forall l pre D z (op : tens R) post, tsh op = spect ++ [D; D] -> chain D l z ->
  exists Ws, rt_loop S (length spect + 2) (pre ++ l ++ post) (seq (length pre) (length l)) op = Ok Ws /\ length Ws = length l /\
    forall k, (k <= length l)%nat -> exists W D', nth_error (op :: Ws) k = Some W /\ chain D (firstn k l) D' /\ tsh W = spect ++ [D'; D'] /\
      forall x p q, length x = length spect -> (p < D')%nat -> (q < D')%nat ->
        te W (x ++ [p; q]) = ends k (carried D (alternating (firstn k l)) (fun a b => te op (x ++ [a; b]))) p q.
Proof.
  intros HS. induction l as [|A l IH]; intros pre D z op post Eop Hc.
  - exists []. split; [reflexivity|]. split; [reflexivity|]. intros k Hk. cbn [length] in Hk. replace k with 0%nat by lia.
    exists op, D. split; [reflexivity|]. split; [reflexivity|]. split; [exact Eop|]. intros x p q Hx Hp Hq.
    cbn [firstn alternating]. unfold ends. cbn [Nat.even]. now rewrite carried_nil.
  - destruct Hc as [HA Hc]. subst D. cbn [length seq rt_loop].
    assert (EG : getitem (pre ++ (A :: l) ++ post) (length pre) = Ok A).
    { unfold getitem. rewrite nth_error_app2 by lia. rewrite Nat.sub_diag. reflexivity. }
    rewrite EG. cbn [bind].
    destruct (rt_step S A op spect HS Eop) as (W & EW & SW & VW).
    assert (EL : length (tsh op) = (length spect + 2)%nat) by (rewrite Eop, app_length; reflexivity).
    rewrite EL in EW. rewrite EW. cbn [bind].
    destruct (IH (pre ++ [A]) (dr A) z W post SW Hc) as (Ws & EWs & LWs & VWs).
    rewrite app_length in EWs. cbn [length] in EWs. rewrite Nat.add_1_r in EWs. rewrite <- app_assoc in EWs. cbn [app] in EWs.
    cbn [app]. rewrite EWs. cbn [bind]. exists (W :: Ws). split; [reflexivity|]. split; [cbn; congruence|].
    intros k Hk. destruct k as [|k].
    + exists op, (dl A). split; [reflexivity|]. split; [reflexivity|]. split; [exact Eop|]. intros x p q Hx Hp Hq.
      cbn [firstn alternating]. unfold ends. cbn [Nat.even]. now rewrite carried_nil.
    + destruct (VWs k ltac:(cbn in Hk; lia)) as (X & D' & EX & HX & SX & VX). exists X, D'.
      split; [exact EX|]. split; [cbn [firstn]; split; [reflexivity|exact HX]|]. split; [exact SX|].
      intros x p q Hx Hp Hq. rewrite (VX x p q Hx Hp Hq). cbn [firstn alternating].
      unfold ends. rewrite Nat.even_succ, <- Nat.negb_even. destruct (Nat.even k); cbn [negb].
      * rewrite <- carried_cons. unfold carried. apply sumcfg_ext; intros s _. apply sum_ext; intros a Ha. apply sum_ext; intros b Hb.
        rewrite VW by exact Hx. reflexivity.
      * rewrite <- carried_cons. unfold carried. apply sumcfg_ext; intros s _. apply sum_ext; intros a Ha. apply sum_ext; intros b Hb.
        rewrite VW by exact Hx. reflexivity.
Qed.

Theorem right_transfer_spec (S : setio) (m : fmps R) (op : tens R) spect pre l post D z : setio_ok S ->
  fdata m = pre ++ l ++ post -> pre <> [] -> chain D l z -> tsh op = spect ++ [D; D] ->
  let i := (length pre - 1)%nat in let j := (i + length l)%nat in
  exists Rf, right_transfer S m op i j = Ok Rf /\ right_transfer_one S m op i j = Ok op /\
    forall k, (k <= length l)%nat -> exists W D', Rf (i + 1 + k)%nat = Ok W /\ chain D (firstn k l) D' /\ tsh W = spect ++ [D'; D'] /\
      forall x p q, length x = length spect -> (p < D')%nat -> (q < D')%nat ->
        te W (x ++ [p; q]) = ends k (carried D (alternating (firstn k l)) (fun a b => te op (x ++ [a; b]))) p q.
Proof.
  intros HS Ef Hpre Hc Eop i j. assert (Hlp : (1 <= length pre)%nat) by (destruct pre; [congruence|cbn; lia]).
  destruct (rt_loop_ok S spect HS l pre D z op post Eop Hc) as (Ws & EWs & LWs & VWs).
  assert (EL : length (tsh op) = (length spect + 2)%nat) by (rewrite Eop, app_length; reflexivity).
  unfold right_transfer, right_transfer_one. rewrite EL, Ef. replace (i + 1)%nat with (length pre) by (unfold i; lia).
  replace (j - i)%nat with (length l) by (unfold j; lia). rewrite EWs. cbn [bind]. eexists. split; [reflexivity|]. split; [reflexivity|].
  intros k Hk. destruct (VWs k Hk) as (W & D' & EW & HW). exists W, D'. split; [|exact HW].
  replace (length pre + k - i - 1)%nat with k by (unfold i; lia). unfold getitem. rewrite EW. reflexivity.
Qed.

Lemma carried_ext D (l l' : list (site R)) f p q : dims l = dims l' -> (forall s i j, amp l s i j = amp l' s i j) -> carried D l f p q = carried D l' f p q.
Proof. intros Hd H. unfold carried. rewrite Hd. apply sumcfg_ext; intros s _. apply sum_ext; intros a _. apply sum_ext; intros b _. now rewrite !H. Qed.

Lemma carried_real D (l : list (site R)) f p q : real_sites l -> carried D (alternating l) f p q = carried D l f p q.
Proof. intros H. apply carried_ext; [apply dims_alternating|now apply amp_alternating_real]. Qed.
End Transfer.
