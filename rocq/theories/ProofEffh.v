(** The environments of effH. *)
From Verif Require Import Alg ModelMPS SpecMPS ProofMPS ProofMPS2 ModelOrth SpecOrth ProofOrth ModelNcon ModelEk ProofEk4 ModelNp SpecQmb ModelEffh SpecEffh.
From Verif Require ProofMatch.
Local Open Scope nat_scope.

Section Proofs.
Context {R : sring}.
Local Open Scope sr_scope.
Add Ring Rr : (s_th R).

Ltac conred := cbn [mapM getitem nth_error bind tsh te]; unfold nlist_eqb; repeat (progress (cbn; rewrite ?Nat.eqb_refl)); cbn.

Lemma env_right_ok (L W : tens R) (A : site R) d k k' : phys A = d -> tsh L = [k; dl A; dl A] -> tsh W = [d; d; k; k'] ->
  exists T, env_right L W A = Ok T /\ tsh T = [k'; dr A; dr A] /\ forall z b b2, te T [z; b; b2] =
    sum d (fun i' => sum (dl A) (fun a2 => sum d (fun i => sum k (fun w => sum (dl A) (fun a => sconj (ent A i a b) * te L [w; a; a2]) * te W [i; i'; w; z])) * ent A i' a2 b2)).
Proof.
  intros Hd HL HW. unfold env_right, con, transpose_, site_H, tens_site. rewrite HL, HW, Hd. conred.
  eexists. split; [reflexivity|]. split; [reflexivity|]. intros z b b2. cbn. reflexivity.
Qed.

Lemma env_left_ok (R0 W : tens R) (A : site R) d k k' : phys A = d -> tsh R0 = [k'; dr A; dr A] -> tsh W = [d; d; k; k'] ->
  exists T, env_left R0 W A = Ok T /\ tsh T = [k; dl A; dl A] /\ forall z x y, te T [z; x; y] =
    sum d (fun i' => sum (dr A) (fun r => ent A i' x r * sum d (fun i => sum k' (fun w => te W [i; i'; z; w] * sum (dr A) (fun b => te R0 [w; r; b] * sconj (ent A i y b)))))).
Proof.
  intros Hd HR HW. unfold env_left, con, transpose_, site_H, tens_site. rewrite HR, HW, Hd. conred.
  eexists. split; [reflexivity|]. split; [reflexivity|]. intros z x y. cbn. reflexivity.
Qed.

(** A product of three sums, summed over two configurations. *)
Lemma tri ds es n1 n2 n3 (a b c : nat -> R) (u v w : nat -> list nat -> list nat -> R) :
  sumcfg ds (fun s => sumcfg es (fun t => sum n1 (fun x => a x * u x s t) * sum n2 (fun y => b y * v y s t) * sum n3 (fun z => c z * w z s t)))
  = sum n1 (fun x => sum n2 (fun y => sum n3 (fun z => a x * b y * c z * sumcfg ds (fun s => sumcfg es (fun t => u x s t * v y s t * w z s t))))).
Proof.
  symmetry. etransitivity.
  { apply sum_ext; intros x _. etransitivity; [apply sum_ext; intros y _; etransitivity|].
    - apply sum_ext; intros z _. rewrite <- sumcfg_mul_l. apply sumcfg_ext; intros s _. rewrite <- sumcfg_mul_l. reflexivity.
    - rewrite <- sumcfg_sum. apply sumcfg_ext; intros s _. rewrite <- sumcfg_sum. reflexivity.
    - rewrite <- sumcfg_sum. apply sumcfg_ext; intros s _. rewrite <- sumcfg_sum. reflexivity. }
  rewrite <- sumcfg_sum. apply sumcfg_ext; intros s _. rewrite <- sumcfg_sum. apply sumcfg_ext; intros t _.
  rewrite <- sum_mul_r, <- sum_mul_r. apply sum_ext; intros x _. rewrite <- (sum_mul_l n2), <- sum_mul_r. apply sum_ext; intros y _.
  rewrite <- (sum_mul_l n3). apply sum_ext; intros z _. ring.
Qed.

Lemma mpo_prod_app d (Ws Vs : list (tens R)) : forall a b s t u v z, mpo_chain d a Ws b -> length s = length Ws -> length t = length Ws -> forall j, (j < a)%nat ->
  mpo_prod (Ws ++ Vs) (s ++ u) (t ++ v) j z = sum b (fun k => mpo_prod Ws s t j k * mpo_prod Vs u v k z).
Proof.
  induction Ws as [|W Ws IH]; intros a b [|x s] [|y t] u v z Hc Hs Ht j Hj; try discriminate.
  - cbn in *. subst b. rewrite (sum_dlt_l a j (fun k => mpo_prod Vs u v k z)) by exact Hj. reflexivity.
  - destruct Hc as (c & E & Hc). cbn [app mpo_prod]. rewrite E. cbn [nth].
    etransitivity; [apply sum_ext; intros k Hk; rewrite (IH c b s t u v z Hc) by (cbn in *; lia || congruence); reflexivity|].
    etransitivity; [apply sum_ext; intros k _; rewrite <- sum_mul_l; reflexivity|]. rewrite sum_swap. apply sum_ext; intros k _.
    rewrite <- sum_mul_r. apply sum_ext; intros c' _. ring.
Qed.

Lemma mpo_chain_app d (Ws Vs : list (tens R)) : forall a z, mpo_chain d a (Ws ++ Vs) z <-> exists b, mpo_chain d a Ws b /\ mpo_chain d b Vs z.
Proof.
  induction Ws as [|W Ws IH]; intros a z; cbn [app mpo_chain].
  - split; [intros H; now exists a|intros (b & <- & H); exact H].
  - split.
    + intros (c & E & H). apply IH in H as (b & H1 & H2). exists b. split; [|exact H2]. now exists c.
    + intros (b & (c & E & H1) & H2). exists c. split; [exact E|]. apply IH. now exists b.
Qed.

Lemma sumcfg_1 d (f : list nat -> R) : sumcfg [d] f = sum d (fun i => f [i]).
Proof. reflexivity. Qed.

Lemma repeat_snoc {X} (x : X) n : repeat x (n + 1) = repeat x n ++ [x].
Proof. induction n; cbn; [reflexivity|]. now rewrite IHn. Qed.

Lemma left_block_snoc d (Ws : list (tens R)) W p A k k' z b b2 : chain 1 p (dl A) -> mpo_chain d 1 Ws k -> tsh W = [d; d; k; k'] -> length Ws = length p ->
  (z < k')%nat -> (b < dr A)%nat -> (b2 < dr A)%nat ->
  left_block d (Ws ++ [W]) (p ++ [A]) z b b2 =
  sum d (fun i' => sum (dl A) (fun a2 => sum d (fun i => sum k (fun w => sum (dl A) (fun a => sconj (ent A i a b) * left_block d Ws p w a a2) * te W [i; i'; w; z])) * ent A i' a2 b2)).
Proof.
  intros Hc HWs HW Hl Hz Hb Hb2. unfold left_block at 1. rewrite app_length. cbn [length]. rewrite repeat_snoc, sumcfg_app.
  transitivity (sum d (fun i' => sum d (fun i => sumcfg (repeat d (length p)) (fun s => sumcfg (repeat d (length p)) (fun t =>
    sum (dl A) (fun a => ent A i' a b2 * amp p t 0 a) * sum k (fun w => te W [i; i'; w; z] * mpo_prod Ws s t 0 w) * sum (dl A) (fun a => sconj (ent A i a b) * sconj (amp p s 0 a))))))).
  - symmetry. rewrite sum_swap. etransitivity; [apply sum_ext; intros i _; symmetry; apply (sumcfg_sum (repeat d (length p)))|].
    rewrite <- sumcfg_sum. apply sumcfg_ext; intros s Hs. rewrite sumcfg_1. apply sum_ext; intros i Hi.
    rewrite sumcfg_app. rewrite <- sumcfg_sum. apply sumcfg_ext; intros t Ht. rewrite sumcfg_1. apply sum_ext; intros i' Hi'.
    assert (Ls : length s = length p) by (rewrite (incfg_length _ _ Hs); apply repeat_length).
    assert (Lt : length t = length p) by (rewrite (incfg_length _ _ Ht); apply repeat_length).
    rewrite (ProofMatch.amp_snoc p A s i 0 b 1 (dl A)), (ProofMatch.amp_snoc p A t i' 0 b2 1 (dl A)) by (assumption || lia).
    rewrite (mpo_prod_app d Ws [W] 1 k s t [i] [i'] z HWs) by (lia || congruence).
    assert (E : sum k (fun w => mpo_prod Ws s t 0 w * mpo_prod [W] [i] [i'] w z) = sum k (fun w => te W [i; i'; w; z] * mpo_prod Ws s t 0 w)).
    { apply sum_ext; intros w _. cbn [mpo_prod]. rewrite HW. cbn [nth]. rewrite sum_dlt_r by exact Hz. ring. }
    rewrite E. rewrite sum_conj.
    rewrite (sum_ext (dl A) (fun i0 => sconj (amp p s 0 i0 * ent A i i0 b)) (fun a => sconj (ent A i a b) * sconj (amp p s 0 a))) by (intros; rewrite conj_mul; ring).
    rewrite (sum_ext (dl A) (fun i0 => amp p t 0 i0 * ent A i' i0 b2) (fun a => ent A i' a b2 * amp p t 0 a)) by (intros; ring). ring.
  - apply sum_ext; intros i' _. etransitivity.
    { apply sum_ext; intros i _. apply (tri (repeat d (length p)) (repeat d (length p)) (dl A) k (dl A) (fun a => ent A i' a b2) (fun w => te W [i; i'; w; z]) (fun a => sconj (ent A i a b))
        (fun a s t => amp p t 0 a) (fun w s t => mpo_prod Ws s t 0 w) (fun a s t => sconj (amp p s 0 a))). }
    rewrite sum_swap. apply sum_ext; intros a2 _. rewrite <- sum_mul_r. apply sum_ext; intros i _. rewrite <- sum_mul_r. apply sum_ext; intros w _.
    rewrite <- sum_mul_r, <- sum_mul_r. apply sum_ext; intros a _. unfold left_block.
    transitivity (sconj (ent A i a b) * te W [i; i'; w; z] * ent A i' a2 b2 * sumcfg (repeat d (length p)) (fun s => sumcfg (repeat d (length p)) (fun t =>
      sconj (amp p s 0 a) * mpo_prod Ws s t 0 w * amp p t 0 a2))); [|ring].
    transitivity (sconj (ent A i a b) * te W [i; i'; w; z] * ent A i' a2 b2 * sumcfg (repeat d (length p)) (fun s => sumcfg (repeat d (length p)) (fun t =>
      amp p t 0 a2 * mpo_prod Ws s t 0 w * sconj (amp p s 0 a)))); [ring|]. f_equal. apply sumcfg_ext; intros s _. apply sumcfg_ext; intros t _. ring.
Qed.

Lemma right_block_cons d W (Ws : list (tens R)) A q k k' z x y : tsh W = [d; d; k; k'] -> length Ws = length q ->
  right_block d (W :: Ws) (A :: q) z x y =
  sum d (fun i' => sum (dr A) (fun r => ent A i' y r * sum d (fun i => sum k' (fun w => te W [i; i'; z; w] * sum (dr A) (fun b => right_block d Ws q w b r * sconj (ent A i x b)))))).
Proof.
  intros HW Hl. unfold right_block at 1. cbn [length repeat sumcfg].
  transitivity (sum d (fun i' => sum d (fun i => sumcfg (repeat d (length q)) (fun s => sumcfg (repeat d (length q)) (fun t =>
    sum (dr A) (fun r => ent A i' y r * amp q t r 0) * sum k' (fun w => te W [i; i'; z; w] * mpo_prod Ws s t w 0) * sum (dr A) (fun b => sconj (ent A i x b) * sconj (amp q s b 0))))))).
  - symmetry. rewrite sum_swap. apply sum_ext; intros i _. rewrite <- sumcfg_sum. apply sumcfg_ext; intros s _. apply sum_ext; intros i' _. apply sumcfg_ext; intros t _.
    cbn [amp mpo_prod]. rewrite HW. cbn [nth]. rewrite sum_conj.
    rewrite (sum_ext (dr A) (fun i0 => sconj (ent A i x i0 * amp q s i0 0)) (fun b => sconj (ent A i x b) * sconj (amp q s b 0))) by (intros; rewrite conj_mul; ring). ring.
  - apply sum_ext; intros i' _. etransitivity.
    { apply sum_ext; intros i _. apply (tri (repeat d (length q)) (repeat d (length q)) (dr A) k' (dr A) (fun r => ent A i' y r) (fun w => te W [i; i'; z; w]) (fun b => sconj (ent A i x b))
        (fun r s t => amp q t r 0) (fun w s t => mpo_prod Ws s t w 0) (fun b s t => sconj (amp q s b 0))). }
    rewrite sum_swap. apply sum_ext; intros r _. rewrite <- sum_mul_l. apply sum_ext; intros i _. rewrite <- sum_mul_l. apply sum_ext; intros w _.
    rewrite <- !sum_mul_l. apply sum_ext; intros b _. unfold right_block.
    transitivity (ent A i' y r * te W [i; i'; z; w] * sconj (ent A i x b) * sumcfg (repeat d (length q)) (fun s => sumcfg (repeat d (length q)) (fun t =>
      sconj (amp q s b 0) * mpo_prod Ws s t w 0 * amp q t r 0))); [|ring].
    f_equal. apply sumcfg_ext; intros s _. apply sumcfg_ext; intros t _. ring.
Qed.

(** The loops. *)
Definition is_left (d k a : nat) (Ws : list (tens R)) (p : list (site R)) (T : tens R) : Prop :=
  tsh T = [k; a; a] /\ forall z x y, (z < k)%nat -> (x < a)%nat -> (y < a)%nat -> te T [z; x; y] = left_block d Ws p z x y.
Definition is_right (d k a : nat) (Ws : list (tens R)) (q : list (site R)) (T : tens R) : Prop :=
  tsh T = [k; a; a] /\ forall z x y, (z < k)%nat -> (x < a)%nat -> (y < a)%nat -> te T [z; x; y] = right_block d Ws q z y x.

Lemma left_env_loop d (Ws1 : list (tens R)) (As1 : list (site R)) : forall Ws2 As2 Wp p L a k b k' Wr Ar,
  chain a As2 b -> chain 1 p a -> Forall (fun A => phys A = d) As2 -> mpo_chain d k Ws2 k' -> mpo_chain d 1 Wp k -> length Wp = length p -> length Ws2 = length As2 ->
  Ws1 = Wp ++ Ws2 ++ Wr -> As1 = p ++ As2 ++ Ar -> is_left d k a Wp p L ->
  exists T, left_env_from L Ws1 As1 (seq (length p) (length As2)) = Ok T /\ is_left d k' b (Wp ++ Ws2) (p ++ As2) T.
Proof.
  induction Ws2 as [|W Ws2 IH]; intros [|A As2] Wp p L a k b k' Wr Ar Hc Hp Hd HW HWp Hl Hl2 E1 E2 HL; try discriminate.
  - cbn in *. subst b k'. rewrite !app_nil_r. exists L. auto.
  - destruct Hc as [Ha Hc]. destruct HW as (c & HW & HWc). pose proof (Forall_inv Hd) as Hd1; pose proof (Forall_inv_tail Hd) as Hd2; cbn beta in Hd1; subst a.
    destruct HL as [SL VL]. destruct (env_right_ok L W A d k c Hd1 SL HW) as (T & ET & ST & VT).
    destruct (IH As2 (Wp ++ [W]) (p ++ [A]) T (dr A) c b k' Wr Ar) as (T' & ET' & IT'); try assumption.
    + apply chain_app. exists (dl A). split; [exact Hp|]. cbn. auto.
    + apply mpo_chain_app. exists k. split; [exact HWp|]. cbn. now exists c.
    + rewrite !app_length. cbn. lia.
    + cbn in Hl2. lia.
    + rewrite E1, <- app_assoc. reflexivity.
    + rewrite E2, <- app_assoc. reflexivity.
    + split; [exact ST|]. intros z x y Hz Hx Hy. rewrite VT. rewrite (left_block_snoc d Wp W p A k c z x y) by assumption.
      apply sum_ext; intros i' _. apply sum_ext; intros a2 Ha2. f_equal. apply sum_ext; intros i _. apply sum_ext; intros w Hw. f_equal. apply sum_ext; intros a Ha'. now rewrite VL.
    + exists T'. split; [|rewrite <- !app_assoc in IT'; exact IT'].
      assert (G1 : getitem Ws1 (length p) = Ok W) by (unfold getitem; rewrite E1, <- Hl, nth_error_app2, Nat.sub_diag by lia; reflexivity).
      assert (G2 : getitem As1 (length p) = Ok A) by (unfold getitem; rewrite E2, nth_error_app2, Nat.sub_diag by lia; reflexivity).
      cbn [length seq left_env_from]. rewrite G1, G2. cbn [bind]. rewrite ET. cbn [bind].
      rewrite app_length in ET'. cbn [length] in ET'. rewrite Nat.add_1_r in ET'. exact ET'.
Qed.

Lemma get_left_env_ok d (Ws : list (tens R)) (As : list (site R)) Wp p a k Wr Ar :
  Ws = Wp ++ Wr -> As = p ++ Ar -> length Wp = length p -> chain 1 p a -> Forall (fun A => phys A = d) p -> mpo_chain d 1 Wp k ->
  exists T, get_left_env Ws As (length p) = Ok T /\ is_left d k a Wp p T.
Proof.
  intros E1 E2 Hl Hc Hd HW. destruct (left_env_loop d Ws As Wp p [] [] one3 1 1 a k Wr Ar) as (T & ET & IT); try assumption; try reflexivity.
  - split; [reflexivity|]. intros z x y Hz Hx Hy. assert (z = 0%nat) by lia. assert (x = 0%nat) by lia. assert (y = 0%nat) by lia. subst.
    unfold left_block, one3. cbn. unfold dlt. cbn. rewrite conj_1. ring.
  - exists T. split; [exact ET|exact IT].
Qed.

Lemma right_env_loop d (Ws1 : list (tens R)) (As1 : list (site R)) : forall Wq q Wp p a k,
  length Wq = length q -> length Wp = length p -> chain a q 1 -> Forall (fun A => phys A = d) q -> mpo_chain d k Wq 1 -> Ws1 = Wp ++ Wq -> As1 = p ++ q ->
  exists T, right_env_from one3 Ws1 As1 (rev (seq (length p) (length q))) = Ok T /\ is_right d k a Wq q T.
Proof.
  assert (HA : forall Ws As ms1 ms2 (R0 : tens R), right_env_from R0 Ws As (ms1 ++ ms2) = do T <- right_env_from R0 Ws As ms1; right_env_from T Ws As ms2).
  { intros Ws As ms1. induction ms1 as [|m ms1 IH]; intros ms2 R0; [reflexivity|]. cbn [app right_env_from].
    destruct (getitem Ws m); [|reflexivity]. cbn [bind]. destruct (getitem As m); [|reflexivity]. cbn [bind]. destruct (env_left _ _ _); [|reflexivity]. cbn [bind]. apply IH. }
  induction Wq as [|W Wq IH]; intros [|A q] Wp p a k Hl Hlp Hc Hd HW E1 E2; try discriminate.
  - cbn in *. subst a k. exists one3. split; [reflexivity|]. split; [reflexivity|]. intros z x y Hz Hx Hy. assert (z = 0%nat) by lia. assert (x = 0%nat) by lia. assert (y = 0%nat) by lia. subst.
    unfold right_block, one3. cbn. unfold dlt. cbn. rewrite conj_1. ring.
  - destruct Hc as [Ha Hc]. destruct HW as (c & HW & HWc). pose proof (Forall_inv Hd) as Hd1; pose proof (Forall_inv_tail Hd) as Hd2; cbn beta in Hd1; subst a.
    destruct (IH q (Wp ++ [W]) (p ++ [A]) (dr A) c) as (T & ET & ST & VT); try assumption.
    + cbn in Hl. lia.
    + rewrite !app_length. cbn. lia.
    + rewrite E1, <- app_assoc. reflexivity.
    + rewrite E2, <- app_assoc. reflexivity.
    + destruct (env_left_ok T W A d k c Hd1 ST HW) as (T' & ET' & ST' & VT'). exists T'. split.
      * cbn [length seq rev]. rewrite HA. rewrite app_length in ET. cbn [length] in ET. rewrite Nat.add_1_r in ET. rewrite ET. cbn [bind right_env_from].
        assert (G1 : getitem Ws1 (length p) = Ok W) by (unfold getitem; rewrite E1, <- Hlp, nth_error_app2, Nat.sub_diag by lia; reflexivity).
        assert (G2 : getitem As1 (length p) = Ok A) by (unfold getitem; rewrite E2, nth_error_app2, Nat.sub_diag by lia; reflexivity).
        rewrite G1, G2. cbn [bind]. rewrite ET'. reflexivity.
      * split; [exact ST'|]. intros z x y Hz Hx Hy. rewrite VT', (right_block_cons d W Wq A q k c z y x HW) by (cbn in Hl; lia).
        apply sum_ext; intros i' _. apply sum_ext; intros r Hr. f_equal. apply sum_ext; intros i _. apply sum_ext; intros w Hw. f_equal. apply sum_ext; intros b Hb. now rewrite VT.
Qed.

Lemma get_right_env_ok d (Ws : list (tens R)) (As : list (site R)) Wp p Wq q a k :
  Ws = Wp ++ Wq -> As = p ++ q -> length Wp = length p -> length Wq = length q -> chain a q 1 -> Forall (fun A => phys A = d) q -> mpo_chain d k Wq 1 ->
  exists T, get_right_env Ws As (length p) = Ok T /\ is_right d k a Wq q T.
Proof.
  intros E1 E2 Hlp Hl Hc Hd HW. unfold get_right_env. replace (length As - length p)%nat with (length q) by (rewrite E2, app_length; lia).
  apply (right_env_loop d Ws As Wq q Wp p a k); assumption.
Qed.
End Proofs.
