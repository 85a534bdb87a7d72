From Verif Require Import Alg ModelMPS SpecMPS ProofMPS ProofMPS2 ModelOrth SpecOrth ProofOrth.

Section Proofs.
Context {R : sring}.
Add Ring Rr : (s_th R).
Local Open Scope sr_scope.

(** ** environments of isometric chains are identities *)
Lemma sum_pair_dlt n (f : nat -> nat -> R) :
  sum n (fun k => sum n (fun k' => dlt k k' * f k k')) = sum n (fun k => f k k).
Proof. apply sum_ext. intros k Hk. apply (sum_dlt_l n k (fun k' => f k k')), Hk. Qed.

Lemma left_collapse (l : list (site R)) b a :
  chain b l a -> Forall left_iso l ->
  forall i j, i < a -> j < a ->
  sum b (fun x => sumcfg (dims l) (fun s => sconj (amp l s x i) * amp l s x j)) = dlt i j.
Proof.
  revert b; induction l as [|A l IH]; intros b Hc HF i j Hi Hj.
  - simpl in Hc; subst b. simpl.
    transitivity (sum a (fun x => dlt i x * dlt x j : R)).
    + apply sum_ext. intros x _. unfold dlt. rewrite (Nat.eqb_sym i x).
      destruct (Nat.eqb x i); rewrite ?conj_1, ?conj_0; reflexivity.
    + rewrite (sum_dlt_l a i (fun x => dlt x j)) by exact Hi. reflexivity.
  - destruct Hc as [Hb Hc]. inversion HF as [|? ? HA HF']; subst.
    rewrite <- (IH _ Hc HF' i j Hi Hj).
    unfold dims. cbn [map sumcfg]. fold (dims l).
    transitivity (sum (dr A) (fun k => sum (dr A) (fun k' =>
       dlt k k' * sumcfg (dims l) (fun s => sconj (amp l s k i) * amp l s k' j)))).
    2: { apply sum_pair_dlt. }
    transitivity (sum (dl A) (fun x => sum (phys A) (fun x0 => sum (dr A) (fun k => sum (dr A) (fun k' =>
       sconj (ent A x0 x k) * ent A x0 x k' *
       sumcfg (dims l) (fun s => sconj (amp l s k i) * amp l s k' j)))))).
    + apply sum_ext; intros x _. apply sum_ext; intros x0 _.
      transitivity (sumcfg (dims l) (fun s => sum (dr A) (fun k => sum (dr A) (fun k' =>
         sconj (ent A x0 x k) * ent A x0 x k' * (sconj (amp l s k i) * amp l s k' j))))).
      * apply sumcfg_ext. intros s _. cbn [amp]. rewrite sum_conj, <- sum_mul_r.
        apply sum_ext. intros k _. rewrite <- sum_mul_l. apply sum_ext. intros k' _.
        rewrite conj_mul. ring.
      * rewrite sumcfg_sum. apply sum_ext. intros k _. rewrite sumcfg_sum.
        apply sum_ext. intros k' _. apply sumcfg_mul_l.
    + rewrite sum_swap.
      transitivity (sum (dr A) (fun k => sum (dr A) (fun k' =>
        sum (phys A) (fun x0 => sum (dl A) (fun x => sconj (ent A x0 x k) * ent A x0 x k')) *
        sumcfg (dims l) (fun s => sconj (amp l s k i) * amp l s k' j)))).
      * transitivity (sum (phys A) (fun x0 => sum (dr A) (fun k => sum (dr A) (fun k' =>
          sum (dl A) (fun x => sconj (ent A x0 x k) * ent A x0 x k') *
          sumcfg (dims l) (fun s => sconj (amp l s k i) * amp l s k' j))))).
        -- apply sum_ext; intros x0 _. rewrite sum_swap. apply sum_ext; intros k _.
           rewrite sum_swap. apply sum_ext; intros k' _. apply sum_mul_r.
        -- rewrite sum_swap. apply sum_ext; intros k _. rewrite sum_swap.
           apply sum_ext; intros k' _. apply sum_mul_r.
      * apply sum_ext; intros k Hk. apply sum_ext; intros k' Hk'. rewrite (HA k k' Hk Hk'). reflexivity.
Qed.

Lemma right_collapse (l : list (site R)) b a :
  chain b l a -> Forall right_iso l ->
  forall i j, i < b -> j < b ->
  sumcfg (dims l) (fun s => sum a (fun y => amp l s i y * sconj (amp l s j y))) = dlt i j.
Proof.
  revert b; induction l as [|A l IH]; intros b Hc HF i j Hi Hj.
  - simpl in Hc; subst b. simpl.
    transitivity (sum a (fun x => dlt i x * dlt x j : R)).
    + apply sum_ext. intros x _. unfold dlt. rewrite (Nat.eqb_sym j x).
      destruct (Nat.eqb x j); rewrite ?conj_1, ?conj_0; reflexivity.
    + rewrite (sum_dlt_l a i (fun x => dlt x j)) by exact Hi. reflexivity.
  - destruct Hc as [Hb Hc]. inversion HF as [|? ? HA HF']; subst.
    rewrite <- (HA i j Hi Hj).
    unfold dims. cbn [map sumcfg]. fold (dims l).
    apply sum_ext; intros x0 _.
    transitivity (sum (dr A) (fun k => sum (dr A) (fun k' =>
       dlt k k' * (ent A x0 i k * sconj (ent A x0 j k'))))).
    2: { apply (sum_pair_dlt (dr A) (fun k k' => ent A x0 i k * sconj (ent A x0 j k'))). }
    transitivity (sum (dr A) (fun k => sum (dr A) (fun k' =>
       sumcfg (dims l) (fun s => sum a (fun y => amp l s k y * sconj (amp l s k' y))) *
       (ent A x0 i k * sconj (ent A x0 j k'))))).
    + transitivity (sumcfg (dims l) (fun s => sum (dr A) (fun k => sum (dr A) (fun k' =>
         sum a (fun y => amp l s k y * sconj (amp l s k' y)) *
         (ent A x0 i k * sconj (ent A x0 j k')))))).
      * apply sumcfg_ext. intros s _. cbn [amp].
        transitivity (sum a (fun y => sum (dr A) (fun k => sum (dr A) (fun k' =>
          amp l s k y * sconj (amp l s k' y) * (ent A x0 i k * sconj (ent A x0 j k')))))).
        -- apply sum_ext; intros y _. rewrite sum_conj, <- sum_mul_r.
           apply sum_ext; intros k _. rewrite <- sum_mul_l. apply sum_ext; intros k' _.
           rewrite conj_mul. ring.
        -- rewrite sum_swap. apply sum_ext; intros k _. rewrite sum_swap.
           apply sum_ext; intros k' _. apply sum_mul_r.
      * rewrite sumcfg_sum. apply sum_ext; intros k _. rewrite sumcfg_sum.
        apply sum_ext; intros k' _. apply sumcfg_mul_r.
    + apply sum_ext; intros k Hk. apply sum_ext; intros k' Hk'.
      rewrite (IH _ Hc HF' k k' Hk Hk'). reflexivity.
Qed.

(** Normalisation. *)
Lemma left_iso_normalised (l : list (site R)) :
  closed l -> Forall left_iso l ->
  sumcfg (dims l) (fun s => amp l s 0 0 * sconj (amp l s 0 0)) = 1.
Proof.
  intros Hc HF. pose proof (left_collapse l 1 1 Hc HF 0 0 ltac:(lia) ltac:(lia)) as H.
  simpl in H. transitivity (dlt 0 0 : R); [|reflexivity]. rewrite <- H.
  transitivity (sumcfg (dims l) (fun s => sconj (amp l s 0 0) * amp l s 0 0)); [|ring].
  apply sumcfg_ext. intros; ring.
Qed.

Lemma right_iso_normalised (l : list (site R)) :
  closed l -> Forall right_iso l ->
  sumcfg (dims l) (fun s => amp l s 0 0 * sconj (amp l s 0 0)) = 1.
Proof.
  intros Hc HF. pose proof (right_collapse l 1 1 Hc HF 0 0 ltac:(lia) ltac:(lia)) as H.
  transitivity (dlt 0 0 : R); [|reflexivity]. rewrite <- H.
  apply sumcfg_ext. intros s _. simpl. ring.
Qed.

(** Three-part factorisation of an amplitude. *)
Lemma amp3 (p blk q : list (site R)) i a b j u w v y :
  chain i p a -> chain a blk b -> chain b q j ->
  length u = length p -> length w = length blk -> y < i ->
  forall z, amp (p ++ blk ++ q) (u ++ w ++ v) y z
  = sum a (fun x1 => sum b (fun x2 => amp p u y x1 * amp blk w x1 x2 * amp q v x2 z)).
Proof.
  intros Hp Hb Hq Hu Hw Hy z. rewrite (amp_app _ _ _ _ _ _ _ Hu Hp Hy).
  apply sum_ext. intros x1 Hx1. rewrite (amp_app _ _ _ _ _ _ _ Hw Hb Hx1), <- sum_mul_l.
  apply sum_ext. intros; ring.
Qed.

(** The value of a local contraction of a block: what E, Es, E_k compute. *)
Definition block_value (blk : list (site R)) (a b : nat) (op : list nat -> list nat -> R) : R :=
  sumcfg (dims blk) (fun w => sumcfg (dims blk) (fun w' =>
    op w w' * sum a (fun i => sum b (fun j => sconj (amp blk w i j) * amp blk w' i j)))).

Lemma swap4 (ds1 ds2 ds3 : list nat) (f : list nat -> list nat -> list nat -> list nat -> R) :
  sumcfg ds1 (fun u => sumcfg ds2 (fun w => sumcfg ds2 (fun w' => sumcfg ds3 (fun v => f u w w' v))))
  = sumcfg ds2 (fun w => sumcfg ds2 (fun w' => sumcfg ds1 (fun u => sumcfg ds3 (fun v => f u w w' v)))).
Proof.
  rewrite sumcfg_swap. apply sumcfg_ext. intros w _. rewrite sumcfg_swap. reflexivity.
Qed.

Lemma gram_collapse (p blk q : list (site R)) a b w w' :
  chain 1 p a -> chain a blk b -> chain b q 1 ->
  Forall left_iso p -> Forall right_iso q ->
  length w = length blk -> length w' = length blk ->
  sumcfg (dims p) (fun u => sumcfg (dims q) (fun v =>
    sconj (amp (p ++ blk ++ q) (u ++ w ++ v) 0 0) * amp (p ++ blk ++ q) (u ++ w' ++ v) 0 0))
  = sum a (fun i => sum b (fun j => sconj (amp blk w i j) * amp blk w' i j)).
Proof.
  intros Hp Hb Hq HFp HFq Hw Hw'.
  pose proof (left_collapse p 1 a Hp HFp) as CL.
  pose proof (right_collapse q b 1 Hq HFq) as CR.
  transitivity (sumcfg (dims p) (fun u => sumcfg (dims q) (fun v =>
     sum a (fun x => sum b (fun y => sum a (fun x' => sum b (fun y' =>
       (sconj (amp p u 0 x) * amp p u 0 x') *
       (sconj (amp blk w x y) * amp blk w' x' y') *
       (amp q v y' 0 * sconj (amp q v y 0))))))))).
  { apply sumcfg_ext; intros u Hu. apply sumcfg_ext; intros v Hv.
    apply incfg_length in Hu. rewrite dims_length in Hu.
    rewrite (amp3 p blk q 1 a b 1 u w v 0) by (auto; lia).
    rewrite (amp3 p blk q 1 a b 1 u w' v 0) by (auto; lia).
    rewrite sum_conj, <- sum_mul_r. apply sum_ext; intros x _.
    rewrite sum_conj, <- sum_mul_r. apply sum_ext; intros y _.
    rewrite <- sum_mul_l. apply sum_ext; intros x' _.
    rewrite <- sum_mul_l. apply sum_ext; intros y' _.
    rewrite !conj_mul. ring. }
  transitivity (sum a (fun x => sum b (fun y => sum a (fun x' => sum b (fun y' =>
     dlt x x' * (sconj (amp blk w x y) * amp blk w' x' y') * dlt y' y))))).
  { transitivity (sum a (fun x => sum b (fun y => sum a (fun x' => sum b (fun y' =>
      sumcfg (dims p) (fun u => sumcfg (dims q) (fun v =>
       (sconj (amp p u 0 x) * amp p u 0 x') *
       (sconj (amp blk w x y) * amp blk w' x' y') *
       (amp q v y' 0 * sconj (amp q v y 0))))))))).
    - transitivity (sumcfg (dims p) (fun u => sum a (fun x => sum b (fun y => sum a (fun x' => sum b (fun y' =>
       sumcfg (dims q) (fun v =>
       (sconj (amp p u 0 x) * amp p u 0 x') *
       (sconj (amp blk w x y) * amp blk w' x' y') *
       (amp q v y' 0 * sconj (amp q v y 0))))))))).
      + apply sumcfg_ext; intros u _.
        rewrite sumcfg_sum; apply sum_ext; intros x _.
        rewrite sumcfg_sum; apply sum_ext; intros y _.
        rewrite sumcfg_sum; apply sum_ext; intros x' _.
        rewrite sumcfg_sum; apply sum_ext; intros y' _. reflexivity.
      + rewrite sumcfg_sum; apply sum_ext; intros x _.
        rewrite sumcfg_sum; apply sum_ext; intros y _.
        rewrite sumcfg_sum; apply sum_ext; intros x' _.
        rewrite sumcfg_sum; apply sum_ext; intros y' _. reflexivity.
    - apply sum_ext; intros x Hx. apply sum_ext; intros y Hy.
      apply sum_ext; intros x' Hx'. apply sum_ext; intros y' Hy'.
      rewrite <- (CL x x' Hx Hx'), <- (CR y' y Hy' Hy). simpl.
      transitivity (sumcfg (dims p) (fun u => sconj (amp p u 0 x) * amp p u 0 x' *
        ((sconj (amp blk w x y) * amp blk w' x' y') *
         sumcfg (dims q) (fun v => amp q v y' 0 * sconj (amp q v y 0))))).
      + apply sumcfg_ext; intros u _. rewrite <- sumcfg_mul_l, <- sumcfg_mul_l.
        apply sumcfg_ext; intros; ring.
      + rewrite sumcfg_mul_r.
        replace (sumcfg (dims q) (fun s => 0 + amp q s y' 0 * sconj (amp q s y 0)))
          with (sumcfg (dims q) (fun v => amp q v y' 0 * sconj (amp q v y 0)))
          by (apply sumcfg_ext; intros; ring).
        ring. }
  apply sum_ext; intros x Hx. apply sum_ext; intros y Hy.
  transitivity (sum a (fun x' => dlt x x' * (sconj (amp blk w x y) * amp blk w' x' y))).
  - apply sum_ext; intros x' _.
    rewrite (sum_dlt_r b y (fun y' => dlt x x' * (sconj (amp blk w x y) * amp blk w' x' y'))) by exact Hy.
    reflexivity.
  - rewrite (sum_dlt_l a x (fun x' => sconj (amp blk w x y) * amp blk w' x' y)) by exact Hx. reflexivity.
Qed.

Lemma expect_block (p blk q : list (site R)) a b op :
  chain 1 p a -> chain a blk b -> chain b q 1 ->
  Forall left_iso p -> Forall right_iso q ->
  expect (dims p) (dims blk) (dims q) (fun s => amp (p ++ blk ++ q) s 0 0) op
  = block_value blk a b op.
Proof.
  intros Hp Hb Hq HFp HFq. unfold expect, block_value. rewrite swap4.
  apply sumcfg_ext; intros w Hw. apply sumcfg_ext; intros w' Hw'.
  apply incfg_length in Hw. apply incfg_length in Hw'. rewrite dims_length in Hw, Hw'.
  rewrite <- (gram_collapse p blk q a b w w' Hp Hb Hq HFp HFq Hw Hw').
  rewrite <- sumcfg_mul_l. apply sumcfg_ext; intros u _.
  rewrite <- sumcfg_mul_l. apply sumcfg_ext; intros v _. ring.
Qed.

End Proofs.
