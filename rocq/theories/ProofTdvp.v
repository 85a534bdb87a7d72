(** Matrix elements between a chain and the chain with another tensor at one site. *)
From Verif Require Import Alg ModelMPS SpecMPS ProofMPS ModelOrth SpecOrth ProofOrth ProofOrth2
  ModelEk SpecEk ProofEk4 ModelEnergy SpecEnergy ProofEnergy ModelTan SpecTan SpecTdvp.

Section Tdvp.
Context {R : sring}.
Local Open Scope sr_scope.
Add Ring Rr : (s_th R).

Lemma sum_rot a b c (f : nat -> nat -> nat -> R) :
  sum a (fun s => sum b (fun t => sum c (fun x => f s t x))) = sum c (fun x => sum a (fun s => sum b (fun t => f s t x))).
Proof. rewrite (sum_swap c a). apply sum_ext; intros s _. apply sum_swap. Qed.

Definition ovl_l (P P' : list (site R)) (x y : nat) : R := sumcfg (dims P) (fun u => sconj (amp P u 0 x) * amp P' u 0 y).
Definition ovl_r (Q Q' : list (site R)) (x y : nat) : R := sumcfg (dims Q) (fun v => amp Q' v x 0 * sconj (amp Q v y 0)).

Lemma ovl_l_same P x y : ovl_l P P x y = true_l P x y.
Proof. reflexivity. Qed.
Lemma ovl_r_same Q x y : ovl_r Q Q x y = true_r Q x y.
Proof. reflexivity. Qed.

Lemma ovl_l_snoc (P P' : list (site R)) A A' a x y : chain 1 P a -> chain 1 P' a -> length P' = length P -> dl A = a -> dl A' = a ->
  (x < dr A)%nat -> (y < dr A')%nat ->
  ovl_l (P ++ [A]) (P' ++ [A']) x y = sum (phys A) (fun s => sum a (fun i => sum a (fun j =>
    sconj (ent A s i x) * ovl_l P P' i j * ent A' s j y))).
Proof.
  intros Hp Hp' HL HA HA' Hx Hy. unfold ovl_l. unfold dims at 1; rewrite map_app; fold (dims P); rewrite sumcfg_app. cbn [dims map sumcfg].
  transitivity (sumcfg (dims P) (fun u => sum (phys A) (fun s => sum a (fun i => sum a (fun j =>
    sconj (ent A s i x) * (sconj (amp P u 0 i) * amp P' u 0 j) * ent A' s j y))))).
  - apply sumcfg_ext; intros u Hu. apply incfg_length in Hu. rewrite dims_length in Hu.
    apply sum_ext; intros s _.
    rewrite (amp_app P [A] u [s] 0 a 1) by (auto; lia). rewrite (amp_app P' [A'] u [s] 0 a 1) by (auto; lia).
    rewrite sum_conj, <- sum_mul_r. apply sum_ext; intros i _.
    rewrite <- sum_mul_l. apply sum_ext; intros j _. cbn [amp]. rewrite (sum_dlt_r (dr A) x (fun k => ent A s i k)) by exact Hx.
    rewrite (sum_dlt_r (dr A') y (fun k => ent A' s j k)) by exact Hy. rewrite conj_mul. ring.
  - rewrite sumcfg_sum. apply sum_ext; intros s _. rewrite sumcfg_sum. apply sum_ext; intros i _.
    rewrite sumcfg_sum. apply sum_ext; intros j _.
    transitivity (sumcfg (dims P) (fun u => sconj (amp P u 0 i) * amp P' u 0 j * (sconj (ent A s i x) * ent A' s j y))).
    + apply sumcfg_ext; intros; ring.
    + rewrite sumcfg_mul_r. ring.
Qed.

Lemma ovl_r_cons (Q Q' : list (site R)) A A' x y :
  ovl_r (A :: Q) (A' :: Q') x y = sum (phys A) (fun s => sum (dr A') (fun i => sum (dr A) (fun j =>
    ent A' s x i * ovl_r Q Q' i j * sconj (ent A s y j)))).
Proof.
  unfold ovl_r. cbn [dims map sumcfg]. apply sum_ext; intros s _.
  transitivity (sumcfg (dims Q) (fun v => sum (dr A') (fun i => sum (dr A) (fun j =>
    ent A' s x i * (amp Q' v i 0 * sconj (amp Q v j 0)) * sconj (ent A s y j))))).
  - apply sumcfg_ext; intros v _. cbn [amp]. rewrite sum_conj, <- sum_mul_r. apply sum_ext; intros i _.
    rewrite <- sum_mul_l. apply sum_ext; intros j _. rewrite conj_mul. ring.
  - rewrite sumcfg_sum. apply sum_ext; intros i _. rewrite sumcfg_sum. apply sum_ext; intros j _.
    transitivity (sumcfg (dims Q) (fun v => amp Q' v i 0 * sconj (amp Q v j 0) * (ent A' s x i * sconj (ent A s y j)))).
    + apply sumcfg_ext; intros; ring.
    + rewrite sumcfg_mul_r. ring.
Qed.

(** the sites left and right of a block *)
Lemma gram2 (p blk q p' blk' q' : list (site R)) a b w w' :
  chain 1 p a -> chain a blk b -> chain b q 1 -> chain 1 p' a -> chain a blk' b -> chain b q' 1 ->
  length p' = length p -> length w = length blk -> length w' = length blk' ->
  sumcfg (dims p) (fun u => sumcfg (dims q) (fun v =>
    sconj (amp (p ++ blk ++ q) (u ++ w ++ v) 0 0) * amp (p' ++ blk' ++ q') (u ++ w' ++ v) 0 0))
  = sum a (fun x => sum b (fun y => sum a (fun x' => sum b (fun y' =>
       ovl_l p p' x x' * (sconj (amp blk w x y) * amp blk' w' x' y') * ovl_r q q' y' y)))).
Proof.
  intros Hp Hb Hq Hp' Hb' Hq' HL Hw Hw'.
  transitivity (sumcfg (dims p) (fun u => sumcfg (dims q) (fun v =>
     sum a (fun x => sum b (fun y => sum a (fun x' => sum b (fun y' =>
       (sconj (amp p u 0 x) * amp p' u 0 x') *
       (sconj (amp blk w x y) * amp blk' w' x' y') *
       (amp q' v y' 0 * sconj (amp q v y 0))))))))).
  { apply sumcfg_ext; intros u Hu. apply sumcfg_ext; intros v Hv.
    apply incfg_length in Hu. rewrite dims_length in Hu.
    rewrite (amp3 p blk q 1 a b 1 u w v 0) by (auto; lia).
    rewrite (amp3 p' blk' q' 1 a b 1 u w' v 0) by (auto; lia).
    rewrite sum_conj, <- sum_mul_r. apply sum_ext; intros x _.
    rewrite sum_conj, <- sum_mul_r. apply sum_ext; intros y _.
    rewrite <- sum_mul_l. apply sum_ext; intros x' _.
    rewrite <- sum_mul_l. apply sum_ext; intros y' _.
    rewrite !conj_mul. ring. }
  transitivity (sumcfg (dims p) (fun u => 
     sum a (fun x => sum b (fun y => sum a (fun x' => sum b (fun y' =>
       (sconj (amp p u 0 x) * amp p' u 0 x') * ((sconj (amp blk w x y) * amp blk' w' x' y') * ovl_r q q' y' y))))))).
  - apply sumcfg_ext; intros u _. rewrite sumcfg_sum. apply sum_ext; intros x _. rewrite sumcfg_sum. apply sum_ext; intros y _.
    rewrite sumcfg_sum. apply sum_ext; intros x' _. rewrite sumcfg_sum. apply sum_ext; intros y' _. unfold ovl_r.
    rewrite <- !sumcfg_mul_l. apply sumcfg_ext; intros v _. ring.
  - rewrite sumcfg_sum. apply sum_ext; intros x _. rewrite sumcfg_sum. apply sum_ext; intros y _.
    rewrite sumcfg_sum. apply sum_ext; intros x' _. rewrite sumcfg_sum. apply sum_ext; intros y' _. unfold ovl_l.
    rewrite sumcfg_mul_r. ring.
Qed.

(** h acting on two tensors *)
Definition hAA (d : nat) (h : mat R) (A B : site R) (s t x y : nat) : R :=
  sum d (fun s' => sum d (fun t' => sum (dr A) (fun k => block_op d h [s; t] [s'; t'] * (ent A s' x k * ent B t' k y)))).

Lemma term_split d (P Q P' Q' : list (site R)) A B A' B' a b h :
  chain 1 P a -> chain a [A; B] b -> chain b Q 1 -> chain 1 P' a -> chain a [A'; B'] b -> chain b Q' 1 ->
  dims P = repeat d (length P) -> dims Q = repeat d (length Q) -> length P' = length P -> length Q' = length Q ->
  term_elem d (P ++ A :: B :: Q) (P' ++ A' :: B' :: Q') (length P) h
  = sum d (fun s => sum d (fun t => sum a (fun x => sum b (fun y => sum a (fun x' => sum b (fun y' =>
      ovl_l P P' x x' * (sconj (sum (dr A) (fun k => ent A s x k * ent B t k y)) * hAA d h A' B' s t x' y') * ovl_r Q Q' y' y)))))).
Proof.
  intros HP HAB HQ HP' HAB' HQ' DP DQ LP LQ. unfold term_elem, melem.
  replace (length (P' ++ A' :: B' :: Q') - length P - 2)%nat with (length Q) by (rewrite app_length; cbn [length]; lia).
  rewrite <- DP, <- DQ, swap4. cbn [sumcfg]. apply sum_ext; intros s _. apply sum_ext; intros t _.
  transitivity (sum d (fun s' => sum d (fun t' => block_op d h [s; t] [s'; t'] * 
     sum a (fun x => sum b (fun y => sum a (fun x' => sum b (fun y' =>
       ovl_l P P' x x' * (sconj (amp [A; B] [s; t] x y) * amp [A'; B'] [s'; t'] x' y') * ovl_r Q Q' y' y))))))).
  - apply sum_ext; intros s' _. apply sum_ext; intros t' _. rewrite <- (gram2 P [A; B] Q P' [A'; B'] Q' a b [s; t] [s'; t']) by (assumption || reflexivity).
    rewrite <- sumcfg_mul_l. apply sumcfg_ext; intros u _. rewrite <- sumcfg_mul_l. apply sumcfg_ext; intros v _. unfold state. cbn [app]. ring.
  - assert (E : b = dr B /\ b = dr B') by (destruct HAB as (_ & _ & E1), HAB' as (_ & _ & E2); cbn in E1, E2; auto). destruct E as [E1 E2].
    transitivity (sum d (fun s' => sum d (fun t' => sum a (fun x => sum b (fun y => sum a (fun x' => sum b (fun y' =>
       block_op d h [s; t] [s'; t'] * (ovl_l P P' x x' * (sconj (sum (dr A) (fun k => ent A s x k * ent B t k y)) * sum (dr A') (fun k => ent A' s' x' k * ent B' t' k y')) * ovl_r Q Q' y' y)))))))).
    { apply sum_ext; intros s' _. apply sum_ext; intros t' _. rewrite <- sum_mul_l. apply sum_ext; intros x _. rewrite <- sum_mul_l. apply sum_ext; intros y Hy.
      rewrite <- sum_mul_l. apply sum_ext; intros x' _. rewrite <- sum_mul_l. apply sum_ext; intros y' Hy'. rewrite !amp_pair by lia. reflexivity. }
    transitivity (sum a (fun x => sum b (fun y => sum a (fun x' => sum b (fun y' => sum d (fun s' => sum d (fun t' => 
       block_op d h [s; t] [s'; t'] * (ovl_l P P' x x' * (sconj (sum (dr A) (fun k => ent A s x k * ent B t k y)) * sum (dr A') (fun k => ent A' s' x' k * ent B' t' k y')) * ovl_r Q Q' y' y)))))))).
    { rewrite sum_rot. apply sum_ext; intros x _. rewrite sum_rot. apply sum_ext; intros y _. rewrite sum_rot. apply sum_ext; intros x' _. rewrite sum_rot. reflexivity. }
    apply sum_ext; intros x _. apply sum_ext; intros y _. apply sum_ext; intros x' _. apply sum_ext; intros y' _. unfold hAA.
    transitivity (ovl_l P P' x x' * sconj (sum (dr A) (fun k => ent A s x k * ent B t k y)) * ovl_r Q Q' y' y *
      sum d (fun s' => sum d (fun t' => sum (dr A') (fun k => block_op d h [s; t] [s'; t'] * (ent A' s' x' k * ent B' t' k y'))))); [|ring].
    rewrite <- sum_mul_l. apply sum_ext; intros s' _. rewrite <- sum_mul_l. apply sum_ext; intros t' _. rewrite sum_mul_l. ring.
Qed.
End Tdvp.
