(** qmb.py as it stands: tensor is the one of spin.py. *)
From Coq Require Import ZArith.
From Verif Require Import Alg ModelMPS SpecMPS ModelNcon ModelEk ModelTensor SpecTensor SpecEk ModelSpin SpecSpin SpecLie ProofTensor ProofTrace ProofSpin ProofSpin2 ProofEk3 ModelHam SpecHam ProofHam ProofHam2 ProofHam3
  ModelQmb SpecQmb ProofQmb ProofQmb2.

Section P.
Context {R : sring}.
Local Open Scope sr_scope.
Add Ring Rr : (s_th R).
Variable C : consts R.
Let im := c_im C.

Lemma cut_cfg n i s : (i + 2 <= n)%nat -> incfg (repeat 2%nat n) s -> exists a x y b, s = a ++ x :: y :: b /\ length a = i /\ length b = (n - i - 2)%nat /\ (x < 2)%nat /\ (y < 2)%nat.
Proof.
  intros Hi Hs. replace n with (i + (2 + (n - i - 2)))%nat in Hs by lia. destruct (incfg_parts _ _ _ Hs) as [H1 H2]. destruct (incfg_parts _ _ _ H2) as [H3 H4].
  pose proof (incfg_length _ _ H1) as L1. pose proof (incfg_length _ _ H4) as L4. rewrite repeat_length in L1, L4.
  assert (E : s = firstn i s ++ firstn 2 (skipn i s) ++ skipn 2 (skipn i s)) by now rewrite !firstn_skipn.
  revert E H3 L4. generalize (firstn 2 (skipn i s)) as w, (skipn 2 (skipn i s)) as b. intros w b E H3 L4.
  destruct w as [|x [|y [|]]]; try (apply incfg_length in H3; cbn in H3; lia). inversion H3 as [|? ? ? ? Hx Hu]; subst. inversion Hu as [|? ? ? ? Hy Hv]; subst.
  exists (firstn i s), x, y, b. repeat split; assumption.
Qed.

Lemma placed_at n i (ops : list (mat R)) a u b a' u' b' : (i + length ops <= n)%nat -> length a = i -> length a' = i -> length u = length ops -> length u' = length ops ->
  length b = (n - i - length ops)%nat -> length b' = (n - i - length ops)%nat ->
  string_op (placed n i ops) (a ++ u ++ b) (a' ++ u' ++ b') = (if nlist_eqb a a' then 1 else 0) * (string_op ops u u' * (if nlist_eqb b b' then 1 else 0)).
Proof.
  intros Hn H1 H2 H3 H4 H5 H6. unfold placed. rewrite string_app by (rewrite repeat_length; lia). rewrite string_app by lia. rewrite !string_ids by assumption. reflexivity.
Qed.

Lemma if_sq (b : bool) : (if b then 1 else 0) * (if b then 1 else 0) = (if b then 1 else 0) :> R. Proof. destruct b; ring. Qed.

Lemma pair_had (A B : mat R) n i s t : (i + 2 <= n)%nat -> incfg (repeat 2%nat n) s -> incfg (repeat 2%nat n) t ->
  string_op (placed n i [A]) s t * string_op (placed n (S i) [B]) s t =
  string_op (placed n i [mkMat 2 2 (fun x y => me A x y * dlt x y); mkMat 2 2 (fun x y => me B x y * dlt x y)]) s t.
Proof.
  intros Hi Hs Ht. destruct (cut_cfg n i s Hi Hs) as (a & x & y & b & -> & La & Lb & Hx & Hy). destruct (cut_cfg n i t Hi Ht) as (a' & x' & y' & b' & -> & La' & Lb' & Hx' & Hy').
  change (a ++ x :: y :: b) with (a ++ [x] ++ (y :: b)) at 1. change (a' ++ x' :: y' :: b') with (a' ++ [x'] ++ (y' :: b')) at 1.
  rewrite (placed_at n i [A]) by (cbn; lia).
  replace (a ++ x :: y :: b) with ((a ++ [x]) ++ [y] ++ b) at 1 by (rewrite <- app_assoc; reflexivity). replace (a' ++ x' :: y' :: b') with ((a' ++ [x']) ++ [y'] ++ b') at 1 by (rewrite <- app_assoc; reflexivity).
  rewrite (placed_at n (S i) [B]) by (rewrite ?app_length; cbn; lia).
  change (a ++ x :: y :: b) with (a ++ [x; y] ++ b). change (a' ++ x' :: y' :: b') with (a' ++ [x'; y'] ++ b').
  rewrite (placed_at n i [_; _]) by (cbn; lia). cbn [string_op me nlist_eqb].
  assert (E1 : nlist_eqb (a ++ [x]) (a' ++ [x']) = nlist_eqb a a' && Nat.eqb x x').
  { clear - La La'. revert a' i La La'. induction a as [|z a IH]; intros [|z' a'] i La La'; cbn in La, La'; try lia; cbn; [now rewrite andb_true_r|]. rewrite (IH a' (i - 1)%nat) by lia. now rewrite andb_assoc. }
  rewrite E1. unfold dlt. destruct (nlist_eqb a a'), (nlist_eqb b b'), (Nat.eqb x x'), (Nat.eqb y y'); cbn [andb]; ring.
Qed.

Lemma pair_off (A B : mat R) n i s t : (i + 2 <= n)%nat -> incfg (repeat 2%nat n) s -> incfg (repeat 2%nat n) t -> (forall x, me A x x = 0) ->
  string_op (placed n i [A]) s t * string_op (placed n (S i) [B]) s t = 0.
Proof.
  intros Hi Hs Ht HA. rewrite pair_had by assumption. destruct (cut_cfg n i s Hi Hs) as (a & x & y & b & -> & La & Lb & Hx & Hy). destruct (cut_cfg n i t Hi Ht) as (a' & x' & y' & b' & -> & La' & Lb' & Hx' & Hy').
  change (a ++ x :: y :: b) with (a ++ [x; y] ++ b). change (a' ++ x' :: y' :: b') with (a' ++ [x'; y'] ++ b').
  rewrite (placed_at n i [_; _]) by (cbn; lia). cbn [string_op me]. unfold dlt at 1. destruct (Nat.eqb_spec x x') as [<-|]; [rewrite HA|]; ring.
Qed.
Lemma pair_diag (A B : mat R) n i s t : (i + 2 <= n)%nat -> incfg (repeat 2%nat n) s -> incfg (repeat 2%nat n) t ->
  (forall x y, (x < 2)%nat -> (y < 2)%nat -> x <> y -> me A x y = 0) -> (forall x y, (x < 2)%nat -> (y < 2)%nat -> x <> y -> me B x y = 0) ->
  string_op (placed n i [A]) s t * string_op (placed n (S i) [B]) s t = string_op (placed n i [A; B]) s t.
Proof.
  intros Hi Hs Ht HA HB. rewrite pair_had by assumption. destruct (cut_cfg n i s Hi Hs) as (a & x & y & b & -> & La & Lb & Hx & Hy). destruct (cut_cfg n i t Hi Ht) as (a' & x' & y' & b' & -> & La' & Lb' & Hx' & Hy').
  change (a ++ x :: y :: b) with (a ++ [x; y] ++ b). change (a' ++ x' :: y' :: b') with (a' ++ [x'; y'] ++ b').
  rewrite !(placed_at n i [_; _]) by (cbn; lia). cbn [string_op me]. unfold dlt.
  destruct (Nat.eqb_spec x x'); [|rewrite (HA x x') by assumption; ring]. destruct (Nat.eqb_spec y y'); [|rewrite (HB y y') by assumption; ring]. ring.
Qed.

Lemma exchange_arr J Jz i n : (i + 1 < n)%nat -> exists M, exchange C true J Jz i n = Ok M /\
  forall s t, incfg (repeat 2%nat n) s -> incfg (repeat 2%nat n) t -> block_op 2 M s t = Jz * string_op (placed n i [q_sz; q_sz]) s t.
Proof.
  intros Hi. unfold exchange, o_mul. replace (Z.of_nat i + 1)%Z with (Z.of_nat (S i)) by lia.
  destruct (S_one (q_sp (R := R)) i n sq_sp ltac:(lia)) as (p & Ep & _ & Hp). destruct (S_one (q_sm (R := R)) (S i) n sq_sm ltac:(lia)) as (m' & Em' & _ & Hm').
  destruct (S_one (q_sm (R := R)) i n sq_sm ltac:(lia)) as (m & Em & _ & Hm). destruct (S_one (q_sp (R := R)) (S i) n sq_sp ltac:(lia)) as (p' & Ep' & _ & Hp').
  destruct (S_one (q_sz (R := R)) i n sq_sz ltac:(lia)) as (z & Ez & _ & Hz). destruct (S_one (q_sz (R := R)) (S i) n sq_sz ltac:(lia)) as (z' & Ez' & _ & Hz').
  rewrite Ep, Em', Em, Ep', Ez, Ez'. cbn [bind]. eexists. split; [reflexivity|]. intros s t Is It.
  rewrite <- (pair_diag q_sz q_sz n i s t) by (lia || assumption || (intros [|[|x]] [|[|y]] ? ? ?; try lia; try reflexivity)).
  specialize (Hp s t Is It). specialize (Hm' s t Is It). specialize (Hm s t Is It). specialize (Hp' s t Is It). specialize (Hz s t Is It). specialize (Hz' s t Is It).
  unfold block_op in *. cbn [q_add q_scal me]. rewrite Hp, Hm', Hm, Hp', Hz, Hz'.
  rewrite (pair_off q_sp q_sm n i s t), (pair_off q_sm q_sp n i s t) by (lia || assumption || (intros [|[|[|[|x]]]]; reflexivity)). ring.
Qed.

Lemma heisenberg_arr h J Jz N : (1 <= N)%nat -> exists M, anisotropic_heisenberg C true h J Jz N = Ok M /\ sq (Nat.pow 2 N) M /\
  forall s t, incfg (repeat 2%nat N) s -> incfg (repeat 2%nat N) t ->
    block_op 2 M s t = chain_ham im N (only_zz Jz) (along LZ (- h)) 0 s t.
Proof.
  intros HN. unfold anisotropic_heisenberg.
  destruct (mapM_ex (fun i => exchange C true J Jz i N) (fun i M => (i + 1 < N)%nat /\ forall s t, incfg (repeat 2%nat N) s -> incfg (repeat 2%nat N) t -> block_op 2 M s t = Jz * string_op (placed N i [q_sz; q_sz]) s t) (seq 0 (N - 1))) as (nn & En & Fn).
  { intros i Hi. apply in_seq in Hi. destruct (exchange_arr J Jz i N ltac:(lia)) as (M & E & He). exists M. split; [exact E|]. split; [lia|exact He]. }
  destruct (mapM_ex (fun i => do z <- S_n_body q_sz (Z.of_nat i) N; Ok (q_scal h z))
    (fun i M => (i < N)%nat /\ forall s t, incfg (repeat 2%nat N) s -> incfg (repeat 2%nat N) t -> block_op 2 M s t = h * string_op (placed N i [q_sz]) s t) (seq 0 N)) as (f & Ef & Ff).
  { intros i Hi. apply in_seq in Hi. destruct (S_one (q_sz (R := R)) i N sq_sz ltac:(lia)) as (z & Ez & _ & He). rewrite Ez. cbn [bind]. eexists. split; [reflexivity|]. split; [lia|].
    intros s t Is It. rewrite <- He by assumption. reflexivity. }
  rewrite En. cbn [bind]. rewrite Ef. cbn [bind]. eexists. split; [reflexivity|]. split; [split; reflexivity|]. intros s t Is It.
  unfold block_op. cbn [q_add q_scal q_sum me].
  rewrite (suml_F2 _ (fun i => Jz * string_op (placed N i [q_sz; q_sz]) s t) (fun A => me A (rowmajor 2 s) (rowmajor 2 t)) _ _ Fn) by (intros i M [_ HM]; apply HM; assumption).
  rewrite (suml_F2 _ (fun i => h * string_op (placed N i [q_sz]) s t) (fun A => me A (rowmajor 2 s) (rowmajor 2 t)) _ _ Ff) by (intros i M [_ HM]; apply HM; assumption).
  rewrite !suml_map_seq. unfold chain_ham.
  transitivity (sum (N - 1) (fun i => suml (map (fun a => suml (map (fun b => only_zz Jz a b * pstring im (place N i [a; b]) s t) xyz)) xyz))
    + sum N (fun i => suml (map (fun a => along LZ (- h) i a * pstring im (place N i [a]) s t) xyz))); [|ring].
  f_equal.
  - apply sum_ext. intros i Hi. cbn [xyz map suml only_zz]. rewrite (string_place N i [_; _]) by (cbn; assumption || lia). rewrite !(pstring_place C N i [_; _]) by (cbn; assumption || lia). cbn [length].
    destruct (nlist_eqb _ _); [|ring]. unfold pstring. cbn [map]. change (sigma (c_im C) LZ) with (q_sz (R := R)). ring.
  - rewrite <- sum_mul_l. apply sum_ext. intros i Hi. rewrite (field_pauli C N i s t Hi Is It). cbn [xyz map suml along]. fold im. ring.
Qed.

Lemma locals_arr h J Jz g N : local_anisotropic_heisenberg C true h J Jz = Err AttributeError /\ local_anisotropic_heisenbergs C true h J Jz N = Err AttributeError /\
  local_ising C true J g = Err AttributeError /\ local_isings true J g N = Err AttributeError /\ local_XX C true J g = Err AttributeError.
Proof. repeat split; reflexivity. Qed.
End P.
