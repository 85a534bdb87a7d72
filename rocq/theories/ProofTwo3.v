(** Truncated two-site gates: without truncate_swaps only the gate itself is
    truncated. *)
From Verif Require Import Alg ModelMPS SpecMPS ModelOrth SpecOrth ModelCanon SpecCanon ModelTwo SpecTwo
  ProofMPS ProofMPS2 ProofOrth ProofOrth2 ProofTwo ProofTwo2.

Section Proofs3.
Context {R : sring}.
Local Open Scope sr_scope.
Add Ring Rr3 : (s_th R).

Lemma gate_at_svd (O : lapack2 R) (P : lapack R) (U : mat R) which i l d D :
  svd_ok O -> lapack_ok P -> 0 < d -> closed l -> dims l = repeat d (length l) -> i + 1 < length l ->
  mr U = (d * d)%nat -> mc U = (d * d)%nat ->
  (forall A, nth_error l i = Some A -> (d * dl A <= D)%nat) ->
  match gate_at O P U which (Some D) i l with
  | Err e => (e = LinAlgError /\ exists M, la_svd O M = None) \/ (e = Exception_ /\ exists A, la_nrm P A = None)
  | Ok l' => closed l' /\ dims l' = dims l /\ length l' = length l /\
      exists n ninv, n * ninv = 1 /\ forall u x y v, incfg (dims l) (u ++ x :: y :: v) -> length u = i ->
        n * amp l' (u ++ x :: y :: v) 0 0 = sum d (fun t1 => sum d (fun t2 =>
          me U (x * d + y)%nat (t1 * d + t2)%nat * amp l (u ++ t1 :: t2 :: v) 0 0))
  end.
Proof.
  intros HO HP Hd Hc Hdm Hi HU1 HU2 HD. destruct (split2 l i Hi) as (p & A & B & q & -> & Hp).
  subst i. unfold gate_at. rewrite getitem_app, getitem_app1. cbn [bind].
  assert (HDA : (d * dl A <= D)%nat) by (apply HD; rewrite nth_error_app2, Nat.sub_diag by lia; reflexivity).
  assert (Hph : phys A = d /\ phys B = d).
  { assert (H : forall C, In C (p ++ A :: B :: q) -> phys C = d).
    { intros C HC. apply (repeat_spec (length (p ++ A :: B :: q)) d). rewrite <- Hdm. apply in_map. exact HC. }
    split; apply H; apply in_or_app; right; cbn; auto. }
  destruct Hph as [HA HB].
  apply chain_app in Hc as (a & Hc1 & Hc2). cbn in Hc2. destruct Hc2 as (ha & hb & Hc3).
  assert (H : match apply_unitary O P A B U which (Some D) with
  | Err e => (e = LinAlgError /\ exists M, la_svd O M = None) \/ (e = Exception_ /\ exists A, la_nrm P A = None)
  | Ok (A', B') => phys A' = d /\ phys B' = d /\ dl A' = dl A /\ dr B' = dr B /\ dr A' = dl B' /\
      exists n ninv, n * ninv = 1 /\ forall x y i j, x < d -> y < d -> i < dl A -> j < dr B ->
        amp [A'; B'] [x; y] i j = ninv * sum d (fun t1 => sum d (fun t2 =>
          me U (x * d + y)%nat (t1 * d + t2)%nat * amp [A; B] [t1; t2] i j))
  end).
  { unfold apply_unitary, group_tensors. rewrite <- hb, Nat.eqb_refl.
    cbn [bind]. unfold gate_site, op_site. cbn [phys dl dr ent]. rewrite HA, HB, HU2, Nat.eqb_refl.
    cbn [bind]. rewrite HU1.
    set (T := mkSite (d * d)%nat (dl A) (dr B) _).
    assert (Hf : factors (phys T) = Ok (d, d)) by (apply factors_square; lia).
    pose proof (separate_svd_ok O P T (Some D) which d d HO HP Hf) as H.
    destruct (separate_tensor_svd O P T (Some D) which) as [[A' B']|e]; [|exact H].
    destruct H as (h1 & h2 & h3 & h4 & h5 & h6 & _ & u & s & v & n & ninv & _ & _ & hn & _ & _ & hs).
    repeat (split; [assumption|]). exists n, ninv. split; [exact hn|].
    destruct hs as (_ & _ & _ & _ & _ & hs); [rewrite h6; cbn [dl dr T]; lia|].
    intros x y i j Hx Hy Hi' Hj.
    rewrite (amp_pair A' B' (dr B)) by assumption. rewrite hs by assumption. f_equal. cbn [ent T].
    rewrite sum_mul. apply sum_ext. intros t1 _. apply sum_ext. intros t2 Ht2.
    rewrite Nat.div_add_l, (Nat.div_small t2), Nat.add_0_r by lia.
    replace ((t1 * d + t2) mod d) with t2
      by (rewrite Nat.add_comm, Nat.mod_add by lia; symmetry; apply Nat.mod_small; exact Ht2).
    rewrite (amp_pair A B (dr B)) by (try reflexivity; exact Hj). rewrite <- hb. reflexivity. }
  destruct (apply_unitary O P A B U which (Some D)) as [[A' B']|e]; cbn [bind]; [|exact H].
  cbn [fst snd]. rewrite setitem_app. cbn [bind]. rewrite setitem_app1.
  destruct H as (h1 & h2 & h3 & h4 & h5 & n & ninv & hn & h6).
  split; [apply chain_app; exists a; split; [exact Hc1|]; cbn; rewrite h3, h4; auto|].
  split; [rewrite !dims_app; cbn; congruence|].
  split; [rewrite !app_length; reflexivity|].
  exists n, ninv. split; [exact hn|]. intros u x y v Hs Hu.
  assert (E : forall (X Y : site R) z w, dl X = a -> dr X = dl Y -> dr Y = dr B -> 
    amp (p ++ X :: Y :: q) (u ++ z :: w :: v) 0 0 =
    sum a (fun x1 => sum (dr B) (fun x2 => amp p u 0 x1 * amp [X; Y] [z; w] x1 x2 * amp q v x2 0))).
  { intros X Y z w e1 e2 e3.
    apply (amp3 p [X; Y] q 1 a (dr B) 1 u [z; w] v 0 Hc1); cbn; auto. }
  rewrite E by congruence.
  assert (Hxy : x < d /\ y < d).
  { rewrite dims_app in Hs. apply incfg_app_inv in Hs as (s1 & s2 & He & g1 & g2).
    apply incfg_length in g1. rewrite dims_length in g1.
    assert (u = s1 /\ x :: y :: v = s2) as [-> <-].
    { apply app_eq_len; [congruence|exact He]. }
    cbn in g2. apply incfg_cons in g2 as [g3 g4]. apply incfg_cons in g4 as [g4 _]. lia. }
  destruct Hxy as [Hx Hy].
  transitivity (sum d (fun t1 => sum d (fun t2 => me U (x * d + y)%nat (t1 * d + t2)%nat *
     sum a (fun x1 => sum (dr B) (fun x2 => amp p u 0 x1 * amp [A; B] [t1; t2] x1 x2 * amp q v x2 0))))).
  2:{ apply sum_ext; intros t1 _. apply sum_ext; intros t2 _. rewrite E by congruence. reflexivity. }
  transitivity (sum a (fun x1 => sum (dr B) (fun x2 => sum d (fun t1 => sum d (fun t2 =>
     me U (x * d + y)%nat (t1 * d + t2)%nat * (amp p u 0 x1 * amp [A; B] [t1; t2] x1 x2 * amp q v x2 0)))))).
  - rewrite <- sum_mul_l. apply sum_ext; intros x1 Hx1. rewrite <- sum_mul_l.
    apply sum_ext; intros x2 Hx2. rewrite h6 by (auto; lia).
    transitivity (n * ninv * (amp p u 0 x1 * sum d (fun t1 => sum d (fun t2 =>
          me U (x * d + y)%nat (t1 * d + t2)%nat * amp [A; B] [t1; t2] x1 x2)) * amp q v x2 0)); [ring|].
    rewrite hn. transitivity (amp p u 0 x1 * sum d (fun t1 => sum d (fun t2 =>
          me U (x * d + y)%nat (t1 * d + t2)%nat * amp [A; B] [t1; t2] x1 x2)) * amp q v x2 0); [ring|].
    rewrite <- sum_mul_l, <- sum_mul_r. apply sum_ext; intros t1 _.
    rewrite <- sum_mul_l, <- sum_mul_r. apply sum_ext; intros t2 _. ring.
  - transitivity (sum a (fun x1 => sum d (fun t1 => sum d (fun t2 => sum (dr B) (fun x2 =>
     me U (x * d + y)%nat (t1 * d + t2)%nat * (amp p u 0 x1 * amp [A; B] [t1; t2] x1 x2 * amp q v x2 0)))))).
    { apply sum_ext; intros x1 _. rewrite sum_swap. apply sum_ext; intros t1 _. apply sum_swap. }
    rewrite sum_swap. apply sum_ext; intros t1 _. rewrite sum_swap. apply sum_ext; intros t2 _.
    rewrite <- sum_mul_l. apply sum_ext; intros x1 _. rewrite sum_mul_l. reflexivity.
Qed.


(** gates elsewhere leave a site alone *)
Lemma setitem_nth {A} (l : list A) k x l' i : setitem l k x = Ok l' -> i <> k -> nth_error l' i = nth_error l i.
Proof.
  revert k l' i. induction l as [|y l IH]; intros [|k] l' i H N; cbn in H; try discriminate H.
  - injection H as <-. destruct i; [contradiction|reflexivity].
  - destruct (setitem l k x) as [l0|] eqn:E; [|discriminate H]. injection H as <-.
    destruct i; [reflexivity|]. apply (IH k l0 i E). lia.
Qed.

Lemma gate_at_nth (O : lapack2 R) (P : lapack R) (U : mat R) which D k l l' i :
  gate_at O P U which D k l = Ok l' -> i < k -> nth_error l' i = nth_error l i.
Proof.
  unfold gate_at. intros H Hi.
  destruct (getitem l k) as [A|]; [|discriminate H]. cbn [bind] in H.
  destruct (getitem l (k + 1)) as [B|]; [|discriminate H]. cbn [bind] in H.
  destruct (apply_unitary O P A B U which D) as [AB|]; [|discriminate H]. cbn [bind] in H.
  destruct (setitem l k (fst AB)) as [l1|] eqn:E; [|discriminate H]. cbn [bind] in H.
  rewrite (setitem_nth _ _ _ _ i H) by lia. apply (setitem_nth _ _ _ _ i E). lia.
Qed.

Lemma gates_at_nth (O : lapack2 R) (P : lapack R) (U : mat R) which D ks : forall l l' i,
  gates_at O P U which D ks l = Ok l' -> Forall (fun k => i < k) ks -> nth_error l' i = nth_error l i.
Proof.
  induction ks as [|k ks IH]; intros l l' i H HF; cbn in H; [congruence|].
  inversion HF; subst. destruct (gate_at O P U which D k l) as [l1|] eqn:E; [|discriminate H]. cbn [bind] in H.
  rewrite (IH l1 l' i H) by assumption. apply (gate_at_nth O P U which D k l l1 i E). assumption.
Qed.

Lemma apply_two_site_trunc (O : lapack2 R) (P : lapack R) (m : fmps R) op a b which D :
  svd_ok O -> lapack_ok P -> wf m -> dims (fdata m) = repeat 2 (fL m) ->
  mr op = 4 -> mc op = 4 -> a < fL m -> b < fL m -> a <> b ->
  let i := Nat.min a b in let j := Nat.max a b in
  (forall A, nth_error (fdata m) i = Some A -> (2 * dl A <= D)%nat) ->
  match apply_two_site O P m op [a; b] which (Some D) false with
  | Err e => (e = LinAlgError /\ (lin_fail P \/ exists M, la_svd O M = None)) \/ (e = Exception_ /\ exists A, la_nrm P A = None)
  | Ok m' => wf m' /\ dims (fdata m') = dims (fdata m) /\
      exists n ninv, n * ninv = 1 /\ forall s, incfg (dims (fdata m)) s -> n * psi m' s = act2 op i j (psi m) s
  end.
Proof.
  intros HO HP (Hc & HL & Hne) Hd Hr Hcc Ha Hb Hab i j HDi. unfold apply_two_site.
  rewrite Hr, Hcc, Nat.eqb_refl. cbn [negb Nat.eqb].
  replace (if Nat.ltb a b then (a, b) else (b, a)) with (i, j)
    by (unfold i, j; destruct (Nat.ltb_spec a b); f_equal; lia).
  assert (Hij : i < j /\ j < fL m) by (unfold i, j; lia). clearbody i j. clear a b Ha Hb Hab.
  set (n := (j - 1 - i)%nat). rewrite HL in *.
  assert (Hq : qubits (fdata m)) by (split; assumption).
  pose proof (swaps_in_ok O P which n HP (i + 1) (fdata m) Hq ltac:(lia)) as H1.
  destruct (gates_at O P SWAP which None (rev (seq (i + 1) n)) (fdata m)) as [l1|e] eqn:E1; cbn [bind]; [|left; destruct H1; auto].
  destruct H1 as (a1 & a2 & a3).
  destruct a1 as [a1 a1'].
  assert (HD1 : forall A, nth_error l1 i = Some A -> (2 * dl A <= D)%nat).
  { intros A HA. apply HDi. rewrite <- HA. symmetry. apply (gates_at_nth _ _ _ _ _ _ _ _ i E1).
    apply Forall_rev. apply Forall_forall. intros k Hk. apply in_seq in Hk. lia. }
  pose proof (gate_at_svd O P op which i l1 2 D HO HP ltac:(lia) a1 a1' ltac:(lia) Hr Hcc HD1) as H2.
  destruct (gate_at O P op which (Some D) i l1) as [l2|e]; cbn [bind]; [|destruct H2 as [[H2 H3]|H2]; [left; auto|right; exact H2]].
  destruct H2 as (b1 & b2 & b3 & nn & ninv & bn & b4).
  assert (Hq2 : qubits l2) by (split; [exact b1|congruence]).
  pose proof (swaps_out_ok O P which n HP (i + 1) l2 Hq2 ltac:(lia)) as H3.
  destruct (gates_at O P SWAP which None (seq (i + 1) n) l2) as [l3|e]; cbn [bind]; [|left; destruct H3; auto].
  destruct H3 as (c1 & c2 & c3).
  split.
  { split; [apply c1|]. split; [cbn; congruence|]. cbn. intros E. rewrite E in c2. cbn in c2.
    destruct (fdata m); [congruence|]. cbn in *. lia. }
  split; [cbn [fdata with_data]; destruct c1 as [_ ->]; congruence|].
  exists nn, ninv. split; [exact bn|].
  intros s Hs. unfold psi, act2. cbn [fdata with_data].
  assert (Hl : length s = length (fdata m)) by (rewrite (incfg_length _ _ Hs); apply dims_length).
  destruct (split_at s i) as (u & x & s' & -> & Hu); [lia|].
  rewrite app_length in Hl. cbn in Hl.
  destruct (split_at s' n) as (w & y & v & -> & Hw); [lia|].
  assert (Hj : j = length (u ++ x :: w)) by (rewrite app_length; cbn; lia).
  replace (nth i (u ++ x :: w ++ y :: v) 0%nat) with x by (rewrite <- Hu, nth_app_len; reflexivity).
  replace (nth j (u ++ x :: w ++ y :: v) 0%nat) with y.
  2:{ replace (u ++ x :: w ++ y :: v) with ((u ++ x :: w) ++ y :: v) by (rewrite <- app_assoc; reflexivity).
      rewrite Hj, nth_app_len. reflexivity. }
  assert (HD : forall l : list (site R), qubits l -> length l = length (fdata m) -> forall t,
     length t = length (fdata m) -> Forall (fun x => x < 2) t -> incfg (dims l) t).
  { intros l [_ hd] hl t ht hf. apply incfg_qubits; [exact hd|]. split; [congruence|exact hf]. }
  apply incfg_qubits in Hs as [_ Hf]; [|exact Hd].
  rewrite Forall_app in Hf. destruct Hf as [Hfu Hf]. inversion Hf as [|? ? Hfx Hf']; subst x0 l.
  rewrite Forall_app in Hf'. destruct Hf' as [Hfw Hf']. inversion Hf' as [|? ? Hfy Hfv]; subst x0 l.
  rewrite app_length in Hl. cbn in Hl.
  replace (u ++ x :: w ++ y :: v) with ((u ++ [x]) ++ w ++ y :: v) by (rewrite <- app_assoc; reflexivity).
  rewrite c3; [|apply HD; [assumption|congruence| |]|rewrite app_length; cbn; lia|exact Hw].
  2:{ rewrite !app_length. cbn. lia. }
  2:{ rewrite !Forall_app. auto. }
  rewrite <- app_assoc. cbn [app].
  rewrite b4; [|apply HD; [split; assumption|congruence| |]|exact Hu].
  2:{ rewrite !app_length. cbn. rewrite app_length. lia. }
  2:{ rewrite !Forall_app. split; [assumption|]. constructor; [assumption|]. constructor; [assumption|].
      apply Forall_app. auto. }
  apply sum_ext. intros t1 Ht1. apply sum_ext. intros t2 Ht2.
  replace (x * 2 + y)%nat with (2 * x + y)%nat by lia. replace (t1 * 2 + t2)%nat with (2 * t1 + t2)%nat by lia.
  f_equal.
  replace (u ++ t1 :: t2 :: w ++ v) with ((u ++ [t1]) ++ t2 :: w ++ v) by (rewrite <- app_assoc; reflexivity).
  rewrite a3; [|apply HD; [split; assumption|congruence| |]|rewrite app_length; cbn; lia|exact Hw].
  2:{ rewrite !app_length. cbn. rewrite app_length. lia. }
  2:{ rewrite !Forall_app. split; [auto|]. constructor; [assumption|]. apply Forall_app. auto. }
  f_equal. rewrite <- !app_assoc. cbn [app].
  rewrite <- Hu, upd_app.
  replace (u ++ t1 :: w ++ y :: v) with ((u ++ t1 :: w) ++ y :: v) by (rewrite <- app_assoc; reflexivity).
  replace j with (length (u ++ t1 :: w)) by (rewrite Hj, !app_length; reflexivity).
  rewrite upd_app, <- app_assoc. reflexivity.
Qed.


End Proofs3.
