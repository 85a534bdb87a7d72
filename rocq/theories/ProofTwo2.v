(** Proofs about two-site gates and the swap network of apply_two_site. *)
From Verif Require Import Alg ModelMPS SpecMPS ProofMPS ProofMPS2 ModelOrth SpecOrth ProofOrth
  ProofOrth2 ModelCanon SpecCanon ModelTwo SpecTwo ProofTwo.

Section Proofs.
Context {R : sring}.
Add Ring Rring : (s_th R).
Local Open Scope sr_scope.

Lemma amp_pair (A B : site R) b x y i j : dr B = b -> j < b ->
  amp [A; B] [x; y] i j = sum (dr A) (fun k => ent A x i k * ent B y k j).
Proof.
  intros Hb Hj. cbn [amp]. apply sum_ext. intros k _. f_equal. rewrite Hb. apply sum_dlt_r. exact Hj.
Qed.

Lemma apply_unitary_ok (O : lapack2 R) (P : lapack R) (A B : site R) (U : mat R) which d :
  lapack_ok P -> 0 < d -> phys A = d -> phys B = d -> dr A = dl B ->
  mr U = (d * d)%nat -> mc U = (d * d)%nat ->
  match apply_unitary O P A B U which None with
  | Err e => e = LinAlgError /\ lin_fail P
  | Ok (A', B') => phys A' = d /\ phys B' = d /\ dl A' = dl A /\ dr B' = dr B /\ dr A' = dl B' /\
      (if which then left_iso A' else right_iso B') /\
      forall x y i j, x < d -> y < d -> i < dl A -> j < dr B ->
        amp [A'; B'] [x; y] i j = sum d (fun t1 => sum d (fun t2 =>
          me U (x * d + y)%nat (t1 * d + t2)%nat * amp [A; B] [t1; t2] i j))
  end.
Proof.
  intros HP Hd HA HB Hb HU1 HU2. unfold apply_unitary, group_tensors. rewrite Hb, Nat.eqb_refl.
  cbn [bind]. unfold gate_site, op_site. cbn [phys dl dr ent]. rewrite HA, HB, HU2, Nat.eqb_refl.
  cbn [bind]. rewrite HU1.
  set (T := mkSite (d * d)%nat (dl A) (dr B) _).
  assert (Hf : factors (phys T) = Ok (d, d)) by (apply factors_square; lia).
  assert (K : forall A' B', splits T A' B' d d 1 ->
    phys A' = d /\ phys B' = d /\ dl A' = dl A /\ dr B' = dr B /\ dr A' = dl B' /\
      forall x y i j, x < d -> y < d -> i < dl A -> j < dr B ->
        amp [A'; B'] [x; y] i j = sum d (fun t1 => sum d (fun t2 =>
          me U (x * d + y)%nat (t1 * d + t2)%nat * amp [A; B] [t1; t2] i j))).
  { intros A' B' (k1 & k2 & k3 & k4 & k5 & k6).
    repeat (split; [assumption|]).
    intros x y i j Hx Hy Hi Hj.
    rewrite (amp_pair A' B' (dr B)) by assumption. rewrite k6 by assumption. cbn [ent T].
    transitivity (sum (d * d) (fun t => me U (x * d + y)%nat t *
      sum (dl B) (fun k => ent A (t / d)%nat i k * ent B (t mod d)%nat k j))); [ring|].
    rewrite sum_mul. apply sum_ext. intros t1 _. apply sum_ext. intros t2 Ht2.
    rewrite Nat.div_add_l, (Nat.div_small t2), Nat.add_0_r by lia.
    replace ((t1 * d + t2) mod d) with t2
      by (rewrite Nat.add_comm, Nat.mod_add by lia; symmetry; apply Nat.mod_small; exact Ht2).
    rewrite (amp_pair A B (dr B)), Hb by (try reflexivity; exact Hj). reflexivity. }
  destruct which.
  - pose proof (separate_qr_ok P T d d HP Hf) as H.
    destruct (separate_tensor_qr P T) as [[A' B']|e].
    + destruct H as [H1 H2]. destruct (K _ _ H1) as (a1 & a2 & a3 & a4 & a5 & a6).
      repeat (split; [assumption|]). exact a6.
    + destruct H. split; [assumption|]. left. assumption.
  - pose proof (separate_rq_ok P T d d HP Hf) as H.
    destruct (separate_tensor_rq P T) as [[A' B']|e].
    + destruct H as [H1 H2]. destruct (K _ _ H1) as (a1 & a2 & a3 & a4 & a5 & a6).
      repeat (split; [assumption|]). exact a6.
    + destruct H. split; [assumption|]. right. assumption.
Qed.

Lemma split2 {A} (l : list A) k : k + 1 < length l -> exists p x y q, l = p ++ x :: y :: q /\ length p = k.
Proof.
  intros H. destruct (split_at l k) as (p & x & q & -> & Hp); [lia|].
  rewrite app_length in H. cbn in H. destruct q as [|y q]; cbn in H; [lia|].
  exists p, x, y, q. auto.
Qed.

Lemma app_eq_len {A} (a b c d : list A) : length a = length b -> a ++ c = b ++ d -> a = b /\ c = d.
Proof.
  revert b; induction a as [|x a IH]; intros [|y b] H E; try discriminate; [auto|].
  cbn in *. injection E as -> E. injection H as H. destruct (IH b H E) as [-> ->]. auto.
Qed.

(** Effect of a gate on two neighbouring sites of a chain of sites of
    dimension d. *)
Lemma gate_at_ok (O : lapack2 R) (P : lapack R) (U : mat R) which i l d :
  lapack_ok P -> 0 < d -> closed l -> dims l = repeat d (length l) -> i + 1 < length l ->
  mr U = (d * d)%nat -> mc U = (d * d)%nat ->
  match gate_at O P U which None i l with
  | Err e => e = LinAlgError /\ lin_fail P
  | Ok l' => closed l' /\ dims l' = dims l /\ length l' = length l /\
      forall u x y v, incfg (dims l) (u ++ x :: y :: v) -> length u = i ->
        amp l' (u ++ x :: y :: v) 0 0 = sum d (fun t1 => sum d (fun t2 =>
          me U (x * d + y)%nat (t1 * d + t2)%nat * amp l (u ++ t1 :: t2 :: v) 0 0))
  end.
Proof.
  intros HP Hd Hc Hdm Hi HU1 HU2. destruct (split2 l i Hi) as (p & A & B & q & -> & Hp).
  subst i. unfold gate_at. rewrite getitem_app, getitem_app1. cbn [bind].
  assert (Hph : phys A = d /\ phys B = d).
  { assert (H : forall C, In C (p ++ A :: B :: q) -> phys C = d).
    { intros C HC. apply (repeat_spec (length (p ++ A :: B :: q)) d). rewrite <- Hdm. apply in_map. exact HC. }
    split; apply H; apply in_or_app; right; cbn; auto. }
  destruct Hph as [HA HB].
  apply chain_app in Hc as (a & Hc1 & Hc2). cbn in Hc2. destruct Hc2 as (ha & hb & Hc3).
  pose proof (apply_unitary_ok O P A B U which d HP Hd HA HB (eq_sym hb) HU1 HU2) as H.
  destruct (apply_unitary O P A B U which None) as [[A' B']|e]; cbn [bind]; [|exact H].
  cbn [fst snd]. rewrite setitem_app. cbn [bind]. rewrite setitem_app1.
  destruct H as (h1 & h2 & h3 & h4 & h5 & _ & h6).
  split; [apply chain_app; exists a; split; [exact Hc1|]; cbn; rewrite h3, h4; auto|].
  split; [rewrite !dims_app; cbn; congruence|].
  split; [rewrite !app_length; reflexivity|].
  intros u x y v Hs Hu.
  assert (E : forall (X Y : site R) z w, dl X = a -> dr X = dl Y -> dr Y = dr B -> 
    amp (p ++ X :: Y :: q) (u ++ z :: w :: v) 0 0 =
    sum a (fun x1 => sum (dr B) (fun x2 => amp p u 0 x1 * amp [X; Y] [z; w] x1 x2 * amp q v x2 0))).
  { intros X Y z w e1 e2 e3.
    apply (amp3 p [X; Y] q 1 a (dr B) 1 u [z; w] v 0 Hc1); cbn; auto. }
  rewrite E by congruence.
  assert (Hxy : x < d /\ y < d).
  { rewrite dims_app in Hs. apply incfg_app_inv in Hs as (s1 & s2 & He & g1 & g2).
    apply incfg_length in g1. rewrite dims_length in g1.
    assert (u = s1 /\ x :: y :: v = s2) as [-> <-].
    { apply app_eq_len; [congruence|exact He]. }
    cbn in g2. apply incfg_cons in g2 as [g3 g4]. apply incfg_cons in g4 as [g4 _]. lia. }
  destruct Hxy as [Hx Hy].
  transitivity (sum d (fun t1 => sum d (fun t2 => me U (x * d + y)%nat (t1 * d + t2)%nat *
     sum a (fun x1 => sum (dr B) (fun x2 => amp p u 0 x1 * amp [A; B] [t1; t2] x1 x2 * amp q v x2 0))))).
  2:{ apply sum_ext; intros t1 _. apply sum_ext; intros t2 _. rewrite E by congruence. reflexivity. }
  transitivity (sum a (fun x1 => sum (dr B) (fun x2 => sum d (fun t1 => sum d (fun t2 =>
     me U (x * d + y)%nat (t1 * d + t2)%nat * (amp p u 0 x1 * amp [A; B] [t1; t2] x1 x2 * amp q v x2 0)))))).
  - apply sum_ext; intros x1 Hx1. apply sum_ext; intros x2 Hx2. rewrite h6 by (auto; lia).
    rewrite <- sum_mul_l, <- sum_mul_r. apply sum_ext; intros t1 _.
    rewrite <- sum_mul_l, <- sum_mul_r. apply sum_ext; intros t2 _. ring.
  - transitivity (sum a (fun x1 => sum d (fun t1 => sum d (fun t2 => sum (dr B) (fun x2 =>
     me U (x * d + y)%nat (t1 * d + t2)%nat * (amp p u 0 x1 * amp [A; B] [t1; t2] x1 x2 * amp q v x2 0)))))).
    { apply sum_ext; intros x1 _. rewrite sum_swap. apply sum_ext; intros t1 _. apply sum_swap. }
    rewrite sum_swap. apply sum_ext; intros t1 _. rewrite sum_swap. apply sum_ext; intros t2 _.
    rewrite <- sum_mul_l. apply sum_ext; intros x1 _. rewrite sum_mul_l. reflexivity.
Qed.

Lemma swap_ok (f : nat -> nat -> R) x y : x < 2 -> y < 2 ->
  sum 2 (fun t1 => sum 2 (fun t2 => me SWAP (x * 2 + y)%nat (t1 * 2 + t2)%nat * f t1 t2)) = f y x.
Proof.
  intros Hx Hy. destruct x as [|[|x]]; [| |lia]; (destruct y as [|[|y]]; [| |lia]); cbn; ring.
Qed.

Definition qubits (l : list (site R)) : Prop := closed l /\ dims l = repeat 2 (length l).

Lemma incfg_qubits (l : list (site R)) s : dims l = repeat 2 (length l) ->
  (incfg (dims l) s <-> length s = length l /\ Forall (fun x => x < 2) s).
Proof.
  intros ->. split.
  - intros H. split; [rewrite (incfg_length _ _ H); apply repeat_length|].
    remember (repeat 2 (length l)) as ds eqn:E. revert E. generalize (length l) as n.
    induction H as [|x d s ds Hx Hs IH]; intros n E; [constructor|].
    destruct n; [discriminate|]. cbn in E. injection E as -> ->. constructor; [exact Hx|].
    eapply IH. reflexivity.
  - intros [H1 H2]. rewrite <- H1. clear H1. induction H2; constructor; auto.
Qed.

(** One swap. *)
Lemma swap_at_ok (O : lapack2 R) (P : lapack R) which i l :
  lapack_ok P -> qubits l -> i + 1 < length l ->
  match gate_at O P SWAP which None i l with
  | Err e => e = LinAlgError /\ lin_fail P
  | Ok l' => qubits l' /\ length l' = length l /\
      forall u x y v, incfg (dims l) (u ++ x :: y :: v) -> length u = i ->
        amp l' (u ++ x :: y :: v) 0 0 = amp l (u ++ y :: x :: v) 0 0
  end.
Proof.
  intros HP (Hc & Hd) Hi.
  pose proof (gate_at_ok O P SWAP which i l 2 HP ltac:(lia) Hc Hd Hi eq_refl eq_refl) as H.
  destruct (gate_at O P SWAP which None i l) as [l'|e]; [|exact H].
  destruct H as (h1 & h2 & h3 & h4). split; [split; [exact h1|congruence]|].
  split; [exact h3|]. intros u x y v Hs Hu. rewrite h4 by assumption.
  apply incfg_qubits in Hs as [_ Hs]; [|exact Hd]. apply Forall_app in Hs as [_ Hs].
  inversion Hs as [|? ? Hx Hs']; subst. inversion Hs'; subst.
  apply (swap_ok (fun t1 t2 => amp l (u ++ t1 :: t2 :: v) 0 0)); assumption.
Qed.

(** Moving the site behind w to the front of w. *)
Lemma swaps_in_ok (O : lapack2 R) (P : lapack R) which n : lapack_ok P -> forall i l,
  qubits l -> i + n < length l ->
  match gates_at O P SWAP which None (rev (seq i n)) l with
  | Err e => e = LinAlgError /\ lin_fail P
  | Ok l' => qubits l' /\ length l' = length l /\
      forall u y w v, incfg (dims l) (u ++ y :: w ++ v) -> length u = i -> length w = n ->
        amp l' (u ++ y :: w ++ v) 0 0 = amp l (u ++ w ++ y :: v) 0 0
  end.
Proof.
  intros HP. induction n as [|n IH]; intros i l Hq Hi.
  - cbn. split; [exact Hq|]. split; [reflexivity|]. intros u y w v _ _ Hw. destruct w; [|discriminate].
    reflexivity.
  - rewrite seq_S, rev_app_distr. cbn [rev app gates_at].
    pose proof (swap_at_ok O P which (i + n) l HP Hq ltac:(lia)) as H.
    destruct (gate_at O P SWAP which None (i + n) l) as [l1|e]; cbn [bind]; [|exact H].
    destruct H as (h1 & h2 & h3). specialize (IH i l1 h1 ltac:(lia)).
    destruct (gates_at O P SWAP which None (rev (seq i n)) l1) as [l'|e]; [|exact IH].
    destruct IH as (k1 & k2 & k3). split; [exact k1|]. split; [congruence|].
    intros u y w v Hs Hu Hw.
    assert (Hd1 : dims l1 = dims l) by (destruct h1 as [_ ->]; destruct Hq as [_ ->]; congruence).
    destruct (exists_last (l := w)) as (w' & z & ->); [destruct w; discriminate|].
    rewrite app_length in Hw. cbn in Hw.
    replace ((w' ++ [z]) ++ v) with (w' ++ z :: v) in * by (rewrite <- app_assoc; reflexivity).
    replace ((w' ++ [z]) ++ y :: v) with (w' ++ z :: y :: v) by (rewrite <- app_assoc; reflexivity).
    rewrite k3 by (try rewrite Hd1; auto; lia).
    rewrite !app_assoc. apply h3; [|rewrite app_length; lia].
    apply incfg_qubits in Hs as [Hs1 Hs2]; [|apply Hq]. apply incfg_qubits; [apply Hq|].
    split.
    + rewrite <- Hs1. rewrite !app_length. cbn. rewrite app_length. cbn. lia.
    + rewrite !Forall_app in *. destruct Hs2 as [g1 g2]. inversion g2 as [|? ? g3 g4]; subst.
      rewrite Forall_app in g4. destruct g4 as [g4 g5]. repeat split; auto.
Qed.

(** Moving the site in front of w behind w. *)
Lemma swaps_out_ok (O : lapack2 R) (P : lapack R) which n : lapack_ok P -> forall i l,
  qubits l -> i + n < length l ->
  match gates_at O P SWAP which None (seq i n) l with
  | Err e => e = LinAlgError /\ lin_fail P
  | Ok l' => qubits l' /\ length l' = length l /\
      forall u y w v, incfg (dims l) (u ++ w ++ y :: v) -> length u = i -> length w = n ->
        amp l' (u ++ w ++ y :: v) 0 0 = amp l (u ++ y :: w ++ v) 0 0
  end.
Proof.
  intros HP. induction n as [|n IH]; intros i l Hq Hi.
  - cbn. split; [exact Hq|]. split; [reflexivity|]. intros u y w v _ _ Hw. destruct w; [|discriminate].
    reflexivity.
  - cbn [seq gates_at].
    pose proof (swap_at_ok O P which i l HP Hq ltac:(lia)) as H.
    destruct (gate_at O P SWAP which None i l) as [l1|e]; cbn [bind]; [|exact H].
    destruct H as (h1 & h2 & h3). specialize (IH (S i) l1 h1 ltac:(lia)).
    destruct (gates_at O P SWAP which None (seq (S i) n) l1) as [l'|e]; [|exact IH].
    destruct IH as (k1 & k2 & k3). split; [exact k1|]. split; [congruence|].
    intros u y w v Hs Hu Hw.
    assert (Hd1 : dims l1 = dims l) by (destruct h1 as [_ ->]; destruct Hq as [_ ->]; congruence).
    destruct w as [|z w]; [discriminate|]. cbn in Hw. injection Hw as Hw. cbn [app] in *.
    replace (u ++ z :: w ++ y :: v) with ((u ++ [z]) ++ w ++ y :: v) in * by (rewrite <- app_assoc; reflexivity).
    rewrite k3; [|rewrite Hd1; exact Hs|rewrite app_length; cbn; lia|exact Hw].
    rewrite <- app_assoc. cbn [app]. apply h3; [|assumption].
    apply incfg_qubits in Hs as [Hs1 Hs2]; [|apply Hq]. apply incfg_qubits; [apply Hq|].
    split.
    + rewrite <- Hs1. rewrite !app_length. cbn. rewrite !app_length. cbn. lia.
    + rewrite !Forall_app in *. destruct Hs2 as [[g1 g2] [g3 g4]]. inversion g2; subst. inversion g4; subst.
      split; [assumption|]. constructor; [assumption|]. constructor; [assumption|]. apply Forall_app. auto.
Qed.

Lemma upd_app u x v z : upd (u ++ x :: v) (length u) z = u ++ z :: v.
Proof. induction u as [|a u IH]; cbn; [reflexivity|]. rewrite IH. reflexivity. Qed.
Lemma nth_app_len u x v : nth (length u) (u ++ x :: v) 0%nat = x.
Proof. induction u; cbn; auto. Qed.

Lemma apply_two_site_ok (O : lapack2 R) (P : lapack R) (m : fmps R) op a b which ts :
  lapack_ok P -> wf m -> dims (fdata m) = repeat 2 (fL m) ->
  mr op = 4 -> mc op = 4 -> a < fL m -> b < fL m -> a <> b ->
  let i := Nat.min a b in let j := Nat.max a b in
  match apply_two_site O P m op [a; b] which None ts with
  | Err e => e = LinAlgError /\ lin_fail P
  | Ok m' => wf m' /\ dims (fdata m') = dims (fdata m) /\
      (fcan m' = fcan m /\ forth m' = forth m /\ foc m' = foc m) /\
      forall s, incfg (dims (fdata m)) s ->
        psi m' s = act2 op i j (psi m) s
  end.
Proof.
  intros HP (Hc & HL & Hne) Hd Hr Hcc Ha Hb Hab i j. unfold apply_two_site.
  rewrite Hr, Hcc, Nat.eqb_refl. cbn [negb Nat.eqb].
  replace (if Nat.ltb a b then (a, b) else (b, a)) with (i, j)
    by (unfold i, j; destruct (Nat.ltb_spec a b); f_equal; lia).
  replace (if ts then None else None) with (@None nat) by (destruct ts; reflexivity).
  assert (Hij : i < j /\ j < fL m) by (unfold i, j; lia). clearbody i j. clear a b Ha Hb Hab.
  set (n := (j - 1 - i)%nat). rewrite HL in *.
  assert (Hq : qubits (fdata m)) by (split; assumption).
  pose proof (swaps_in_ok O P which n HP (i + 1) (fdata m) Hq ltac:(lia)) as H1.
  destruct (gates_at O P SWAP which None (rev (seq (i + 1) n)) (fdata m)) as [l1|e]; cbn [bind]; [|exact H1].
  destruct H1 as (a1 & a2 & a3).
  destruct a1 as [a1 a1'].
  pose proof (gate_at_ok O P op which i l1 2 HP ltac:(lia) a1 a1' ltac:(lia) Hr Hcc) as H2.
  destruct (gate_at O P op which None i l1) as [l2|e]; cbn [bind]; [|exact H2].
  destruct H2 as (b1 & b2 & b3 & b4).
  assert (Hq2 : qubits l2) by (split; [exact b1|congruence]).
  pose proof (swaps_out_ok O P which n HP (i + 1) l2 Hq2 ltac:(lia)) as H3.
  destruct (gates_at O P SWAP which None (seq (i + 1) n) l2) as [l3|e]; cbn [bind]; [|exact H3].
  destruct H3 as (c1 & c2 & c3).
  split.
  { split; [apply c1|]. split; [cbn; congruence|]. cbn. intros E. rewrite E in c2. cbn in c2.
    destruct (fdata m); [congruence|]. cbn in *. lia. }
  split; [cbn [fdata with_data]; destruct c1 as [_ ->]; congruence|].
  split; [auto|].
  intros s Hs. unfold psi, act2. cbn [fdata with_data].
  assert (Hl : length s = length (fdata m)) by (rewrite (incfg_length _ _ Hs); apply dims_length).
  destruct (split_at s i) as (u & x & s' & -> & Hu); [lia|].
  rewrite app_length in Hl. cbn in Hl.
  destruct (split_at s' n) as (w & y & v & -> & Hw); [lia|].
  assert (Hj : j = length (u ++ x :: w)) by (rewrite app_length; cbn; lia).
  replace (nth i (u ++ x :: w ++ y :: v) 0%nat) with x by (rewrite <- Hu, nth_app_len; reflexivity).
  replace (nth j (u ++ x :: w ++ y :: v) 0%nat) with y.
  2:{ replace (u ++ x :: w ++ y :: v) with ((u ++ x :: w) ++ y :: v) by (rewrite <- app_assoc; reflexivity).
      rewrite Hj, nth_app_len. reflexivity. }
  assert (HD : forall l : list (site R), qubits l -> length l = length (fdata m) -> forall t,
     length t = length (fdata m) -> Forall (fun x => x < 2) t -> incfg (dims l) t).
  { intros l [_ hd] hl t ht hf. apply incfg_qubits; [exact hd|]. split; [congruence|exact hf]. }
  apply incfg_qubits in Hs as [_ Hf]; [|exact Hd].
  rewrite Forall_app in Hf. destruct Hf as [Hfu Hf]. inversion Hf as [|? ? Hfx Hf']; subst x0 l.
  rewrite Forall_app in Hf'. destruct Hf' as [Hfw Hf']. inversion Hf' as [|? ? Hfy Hfv]; subst x0 l.
  rewrite app_length in Hl. cbn in Hl.
  replace (u ++ x :: w ++ y :: v) with ((u ++ [x]) ++ w ++ y :: v) by (rewrite <- app_assoc; reflexivity).
  rewrite c3; [|apply HD; [assumption|congruence| |]|rewrite app_length; cbn; lia|exact Hw].
  2:{ rewrite !app_length. cbn. lia. }
  2:{ rewrite !Forall_app. auto. }
  rewrite <- app_assoc. cbn [app].
  rewrite b4; [|apply HD; [split; assumption|congruence| |]|exact Hu].
  2:{ rewrite !app_length. cbn. rewrite app_length. lia. }
  2:{ rewrite !Forall_app. split; [assumption|]. constructor; [assumption|]. constructor; [assumption|].
      apply Forall_app. auto. }
  apply sum_ext. intros t1 Ht1. apply sum_ext. intros t2 Ht2.
  replace (x * 2 + y)%nat with (2 * x + y)%nat by lia. replace (t1 * 2 + t2)%nat with (2 * t1 + t2)%nat by lia.
  f_equal.
  replace (u ++ t1 :: t2 :: w ++ v) with ((u ++ [t1]) ++ t2 :: w ++ v) by (rewrite <- app_assoc; reflexivity).
  rewrite a3; [|apply HD; [split; assumption|congruence| |]|rewrite app_length; cbn; lia|exact Hw].
  2:{ rewrite !app_length. cbn. rewrite app_length. lia. }
  2:{ rewrite !Forall_app. split; [auto|]. constructor; [assumption|]. apply Forall_app. auto. }
  f_equal. rewrite <- !app_assoc. cbn [app].
  rewrite <- Hu, upd_app.
  replace (u ++ t1 :: w ++ y :: v) with ((u ++ t1 :: w) ++ y :: v) by (rewrite <- app_assoc; reflexivity).
  replace j with (length (u ++ t1 :: w)) by (rewrite Hj, !app_length; reflexivity).
  rewrite upd_app, <- app_assoc. reflexivity.
Qed.

End Proofs.

Section Proofs2.
Context {R : sring}.
Add Ring Rring3 : (s_th R).
Local Open Scope sr_scope.

Lemma apply_two_site_single (O : lapack2 R) (P : lapack R) (m : fmps R) op k which D ts :
  wf m -> k < fL m -> mr op = 2 -> mc op = 2 -> nth k (dims (fdata m)) 0%nat = 2 ->
  exists m', apply_two_site O P m op [k] which D ts = Ok m' /\ wf m' /\
    forall s, length s = fL m ->
      psi m' s = sum 2 (fun t => me op (nth k s 0%nat) t * psi m (upd s k t)).
Proof.
  intros Hw Hk Hr Hc Hn. destruct (apply_ok m op k Hw Hk ltac:(congruence)) as (m' & h1 & h2 & _ & _ & h3).
  exists m'. unfold apply_two_site. rewrite Hr, Hc. cbn [Nat.eqb negb]. split; [exact h1|].
  split; [exact h2|]. intros s Hs. rewrite h3, Hc by exact Hs. reflexivity.
Qed.

Lemma apply_two_site_same (O : lapack2 R) (P : lapack R) (m : fmps R) op a which ts :
  lapack_ok P -> wf m -> dims (fdata m) = repeat 2 (fL m) ->
  mr op = 4 -> mc op = 4 -> a + 1 < fL m ->
  match apply_two_site O P m op [a; a] which None ts with
  | Err e => e = LinAlgError /\ lin_fail P
  | Ok m' => forall s, incfg (dims (fdata m)) s -> psi m' s = act2 op a (a + 1) (psi m) s
  end.
Proof.
  intros HP Hw Hd Hr Hc Ha.
  assert (E : apply_two_site O P m op [a; a] which None ts = apply_two_site O P m op [a; (a + 1)%nat] which None ts).
  { unfold apply_two_site. rewrite Hr, Hc. cbn [Nat.eqb negb]. rewrite Nat.ltb_irrefl.
    replace (Nat.ltb a (a + 1)) with true by (symmetry; apply Nat.ltb_lt; lia).
    replace (a - 1 - a)%nat with 0%nat by lia. replace (a + 1 - 1 - a)%nat with 0%nat by lia. reflexivity. }
  rewrite E.
  pose proof (apply_two_site_ok O P m op a (a + 1) which ts HP Hw Hd Hr Hc ltac:(lia) Ha ltac:(lia)) as H.
  cbv zeta in H. replace (Nat.min a (a + 1)) with a in H by lia. replace (Nat.max a (a + 1)) with (a + 1)%nat in H by lia.
  destruct (apply_two_site O P m op [a; (a + 1)%nat] which None ts) as [m'|e]; [|exact H].
  destruct H as (_ & _ & _ & H). exact H.
Qed.

Lemma two_names (O : lapack2 R) (P : lapack R) (m : fmps R) op a b which D ts :
  mr op = 2 -> mc op = 2 -> apply_two_site O P m op [a; b] which D ts = Err UnboundLocalError.
Proof. intros H1 H2. unfold apply_two_site. rewrite H1, H2. reflexivity. Qed.

End Proofs2.
