(** The AKLT tensor and the symplectic basis. *)
From Verif Require Import Alg ModelMPS SpecMPS ModelPad ModelNcon ModelTensor ModelSpin ModelOrth ModelExam SpecExam.

Section P.
Context {R : sring}.
Local Open Scope sr_scope.
Add Ring Rr : (s_th R).

Lemma sum_halves n m (f : nat -> R) : sum (n + m) f = sum n f + sum m (fun i => f (n + i)%nat).
Proof. induction m as [|m IH]; [rewrite Nat.add_0_r; cbn; ring|]. rewrite Nat.add_succ_r. cbn [sum]. rewrite IH. ring. Qed.

Definition cb_entry n i j : R := if Nat.even i then dlt j (Nat.div2 i) else dlt j (Nat.div2 i + n)%nat.

Lemma div2_2i i : Nat.div2 (2 * i) = i. Proof. rewrite Nat.div2_double. reflexivity. Qed.
Lemma div2_2i1 i : Nat.div2 (2 * i + 1) = i. Proof. rewrite Nat.add_1_r. apply Nat.div2_succ_double. Qed.
Lemma even_2i i : Nat.even (2 * i) = true. Proof. apply Nat.even_spec. exists i. reflexivity. Qed.
Lemma even_2i1 i : Nat.even (2 * i + 1) = false. Proof. rewrite Nat.add_1_r, Nat.even_succ, <- Nat.negb_even, even_2i. reflexivity. Qed.
Lemma parity i : (exists k, i = 2 * k)%nat \/ (exists k, i = 2 * k + 1)%nat.
Proof. destruct (Nat.Even_or_Odd i) as [[k H]|[k H]]; [left|right]; exists k; exact H. Qed.

Lemma cb_fold n k : forall m0 : mat R, (forall i j, me m0 i j = 0) ->
  let M := fold_left (fun m i => put (put m (2 * i) i 1) (2 * i + 1) (i + n) 1) (seq 0 k) m0 in
  mr M = mr m0 /\ mc M = mc m0 /\ forall i j, me M i j = if Nat.ltb i (2 * k) then cb_entry n i j else 0.
Proof.
  induction k as [|k IH]; intros m0 H0 M.
  - split; [reflexivity|]. split; [reflexivity|]. intros i j. apply H0.
  - unfold M. clear M. rewrite seq_S, fold_left_app. cbn [fold_left Nat.add]. destruct (IH m0 H0) as (Hr & Hc & He). split; [exact Hr|]. split; [exact Hc|].
    intros i j. cbn [put me]. rewrite He. destruct (parity i) as [[a ->]|[a ->]].
    + unfold cb_entry. rewrite even_2i, div2_2i. destruct (Nat.eqb_spec (2 * a) (2 * k + 1)); [lia|]. cbn [andb].
      destruct (Nat.eqb_spec (2 * a) (2 * k)) as [E|E].
      * assert (a = k) as -> by lia. destruct (Nat.ltb_spec (2 * k) (2 * k)); [lia|]. destruct (Nat.ltb_spec (2 * k) (2 * S k)); [|lia]. unfold dlt. destruct (Nat.eqb j k); reflexivity.
      * destruct (Nat.ltb_spec (2 * a) (2 * k)), (Nat.ltb_spec (2 * a) (2 * S k)); cbn [andb]; try lia; reflexivity.
    + unfold cb_entry. rewrite even_2i1, div2_2i1. destruct (Nat.eqb_spec (2 * a + 1) (2 * k)); [lia|]. cbn [andb].
      destruct (Nat.eqb_spec (2 * a + 1) (2 * k + 1)) as [E|E].
      * assert (a = k) as -> by lia. destruct (Nat.ltb_spec (2 * k + 1) (2 * k)); [lia|]. destruct (Nat.ltb_spec (2 * k + 1) (2 * S k)); [|lia]. unfold dlt. destruct (Nat.eqb j (k + n)); reflexivity.
      * destruct (Nat.ltb_spec (2 * a + 1) (2 * k)), (Nat.ltb_spec (2 * a + 1) (2 * S k)); cbn [andb]; try lia; reflexivity.
Qed.

Lemma cb_shape n : mr (changebasis (R := R) n) = (2 * n)%nat /\ mc (changebasis (R := R) n) = (2 * n)%nat.
Proof. unfold changebasis. destruct (cb_fold n n (mkMat (2 * n) (2 * n) (fun _ _ => 0)) (fun _ _ => eq_refl)) as (H1 & H2 & _). rewrite H1, H2. split; reflexivity. Qed.
Lemma cb_me n i j : (i < 2 * n)%nat -> me (changebasis (R := R) n) i j = cb_entry n i j.
Proof. intros Hi. unfold changebasis. destruct (cb_fold n n (mkMat (2 * n) (2 * n) (fun _ _ => 0)) (fun _ _ => eq_refl)) as (_ & _ & H). rewrite H. destruct (Nat.ltb_spec i (2 * n)); [reflexivity|lia]. Qed.

Lemma cb_apply n v i : (i < 2 * n)%nat -> apply (changebasis n) v i = if Nat.even i then v (Nat.div2 i) else v (Nat.div2 i + n)%nat :> R.
Proof.
  intros Hi. unfold apply. rewrite (proj2 (cb_shape n)). rewrite (sum_ext _ _ (fun j => cb_entry n i j * v j)) by (intros; now rewrite cb_me).
  unfold cb_entry. destruct (parity i) as [[a ->]|[a ->]]; [rewrite even_2i, div2_2i|rewrite even_2i1, div2_2i1].
  - rewrite (sum_single _ a) by (lia || (intros j Hj Hne; rewrite dlt_neq by assumption; ring)). rewrite dlt_eq. ring.
  - rewrite (sum_single _ (a + n)%nat) by (lia || (intros j Hj Hne; rewrite dlt_neq by assumption; ring)). rewrite dlt_eq. ring.
Qed.

Lemma changebasis_ok n (x p : nat -> R) i : (i < 2 * n)%nat -> apply (changebasis n) (stacked n x p) i = interleaved x p i.
Proof.
  intros Hi. rewrite cb_apply by exact Hi. unfold stacked, interleaved. destruct (parity i) as [[a ->]|[a ->]]; [rewrite even_2i, div2_2i|rewrite even_2i1, div2_2i1].
  - destruct (Nat.ltb_spec a n); [reflexivity|lia].
  - destruct (Nat.ltb_spec (a + n) n); [lia|]. now replace (a + n - n)%nat with a by lia.
Qed.

Lemma changebasis_rows n i j : (i < 2 * n)%nat -> (j < 2 * n)%nat -> sum (2 * n) (fun k => me (changebasis n) i k * me (changebasis n) j k) = dlt i j :> R.
Proof.
  intros Hi Hj. transitivity (apply (changebasis n) (fun k => me (changebasis (R := R) n) j k) i); [unfold apply; rewrite (proj2 (cb_shape n)); reflexivity|].
  rewrite cb_apply by exact Hi. rewrite !cb_me by exact Hj. unfold cb_entry, dlt.
  destruct (parity i) as [[a ->]|[a ->]]; destruct (parity j) as [[b ->]|[b ->]]; rewrite ?even_2i, ?div2_2i, ?even_2i1, ?div2_2i1.
  - destruct (Nat.eqb_spec a b), (Nat.eqb_spec (2 * a) (2 * b)); try lia; reflexivity.
  - destruct (Nat.eqb_spec a (b + n)), (Nat.eqb_spec (2 * a) (2 * b + 1)); try lia; reflexivity.
  - destruct (Nat.eqb_spec (a + n) b), (Nat.eqb_spec (2 * a + 1) (2 * b)); try lia; reflexivity.
  - destruct (Nat.eqb_spec (a + n) (b + n)), (Nat.eqb_spec (2 * a + 1) (2 * b + 1)); try lia; reflexivity.
Qed.

Lemma sum_even_odd n (f : nat -> R) : sum (2 * n) f = sum n (fun k => f (2 * k)%nat) + sum n (fun k => f (2 * k + 1)%nat).
Proof.
  induction n as [|n IH]; [cbn; ring|]. replace (2 * S n)%nat with (S (S (2 * n))) by lia. cbn [sum]. rewrite IH. replace (S (2 * n)) with (2 * n + 1)%nat by lia. ring.
Qed.
Lemma changebasis_cols n i j : (i < 2 * n)%nat -> (j < 2 * n)%nat -> sum (2 * n) (fun k => me (changebasis n) k i * me (changebasis n) k j) = dlt i j :> R.
Proof.
  intros Hi Hj. rewrite (sum_ext _ _ (fun k => cb_entry n k i * cb_entry n k j)) by (intros; now rewrite !cb_me).
  rewrite sum_even_odd. rewrite (sum_ext n (fun k => cb_entry n (2 * k) i * _) (fun k => dlt i k * dlt j k)) by (intros; unfold cb_entry; now rewrite even_2i, div2_2i).
  rewrite (sum_ext n (fun k => cb_entry n (2 * k + 1) i * _) (fun k => dlt i (k + n)%nat * dlt j (k + n)%nat)) by (intros; unfold cb_entry; now rewrite even_2i1, div2_2i1).
  destruct (Nat.lt_ge_cases i n) as [H|H].
  - rewrite (sum_zero n (fun k => dlt i (k + n)%nat * _)) by (intros; rewrite dlt_neq by lia; ring).
    rewrite (sum_single _ i) by (assumption || (intros k Hk Hne; rewrite (dlt_neq i k) by lia; ring)). rewrite dlt_eq. unfold dlt. rewrite (Nat.eqb_sym j i). ring.
  - rewrite (sum_zero n (fun k => dlt i k * _)) by (intros; rewrite dlt_neq by lia; ring).
    rewrite (sum_single _ (i - n)%nat) by (lia || (intros k Hk Hne; rewrite (dlt_neq i (k + n)) by lia; ring)). replace (i - n + n)%nat with i by lia. rewrite dlt_eq. unfold dlt. rewrite (Nat.eqb_sym j i). ring.
Qed.

(** the symplectic form *)
Lemma symp_apply n (x p : nat -> R) i : (i < n + n)%nat -> apply (sympmat n) (stacked n x p) i = stacked n p (fun k => - x k) i.
Proof.
  intros Hi. unfold apply. cbn [sympmat mc me]. rewrite sum_halves. unfold stacked.
  destruct (Nat.ltb_spec i n) as [H|H].
  - rewrite sum_zero by (intros k Hk; destruct (Nat.ltb_spec k n); [ring|lia]).
    rewrite (sum_single _ i) by (assumption || (intros k Hk Hne; destruct (Nat.ltb_spec (n + k) n); [lia|]; replace (n + k - n)%nat with k by lia; rewrite dlt_neq by lia; ring)).
    destruct (Nat.ltb_spec (n + i) n); [lia|]. replace (n + i - n)%nat with i by lia. rewrite dlt_eq. ring.
  - rewrite (sum_zero n (fun k => _ * (if Nat.ltb (n + k) n then _ else _))) by (intros k Hk; destruct (Nat.ltb_spec (n + k) n); [lia|ring]).
    rewrite (sum_single _ (i - n)%nat) by (lia || (intros k Hk Hne; destruct (Nat.ltb_spec k n); [|lia]; rewrite dlt_neq by lia; ring)).
    destruct (Nat.ltb_spec (i - n) n); [|lia]. rewrite dlt_eq. ring.
Qed.
Lemma symp_form n (x p x' p' : nat -> R) : bilin (n + n) (stacked n x p) (sympmat n) (stacked n x' p') = omega n x p x' p'.
Proof.
  unfold bilin. rewrite (sum_ext _ _ (fun i => stacked n x p i * stacked n p' (fun k => - x' k) i)) by (intros i Hi; now rewrite symp_apply).
  rewrite sum_halves. unfold omega.
  rewrite (sum_ext n (fun i => stacked n x p i * _) (fun k => x k * p' k)) by (intros k Hk; unfold stacked; destruct (Nat.ltb_spec k n); [reflexivity|lia]).
  rewrite (sum_ext n (fun i => stacked n x p (n + i)%nat * _) (fun k => - (1) * (p k * x' k))) by (intros k Hk; unfold stacked; destruct (Nat.ltb_spec (n + k) n); [lia|]; replace (n + k - n)%nat with k by lia; ring).
  rewrite <- sum_add. apply sum_ext. intros. ring.
Qed.

(** the form in interleaved coordinates *)
Lemma symp_interleaved n i j : (i < 2 * n)%nat -> (j < 2 * n)%nat ->
  bilin (2 * n) (fun k => me (changebasis n) i k) (sympmat n) (fun k => me (changebasis n) j k) =
    if Nat.even i then dlt j (i + 1)%nat else - dlt i (j + 1)%nat :> R.
Proof.
  intros Hi Hj. set (vi := fun k => me (changebasis (R := R) n) i k). set (vj := fun k => me (changebasis (R := R) n) j k).
  assert (St : forall v : nat -> R, forall k, v k = stacked n v (fun k => v (k + n)%nat) k) by (intros v k; unfold stacked; destruct (Nat.ltb_spec k n); [reflexivity|f_equal; lia]).
  transitivity (bilin (n + n) (stacked n vi (fun k => vi (k + n)%nat)) (sympmat n) (stacked n vj (fun k => vj (k + n)%nat))).
  { unfold bilin, apply. replace (2 * n)%nat with (n + n)%nat by lia. apply sum_ext. intros k Hk. rewrite <- St. f_equal. apply sum_ext. intros l Hl. now rewrite <- St. }
  rewrite symp_form. unfold omega, vi, vj. rewrite (sum_ext _ _ (fun k => cb_entry n i k * cb_entry n j (k + n)%nat - cb_entry n i (k + n)%nat * cb_entry n j k)) by (intros; now rewrite !cb_me).
  unfold cb_entry. destruct (parity i) as [[a ->]|[a ->]]; destruct (parity j) as [[b ->]|[b ->]]; rewrite ?even_2i, ?div2_2i, ?even_2i1, ?div2_2i1.
  - rewrite sum_zero by (intros k Hk; rewrite (dlt_neq (k + n) b), (dlt_neq (k + n) a) by lia; ring). rewrite dlt_neq by lia. reflexivity.
  - rewrite (sum_ext _ _ (fun k => dlt k a * dlt k b)) by (intros k Hk; rewrite (dlt_neq (k + n) a) by lia; unfold dlt; destruct (Nat.eqb_spec (k + n) (b + n)), (Nat.eqb_spec k b); try lia; ring).
    rewrite (sum_single _ a) by (lia || (intros k Hk Hne; rewrite (dlt_neq k a) by lia; ring)). rewrite dlt_eq. unfold dlt. destruct (Nat.eqb_spec a b), (Nat.eqb_spec (2 * b + 1) (2 * a + 1)); try lia; ring.
  - rewrite (sum_ext _ _ (fun k => - (1) * (dlt k a * dlt k b))) by (intros k Hk; rewrite (dlt_neq k (a + n)) by lia; unfold dlt; destruct (Nat.eqb_spec (k + n) (a + n)), (Nat.eqb_spec k a); try lia; ring).
    rewrite (sum_single _ a) by (lia || (intros k Hk Hne; rewrite (dlt_neq k a) by lia; ring)). rewrite dlt_eq. unfold dlt. destruct (Nat.eqb_spec a b), (Nat.eqb_spec (2 * a + 1) (2 * b + 1)); try lia; ring.
  - rewrite sum_zero by (intros k Hk; rewrite (dlt_neq k (a + n)), (dlt_neq k (b + n)) by lia; ring). rewrite dlt_neq by lia. ring.
Qed.

(** ** AKLT *)
Lemma AKLT_spin2 (C : consts R) r23 r12 A : c_half C + c_half C = 1 -> (1 + 1 + 1) * (r23 * r23) = 1 + 1 -> (1 + 1) * (r12 * r12) = 1 -> AKLT_site C r23 r12 = Some A ->
  forall x y, (x < 2)%nat -> (y < 2)%nat ->
  spin2 A 0 x y = 0 /\ spin2 A 1 x y = 0 /\ (1 + 1 + 1) * ((1 + 1) * (1 + 1)) * spin2 A 2 x y = - ((1 + 1) * (1 + 1) + 1) * dlt x y /\ spin2 A 3 x y = 0 /\ spin2 A 4 x y = 0.
Proof.
  intros Hh H3 H2 EA x y Hx Hy. unfold AKLT_site in EA. cbn in EA. injection EA as <-.
  assert (Hq : (1 + 1) * (1 + 1) * (c_half C * c_half C) = 1) by (transitivity ((c_half C + c_half C) * (c_half C + c_half C)); [ring|rewrite Hh; ring]).
  set (h := c_half C) in *. clearbody h.
  destruct x as [|[|x]]; try lia; destruct y as [|[|y]]; try lia; unfold spin2, pair2; cbn; unfold dlt; cbn; repeat split; try ring.
  - transitivity (- ((1 + 1) * (1 + 1)) * ((1 + 1 + 1) * (r23 * r23)) + (1 + 1 + 1) * ((1 + 1) * (r12 * r12)) * ((1 + 1) * (1 + 1) * (h * h))); [ring|]. rewrite H3, H2, Hq. ring.
  - transitivity (r12 * r23 * ((h + h) - 1)); [ring|rewrite Hh; ring].
  - transitivity (- (r12 * r23 * ((h + h) - 1))); [ring|rewrite Hh; ring].
  - transitivity (- ((1 + 1) * (1 + 1)) * ((1 + 1 + 1) * (r23 * r23)) + (1 + 1 + 1) * ((1 + 1) * (r12 * r12)) * ((1 + 1) * (1 + 1) * ((h - 1) * (h - 1)))); [ring|].
    rewrite H3, H2. transitivity (- ((1 + 1) * (1 + 1)) * (1 + 1) + (1 + 1 + 1) * 1 * ((1 + 1) * (1 + 1) * (h * h) - (1 + 1) * (1 + 1) * (h + h) + (1 + 1) * (1 + 1))); [ring|]. rewrite Hq, Hh. ring.
Qed.

(** the same tensor with A0 = -sqrt(1/3) sigma_z *)
Definition fixed_site (r23 r13 : R) : site R :=
  mkSite 3 2 2 (fun s i j => match s with
                             | 0%nat => r23 * me (lit 2 2 [0; 0; 1; 0]) i j
                             | 1%nat => - r13 * me (lit 2 2 [1; 0; 0; - (1)]) i j
                             | _ => - r23 * me (lit 2 2 [0; 1; 0; 0]) i j
                             end).
Lemma fixed_spin2 r23 r13 : (1 + 1) * (r13 * r13) = r23 * r23 -> no_spin2 (fixed_site r23 r13).
Proof.
  intros H m x y Hm Hx Hy. cbn in Hx, Hy. destruct x as [|[|x]]; try lia; destruct y as [|[|y]]; try lia; destruct m as [|[|[|[|[|m]]]]]; try lia;
  unfold spin2, pair2; cbn; try ring; (transitivity ((1 + 1) * (r13 * r13) - r23 * r23); [ring|rewrite H; ring]).
Qed.
End P.
