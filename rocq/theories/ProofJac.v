(** Matrix elements between a chain and the chain with tangent directions at two sites. *)
From Verif Require Import Alg ModelMPS SpecMPS ProofMPS ModelOrth SpecOrth ProofOrth ProofOrth2
  ModelEk SpecEk ProofEk4 ModelEnergy SpecEnergy ProofEnergy ModelTan SpecTan ProofTan SpecTdvp ProofTdvp ProofTdvp2 SpecJac.

Section Jac.
Context {R : sring}.
Local Open Scope sr_scope.
Add Ring Rr : (s_th R).

(** transfer through the same tensors above and below *)
Fixpoint xfer (mid : list (site R)) (f : nat -> nat -> R) (x y : nat) : R :=
  match mid with
  | [] => f x y
  | B :: mid => sum (phys B) (fun t => sum (dr B) (fun k => sum (dr B) (fun k' => ent B t x k * (sconj (ent B t y k') * xfer mid f k k'))))
  end.
Lemma xfer_app m1 m2 f : forall x y, xfer (m1 ++ m2) f x y = xfer m1 (xfer m2 f) x y.
Proof.
  induction m1 as [|B m1 IH]; intros x y; [reflexivity|]. cbn [app xfer]. apply sum_ext; intros t _. apply sum_ext; intros k _. apply sum_ext; intros k' _. rewrite IH. reflexivity.
Qed.
Lemma xfer_ext mid f g : forall a b, chain a mid b -> (forall x y, (x < b)%nat -> (y < b)%nat -> f x y = g x y) -> forall x y, (x < a)%nat -> (y < a)%nat -> xfer mid f x y = xfer mid g x y.
Proof.
  induction mid as [|B mid IH]; intros a b Hc H x y Hx Hy; cbn [xfer]; [cbn in Hc; subst b; auto|].
  destruct Hc as [_ Hc]. apply sum_ext; intros t _. apply sum_ext; intros k Hk. apply sum_ext; intros k' Hk'. rewrite (IH _ _ Hc H k k') by assumption. reflexivity.
Qed.
Lemma xfer_lin mid n (f : nat -> nat -> nat -> R) c : forall x y, xfer mid (fun x y => sum n (fun q => f q x y * c q)) x y = sum n (fun q => xfer mid (f q) x y * c q).
Proof.
  induction mid as [|B mid IH]; intros x y; cbn [xfer]; [reflexivity|].
  transitivity (sum (phys B) (fun t => sum n (fun q => sum (dr B) (fun k => sum (dr B) (fun k' => ent B t x k * (sconj (ent B t y k') * xfer mid (f q) k k'))) * c q))).
  - apply sum_ext; intros t _. transitivity (sum (dr B) (fun k => sum n (fun q => sum (dr B) (fun k' => ent B t x k * (sconj (ent B t y k') * xfer mid (f q) k k')) * c q))).
    + apply sum_ext; intros k _. transitivity (sum (dr B) (fun k' => sum n (fun q => ent B t x k * (sconj (ent B t y k') * xfer mid (f q) k k') * c q))).
      * apply sum_ext; intros k' _. rewrite IH. rewrite <- sum_mul_l, <- sum_mul_l. apply sum_ext; intros q _. ring.
      * rewrite sum_swap. apply sum_ext; intros q _. rewrite sum_mul_r. reflexivity.
    + rewrite sum_swap. apply sum_ext; intros q _. rewrite sum_mul_r. reflexivity.
  - rewrite sum_swap. apply sum_ext; intros q _. rewrite sum_mul_r. reflexivity.
Qed.
Lemma ovl_r_app mid Q Q' : forall x y, ovl_r (mid ++ Q) (mid ++ Q') x y = xfer mid (ovl_r Q Q') x y.
Proof.
  induction mid as [|B mid IH]; intros x y; [reflexivity|]. cbn [app xfer]. rewrite ovl_r_cons. apply sum_ext; intros t _. apply sum_ext; intros k _. apply sum_ext; intros k' _. rewrite IH. ring.
Qed.

(** lists with the same shapes *)
Definition like (l l' : list (site R)) : Prop := Forall2 same_shape l l'.
Lemma like_refl l : like l l.
Proof. induction l; constructor; [repeat split|assumption]. Qed.
Lemma like_len l l' : like l l' -> length l' = length l.
Proof. induction 1; cbn [length]; congruence. Qed.
Lemma like_chain l l' : like l l' -> forall i j, chain i l j -> chain i l' j.
Proof. induction 1 as [|A B l l' (H1 & H2 & H3) HF IH]; intros i j; cbn [chain]; [auto|]. intros [E1 E2]. split; [congruence|]. rewrite H3. auto. Qed.
Lemma like_dims l l' : like l l' -> dims l' = dims l.
Proof. induction 1 as [|A B l l' (H1 & H2 & H3) HF IH]; [reflexivity|]. cbn [dims map]. f_equal; [exact H1|exact IH]. Qed.
Lemma like_app l1 l1' l2 l2' : like l1 l1' -> like l2 l2' -> like (l1 ++ l2) (l1' ++ l2').
Proof. apply Forall2_app. Qed.
Lemma like_sym l l' : like l l' -> like l' l.
Proof. induction 1 as [|A B l l' (H1 & H2 & H3) HF IH]; constructor; [repeat split; congruence|exact IH]. Qed.

(** a gauge-fixed tensor to the left of a term *)
Lemma ovl_l_gauge (P : list (site R)) A X : chain 1 P (dl A) -> same_shape A X -> diag_on (dl A) (true_l P) ->
  (forall x y, (x < dr A)%nat -> (y < dr A)%nat -> sum (phys A) (fun t => sum (dl A) (fun c => sconj (ent X t c x) * true_l P c c * ent A t c y)) = 0) ->
  forall m1 m2, like m1 m2 -> forall x y b, chain (dr A) m1 b -> (x < b)%nat -> (y < b)%nat -> ovl_l (P ++ X :: m2) (P ++ A :: m1) x y = 0.
Proof.
  intros HP (S1 & S2 & S3) Dl HG m1. induction m1 as [|B m1 IH] using rev_ind; intros m2 HL x y b Hc Hx Hy.
  - inversion HL; subst. cbn in Hc. subst b. rewrite (ovl_l_snoc P P X A (dl A) x y); try assumption; try reflexivity; [|rewrite S3; exact Hx].
    rewrite S1. rewrite <- (HG x y Hx Hy). apply sum_ext; intros t _. apply sum_ext; intros c Hc.
    rewrite (sum_diag (dl A) c); [reflexivity|exact Hc|]. intros j Hj Hne. rewrite ovl_l_same, (Dl c j) by auto. ring.
  - apply Forall2_app_inv_l in HL as (m2' & l2 & HL & HB & ->). inversion HB as [|? B' ? l3 (B1 & B2 & B3) HN]; subst. inversion HN; subst.
    apply chain_app_last in Hc. destruct Hc as (c & Hc & HB1 & HB2).
    change (P ++ X :: m2' ++ [B']) with (P ++ (X :: m2') ++ [B']). change (P ++ A :: m1 ++ [B]) with (P ++ (A :: m1) ++ [B]). rewrite !app_assoc.
    rewrite (ovl_l_snoc (P ++ X :: m2') (P ++ A :: m1) B' B c x y).
    + apply sum_zero; intros s _. apply sum_zero; intros i Hi. apply sum_zero; intros j Hj. rewrite (IH m2' HL i j c Hc Hi Hj). ring.
    + apply chain_app. exists (dl A). split; [exact HP|]. split; [exact S2|]. rewrite S3. eapply like_chain; eassumption.
    + apply chain_app. exists (dl A). split; [exact HP|]. split; [reflexivity|exact Hc].
    + rewrite !app_length. cbn [length]. rewrite (like_len _ _ HL). reflexivity.
    + congruence.
    + exact HB1.
    + rewrite B3, HB2. exact Hx.
    + rewrite HB2. exact Hy.
Qed.

Lemma split_at {X} (l : list X) k : (k <= length l)%nat -> exists p q, l = p ++ q /\ length p = k.
Proof. intros H. exists (firstn k l), (skipn k l). split; [symmetry; apply firstn_skipn|]. rewrite firstn_length. lia. Qed.

Lemma split_two {X} (l : list X) k : (k + 2 <= length l)%nat -> exists p x y q, l = p ++ x :: y :: q /\ length p = k.
Proof.
  intros H. destruct (split_at l k) as (p & q & E & HL); [lia|]. exists p. destruct q as [|x [|y q]]; [| |exists x, y, q; auto]; exfalso; rewrite E, app_length in H; cbn in H; lia.
Qed.
Lemma dims_cut d (l l' : list (site R)) : dims (l ++ l') = repeat d (length (l ++ l')) -> dims l = repeat d (length l) /\ dims l' = repeat d (length l').
Proof.
  induction l as [|A l IH]; cbn [app]; [auto|]. cbn [dims map length repeat]. intros E. injection E as E1 E2. apply IH in E2 as [E2 E3]. split; [f_equal; [exact E1|exact E2]|exact E3].
Qed.

Lemma term_gauge d (P Q Q' : list (site R)) A X h k : chain 1 P (dl A) -> same_shape A X -> diag_on (dl A) (true_l P) ->
  (forall x y, (x < dr A)%nat -> (y < dr A)%nat -> sum (phys A) (fun t => sum (dl A) (fun c => sconj (ent X t c x) * true_l P c c * ent A t c y)) = 0) ->
  chain (dr A) Q 1 -> like Q Q' -> dims (P ++ A :: Q) = repeat d (length (P ++ A :: Q)) ->
  (length P < k)%nat -> (k + 2 <= length (P ++ A :: Q))%nat ->
  term_elem d (P ++ X :: Q') (P ++ A :: Q) k h = 0.
Proof.
  intros HP HX Dl HG HQ HL DP Hk Hk2. rewrite app_length in Hk2. cbn [length] in Hk2.
  destruct (split_at Q (k - length P - 1)) as (m1 & rest & EQ & Lm); [lia|]. destruct rest as [|B [|B1 Q1]].
  { rewrite EQ, app_length in Hk2. cbn in Hk2. lia. }
  { rewrite EQ, app_length in Hk2. cbn in Hk2. lia. }
  subst Q. apply Forall2_app_inv_l in HL as (m2 & l2 & HL1 & HL2 & ->). inversion HL2 as [|? B' ? l3 HB HL3]; subst. inversion HL3 as [|? B1' ? Q1' HB1 HL4]; subst.
  apply chain_app in HQ as (b & C1 & C2). pose proof C2 as C2k. destruct C2k as (E1 & E2 & C3).
  assert (EL : k = length (P ++ X :: m2)) by (rewrite app_length; cbn [length]; rewrite (like_len _ _ HL1); lia). rewrite EL.
  change (P ++ X :: m2 ++ B' :: B1' :: Q1') with (P ++ (X :: m2) ++ B' :: B1' :: Q1'). change (P ++ A :: m1 ++ B :: B1 :: Q1) with (P ++ (A :: m1) ++ B :: B1 :: Q1). rewrite !app_assoc.
  assert (HC : chain 1 (P ++ A :: m1) b) by (apply chain_app; exists (dl A); split; [exact HP|]; split; [reflexivity|exact C1]).
  assert (HLa : like (P ++ A :: m1) (P ++ X :: m2)) by (apply like_app; [apply like_refl|]; constructor; assumption).
  assert (Dp : dims (P ++ A :: m1) = repeat d (length (P ++ A :: m1)) /\ dims Q1 = repeat d (length Q1)).
  { revert DP. change (P ++ A :: m1 ++ B :: B1 :: Q1) with (P ++ (A :: m1) ++ B :: B1 :: Q1). rewrite app_assoc. generalize (P ++ A :: m1). intros l.
    intros E. apply dims_cut in E as [E1' E2']. split; [exact E1'|]. cbn [dims map length repeat] in E2'. now inversion E2'. }
  destruct Dp as [Dp Dq].
  destruct HB as (X1 & X2 & X3), HB1 as (Y1 & Y2 & Y3).
  rewrite (term_split d (P ++ X :: m2) Q1' (P ++ A :: m1) Q1 B' B1' B B1 b (dr B1) h).
  - apply sum_zero; intros s _. apply sum_zero; intros t _. apply sum_zero; intros x Hx. apply sum_zero; intros y _. apply sum_zero; intros x' Hx'. apply sum_zero; intros y' _.
    rewrite (ovl_l_gauge P A X HP HX Dl HG m1 m2 HL1 x x' b C1 Hx Hx'). ring.
  - eapply like_chain; [exact HLa|exact HC].
  - split; [congruence|]. split; [congruence|]. cbn. congruence.
  - eapply like_chain; eassumption.
  - exact HC.
  - split; [exact E1|]. split; [exact E2|reflexivity].
  - exact C3.
  - rewrite (like_dims _ _ HLa), Dp. f_equal. symmetry. exact (like_len _ _ HLa).
  - rewrite (like_dims _ _ HL4), Dq. f_equal. symmetry. exact (like_len _ _ HL4).
  - symmetry. exact (like_len _ _ HLa).
  - symmetry. exact (like_len _ _ HL4).
Qed.

Definition real_on (n : nat) (f : nat -> R) : Prop := forall x, (x < n)%nat -> sconj (f x) = f x.

(** the term on two neighbouring directions *)
Lemma jterm_two d (P Q : list (site R)) A V L E B W L' E' h x1 y1 x2 y2 :
  chain 1 P (dl A) -> dl B = dr A -> chain (dr B) Q 1 -> dims P = repeat d (length P) -> dims Q = repeat d (length Q) ->
  diag_on (dl A) (true_l P) -> diag_on (dr B) (true_r Q) ->
  real_on (dl A) L -> real_on (dr A) E -> real_on (dl B) L' -> real_on (dr B) E' -> (y1 < dr A)%nat -> (y2 < dr B)%nat ->
  term_elem d (P ++ tvec A V L E x1 y1 :: tvec B W L' E' x2 y2 :: Q) (P ++ A :: B :: Q) (length P) h
  = sum d (fun s => sum d (fun t => sum (dl A) (fun x =>
      true_l P x x * L x * sconj (ent V s x x1) * (E y1 * L' y1) * sconj (ent W t y1 x2) * hAA d h A B s t x y2 * (E' y2 * true_r Q y2 y2)))).
Proof.
  intros HP HAB HQ DP DQ Dl Dr RL RE RL' RE' Hy1 Hy2.
  rewrite (term_split d P Q P Q (tvec A V L E x1 y1) (tvec B W L' E' x2 y2) A B (dl A) (dr B) h); try assumption; try reflexivity; try (split; [reflexivity|]; split; [exact HAB|reflexivity]).
  apply sum_ext; intros s _. apply sum_ext; intros t _. apply sum_ext; intros x Hx.
  transitivity (sum (dr B) (fun y => dlt y2 y * (true_l P x x * L x * sconj (ent V s x x1) * (E y1 * L' y1) * sconj (ent W t y1 x2) * hAA d h A B s t x y * (E' y2 * true_r Q y y)))).
  2: { rewrite sum_dlt1 by exact Hy2. reflexivity. }
  apply sum_ext; intros y Hy. rewrite (sum_diag (dl A) x); [|exact Hx|].
  - rewrite (sum_diag (dr B) y); [|exact Hy|].
    + rewrite ovl_l_same, ovl_r_same. cbn [tvec dr ent].
      rewrite (sum_ext (dr A) _ (fun k => dlt y1 k * (L x * ent V s x x1 * E y1 * (L' k * ent W t k x2 * (E' y2 * dlt y2 y))))) by (intros; ring).
      rewrite sum_dlt1 by exact Hy1. rewrite !conj_mul, (RL x Hx), (RE y1 Hy1), (RE' y2 Hy2), dlt_conj, (RL' y1) by lia. ring.
    + intros y' Hy' Hne. rewrite ovl_r_same, (Dr y' y) by auto. ring.
  - intros x' Hx' Hne. apply sum_zero. intros y' Hy'. rewrite ovl_l_same, (Dl x x') by auto. ring.
Qed.

(** the term on a direction and its right neighbour *)
Lemma jterm_here d (P Q Q' : list (site R)) A V L E B h x1 y1 :
  chain 1 P (dl A) -> dl B = dr A -> chain (dr B) Q 1 -> like Q Q' -> dims P = repeat d (length P) -> dims Q = repeat d (length Q) ->
  diag_on (dl A) (true_l P) -> real_on (dl A) L -> real_on (dr A) E -> (y1 < dr A)%nat ->
  term_elem d (P ++ tvec A V L E x1 y1 :: B :: Q') (P ++ A :: B :: Q) (length P) h
  = sum d (fun s => sum d (fun t => sum (dl A) (fun x => sum (dr B) (fun y => sum (dr B) (fun y' =>
      true_l P x x * L x * sconj (ent V s x x1) * (E y1 * sconj (ent B t y1 y)) * hAA d h A B s t x y' * ovl_r Q' Q y' y))))).
Proof.
  intros HP HAB HQ HL DP DQ Dl RL RE Hy1.
  rewrite (term_split d P Q' P Q (tvec A V L E x1 y1) B A B (dl A) (dr B) h); try assumption; try reflexivity; try (split; [reflexivity|]; split; [exact HAB|reflexivity]).
  - apply sum_ext; intros s _. apply sum_ext; intros t _. apply sum_ext; intros x Hx. apply sum_ext; intros y Hy. rewrite (sum_diag (dl A) x); [|exact Hx|].
    + apply sum_ext; intros y' _. rewrite ovl_l_same. cbn [tvec dr ent].
      rewrite (sum_ext (dr A) _ (fun k => dlt y1 k * (L x * ent V s x x1 * E y1 * ent B t k y))) by (intros; ring).
      rewrite sum_dlt1 by exact Hy1. rewrite !conj_mul, (RL x Hx), (RE y1 Hy1). ring.
    + intros x' Hx' Hne. apply sum_zero. intros y' Hy'. rewrite ovl_l_same, (Dl x x') by auto. ring.
  - eapply like_chain; eassumption.
  - rewrite (like_dims _ _ HL), DQ, (like_len _ _ HL). reflexivity.
  - symmetry. exact (like_len _ _ HL).
Qed.

(** the term on a direction and its left neighbour *)
Lemma jterm_left d (P Q Q' : list (site R)) A0 A V L E h x1 y1 :
  chain 1 P (dl A0) -> dl A = dr A0 -> chain (dr A) Q 1 -> like Q Q' -> dims P = repeat d (length P) -> dims Q = repeat d (length Q) ->
  diag_on (dl A0) (true_l P) -> real_on (dl A) L -> real_on (dr A) E -> (y1 < dr A)%nat ->
  term_elem d (P ++ A0 :: tvec A V L E x1 y1 :: Q') (P ++ A0 :: A :: Q) (length P) h
  = sum (dr A) (fun y' => sum d (fun s => sum d (fun t => sum (dl A0) (fun x => sum (dr A0) (fun k =>
      true_l P x x * sconj (ent A0 s x k) * (L k * sconj (ent V t k x1)) * hAA d h A0 A s t x y')))) * (E y1 * ovl_r Q' Q y' y1)).
Proof.
  intros HP HAB HQ HL DP DQ Dl RL RE Hy1.
  rewrite (term_split d P Q' P Q A0 (tvec A V L E x1 y1) A0 A (dl A0) (dr A) h); try assumption; try reflexivity; try (split; [reflexivity|]; split; [exact HAB|reflexivity]).
  - transitivity (sum d (fun s => sum d (fun t => sum (dl A0) (fun x => sum (dr A) (fun y' =>
       sum (dr A0) (fun k => true_l P x x * sconj (ent A0 s x k) * (L k * sconj (ent V t k x1)) * hAA d h A0 A s t x y') * (E y1 * ovl_r Q' Q y' y1)))))).
    + apply sum_ext; intros s _. apply sum_ext; intros t _. apply sum_ext; intros x Hx.
      transitivity (sum (dr A) (fun y => dlt y1 y * sum (dr A) (fun y' => sum (dr A0) (fun k => true_l P x x * sconj (ent A0 s x k) * (L k * sconj (ent V t k x1)) * hAA d h A0 A s t x y') * (E y1 * ovl_r Q' Q y' y)))).
      * apply sum_ext; intros y Hy. rewrite (sum_diag (dl A0) x); [|exact Hx|].
        { rewrite <- sum_mul_l. apply sum_ext; intros y' _. rewrite ovl_l_same. cbn [tvec ent].
          transitivity (dlt y1 y * (E y1 * (true_l P x x * hAA d h A0 A s t x y') * sum (dr A0) (fun k => sconj (ent A0 s x k) * (L k * sconj (ent V t k x1))) * ovl_r Q' Q y' y)).
          - rewrite sum_conj. rewrite (sum_ext (dr A0) (fun k => sconj (ent A0 s x k * (L k * ent V t k x1 * (E y1 * dlt y1 y)))) (fun k => (sconj (ent A0 s x k) * (L k * sconj (ent V t k x1))) * (E y1 * dlt y1 y))).
            + rewrite sum_mul_r. ring.
            + intros k Hk. rewrite !conj_mul, (RL k), (RE y1 Hy1), dlt_conj by lia. ring.
          - f_equal. rewrite (sum_ext (dr A0) (fun k => true_l P x x * sconj (ent A0 s x k) * (L k * sconj (ent V t k x1)) * hAA d h A0 A s t x y') (fun k => true_l P x x * hAA d h A0 A s t x y' * (sconj (ent A0 s x k) * (L k * sconj (ent V t k x1))))) by (intros; ring).
            rewrite sum_mul_l. ring. }
        intros x' Hx' Hne. apply sum_zero. intros y' Hy'. rewrite ovl_l_same, (Dl x x') by auto. ring.
      * rewrite sum_dlt1 by exact Hy1. reflexivity.
    + transitivity (sum (dr A) (fun y' => sum d (fun s => sum d (fun t => sum (dl A0) (fun x => 
       sum (dr A0) (fun k => true_l P x x * sconj (ent A0 s x k) * (L k * sconj (ent V t k x1)) * hAA d h A0 A s t x y') * (E y1 * ovl_r Q' Q y' y1)))))).
      * rewrite (sum_swap (dr A) d). apply sum_ext; intros s _. rewrite sum_rot. reflexivity.
      * apply sum_ext; intros y' _. rewrite <- sum_mul_r. apply sum_ext; intros s _. rewrite <- sum_mul_r. apply sum_ext; intros t _. rewrite <- sum_mul_r. reflexivity.
  - eapply like_chain; eassumption.
  - rewrite (like_dims _ _ HL), DQ, (like_len _ _ HL). reflexivity.
  - symmetry. exact (like_len _ _ HL).
Qed.

(** a term to the left of everything that differs *)
Lemma jterm_far d (P Q Q' : list (site R)) A0 A1 h :
  chain 1 P (dl A0) -> dl A1 = dr A0 -> chain (dr A1) Q 1 -> like Q Q' -> dims P = repeat d (length P) -> dims Q = repeat d (length Q) -> diag_on (dl A0) (true_l P) ->
  term_elem d (P ++ A0 :: A1 :: Q') (P ++ A0 :: A1 :: Q) (length P) h
  = sum (dr A1) (fun y' => sum (dr A1) (fun y => kAA d h (dl A0) (fun x => true_l P x x) A0 A1 y' y * ovl_r Q' Q y' y)).
Proof.
  intros HP HAB HQ HL DP DQ Dl.
  rewrite (term_split d P Q' P Q A0 A1 A0 A1 (dl A0) (dr A1) h); try assumption; try reflexivity; try (split; [reflexivity|]; split; [exact HAB|reflexivity]).
  - transitivity (sum d (fun s => sum d (fun t => sum (dl A0) (fun x => sum (dr A1) (fun y => sum (dr A1) (fun y' =>
      sum (dr A0) (fun k => true_l P x x * sconj (ent A0 s x k) * sconj (ent A1 t k y) * hAA d h A0 A1 s t x y') * ovl_r Q' Q y' y)))))).
    + apply sum_ext; intros s _. apply sum_ext; intros t _. apply sum_ext; intros x Hx. apply sum_ext; intros y Hy.
      rewrite (sum_diag (dl A0) x); [|exact Hx|].
      * apply sum_ext; intros y' _. rewrite ovl_l_same.
        rewrite (sum_ext (dr A0) (fun k => true_l P x x * sconj (ent A0 s x k) * sconj (ent A1 t k y) * hAA d h A0 A1 s t x y')
          (fun k => true_l P x x * hAA d h A0 A1 s t x y' * sconj (ent A0 s x k * ent A1 t k y))) by (intros; rewrite conj_mul; ring).
        rewrite sum_mul_l, sum_conj. ring.
      * intros x' Hx' Hne. apply sum_zero. intros y' Hy'. rewrite ovl_l_same, (Dl x x') by auto. ring.
    + unfold kAA.
      transitivity (sum (dr A1) (fun y => sum (dr A1) (fun y' => sum d (fun s => sum d (fun t => sum (dl A0) (fun x =>
        sum (dr A0) (fun k => true_l P x x * sconj (ent A0 s x k) * sconj (ent A1 t k y) * hAA d h A0 A1 s t x y') * ovl_r Q' Q y' y)))))).
      { transitivity (sum (dr A1) (fun y => sum d (fun s => sum d (fun t => sum (dl A0) (fun x => sum (dr A1) (fun y' => 
        sum (dr A0) (fun k => true_l P x x * sconj (ent A0 s x k) * sconj (ent A1 t k y) * hAA d h A0 A1 s t x y') * ovl_r Q' Q y' y)))))).
        - rewrite (sum_swap (dr A1) d). apply sum_ext; intros s _. rewrite sum_rot. reflexivity.
        - apply sum_ext; intros y _. rewrite (sum_swap (dr A1) d). apply sum_ext; intros s _. rewrite sum_rot. reflexivity. }
      rewrite sum_swap. apply sum_ext; intros y' _. apply sum_ext; intros y _.
      rewrite <- !sum_mul_r. apply sum_ext; intros s _. rewrite <- !sum_mul_r. apply sum_ext; intros t _. rewrite <- !sum_mul_r. apply sum_ext; intros x _. ring.
  - eapply like_chain; eassumption.
  - rewrite (like_dims _ _ HL), DQ, (like_len _ _ HL). reflexivity.
  - symmetry. exact (like_len _ _ HL).
Qed.

(** a direction at the left end of what follows *)
Lemma ovl_r_tvec (Q Q' : list (site R)) A V L E x1 y1 x y : real_on (dl A) L -> real_on (dr A) E -> (y1 < dr A)%nat -> (y < dl A)%nat ->
  ovl_r (tvec A V L E x1 y1 :: Q') (A :: Q) x y = sum (dr A) (fun k => sum (phys A) (fun t => L y * sconj (ent V t y x1) * ent A t x k) * (E y1 * ovl_r Q' Q k y1)).
Proof.
  intros RL RE Hy1 Hy. rewrite ovl_r_cons. cbn [tvec phys dr ent]. rewrite (sum_ext (dr A) (fun k => sum (phys A) _ * _) (fun k => sum (phys A) (fun t => L y * sconj (ent V t y x1) * ent A t x k * (E y1 * ovl_r Q' Q k y1)))) by (intros; rewrite sum_mul_r; reflexivity).
  symmetry. rewrite (sum_swap (dr A) (phys A)). symmetry. apply sum_ext; intros t _. apply sum_ext; intros k _.
  rewrite (sum_ext (dr A) _ (fun j => dlt y1 j * (ent A t x k * ovl_r Q' Q k j * (L y * sconj (ent V t y x1) * E y1)))).
  - rewrite sum_dlt1 by exact Hy1. ring.
  - intros j _. rewrite !conj_mul, (RL y Hy), (RE y1 Hy1), dlt_conj. ring.
Qed.
Lemma ovl_r_tvec_end (Q : list (site R)) A V L E x1 y1 x y : real_on (dl A) L -> real_on (dr A) E -> diag_on (dr A) (true_r Q) -> (y1 < dr A)%nat -> (y < dl A)%nat ->
  ovl_r (tvec A V L E x1 y1 :: Q) (A :: Q) x y = sum (phys A) (fun t => L y * sconj (ent V t y x1) * (ent A t x y1 * (E y1 * true_r Q y1 y1))).
Proof.
  intros RL RE Dr Hy1 Hy. rewrite ovl_r_tvec by assumption. rewrite (sum_diag (dr A) y1); [|exact Hy1|].
  - rewrite ovl_r_same, <- sum_mul_r. apply sum_ext; intros t _. ring.
  - intros k Hk Hne. rewrite ovl_r_same, (Dr k y1) by auto. ring.
Qed.
End Jac.
