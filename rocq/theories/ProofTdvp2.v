(** The rows of a projector put in place of one tensor. *)
From Verif Require Import Alg ModelMPS SpecMPS ProofMPS ModelOrth SpecOrth ProofOrth ProofOrth2
  ModelEk SpecEk ProofEk4 ModelEnergy SpecEnergy ProofEnergy ModelTan SpecTan ProofTan SpecTdvp ProofTdvp.

Section Tdvp.
Context {R : sring}.
Local Open Scope sr_scope.
Add Ring Rr : (s_th R).

Definition diag_on (n : nat) (f : nat -> nat -> R) : Prop := forall x y, (x < n)%nat -> (y < n)%nat -> x <> y -> f x y = 0.

(** the array conj(pr[s,a,t,c]) at (t,c,b), zero at the other columns *)
Definition prow (A : site R) (pr : list nat -> R) (s a b : nat) : site R :=
  mkSite (phys A) (dl A) (dr A) (fun t c b' => sconj (pr [s; a; t; c]) * dlt b b').

(** a term on the site and its right neighbour *)
Lemma term_here d (P Q : list (site R)) A B a h pr s0 a0 b0 : 
  chain 1 P a -> chain a [A; B] (dr B) -> chain (dr B) Q 1 -> dims P = repeat d (length P) -> dims Q = repeat d (length Q) ->
  diag_on a (true_l P) -> diag_on (dr B) (true_r Q) -> (b0 < dr A)%nat ->
  term_elem d (P ++ prow A pr s0 a0 b0 :: B :: Q) (P ++ A :: B :: Q) (length P) h
  = sum d (fun s => sum d (fun t => sum a (fun x => sum (dr B) (fun y =>
      true_l P x x * hAA d h A B s t x y * true_r Q y y * pr [s0; a0; s; x] * sconj (ent B t b0 y))))).
Proof.
  intros HP HAB HQ DP DQ Dl Dr Hb.
  rewrite (term_split d P Q P Q (prow A pr s0 a0 b0) B A B a (dr B) h); try assumption; try reflexivity.
  apply sum_ext; intros s _. apply sum_ext; intros t _. apply sum_ext; intros x Hx. apply sum_ext; intros y Hy.
  rewrite (sum_diag a x); [|exact Hx|].
  - rewrite (sum_diag (dr B) y); [|exact Hy|].
    + rewrite ovl_l_same, ovl_r_same. cbn [prow dr ent].
      rewrite (sum_ext (dr A) _ (fun k => dlt b0 k * (sconj (pr [s0; a0; s; x]) * ent B t k y))) by (intros; ring).
      rewrite sum_dlt1 by exact Hb. rewrite conj_mul, conj_conj. ring.
    + intros y' Hy' Hne. rewrite ovl_r_same, (Dr y' y) by auto. ring.
  - intros x' Hx' Hne. apply sum_zero. intros y' Hy'. rewrite ovl_l_same, (Dl x x') by auto. ring.
Qed.

(** a term on the site and its left neighbour *)
Lemma term_left d (P Q : list (site R)) A0 A a h pr s0 a0 b0 :
  chain 1 P a -> chain a [A0; A] (dr A) -> chain (dr A) Q 1 -> dims P = repeat d (length P) -> dims Q = repeat d (length Q) ->
  diag_on a (true_l P) -> diag_on (dr A) (true_r Q) -> (b0 < dr A)%nat ->
  term_elem d (P ++ A0 :: prow A pr s0 a0 b0 :: Q) (P ++ A0 :: A :: Q) (length P) h
  = sum d (fun s => sum d (fun t => sum a (fun x => sum (dr A0) (fun k =>
      true_l P x x * sconj (ent A0 s x k) * pr [s0; a0; t; k] * hAA d h A0 A s t x b0)))) * true_r Q b0 b0.
Proof.
  intros HP HAB HQ DP DQ Dl Dr Hb.
  rewrite (term_split d P Q P Q A0 (prow A pr s0 a0 b0) A0 A a (dr A) h); try assumption; try reflexivity.
  rewrite <- sum_mul_r. apply sum_ext; intros s _. rewrite <- sum_mul_r. apply sum_ext; intros t _. rewrite <- sum_mul_r. apply sum_ext; intros x Hx.
  transitivity (sum (dr A) (fun y => dlt b0 y * (true_l P x x * sum (dr A0) (fun k => sconj (ent A0 s x k) * pr [s0; a0; t; k]) * hAA d h A0 A s t x y * true_r Q y y))).
  - apply sum_ext; intros y Hy. rewrite (sum_diag a x); [|exact Hx|].
    + rewrite (sum_diag (dr A) y); [|exact Hy|].
      * rewrite ovl_l_same, ovl_r_same. cbn [prow dr ent].
        replace (sconj (sum (dr A0) (fun k => ent A0 s x k * (sconj (pr [s0; a0; t; k]) * dlt b0 y)))) with (sum (dr A0) (fun k => sconj (ent A0 s x k) * pr [s0; a0; t; k]) * dlt b0 y); [ring|].
        rewrite sum_conj, <- sum_mul_r. apply sum_ext; intros k _. rewrite !conj_mul, conj_conj, dlt_conj. ring.
      * intros y' Hy' Hne. rewrite ovl_r_same, (Dr y' y) by auto. ring.
    + intros x' Hx' Hne. apply sum_zero. intros y' Hy'. rewrite ovl_l_same, (Dl x x') by auto. ring.
  - rewrite sum_dlt1 by exact Hb.
    rewrite (sum_ext (dr A0) (fun k => true_l P x x * sconj (ent A0 s x k) * pr [s0; a0; t; k] * hAA d h A0 A s t x b0) (fun k => true_l P x x * hAA d h A0 A s t x b0 * (sconj (ent A0 s x k) * pr [s0; a0; t; k]))) by (intros; ring).
    rewrite sum_mul_l. ring.
Qed.

(** the transferred projector row *)
Fixpoint moved (mid : list (site R)) (A : site R) (pr : list nat -> R) (s0 a0 b0 x y : nat) : R :=
  match mid with
  | [] => sum (phys A) (fun t => pr [s0; a0; t; y] * ent A t x b0)
  | B :: mid => sum (phys B) (fun t => sum (dr B) (fun k => sum (dr B) (fun k' => ent B t x k * (sconj (ent B t y k') * moved mid A pr s0 a0 b0 k k'))))
  end.

Lemma moved_ok (Q : list (site R)) A pr s0 a0 b0 : diag_on (dr A) (true_r Q) -> (b0 < dr A)%nat -> forall mid x y,
  ovl_r (mid ++ prow A pr s0 a0 b0 :: Q) (mid ++ A :: Q) x y = moved mid A pr s0 a0 b0 x y * true_r Q b0 b0.
Proof.
  intros Dr Hb. induction mid as [|B mid IH]; intros x y; cbn [app moved].
  - rewrite ovl_r_cons. cbn [prow phys dr ent]. rewrite <- sum_mul_r. apply sum_ext; intros t _.
    transitivity (sum (dr A) (fun i => dlt b0 i * (ent A t x i * true_r Q i b0 * pr [s0; a0; t; y]))).
    + apply sum_ext; intros i Hi. rewrite (sum_ext (dr A) _ (fun j => dlt b0 j * (ent A t x i * true_r Q i j * pr [s0; a0; t; y]))).
      2: { intros j _. rewrite ovl_r_same, conj_mul, conj_conj, dlt_conj. ring. }
      rewrite sum_dlt1 by exact Hb. destruct (Nat.eq_dec b0 i) as [<-|Hne]; [rewrite dlt_eq; ring|].
      rewrite (Dr i b0) by auto. ring.
    + rewrite sum_dlt1 by exact Hb. ring.
  - rewrite ovl_r_cons. rewrite <- sum_mul_r. apply sum_ext; intros t _. rewrite <- sum_mul_r. apply sum_ext; intros k _. rewrite <- sum_mul_r. apply sum_ext; intros k' _.
    rewrite IH. ring.
Qed.

(** a term further to the left *)
Definition kAA (d : nat) (h : mat R) (a : nat) (lam : nat -> R) (A0 A1 : site R) (y' y : nat) : R :=
  sum d (fun s => sum d (fun t => sum a (fun x => sum (dr A0) (fun k => lam x * sconj (ent A0 s x k) * sconj (ent A1 t k y) * hAA d h A0 A1 s t x y')))).

Lemma term_far d (P mid Q : list (site R)) A0 A1 A a h pr s0 a0 b0 :
  chain 1 P a -> chain a [A0; A1] (dr A1) -> chain (dr A1) (mid ++ A :: Q) 1 ->
  dims P = repeat d (length P) -> dims (mid ++ A :: Q) = repeat d (length (mid ++ A :: Q)) ->
  diag_on a (true_l P) -> diag_on (dr A) (true_r Q) -> (b0 < dr A)%nat ->
  term_elem d (P ++ A0 :: A1 :: mid ++ prow A pr s0 a0 b0 :: Q) (P ++ A0 :: A1 :: mid ++ A :: Q) (length P) h
  = sum (dr A1) (fun y' => sum (dr A1) (fun y => kAA d h a (fun x => true_l P x x) A0 A1 y' y * moved mid A pr s0 a0 b0 y' y)) * true_r Q b0 b0.
Proof.
  intros HP HAB HQ DP DQ Dl Dr Hb.
  rewrite (term_split d P (mid ++ prow A pr s0 a0 b0 :: Q) P (mid ++ A :: Q) A0 A1 A0 A1 a (dr A1) h); try assumption; try reflexivity.
  - transitivity (sum d (fun s => sum d (fun t => sum a (fun x => sum (dr A1) (fun y => sum (dr A1) (fun y' =>
      sum (dr A0) (fun k => true_l P x x * sconj (ent A0 s x k) * sconj (ent A1 t k y) * hAA d h A0 A1 s t x y') * (moved mid A pr s0 a0 b0 y' y * true_r Q b0 b0))))))).
    + apply sum_ext; intros s _. apply sum_ext; intros t _. apply sum_ext; intros x Hx. apply sum_ext; intros y Hy.
      rewrite (sum_diag a x); [|exact Hx|].
      * apply sum_ext; intros y' _. rewrite ovl_l_same, (moved_ok Q A pr s0 a0 b0 Dr Hb mid y' y).
        rewrite (sum_ext (dr A0) (fun k => true_l P x x * sconj (ent A0 s x k) * sconj (ent A1 t k y) * hAA d h A0 A1 s t x y')
          (fun k => true_l P x x * hAA d h A0 A1 s t x y' * sconj (ent A0 s x k * ent A1 t k y))) by (intros; rewrite conj_mul; ring).
        rewrite sum_mul_l, sum_conj. ring.
      * intros x' Hx' Hne. apply sum_zero. intros y' Hy'. rewrite ovl_l_same, (Dl x x') by auto. ring.
    + unfold kAA.
      transitivity (sum (dr A1) (fun y => sum (dr A1) (fun y' => sum d (fun s => sum d (fun t => sum a (fun x =>
        sum (dr A0) (fun k => true_l P x x * sconj (ent A0 s x k) * sconj (ent A1 t k y) * hAA d h A0 A1 s t x y') * (moved mid A pr s0 a0 b0 y' y * true_r Q b0 b0))))))).
      { transitivity (sum (dr A1) (fun y => sum d (fun s => sum d (fun t => sum a (fun x => sum (dr A1) (fun y' => 
        sum (dr A0) (fun k => true_l P x x * sconj (ent A0 s x k) * sconj (ent A1 t k y) * hAA d h A0 A1 s t x y') * (moved mid A pr s0 a0 b0 y' y * true_r Q b0 b0))))))).
        - rewrite (sum_swap (dr A1) d). apply sum_ext; intros s _. rewrite sum_rot. reflexivity.
        - apply sum_ext; intros y _. rewrite (sum_swap (dr A1) d). apply sum_ext; intros s _. rewrite sum_rot. reflexivity. }
      rewrite sum_swap. rewrite <- sum_mul_r. apply sum_ext; intros y' _. rewrite <- sum_mul_r. apply sum_ext; intros y _.
      rewrite <- !sum_mul_r. apply sum_ext; intros s _. rewrite <- !sum_mul_r. apply sum_ext; intros t _. rewrite <- !sum_mul_r. apply sum_ext; intros x _. ring.
  - clear - HQ. revert HQ. generalize (dr A1). induction mid as [|B mid IH]; intros n; cbn [app chain]; [exact (fun H => H)|].
    intros [H1 H2]. split; [exact H1|]. apply IH. exact H2.
  - unfold dims in *. rewrite map_app in *. cbn [map] in *. change (phys (prow A pr s0 a0 b0)) with (phys A). rewrite DQ. f_equal. rewrite !app_length. reflexivity.
  - rewrite !app_length. reflexivity.
Qed.

(** a term to the right of the site *)
Lemma ovl_l_zero (P : list (site R)) A pr s0 a0 b0 a : chain 1 P a -> dl A = a -> diag_on a (true_l P) -> (b0 < dr A)%nat ->
  (forall y, (y < dr A)%nat -> sum (phys A) (fun t => sum a (fun c => pr [s0; a0; t; c] * true_l P c c * ent A t c y)) = 0) ->
  forall mid x y b, chain (dr A) mid b -> (x < b)%nat -> (y < b)%nat -> ovl_l (P ++ prow A pr s0 a0 b0 :: mid) (P ++ A :: mid) x y = 0.
Proof.
  intros HP HA Dl Hb HG mid. induction mid as [|B mid IH] using rev_ind; intros x y b Hc Hx Hy.
  - cbn in Hc. subst b. rewrite (ovl_l_snoc P P (prow A pr s0 a0 b0) A a x y); try assumption; try reflexivity.
    transitivity (dlt b0 x * sum (phys A) (fun t => sum a (fun c => pr [s0; a0; t; c] * true_l P c c * ent A t c y))); [|rewrite HG by assumption; ring].
    cbn [prow phys ent]. rewrite <- sum_mul_l. apply sum_ext; intros t _. rewrite <- sum_mul_l. apply sum_ext; intros c Hc.
    rewrite (sum_diag a c); [|exact Hc|]. { rewrite ovl_l_same, conj_mul, conj_conj, dlt_conj. ring. }
    intros j Hj Hne. rewrite ovl_l_same, (Dl c j) by auto. ring.
  - apply chain_app_last in Hc. destruct Hc as (c & Hc & HB1 & HB2).
    assert (HC : forall X, dl X = a -> dr X = dr A -> chain 1 (P ++ X :: mid) c) by (intros X H1 H2; apply chain_app; exists a; split; [exact HP|]; split; [exact H1|]; rewrite H2; exact Hc).
    change (P ++ prow A pr s0 a0 b0 :: mid ++ [B]) with (P ++ (prow A pr s0 a0 b0 :: mid) ++ [B]). change (P ++ A :: mid ++ [B]) with (P ++ (A :: mid) ++ [B]). rewrite !app_assoc.
    rewrite (ovl_l_snoc (P ++ prow A pr s0 a0 b0 :: mid) (P ++ A :: mid) B B c x y); try assumption.
    + apply sum_zero; intros s _. apply sum_zero; intros i Hi. apply sum_zero; intros j Hj. rewrite (IH i j c Hc Hi Hj). ring.
    + apply HC; [exact HA|reflexivity].
    + apply HC; [exact HA|reflexivity].
    + rewrite !app_length. reflexivity.
    + rewrite HB2. exact Hx.
    + rewrite HB2. exact Hy.
Qed.

Lemma term_right d (P mid Q : list (site R)) A B B1 a b h pr s0 a0 b0 : chain 1 P a -> dl A = a -> chain (dr A) mid b -> chain b [B; B1] (dr B1) -> chain (dr B1) Q 1 ->
  dims (P ++ A :: mid) = repeat d (length (P ++ A :: mid)) -> dims Q = repeat d (length Q) -> diag_on a (true_l P) -> (b0 < dr A)%nat ->
  (forall y, (y < dr A)%nat -> sum (phys A) (fun t => sum a (fun c => pr [s0; a0; t; c] * true_l P c c * ent A t c y)) = 0) ->
  term_elem d (P ++ prow A pr s0 a0 b0 :: mid ++ B :: B1 :: Q) (P ++ A :: mid ++ B :: B1 :: Q) (length (P ++ A :: mid)) h = 0.
Proof.
  intros HP HA Hm HB HQ DP DQ Dl Hb HG.
  replace (length (P ++ A :: mid)) with (length (P ++ prow A pr s0 a0 b0 :: mid)) by (rewrite !app_length; reflexivity).
  change (P ++ ?X :: mid ++ B :: B1 :: Q) with (P ++ (X :: mid) ++ B :: B1 :: Q). change (P ++ A :: mid ++ B :: B1 :: Q) with (P ++ (A :: mid) ++ B :: B1 :: Q). rewrite !app_assoc.
  assert (HC : forall X, dl X = a -> dr X = dr A -> chain 1 (P ++ X :: mid) b) by (intros X H1 H2; apply chain_app; exists a; split; [exact HP|]; split; [exact H1|]; rewrite H2; exact Hm).
  rewrite (term_split d (P ++ prow A pr s0 a0 b0 :: mid) Q (P ++ A :: mid) Q B B1 B B1 b (dr B1) h); try assumption; try reflexivity.
  - apply sum_zero; intros s _. apply sum_zero; intros t _. apply sum_zero; intros x Hx. apply sum_zero; intros y _. apply sum_zero; intros x' Hx'. apply sum_zero; intros y' _.
    rewrite (ovl_l_zero P A pr s0 a0 b0 a HP HA Dl Hb HG mid x x' b Hm Hx Hx'). ring.
  - apply HC; [exact HA|reflexivity].
  - apply HC; [exact HA|reflexivity].
  - unfold dims in *. rewrite map_app in *. cbn [map] in *. change (phys (prow A pr s0 a0 b0)) with (phys A). rewrite DP. f_equal. rewrite !app_length. reflexivity.
  - rewrite !app_length. reflexivity.
Qed.
End Tdvp.
