(** find_ground_state. *)
From Verif Require Import Alg ModelMPS SpecMPS SpecOrth ModelStruct SpecStruct ModelDecomp SpecDecomp ModelTensor ModelOrth ModelCanon ModelTraj SpecTraj ModelImps SpecImps ProofImps6 ProofImps9 ModelItraj SpecItraj ProofItraj ModelGround SpecGround.
Local Open Scope nat_scope.

Section Proofs.
Context {R : sring}.
Local Open Scope sr_scope.
Add Ring Rr : (s_th R).

Lemma sub_cell d D (a b v : imps R) : icell d D a -> icell d D b -> imps_sub a b = Ok v -> icell d D v.
Proof.
  intros (A & Ha & A1 & A2 & A3 & _) (B & Hb & B1 & B2 & B3 & _) E. unfold imps_sub in E. rewrite Ha, Hb in E. cbn [pyzip combine mapM fst snd] in E.
  unfold site_zip in E. rewrite A1, A2, A3, B1, B2, B3, !Nat.eqb_refl in E. cbn [andb bind] in E. eapply init_cell; [exact E| | |]; cbn; congruence.
Qed.

Lemma gs_loop_ok nonneg (C : icalls R) im eps field small d D : icalls_ok nonneg C -> good_envs nonneg C d D ->
  (forall m v e, icell d D m -> field m = Ok (v, e) -> icell d D v) ->
  forall n x0 es psi es', icanon d D x0 -> gs_loop C im eps field small n x0 es = Ok (psi, es') ->
  exists xs es1, es' = es ++ es1 /\ length xs = length es1 /\ length es1 <= n /\ Forall (icanon d D) (xs ++ [psi]) /\
    nth_error (xs ++ [psi]) 0 = Some x0 /\
    (forall k x e y, nth_error (xs ++ [psi]) k = Some x -> nth_error es1 k = Some e -> nth_error (xs ++ [psi]) (S k) = Some y -> descends C im eps field small x e y) /\
    (length es1 = n \/ exists v e g, field psi = Ok (v, e) /\ imps_mul v (im * eps) = Ok g /\ small g = true).
Proof.
  intros HC HG HK. induction n as [|n IH]; intros x0 es psi es' Hx E; cbn [gs_loop] in E.
  - injection E as <- <-. exists [], []. rewrite app_nil_r. split; [reflexivity|]. split; [reflexivity|]. split; [apply Nat.le_refl|]. split; [constructor; [exact Hx|constructor]|].
    split; [reflexivity|]. split; [intros [|k] x e y; discriminate|]. now left.
  - unfold gs_grad in E. destruct (field x0) as [[v e]|] eqn:Ef; [|discriminate]. cbn [bind fst snd] in E.
    destruct (imps_mul v (im * eps)) as [g|] eqn:Eg; [|discriminate]. cbn [bind fst snd] in E. destruct (small g) eqn:Es.
    + injection E as <- <-. exists [], []. rewrite app_nil_r. split; [reflexivity|]. split; [reflexivity|]. split; [apply Nat.le_0_l|]. split; [constructor; [exact Hx|constructor]|].
      split; [reflexivity|]. split; [intros [|k] x ee y; discriminate|]. right. exists v, e, g. auto.
    + destruct (imps_sub x0 g) as [s|] eqn:E1; [|discriminate]. cbn [bind] in E. destruct (ilcan C s) as [y0|] eqn:E2; [|discriminate]. cbn [bind] in E.
      pose proof (HK x0 v e (proj1 Hx) Ef) as Hv. pose proof (mul_cell d D v g _ Hv Eg) as Hg. pose proof (sub_cell d D x0 g s (proj1 Hx) Hg E1) as Hs.
      pose proof (ilcan_ok nonneg C d D s y0 HC HG Hs E2) as Hy.
      destruct (IH y0 (es ++ [e]) psi es' Hy E) as (xs & es1 & F1 & F2 & F3 & F4 & F5 & F6 & F7).
      exists (x0 :: xs), (e :: es1). split; [rewrite F1, <- app_assoc; reflexivity|]. split; [exact (f_equal S F2)|]. split; [exact (le_n_S _ _ F3)|].
      split; [constructor; [exact Hx|exact F4]|]. split; [reflexivity|]. split.
      * intros [|k] x ee y H1 H2 H3.
        -- injection H1 as <-. injection H2 as <-. change (nth_error (xs ++ [psi]) 0 = Some y) in H3. rewrite F5 in H3. injection H3 as <-. exists v, g, s. auto.
        -- exact (F6 k x ee y H1 H2 H3).
      * destruct F7 as [F7|F7]; [left; exact (f_equal S F7)|now right].
Qed.

Lemma random_entries (im : R) a b d D p : let m := imps_random im a b d D p in length (i_data m) = p /\
  forall k A, nth_error (i_data m) k = Some A -> phys A = d /\ dl A = D /\ dr A = D /\
    forall s i j, ent A s i j = (1 + 1 + 1 + 1 + 1) * a k s i j + im * ((1 + 1 + 1 + 1 + 1) * b k s i j).
Proof.
  cbv zeta. unfold imps_random. cbn [i_data]. split; [now rewrite map_length, seq_length|]. intros k A E. rewrite nth_error_map in E.
  destruct (nth_error (seq 0 p) k) as [k'|] eqn:Ek; [|discriminate]. cbn in E. injection E as <-.
  assert (Hk : (k < p)%nat) by (rewrite <- (seq_length p 0); apply nth_error_Some; congruence).
  apply (nth_error_nth _ _ 0%nat) in Ek. rewrite seq_nth in Ek by exact Hk. cbn in Ek. subst k'. cbn [phys dl dr ent]. do 3 (split; [reflexivity|]). intros. ring.
Qed.
End Proofs.
