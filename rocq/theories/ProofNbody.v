(** N_body_spins, N_body_paulis and N_body_ladders (spin.py:256-284). *)
From Coq Require Import ZArith.
From Verif Require Import Alg ModelMPS SpecMPS ModelNcon ModelEk ModelTensor SpecTensor ModelDecomp ModelSpin SpecSpin ProofSpin ProofSpin2
  ModelLie SpecLie ProofLie3 ProofNcon ProofTensor ProofEk4 ProofTrace ProofTrace2.

Section Proof.
Context {R : sring} (C : consts R) (ilog : nat -> nat -> option nat).
Local Open Scope sr_scope.
Add Ring Rr : (s_th R).
Notation body op k n := (n_body ilog op (Z.of_nat (k + 1)) n None).

Lemma position_inj ds s t : incfg ds s -> incfg ds t -> position ds s = position ds t -> s = t.
Proof.
  intros Hs Ht E. rewrite !position_ravel in E by (eapply incfg_length; eassumption).
  destruct (unravel_ravel ds s Hs) as [<- _]. destruct (unravel_ravel ds t Ht) as [<- _]. now rewrite E.
Qed.
Lemma nlist_eqb_eq a : forall b, nlist_eqb a b = true -> a = b.
Proof.
  induction a as [|x a IH]; intros [|y b]; cbn; try discriminate; [reflexivity|]. intros H. apply andb_prop in H as [H1 H2].
  apply Nat.eqb_eq in H1. f_equal; auto.
Qed.
Lemma app_inv_len {A} (a a' b b' : list A) : length a = length a' -> a ++ b = a' ++ b' -> a = a' /\ b = b'.
Proof.
  revert a'. induction a as [|x a IH]; intros [|y a'] H E; try discriminate; [auto|]. cbn in E. injection E as -> E.
  destruct (IH a' (f_equal Nat.pred H) E) as [-> ->]. auto.
Qed.

(** ** The map from op to its N-body version *)

Lemma in_place d n k s : (k < n)%nat -> incfg (repeat d n) s -> (nth k s 0%nat < d)%nat.
Proof.
  revert k s. induction n as [|n IH]; intros k s Hk Hs; [lia|]. destruct s as [|x s]; [inversion Hs|]. apply incfg_cons in Hs as [Hx Hs].
  destruct k as [|k]; [exact Hx|]. exact (IH k s ltac:(lia) Hs).
Qed.

Lemma acts_op d n k (op op' M : mat R) : (k < n)%nat -> sq d op -> mat_eq op op' -> acts_at (repeat d n) k op M -> acts_at (repeat d n) k op' M.
Proof.
  intros Hk (Q1 & Q2) (_ & _ & E) (A1 & A2 & A3). split; [exact A1|]. split; [exact A2|]. intros s t Hs Ht. rewrite A3 by assumption.
  destruct (agree_off k s t); [|reflexivity]. apply E; [rewrite Q1|rewrite Q2]; eapply in_place; eassumption.
Qed.
Lemma acts_plus ds k (A B MA MB : mat R) : acts_at ds k A MA -> acts_at ds k B MB -> acts_at ds k (mplus A B) (mplus MA MB).
Proof.
  intros (A1 & A2 & A3) (B1 & B2 & B3). split; [exact A1|]. split; [exact A2|]. intros s t Hs Ht. cbn [mplus me]. rewrite A3, B3 by assumption.
  destruct (agree_off k s t); ring.
Qed.
Lemma acts_minus ds k (A B MA MB : mat R) : acts_at ds k A MA -> acts_at ds k B MB -> acts_at ds k (mminus A B) (mminus MA MB).
Proof.
  intros (A1 & A2 & A3) (B1 & B2 & B3). split; [exact A1|]. split; [exact A2|]. intros s t Hs Ht. cbn [mminus me]. rewrite A3, B3 by assumption.
  destruct (agree_off k s t); ring.
Qed.
Lemma acts_scale ds k c (A MA : mat R) : acts_at ds k A MA -> acts_at ds k (mscale c A) (mscale c MA).
Proof.
  intros (A1 & A2 & A3). split; [exact A1|]. split; [exact A2|]. intros s t Hs Ht. cbn [mscale me]. rewrite A3 by assumption.
  destruct (agree_off k s t); ring.
Qed.
Lemma agree_off_sym k s t : agree_off k s t = agree_off k t s.
Proof.
  unfold agree_off. generalize (firstn k s ++ skipn (S k) s), (firstn k t ++ skipn (S k) t). clear.
  induction l as [|x l IH]; intros [|y m]; cbn; try reflexivity. rewrite (Nat.eqb_sym x y). now rewrite IH.
Qed.
Lemma acts_adj ds k (A MA : mat R) : acts_at ds k A MA -> acts_at ds k (madj A) (madj MA).
Proof.
  intros (A1 & A2 & A3). split; [exact A2|]. split; [exact A1|]. intros s t Hs Ht. cbn [madj me]. rewrite A3 by assumption.
  rewrite (agree_off_sym k t s). destruct (agree_off k s t); [reflexivity|apply conj_0].
Qed.
Lemma acts_one d n k (M : mat R) : (k < n)%nat -> acts_at (repeat d n) k (mone d) M -> mat_eq M (mone (d ^ n)).
Proof.
  intros Hk H. assert (P : fold_right Nat.mul 1%nat (repeat d n) = (d ^ n)%nat).
  { clear. induction n as [|n IH]; [reflexivity|]. cbn [repeat fold_right Nat.pow]. now rewrite IH. }
  destruct H as (A1 & A2 & A3). rewrite P in A1, A2. split; [exact A1|]. split; [exact A2|]. intros i j Hi Hj. rewrite A1 in Hi. rewrite A2 in Hj.
  rewrite <- P in Hi, Hj.
  destruct (position_onto _ i Hi) as (s & Hs & <-). destruct (position_onto _ j Hj) as (t & Ht & <-). rewrite A3 by assumption. cbn [mone me].
  assert (Ls := incfg_length _ _ Hs). assert (Lt := incfg_length _ _ Ht). rewrite repeat_length in Ls, Lt.
  destruct (agree_off k s t) eqn:E.
  - unfold agree_off in E. apply nlist_eqb_eq in E.
    assert (L1 : length (firstn k s) = length (firstn k t)) by (rewrite !firstn_length; lia).
    apply app_inv_len in E as [E1 E2]; [|exact L1].
    destruct (Nat.eq_dec (nth k s 0%nat) (nth k t 0%nat)) as [Q|Q].
    + rewrite Q, dlt_eq. assert (s = t) as ->.
      { rewrite (split_at k s 0%nat) by lia. rewrite (split_at k t 0%nat) by lia. congruence. }
      now rewrite dlt_eq.
    + rewrite dlt_neq by exact Q. rewrite dlt_neq; [reflexivity|]. intros F. apply position_inj in F; [congruence| |]; assumption.
  - rewrite dlt_neq; [reflexivity|]. intros F. apply position_inj in F; [|assumption|assumption]. subst t. unfold agree_off in E.
    assert (T : forall l, nlist_eqb l l = true) by (clear; induction l as [|x l IH]; cbn; [reflexivity|rewrite Nat.eqb_refl; exact IH]).
    rewrite T in E. discriminate.
Qed.

Lemma body_run d (op : mat R) k n : sq d op -> (k < n)%nat -> exists M, body op k n = Ok M /\ acts_at (repeat d n) k op M.
Proof. intros (Q1 & Q2) Hk. rewrite <- Q1. apply n_body_acts; [congruence|exact Hk]. Qed.

Lemma acts_mul d n k (A B MA MB : mat R) : sq d A -> sq d B -> (k < n)%nat ->
  acts_at (repeat d n) k A MA -> acts_at (repeat d n) k B MB -> acts_at (repeat d n) k (mmul A B) (mmul MA MB).
Proof.
  intros HA HB Hk H1 H2. assert (QA := HA). assert (QB := HB). destruct HA as (A1 & A2), HB as (B1 & B2).
  destruct (n_body_multiply ilog A B k n) as (MA' & MB' & P & EA & EB & EP & HP); try congruence.
  destruct (body_run d A k n QA Hk) as (M1 & F1 & G1). rewrite F1 in EA. injection EA as <-.
  destruct (body_run d B k n QB Hk) as (M2 & F2 & G2). rewrite F2 in EB. injection EB as <-.
  destruct (body_run d (mmul A B) k n (conj A1 B2) Hk) as (M3 & F3 & G3). rewrite F3 in EP. injection EP as <-.
  eapply acts_eq; [|exact G3]. apply mat_eq_sym. eapply mat_eq_trans; [|exact HP]. apply mmul_eq.
  - destruct H1 as (_ & X & _), H2 as (Y & _). congruence.
  - eapply acts_unique; eassumption.
  - eapply acts_unique; eassumption.
Qed.

Lemma triple_body d n k c (x y z X Y Z : mat R) : (k < n)%nat -> sq d x -> sq d y -> sq d z ->
  acts_at (repeat d n) k x X -> acts_at (repeat d n) k y Y -> acts_at (repeat d n) k z Z -> triple c x y z -> triple c X Y Z.
Proof.
  intros Hk Qx Qy Qz Hx Hy Hz (T1 & T2 & T3).
  assert (G : forall a b e A B E, sq d a -> sq d b -> acts_at (repeat d n) k a A -> acts_at (repeat d n) k b B -> acts_at (repeat d n) k e E ->
    mat_eq (mcomm a b) (mscale c e) -> mat_eq (mcomm A B) (mscale c E)).
  { intros a b e A B E Qa Qb Ha Hb He T. eapply acts_unique; [|apply acts_scale; exact He].
    eapply acts_op; [exact Hk| |exact T|]. { destruct Qa, Qb. split; assumption. }
    apply acts_minus; apply (acts_mul d); assumption. }
  split; [exact (G _ _ _ _ _ _ Qx Qy Hx Hy Hz T1)|]. split; [exact (G _ _ _ _ _ _ Qy Qz Hy Hz Hx T2)|exact (G _ _ _ _ _ _ Qz Qx Hz Hx Hy T3)].
Qed.

(** ** Products of library matrices *)

Lemma comm_run n (A B : mat R) : sq n A -> sq n B -> comm A B = Ok (mcomm A B).
Proof.
  intros (A1 & A2) (B1 & B2). unfold comm, mprod. rewrite A2, B1, B2, A1, !Nat.eqb_refl. cbn [bind]. unfold msub. cbn [mr mc].
  rewrite ?A1, ?A2, ?B1, ?B2, ?Nat.eqb_refl. cbn [andb]. unfold mcomm, mminus, mmul. rewrite ?A1, ?A2, ?B1, ?B2. reflexivity.
Qed.
Lemma acomm_run n (A B : mat R) : sq n A -> sq n B -> acomm A B = Ok (mplus (mmul A B) (mmul B A)).
Proof.
  intros (A1 & A2) (B1 & B2). unfold acomm, mprod. rewrite A2, B1, B2, A1, !Nat.eqb_refl. cbn [bind]. unfold madd. cbn [mr mc].
  rewrite ?A1, ?A2, ?B1, ?B2, ?Nat.eqb_refl. cbn [andb]. unfold mplus, mmul. rewrite ?A1, ?A2, ?B1, ?B2. reflexivity.
Qed.

Lemma acts_sq d n k (A M : mat R) : acts_at (repeat d n) k A M -> sq (d ^ n) M.
Proof.
  assert (P : fold_right Nat.mul 1%nat (repeat d n) = (d ^ n)%nat).
  { clear. induction n as [|n IH]; [reflexivity|]. cbn [repeat fold_right Nat.pow]. now rewrite IH. }
  intros (A1 & A2 & _). rewrite P in A1, A2. split; assumption.
Qed.

Lemma herm_body d n k (A M : mat R) : (k < n)%nat -> sq d A -> acts_at (repeat d n) k A M -> mat_eq (madj A) A -> mat_eq (madj M) M.
Proof.
  intros Hk (Q1 & Q2) H E. eapply acts_unique; [|exact H]. eapply acts_op; [exact Hk| |exact E|apply acts_adj; exact H]. split; assumption.
Qed.

Theorem body_spins j k n x y z : consts_ok C (spin_roots j) -> spins C j = (x, y, z) -> (k < n)%nat ->
  exists X Y Z, N_body_spins C ilog j (Z.of_nat (k + 1)) n = Ok [X; Y; Z] /\
    acts_at (repeat (S j) n) k x X /\ acts_at (repeat (S j) n) k y Y /\ acts_at (repeat (S j) n) k z Z /\
    mat_eq (madj X) X /\ mat_eq (madj Y) Y /\ mat_eq (madj Z) Z /\ triple (c_im C) X Y Z.
Proof.
  intros HC E Hk. unfold spins in E. injection E as <- <- <-.
  assert (Qx : sq (S j) (Sx C j)) by (split; reflexivity). assert (Qy : sq (S j) (Sy C j)) by (split; reflexivity).
  assert (Qz : sq (S j) (Sz C j)) by (split; reflexivity).
  destruct (body_run (S j) _ k n Qx Hk) as (X & EX & HX). destruct (body_run (S j) _ k n Qy Hk) as (Y & EY & HY).
  destruct (body_run (S j) _ k n Qz Hk) as (Z & EZ & HZ). exists X, Y, Z.
  unfold N_body_spins. cbn [mapM]. rewrite EX, EY, EZ. cbn [bind].
  split; [reflexivity|]. split; [exact HX|]. split; [exact HY|]. split; [exact HZ|].
  split; [exact (herm_body _ _ _ _ _ Hk Qx HX (Sx_herm C j HC))|]. split; [exact (herm_body _ _ _ _ _ Hk Qy HY (Sy_herm C j HC))|].
  split; [exact (herm_body _ _ _ _ _ Hk Qz HZ (Sz_herm C j HC))|].
  apply (triple_body (S j) n k _ _ _ _ X Y Z Hk Qx Qy Qz HX HY HZ). split; [exact (comm_xy C j HC)|]. split; [exact (comm_yz C j)|exact (comm_zx C j HC)].
Qed.

(** ** Pauli matrices *)

Lemma pauli_square : consts_ok C (fun _ => False) -> c_sqrt C 1 = 1 ->
  let P := [twice (Sx C 1); twice (Sy C 1); twice (Sz C 1)] in
  forall a b, (a < 3)%nat -> (b < 3)%nat ->
  mat_eq (mplus (mmul (nth a P (mone 0)) (nth b P (mone 0))) (mmul (nth b P (mone 0)) (nth a P (mone 0))))
         (mscale ((1 + 1) * dlt a b) (mone 2)).
Proof.
  intros HC H1 P. destruct (pauli_entries C HC H1) as (Ex & Ey & Ez). assert (HI := HC). destruct HI as (_ & _ & HI & _).
  set (L := [lit 2 2 [0; 1; 1; 0]; lit 2 2 [0; - c_im C; c_im C; 0]; lit 2 2 [1; 0; 0; - (1)]] : list (mat R)).
  assert (G : forall a, (a < 3)%nat -> mat_eq (nth a P (mone 0)) (nth a L (mone 0)) /\ mr (nth a P (mone 0)) = 2%nat /\ mc (nth a P (mone 0)) = 2%nat).
  { intros a Ha. destruct a as [|[|[|a]]]; [| | |lia]; cbn [nth P L]; split; auto; split; reflexivity. }
  intros a b Ha Hb. destruct (G a Ha) as (Ga & Ra & Ca), (G b Hb) as (Gb & Rb & Cb).
  assert (M1 : mat_eq (mmul (nth a P (mone 0)) (nth b P (mone 0))) (mmul (nth a L (mone 0)) (nth b L (mone 0)))) by (apply mmul_eq; congruence || assumption).
  assert (M2 : mat_eq (mmul (nth b P (mone 0)) (nth a P (mone 0))) (mmul (nth b L (mone 0)) (nth a L (mone 0)))) by (apply mmul_eq; congruence || assumption).
  split; [cbn [mplus mmul mscale mone mr mc]; assumption|]. split; [cbn [mplus mmul mscale mone mr mc]; assumption|].
  intros i j Hi Hj. cbn [mplus mr mc mmul] in Hi, Hj. rewrite Ra in Hi. rewrite Cb in Hj.
  cbn [mplus me]. destruct M1 as (_ & _ & M1), M2 as (_ & _ & M2).
  rewrite M1 by (cbn [mmul mr mc]; lia). rewrite M2 by (cbn [mmul mr mc]; lia).
  clear M1 M2 Ga Gb G Ra Ca Rb Cb.
  destruct a as [|[|[|a]]]; try lia; destruct b as [|[|[|b]]]; try lia; destruct i as [|[|i]]; try lia; destruct j as [|[|j]]; try lia;
    cbn; rewrite ?sum_0; unfold dlt; cbn; ring [HI].
Qed.

Theorem body_paulis S_ k n : consts_ok C (fun _ => False) -> c_sqrt C 1 = 1 -> (k < n)%nat ->
  exists l, N_body_paulis C ilog S_ (Z.of_nat (k + 1)) n = Ok l /\ length l = 3%nat /\
    acts_at (repeat 2%nat n) k (lit 2 2 [0; 1; 1; 0]) (nth 0 l (mone 0)) /\
    acts_at (repeat 2%nat n) k (lit 2 2 [0; - c_im C; c_im C; 0]) (nth 1 l (mone 0)) /\
    acts_at (repeat 2%nat n) k (lit 2 2 [1; 0; 0; - (1)]) (nth 2 l (mone 0)) /\
    forall a b, (a < 3)%nat -> (b < 3)%nat ->
      exists A, acomm (nth a l (mone 0)) (nth b l (mone 0)) = Ok A /\ mat_eq A (mscale ((1 + 1) * dlt a b) (mone (2 ^ n))).
Proof.
  intros HC H1 Hk. assert (PS := pauli_square HC H1). destruct (pauli_entries C HC H1) as (Ex & Ey & Ez).
  set (P := [twice (Sx C 1); twice (Sy C 1); twice (Sz C 1)]) in *. cbv zeta in PS.
  assert (Q : forall a, (a < 3)%nat -> sq 2 (nth a P (mone 0))) by (intros a Ha; destruct a as [|[|[|a]]]; [| | |lia]; split; reflexivity).
  destruct (body_run 2 _ k n (Q 0%nat ltac:(lia)) Hk) as (X & EX & HX). destruct (body_run 2 _ k n (Q 1%nat ltac:(lia)) Hk) as (Y & EY & HY).
  destruct (body_run 2 _ k n (Q 2%nat ltac:(lia)) Hk) as (Z & EZ & HZ). cbn [nth P] in EX, EY, EZ, HX, HY, HZ.
  exists [X; Y; Z]. unfold N_body_paulis. cbn [mapM]. rewrite EX, EY, EZ. cbn [bind].
  split; [reflexivity|]. split; [reflexivity|]. cbn [nth].
  split; [eapply acts_op; [exact Hk| |exact Ex|exact HX]; split; reflexivity|].
  split; [eapply acts_op; [exact Hk| |exact Ey|exact HY]; split; reflexivity|].
  split; [eapply acts_op; [exact Hk| |exact Ez|exact HZ]; split; reflexivity|].
  intros a b Ha Hb.
  assert (G : forall a, (a < 3)%nat -> acts_at (repeat 2%nat n) k (nth a P (mone 0)) (nth a [X; Y; Z] (mone 0))).
  { clear a b Ha Hb. intros a Ha. destruct a as [|[|[|a]]]; [exact HX|exact HY|exact HZ|lia]. }
  exists (mplus (mmul (nth a [X; Y; Z] (mone 0)) (nth b [X; Y; Z] (mone 0))) (mmul (nth b [X; Y; Z] (mone 0)) (nth a [X; Y; Z] (mone 0)))).
  split; [apply (acomm_run (2 ^ n)); eapply acts_sq; apply G; assumption|].
  destruct (body_run 2 (mone 2) k n (conj eq_refl eq_refl) Hk) as (I & _ & HI).
  eapply mat_eq_trans.
  - eapply acts_unique; [|apply acts_scale; exact HI]. eapply acts_op; [exact Hk| |apply (PS a b Ha Hb)|].
    + destruct (Q a Ha), (Q b Hb). split; assumption.
    + apply acts_plus; apply (acts_mul 2); auto.
  - destruct (acts_one 2 n k I Hk HI) as (I1 & I2 & I3). split; [exact I1|]. split; [exact I2|]. intros i j Hi Hj. cbn [mscale me mr mc] in *. now rewrite I3.
Qed.

(** ** Ladder operators *)

Theorem body_ladders j k n x y z : consts_ok C (spin_roots j) -> c_sqrt C 1 = 1 -> c_sqrt C 4 = 1 + 1 -> (1 <= j <= 3)%nat ->
  spins C j = (x, y, z) -> (k < n)%nat ->
  exists Lm Lp X Y Z, N_body_ladders C ilog j (Z.of_nat (k + 1)) n = Ok [Lm; Lp] /\ N_body_spins C ilog j (Z.of_nat (k + 1)) n = Ok [X; Y; Z] /\
    mat_eq Lp (mplus X (mscale (c_im C) Y)) /\ mat_eq Lm (mminus X (mscale (c_im C) Y)) /\ mat_eq (madj Lp) Lm /\
    (exists P, comm Lp Lm = Ok P /\ mat_eq P (mscale (1 + 1) Z)) /\ (exists P, comm Z Lp = Ok P /\ mat_eq P Lp).
Proof.
  intros HC H1 H4 Hj E Hk. destruct (body_spins j k n x y z HC E Hk) as (X & Y & Z & EN & AX & AY & AZ & HX & HY & HZ & (T1 & T2 & T3)).
  destruct (ladders C j) as [[lm lp]|] eqn:EL.
  2: { destruct j as [|[|[|[|j]]]]; try lia; discriminate. }
  destruct (ladders_ok C j lm lp HC H1 H4 EL) as (Ep & Em). unfold spins in E. injection E as <- <- <-.
  assert (Qp : sq (S j) lp) by (destruct Ep as (? & ? & _); split; assumption).
  assert (Qm : sq (S j) lm) by (destruct Em as (? & ? & _); split; assumption).
  destruct (body_run (S j) lm k n Qm Hk) as (Lm & E1 & A1). destruct (body_run (S j) lp k n Qp Hk) as (Lp & E2 & A2).
  exists Lm, Lp, X, Y, Z. unfold N_body_ladders. rewrite EL. cbn [mapM]. rewrite E1, E2. cbn [bind].
  split; [reflexivity|]. split; [exact EN|].
  assert (Gp : mat_eq Lp (mplus X (mscale (c_im C) Y))).
  { eapply acts_unique; [|apply acts_plus; [exact AX|apply acts_scale; exact AY]]. exact (acts_op _ _ _ _ _ _ Hk Qp Ep A2). }
  assert (Gm : mat_eq Lm (mminus X (mscale (c_im C) Y))).
  { eapply acts_unique; [|apply acts_minus; [exact AX|apply acts_scale; exact AY]]. exact (acts_op _ _ _ _ _ _ Hk Qm Em A1). }
  destruct HC as (_ & _ & HI & HIc & _).
  assert (N := acts_sq _ _ _ _ _ AX). assert (NY := acts_sq _ _ _ _ _ AY). assert (NZ := acts_sq _ _ _ _ _ AZ).
  assert (Np := acts_sq _ _ _ _ _ A2). assert (Nm := acts_sq _ _ _ _ _ A1). set (D := (S j ^ n)%nat) in *.
  split; [exact Gp|]. split; [exact Gm|].
  destruct N as (N1 & N2), NY as (NY1 & NY2), NZ as (NZ1 & NZ2), Np as (Np1 & Np2), Nm as (Nm1 & Nm2).
  destruct Gp as (_ & _ & Gp), Gm as (_ & _ & Gm), HX as (_ & _ & HX), HY as (_ & _ & HY).
  destruct T1 as (_ & _ & T1), T2 as (_ & _ & T2), T3 as (_ & _ & T3).
  cbn [mplus mminus mscale madj mcomm mmul me mr mc] in *. rewrite ?N1, ?N2, ?NY1, ?NY2, ?NZ1, ?NZ2, ?Np1, ?Np2, ?Nm1, ?Nm2 in *.
  split; [|split].
  - split; [cbn [madj mr]; congruence|]. split; [cbn [madj mc]; congruence|]. cbn [madj mr mc me]. rewrite Np1, Np2. intros a b Ha Hb.
    rewrite Gp, Gm by assumption. rewrite conj_add, conj_mul, HX, HY, HIc by assumption. ring.
  - exists (mcomm Lp Lm). split; [apply (comm_run D); split; assumption|].
    split; [cbn; congruence|]. split; [cbn; congruence|]. cbn [mcomm mminus mmul mscale mr mc me]. rewrite ?Np1, ?Np2, ?Nm1, ?Nm2. intros a b Ha Hb.
    transitivity (- (1 + 1) * c_im C * (sum D (fun e => me X a e * me Y e b) - sum D (fun e => me Y a e * me X e b))).
    + rewrite <- sum_sub. rewrite <- sum_sub, <- sum_mul_l. apply sum_ext; intros e He. rewrite (Gp a e), (Gp e b), (Gm a e), (Gm e b) by assumption. ring.
    + rewrite T1 by assumption. transitivity (- (1 + 1) * (c_im C * c_im C) * me Z a b); [ring|]. rewrite HI. ring.
  - exists (mcomm Z Lp). split; [apply (comm_run D); split; assumption|].
    split; [cbn; congruence|]. split; [cbn; congruence|]. cbn [mcomm mminus mmul mr mc me]. rewrite ?NZ1, ?NZ2, ?Np1, ?Np2. intros a b Ha Hb.
    transitivity ((sum D (fun e => me Z a e * me X e b) - sum D (fun e => me X a e * me Z e b))
      - c_im C * (sum D (fun e => me Y a e * me Z e b) - sum D (fun e => me Z a e * me Y e b))).
    + rewrite <- !sum_sub. rewrite <- sum_mul_l, <- sum_sub. apply sum_ext; intros e He. rewrite (Gp a e), (Gp e b) by assumption. ring.
    + rewrite T2, T3 by assumption. rewrite (Gp a b) by assumption. transitivity (c_im C * me Y a b - (c_im C * c_im C) * me X a b); [ring|]. rewrite HI. ring.
Qed.

Lemma body_ladders_none j i n : ~ (1 <= j <= 3)%nat -> N_body_ladders C ilog j i n = Err AttributeError.
Proof. intros H. unfold N_body_ladders. now rewrite ladders_none. Qed.

(** ** Different sites *)

Lemma mapM_in {A B} (f : A -> res B) l r y : mapM f l = Ok r -> In y r -> exists x, In x l /\ f x = Ok y.
Proof.
  revert r. induction l as [|a l IH]; cbn [mapM]; intros r H Hy.
  - injection H as <-. destruct Hy.
  - destruct (f a) as [b|] eqn:E; [|discriminate]. cbn [bind] in H. destruct (mapM f l) as [bs|]; [|discriminate]. cbn [bind] in H. injection H as <-.
    destruct Hy as [<-|Hy]; [exists a; split; [now left|exact E]|]. destruct (IH bs eq_refl Hy) as (x & Hx & Ex). exists x. split; [now right|exact Ex].
Qed.

Lemma body_commute d k l n (a b : list (mat R)) la lb A B : (forall M, In M a -> sq d M) -> (forall M, In M b -> sq d M) -> (k < n)%nat -> (l < n)%nat -> k <> l ->
  mapM (fun s => body s k n) a = Ok la -> mapM (fun s => body s l n) b = Ok lb -> In A la -> In B lb ->
  exists P, comm A B = Ok P /\ mat_eq P (mkMat (d ^ n) (d ^ n) (fun _ _ => 0)).
Proof.
  intros Ha Hb Hk Hl Hkl Ea Eb HA HB. destruct (mapM_in _ _ _ _ Ea HA) as (x & Ix & Ex). destruct (mapM_in _ _ _ _ Eb HB) as (y & Iy & Ey).
  assert (Qx := Ha x Ix). assert (Qy := Hb y Iy). destruct (body_run d x k n Qx Hk) as (M1 & F1 & G1). destruct (body_run d y l n Qy Hl) as (M2 & F2 & G2).
  rewrite F1 in Ex. injection Ex as <-. rewrite F2 in Ey. injection Ey as <-.
  destruct Qx as (X1 & X2), Qy as (Y1 & Y2). destruct (n_body_commute ilog x y k l n) as (A' & B' & EA & EB & HE); try congruence.
  rewrite F1 in EA. injection EA as <-. rewrite F2 in EB. injection EB as <-.
  assert (S1 := acts_sq _ _ _ _ _ G1). assert (S2 := acts_sq _ _ _ _ _ G2). exists (mcomm M1 M2). split; [eapply comm_run; eassumption|].
  destruct S1 as (S1 & S1'), S2 as (S2 & S2'). destruct HE as (_ & _ & HE). split; [exact S1|]. split; [exact S2'|].
  intros i j Hi Hj. cbn [mcomm mminus mr mc mmul me] in *. rewrite HE by assumption. ring.
Qed.

Lemma sites_commute j k l n la lb A B : (k < n)%nat -> (l < n)%nat -> k <> l ->
  N_body_spins C ilog j (Z.of_nat (k + 1)) n = Ok la \/ N_body_ladders C ilog j (Z.of_nat (k + 1)) n = Ok la \/
    (j = 1%nat /\ N_body_paulis C ilog j (Z.of_nat (k + 1)) n = Ok la) ->
  N_body_spins C ilog j (Z.of_nat (l + 1)) n = Ok lb \/ N_body_ladders C ilog j (Z.of_nat (l + 1)) n = Ok lb \/
    (j = 1%nat /\ N_body_paulis C ilog j (Z.of_nat (l + 1)) n = Ok lb) ->
  In A la -> In B lb ->
  exists P, comm A B = Ok P /\ mat_eq P (mkMat (S j ^ n) (S j ^ n) (fun _ _ => 0)).
Proof.
  assert (G : forall i r, N_body_spins C ilog j i n = Ok r \/ N_body_ladders C ilog j i n = Ok r \/ (j = 1%nat /\ N_body_paulis C ilog j i n = Ok r) ->
    exists a, (forall M, In M a -> sq (S j) M) /\ mapM (fun s => n_body ilog s i n None) a = Ok r).
  { intros i r [H|[H|[H H']]].
    - eexists. split; [|exact H]. intros M [<-|[<-|[<-|[]]]]; split; reflexivity.
    - unfold N_body_ladders in H. destruct (ladders C j) as [[lm lp]|] eqn:E; [|discriminate]. exists [lm; lp]. split; [|exact H].
      intros M HM. unfold ladders in E. destruct j as [|[|[|[|j']]]]; try discriminate; injection E as <- <-; destruct HM as [<-|[<-|[]]]; split; reflexivity.
    - eexists. split; [|exact H']. rewrite H. intros M [<-|[<-|[<-|[]]]]; split; reflexivity. }
  intros Hk Hl Hkl H1 H2 HA HB. destruct (G _ _ H1) as (a & Ha & Ea). destruct (G _ _ H2) as (b & Hb & Eb).
  exact (body_commute _ _ _ _ _ _ _ _ _ _ Ha Hb Hk Hl Hkl Ea Eb HA HB).
Qed.
End Proof.
