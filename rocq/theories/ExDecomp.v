(** Executable library calls for the matrix helpers, over the Gaussian rationals:
    candidates that are checked before they are returned.  No counterpart in /repo. *)
From Coq Require Import QArith Qcanon.
From Verif Require Import Alg QScalars ModelMPS SpecMPS ModelOrth SpecOrth Oracle ModelCanon SpecCanon Oracle2 ExOrth
  ExEnergy ModelDecomp SpecDecomp ProofDecomp ProofDecomp2 ProofDecomp3.
Local Open Scope nat_scope.
Local Open Scope sr_scope.

(** Order and sign. *)
Definition nonnegQ (x : Qi) : Prop := snd x = 0%Qc /\ (0 <= fst x)%Qc.
Definition sgnQ (x : Qi) : Qi :=
  match Qccompare (fst x) 0%Qc with Lt => qi (-1) 0 | Eq => qi 0 0 | Gt => qi 1 0 end.

Lemma Qc_le_square (a b : Qc) : (0 <= a)%Qc -> (0 <= b)%Qc -> (a * a = b * b)%Qc -> a = b.
Proof.
  intros Ha Hb E. assert (H : ((a - b) * (a + b) = 0)%Qc) by (transitivity (a * a - b * b)%Qc; [ring|rewrite E; ring]).
  destruct (Qcmult_integral _ _ H) as [H1|H1].
  - transitivity (a - b + b)%Qc; [ring|rewrite H1; ring].
  - assert (Hab : (a = - b)%Qc) by (transitivity (a + b - b)%Qc; [ring|rewrite H1; ring]).
    assert (Hb0 : (b <= 0)%Qc).
    { rewrite Hab in Ha. apply Qcopp_le_compat in Ha. replace (- - b)%Qc with b in Ha by ring. replace (- 0)%Qc with 0%Qc in Ha by ring. exact Ha. }
    assert (b = 0%Qc) by (apply Qcle_antisym; assumption). subst b. rewrite Hab. ring.
Qed.

Lemma order_Q : order_ok nonnegQ.
Proof.
  intros [a a'] [b b'] [H1 H2] [H3 H4] E. cbn [fst snd] in *. subst a' b'. assert (E1 : (a * a - 0 * 0 = b * b - 0 * 0)%Qc) by exact (f_equal fst E).
  f_equal. apply Qc_le_square; [assumption|assumption|].
  transitivity (a * a - 0 * 0)%Qc; [ring|]. rewrite E1. ring.
Qed.

Lemma sgn_Q : sgn_ok nonnegQ sgnQ.
Proof.
  split; [reflexivity|]. intros [a b] H. assert (Hb : b = 0%Qc) by (apply Qcdouble; exact (f_equal snd H)). subst b.
  unfold sgnQ. cbn [fst snd]. destruct (Qccompare a 0%Qc) eqn:E.
  - apply Qceq_alt in E. subst a. split; [reflexivity|]. split; [split; [reflexivity|apply Qcle_refl]|]. intros Hne. now exfalso.
  - split; [apply Qi_eqb_eq; vm_compute; reflexivity|]. split; [|intros _; apply Qi_eqb_eq; vm_compute; reflexivity].
    apply Qclt_alt in E. split; cbn.
    + unfold Q2Qc. change (Qred (-1)) with (-1)%Q. change (Qred 0) with 0%Q. change {| this := 0; canon := Qred_involutive 0 |} with 0%Qc. ring.
    + change (Q2Qc 0) with 0%Qc. change (Q2Qc (-1)) with (- (1))%Qc. replace (- (1) * a - 0 * 0)%Qc with (- a)%Qc by ring.
      apply Qclt_le_weak in E. apply Qcopp_le_compat in E. replace (- 0)%Qc with 0%Qc in E by ring. exact E.
  - split; [apply Qi_eqb_eq; vm_compute; reflexivity|]. split; [|intros _; apply Qi_eqb_eq; vm_compute; reflexivity].
    apply Qcgt_alt in E. split; cbn.
    + change (Q2Qc 0) with 0%Qc. change (Q2Qc 1) with 1%Qc. ring.
    + change (Q2Qc 0) with 0%Qc. change (Q2Qc 1) with 1%Qc. replace (1 * a - 0 * 0)%Qc with a by ring. now apply Qclt_le_weak.
Qed.

Lemma char0_Q : char0 Qi.
Proof.
  intros n m E. rewrite !sofnat_Qi in E. apply (f_equal fst) in E. cbn [fst] in E.
  assert (E' : inject_Z (Z.of_nat n) == inject_Z (Z.of_nat m)).
  { rewrite <- (Qred_correct (inject_Z (Z.of_nat n))), <- (Qred_correct (inject_Z (Z.of_nat m))).
    change (this (Q2Qc (inject_Z (Z.of_nat n))) == this (Q2Qc (inject_Z (Z.of_nat m)))). rewrite E. reflexivity. }
  unfold Qeq in E'. cbn in E'. lia.
Qed.

(** Boolean contracts. *)
Definition prod_b (M A B : mat Qi) : bool :=
  Nat.eqb (mc A) (mr B) && Nat.eqb (mr M) (mr A) && Nat.eqb (mc M) (mc B) &&
  ball (mr M) (fun i => ball (mc M) (fun j => Qi_eqb (me M i j) (sum (mc A) (fun k => smul (me A i k) (me B k j))))).
Definition ocols_b (Q : mat Qi) : bool :=
  ball (mc Q) (fun i => ball (mc Q) (fun j => Qi_eqb (sum (mr Q) (fun k => smul (sconj (me Q k i)) (me Q k j))) (dlt i j))).
Definition orows_b (Q : mat Qi) : bool :=
  ball (mr Q) (fun i => ball (mr Q) (fun j => Qi_eqb (sum (mc Q) (fun k => smul (me Q i k) (sconj (me Q j k)))) (dlt i j))).
Definition real_b (x : Qi) : bool := Qi_eqb (sconj x) x.

Definition qrt_b (A q r : mat Qi) : bool :=
  Nat.eqb (mc q) (Nat.min (mr A) (mc A)) && prod_b A q r && ocols_b q &&
  ball (mr r) (fun i => ball i (fun j => Qi_eqb (me r i j) s0)) && ball (mr r) (fun i => real_b (me r i i)).
Definition rqt_b (A r q : mat Qi) : bool :=
  Nat.eqb (mr q) (Nat.min (mr A) (mc A)) && prod_b A r q && orows_b q &&
  ball (mr r) (fun i => ball (mc r) (fun j => if Nat.ltb (j + (mr r - mc r)) i then Qi_eqb (me r i j) s0 else true)) &&
  ball (mc r) (fun i => real_b (me r (i + (mr r - mc r))%nat i)).
Definition qrf_b (A Q r : mat Qi) : bool :=
  Nat.eqb (mr Q) (mr A) && Nat.eqb (mc Q) (mr A) && ocols_b Q && orows_b Q && prod_b A Q r &&
  ball (mr r) (fun i => ball i (fun j => if Nat.ltb j (mc r) then Qi_eqb (me r i j) s0 else true)).
(** kernel: 1 - N N^dagger = B A shows that nothing is missing *)
Definition ker_b (A N B : mat Qi) : bool :=
  Nat.eqb (mr N) (mc A) && ocols_b N &&
  ball (mr A) (fun i => ball (mc N) (fun k => Qi_eqb (sum (mc A) (fun j => smul (me A i j) (me N j k))) s0)) &&
  ball (mc A) (fun x => ball (mc A) (fun y => Qi_eqb (dlt x y)
    (sadd (sum (mc N) (fun k => smul (me N x k) (sconj (me N y k)))) (sum (mr A) (fun i => smul (me B x i) (me A i y)))))).
Definition nrmm_b (A : mat Qi) (n ninv : Qi) : bool :=
  real_b n && Qi_eqb (smul n ninv) s1 &&
  Qi_eqb (smul n n) (sum (mr A) (fun i => sum (mc A) (fun j => smul (me A i j) (sconj (me A i j))))).

Definition divQ (x y : Qi) : option Qi :=
  let n := (fst y * fst y + snd y * snd y)%Qc in
  let z := smul (smul x (sconj y)) ((/ n)%Qc, 0%Qc) in
  if Qi_eqb (smul z y) x then Some z else None.

Definition decQ (qrs rqs qrfs nulls : list (mat Qi * mat Qi)) (ns : list (Qi * Qi)) (roots : list Qi) : decomp Qi :=
  {| de_qr := fun A => find (fun c => qrt_b A (fst c) (snd c)) qrs;
     de_rq := fun A => find (fun c => rqt_b A (fst c) (snd c)) rqs;
     de_qrf := fun A => find (fun c => qrf_b A (fst c) (snd c)) qrfs;
     de_sgn := sgnQ;
     de_null := fun A => option_map fst (find (fun c => ker_b A (fst c) (snd c)) nulls);
     de_nrm := fun A => find (fun c => nrmm_b A (fst c) (snd c)) ns;
     de_quot := divQ;
     de_sqrt := fun x => find (fun w => Qi_eqb (smul w w) x) roots |}.

Lemma prod_b_sound M A B : prod_b M A B = true -> is_prod M A B.
Proof.
  unfold prod_b. intros H. ands. repeat match goal with H : Nat.eqb _ _ = true |- _ => apply Nat.eqb_eq in H end.
  split; [assumption|]. split; [assumption|]. split; [assumption|]. intros i j Hi Hj.
  apply Qi_eqb_eq. apply (ball_sound _ _ (ball_sound _ _ H0 i Hi) j Hj).
Qed.
Lemma ocols_b_sound Q : ocols_b Q = true -> orth_cols Q.
Proof. intros H i j Hi Hj. apply Qi_eqb_eq. apply (ball_sound _ _ (ball_sound _ _ H i Hi) j Hj). Qed.
Lemma orows_b_sound Q : orows_b Q = true -> orth_rows Q.
Proof. intros H i j Hi Hj. apply Qi_eqb_eq. apply (ball_sound _ _ (ball_sound _ _ H i Hi) j Hj). Qed.
Lemma qrt_b_sound A q r : qrt_b A q r = true -> qr_tri A q r.
Proof.
  unfold qrt_b. intros H. ands. apply Nat.eqb_eq in H. split; [exact H|]. split; [now apply prod_b_sound|]. split; [now apply ocols_b_sound|].
  split; [intros i j Hij Hi; apply Qi_eqb_eq, (ball_sound _ _ (ball_sound _ _ H1 i Hi) j Hij)|].
  intros i Hi. apply Qi_eqb_eq, (ball_sound _ _ H0 i Hi).
Qed.
Lemma rqt_b_sound A r q : rqt_b A r q = true -> rq_tri A r q.
Proof.
  unfold rqt_b. intros H. ands. apply Nat.eqb_eq in H. split; [exact H|]. split; [now apply prod_b_sound|]. split; [now apply orows_b_sound|].
  split.
  - intros i j Hj Hi Hij. pose proof (ball_sound _ _ (ball_sound _ _ H1 i Hi) j Hj) as G. cbn beta in G.
    destruct (Nat.ltb_spec (j + (mr r - mc r)) i); [now apply Qi_eqb_eq|lia].
  - intros i Hi. apply Qi_eqb_eq, (ball_sound _ _ H0 i Hi).
Qed.
Section Cert.
Context {R : sring}.
Add Ring Rr : (s_th R).
Lemma kernel_cert (A N B : mat R) :
  (forall x y, x < mc A -> y < mc A -> dlt x y = sum (mc N) (fun k => me N x k * sconj (me N y k)) + sum (mr A) (fun i => me B x i * me A i y)) ->
  forall w : nat -> R, (forall i, i < mr A -> sum (mc A) (fun j => me A i j * w j) = 0) ->
  forall j, j < mc A -> w j = sum (mc N) (fun k => me N j k * sum (mc A) (fun l => sconj (me N l k) * w l)).
Proof.
  intros H0 w Hw x Hx. transitivity (sum (mc A) (fun y => dlt x y * w y)).
  { rewrite (sum_single _ x) by (try lia; intros z Hz Hne; rewrite dlt_neq by congruence; ring). rewrite dlt_eq. ring. }
  rewrite (sum_ext _ _ (fun y => sum (mc N) (fun k => me N x k * (sconj (me N y k) * w y)) + sum (mr A) (fun i => me B x i * (me A i y * w y)))).
  2:{ intros y Hy. rewrite H0 by assumption.
      match goal with |- (?a + ?b) * ?c = _ => transitivity (a * c + b * c); [ring|] end. f_equal; rewrite <- sum_mul_r; apply sum_ext; intros; ring. }
  rewrite sum_add, sum_swap, (sum_swap _ (mr A)).
  rewrite (sum_zero (mr A)).
  2:{ intros i Hi. rewrite sum_mul_l, Hw by exact Hi. ring. }
  transitivity (sum (mc N) (fun i => sum (mc A) (fun j => me N x i * (sconj (me N j i) * w j)))); [ring|]. apply sum_ext. intros k _. apply sum_mul_l.
Qed.
End Cert.

Lemma ker_b_sound A N B : ker_b A N B = true -> is_kernel A N.
Proof.
  unfold ker_b. intros H. ands. apply Nat.eqb_eq in H. split; [exact H|]. split; [now apply ocols_b_sound|].
  split; [intros i k Hi Hk; apply Qi_eqb_eq, (ball_sound _ _ (ball_sound _ _ H1 i Hi) k Hk)|].
  apply (kernel_cert A N B). intros x y Hx Hy. apply Qi_eqb_eq. exact (ball_sound _ _ (ball_sound _ _ H0 x Hx) y Hy).
Qed.

Lemma decQ_ok qrs rqs qrfs nulls ns roots : decomp_ok nonnegQ (decQ qrs rqs qrfs nulls ns roots).
Proof.
  unfold decomp_ok, decQ. cbn.
  split; [intros A q r H; apply find_some in H as [_ H]; now apply qrt_b_sound|].
  split; [intros A q r H; apply find_some in H as [_ H]; now apply rqt_b_sound|].
  split.
  { intros A Q r H. apply find_some in H as [_ H]. cbn [fst snd] in H. unfold qrf_b in H. ands. apply Nat.eqb_eq in H, H4.
    split; [split; [exact H|split; [exact H4|split; [now apply ocols_b_sound|now apply orows_b_sound]]]|].
    split; [now apply prod_b_sound|]. intros i j Hij Hi Hj. pose proof (ball_sound _ _ (ball_sound _ _ H0 i Hi) j Hij) as G. cbn beta in G.
    apply Nat.ltb_lt in Hj. rewrite Hj in G. now apply Qi_eqb_eq. }
  split; [exact sgn_Q|].
  split.
  { intros A N H. destruct (find _ nulls) as [[N' B]|] eqn:E; [|discriminate]. injection H as <-. apply find_some in E as [_ E]. exact (ker_b_sound _ _ _ E). }
  split.
  { intros A n ninv H. apply find_some in H as [_ H]. cbn [fst snd] in H. unfold nrmm_b in H. ands. repeat split; now apply Qi_eqb_eq. }
  split.
  { intros x y z H. unfold divQ in H. destruct (Qi_eqb _ x) eqn:E; [|discriminate]. injection H as <-. now apply Qi_eqb_eq. }
  intros x w H. apply find_some in H as [_ H]. now apply Qi_eqb_eq.
Qed.

(** Runs whose factors do not multiply to A at (i, j). *)
Definition not_prod_b (e : res (mat Qi * mat Qi)) (A : mat Qi) (i j : nat) : bool :=
  match e with
  | Ok (q, r) => negb (Qi_eqb (me A i j) (sum (mc q) (fun k => smul (me q i k) (me r k j))))
  | Err _ => false end.
Lemma not_prod_run e (P : Prop) A i j : P -> i < mr A -> j < mc A -> not_prod_b e A i j = true ->
  exists q r, P /\ e = Ok (q, r) /\ ~ is_prod A q r.
Proof.
  intros HP Hi Hj H. destruct e as [[q r]|]; [|discriminate]. exists q, r. split; [exact HP|]. split; [reflexivity|].
  intros (_ & _ & _ & G). specialize (G i j Hi Hj). unfold not_prod_b in H. rewrite <- G in H.
  rewrite (Qi_eqb_refl (me A i j)) in H. discriminate.
Qed.
Definition size_b (e : res (mat Qi)) (n : nat) : bool := match e with Ok U => Nat.eqb (mr U) n | Err _ => false end.
Lemma size_run e n : size_b e n = true -> exists U, e = Ok U /\ mr U = n.
Proof. destruct e as [U|]; [|discriminate]. cbn. intros H. apply Nat.eqb_eq in H. eauto. Qed.
