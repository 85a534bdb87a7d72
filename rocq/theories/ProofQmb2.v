(** The Heisenberg and Ising chains of qmb.py and projects/fMPO.py. *)
From Coq Require Import ZArith.
From Verif Require Import Alg ModelMPS SpecMPS ModelNcon ModelEk ModelTensor SpecTensor SpecEk ModelSpin SpecSpin SpecLie ProofTensor ProofTrace ProofSpin ProofSpin2 ProofEk3 ModelHam SpecHam ProofHam ProofHam2 ProofHam3
  ModelQmb SpecQmb ProofQmb.

Section P.
Context {R : sring}.
Local Open Scope sr_scope.
Add Ring Rr : (s_th R).
Variable C : consts R.
Hypothesis Hhalf : c_half C + c_half C = 1.
Hypothesis Him : c_im C * c_im C = - (1).
Let im := c_im C.

Lemma mapM_ex {A B} (f : A -> res B) (P : A -> B -> Prop) l : (forall x, In x l -> exists y, f x = Ok y /\ P x y) -> exists ys, mapM f l = Ok ys /\ Forall2 P l ys.
Proof.
  induction l as [|x l IH]; intros H; [exists []; split; [reflexivity|constructor]|]. destruct (H x (or_introl eq_refl)) as (y & E & HP).
  destruct (IH (fun z Hz => H z (or_intror Hz))) as (ys & E2 & HF). exists (y :: ys). cbn [mapM]. rewrite E. cbn [bind]. rewrite E2. split; [reflexivity|now constructor].
Qed.
Lemma suml_F2 {A B} (P : A -> B -> Prop) (g : A -> R) (h : B -> R) l l' : Forall2 P l l' -> (forall x y, P x y -> h y = g x) -> suml (map h l') = suml (map g l).
Proof. intros H Hg. induction H as [|x y l l' HP H IH]; [reflexivity|]. cbn [map suml]. rewrite (Hg _ _ HP), IH. reflexivity. Qed.

Definition qq (J : R) : R := c_half C * c_half C * J.
Lemma half_J J : J * c_half C = qq J + qq J.
Proof. unfold qq. transitivity (J * c_half C * (c_half C + c_half C)); [rewrite Hhalf; ring|ring]. Qed.

Ltac bits := repeat match goal with H : (?x < 2)%nat |- _ => is_var x; destruct x as [|[|x]]; [clear H|clear H|exfalso; lia] end.

Ltac fin := bits; cbn; unfold dlt; cbn; ring [Him].

Lemma sq_sp : sq 2 (q_sp (R := R)). Proof. split; reflexivity. Qed.
Lemma sq_sm : sq 2 (q_sm (R := R)). Proof. split; reflexivity. Qed.
Lemma sq_sz : sq 2 (q_sz (R := R)). Proof. split; reflexivity. Qed.
Lemma sq_sx : sq 2 (q_sx (R := R)). Proof. split; reflexivity. Qed.
Lemma sq_sy : sq 2 (q_sy C). Proof. split; reflexivity. Qed.

Definition bond (J Jz : R) n i s t : R :=
  J * c_half C * (string_op (placed n i [q_sp; q_sm]) s t + string_op (placed n i [q_sm; q_sp]) s t) + Jz * string_op (placed n i [q_sz; q_sz]) s t.

Lemma exchange_ok J Jz i n : (i + 1 < n)%nat -> exists M, exchange C false J Jz i n = Ok M /\ sq (Nat.pow 2 n) M /\
  forall s t, incfg (repeat 2%nat n) s -> incfg (repeat 2%nat n) t -> block_op 2 M s t = bond J Jz n i s t.
Proof.
  intros Hi. unfold exchange, o_mul. replace (Z.of_nat i + 1)%Z with (Z.of_nat (S i)) by lia.
  destruct (S_one q_sp i n sq_sp ltac:(lia)) as (p & Ep & Sp & _). destruct (S_one q_sm (S i) n sq_sm ltac:(lia)) as (m' & Em' & Sm' & _).
  destruct (S_one q_sm i n sq_sm ltac:(lia)) as (m & Em & Sm & _). destruct (S_one q_sp (S i) n sq_sp ltac:(lia)) as (p' & Ep' & Sp' & _).
  destruct (S_one q_sz i n sq_sz ltac:(lia)) as (z & Ez & Sz & _). destruct (S_one q_sz (S i) n sq_sz ltac:(lia)) as (z' & Ez' & Sz' & _).
  rewrite Ep, Em', Em, Ep', Ez, Ez'. cbn [bind]. eexists. split; [reflexivity|]. split; [split; cbn; [apply Sp|apply Sm']|].
  intros s t Is It. unfold bond.
  assert (E1 := Em'). assert (E2 := Ep'). assert (E3 := Ez'). replace (Z.of_nat (S i)) with (Z.of_nat i + 1)%Z in E1, E2, E3 by lia.
  rewrite <- (S_two _ _ i n p m' sq_sp sq_sm Hi Ep E1 s t Is It), <- (S_two _ _ i n m p' sq_sm sq_sp Hi Em E2 s t Is It), <- (S_two _ _ i n z z' sq_sz sq_sz Hi Ez E3 s t Is It).
  unfold block_op. cbn [q_add q_scal q_mul me mc mr]. f_equal. rewrite <- sum_mul_l. apply sum_ext. intros. ring.
Qed.

(** the bond term in Pauli matrices *)
Lemma bond_pauli J Jz n i s t : (i + 2 <= n)%nat -> incfg (repeat 2%nat n) s -> incfg (repeat 2%nat n) t ->
  bond J Jz n i s t = suml (map (fun a => suml (map (fun b => xxz (qq J) Jz a b * pstring im (place n i [a; b]) s t) xyz)) xyz).
Proof.
  intros Hi Hs Ht. unfold bond. rewrite half_J. cbn [xyz map suml xxz].
  rewrite !(string_place n i [_; _]) by (cbn; assumption || lia). rewrite !(pstring_place C n i [_; _]) by (cbn; assumption || lia). cbn [length].
  replace n with (i + (2 + (n - i - 2)))%nat in Hs, Ht by lia.
  destruct (incfg_parts _ _ _ Hs) as [_ Hs2]. destruct (incfg_parts _ _ _ Hs2) as [Hs3 _].
  destruct (incfg_parts _ _ _ Ht) as [_ Ht2]. destruct (incfg_parts _ _ _ Ht2) as [Ht3 _].
  destruct (nlist_eqb _ _); [|ring].
  set (u := firstn 2 (skipn i s)) in *. set (v := firstn 2 (skipn i t)) in *. clearbody u v.
  inversion Hs3 as [|? x ? u1 Hx Hu1]; subst. inversion Hu1 as [|? y ? u2 Hy Hu2]; subst. inversion Hu2; subst.
  inversion Ht3 as [|? x' ? v1 Hx' Hv1]; subst. inversion Hv1 as [|? y' ? v2 Hy' Hv2]; subst. inversion Hv2; subst.
  unfold pstring. cbn [map string_op]. generalize (qq J). intros q. unfold im; clear - Hx Hy Hx' Hy' Him. fin.
Qed.

Lemma field_pauli n i s t : (i < n)%nat -> incfg (repeat 2%nat n) s -> incfg (repeat 2%nat n) t ->
  string_op (placed n i [q_sz]) s t = pstring im (place n i [LZ]) s t.
Proof.
  intros Hi Hs Ht. rewrite (string_place n i [_]) by (cbn; assumption || lia). rewrite (pstring_place C n i [_]) by (cbn; assumption || lia). cbn [length].
  destruct (nlist_eqb _ _); [|reflexivity]. reflexivity.
Qed.

Lemma heisenberg_full h J Jz N : (1 <= N)%nat -> exists M, anisotropic_heisenberg C false h J Jz N = Ok M /\ sq (Nat.pow 2 N) M /\
  forall s t, incfg (repeat 2%nat N) s -> incfg (repeat 2%nat N) t ->
    block_op 2 M s t = chain_ham im N (xxz (qq J) Jz) (along LZ (- h)) 0 s t.
Proof.
  intros HN. unfold anisotropic_heisenberg.
  destruct (mapM_ex (fun i => exchange C false J Jz i N) (fun i M => (i + 1 < N)%nat /\ forall s t, incfg (repeat 2%nat N) s -> incfg (repeat 2%nat N) t -> block_op 2 M s t = bond J Jz N i s t) (seq 0 (N - 1))) as (nn & En & Fn).
  { intros i Hi. apply in_seq in Hi. destruct (exchange_ok J Jz i N ltac:(lia)) as (M & E & _ & He). exists M. split; [exact E|]. split; [lia|exact He]. }
  destruct (mapM_ex (fun i => do z <- S_n_body q_sz (Z.of_nat i) N; Ok (q_scal h z))
    (fun i M => (i < N)%nat /\ forall s t, incfg (repeat 2%nat N) s -> incfg (repeat 2%nat N) t -> block_op 2 M s t = h * string_op (placed N i [q_sz]) s t) (seq 0 N)) as (f & Ef & Ff).
  { intros i Hi. apply in_seq in Hi. destruct (S_one q_sz i N sq_sz ltac:(lia)) as (z & Ez & _ & He). rewrite Ez. cbn [bind]. eexists. split; [reflexivity|]. split; [lia|].
    intros s t Is It. rewrite <- He by assumption. reflexivity. }
  rewrite En. cbn [bind]. rewrite Ef. cbn [bind]. eexists. split; [reflexivity|]. split; [split; reflexivity|]. intros s t Is It.
  unfold block_op. cbn [q_add q_scal q_sum me].
  rewrite (suml_F2 _ (fun i => bond J Jz N i s t) (fun A => me A (rowmajor 2 s) (rowmajor 2 t)) _ _ Fn) by (intros i M [_ HM]; apply HM; assumption).
  rewrite (suml_F2 _ (fun i => h * string_op (placed N i [q_sz]) s t) (fun A => me A (rowmajor 2 s) (rowmajor 2 t)) _ _ Ff) by (intros i M [_ HM]; apply HM; assumption).
  rewrite !suml_map_seq. unfold chain_ham.
  rewrite (sum_ext (N - 1) _ _ (fun i Hi => bond_pauli J Jz N i s t ltac:(lia) Is It)).
  transitivity (sum (N - 1) (fun i => suml (map (fun a => suml (map (fun b => xxz (qq J) Jz a b * pstring im (place N i [a; b]) s t) xyz)) xyz))
    + sum N (fun i => suml (map (fun a => along LZ (- h) i a * pstring im (place N i [a]) s t) xyz))); [|ring].
  f_equal. rewrite <- sum_mul_l. apply sum_ext. intros i Hi. rewrite (field_pauli N i s t Hi Is It). cbn [xyz map suml along]. ring.
Qed.

(** * Local terms *)
Definition co_heis (J Jz a0 a1 : R) (a b : letter) : R :=
  match a, b with LX, LX => qq J | LY, LY => qq J | LZ, LZ => Jz | LZ, LI => a0 | LI, LZ => a1 | _, _ => 0 end.

Lemma local_bulk h J Jz : exists b, local_anisotropic_heisenberg C false h J Jz = Ok b /\ is_local C (co_heis J Jz (- h) 0) b.
Proof.
  eexists. split; [reflexivity|]. split; [reflexivity|]. split; [reflexivity|]. intros x y x' y' Hx Hy Hx' Hy'.
  unfold o_mul. cbn [q_sub q_add q_scal me mr mc q_mul]. rewrite half_J. unfold co_heis; generalize (qq J); intros q; fin.
Qed.

Lemma local_last h J Jz : exists b, local_heis_last C false h J Jz = Ok b /\ is_local C (co_heis J Jz (- h) (- h)) b.
Proof.
  eexists. split; [reflexivity|]. split; [reflexivity|]. split; [reflexivity|]. intros x y x' y' Hx Hy Hx' Hy'.
  unfold o_mul. cbn [q_sub q_add q_scal me mr mc q_mul]. rewrite half_J. unfold co_heis; generalize (qq J); intros q; fin.
Qed.

Lemma repeat_last {A} (b l : A) n i m : nth_error (repeat b n ++ [l]) i = Some m -> (i < n)%nat /\ m = b \/ i = n /\ m = l.
Proof.
  intros H. destruct (Nat.lt_ge_cases i n) as [Hi|Hi].
  - left. split; [exact Hi|]. rewrite nth_error_app1 in H by (rewrite repeat_length; lia). apply nth_error_In in H. now apply repeat_spec in H.
  - right. rewrite nth_error_app2, repeat_length in H by (rewrite repeat_length; lia). destruct (i - n)%nat as [|k] eqn:E; cbn in H; [injection H as <-; split; [lia|reflexivity]|destruct k; discriminate].
Qed.

(** bulk terms with the field on their first site and a last term with the field on both *)
Lemma locals_chain (Jc : letter -> letter -> R) c f cob col (b l : mat R) N : (2 <= N)%nat -> is_local C cob b -> is_local C col l ->
  (forall x y, In x xyz -> In y xyz -> cob x y = Jc x y /\ col x y = Jc x y) ->
  (forall x, In x xyz -> cob x LI = along c f 0 x /\ cob LI x = 0 /\ col x LI = along c f 0 x /\ col LI x = along c f 0 x) -> cob LI LI = 0 -> col LI LI = 0 ->
  forall s t, incfg (repeat 2%nat N) s -> incfg (repeat 2%nat N) t -> sum_terms 2 (repeat b (N - 2) ++ [l]) s t = chain_ham im N Jc (along c f) 0 s t.
Proof.
  intros HN Hb Hl HJ Hf H0 H0' s t Is It. set (n := (N - 1)%nat). assert (EN : N = S n) by (unfold n; lia). rewrite EN in Is, It.
  set (co := fun i => if Nat.ltb i (N - 2) then cob else col).
  rewrite (sum_terms_local C n co _ s t).
  2: rewrite app_length, repeat_length; cbn; unfold n; lia.
  2:{ intros i m Hm. unfold co. destruct (repeat_last _ _ _ _ _ Hm) as [[Hi ->]|[-> ->]]; [rewrite (proj2 (Nat.ltb_lt _ _) Hi)|rewrite Nat.ltb_irrefl]; assumption. }
  2, 3: assumption.
  rewrite EN. apply regroup.
  - intros i x y Hi Hx Hy. unfold co. destruct (Nat.ltb i (N - 2)); apply HJ; assumption.
  - intros i x Hi Hx. unfold co. destruct (Hf x Hx) as (F1 & F2 & F3 & F4).
    assert (EA : along c f i x = along c f 0 x) by reflexivity. rewrite EA.
    destruct i as [|j].
    + destruct (Nat.ltb_spec 0 n); [|unfold n in *; lia]. destruct (Nat.ltb 0 (N - 2)); rewrite ?F1, ?F3; ring.
    + destruct (Nat.ltb_spec (S j) n), (Nat.ltb_spec j (N - 2)), (Nat.ltb_spec (S j) (N - 2)); try (unfold n in *; lia); rewrite ?F1, ?F2, ?F3, ?F4; ring.
  - symmetry. apply sum_zero. intros i Hi. unfold co. destruct (Nat.ltb i (N - 2)); assumption.
Qed.

Ltac inx := match goal with H : In ?x xyz |- _ => is_var x; cbn in H; destruct H as [<-|[<-|[<-|[]]]] end.

Lemma heisenberg_locals h J Jz N : (2 <= N)%nat -> exists l, local_anisotropic_heisenbergs C false h J Jz N = Ok l /\ length l = (N - 1)%nat /\ Forall (sq 4) l /\
  forall s t, incfg (repeat 2%nat N) s -> incfg (repeat 2%nat N) t ->
    sum_terms 2 l s t = chain_ham im N (xxz (qq J) Jz) (along LZ (- h)) 0 s t.
Proof.
  intros HN. unfold local_anisotropic_heisenbergs. destruct (local_bulk h J Jz) as (b & Eb & Hb). destruct (local_last h J Jz) as (l & El & Hl).
  rewrite Eb, El. cbn [bind]. eexists. split; [reflexivity|]. split; [rewrite app_length, repeat_length; cbn; lia|].
  split. { apply Forall_app. split; [apply Forall_forall; intros x Hx; apply repeat_spec in Hx; subst x; split; apply Hb|repeat constructor; apply Hl]. }
  apply (locals_chain _ LZ (- h) _ _ _ _ N HN Hb Hl).
  - intros x y Hx Hy. repeat inx; split; reflexivity.
  - intros x Hx. repeat inx; repeat split; reflexivity.
  - reflexivity.
  - reflexivity.
Qed.

(** * Ising *)
Definition co_ising (J a0 a1 : R) (a b : letter) : R :=
  match a, b with LZ, LZ => - J | LX, LI => a0 | LI, LX => a1 | _, _ => 0 end.

Lemma ising_locals J g N : (2 <= N)%nat -> exists l, local_isings false J g N = Ok l /\ length l = (N - 1)%nat /\ Forall (sq 4) l /\
  forall s t, incfg (repeat 2%nat N) s -> incfg (repeat 2%nat N) t ->
    sum_terms 2 l s t = chain_ham im N (only_zz (- J)) (along LX (- g)) 0 s t.
Proof.
  intros HN. unfold local_isings.
  eexists. split; [reflexivity|]. split; [rewrite app_length, repeat_length; cbn; lia|].
  split. { apply Forall_app. split; [apply Forall_forall; intros x Hx; apply repeat_spec in Hx; subst x; split; reflexivity|repeat constructor; reflexivity]. }
  apply (locals_chain _ LX (- g) (co_ising J (- g) 0) (co_ising J (- g) (- g)) _ _ N HN).
  1, 2: split; [reflexivity|]; split; [reflexivity|]; intros x y x' y' Hx Hy Hx' Hy'; fin.
  - intros x y Hx Hy. repeat inx; split; reflexivity.
  - intros x Hx. repeat inx; repeat split; reflexivity.
  - reflexivity.
  - reflexivity.
Qed.

(** the same local term on every bond: half the field at the two ends *)
Lemma ising_same J g n : exists b, local_ising C false J g = Ok b /\ sq 4 b /\
  forall s t, incfg (repeat 2%nat (S (S n))) s -> incfg (repeat 2%nat (S (S n))) t ->
    sum_terms 2 (repeat b (S n)) s t = chain_ham im (S (S n)) (only_zz (- J))
      (fun i a => if Nat.eqb i 0 || Nat.eqb i (S n) then along LX (- (g * c_half C)) i a else along LX (- g) i a) 0 s t.
Proof.
  unfold local_ising. eexists. split; [reflexivity|]. split; [split; reflexivity|]. intros s t Is It.
  set (co := fun _ : nat => co_ising J (- (g * c_half C)) (- (g * c_half C))).
  rewrite (sum_terms_local C (S n) co _ s t).
  2: now rewrite repeat_length.
  2:{ intros i m Hm. apply nth_error_In, repeat_spec in Hm. subst m.
      split; [reflexivity|]; split; [reflexivity|]; intros x y x' y' Hx Hy Hx' Hy'; fin. }
  2, 3: assumption.
  apply regroup.
  - intros i x y Hi Hx Hy. repeat inx; reflexivity.
  - intros i x Hi Hx. assert (G : g = g * c_half C + g * c_half C) by (transitivity (g * (c_half C + c_half C)); [rewrite Hhalf; ring|ring]).
    assert (A : along LX (- g) 0 x = along LX (- (g * c_half C)) 0 x + along LX (- (g * c_half C)) 0 x) by (repeat inx; cbn; rewrite 1?G at 1; ring).
    change (along LX (- g) i x) with (along LX (- g) 0 x). change (along LX (- (g * c_half C)) i x) with (along LX (- (g * c_half C)) 0 x). rewrite A. clear A.
    assert (B1 : co i x LI = along LX (- (g * c_half C)) 0 x) by (repeat inx; reflexivity). assert (B2 : forall j, co j LI x = along LX (- (g * c_half C)) 0 x) by (intros j; repeat inx; reflexivity).
    rewrite B1. destruct i as [|j]; cbn [Nat.eqb orb].
    + destruct (Nat.ltb_spec 0 (S n)); [ring|lia].
    + rewrite B2. destruct (Nat.eqb_spec j n), (Nat.ltb_spec (S j) (S n)); try lia; ring.
  - symmetry. apply sum_zero. intros. reflexivity.
Qed.

Lemma XX_no_g arr J g g' : local_XX C arr J g = local_XX C arr J g'. Proof. reflexivity. Qed.

Lemma XX_local J g : exists b, local_XX C false J g = Ok b /\ sq 4 b /\
  forall s t, incfg [2; 2]%nat s -> incfg [2; 2]%nat t ->
    block_op 2 b s t = chain_ham im 2 (xxz (- (J * c_half C)) 0) (fun i a => if Nat.eqb i 0 then along LZ (- J) i a else 0) 0 s t.
Proof.
  eexists. split; [reflexivity|]. split; [split; reflexivity|]. intros s t Is It.
  inversion Is as [|? x ? u1 Hx Hu1]; subst. inversion Hu1 as [|? y ? u2 Hy Hu2]; subst. inversion Hu2; subst.
  inversion It as [|? x' ? v1 Hx' Hv1]; subst. inversion Hv1 as [|? y' ? v2 Hy' Hv2]; subst. inversion Hv2; subst.
  unfold im; clear - Hx Hy Hx' Hy' Him. unfold chain_ham, block_op, pstring, place. fin.
Qed.

(** * The MPO *)
Definition tailW (h J Jz : R) n : list (tens R) := map mpo_tens (repeat (mpo_bulk C h J Jz) n ++ [mpo_last h]).
Lemma tailW_S h J Jz n : tailW h J Jz (S n) = mpo_tens (mpo_bulk C h J Jz) :: tailW h J Jz n. Proof. reflexivity. Qed.
Lemma place0 n l : place (S n) 0 [l] = l :: repeat LI n.
Proof. unfold place. cbn [repeat app length]. now replace (S n - 0 - 1)%nat with n by lia. Qed.

Lemma tail_vals h J Jz n : forall s t, incfg (repeat 2%nat (S n)) s -> incfg (repeat 2%nat (S n)) t ->
  let P a := mpo_prod (tailW h J Jz n) s t a 0 in
  P 0%nat = pstring im (repeat LI (S n)) s t /\
  pstring im (place (S n) 0 [LX]) s t = P 1%nat + P 2%nat /\
  pstring im (place (S n) 0 [LY]) s t = - im * (P 1%nat - P 2%nat) /\
  pstring im (place (S n) 0 [LZ]) s t = P 3%nat /\
  P 4%nat = chain_ham im (S n) (xxz (qq J) Jz) (along LZ (- h)) 0 s t.
Proof.
  induction n as [|n IH]; intros s t Hs Ht P; unfold P; clear P; cbn [repeat] in Hs, Ht.
  - inversion Hs as [|? x ? u1 Hx Hu1]; subst. inversion Hu1; subst. inversion Ht as [|? y ? v1 Hy Hv1]; subst. inversion Hv1; subst.
    unfold im, chain_ham, pstring, place. clear - Hx Hy Him. bits; cbn; unfold dlt; cbn; repeat split; ring [Him].
  - inversion Hs as [|x ? s' ? Hx Hs']; subst. inversion Ht as [|y ? t' ? Hy Ht']; subst.
    destruct (IH s' t' Hs' Ht') as (E0 & EX & EY & EZ & E4).
    assert (St : forall a, mpo_prod (tailW h J Jz (S n)) (x :: s') (y :: t') a 0 = sum 5 (fun k => te (mpo_tens (mpo_bulk C h J Jz)) [x; y; a; k]%nat * mpo_prod (tailW h J Jz n) s' t' k 0)) by (intros a; rewrite tailW_S; reflexivity).
    rewrite !St. rewrite !place0.
    assert (ST : forall l ls, pstring im (l :: ls) (x :: s') (y :: t') = me (sigma im l) x y * pstring im ls s' t') by reflexivity.
    rewrite (chain_ham_cons C (S n) _ _ s' t' x y Hx Hy) by (lia || reflexivity).
    change (repeat LI (S (S n))) with (LI :: repeat LI (S n)). fold im. rewrite !ST. cbn [xyz map suml]. rewrite EX, EY, EZ, <- !E0, <- E4.
    revert E0 EX EY EZ E4. cbn [sum xxz along mpo_tens te].
    generalize (mpo_prod (tailW h J Jz n) s' t' 0 0), (mpo_prod (tailW h J Jz n) s' t' 1 0), (mpo_prod (tailW h J Jz n) s' t' 2 0), (mpo_prod (tailW h J Jz n) s' t' 3 0), (mpo_prod (tailW h J Jz n) s' t' 4 0).
    intros p0 p1 p2 p3 p4 _ _ _ _ _. cbn [nth mpo_bulk mpo_row q_scal me]. rewrite half_J. generalize (qq J). intros q. unfold im. clear - Hx Hy Him.
    bits; cbn; unfold dlt; cbn; repeat split; ring [Him].
Qed.

Lemma tail_linked h J Jz n : mpo_linked 5 (tailW h J Jz n) 1.
Proof. induction n as [|n IH]; [exists 1%nat; split; reflexivity|]. rewrite tailW_S. exists 5%nat. split; [reflexivity|exact IH]. Qed.

Lemma heisenberg_mpo h J Jz L : (2 <= L)%nat -> length (fMPO_heisenberg C L h J Jz) = L /\ mpo_linked 1 (fMPO_heisenberg C L h J Jz) 1 /\
  forall s t, incfg (repeat 2%nat L) s -> incfg (repeat 2%nat L) t ->
    mpo_prod (fMPO_heisenberg C L h J Jz) s t 0 0 = chain_ham im L (xxz (qq J) Jz) (along LZ (- h)) 0 s t.
Proof.
  intros HL. destruct L as [|[|n]]; [lia|lia|].
  assert (E : fMPO_heisenberg C (S (S n)) h J Jz = mpo_tens (mpo_first C h J Jz) :: tailW h J Jz n) by (unfold fMPO_heisenberg, tailW; cbn [app map]; now replace (S (S n) - 2)%nat with n by lia).
  split. { rewrite E. cbn [length]. unfold tailW. rewrite map_length, app_length, repeat_length. cbn. lia. }
  split. { rewrite E. exists 5%nat. split; [reflexivity|apply tail_linked]. }
  intros s t Hs Ht. rewrite <- (proj2 (proj2 (proj2 (proj2 (tail_vals h J Jz (S n) s t Hs Ht))))). rewrite E, tailW_S.
  inversion Hs; inversion Ht; subst. reflexivity.
Qed.
Lemma mpo_short h J Jz L : (L <= 1)%nat -> fMPO_heisenberg C L h J Jz = fMPO_heisenberg C 2 h J Jz.
Proof. intros H. unfold fMPO_heisenberg. now replace (L - 2)%nat with 0%nat by lia. Qed.

(** S_n_body *)
Lemma S_n_neg (op : mat R) i n : sq 2 op -> (i < 0)%Z -> (1 <= n)%nat -> exists M, S_n_body op i n = Ok M /\ sq (Nat.pow 2 n) M /\
  forall s t, incfg (repeat 2%nat n) s -> incfg (repeat 2%nat n) t -> block_op 2 M s t = if nlist_eqb s t then 1 else 0.
Proof.
  intros Ho Hi Hn. unfold S_n_body. destruct (Z.ltb_spec i (Z.of_nat n)); [|lia].
  assert (E : map (fun j => if Z.eqb i (Z.of_nat j) then op else eye (mr op)) (seq 0 n) = repeat (eye 2) n).
  { rewrite (map_ext _ (fun _ => eye 2)) by (intros j; destruct (Z.eqb_spec i (Z.of_nat j)); [lia|]; f_equal; apply Ho).
    assert (G : forall m o, map (fun _ : nat => eye (R := R) 2) (seq o m) = repeat (eye 2) m) by (induction m as [|m IH]; intros o; [reflexivity|]; cbn [seq map repeat]; now rewrite IH).
    apply G. }
  rewrite E. destruct (tensor_string (repeat (eye (R := R) 2) n)) as (M & EM & HM).
  - destruct n; [lia|discriminate].
  - apply Forall_forall. intros x Hx. apply repeat_spec in Hx. subst x. split; reflexivity.
  - rewrite repeat_length in HM. exists M. split; [exact EM|]. split; [apply HM|]. intros s t Is It. rewrite (proj2 HM) by (rewrite ?repeat_length; assumption).
    apply string_ids; [apply incfg_length in Is|apply incfg_length in It]; rewrite repeat_length in *; congruence.
Qed.
End P.
