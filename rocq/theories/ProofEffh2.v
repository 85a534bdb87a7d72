(** The matrix and the linear operator of effH. *)
From Verif Require Import Alg ModelMPS SpecMPS ProofMPS ProofMPS2 ModelOrth SpecOrth ProofOrth ModelNcon ModelEk ProofEk4 ModelNp SpecQmb ModelEffh SpecEffh ProofEffh.
Local Open Scope nat_scope.

Section Proofs.
Context {R : sring}.
Local Open Scope sr_scope.
Add Ring Rr : (s_th R).

Ltac conred := cbn [mapM getitem nth_error bind tsh te]; unfold nlist_eqb; repeat (progress (cbn; rewrite ?Nat.eqb_refl)); cbn.

(** shapes that belong together *)
Definition eff_shape (e : effh R) (d k k' : nat) : Prop :=
  phys (e_A e) = d /\ tsh (e_L e) = [k; dl (e_A e); dl (e_A e)] /\ tsh (e_W e) = [d; d; k; k'] /\ tsh (e_R e) = [k'; dr (e_A e); dr (e_A e)].

Lemma unravel3 d a b i x y : (i < d)%nat -> (x < a)%nat -> (y < b)%nat -> unravel [d; a; b] (flat3 a b i x y) = [i; x; y].
Proof.
  intros Hi Hx Hy. replace (flat3 a b i x y) with (ravel [d; a; b] [i; x; y]) by (cbn; unfold flat3; ring).
  apply unravel_ravel. repeat constructor; assumption.
Qed.

Lemma flat3_lt d a b i x y : (i < d)%nat -> (x < a)%nat -> (y < b)%nat -> (flat3 a b i x y < d * (a * (b * 1)))%nat.
Proof.
  intros Hi Hx Hy. unfold flat3. assert (H : (i * a + x + 1 <= d * a)%nat) by nia. apply (Nat.mul_le_mono_r _ _ b) in H. nia.
Qed.

Lemma unravel6 d a b i x y i' x' y' : (i < d)%nat -> (x < a)%nat -> (y < b)%nat -> (i' < d)%nat -> (x' < a)%nat -> (y' < b)%nat ->
  unravel [d; a; b; d; a; b] (ravel [(d * (a * (b * 1)))%nat; (d * (a * (b * 1)))%nat] [flat3 a b i x y; flat3 a b i' x' y']) = [i; x; y; i'; x'; y'].
Proof.
  intros. replace (ravel _ _) with (ravel [d; a; b; d; a; b] [i; x; y; i'; x'; y']) by (cbn; unfold flat3; ring).
  apply unravel_ravel. repeat constructor; assumption.
Qed.

Lemma eff_matrix_ok (e : effh R) d k k' : eff_shape e d k k' -> let a := dl (e_A e) in let b := dr (e_A e) in
  exists M, eff_matrix e = Ok M /\ tsh M = [(d * (a * (b * 1)))%nat; (d * (a * (b * 1)))%nat] /\
    forall i x y i' x' y', (i < d)%nat -> (x < a)%nat -> (y < b)%nat -> (i' < d)%nat -> (x' < a)%nat -> (y' < b)%nat ->
    te M [flat3 a b i x y; flat3 a b i' x' y'] = sum k (fun w => te (e_L e) [w; x; x'] * sum k' (fun w' => te (e_W e) [i; i'; w; w'] * te (e_R e) [w'; y; y'])).
Proof.
  intros (Hp & HL & HW & HR). cbn zeta. set (a := dl (e_A e)) in *. set (b := dr (e_A e)) in *. unfold eff_matrix.
  destruct (con (e_W e) (e_R e) [3]%nat [0]%nat) as [WR|] eqn:E1; [|exfalso; revert E1; unfold con; rewrite HW, HR; conred; discriminate].
  assert (H1 : tsh WR = [d; d; k; b; b] /\ forall i i' w y y', te WR [i; i'; w; y; y'] = sum k' (fun w' => te (e_W e) [i; i'; w; w'] * te (e_R e) [w'; y; y'])).
  { revert E1. unfold con. rewrite HW, HR. conred. intros E1. injection E1 as <-. split; reflexivity. }
  clear E1. destruct H1 as [S1 V1]. cbn [bind].
  destruct (con (e_L e) WR [0]%nat [2]%nat) as [T|] eqn:E2; [|exfalso; revert E2; unfold con; rewrite HL, S1; conred; discriminate].
  assert (H2 : tsh T = [a; a; d; d; b; b] /\ forall x x' i i' y y', te T [x; x'; i; i'; y; y'] = sum k (fun w => te (e_L e) [w; x; x'] * te WR [i; i'; w; y; y'])).
  { revert E2. unfold con. rewrite HL, S1. conred. intros E2. injection E2 as <-. split; reflexivity. }
  clear E2. destruct H2 as [S2 V2]. cbn [bind].
  destruct (transpose_ [2; 0; 4; 3; 1; 5]%nat T) as [T'|] eqn:E3; [|exfalso; revert E3; unfold transpose_; rewrite S2; discriminate].
  assert (H3 : tsh T' = [d; a; b; d; a; b] /\ forall i x y i' x' y', te T' [i; x; y; i'; x'; y'] = te T [x; x'; i; i'; y; y']).
  { revert E3. unfold transpose_. rewrite S2. cbn [length Nat.eqb andb seq forallb]. cbn. intros E3. injection E3 as <-. split; reflexivity. }
  clear E3. destruct H3 as [S3 V3]. cbn [bind]. unfold reshape_. rewrite S3. cbn [firstn skipn fold_right].
  replace (Nat.eqb _ _) with true by (symmetry; apply Nat.eqb_eq; ring).
  eexists. split; [reflexivity|]. split; [reflexivity|]. intros i x y i' x' y' Hi Hx Hy Hi' Hx' Hy'. cbn [te].
  rewrite unravel6 by assumption. rewrite V3, V2. apply sum_ext; intros w _. now rewrite V1.
Qed.

(** mv: the axes of the result are (left, physical, right). *)
Lemma eff_apply_ok (e : effh R) d k k' (v : tens R) : eff_shape e d k k' -> let a := dl (e_A e) in let b := dr (e_A e) in
  tsh v = [(d * (a * (b * 1)))%nat] ->
  exists y, eff_apply e v = Ok y /\ tsh y = [(d * (a * b))%nat] /\
    forall i x r, (i < d)%nat -> (x < a)%nat -> (r < b)%nat ->
    te y [flat3 d b x i r] = sum d (fun i' => sum a (fun x' => sum b (fun r' =>
      sum k (fun w => te (e_L e) [w; x; x'] * sum k' (fun w' => te (e_W e) [i; i'; w; w'] * te (e_R e) [w'; r; r'])) * te v [flat3 a b i' x' r']))).
Proof.
  intros (Hp & HL & HW & HR). cbn zeta. set (a := dl (e_A e)) in *. set (b := dr (e_A e)) in *. intros Hv. unfold eff_apply, eff_mv.
  rewrite Hp. fold a b. unfold reshape_ at 1. rewrite Hv. cbn [fold_right]. replace (Nat.eqb _ _) with true by (symmetry; apply Nat.eqb_eq; ring). cbn [bind].
  set (A := mkT [d; a; b] _).
  assert (VA : forall i' x' r', (i' < d)%nat -> (x' < a)%nat -> (r' < b)%nat -> te A [i'; x'; r'] = te v [flat3 a b i' x' r']).
  { intros i' x' r' Hi Hx Hr. unfold A. cbn [te]. replace (ravel [d; a; b] [i'; x'; r']) with (ravel [(d * (a * (b * 1)))%nat] [flat3 a b i' x' r']) by (cbn; unfold flat3; ring).
    f_equal. apply unravel_ravel. repeat constructor. apply flat3_lt; assumption. }
  assert (SA : tsh A = [d; a; b]) by reflexivity. clearbody A.
  destruct (con (e_R e) A [2]%nat [2]%nat) as [RA|] eqn:E1; [|exfalso; revert E1; unfold con; rewrite HR, SA; conred; discriminate].
  assert (H1 : tsh RA = [k'; b; d; a] /\ forall w' r i' x', te RA [w'; r; i'; x'] = sum b (fun r' => te (e_R e) [w'; r; r'] * te A [i'; x'; r'])).
  { revert E1. unfold con. rewrite HR, SA. conred. intros E1. injection E1 as <-. split; reflexivity. }
  clear E1. destruct H1 as [S1 V1]. cbn [bind].
  destruct (con (e_W e) RA [1; 3]%nat [2; 0]%nat) as [WRA|] eqn:E2; [|exfalso; revert E2; unfold con; rewrite HW, S1; conred; discriminate].
  assert (H2 : tsh WRA = [d; k; b; a] /\ forall i w r x', te WRA [i; w; r; x'] = sum d (fun i' => sum k' (fun w' => te (e_W e) [i; i'; w; w'] * te RA [w'; r; i'; x']))).
  { revert E2. unfold con. rewrite HW, S1. conred. intros E2. injection E2 as <-. split; reflexivity. }
  clear E2. destruct H2 as [S2 V2]. cbn [bind].
  destruct (con (e_L e) WRA [0; 2]%nat [1; 3]%nat) as [Y|] eqn:E3; [|exfalso; revert E3; unfold con; rewrite HL, S2; conred; discriminate].
  assert (H3 : tsh Y = [a; d; b] /\ forall x i r, te Y [x; i; r] = sum k (fun w => sum a (fun x' => te (e_L e) [w; x; x'] * te WRA [i; w; r; x']))).
  { revert E3. unfold con. rewrite HL, S2. conred. intros E3. injection E3 as <-. split; reflexivity. }
  clear E3. destruct H3 as [S3 V3]. cbn [bind]. unfold eff_rows, getitem. rewrite HW. cbn [nth_error bind]. fold a b. unfold reshape_. rewrite S3. cbn [fold_right].
  replace (Nat.eqb _ _) with true by (symmetry; apply Nat.eqb_eq; ring).
  eexists. split; [reflexivity|]. split; [reflexivity|]. intros i x r Hi Hx Hr. cbn [te].
  replace (ravel [(d * (a * b))%nat] [flat3 d b x i r]) with (ravel [a; d; b] [x; i; r]) by (cbn; unfold flat3; ring).
  rewrite (proj1 (unravel_ravel [a; d; b] [x; i; r] ltac:(repeat constructor; assumption))), V3.
  transitivity (sum k (fun w => sum a (fun x' => sum d (fun i' => sum k' (fun w' => sum b (fun r' =>
     te (e_L e) [w; x; x'] * (te (e_W e) [i; i'; w; w'] * te (e_R e) [w'; r; r']) * te v [flat3 a b i' x' r'])))))).
  { apply sum_ext; intros w _. apply sum_ext; intros x' Hx'. rewrite V2, <- sum_mul_l. apply sum_ext; intros i' Hi'. rewrite <- sum_mul_l. apply sum_ext; intros w' _.
    rewrite V1, <- !sum_mul_l. apply sum_ext; intros r' Hr'. rewrite VA by assumption. ring. }
  transitivity (sum k (fun w => sum d (fun i' => sum a (fun x' => sum b (fun r' => sum k' (fun w' =>
     te (e_L e) [w; x; x'] * (te (e_W e) [i; i'; w; w'] * te (e_R e) [w'; r; r']) * te v [flat3 a b i' x' r'])))))).
  { apply sum_ext; intros w _. rewrite sum_swap. apply sum_ext; intros i' _. apply sum_ext; intros x' _. apply sum_swap. }
  rewrite sum_swap. apply sum_ext; intros i' _. rewrite sum_swap. apply sum_ext; intros x' _. rewrite sum_swap. apply sum_ext; intros r' _.
  rewrite <- sum_mul_r. apply sum_ext; intros w _. rewrite <- sum_mul_l, <- sum_mul_r. apply sum_ext; intros w' _. ring.
Qed.

(** The matrix element of the whole chain, opened at one site. *)
Lemma reorder ds d es (G : list nat -> nat -> list nat -> list nat -> nat -> list nat -> R) :
  sumcfg ds (fun sp => sum d (fun i => sumcfg es (fun sq => sumcfg ds (fun tp => sum d (fun i' => sumcfg es (fun tq => G sp i sq tp i' tq))))))
  = sum d (fun i => sum d (fun i' => sumcfg es (fun sq => sumcfg es (fun tq => sumcfg ds (fun sp => sumcfg ds (fun tp => G sp i sq tp i' tq)))))).
Proof.
  rewrite sumcfg_sum. apply sum_ext; intros i _.
  transitivity (sumcfg ds (fun sp => sumcfg es (fun sq => sum d (fun i' => sumcfg ds (fun tp => sumcfg es (fun tq => G sp i sq tp i' tq)))))).
  { apply sumcfg_ext; intros sp _. apply sumcfg_ext; intros sq _. apply sumcfg_sum. }
  transitivity (sumcfg ds (fun sp => sum d (fun i' => sumcfg es (fun sq => sumcfg ds (fun tp => sumcfg es (fun tq => G sp i sq tp i' tq)))))).
  { apply sumcfg_ext; intros sp _. apply sumcfg_sum. }
  rewrite sumcfg_sum. apply sum_ext; intros i' _. rewrite sumcfg_swap. apply sumcfg_ext; intros sq _.
  transitivity (sumcfg ds (fun sp => sumcfg es (fun tq => sumcfg ds (fun tp => G sp i sq tp i' tq)))).
  { apply sumcfg_ext; intros sp _. apply sumcfg_swap. }
  apply sumcfg_swap.
Qed.

Lemma cfg_mid d n m (F : list nat -> R) : sumcfg (repeat d (n + S m)) F = sumcfg (repeat d n) (fun sp => sum d (fun i => sumcfg (repeat d m) (fun sq => F (sp ++ i :: sq)))).
Proof. rewrite repeat_app, sumcfg_app. reflexivity. Qed.

Lemma amp_mid (p q : list (site R)) B sp i sq : chain 1 p (dl B) -> length sp = length p ->
  amp (p ++ B :: q) (sp ++ i :: sq) 0 0 = sum (dl B) (fun x => sum (dr B) (fun y => ent B i x y * amp q sq y 0) * amp p sp 0 x).
Proof. intros Hc Hl. rewrite (amp_app p (B :: q) sp (i :: sq) 0 (dl B) 1 Hl Hc) by lia. apply sum_ext; intros x _. cbn [amp]. ring. Qed.

Lemma elem_open d (Wp Wq : list (tens R)) W (p q : list (site R)) (B B' : site R) k k' :
  chain 1 p (dl B) -> chain 1 p (dl B') -> chain (dr B) q 1 -> dr B' = dr B -> length Wp = length p -> mpo_chain d 1 Wp k -> tsh W = [d; d; k; k'] ->
  mpo_elem d (Wp ++ W :: Wq) (p ++ B :: q) (p ++ B' :: q) =
  sum d (fun i => sum d (fun i' => sum (dl B) (fun x => sum k (fun w => sum (dl B') (fun x' => sum (dr B) (fun y => sum k' (fun w' => sum (dr B') (fun y' =>
    sconj (ent B i x y) * te W [i; i'; w; w'] * ent B' i' x' y' * (left_block d Wp p w x x' * right_block d Wq q w' y y'))))))))).
Proof.
  intros Hp Hp' Hq Hr Hl HW HT. unfold mpo_elem. rewrite app_length. cbn [length]. rewrite cfg_mid.
  etransitivity. { apply sumcfg_ext; intros sp _. apply sum_ext; intros i _. apply sumcfg_ext; intros sq _. apply cfg_mid. }
  rewrite reorder. apply sum_ext; intros i _. apply sum_ext; intros i' _.
  etransitivity.
  { apply sumcfg_ext; intros sq _. apply sumcfg_ext; intros tq _. etransitivity.
    { apply sumcfg_ext; intros sp Hsp. apply sumcfg_ext; intros tp Htp.
      assert (Ls : length sp = length p) by (rewrite (incfg_length _ _ Hsp); apply repeat_length).
      assert (Lt : length tp = length p) by (rewrite (incfg_length _ _ Htp); apply repeat_length).
      rewrite (amp_mid p q B sp i sq Hp Ls), (amp_mid p q B' tp i' tq Hp' Lt), sum_conj.
      rewrite (mpo_prod_app d Wp (W :: Wq) 1 k sp tp (i :: sq) (i' :: tq) 0 HW) by (lia || congruence).
      rewrite (sum_ext (dl B) _ (fun x => sconj (sum (dr B) (fun y => ent B i x y * amp q sq y 0)) * sconj (amp p sp 0 x))) by (intros; apply conj_mul).
      rewrite (sum_ext k _ (fun w => mpo_prod (W :: Wq) (i :: sq) (i' :: tq) w 0 * mpo_prod Wp sp tp 0 w)) by (intros; ring). reflexivity. }
    apply (tri (repeat d (length p)) (repeat d (length p)) (dl B) k (dl B') (fun x => sconj (sum (dr B) (fun y => ent B i x y * amp q sq y 0)))
      (fun w => mpo_prod (W :: Wq) (i :: sq) (i' :: tq) w 0) (fun x' => sum (dr B') (fun y' => ent B' i' x' y' * amp q tq y' 0))
      (fun x s t => sconj (amp p s 0 x)) (fun w s t => mpo_prod Wp s t 0 w) (fun x' s t => amp p t 0 x')). }
  fold (left_block d Wp p).
  etransitivity. { apply sumcfg_ext; intros sq _. rewrite sumcfg_sum. apply sum_ext; intros x _. rewrite sumcfg_sum. apply sum_ext; intros w _. rewrite sumcfg_sum. reflexivity. }
  rewrite sumcfg_sum. apply sum_ext; intros x _. rewrite sumcfg_sum. apply sum_ext; intros w _. rewrite sumcfg_sum. apply sum_ext; intros x' _.
  etransitivity.
  { apply sumcfg_ext; intros sq _. apply (sumcfg_mul_r (repeat d (length q)) (left_block d Wp p w x x')). }
  rewrite sumcfg_mul_r.
  etransitivity.
  { apply (f_equal (fun u => u * left_block d Wp p w x x')). etransitivity.
    { apply sumcfg_ext; intros sq _. apply sumcfg_ext; intros tq _. rewrite sum_conj.
      rewrite (sum_ext (dr B) _ (fun y => sconj (ent B i x y) * sconj (amp q sq y 0))) by (intros; apply conj_mul). cbn [mpo_prod]. rewrite HT. cbn [nth]. reflexivity. }
    apply (tri (repeat d (length q)) (repeat d (length q)) (dr B) k' (dr B') (fun y => sconj (ent B i x y)) (fun w' => te W [i; i'; w; w']) (fun y' => ent B' i' x' y')
      (fun y s t => sconj (amp q s y 0)) (fun w' s t => mpo_prod Wq s t w' 0) (fun y' s t => amp q t y' 0)). }
  fold (right_block d Wq q).
  rewrite <- sum_mul_r. apply sum_ext; intros y _. rewrite <- sum_mul_r. apply sum_ext; intros w' _. rewrite <- sum_mul_r. apply sum_ext; intros y' _. unfold right_block. ring.
Qed.
End Proofs.
