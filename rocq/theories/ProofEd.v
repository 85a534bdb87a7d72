(** Exact evolution of Trajectory. *)
From Coq Require Import ZArith.
From Verif Require Import Alg ModelMPS SpecMPS ProofMPS ProofMPS2 SpecOrth SpecCanon ModelStruct ModelNcon ModelEk SpecEk ProofEk3 ProofEk5 ModelTensor SpecTensor ModelSpin SpecSpin ProofSpin
  ModelLie SpecLie ModelExp SpecExp ProofExp ProofExp2 ModelHam SpecHam ProofHam4 SpecFull ModelOrth ModelCanon ModelState SpecState ProofState ModelTraj SpecTraj ProofTraj ModelEd SpecEd.
Local Open Scope nat_scope.

Section Proofs.
Context {R : sring}.
Local Open Scope sr_scope.
Add Ring Rr : (s_th R).

Definition img (U : mat R) (v : nat -> R) (i : nat) : R := sum (mc U) (fun j => me U i j * v j).
Definition bil (N : nat) (v : nat -> R) (Q : mat R) (w : nat -> R) : R := sum N (fun i => sum N (fun j => sconj (v i) * me Q i j * w j)).

Lemma nth_map_seq {A} (f : nat -> A) n i x : (i < n)%nat -> nth i (map f (seq 0 n)) x = f i.
Proof. intros Hi. rewrite (nth_indep _ x (f 0%nat)) by (rewrite map_length, seq_length; exact Hi). rewrite map_nth, seq_nth by exact Hi. reflexivity. Qed.

Lemma configs_length d L : length (configs d L) = Nat.pow d L.
Proof. apply (configs_complete d L []). Qed.

Lemma nth_blocks {A} (f : nat -> list A) B x0 : (forall a, length (f a) = B) -> forall d o x r, (x < d)%nat -> (r < B)%nat ->
  nth (x * B + r) (flat_map f (seq o d)) x0 = nth r (f (o + x)%nat) x0.
Proof.
  intros HB. induction d as [|d IH]; intros o x r Hx Hr; [lia|]. cbn [seq flat_map]. destruct x as [|x].
  - rewrite app_nth1 by (rewrite HB; lia). now rewrite Nat.add_0_r.
  - rewrite app_nth2 by (rewrite HB; nia). rewrite HB. replace (S x * B + r - B)%nat with (x * B + r)%nat by nia. rewrite IH by lia. f_equal. f_equal. lia.
Qed.

Lemma configs_rowmajor d L : forall s, incfg (repeat d L) s -> nth (rowmajor d s) (configs d L) [] = s.
Proof.
  induction L as [|L IH]; intros s Hs.
  - inversion Hs. reflexivity.
  - cbn [repeat] in Hs. inversion Hs as [|x d' s' ds' Hx Hs' E1 E2]; subst. cbn [configs]. change (x :: s') with ([x] ++ s') at 1. rewrite rowmajor_app.
    pose proof (incfg_length _ _ Hs') as Ls. rewrite repeat_length in Ls. rewrite Ls.
    rewrite (nth_blocks _ (Nat.pow d L)) by (try (intros; rewrite map_length; apply configs_length); try exact Hx; rewrite <- Ls; apply rowmajor_lt; now rewrite Ls).
    cbn [Nat.add]. rewrite (nth_indep _ [] (x :: [])) by (rewrite map_length, configs_length, <- Ls; apply rowmajor_lt; now rewrite Ls).
    rewrite (map_nth (cons x)). now rewrite IH.
Qed.

Lemma amp_nth d L (f : list nat -> R) s : incfg (repeat d L) s -> nth (rowmajor d s) (map f (configs d L)) 0 = f s.
Proof.
  intros Hs. pose proof (incfg_length _ _ Hs) as Ls. rewrite repeat_length in Ls.
  rewrite (nth_indep _ 0 (f [])) by (rewrite map_length, configs_length, <- Ls; apply rowmajor_lt; now rewrite Ls).
  rewrite map_nth. now rewrite configs_rowmajor.
Qed.

Lemma matvec_ok (U : mat R) v N : sq N U -> length v = N ->
  exists w, matvec U v = Ok w /\ length w = N /\ forall i, (i < N)%nat -> nth i w 0 = img U (fun j => nth j v 0) i.
Proof.
  intros [H1 H2] Hv. unfold matvec. rewrite H2, Hv, Nat.eqb_refl. eexists. split; [reflexivity|].
  split; [rewrite map_length, seq_length; exact H1|]. intros i Hi. rewrite nth_map_seq by lia. unfold img. now rewrite H2.
Qed.

Lemma ed_loop_ok (F : mfun R) A U N : f_exp F A = Some U -> sq N U -> forall n v, length v = N ->
  exists vs, ed_loop F A n v = Ok vs /\ length vs = n /\ (forall w, In w vs -> length w = N) /\
    forall k i, (k < n)%nat -> (i < N)%nat -> nth i (nth (S k) (v :: vs) []) 0 = img U (fun j => nth j (nth k (v :: vs) []) 0) i.
Proof.
  intros HE HU. induction n as [|n IH]; intros v Hv; cbn [ed_loop].
  - exists []. repeat split; try lia. intros w [].
  - unfold expm_multiply, expm_. rewrite HE. cbn [bind]. destruct (matvec_ok U v N HU Hv) as (w & E & Lw & Hw). rewrite E. cbn [bind].
    destruct (IH w Lw) as (vs & E2 & L2 & A2 & H2). rewrite E2. cbn [bind]. exists (w :: vs). split; [reflexivity|]. split; [cbn; lia|].
    split; [intros x [<-|Hx]; auto|]. intros [|k] i Hk Hi.
    + exact (Hw i Hi).
    + exact (H2 k i ltac:(lia) Hi).
Qed.

Lemma bil_ext N v v' Q w w' : (forall i, (i < N)%nat -> v i = v' i) -> (forall i, (i < N)%nat -> w i = w' i) -> bil N v Q w = bil N v' Q w'.
Proof. intros H1 H2. unfold bil. apply sum_ext. intros i Hi. apply sum_ext. intros j Hj. now rewrite H1, H2. Qed.

Lemma bil_img N (U Q : mat R) v w : sq N U -> sq N Q -> mat_eq (mmul (madj U) (mmul Q U)) Q -> bil N (img U v) Q (img U w) = bil N v Q w.
Proof.
  intros [U1 U2] [Q1 Q2] (_ & _ & H). unfold bil, img. rewrite U2.
  transitivity (sum N (fun k => sum N (fun l => sconj (v k) * sum N (fun i => sconj (me U i k) * sum N (fun j => me Q i j * me U j l)) * w l))).
  - transitivity (sum N (fun i => sum N (fun k => sum N (fun l => sum N (fun j => sconj (v k) * sconj (me U i k) * me Q i j * me U j l * w l))))).
    + apply sum_ext. intros i _.
      transitivity (sum N (fun j => sum N (fun k => sum N (fun l => sconj (v k) * sconj (me U i k) * me Q i j * me U j l * w l)))).
      * apply sum_ext. intros j _. rewrite sum_conj. rewrite <- !sum_mul_r. apply sum_ext. intros k _. rewrite conj_mul.
        rewrite <- sum_mul_l. apply sum_ext. intros l _. ring.
      * rewrite sum_swap. apply sum_ext. intros k _. apply sum_swap.
    + rewrite sum_swap. apply sum_ext. intros k _. rewrite sum_swap. apply sum_ext. intros l _.
      transitivity (sum N (fun i => sconj (v k) * (sconj (me U i k) * sum N (fun j => me Q i j * me U j l)) * w l)).
      * apply sum_ext. intros i _. rewrite <- sum_mul_l, <- sum_mul_l, <- sum_mul_r. apply sum_ext. intros j _. ring.
      * rewrite <- sum_mul_l, <- sum_mul_r. reflexivity.
  - apply sum_ext. intros k Hk. apply sum_ext. intros l Hl. f_equal. f_equal. rewrite <- H by (cbn; lia). cbn [mmul madj me mr mc]. rewrite U1, Q2. reflexivity.
Qed.

Lemma full_between_bil d n (v w : list R) M : (0 < d)%nat ->
  full_between d n (fun s => nth (rowmajor d s) v 0) M (fun s => nth (rowmajor d s) w 0)
  = bil (Nat.pow d n) (fun i => nth i v 0) M (fun j => nth j w 0).
Proof. intros Hd. unfold full_between, bil, block_op. rewrite (sum_pow d n) by exact Hd. apply sumcfg_ext. intros s _. now rewrite (sum_pow d n) by exact Hd. Qed.

(** * The Hamiltonian *)
Lemma insert_repeat {A} i n (x e : A) : (i <= n)%nat -> insert_at (Z.of_nat i) x (repeat e n) = repeat e i ++ x :: repeat e (n - i).
Proof.
  intros Hi. unfold insert_at. rewrite repeat_length. destruct (Z.ltb_spec (Z.of_nat i) 0); [lia|].
  rewrite Z.min_l by lia. rewrite Nat2Z.id. replace n with (i + (n - i))%nat at 1 2 by lia. rewrite repeat_app.
  rewrite firstn_app, skipn_app, repeat_length, Nat.sub_diag. cbn [firstn skipn]. rewrite app_nil_r.
  rewrite (firstn_all2 (repeat e i)) by (rewrite repeat_length; lia). rewrite (skipn_all2 (repeat e i)) by (rewrite repeat_length; lia). reflexivity.
Qed.

Lemma n_body_two ilog (a : mat R) i n : ilog 4%nat 2%nat = Some 2%nat -> mr a = 4%nat -> mc a = 4%nat -> (i < n)%nat ->
  exists M, n_body ilog a (Z.of_nat i) n (Some 2%nat) = Ok M /\ mr M = Nat.pow 2 (S n) /\ mc M = Nat.pow 2 (S n) /\
    forall s t, incfg (repeat 2%nat (S n)) s -> incfg (repeat 2%nat (S n)) t -> me M (rowmajor 2 s) (rowmajor 2 t) = on_sites 2 i a s t.
Proof.
  intros Hlog Ha1 Ha2 Hi. unfold n_body. rewrite Ha1, Hlog. cbn [bind].
  replace (Z.of_nat i - 1 + 1)%Z with (Z.of_nat i) by lia. replace (Z.to_nat (Z.of_nat n + 1 - Z.of_nat 2)) with (n - 1)%nat by lia.
  rewrite insert_repeat by lia. destruct (Z.ltb_spec (Z.of_nat i - 1) (Z.of_nat n)); [|lia].
  destruct (full_term_ok (S n) 2 (mkMat (2 ^ S n) (2 ^ S n) (fun _ _ => 0)) i a) as (M' & E & Mr & Mc & Me); try reflexivity; try assumption; try lia.
  unfold full_term in E. cbn [fst snd] in E. replace (S n - 2 - i)%nat with (n - 1 - i)%nat in E by lia.
  change (repeat (eye 2) i ++ [a] ++ repeat (eye 2) (n - 1 - i)) with (repeat (@eye R 2) i ++ a :: repeat (eye 2) (n - 1 - i)) in E.
  destruct (tensor (repeat (eye 2) i ++ a :: repeat (eye 2) (n - 1 - i))) as [M|] eqn:ET; [|discriminate]. cbn [bind mr mc] in E.
  destruct (Nat.eqb_spec (mr M) (2 ^ S n)) as [E1|]; [|discriminate]. destruct (Nat.eqb_spec (mc M) (2 ^ S n)) as [E2|]; [|discriminate]. cbn [andb] in E.
  injection E as <-. exists M. split; [reflexivity|]. split; [exact E1|]. split; [exact E2|]. intros s t Hs Ht. specialize (Me s t Hs Ht). cbn [me] in Me.
  transitivity (0 + me M (rowmajor 2 s) (rowmajor 2 t)); [ring|]. rewrite Me. ring.
Qed.

Lemma ham_terms ilog (l : list (mat R)) : ilog 4%nat 2%nat = Some 2%nat -> l <> [] -> (forall a, In a l -> mr a = 4%nat /\ mc a = 4%nat) ->
  exists M, ed_ham ilog (Terms l) = Ok M /\ sq (Nat.pow 2 (S (length l))) M /\
    forall s t, incfg (repeat 2%nat (S (length l))) s -> incfg (repeat 2%nat (S (length l))) t -> block_op 2 M s t = sum_terms 2 l s t.
Proof.
  intros Hlog Hne Hl. cbn [ed_ham]. set (n := length l).
  assert (K : forall (l' : list (mat R)) o, (forall a, In a l' -> mr a = 4%nat /\ mc a = 4%nat) -> (o + length l' <= n)%nat ->
    exists ms, mapM (fun ia => n_body ilog (snd ia) (Z.of_nat (fst ia)) n (Some 2%nat)) (combine (seq o (length l')) l') = Ok ms /\ length ms = length l' /\
      (forall M, In M ms -> mr M = Nat.pow 2 (S n) /\ mc M = Nat.pow 2 (S n)) /\
      forall s t, incfg (repeat 2%nat (S n)) s -> incfg (repeat 2%nat (S n)) t ->
        suml (map (fun M => me M (rowmajor 2 s) (rowmajor 2 t)) ms) = suml (map (fun im => on_sites 2 (fst im) (snd im) s t) (combine (seq o (length l')) l'))).
  { induction l' as [|a l' IH]; intros o Ha Ho.
    - exists []. cbn. split; [reflexivity|]. split; [reflexivity|]. split; [intros M []|]. intros. reflexivity.
    - cbn [length seq combine mapM fst snd]. cbn [length] in Ho. destruct (Ha a (or_introl eq_refl)) as [A1 A2].
      destruct (n_body_two ilog a o n Hlog A1 A2 ltac:(lia)) as (M & E & M1 & M2 & M3). rewrite E. cbn [bind].
      destruct (IH (S o) (fun x Hx => Ha x (or_intror Hx)) ltac:(lia)) as (ms & E2 & L2 & S2 & V2). rewrite E2. cbn [bind].
      exists (M :: ms). split; [reflexivity|]. split; [cbn; lia|]. split; [intros x [<-|Hx]; auto|]. intros s t Hs Ht. cbn [map suml fst snd]. now rewrite M3, V2. }
  destruct (K l 0%nat Hl (le_n _)) as (ms & E & Lm & Sm_ & Vm). change (length l) with n in E. rewrite E. cbn [bind]. unfold sum_axis0.
  destruct ms as [|M0 ms]; [destruct l; [congruence|discriminate Lm]|]. destruct (Sm_ M0 (or_introl eq_refl)) as [Z1 Z2].
  replace (forallb (fun y => Nat.eqb (mr y) (mr M0) && Nat.eqb (mc y) (mc M0)) (M0 :: ms)) with true.
  - eexists. split; [reflexivity|]. split; [split; assumption|]. intros s t Hs Ht. unfold block_op, sum_terms. cbn [me]. now apply Vm.
  - symmetry. apply forallb_forall. intros y Hy. destruct (Sm_ y Hy) as [-> ->]. now rewrite Z1, Z2, !Nat.eqb_refl.
Qed.
End Proofs.
