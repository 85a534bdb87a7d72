(** Proofs about thermofield doubles. *)
From Coq Require Import Permutation.
From Verif Require Import Alg ModelMPS SpecMPS ModelNcon ModelEk ModelNp ProofNp ProofEk4 ProofTrace ModelTFD SpecTFD.

(** * Exchanged indices *)
Lemma exch_pair p x y : x < p -> y < p -> exch (p * p) (x * p + y) = y * p + x.
Proof.
  intros Hx Hy. unfold exch. rewrite Nat.sqrt_square. rewrite Nat.div_add_l, Nat.div_small by lia.
  rewrite Nat.add_comm at 1. rewrite (Nat.add_comm (x * p) y), Nat.mod_add, Nat.mod_small by lia. lia.
Qed.
Lemma split_square p x : x < p * p -> exists u v, u < p /\ v < p /\ x = u * p + v.
Proof.
  intros H. assert (Hp : p <> 0) by (intros ->; cbn in H; lia). exists (x / p), (x mod p). split; [apply Nat.div_lt_upper_bound; lia|].
  split; [apply Nat.mod_upper_bound; lia|]. rewrite Nat.mul_comm. apply Nat.div_mod. exact Hp.
Qed.
Lemma pair_lt p u v : u < p -> v < p -> u * p + v < p * p.
Proof. intros. nia. Qed.
Lemma exch_lt d x : is_square d -> x < d -> exch d x < d.
Proof. intros [p ->] H. destruct (split_square p x H) as (u & v & Hu & Hv & ->). rewrite exch_pair by assumption. now apply pair_lt. Qed.
Lemma exch_exch d x : is_square d -> x < d -> exch d (exch d x) = x.
Proof. intros [p ->] H. destruct (split_square p x H) as (u & v & Hu & Hv & ->). now rewrite !exch_pair. Qed.

Section P.
Context {R : sring}.
Local Open Scope sr_scope.
Add Ring Rr : (s_th R).

Lemma sum_exch d (f : nat -> R) : is_square d -> sum d (fun x => f (exch d x)) = sum d f.
Proof.
  intros [p ->]. transitivity (sum p (fun u => sum p (fun v => f (v * p + u)%nat))).
  - rewrite (sum_ext (p * p) _ (fun x => (fun u v => f (v * p + u)%nat) (x / p)%nat (x mod p)%nat)).
    + apply (sum_mul_divmod p p (fun u v => f (v * p + u)%nat)).
    + intros x Hx. unfold exch. now rewrite Nat.sqrt_square.
  - rewrite sum_swap. symmetry. rewrite (sum_ext (p * p) f (fun x => (fun u v => f (u * p + v)%nat) (x / p)%nat (x mod p)%nat)).
    + apply (sum_mul_divmod p p (fun u v => f (u * p + v)%nat)).
    + intros x Hx. f_equal. rewrite Nat.mul_comm. apply Nat.div_mod. intros ->. cbn in Hx. lia.
Qed.

(** * One tensor *)
Lemma sym_site_ok (X : site R) : is_square (phys X) -> is_square (dl X) -> is_square (dr X) -> exists Y, sym_site X = Ok Y /\ exchanged X Y.
Proof.
  intros [p Hp] [a Ha] [b Hb]. unfold sym_site. rewrite Hp, Ha, Hb, !Nat.sqrt_square.
  unfold reshape_ at 1. cbn [tens_site tsh]. rewrite Hp, Ha, Hb.
  replace (fold_right Nat.mul 1%nat [p; p; a; a; b; b]) with (fold_right Nat.mul 1%nat [p * p; a * a; b * b]%nat) by (cbn; ring). rewrite Nat.eqb_refl. cbn [bind].
  match goal with |- context [transpose_ _ ?T] => set (T1 := T) end.
  destruct (transpose_ok [1; 0; 3; 2; 5; 4]%nat T1) as (T2 & E2 & S2 & V2).
  { cbn. apply NoDup_Permutation; [repeat constructor; cbn; intuition lia|repeat constructor; cbn; intuition lia|]. intros x. cbn. intuition lia. }
  rewrite E2. cbn [bind]. cbn in S2. unfold reshape_ at 1. rewrite S2.
  replace (fold_right Nat.mul 1%nat [p; p; a; a; b; b]) with (fold_right Nat.mul 1%nat [p * p; a * a; b * b]%nat) by (cbn; ring). rewrite Nat.eqb_refl. cbn [bind].
  eexists. split; [reflexivity|]. split; [exact (eq_sym Hp)|]. split; [exact (eq_sym Ha)|]. split; [exact (eq_sym Hb)|].
  cbn [phys dl dr ent te]. rewrite Hp, Ha, Hb. intros s i j Hs Hi Hj.
  destruct (split_square p s Hs) as (s1 & s2 & Hs1 & Hs2 & ->). destruct (split_square a i Hi) as (i1 & i2 & Hi1 & Hi2 & ->). destruct (split_square b j Hj) as (j1 & j2 & Hj1 & Hj2 & ->).
  rewrite !exch_pair by assumption.
  assert (G : forall u1 u2 v1 v2 w1 w2, (u1 < p)%nat -> (u2 < p)%nat -> (v1 < a)%nat -> (v2 < a)%nat -> (w1 < b)%nat -> (w2 < b)%nat ->
    ravel [p * p; a * a; b * b]%nat [u1 * p + u2; v1 * a + v2; w1 * b + w2]%nat = ravel [p; p; a; a; b; b] [u1; u2; v1; v2; w1; w2]).
  { intros. cbn. ring. }
  rewrite G by assumption. destruct (unravel_ravel [p; p; a; a; b; b] [s1; s2; i1; i2; j1; j2]) as [-> _]; [repeat constructor; assumption|].
  assert (V3 : te T2 [s1; s2; i1; i2; j1; j2] = te T1 [s2; s1; i2; i1; j2; j1]) by exact (V2 [s2; s1; i2; i1; j2; j1] eq_refl). rewrite V3. unfold T1. cbn [te].
  rewrite <- G by assumption. destruct (unravel_ravel [p * p; a * a; b * b]%nat [s2 * p + s1; i2 * a + i1; j2 * b + j1]%nat) as [-> _]; [repeat constructor; now apply pair_lt|].
  reflexivity.
Qed.

(** A size that is not a square makes reshape fail (for arrays with entries). *)
Lemma sqrt_lt n : ~ is_square n -> (Nat.sqrt n * Nat.sqrt n < n)%nat.
Proof. intros H. pose proof (Nat.sqrt_spec n (Nat.le_0_l n)) as [H1 _]. destruct (Nat.eq_dec (Nat.sqrt n * Nat.sqrt n) n) as [E|]; [exfalso; apply H; now exists (Nat.sqrt n)|lia]. Qed.
Lemma sym_site_err (X : site R) : (0 < phys X)%nat -> (0 < dl X)%nat -> (0 < dr X)%nat -> ~ (is_square (phys X) /\ is_square (dl X) /\ is_square (dr X)) ->
  sym_site X = Err ValueError.
Proof.
  intros Hp Ha Hb H. unfold sym_site, reshape_ at 1. cbn [tens_site tsh fold_right].
  pose proof (Nat.sqrt_spec (phys X) (Nat.le_0_l _)) as [P1 _]. pose proof (Nat.sqrt_spec (dl X) (Nat.le_0_l _)) as [A1 _]. pose proof (Nat.sqrt_spec (dr X) (Nat.le_0_l _)) as [B1 _].
  set (p := Nat.sqrt (phys X)) in *. set (a := Nat.sqrt (dl X)) in *. set (b := Nat.sqrt (dr X)) in *.
  destruct (Nat.eqb_spec (phys X * (dl X * (dr X * 1))) (p * (p * (a * (a * (b * (b * 1))))))) as [E|]; [|reflexivity]. exfalso. apply H.
  assert (E' : (phys X * (dl X * dr X) = (p * p) * ((a * a) * (b * b)))%nat) by lia. clear E.
  assert (EP : (p * p = phys X)%nat).
  { destruct (Nat.eq_dec (p * p) (phys X)) as [|N]; [assumption|]. exfalso. assert ((a * a) * (b * b) <= dl X * dr X)%nat by (apply Nat.mul_le_mono; assumption). nia. }
  rewrite EP in E'. apply Nat.mul_cancel_l in E'; [|lia].
  assert (EA : (a * a = dl X)%nat).
  { destruct (Nat.eq_dec (a * a) (dl X)) as [|N]; [assumption|]. exfalso. nia. }
  rewrite EA in E'. apply Nat.mul_cancel_l in E'; [|lia].
  split; [exists p; lia|]. split; [exists a; lia|exists b; lia].
Qed.

(** * Chains *)
Lemma mapM_forall2 {A B} (f : A -> res B) (Q : A -> B -> Prop) l : (forall x, In x l -> exists y, f x = Ok y /\ Q x y) ->
  exists ys, mapM f l = Ok ys /\ Forall2 Q l ys.
Proof.
  induction l as [|x l IH]; intros H; [exists []; split; [reflexivity|constructor]|].
  destruct (H x (or_introl eq_refl)) as (y & Ey & Qy). destruct IH as (ys & E & Hys). { intros z Hz. apply H. now right. }
  exists (y :: ys). cbn. rewrite Ey. cbn. rewrite E. split; [reflexivity|now constructor].
Qed.

Lemma symmetry_ok (m : fmps R) : square_dims (fdata m) -> fdata m <> [] ->
  exists m', tfd_symmetry m = Ok m' /\ Forall2 exchanged (fdata m) (fdata m') /\ fL m' = length (fdata m).
Proof.
  intros Hs Hne. unfold tfd_symmetry. destruct (mapM_forall2 sym_site exchanged (fdata m)) as (l & E & Hl).
  { intros X HX. unfold square_dims in Hs. rewrite Forall_forall in Hs. destruct (Hs X HX) as (H1 & H2 & H3). now apply sym_site_ok. }
  rewrite E. cbn [bind]. destruct Hl as [|X Y lx ly HXY Hl']; [congruence|]. unfold fMPS_init, max_bond. cbn [bind]. eexists. split; [reflexivity|]. cbn [fdata fL].
  split; [now constructor|]. cbn [length]. f_equal. clear -Hl'. induction Hl'; cbn; congruence.
Qed.

Lemma exchanged_square (l l' : list (site R)) : Forall2 exchanged l l' -> square_dims l -> square_dims l'.
Proof.
  unfold square_dims. induction 1 as [|X Y l l' (E1 & E2 & E3 & _) Hl IH]; intros H; constructor; inversion H; subst; [now rewrite E1, E2, E3|auto].
Qed.

Lemma exchanged_twice (A B C : site R) : is_square (phys A) -> is_square (dl A) -> is_square (dr A) -> exchanged A B -> exchanged B C -> site_eq A C.
Proof.
  intros H1 H2 H3 (P1 & L1 & R1 & V1) (P2 & L2 & R2 & V2). split; [congruence|]. split; [congruence|]. split; [congruence|].
  intros s i j Hs Hi Hj. rewrite V2 by congruence. rewrite P1, L1, R1. rewrite V1 by (now apply exch_lt). now rewrite !exch_exch.
Qed.

Lemma symmetry_involution (m m' : fmps R) : square_dims (fdata m) -> tfd_symmetry m = Ok m' ->
  exists m'', tfd_symmetry m' = Ok m'' /\ Forall2 site_eq (fdata m) (fdata m'').
Proof.
  intros Hs E. assert (Hne : fdata m <> []) by (intros E0; unfold tfd_symmetry in E; rewrite E0 in E; discriminate).
  destruct (symmetry_ok m Hs Hne) as (x & Ex & Hx & _). rewrite E in Ex. injection Ex as <-.
  assert (Hne' : fdata m' <> []) by (intros E0; rewrite E0 in Hx; inversion Hx; congruence).
  destruct (symmetry_ok m' (exchanged_square _ _ Hx Hs) Hne') as (y & Ey & Hy & _). exists y. split; [exact Ey|].
  unfold square_dims in Hs. clear -Hx Hy Hs. revert Hs Hy. generalize (fdata y). induction Hx as [|A B l l' HAB Hl IH]; intros l2 Hs Hy; inversion Hy; subst; constructor.
  - inversion Hs as [|? ? (S1 & S2 & S3) _]; subst. eapply exchanged_twice; eassumption.
  - apply IH; [now inversion Hs|assumption].
Qed.

(** * Fixed points *)
Definition fixed (A : site R) : Prop := exchanged A A.

Lemma fixed_symmetry (m : fmps R) : square_dims (fdata m) -> fdata m <> [] -> Forall fixed (fdata m) ->
  exists m', tfd_symmetry m = Ok m' /\ Forall2 site_eq (fdata m) (fdata m').
Proof.
  intros Hs Hne Hf. destruct (symmetry_ok m Hs Hne) as (m' & E & Hx & _). exists m'. split; [exact E|]. clear -Hx Hf.
  induction Hx as [|A B l l' (P1 & L1 & R1 & V1) Hl IH]; constructor.
  - inversion Hf as [|? ? (_ & _ & _ & V) _]; subst. split; [congruence|]. split; [congruence|]. split; [congruence|]. intros s i j H1 H2 H3. now rewrite V, V1.
  - apply IH. now inversion Hf.
Qed.

Lemma symmetrise_ok (m : fmps R) : square_dims (fdata m) -> fdata m <> [] ->
  exists m', tfd_symmetrise m = Ok m' /\ square_dims (fdata m') /\ Forall fixed (fdata m') /\
    Forall2 (fun A B => phys B = phys A /\ dl B = dl A /\ dr B = dr A /\
      forall s i j, (s < phys A)%nat -> (i < dl A)%nat -> (j < dr A)%nat -> ent B s i j = ent A s i j + ent A (exch (phys A) s) (exch (dl A) i) (exch (dr A) j)) (fdata m) (fdata m').
Proof.
  intros Hs Hne. destruct (symmetry_ok m Hs Hne) as (n & E & Hx & _). unfold tfd_symmetrise. rewrite E. cbn [bind]. unfold itemwise_add, pyzip.
  assert (HZ : exists l, mapM (fun ab => site_zip sadd (fst ab) (snd ab)) (combine (fdata m) (fdata n)) = Ok l /\
    Forall2 (fun A B => phys B = phys A /\ dl B = dl A /\ dr B = dr A /\
      forall s i j, (s < phys A)%nat -> (i < dl A)%nat -> (j < dr A)%nat -> ent B s i j = ent A s i j + ent A (exch (phys A) s) (exch (dl A) i) (exch (dr A) j)) (fdata m) l).
  { clear -Hx. induction Hx as [|A B l l' (P1 & L1 & R1 & V1) Hl IH]; [exists []; split; [reflexivity|constructor]|].
    destruct IH as (ys & EY & HY). cbn [combine mapM fst snd]. unfold site_zip at 1. rewrite P1, L1, R1, !Nat.eqb_refl. cbn [andb bind]. rewrite EY. cbn [bind].
    eexists. split; [reflexivity|]. constructor; [|exact HY]. cbn [phys dl dr ent]. repeat split. intros s i j H1 H2 H3. now rewrite V1. }
  destruct HZ as (l & EZ & HZ). rewrite EZ. cbn [bind]. destruct l as [|Y l]; [inversion HZ; congruence|]. unfold fMPS_init, max_bond. cbn [bind].
  eexists. split; [reflexivity|]. cbn [fdata]. split; [|split; [|exact HZ]].
  - unfold square_dims in *. clear -HZ Hs. induction HZ as [|A B la lb (P1 & L1 & R1 & _) Hl IH]; constructor; [inversion Hs; subst; now rewrite P1, L1, R1|apply IH; now inversion Hs].
  - unfold square_dims in Hs. clear -HZ Hs. induction HZ as [|A B la lb (P1 & L1 & R1 & V) Hl IH]; constructor; [|apply IH; now inversion Hs].
    inversion Hs as [|? ? (S1 & S2 & S3) _]; subst. unfold fixed. repeat split. rewrite P1, L1, R1. intros s i j H1 H2 H3.
    rewrite !V by (assumption || now apply exch_lt). rewrite !exch_exch by assumption. ring.
Qed.

Lemma double_fixed (A : site R) : fixed (kron_site A A).
Proof.
  repeat split. cbn [kron_site phys dl dr ent]. intros s i j Hs Hi Hj.
  destruct (split_square _ s Hs) as (s1 & s2 & Hs1 & Hs2 & ->). destruct (split_square _ i Hi) as (i1 & i2 & Hi1 & Hi2 & ->). destruct (split_square _ j Hj) as (j1 & j2 & Hj1 & Hj2 & ->).
  rewrite !exch_pair by assumption.
  assert (D : forall p u v, (v < p)%nat -> ((u * p + v) / p = u /\ (u * p + v) mod p = v)%nat).
  { intros p u v Hv. rewrite Nat.div_add_l, Nat.div_small by lia. rewrite (Nat.add_comm (u * p)), Nat.mod_add, Nat.mod_small by lia. lia. }
  destruct (D _ s1 s2 Hs2) as [-> ->]. destruct (D _ s2 s1 Hs1) as [-> ->]. destruct (D _ i1 i2 Hi2) as [-> ->]. destruct (D _ i2 i1 Hi1) as [-> ->].
  destruct (D _ j1 j2 Hj2) as [-> ->]. destruct (D _ j2 j1 Hj1) as [-> ->]. ring.
Qed.
Lemma double_square (l : list (site R)) : square_dims (map (fun a => kron_site a a) l).
Proof.
  unfold square_dims. apply Forall_forall. intros X HX. apply in_map_iff in HX as (A & <- & _).
  cbn. split; [now exists (phys A)|]. split; [now exists (dl A)|now exists (dr A)].
Qed.

(** * Amplitudes *)
Lemma amp_exchanged (l l' : list (site R)) : Forall2 exchanged l l' -> square_dims l -> forall i0 j0 s i j, chain i0 l j0 -> is_square j0 -> incfg (dims l) s ->
  (i < i0)%nat -> (j < j0)%nat -> amp l' s i j = amp l (exch_cfg (dims l) s) (exch i0 i) (exch j0 j).
Proof.
  unfold square_dims. induction 1 as [|A B l l' (P1 & L1 & R1 & V1) Hl IH]; intros Hs i0 j0 s i j Hch Hj0 Hin Hi Hj.
  - inversion Hin; subst. cbn in Hch. subst j0. cbn [amp exch_cfg dims map combine]. unfold dlt. destruct (Nat.eqb_spec i j) as [->|N]; [now rewrite Nat.eqb_refl|].
    destruct (Nat.eqb_spec (exch i0 i) (exch i0 j)) as [E|]; [|reflexivity]. exfalso. apply N. rewrite <- (exch_exch i0 i), <- (exch_exch i0 j) by assumption. now rewrite E.
  - inversion Hin as [|x ? s' ? Hx Hin']; subst. cbn in Hch. destruct Hch as [<- Hch]. inversion Hs as [|? ? (S1 & S2 & S3) Hs']; subst.
    cbn [amp exch_cfg dims map combine fst snd]. fold (dims l). fold (exch_cfg (dims l) s'). rewrite R1.
    rewrite <- (sum_exch (dr A) (fun k => ent A (exch (phys A) x) (exch (dl A) i) k * amp l (exch_cfg (dims l) s') k (exch j0 j)) S3).
    apply sum_ext. intros k Hk. rewrite V1 by assumption. f_equal. now apply (IH Hs' (dr A)).
Qed.

Lemma sum_pairs p (f : nat -> nat -> R) : sum (p * p) (fun k => f (k / p)%nat (k mod p)%nat) = sum p (fun u => sum p (fun v => f u v)).
Proof. apply (sum_mul_divmod p p f). Qed.

Lemma amp_double (l : list (site R)) : forall i0 j0 s t i1 i2 j1 j2, chain i0 l j0 -> incfg (dims l) s -> incfg (dims l) t ->
  (i1 < i0)%nat -> (i2 < i0)%nat -> (j1 < j0)%nat -> (j2 < j0)%nat ->
  amp (map (fun a => kron_site a a) l) (pair_cfg (dims l) s t) (i1 * i0 + i2) (j1 * j0 + j2) = amp l s i1 j1 * amp l t i2 j2.
Proof.
  assert (D : forall p u v, (v < p)%nat -> ((u * p + v) / p = u /\ (u * p + v) mod p = v)%nat).
  { intros p u v Hv. rewrite Nat.div_add_l, Nat.div_small by lia. rewrite (Nat.add_comm (u * p)), Nat.mod_add, Nat.mod_small by lia. lia. }
  induction l as [|A l IH]; intros i0 j0 s t i1 i2 j1 j2 Hch Hs Ht Hi1 Hi2 Hj1 Hj2.
  - inversion Hs; inversion Ht; subst. cbn in Hch. subst j0. cbn [map amp pair_cfg dims combine]. unfold dlt.
    destruct (Nat.eqb_spec i1 j1) as [->|N1]; [destruct (Nat.eqb_spec i2 j2) as [->|N2]|].
    + rewrite Nat.eqb_refl. ring.
    + destruct (Nat.eqb_spec (j1 * i0 + i2) (j1 * i0 + j2)); [lia|ring].
    + destruct (Nat.eqb_spec (i1 * i0 + i2) (j1 * i0 + j2)) as [E|]; [|ring]. exfalso. apply N1. destruct (D i0 i1 i2 Hi2) as [E1 _]. destruct (D i0 j1 j2 Hj2) as [E2 _]. congruence.
  - inversion Hs as [|x ? s' ? Hx Hs']; subst. inversion Ht as [|y ? t' ? Hy Ht']; subst. cbn in Hch. destruct Hch as [<- Hch].
    cbn [map amp pair_cfg dims combine fst snd]. fold (dims l). fold (pair_cfg (dims l) s' t'). cbn [kron_site dr ent].
    destruct (D (phys A) x y Hy) as [-> ->]. destruct (D (dl A) i1 i2 Hi2) as [-> ->].
    rewrite (sum_ext _ _ (fun k => (fun u v => ent A x i1 u * ent A y i2 v * (amp l s' u j1 * amp l t' v j2)) (k / dr A)%nat (k mod dr A)%nat)).
    + rewrite (sum_pairs (dr A) (fun u v => ent A x i1 u * ent A y i2 v * (amp l s' u j1 * amp l t' v j2))). rewrite <- sum_mul_r. apply sum_ext. intros u _.
      rewrite <- sum_mul_l. apply sum_ext. intros v _. ring.
    + intros k Hk. cbn beta. destruct (split_square _ k Hk) as (u & v & Hu & Hv & ->). destruct (D (dr A) u v Hv) as [-> ->]. f_equal. now apply IH.
Qed.

(** * States *)
Lemma chain_exchanged (l l' : list (site R)) : Forall2 exchanged l l' -> forall i j, chain i l j -> chain i l' j.
Proof. induction 1 as [|A B l l' (P1 & L1 & R1 & _) Hl IH]; intros i j H; cbn in *; [exact H|]. destruct H as [H1 H2]. split; [congruence|]. rewrite R1. now apply IH. Qed.
Lemma Forall2_len {A B} (Q : A -> B -> Prop) l l' : Forall2 Q l l' -> length l = length l'.
Proof. induction 1; cbn; congruence. Qed.

Lemma symmetry_state (m : fmps R) : square_dims (fdata m) -> wf m ->
  exists m', tfd_symmetry m = Ok m' /\ Forall2 exchanged (fdata m) (fdata m') /\ wf m' /\
    forall s, incfg (dims (fdata m)) s -> psi m' s = psi m (exch_cfg (dims (fdata m)) s).
Proof.
  intros Hs (Hc & HL & Hne). destruct (symmetry_ok m Hs Hne) as (m' & E & Hx & HL'). exists m'. split; [exact E|]. split; [exact Hx|]. split.
  - split; [now apply (chain_exchanged _ _ Hx)|]. split; [rewrite HL'; apply (Forall2_len _ _ _ Hx)|]. intros E0. rewrite E0 in Hx. inversion Hx. congruence.
  - intros s Hin. unfold psi. rewrite (amp_exchanged _ _ Hx Hs 1 1 s 0 0 Hc) by (try assumption; try lia; now exists 1%nat). reflexivity.
Qed.

Lemma symmetry_err (m : fmps R) (A : site R) : Forall (fun B => 0 < phys B /\ 0 < dl B /\ 0 < dr B)%nat (fdata m) ->
  In A (fdata m) -> ~ (is_square (phys A) /\ is_square (dl A) /\ is_square (dr A)) -> tfd_symmetry m = Err ValueError.
Proof.
  intros Hpos Hin Hn. unfold tfd_symmetry. replace (mapM sym_site (fdata m)) with (@Err (list (site R)) ValueError); [reflexivity|]. symmetry.
  assert (D : forall n, is_square n \/ ~ is_square n).
  { intros n. destruct (Nat.eq_dec (Nat.sqrt n * Nat.sqrt n) n) as [E|N]; [left; now exists (Nat.sqrt n)|right]. intros [p ->]. rewrite Nat.sqrt_square in N. now apply N. }
  induction (fdata m) as [|B l IH]; [contradiction|]. inversion Hpos as [|? ? (B1 & B2 & B3) Hpos']; subst. cbn [mapM].
  destruct (D (phys B)) as [S1|S1], (D (dl B)) as [S2|S2], (D (dr B)) as [S3|S3]; try (rewrite sym_site_err by (assumption || tauto); reflexivity).
  destruct (sym_site_ok B S1 S2 S3) as (Y & -> & _). cbn [bind]. destruct Hin as [->|Hin]; [tauto|]. now rewrite (IH Hpos' Hin).
Qed.

Lemma symmetrise_fixed (m : fmps R) : square_dims (fdata m) -> fdata m <> [] ->
  exists m' m'', tfd_symmetrise m = Ok m' /\
    Forall2 (fun A B => phys B = phys A /\ dl B = dl A /\ dr B = dr A /\ forall s i j, (s < phys A)%nat -> (i < dl A)%nat -> (j < dr A)%nat ->
      ent B s i j = ent A s i j + ent A (exch (phys A) s) (exch (dl A) i) (exch (dr A) j)) (fdata m) (fdata m') /\
    tfd_symmetry m' = Ok m'' /\ Forall2 site_eq (fdata m') (fdata m'').
Proof.
  intros Hs Hne. destruct (symmetrise_ok m Hs Hne) as (m' & E & Hs' & Hf & HF).
  assert (Hne' : fdata m' <> []) by (intros E0; rewrite E0 in HF; inversion HF; congruence).
  destruct (fixed_symmetry m' Hs' Hne' Hf) as (m'' & E2 & H2). exists m', m''. repeat split; assumption.
Qed.

Lemma double_symmetry (self m : fmps R) : fdata m <> [] ->
  exists m', tfd_symmetry (tfd_from_fMPS self m) = Ok m' /\ Forall2 site_eq (fdata (tfd_from_fMPS self m)) (fdata m').
Proof.
  intros Hne. apply fixed_symmetry; cbn [tfd_from_fMPS fdata]; [apply double_square|destruct (fdata m); [congruence|discriminate]|].
  apply Forall_forall. intros X HX. apply in_map_iff in HX as (A & <- & _). apply double_fixed.
Qed.

Lemma chain_double (l : list (site R)) : forall i j, chain i l j -> chain (i * i) (map (fun a => kron_site a a) l) (j * j).
Proof. induction l as [|A l IH]; intros i j H; cbn in *; [congruence|]. destruct H as [<- H]. split; [reflexivity|]. now apply IH. Qed.

Lemma double_uniform (self m : fmps R) : uniform m -> uniform (tfd_from_fMPS self m).
Proof.
  unfold uniform. cbn [fdata fd tfd_from_fMPS]. intros Hu. induction Hu as [|A l HA Hu IH]; constructor; [|exact IH]. cbn [phys kron_site]. rewrite HA. cbn. lia.
Qed.
Lemma double_state (self m : fmps R) : wf m ->
  wf (tfd_from_fMPS self m) /\ dims (fdata (tfd_from_fMPS self m)) = map (fun d => d * d)%nat (dims (fdata m)) /\
  forall s t, incfg (dims (fdata m)) s -> incfg (dims (fdata m)) t ->
    psi (tfd_from_fMPS self m) (pair_cfg (dims (fdata m)) s t) = psi m s * psi m t.
Proof.
  intros (Hc & HL & Hne). split; [|split].
  - split; [exact (chain_double _ _ _ Hc)|]. split; [cbn; now rewrite map_length|]. cbn. destruct (fdata m); [congruence|discriminate].
  - cbn [tfd_from_fMPS fdata]. unfold dims. rewrite !map_map. reflexivity.
  - intros s t Hs Ht. unfold psi. cbn [tfd_from_fMPS fdata]. change 0%nat with (0 * 1 + 0)%nat at 1 2. apply amp_double; try assumption; lia.
Qed.

Lemma amp_scaled (c : R) (l l' : list (site R)) :
  Forall2 (fun A B => phys B = phys A /\ dl B = dl A /\ dr B = dr A /\ forall s i j, (s < phys A)%nat -> (i < dl A)%nat -> (j < dr A)%nat -> ent B s i j = c * ent A s i j) l l' ->
  forall i0 j0 s i j, chain i0 l j0 -> incfg (dims l) s -> (i < i0)%nat -> amp l' s i j = spow c (length l) * amp l s i j.
Proof.
  induction 1 as [|A B l l' (P1 & L1 & R1 & V1) Hl IH]; intros i0 j0 s i j Hch Hs Hi.
  - inversion Hs; subst. cbn. ring.
  - inversion Hs as [|x ? s' ? Hx Hs']; subst. cbn in Hch. destruct Hch as [<- Hch]. cbn [amp length spow]. rewrite R1, <- sum_mul_l. apply sum_ext. intros k Hk.
    rewrite V1 by assumption. rewrite (IH (dr A) j0) by assumption. ring.
Qed.

Lemma symmetrise_double (self m : fmps R) : wf m ->
  exists m', tfd_symmetrise (tfd_from_fMPS self m) = Ok m' /\
    forall s t, incfg (dims (fdata m)) s -> incfg (dims (fdata m)) t ->
      psi m' (pair_cfg (dims (fdata m)) s t) = spow (1 + 1) (length (fdata m)) * (psi m s * psi m t).
Proof.
  intros Hw. destruct (double_state self m Hw) as ((Hc & HL & Hne) & Hd & Hpsi). set (n := tfd_from_fMPS self m) in *.
  destruct (symmetrise_ok n (double_square _) Hne) as (m' & E & _ & _ & HF). exists m'. split; [exact E|]. intros s t Hs Ht. rewrite <- Hpsi by assumption. unfold psi.
  replace (length (fdata m)) with (length (fdata n)) by (unfold n; cbn; apply map_length).
  apply amp_scaled with (i0 := 1%nat) (j0 := 1%nat); [|exact Hc| |lia].
  - assert (Hfix : Forall fixed (fdata n)). { apply Forall_forall. intros X HX. apply in_map_iff in HX as (A & <- & _). apply double_fixed. }
    clear -HF Hfix. induction HF as [|A B l l' (P1 & L1 & R1 & V1) Hl IH]; constructor; [|apply IH; now inversion Hfix].
    inversion Hfix as [|? ? (_ & _ & _ & V) _]; subst. repeat split; try assumption. intros s i j H1 H2 H3. rewrite V1, <- V by assumption. ring.
  - rewrite Hd. clear -Hs Ht. revert s t Hs Ht. induction (dims (fdata m)) as [|d ds IH]; intros s t Hs Ht; [inversion Hs; inversion Ht; constructor|].
    inversion Hs as [|x ? s' ? Hx Hs']; subst. inversion Ht as [|y ? t' ? Hy Ht']; subst. cbn [pair_cfg combine map fst snd]. constructor; [now apply pair_lt|]. now apply IH.
Qed.
End P.
