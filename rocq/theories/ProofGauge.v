From Verif Require Import Alg ModelMPS SpecMPS ProofMPS ProofMPS2 ModelOrth SpecOrth
  ProofOrth ProofOrth2 ProofOrth3 ModelCanon SpecCanon ProofCanon ProofCanon2.

Section Proofs.
Context {R : sring}.
Add Ring Rr : (s_th R).
Local Open Scope sr_scope.

Lemma sum_prod n m (f g : nat -> R) :
  sum n f * sum m g = sum n (fun i => sum m (fun j => f i * g j)).
Proof. rewrite <- sum_mul_r. apply sum_ext. intros. symmetry. apply sum_mul_l. Qed.

(** Configuration sums are plain sums. *)
Lemma sumcfg_flat ds : exists N (dec : nat -> list nat),
  (forall f : list nat -> R, sumcfg ds f = sum N (fun k => f (dec k))) /\
  (forall s, incfg ds s -> exists k, k < N /\ dec k = s).
Proof.
  induction ds as [|d ds (N & dec & H1 & H2)].
  - exists 1%nat, (fun _ => []). split; [intros f; simpl; ring|].
    intros s Hs. inversion Hs; subst. exists 0%nat. auto.
  - exists (d * N)%nat, (fun k => (k / N)%nat :: dec (k mod N)%nat). split.
    + intros f. rewrite sum_mul. simpl. apply sum_ext. intros i _. rewrite H1.
      apply sum_ext. intros j Hj. rewrite Nat.div_add_l by lia. rewrite Nat.div_small, Nat.add_0_r by exact Hj.
      rewrite Nat.add_comm, Nat.mod_add by lia. rewrite Nat.mod_small by exact Hj. reflexivity.
    + intros s Hs. destruct s as [|x s]; [inversion Hs|]. apply incfg_cons in Hs as [Hx Hs].
      destruct (H2 s Hs) as (k & Hk & E). exists (x * N + k)%nat. split; [nia|].
      rewrite Nat.div_add_l by lia. rewrite Nat.div_small, Nat.add_0_r by exact Hk.
      rewrite Nat.add_comm, Nat.mod_add by lia. rewrite Nat.mod_small by exact Hk. congruence.
Qed.

Lemma definite_cfg : @definite R -> forall ds (f : list nat -> R),
  sumcfg ds (fun s => f s * sconj (f s)) = 0 -> forall s, incfg ds s -> f s = 0.
Proof.
  intros HD ds f H s Hs. destruct (sumcfg_flat ds) as (N & dec & H1 & H2).
  rewrite H1 in H. destruct (H2 s Hs) as (k & Hk & <-).
  exact (HD N (fun k => f (dec k)) H k Hk).
Qed.

(** The environment in terms of the rotated tensor. *)
Definition rot (V : mat R) (A : site R) (s a y : nat) : R :=
  sum (dl A) (fun x => sconj (me V x a) * ent A s x y).

Lemma env_rot (A : site R) V Sv n M : mr V = n -> mc V = n -> dl A = n ->
  left_env_step A V Sv = Ok M ->
  mr M = dr A /\ mc M = dr A /\ forall y y', me M y y'
  = sum (phys A) (fun s => sum n (fun a => sconj (rot V A s a y) * Sv a * rot V A s a y')).
Proof.
  intros H1 H2 H3 E. unfold left_env_step in E. rewrite H3, H1, Nat.eqb_refl in E.
  injection E as <-. cbn. split; [reflexivity|]. split; [reflexivity|]. intros y y'. rewrite H2.
  apply sum_ext. intros s _.
  transitivity (sum n (fun p => sum n (fun k => sconj (ent A s p y) * me V p k * (Sv k * rot V A s k y')))).
  { apply sum_ext. intros p _. apply sum_ext. intros k _. unfold rot. rewrite H3.
    rewrite <- !sum_mul_l. apply sum_ext. intros q _. ring. }
  rewrite sum_swap. apply sum_ext. intros k _.
  rewrite sum_mul_r.
  transitivity (sum n (fun p => sconj (ent A s p y) * me V p k) * (Sv k * rot V A s k y')); [reflexivity|].
  replace (sum n (fun p => sconj (ent A s p y) * me V p k)) with (sconj (rot V A s k y)); [ring|].
  unfold rot. rewrite sum_conj, H3. apply sum_ext. intros x _. rewrite conj_mul, conj_conj. ring.
Qed.

Lemma env_herm (A : site R) V Sv n M : mr V = n -> mc V = n -> dl A = n ->
  (forall k, k < n -> sconj (Sv k) = Sv k) ->
  left_env_step A V Sv = Ok M -> forall i j, sconj (me M i j) = me M j i.
Proof.
  intros H1 H2 H3 H4 E i j. destruct (env_rot A V Sv n M H1 H2 H3 E) as (_ & _ & HM).
  rewrite !HM, sum_conj. apply sum_ext. intros s _. rewrite sum_conj. apply sum_ext. intros a Ha.
  rewrite !conj_mul, conj_conj, H4 by exact Ha. ring.
Qed.

(** Snoc on amplitudes. *)
Lemma amp_snoc (p : list (site R)) A u s a i :
  chain 1 p i -> dl A = i -> length u = length p -> a < dr A ->
  amp (p ++ [A]) (u ++ [s]) 0 a = sum i (fun q => amp p u 0 q * ent A s q a).
Proof.
  intros Hc HA Hl Ha. rewrite (amp_app p [A] u [s] 0 i 1 Hl Hc) by lia.
  apply sum_ext. intros q _. f_equal. cbn [amp]. rewrite sum_dlt_r by exact Ha. reflexivity.
Qed.

Lemma incfg_snoc ds d t : incfg (ds ++ [d]) t -> exists u s, t = u ++ [s] /\ incfg ds u /\ s < d.
Proof.
  intros H. apply incfg_app_inv in H as (u & v & -> & Hu & Hv).
  destruct v as [|s [|? ?]]; [inversion Hv| |inversion Hv as [|? ? ? ? ? Hv']; inversion Hv'].
  apply incfg_cons in Hv as [Hs _]. eauto.
Qed.

(** Gram matrix of an extended chain. *)
Lemma gram_snoc (p : list (site R)) A i a b :
  chain 1 p i -> dl A = i -> a < dr A -> b < dr A ->
  left_gram (p ++ [A]) a b
  = sum (phys A) (fun s => sum i (fun q => sum i (fun q' =>
      sconj (ent A s q a) * ent A s q' b * left_gram p q q'))).
Proof.
  intros Hc HA Ha Hb. unfold left_gram. rewrite dims_app, sumcfg_app. cbn [dims map sumcfg].
  rewrite sumcfg_sum. apply sum_ext. intros s _.
  transitivity (sumcfg (dims p) (fun u => sum i (fun q => sum i (fun q' =>
     sconj (ent A s q a) * ent A s q' b * (sconj (amp p u 0 q) * amp p u 0 q'))))).
  - apply sumcfg_ext. intros u Hu. apply incfg_length in Hu. rewrite dims_length in Hu.
    rewrite (amp_snoc p A u s a i Hc HA Hu Ha), (amp_snoc p A u s b i Hc HA Hu Hb).
    rewrite sum_conj, sum_prod. apply sum_ext. intros q _. apply sum_ext. intros q' _.
    rewrite conj_mul. ring.
  - rewrite sumcfg_sum. apply sum_ext. intros q _. rewrite sumcfg_sum. apply sum_ext. intros q' _.
    apply sumcfg_mul_l.
Qed.

Lemma gram_snoc_diag (p : list (site R)) A i Sv a b :
  chain 1 p i -> dl A = i -> a < dr A -> b < dr A -> diag_gram p i Sv ->
  left_gram (p ++ [A]) a b
  = sum (phys A) (fun s => sum i (fun q => sconj (ent A s q a) * Sv q * ent A s q b)).
Proof.
  intros Hc HA Ha Hb HG. rewrite (gram_snoc p A i a b Hc HA Ha Hb).
  apply sum_ext. intros s _. apply sum_ext. intros q Hq.
  rewrite (sum_ext i _ (fun q' => dlt q q' * (sconj (ent A s q a) * Sv q * ent A s q' b))).
  - rewrite sum_dlt_l by exact Hq. reflexivity.
  - intros q' Hq'. rewrite HG by assumption. unfold dlt.
    destruct (Nat.eqb_spec q q') as [->|]; ring.
Qed.

(** The rotated tensor V^dagger A V'. *)
Lemma gauge_site (A : site R) V V' n : mr V = n -> mc V = n -> dl A = n -> mr V' = dr A -> mc V' = dr A ->
  exists A1 A2, site_lmul (mH V) A = Ok A1 /\ site_rmul A1 V' = Ok A2 /\
    phys A2 = phys A /\ dl A2 = n /\ dr A2 = dr A /\
    forall s a b, ent A2 s a b = sum (dr A) (fun y => rot V A s a y * me V' y b).
Proof.
  intros H1 H2 H3 H4 H5. unfold site_lmul at 1. cbn [mH mc mr]. rewrite ?H1, ?H3, Nat.eqb_refl.
  do 2 eexists. split; [reflexivity|]. unfold site_rmul. cbn [dr]. rewrite H4, Nat.eqb_refl.
  split; [reflexivity|]. cbn. repeat split; auto.
  intros s a b. apply sum_ext. intros y _. unfold rot. rewrite ?H1, ?H3. reflexivity.
Qed.

(** Unitary rotation of the left index keeps right isometries. *)
Lemma rot_iso (A : site R) V n : unitary n V -> dl A = n -> right_iso A ->
  forall a b, a < n -> b < n ->
  sum (phys A) (fun s => sum (dr A) (fun y => rot V A s a y * sconj (rot V A s b y))) = dlt a b.
Proof.
  intros (H1 & H2 & H3 & H4) HA Hi a b Ha Hb.
  transitivity (sum n (fun x => sum n (fun x' => sconj (me V x a) * me V x' b *
     sum (phys A) (fun s => sum (dr A) (fun y => ent A s x y * sconj (ent A s x' y)))))).
  - transitivity (sum (phys A) (fun s => sum (dr A) (fun y => sum n (fun x => sum n (fun x' =>
       sconj (me V x a) * me V x' b * (ent A s x y * sconj (ent A s x' y))))))).
    + apply sum_ext. intros s _. apply sum_ext. intros y _. unfold rot.
      rewrite sum_conj, HA, sum_prod. apply sum_ext. intros x _. apply sum_ext. intros x' _.
      rewrite conj_mul, conj_conj. ring.
    + transitivity (sum (phys A) (fun s => sum n (fun x => sum n (fun x' => sum (dr A) (fun y =>
         sconj (me V x a) * me V x' b * (ent A s x y * sconj (ent A s x' y))))))).
      { apply sum_ext. intros s _. rewrite sum_swap. apply sum_ext. intros x _. apply sum_swap. }
      rewrite sum_swap. apply sum_ext. intros x _. rewrite sum_swap. apply sum_ext. intros x' _.
      rewrite <- sum_mul_l. apply sum_ext. intros s _. apply sum_mul_l.
  - rewrite <- (H3 a b Ha Hb). apply sum_ext. intros x Hx.
    rewrite (sum_ext n _ (fun x' => dlt x x' * (sconj (me V x a) * me V x' b))).
    + rewrite sum_dlt_l by exact Hx. reflexivity.
    + intros x' Hx'. rewrite (Hi x x') by lia. ring.
Qed.

Lemma gauge_iso (A A2 : site R) V V' n : unitary n V -> unitary (dr A) V' -> dl A = n ->
  phys A2 = phys A -> dl A2 = n -> dr A2 = dr A ->
  (forall s a b, ent A2 s a b = sum (dr A) (fun y => rot V A s a y * me V' y b)) ->
  right_iso A -> right_iso A2.
Proof.
  intros HV (W1 & W2 & W3 & W4) HA P1 P2 P3 P4 Hi a b Ha Hb. rewrite P2 in Ha, Hb.
  rewrite <- (rot_iso A V n HV HA Hi a b Ha Hb), P1. apply sum_ext. intros s _. rewrite P3.
  transitivity (sum (dr A) (fun k => sum (dr A) (fun y => sum (dr A) (fun y' =>
    rot V A s a y * sconj (rot V A s b y') * (me V' y k * sconj (me V' y' k)))))).
  - apply sum_ext. intros k _. rewrite !P4, sum_conj, sum_prod. apply sum_ext. intros y _.
    apply sum_ext. intros y' _. rewrite conj_mul. ring.
  - rewrite sum_swap. apply sum_ext. intros y Hy. rewrite sum_swap.
    rewrite (sum_ext (dr A) _ (fun y' => dlt y y' * (rot V A s a y * sconj (rot V A s b y')))).
    + rewrite sum_dlt_l by exact Hy. reflexivity.
    + intros y' Hy'. rewrite sum_mul_l, W4 by assumption. ring.
Qed.

(** The gauge sweep, independently of its direction: each tensor A becomes
    V^dagger A V' where V' diagonalises the environment. *)
Inductive gauged : mat R -> (nat -> R) -> list (site R) -> list (site R) -> list (nat -> R) -> Prop :=
| gauged_nil V Sv : gauged V Sv [] [] []
| gauged_cons V Sv A data V' Sv' A2 data' Svs :
    unitary (dr A) V' -> (forall k, k < dr A -> sconj (Sv' k) = Sv' k) ->
    (forall y y', y < dr A -> y' < dr A ->
       sum (phys A) (fun s => sum (dl A) (fun a => sconj (rot V A s a y) * Sv a * rot V A s a y'))
       = sum (dr A) (fun k => me V' y k * Sv' k * sconj (me V' y' k))) ->
    phys A2 = phys A -> dl A2 = dl A -> dr A2 = dr A ->
    (forall s a b, ent A2 s a b = sum (dr A) (fun y => rot V A s a y * me V' y b)) ->
    gauged V' Sv' data data' Svs -> gauged V Sv (A :: data) (A2 :: data') (Sv' :: Svs).

Lemma gauged_ok V Sv data data' Svs : gauged V Sv data data' Svs ->
  forall p p' i j,
  chain 1 p i -> chain 1 p' i -> dims p' = dims p -> unitary i V ->
  (forall u a, incfg (dims p) u -> a < i ->
     amp p' u 0 a = sum i (fun b => amp p u 0 b * me V b a)) ->
  diag_gram p' i Sv -> chain i data j -> Forall right_iso data ->
  exists W,
      chain i data' j /\ dims data' = dims data /\ Forall right_iso data' /\ unitary j W /\
      map (fun A => dl A) data' = map (fun A => dl A) data /\
      (forall u a, incfg (dims (p ++ data)) u -> a < j ->
         amp (p' ++ data') u 0 a = sum j (fun b => amp (p ++ data) u 0 b * me W b a)) /\
      length Svs = length data /\
      (forall k A, nth_error data' k = Some A -> exists Sk, nth_error Svs k = Some Sk /\
         diag_gram (p' ++ firstn (S k) data') (dr A) Sk).
Proof.
  intros HGd. induction HGd as [V Sv|V Sv A data V' Sv' A2 data' Svs HV' HS' HM P1 P2 P3 P4 HGd IH];
    intros p p' i j Hp Hp' Hd HV Hamp HG Hc Hiso.
  - exists V. simpl in Hc. subst j. split; [reflexivity|]. do 2 (split; [auto|]).
    split; [exact HV|]. split; [reflexivity|].
    split; [rewrite !app_nil_r; exact Hamp|]. split; [reflexivity|]. intros k A H. destruct k; discriminate.
  - destruct Hc as [HdA Hc]. inversion Hiso as [|? ? HiA Hiso']; subst.
    set (i := dl A) in *. pose proof HV as (V1 & V2 & V3 & V4).
    pose proof HV' as (V1' & V2' & V3' & V4').
    assert (Hp1 : chain 1 (p ++ [A]) (dr A)) by (eapply chain_app_mk; eauto).
    assert (Hp1' : chain 1 (p' ++ [A2]) (dr A)) by (eapply chain_app_mk; eauto).
    assert (Hd1 : dims (p' ++ [A2]) = dims (p ++ [A])).
    { rewrite !dims_app, Hd. unfold dims. simpl. rewrite P1. reflexivity. }
    assert (Hamp1 : forall u a, incfg (dims (p ++ [A])) u -> a < dr A ->
       amp (p' ++ [A2]) u 0 a = sum (dr A) (fun b => amp (p ++ [A]) u 0 b * me V' b a)).
    { intros t a Ht Ha. rewrite dims_app in Ht. apply incfg_snoc in Ht as (u & s & -> & Hu & Hs).
      assert (Hlu : length u = length p) by (apply incfg_length in Hu; rewrite dims_length in Hu; exact Hu).
      assert (Hlu' : length u = length p').
      { rewrite Hlu, <- !dims_length, Hd. reflexivity. }
      rewrite (amp_snoc p' A2 u s a i Hp' P2 Hlu') by lia.
      transitivity (sum (dr A) (fun y => sum i (fun q => amp p u 0 q * ent A s q y) * me V' y a)).
      2:{ apply sum_ext. intros y Hy. rewrite (amp_snoc p A u s y i Hp eq_refl Hlu Hy). reflexivity. }
      transitivity (sum i (fun q => sum (dr A) (fun y => amp p' u 0 q * rot V A s q y * me V' y a))).
      { apply sum_ext. intros q _. rewrite P4, <- sum_mul_l. apply sum_ext. intros; ring. }
      rewrite sum_swap. apply sum_ext. intros y _. rewrite sum_mul_r. f_equal.
      transitivity (sum i (fun q => sum i (fun b => sum i (fun x =>
         amp p u 0 b * ent A s x y * (me V b q * sconj (me V x q)))))).
      { apply sum_ext. intros q Hq. rewrite (Hamp u q Hu Hq). unfold rot. fold i. rewrite sum_prod.
        apply sum_ext. intros b _. apply sum_ext. intros x _. ring. }
      rewrite sum_swap. apply sum_ext. intros b Hb. rewrite sum_swap.
      rewrite (sum_ext i _ (fun x => dlt b x * (amp p u 0 b * ent A s x y))).
      - rewrite sum_dlt_l by exact Hb. reflexivity.
      - intros x Hx. rewrite sum_mul_l, V4 by assumption. ring. }
    assert (HG1 : diag_gram (p' ++ [A2]) (dr A) Sv').
    { intros a b Ha Hb. rewrite (gram_snoc_diag p' A2 i Sv a b Hp' P2) by (congruence || exact HG).
      transitivity (sum (dr A) (fun y => sum (dr A) (fun y' =>
         sconj (me V' y a) * me V' y' b *
         sum (phys A) (fun s => sum i (fun q => sconj (rot V A s q y) * Sv q * rot V A s q y'))))).
      { rewrite P1.
        transitivity (sum (phys A) (fun s => sum i (fun q => sum (dr A) (fun y => sum (dr A) (fun y' =>
           sconj (me V' y a) * me V' y' b * (sconj (rot V A s q y) * Sv q * rot V A s q y')))))).
        { apply sum_ext. intros s _. apply sum_ext. intros q _. rewrite !P4, sum_conj.
          rewrite <- sum_mul_r, sum_prod. apply sum_ext. intros y _. apply sum_ext. intros y' _.
          rewrite conj_mul. ring. }
        transitivity (sum (phys A) (fun s => sum (dr A) (fun y => sum (dr A) (fun y' => sum i (fun q =>
           sconj (me V' y a) * me V' y' b * (sconj (rot V A s q y) * Sv q * rot V A s q y')))))).
        { apply sum_ext. intros s _. rewrite sum_swap. apply sum_ext. intros y _. apply sum_swap. }
        rewrite sum_swap. apply sum_ext. intros y _. rewrite sum_swap. apply sum_ext. intros y' _.
        rewrite <- sum_mul_l. apply sum_ext. intros s _. apply sum_mul_l. }
      transitivity (sum (dr A) (fun k => Sv' k * (sum (dr A) (fun y => sconj (me V' y a) * me V' y k)
         * sum (dr A) (fun y' => sconj (me V' y' k) * me V' y' b)))).
      { transitivity (sum (dr A) (fun y => sum (dr A) (fun y' => sum (dr A) (fun k =>
           Sv' k * (sconj (me V' y a) * me V' y k * (sconj (me V' y' k) * me V' y' b)))))).
        { apply sum_ext. intros y Hy. apply sum_ext. intros y' Hy'.
          rewrite (HM y y' Hy Hy'), <- sum_mul_l. apply sum_ext. intros k _. ring. }
        transitivity (sum (dr A) (fun y => sum (dr A) (fun k => sum (dr A) (fun y' =>
           Sv' k * (sconj (me V' y a) * me V' y k * (sconj (me V' y' k) * me V' y' b)))))).
        { apply sum_ext. intros y _. apply sum_swap. }
        rewrite sum_swap. apply sum_ext. intros k _. rewrite sum_prod, <- sum_mul_l.
        apply sum_ext. intros y _. rewrite <- sum_mul_l. reflexivity. }
      rewrite (sum_ext (dr A) _ (fun k => dlt a k * (Sv' k * dlt k b))).
      - rewrite sum_dlt_l by exact Ha. unfold dlt. destruct (Nat.eqb a b); ring.
      - intros k Hk. rewrite (V3' a k), (V3' k b) by assumption. ring. }
    destruct (IH (p ++ [A]) (p' ++ [A2]) (dr A) j Hp1 Hp1' Hd1 HV' Hamp1 HG1 Hc Hiso')
      as (W & I1 & I2 & I3 & I4 & I5 & I6 & I7 & I8). exists W.
    split; [split; [exact P2|rewrite P3; exact I1]|].
    split; [unfold dims in *; simpl; rewrite I2, P1; reflexivity|].
    split; [constructor; [exact (gauge_iso A A2 V V' i HV HV' eq_refl P1 P2 P3 P4 HiA)|exact I3]|].
    split; [exact I4|].
    split; [simpl; rewrite I5, P2; reflexivity|].
    split. { rewrite <- !app_assoc in I6. exact I6. }
    split; [simpl; rewrite I7; reflexivity|].
    intros k B HB. destruct k as [|k]; simpl in HB.
    + injection HB as <-. exists Sv'. rewrite P3. split; [reflexivity|]. exact HG1.
    + destruct (I8 k B HB) as (Sk & K1 & K2). exists Sk. split; [exact K1|].
      rewrite <- app_assoc in K2. exact K2.
Qed.

(** The matrices of a gauge sweep. *)
Definition eigs_of (O : lapack2 R) (ns : list nat) (Ls : list (mat R)) (Svs : list (nat -> R)) : Prop :=
  Forall2 (fun n '(X, Sk) => X = mdiag n Sk /\
     (eig_zeros_last O -> forall x y, x <= y -> y < n -> Sk x = 0 -> Sk y = 0)) ns (combine Ls Svs)
  /\ length Ls = length ns /\ length Svs = length ns.

Lemma right_gauge_gauged (O : lapack2 R) : eig_ok O -> forall data V Sv i j,
  mr V = i -> mc V = i -> (forall k, k < i -> sconj (Sv k) = Sv k) -> chain i data j ->
  match right_gauge O V Sv data with
  | Err e => e = LinAlgError
  | Ok (data', Ls) => exists Svs, gauged V Sv data data' Svs /\
      eigs_of O (map (fun A => dr A) data) Ls Svs
  end.
Proof.
  intros HO data. induction data as [|A data IH]; intros V Sv i j V1 V2 HS Hc.
  - simpl. exists []. split; [constructor|]. repeat split; constructor.
  - destruct Hc as [HdA Hc]. rewrite <- HdA in V1, V2, HS. clear i HdA. cbn [right_gauge].
    destruct (left_env_step A V Sv) as [M|e] eqn:EM.
    2:{ exfalso. unfold left_env_step in EM. rewrite V1, Nat.eqb_refl in EM. discriminate. }
    cbn [bind].
    destruct (env_rot A V Sv (dl A) M V1 V2 eq_refl EM) as (M1 & M2 & M3).
    destruct (la_eig O M) as [[V' Sv']|] eqn:EE; [|reflexivity].
    destruct (HO M V' Sv' EE ltac:(congruence)
       (fun a b _ _ => env_herm A V Sv (dl A) M V1 V2 eq_refl HS EM a b)) as (HV' & HS' & HM).
    rewrite M1 in HV', HS', HM. pose proof HV' as (V1' & V2' & V3' & V4').
    destruct (gauge_site A V V' (dl A) V1 V2 eq_refl V1' V2') as (A1 & A2 & E1 & E2 & P1 & P2 & P3 & P4).
    rewrite E1. cbn [bind]. rewrite E2. cbn [bind].
    specialize (IH V' Sv' (dr A) j V1' V2' HS' Hc).
    destruct (right_gauge O V' Sv' data) as [[data' Ls]|e]; [|exact IH]. cbn [bind fst snd].
    destruct IH as (Svs & I1 & I2 & I3 & I4). exists (Sv' :: Svs). split.
    + econstructor; eauto. intros y y' Hy Hy'. rewrite <- M3. apply HM; assumption.
    + split; [|simpl; split; congruence]. simpl. constructor; [|exact I2].
      split; [rewrite M1; reflexivity|].
      intros HZ x y Hx Hy. apply (HZ M V' Sv' EE); [exact Hx|]. rewrite M1. exact Hy.
Qed.

(** Conjugate transpose of every matrix of a tensor. *)
Definition sH (A : site R) : site R := mkSite (phys A) (dr A) (dl A) (fun s i j => sconj (ent A s j i)).

Lemma left_gauge_gauged (O : lapack2 R) : eig_ok O -> forall rdata V Sv i j,
  mr V = i -> mc V = i -> (forall k, k < i -> sconj (Sv k) = Sv k) -> chain i (map sH rdata) j ->
  match left_gauge O V Sv rdata with
  | Err e => e = LinAlgError
  | Ok (rdata', Ls) => exists Svs, gauged V Sv (map sH rdata) (map sH rdata') Svs /\
      eigs_of O (map (fun A => dr A) (map sH rdata)) Ls Svs
  end.
Proof.
  intros HO rdata. induction rdata as [|A data IH]; intros V Sv i j V1 V2 HS Hc.
  - simpl. exists []. split; [constructor|]. repeat split; constructor.
  - destruct Hc as [HdA Hc]. rewrite <- HdA in V1, V2, HS. clear i HdA. cbn [sH dl dr] in *. cbn [left_gauge].
    unfold right_env_step. rewrite V1, Nat.eqb_refl. cbn [bind].
    set (M := mkMat _ _ _).
    assert (M3 : forall y y', me M y y' = sum (phys A) (fun s => sum (dr A) (fun a =>
       sconj (rot V (sH A) s a y) * Sv a * rot V (sH A) s a y'))).
    { intros y y'. cbn. rewrite V2. apply sum_ext. intros s _.
      transitivity (sum (dr A) (fun p => sum (dr A) (fun k =>
         ent A s y p * me V p k * (Sv k * rot V (sH A) s k y')))).
      { apply sum_ext. intros p _. apply sum_ext. intros k _. unfold rot. cbn.
        rewrite <- !sum_mul_l. apply sum_ext. intros q _. ring. }
      rewrite sum_swap. apply sum_ext. intros k _. rewrite sum_mul_r.
      assert (E : sum (dr A) (fun p => ent A s y p * me V p k) = sconj (rot V (sH A) s k y)).
      { unfold rot. cbn. rewrite sum_conj. apply sum_ext. intros x _. rewrite conj_mul, !conj_conj. ring. }
      rewrite E. unfold rot. cbn. ring. }
    assert (MH : forall a b, sconj (me M a b) = me M b a).
    { intros a b. rewrite !M3, sum_conj. apply sum_ext. intros s _. rewrite sum_conj. apply sum_ext.
      intros k Hk. rewrite !conj_mul, conj_conj, HS by exact Hk. ring. }
    destruct (la_eig O M) as [[V' Sv']|] eqn:EE; [|reflexivity].
    destruct (HO M V' Sv' EE eq_refl (fun a b _ _ => MH a b)) as (HV' & HS' & HM).
    cbn [M mr] in HV', HS', HM. pose proof HV' as (V1' & V2' & V3' & V4').
    unfold site_lmul. cbn [mH mc mr]. rewrite V1', Nat.eqb_refl. cbn [bind].
    unfold site_rmul. cbn [dr phys dl]. rewrite V1, Nat.eqb_refl. cbn [bind].
    specialize (IH V' Sv' (dl A) j V1' V2' HS' Hc).
    destruct (left_gauge O V' Sv' data) as [[data' Ls]|e]; [|exact IH]. cbn [bind fst snd].
    destruct IH as (Svs & I1 & I2 & I3 & I4). exists (Sv' :: Svs). split.
    + cbn [map]. apply gauged_cons with (V' := V'); [exact HV'|exact HS'| |reflexivity|exact V2|exact V2'| |exact I1].
      * cbn [sH phys dl dr]. intros y y' Hy Hy'. rewrite <- M3. apply HM; assumption.
      * intros s a b. cbn. unfold rot. cbn. rewrite sum_conj.
        transitivity (sum (dr A) (fun x => sum (dl A) (fun y =>
           sconj (me V x a) * sconj (ent A s y x) * me V' y b))).
        { apply sum_ext. intros x _. rewrite conj_mul, sum_conj, <- sum_mul_r. apply sum_ext. intros y _.
          rewrite conj_mul, conj_conj. ring. }
        rewrite sum_swap. apply sum_ext. intros y _. rewrite sum_mul_r. reflexivity.
    + split; [|simpl; split; congruence]. simpl. constructor; [|exact I2].
      split; [reflexivity|].
      intros HZ x y Hx Hy. apply (HZ M V' Sv' EE); [exact Hx|exact Hy].
Qed.

End Proofs.
