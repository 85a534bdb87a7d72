(** The energy of an infinite MPS. *)
From Verif Require Import Alg ModelMPS SpecMPS ModelOrth SpecOrth ModelCanon SpecCanon ProofCanon2 ModelNcon SpecNcon ProofNcon ProofNcon4 ModelEk SpecEk ProofEk4 ModelTensor ModelNp ModelDecomp SpecDecomp
  ModelLie ModelStruct ProofStruct ModelImps SpecImps SpecSpin ProofImps ProofFm ProofImps2 ProofImps3 ProofImps4 ProofImps5 ProofImps6 ProofImps7 ProofEnergy.
From Coq Require Import Permutation Sorted.

Section C.
Context {R : sring}.
Local Open Scope sr_scope.
Add Ring Rr : (s_th R).

Lemma sum4 D (f : nat -> nat -> nat -> nat -> R) :
  sum D (fun i => sum D (fun j => sum D (fun a => sum D (fun b => f i j a b)))) = sum D (fun a => sum D (fun b => sum D (fun i => sum D (fun j => f i j a b)))).
Proof.
  transitivity (sum D (fun i => sum D (fun a => sum D (fun b => sum D (fun j => f i j a b))))).
  - apply sum_ext; intros i _. rewrite sum_swap. apply sum_ext; intros a _. apply sum_swap.
  - rewrite sum_swap. apply sum_ext; intros a _. apply sum_swap.
Qed.

Lemma haa_ok S D (A : site R) h : setio_ok S -> square_site D A -> mr h = Nat.pow (phys A) 2 -> mc h = Nat.pow (phys A) 2 ->
  exists T, haa S (phys A) h A = Ok T /\ tsh T = [phys A; phys A; D; D] /\ forall s1 s2 a i, s1 < phys A -> s2 < phys A ->
    te T [s1; s2; a; i] = sum (phys A) (fun t1 => sum (phys A) (fun t2 => sum D (fun k =>
      me h (s1 * phys A + s2)%nat (t1 * phys A + t2)%nat * (ent A t1 a k * ent A t2 k i)))).
Proof.
  intros HS [D1 D2] H1 H2. unfold haa. destruct (reshape_op_ok (phys A) 2 h H1 H2) as (T & ET & ST & VT). rewrite ET. cbn [bind]. cbn [repeat app] in ST.
  assert (Ed : exists d, phys A = d) by eauto. destruct Ed as (d & Ed). rewrite Ed in *.
  destruct (ncon_default_ok S (fun z => match z with (-3)%Z => D | 3%Z => D | (-4)%Z => D | _ => d end)
     [T; tens_site A; tens_site A] [[-1; -2; 1; 2]; [1; -3; 3]; [2; 3; -4]]%Z [1; 2; 3]%Z [-1; -2; -3; -4]%Z false HS) as (K & EK & SK & VK).
  { small_net. }
  { repeat constructor. }
  exists K. split; [exact EK|]. split; [exact SK|]. intros s1 s2 a i Hs1 Hs2. rewrite (VK [s1; s2; a; i] eq_refl). cbn [esum].
  apply sum_ext; intros t1 Ht1. apply sum_ext; intros t2 Ht2. apply sum_ext; intros k Hk.
  unfold tprod. cbv [assign eupd Z.eqb Pos.eqb]. cbn [combine map fst snd prodl fold_right te tens_site ent nth].
  change [s1; s2; t1; t2] with ([s1; s2] ++ [t1; t2]). rewrite VT; try (repeat first [apply Forall2_nil | apply Forall2_cons]; assumption).
  unfold block_op, rowmajor. cbn [fold_left Nat.mul Nat.add]. ring.
Qed.

Lemma aahaa_ok S D (A : site R) l T : setio_ok S -> square_site D A -> mr l = D -> mc l = D -> tsh T = [phys A; phys A; D; D] ->
  exists K, aahaa S l A T = Ok K /\ mr K = D /\ mc K = D /\ forall i j,
    me K i j = sum (phys A) (fun s1 => sum (phys A) (fun s2 => sum D (fun a => sum D (fun k =>
      sum D (fun b => me l a b * sconj (ent A s1 b k)) * sconj (ent A s2 k j) * te T [s1; s2; a; i])))).
Proof.
  intros HS [D1 D2] L1 L2 ST. unfold aahaa, site_lmul. cbn [site_conj dl phys dr]. rewrite L1, L2, D1, D2, Nat.eqb_refl. cbn [bind].
  assert (Ed : exists d, phys A = d) by eauto. destruct Ed as (d & Ed). rewrite Ed in *.
  match goal with |- context [ncon S [?X; ?Y; T] _ _ _ _] =>
  destruct (ncon_default_ok S (fun z => match z with (-1)%Z => D | 3%Z => D | 4%Z => D | (-2)%Z => D | _ => d end)
     [X; Y; T] [[1; 3; 4]; [2; 4; -2]; [1; 2; 3; -1]]%Z [1; 2; 3; 4]%Z [-1; -2]%Z false HS) as (K & EK & SK & VK) end.
  { small_net. }
  { repeat constructor. }
  rewrite EK. cbn [bind]. eexists. split; [reflexivity|]. cbn [as_mat mr mc me]. rewrite SK. split; [reflexivity|]. split; [reflexivity|].
  intros i j. rewrite (VK [i; j] eq_refl). cbn [esum]. apply sum_ext; intros s1 _. apply sum_ext; intros s2 _. apply sum_ext; intros a _. apply sum_ext; intros k _.
  unfold tprod. cbv [assign eupd Z.eqb Pos.eqb]. cbn [combine map fst snd prodl fold_right te tens_site site_conj ent nth]. ring.
Qed.

Lemma energy_ok S (C : icalls R) D (A : site R) rest m H h eta l r e : setio_ok S -> i_data m = A :: rest -> i_d m = phys A -> square_site D A ->
  getitem H 0 = Ok h -> mr h = Nat.pow (phys A) 2 -> mc h = Nat.pow (phys A) 2 ->
  imps_eigs C m None None = Ok (eta, l, r) -> mr l = D -> mc l = D -> mr r = D -> mc r = D ->
  imps_energy S C m H = Ok e -> e = sre (two_exp D A (me l) (me (mtr r)) h).
Proof.
  intros HS Hm Hd HA Hh H1 H2 He L1 L2 R1 R2 HE. unfold imps_energy in HE. rewrite Hh, Hm in HE. cbn [getitem nth_error bind] in HE. rewrite He, Hd in HE. cbn [bind fst snd] in HE.
  destruct (haa_ok S D A h HS HA H1 H2) as (T & ET & ST & VT). rewrite ET in HE. cbn [bind] in HE.
  destruct (aahaa_ok S D A l T HS HA L1 L2 ST) as (K & EK & K1 & K2 & VK). rewrite EK in HE. cbn [bind] in HE.
  rewrite mdot_ok in HE by congruence. cbn [bind] in HE. injection HE as <-. f_equal. unfold mtr_. cbn [mr mc me]. rewrite K1, K2, R2, Nat.min_id.
  unfold two_exp. set (d := phys A) in *.
  transitivity (sum d (fun s1 => sum d (fun s2 => sum D (fun i => sum D (fun j => sum D (fun a => sum D (fun k =>
     sum D (fun b => me l a b * sconj (ent A s1 b k)) * sconj (ent A s2 k j) * te T [s1; s2; a; i])) * me r j i))))).
  { transitivity (sum D (fun i => sum d (fun s1 => sum d (fun s2 => sum D (fun j => sum D (fun a => sum D (fun k =>
     sum D (fun b => me l a b * sconj (ent A s1 b k)) * sconj (ent A s2 k j) * te T [s1; s2; a; i])) * me r j i))))).
    - apply sum_ext; intros i _. transitivity (sum D (fun j => sum d (fun s1 => sum d (fun s2 => sum D (fun a => sum D (fun k =>
     sum D (fun b => me l a b * sconj (ent A s1 b k)) * sconj (ent A s2 k j) * te T [s1; s2; a; i])) * me r j i)))).
      + apply sum_ext; intros j _. rewrite VK, <- sum_mul_r. apply sum_ext; intros s1 _. rewrite <- sum_mul_r. reflexivity.
      + rewrite sum_swap. apply sum_ext; intros s1 _. apply sum_swap.
    - rewrite sum_swap. apply sum_ext; intros s1 _. apply sum_swap. }
  apply sum_ext; intros s1 Hs1. apply sum_ext; intros s2 Hs2.
  transitivity (sum D (fun i => sum D (fun j => sum D (fun a => sum D (fun b => sum d (fun t1 => sum d (fun t2 =>
     me h (s1 * d + s2)%nat (t1 * d + t2)%nat * (me l a b * sum D (fun k => ent A t1 a k * ent A t2 k i) * me r j i * sconj (sum D (fun k => ent A s1 b k * ent A s2 k j)))))))))).
  { apply sum_ext; intros i _. apply sum_ext; intros j _. rewrite <- sum_mul_r. apply sum_ext; intros a _.
    assert (ET' : te T [s1; s2; a; i] = sum d (fun t1 => sum d (fun t2 => me h (s1 * d + s2)%nat (t1 * d + t2)%nat * sum D (fun k => ent A t1 a k * ent A t2 k i)))).
    { rewrite VT by assumption. apply sum_ext; intros t1 _. apply sum_ext; intros t2 _. apply sum_mul_l. }
    rewrite ET'.
    transitivity (sum D (fun b => me l a b * me r j i * sconj (sum D (fun k => ent A s1 b k * ent A s2 k j)) * sum d (fun t1 => sum d (fun t2 => me h (s1 * d + s2)%nat (t1 * d + t2)%nat * sum D (fun k => ent A t1 a k * ent A t2 k i))))).
    - set (w := sum d _).
      transitivity (w * me r j i * sum D (fun k => sum D (fun b => me l a b * sconj (ent A s1 b k)) * sconj (ent A s2 k j))).
      { rewrite (sum_mul_r D). ring. }
      transitivity (w * me r j i * sum D (fun b => me l a b * sconj (sum D (fun k => ent A s1 b k * ent A s2 k j)))).
      + f_equal. transitivity (sum D (fun k => sum D (fun b => me l a b * sconj (ent A s1 b k) * sconj (ent A s2 k j)))).
        { apply sum_ext; intros k _. rewrite <- sum_mul_r. reflexivity. }
        rewrite sum_swap. apply sum_ext; intros b _. rewrite sum_conj, <- sum_mul_l. apply sum_ext; intros k _. rewrite (conj_mul R). ring.
      + rewrite <- sum_mul_l. apply sum_ext; intros b _. ring.
    - apply sum_ext; intros b _. rewrite <- sum_mul_l. apply sum_ext; intros t1 _. rewrite <- sum_mul_l. apply sum_ext; intros t2 _. ring. }
  (* move the sums over t1 and t2 outwards *)
  transitivity (sum d (fun t1 => sum d (fun t2 => sum D (fun i => sum D (fun j => sum D (fun a => sum D (fun b =>
     me h (s1 * d + s2)%nat (t1 * d + t2)%nat * (me l a b * sum D (fun k => ent A t1 a k * ent A t2 k i) * me r j i * sconj (sum D (fun k => ent A s1 b k * ent A s2 k j)))))))))).
  { assert (SW : forall f : nat -> nat -> nat -> R, sum D (fun x => sum d (fun t1 => sum d (fun t2 => f x t1 t2))) = sum d (fun t1 => sum d (fun t2 => sum D (fun x => f x t1 t2)))).
    { intros f. rewrite sum_swap. apply sum_ext; intros t1 _. apply sum_swap. }
    rewrite <- SW. apply sum_ext; intros i _. rewrite <- SW. apply sum_ext; intros j _. rewrite <- SW. apply sum_ext; intros a _. rewrite <- SW. reflexivity. }
  apply sum_ext; intros t1 _. apply sum_ext; intros t2 _.
  transitivity (me h (s1 * d + s2)%nat (t1 * d + t2)%nat * sum D (fun i => sum D (fun j => sum D (fun a => sum D (fun b =>
     me l a b * sum D (fun k => ent A t1 a k * ent A t2 k i) * me r j i * sconj (sum D (fun k => ent A s1 b k * ent A s2 k j))))))).
  { rewrite <- sum_mul_l. apply sum_ext; intros i _. rewrite <- sum_mul_l. apply sum_ext; intros j _. rewrite <- sum_mul_l. apply sum_ext; intros a _. rewrite <- sum_mul_l. reflexivity. }
  f_equal. rewrite sum4. reflexivity.
Qed.
End C.
