(** C45: Hamiltonians.py. *)
From Coq Require Import Ascii QArith.
From Verif Require Import Alg QScalars Oracle ModelMPS SpecMPS ModelNcon ModelEk ModelTensor SpecTensor SpecEk ModelSpin SpecSpin
  ModelHam SpecHam ProofHam ProofHam2 ProofHam3 ProofHam4.
Local Open Scope nat_scope.
Local Open Scope sr_scope.

(** The dictionary after the constructor, for any dictionary: a one-letter key goes, and
    its value, not half of it, is stored under both two-letter keys. *)
Theorem C45_init : forall (R : sring) (d : dict R), keys_nodup d ->
  keys_nodup (widen d) /\
  (forall c, dget (widen d) [c] = None) /\
  (forall c v, dget d [c] = Some v -> dget (widen d) [c; "I"%char] = Some v /\
     (dget d ["I"%char] = None -> dget (widen d) ["I"%char; c] = Some v)) /\
  (forall x y, (y = "I"%char -> dget d [x] = None) -> (x = "I"%char -> dget d [y] = None) -> dget (widen d) [x; y] = dget d [x; y]) /\
  (forall k, length k <> 1%nat -> length k <> 2%nat -> dget (widen d) k = dget d k).
Proof.
  intros R d Hn. destruct (widen_ok d Hn) as [Hn' Hw]. split; [exact Hn'|]. split; [intros c; now rewrite Hw|]. split; [|split].
  - intros c v Hv. rewrite !Hw. cbn [widened]. rewrite Ascii.eqb_refl, Hv. split; [reflexivity|]. intros Hi. rewrite Hi. now destruct (Ascii.eqb c "I").
  - intros x y Hy Hx. rewrite Hw. cbn [widened]. destruct (Ascii.eqb_spec y "I") as [E|_]; [rewrite (Hy E)|]; (destruct (Ascii.eqb_spec x "I") as [E'|_]; [rewrite (Hx E')|]); reflexivity.
  - intros k H1 H2. rewrite Hw. destruct k as [|x [|y [|]]]; cbn in H1, H2; try congruence; reflexivity.
Qed.
Print Assumptions C45_init.

(** The matrices of to_matrices add up to the couplings on all bonds and fields on all
    sites: the field of the first site is the one of the left letter, of the last site the
    one of the right letter, and the mean inside. *)
Theorem C45_to_matrices : forall (R : sring) (C : consts R) (eqb : R -> R -> bool) (h : ham R) (d : dict R) (L : nat),
  consts_ok C (fun _ => False) -> c_sqrt C 1 = 1 -> (forall x y, eqb x y = true <-> x = y) ->
  h_strings h = Some d -> keys_nodup d -> keys_two d -> (3 <= L)%nat ->
  exists ms, to_matrices C eqb h L = Ok ms /\ length ms = (L - 1)%nat /\ (forall m, In m ms -> mr m = 4%nat /\ mc m = 4%nat) /\
    forall s t, incfg (repeat 2%nat L) s -> incfg (repeat 2%nat L) t ->
      sum_terms 2 ms s t = chain_ham (c_im C) L (coef d)
        (fun i a => if Nat.eqb i 0 then coef d a LI else if Nat.eqb (S i) L then coef d LI a else c_half C * (coef d a LI + coef d LI a))
        (sofnat (L - 1) * coef d LI LI) s t.
Proof. intros R C eqb h d L HC H1 Heqb Hh Hn Ht. exact (to_matrices_sum C eqb HC H1 Heqb h d L Hh (conj Hn Ht)). Qed.
Print Assumptions C45_to_matrices.

(** On two sites all fields are halved. *)
Theorem C45_to_matrices_two : forall (R : sring) (C : consts R) (eqb : R -> R -> bool) (h : ham R) (d : dict R),
  consts_ok C (fun _ => False) -> c_sqrt C 1 = 1 -> (forall x y, eqb x y = true <-> x = y) ->
  h_strings h = Some d -> keys_nodup d -> keys_two d ->
  exists m, to_matrices C eqb h 2 = Ok [m] /\ mr m = 4%nat /\ mc m = 4%nat /\
    forall s t, incfg [2; 2]%nat s -> incfg [2; 2]%nat t ->
      sum_terms 2 [m] s t = chain_ham (c_im C) 2 (coef d) (fun i a => c_half C * (if Nat.eqb i 0 then coef d a LI else coef d LI a)) (coef d LI LI) s t.
Proof. intros R C eqb h d HC H1 Heqb Hh Hn Ht. exact (to_matrices_two C eqb HC H1 Heqb h d Hh (conj Hn Ht)). Qed.
Print Assumptions C45_to_matrices_two.

(** The MPO is the chain with the couplings and fields of the dictionary, on any number of
    sites; it exists exactly for Heisenberg dictionaries. *)
Theorem C45_to_mpo : forall (R : sring) (C : consts R) (eqb : R -> R -> bool) (h : ham R) (d : dict R) (L : nat),
  (forall x y, eqb x y = true <-> x = y) -> h_strings h = Some d -> keys_nodup d -> keys_two d ->
  (heisenberg d -> exists W, to_mpo C eqb h L = Ok (repeat W L) /\ tsh W = [5; 5; 2; 2]%nat /\
    forall s t, incfg (repeat 2%nat L) s -> incfg (repeat 2%nat L) t ->
      mpo_chain 5 (repeat W L) s t 0 4 = chain_ham (c_im C) L (coef d) (fun _ a => coef d LI a) 0 s t) /\
  (~ heisenberg d -> to_mpo C eqb h L = Err NotImplementedError).
Proof.
  intros R C eqb h d L Heqb Hh Hn Ht. split.
  - exact (to_mpo_ok C eqb Heqb h d L Hh (conj Hn Ht)).
  - exact (to_mpo_err C eqb Heqb h d L Hh (conj Hn Ht)).
Qed.
Print Assumptions C45_to_mpo.

Theorem C45_views_agree : forall (R : sring) (C : consts R) (eqb : R -> R -> bool) (h : ham R) (d : dict R) (L : nat),
  consts_ok C (fun _ => False) -> c_sqrt C 1 = 1 -> (forall x y, eqb x y = true <-> x = y) ->
  h_strings h = Some d -> keys_nodup d -> keys_two d -> heisenberg d -> (3 <= L)%nat ->
  exists ms Ws, to_matrices C eqb h L = Ok ms /\ to_mpo C eqb h L = Ok Ws /\
    forall s t, incfg (repeat 2%nat L) s -> incfg (repeat 2%nat L) t -> mpo_chain 5 Ws s t 0 4 = sum_terms 2 ms s t.
Proof. intros R C eqb h d L HC H1 Heqb Hh Hn Ht. exact (views_agree C eqb HC H1 Heqb h d L Hh (conj Hn Ht)). Qed.
Print Assumptions C45_views_agree.

(** Dictionaries of the documented form, as given to the constructor: from three sites on
    both views are the couplings of the two-letter keys on all bonds and the full fields of
    the one-letter keys on all sites. *)
Theorem C45_documented : forall (R : sring) (C : consts R) (eqb : R -> R -> bool) (d : dict R) (L dd : nat),
  consts_ok C (fun _ => False) -> c_sqrt C 1 = 1 -> (forall x y, eqb x y = true <-> x = y) ->
  keys_nodup d -> documented d -> (3 <= L)%nat ->
  (exists ms, to_matrices C eqb (ham_init (Some d) None dd) L = Ok ms /\ length ms = (L - 1)%nat /\
    forall s t, incfg (repeat 2%nat L) s -> incfg (repeat 2%nat L) t ->
      sum_terms 2 ms s t = chain_ham (c_im C) L (coef d) (fun _ => field d) 0 s t) /\
  ((forall a b, In [chr a; chr b] (map fst d) -> a = b) ->
   exists W, to_mpo C eqb (ham_init (Some d) None dd) L = Ok (repeat W L) /\
    forall s t, incfg (repeat 2%nat L) s -> incfg (repeat 2%nat L) t ->
      mpo_chain 5 (repeat W L) s t 0 4 = chain_ham (c_im C) L (coef d) (fun _ => field d) 0 s t).
Proof.
  intros R C eqb d L dd HC H1 Heqb Hn Hd HL. split.
  - exact (documented_matrices C eqb HC H1 Heqb d L dd Hn Hd HL).
  - exact (documented_mpo C eqb Heqb d L dd Hn Hd).
Qed.
Print Assumptions C45_documented.

(** to_full of given matrices on k sites each: the sum of the embedded matrices. *)
Theorem C45_to_full : forall (R : sring) (C : consts R) (eqb : R -> R -> bool) (ilog : nat -> nat -> res nat)
    (str : option (dict R)) (ms : list (mat R)) (k : nat) (L0 : option nat),
  (1 <= k)%nat -> ms <> [] -> (forall m, In m ms -> mr m = Nat.pow 2 k /\ mc m = Nat.pow 2 k) -> ilog (Nat.pow 2 k) 2%nat = Ok k ->
  let L := (length ms + k - 1)%nat in
  exists M, to_full C eqb ilog (ham_init str (Some ms) 2) L0 = Ok M /\ mr M = Nat.pow 2 L /\ mc M = Nat.pow 2 L /\
    forall s t, incfg (repeat 2%nat L) s -> incfg (repeat 2%nat L) t -> me M (rowmajor 2 s) (rowmajor 2 t) = sum_terms k ms s t.
Proof. intros R C eqb ilog str ms k L0. exact (to_full_ok C eqb ilog str ms k L0). Qed.
Print Assumptions C45_to_full.

(** From strings it never works: the local dimension is not set. *)
Theorem C45_to_full_strings : forall (R : sring) (C : consts R) (eqb : R -> R -> bool) (ilog : nat -> nat -> res nat) (d : dict R) (L dd : nat),
  consts_ok C (fun _ => False) -> c_sqrt C 1 = 1 -> (forall x y, eqb x y = true <-> x = y) ->
  keys_nodup d -> documented d -> (2 <= L)%nat ->
  to_full C eqb ilog (ham_init (Some d) None dd) (Some L) = Err AttributeError.
Proof.
  intros R C eqb ilog d L dd HC H1 Heqb Hn Hd HL. apply (to_full_strings C eqb HC H1 Heqb); [|exact HL]. apply (documented_widen d Hn Hd).
Qed.
Print Assumptions C45_to_full_strings.

(** * Example: {'ZZ': 3, 'X': 2} *)
Definition hamC : consts Qi := mkConsts (qi (1 # 2) 0) (qi 0 1) (fun _ => qi 1 0).
Definition hamD : dict Qi := [(["Z"; "Z"]%char, qi 3 0); (["X"%char], qi 2 0)].

Lemma hamC_ok : consts_ok hamC (fun _ => False) /\ c_sqrt hamC 1 = 1.
Proof.
  split; [|apply Qi_eqb_eq; reflexivity]. unfold consts_ok. repeat split; try (apply Qi_eqb_eq; vm_compute; reflexivity); destruct H.
Qed.
Lemma hamE : forall x y, Qi_eqb x y = true <-> x = y.
Proof.
  intros x y. split; [apply Qi_eqb_eq|]. intros ->. unfold Qi_eqb. destruct y. simpl. now rewrite !(proj2 (Qeq_bool_iff _ _) (Qeq_refl _)).
Qed.
Lemma hamD_ok : keys_nodup hamD /\ documented hamD /\ (forall a b, In [chr a; chr b] (map fst hamD) -> a = b).
Proof.
  split; [|split].
  - unfold keys_nodup, hamD. cbn. repeat constructor; cbn; intuition discriminate.
  - intros k v [E|[E|[]]]; injection E as <- <-; [right; exists LZ, LZ|left; exists LX]; cbn; tauto.
  - intros a b [E|[E|[]]]; [injection E as E1 E2; apply (chr_inj LZ) in E1; apply (chr_inj LZ) in E2; congruence|discriminate].
Qed.

Example C45_example : exists ms W, to_matrices hamC Qi_eqb (ham_init (Some hamD) None 2) 4 = Ok ms /\
  to_mpo hamC Qi_eqb (ham_init (Some hamD) None 2) 4 = Ok (repeat W 4) /\
  sum_terms 2 ms [0; 0; 0; 0]%nat [0; 0; 0; 0]%nat = qi 9 0 /\ mpo_chain 5 (repeat W 4) [0; 1; 0; 0]%nat [0; 0; 0; 0]%nat 0 4 = qi 2 0.
Proof.
  destruct hamD_ok as (Hn & Hd & Hdiag). destruct hamC_ok as [HC H1].
  destruct (C45_documented Qi hamC Qi_eqb hamD 4 2 HC H1 hamE Hn Hd) as [(ms & E & _ & Hm) HW]; [lia|].
  destruct (HW Hdiag) as (W & EW & Hw). exists ms, W. split; [exact E|]. split; [exact EW|].
  split; [rewrite Hm by (repeat constructor)|rewrite Hw by (repeat constructor)]; apply Qi_eqb_eq; vm_compute; reflexivity.
Qed.

(** to_full of two matrices on two sites each. *)
Example C45_to_full_example : exists ms, to_matrices hamC Qi_eqb (ham_init (Some hamD) None 2) 3 = Ok ms /\
  exists M, to_full hamC Qi_eqb (fun _ _ => Ok 2%nat) (ham_init None (Some ms) 2) None = Ok M /\ mr M = 8%nat /\ me M 0%nat 0%nat = qi 6 0.
Proof.
  destruct hamD_ok as (Hn & Hd & Hdiag). destruct hamC_ok as [HC H1].
  destruct (documented_widen hamD Hn Hd) as [[Hn2 Ht2] _].
  destruct (C45_to_matrices Qi hamC Qi_eqb (ham_init (Some hamD) None 2) (widen hamD) 3 HC H1 hamE eq_refl Hn2 Ht2) as (ms & E & Hl & Hs & Hm); [lia|].
  exists ms. split; [exact E|].
  destruct (C45_to_full Qi hamC Qi_eqb (fun _ _ => Ok 2%nat) None ms 2 None) as (M & EM & Mr & Mc & Me); try reflexivity; [lia|intros ->; discriminate|exact Hs|].
  exists M. split; [exact EM|]. rewrite Hl in Mr, Me. split; [exact Mr|].
  change (me M 0%nat 0%nat) with (me M (rowmajor 2 [0; 0; 0]%nat) (rowmajor 2 [0; 0; 0]%nat)). rewrite Me by (repeat constructor). rewrite Hm by (repeat constructor).
  apply Qi_eqb_eq; vm_compute; reflexivity.
Qed.

(** * What is not so *)
(** On two sites the views differ, and to_matrices is not the documented operator. *)
Theorem C45_two_sites_refuted : exists (d : dict Qi) (m : mat Qi) (W : tens Qi), keys_nodup d /\ documented d /\
  to_matrices hamC Qi_eqb (ham_init (Some d) None 2) 2 = Ok [m] /\ to_mpo hamC Qi_eqb (ham_init (Some d) None 2) 2 = Ok (repeat W 2) /\
  sum_terms 2 [m] [0; 1]%nat [0; 0]%nat = qi 1 0 /\ mpo_chain 5 (repeat W 2) [0; 1]%nat [0; 0]%nat 0 4 = qi 2 0.
Proof.
  destruct hamD_ok as (Hn & Hd & Hdiag). destruct hamC_ok as [HC H1]. destruct (documented_widen hamD Hn Hd) as [[Hn2 Ht2] _].
  destruct (C45_to_matrices_two Qi hamC Qi_eqb (ham_init (Some hamD) None 2) (widen hamD) HC H1 hamE eq_refl Hn2 Ht2) as (m & E & _ & _ & Hm).
  destruct (documented_mpo hamC Qi_eqb hamE hamD 2 2 Hn Hd Hdiag) as (W & EW & HW).
  exists hamD, m, W. split; [exact Hn|]. split; [exact Hd|]. split; [exact E|]. split; [exact EW|].
  split; [rewrite Hm by (repeat constructor)|rewrite HW by (repeat constructor)]; apply Qi_eqb_eq; vm_compute; reflexivity.
Qed.
Print Assumptions C45_two_sites_refuted.

(** The docstring says that {'X': v} means {'IX': v/2, 'XI': v/2}: both are the same only
    for v = 0. *)
Theorem C45_docstring_refuted : exists v : Qi,
  let one := widen [(["X"%char], v)] in let two := widen [(["I"; "X"]%char, v * c_half hamC); (["X"; "I"]%char, v * c_half hamC)] in
  dget one ["I"; "X"]%char = Some v /\ dget two ["I"; "X"]%char = Some (v * c_half hamC) /\ v <> v * c_half hamC.
Proof.
  exists (qi 2 0). cbn. split; [reflexivity|]. split; [reflexivity|]. intros E. apply (proj2 (hamE _ _)) in E. vm_compute in E. discriminate.
Qed.
Print Assumptions C45_docstring_refuted.
