(** Transfer matrices as operators on vectors. *)
From Verif Require Import Alg ModelMPS SpecMPS ModelOrth ModelCanon ModelNcon ModelEk ModelTensor ModelNp ModelDecomp SpecDecomp ModelLie
  ModelStruct ProofStruct ProofEk4 ModelImps SpecImps SpecSpin.

Section A.
Context {R : sring}.
Local Open Scope sr_scope.
Add Ring Rr : (s_th R).

Lemma flat2_len (M : mat R) : length (flat2 M) = (mr M * mc M)%nat.
Proof.
  unfold flat2. rewrite (flat_map_len _ (mc M)).
  - rewrite seq_length. lia.
  - intros. rewrite map_length, seq_length. reflexivity.
Qed.

Lemma flat2_nth (M : mat R) i j : i < mr M -> j < mc M -> nth (i * mc M + j)%nat (flat2 M) 0 = me M i j.
Proof.
  intros Hi Hj. pose proof (flatten_nth (mkSite 1 (mr M) (mc M) (fun _ => me M)) 0 i j) as H.
  cbn [phys dl dr ent] in H. specialize (H (Nat.lt_0_1) Hi Hj). rewrite Nat.mul_0_l, Nat.add_0_l in H.
  rewrite <- H. unfold flat2, flatten. cbn [phys dl dr ent seq flat_map]. rewrite app_nil_r. reflexivity.
Qed.

Lemma reshape2_ok D (v : list R) : length v = (D * D)%nat -> reshape2 D D v = Ok (unvec D v).
Proof. intros H. unfold reshape2. rewrite H, Nat.eqb_refl. reflexivity. Qed.
Lemma reshape2_bad a b (v : list R) : length v <> (a * b)%nat -> reshape2 a b v = Err ValueError.
Proof. intros H. unfold reshape2. destruct (Nat.eqb_spec (length v) (a * b)); congruence. Qed.

Lemma reshape1_ok n (M : mat R) : (mr M * mc M)%nat = n -> reshape1 n M = Ok (flat2 M).
Proof. intros H. unfold reshape1. rewrite H, Nat.eqb_refl. reflexivity. Qed.

(** lists by their entries *)
Lemma list_square D (u v : list R) : length u = (D * D)%nat -> length v = (D * D)%nat ->
  (forall i j, i < D -> j < D -> nth (i * D + j)%nat u 0 = nth (i * D + j)%nat v 0) -> u = v.
Proof.
  intros Hu Hv H. apply (nth_ext _ _ 0 0); [congruence|]. intros n Hn. rewrite Hu in Hn.
  assert (D <> 0)%nat by (intros ->; lia).
  rewrite (Nat.div_mod n D) by assumption. rewrite (Nat.mul_comm D). apply H.
  - apply Nat.div_lt_upper_bound; lia.
  - apply Nat.mod_upper_bound; assumption.
Qed.

Lemma unvec_flat2 D (M : mat R) i j : mr M = D -> mc M = D -> i < D -> j < D -> me (unvec D (flat2 M)) i j = me M i j.
Proof. intros H1 H2 Hi Hj. cbn [unvec me]. rewrite <- H2 at 1. apply flat2_nth; lia. Qed.

(** the three-factor products *)
Lemma triple_right (A B : site R) (M : mat R) D : phys A = phys B -> dr A = D -> mr M = D -> mc M = D -> dr B = D ->
  exists X, (do X <- site_rmul A M; stack_mul X (site_H B)) = Ok X /\ phys X = phys A /\ dl X = dl A /\ dr X = dl B /\
    forall i j, sum (phys X) (fun s => ent X s i j) = tright A B (me M) i j.
Proof.
  intros Hp HA H1 H2 HB. unfold site_rmul. rewrite HA, H1, Nat.eqb_refl. cbn [bind]. unfold stack_mul.
  cbn [phys dl dr ent site_H]. rewrite H2, HB, Hp, !Nat.eqb_refl. cbn [andb orb].
  eexists. split; [reflexivity|]. cbn [phys dl dr ent].
  destruct (Nat.eqb_spec (phys B) 1) as [E|E].
  - split; [reflexivity|]. split; [reflexivity|]. split; [reflexivity|]. intros i j. unfold tright. rewrite Hp, E, HA, HB. cbn [sum].
    f_equal. rewrite sum_swap. apply sum_ext; intros k _. rewrite <- sum_mul_r. apply sum_ext; intros a _. reflexivity.
  - split; [reflexivity|]. split; [reflexivity|]. split; [reflexivity|]. intros i j. unfold tright. rewrite Hp, HA, HB.
    apply sum_ext; intros s _. rewrite sum_swap. apply sum_ext; intros k _. rewrite <- sum_mul_r. apply sum_ext; intros a _. reflexivity.
Qed.

(** both layers exchanged *)
Lemma triple_left (A B : site R) (M : mat R) D : phys A = phys B -> dl A = D -> mr M = D -> mc M = D -> dl B = D ->
  exists X, (do X <- site_rmul (site_T A) M; stack_mul X (site_conj B)) = Ok X /\ phys X = phys A /\ dl X = dr A /\ dr X = dr B /\
    forall i j, sum (phys X) (fun s => ent X s i j) = tleft A B (me M) i j.
Proof.
  intros Hp HA H1 H2 HB.
  destruct (triple_right (site_T A) (site_T B) M D Hp HA H1 H2 HB) as (X & E & X1 & X2 & X3 & X4).
  exists X. split; [exact E|]. split; [exact X1|]. split; [exact X2|]. split; [exact X3|]. exact X4.
Qed.

Lemma bind_assoc {X Y Z} (x : res X) (f : X -> res Y) (g : Y -> res Z) : (do b <- (do a <- x; f a); g b) = (do a <- x; do b <- f a; g b).
Proof. destruct x; reflexivity. Qed.

Lemma sum_site D (X : site R) n : dl X = D -> dr X = D -> n = (D * D)%nat ->
  exists w, reshape1 n (stack_sum X) = Ok w /\ length w = (D * D)%nat /\
    forall i j, i < D -> j < D -> nth (i * D + j)%nat w 0 = sum (phys X) (fun s => ent X s i j).
Proof.
  intros H1 H2 ->. exists (flat2 (stack_sum X)). unfold stack_sum at 1. rewrite reshape1_ok by (cbn [mr mc]; congruence).
  split; [reflexivity|]. split; [rewrite flat2_len; cbn [stack_sum mr mc]; congruence|].
  intros i j Hi Hj. rewrite <- H2. change (dr X) with (mc (stack_sum X)). rewrite flat2_nth by (cbn [stack_sum mr mc]; lia). reflexivity.
Qed.

Lemma tm_mv_ok D (A : site R) (v : list R) : square_site D A -> length v = (D * D)%nat ->
  exists w, tm_mv A v = Ok w /\ length w = (D * D)%nat /\
    forall i j, i < D -> j < D -> nth (i * D + j)%nat w 0 = tright A A (me (unvec D v)) i j.
Proof.
  intros (H1 & H2) Hv. unfold tm_mv. rewrite H1, H2, reshape2_ok by exact Hv. cbn [bind].
  destruct (triple_right A A (unvec D v) D eq_refl H2 eq_refl eq_refl H2) as (X & E & X1 & X2 & X3 & X4).
  rewrite <- bind_assoc, E. cbn [bind].
  destruct (sum_site D X (D * D)%nat) as (w & W1 & W2 & W3); try congruence.
  exists w. split; [exact W1|]. split; [exact W2|]. intros i j Hi Hj. rewrite W3, X4 by assumption. reflexivity.
Qed.

Lemma tm_mvr_ok D (A : site R) (v : list R) : square_site D A -> length v = (D * D)%nat ->
  exists w, tm_mvr A v = Ok w /\ length w = (D * D)%nat /\
    forall i j, i < D -> j < D -> nth (i * D + j)%nat w 0 = tleft A A (me (unvec D v)) i j.
Proof.
  intros (H1 & H2) Hv. unfold tm_mvr. rewrite H1, H2, reshape2_ok by exact Hv. cbn [bind].
  destruct (triple_left A A (unvec D v) D eq_refl H1 eq_refl eq_refl H1) as (X & E & X1 & X2 & X3 & X4).
  rewrite <- bind_assoc, E. cbn [bind].
  destruct (sum_site D X (D * D)%nat) as (w & W1 & W2 & W3); try congruence.
  exists w. split; [exact W1|]. split; [exact W2|]. intros i j Hi Hj. rewrite W3, X4 by assumption. reflexivity.
Qed.

Lemma map_mv_ok D (A B : site R) (v : list R) : square_site D A -> square_site D B -> phys A = phys B -> length v = (D * D)%nat ->
  exists w, map_mv A B v = Ok w /\ length w = (D * D)%nat /\
    forall i j, i < D -> j < D -> nth (i * D + j)%nat w 0 = tright A B (me (unvec D v)) i j.
Proof.
  intros (H1 & H2) (H3 & H4) Hp Hv. unfold map_mv. rewrite H1, reshape2_ok by exact Hv. cbn [bind].
  destruct (triple_right A B (unvec D v) D Hp H2 eq_refl eq_refl H4) as (X & E & X1 & X2 & X3 & X4).
  rewrite <- bind_assoc, E. cbn [bind].
  destruct (sum_site D X (D * D)%nat) as (w & W1 & W2 & W3); try congruence.
  exists w. split; [exact W1|]. split; [exact W2|]. intros i j Hi Hj. rewrite W3, X4 by assumption. reflexivity.
Qed.

Lemma map_mvr_ok D (A B : site R) (v : list R) : square_site D A -> square_site D B -> phys A = phys B -> length v = (D * D)%nat ->
  exists w, map_mvr A B v = Ok w /\ length w = (D * D)%nat /\
    forall i j, i < D -> j < D -> nth (i * D + j)%nat w 0 = tadj A B (me (unvec D v)) i j.
Proof.
  intros (H1 & H2) (H3 & H4) Hp Hv. unfold map_mvr. rewrite H1, reshape2_ok by exact Hv. cbn [bind].
  unfold site_rmul. cbn [site_H dr phys dl ent unvec mr mc]. rewrite H1, Nat.eqb_refl. cbn [bind]. unfold stack_mul. cbn [dr dl phys ent].
  rewrite H3, Hp, !Nat.eqb_refl. cbn [andb orb bind].
  edestruct (sum_site D) as (w & W1 & W2 & W3); [| | |exists w; split; [exact W1|]; split; [exact W2|]]; [exact H2|exact H4|reflexivity|].
  intros i j Hi Hj. rewrite W3 by assumption. cbn [phys ent]. unfold tadj. rewrite Hp, H1, H3.
  destruct (Nat.eqb_spec (phys B) 1) as [E|E].
  - rewrite E. cbn [sum]. f_equal. rewrite sum_swap. apply sum_ext; intros k _. rewrite <- sum_mul_r. reflexivity.
  - apply sum_ext; intros s _. rewrite sum_swap. apply sum_ext; intros k _. rewrite <- sum_mul_r. reflexivity.
Qed.

(** the dense matrices *)
Lemma dense_entry D x y : x < D -> y < D -> (x * D + y < D * D)%nat.
Proof. intros. nia. Qed.
Lemma div_pair D x y : y < D -> ((x * D + y) / D = x)%nat.
Proof. intros. rewrite Nat.div_add_l by lia. rewrite Nat.div_small by lia. lia. Qed.
Lemma mod_pair D x y : y < D -> ((x * D + y) mod D = y)%nat.
Proof. intros. rewrite Nat.add_comm, Nat.mod_add by lia. apply Nat.mod_small; lia. Qed.

Lemma dense_reshape D (T : tens R) : tsh T = [D; D; D; D] ->
  exists T', reshape_ [D * D; D * D]%nat T = Ok T' /\ tsh T' = [D * D; D * D]%nat /\
    forall i j a b, i < D -> j < D -> a < D -> b < D -> te T' [i * D + j; a * D + b]%nat = te T [i; j; a; b].
Proof.
  intros HT. unfold reshape_. rewrite HT. cbn [fold_right].
  replace (D * (D * (D * (D * 1))) =? D * D * (D * D * 1))%nat with true by (symmetry; apply Nat.eqb_eq; lia).
  eexists. split; [reflexivity|]. split; [reflexivity|]. intros i j a b Hi Hj Ha Hb. cbn [te]. f_equal.
  rewrite <- (proj1 (unravel_ravel [D; D; D; D] [i; j; a; b] ltac:(repeat constructor; assumption))).
  f_equal. cbn [ravel fold_right]. nia.
Qed.

Lemma map_asmatrix_ok D (A B : site R) : square_site D A -> square_site D B -> phys A = phys B ->
  exists M, map_asmatrix A B = Ok M /\ mr M = (D * D)%nat /\ mc M = (D * D)%nat /\
    forall i j a b, i < D -> j < D -> a < D -> b < D ->
      me M (i * D + j)%nat (a * D + b)%nat = sum (phys A) (fun s => ent A s i a * sconj (ent B s j b)).
Proof.
  intros (H1 & H2) (H3 & H4) Hp. unfold map_asmatrix, con.
  cbn [tens_site site_H tsh phys dl dr mapM getitem nth_error bind nlist_eqb]. rewrite Hp, Nat.eqb_refl.
  cbn [andb bind transpose_ tsh length app].
  unfold transpose_. cbn. rewrite H1, H2, H3, H4.
  match goal with |- context [reshape_ _ ?T] => destruct (dense_reshape D T eq_refl) as (T' & E & Et & Ee) end.
  rewrite E. cbn [bind]. eexists. split; [reflexivity|]. cbn [as_mat mr mc me]. rewrite Et. split; [reflexivity|]. split; [reflexivity|].
  intros i j a b Hi Hj Ha Hb. rewrite Ee by assumption. cbn. reflexivity.
Qed.

Lemma tm_asmatrix_ok D (A : site R) : square_site D A ->
  exists M, tm_asmatrix A = Ok M /\ mr M = (D * D)%nat /\ mc M = (D * D)%nat /\
    forall i j a b, i < D -> j < D -> a < D -> b < D ->
      me M (i * D + j)%nat (a * D + b)%nat = sum (phys A) (fun s => ent A s i a * sconj (ent A s j b)).
Proof.
  intros (H1 & H2). unfold tm_asmatrix, con.
  cbn [tens_site site_conj tsh phys dl dr mapM getitem nth_error bind nlist_eqb]. rewrite Nat.eqb_refl.
  cbn [andb bind transpose_ tsh length app].
  unfold transpose_. cbn. rewrite H1, H2.
  match goal with |- context [reshape_ _ ?T] => destruct (dense_reshape D T eq_refl) as (T' & E & Et & Ee) end.
  rewrite E. cbn [bind]. eexists. split; [reflexivity|]. cbn [as_mat mr mc me]. rewrite Et. split; [reflexivity|]. split; [reflexivity|].
  intros i j a b Hi Hj Ha Hb. rewrite Ee by assumption. cbn. reflexivity.
Qed.

Lemma mvec_len (M : mat R) v : length (mvec M v) = mr M.
Proof. unfold mvec. now rewrite map_length, seq_length. Qed.
Lemma mvec_nth (M : mat R) v i : i < mr M -> nth i (mvec M v) 0 = sum (mc M) (fun j => me M i j * nth j v 0).
Proof.
  intros Hi. unfold mvec. set (f := fun i => sum (mc M) (fun j => me M i j * nth j v 0)).
  rewrite (nth_indep _ 0 (f 0%nat)) by (rewrite map_length, seq_length; exact Hi). rewrite map_nth, seq_nth by exact Hi. reflexivity.
Qed.

(** a dense matrix with the entries of the map multiplies as the map acts *)
Lemma dense_right D (A B : site R) (M : mat R) (v : list R) : square_site D A -> square_site D B -> mr M = (D * D)%nat -> mc M = (D * D)%nat ->
  (forall i j a b, i < D -> j < D -> a < D -> b < D ->
      me M (i * D + j)%nat (a * D + b)%nat = sum (phys A) (fun s => ent A s i a * sconj (ent B s j b))) ->
  forall i j, i < D -> j < D -> nth (i * D + j)%nat (mvec M v) 0 = tright A B (me (unvec D v)) i j.
Proof.
  intros (H1 & H2) (H3 & H4) M1 M2 M3 i j Hi Hj. rewrite mvec_nth by (rewrite M1; nia). rewrite M2, sum_mul. unfold tright. rewrite H2, H4.
  symmetry. rewrite sum_swap. apply sum_ext; intros a Ha. rewrite sum_swap. apply sum_ext; intros b Hb.
  rewrite M3 by assumption. rewrite <- sum_mul_r. apply sum_ext; intros s _. cbn [unvec me]. ring.
Qed.
Lemma dense_left D (A B : site R) (M : mat R) (v : list R) : square_site D A -> square_site D B -> mr M = (D * D)%nat -> mc M = (D * D)%nat ->
  (forall i j a b, i < D -> j < D -> a < D -> b < D ->
      me M (i * D + j)%nat (a * D + b)%nat = sum (phys A) (fun s => ent A s i a * sconj (ent B s j b))) ->
  forall i j, i < D -> j < D -> nth (i * D + j)%nat (mvec (mtr M) v) 0 = tleft A B (me (unvec D v)) i j.
Proof.
  intros (H1 & H2) (H3 & H4) M1 M2 M3 i j Hi Hj. rewrite mvec_nth by (cbn [mtr mr]; rewrite M2; nia). cbn [mtr mc me]. rewrite M1, sum_mul.
  unfold tleft. rewrite H1, H3.
  symmetry. rewrite sum_swap. apply sum_ext; intros a Ha. rewrite sum_swap. apply sum_ext; intros b Hb.
  rewrite M3 by assumption. rewrite <- sum_mul_r. apply sum_ext; intros s _. cbn [unvec me]. ring.
Qed.
Lemma dense_adj D (A B : site R) (M : mat R) (v : list R) : square_site D A -> square_site D B -> mr M = (D * D)%nat -> mc M = (D * D)%nat ->
  (forall i j a b, i < D -> j < D -> a < D -> b < D ->
      me M (i * D + j)%nat (a * D + b)%nat = sum (phys A) (fun s => ent A s i a * sconj (ent B s j b))) ->
  forall i j, i < D -> j < D -> nth (i * D + j)%nat (mvec (mct M) v) 0 = tadj A B (me (unvec D v)) i j.
Proof.
  intros (H1 & H2) (H3 & H4) M1 M2 M3 i j Hi Hj. rewrite mvec_nth by (cbn [mct mr]; rewrite M2; nia). cbn [mct mc me]. rewrite M1, sum_mul.
  unfold tadj. rewrite H1, H3.
  symmetry. rewrite sum_swap. apply sum_ext; intros a Ha. rewrite sum_swap. apply sum_ext; intros b Hb.
  rewrite M3 by assumption. rewrite sum_conj, <- sum_mul_r. apply sum_ext; intros s _. cbn [unvec me]. rewrite conj_mul, conj_conj. ring.
Qed.

(** ** TransferMatrix *)
Lemma tm_dense D (A : site R) : square_site D A -> exists M, tm_asmatrix A = Ok M /\ mr M = (D * D)%nat /\ mc M = (D * D)%nat /\
  (forall i j a b, i < D -> j < D -> a < D -> b < D ->
      me M (i * D + j)%nat (a * D + b)%nat = sum (phys A) (fun s => ent A s i a * sconj (ent A s j b))) /\
  forall v, length v = (D * D)%nat -> tm_mv A v = Ok (mvec M v) /\ tm_mvr A v = Ok (mvec (mtr M) v).
Proof.
  intros HA. destruct (tm_asmatrix_ok D A HA) as (M & E & M1 & M2 & M3). exists M. split; [exact E|]. split; [exact M1|]. split; [exact M2|]. split; [exact M3|].
  intros v Hv. split.
  - destruct (tm_mv_ok D A v HA Hv) as (w & W1 & W2 & W3). rewrite W1. f_equal. apply (list_square D); [exact W2|rewrite mvec_len; exact M1|].
    intros i j Hi Hj. rewrite W3 by assumption. symmetry. now apply dense_right.
  - destruct (tm_mvr_ok D A v HA Hv) as (w & W1 & W2 & W3). rewrite W1. f_equal. apply (list_square D); [exact W2|rewrite mvec_len; exact M2|].
    intros i j Hi Hj. rewrite W3 by assumption. symmetry. now apply dense_left.
Qed.

Lemma tm_bad_len (A : site R) v : length v <> (dl A * dr A)%nat -> tm_mv A v = Err ValueError /\ tm_mvr A v = Err ValueError.
Proof. intros H. unfold tm_mv, tm_mvr. rewrite reshape2_bad by exact H. auto. Qed.

Lemma tm_not_square (A : site R) v : dl A <> dr A -> tm_mv A v = Err ValueError /\ tm_mvr A v = Err ValueError.
Proof.
  intros H. unfold tm_mv, tm_mvr, reshape2. destruct (Nat.eqb_spec (length v) (dl A * dr A)); [|auto]. cbn [bind].
  unfold site_rmul. cbn [mr mc site_T dr].
  destruct (Nat.eqb_spec (dr A) (dl A)); [congruence|]. split; [reflexivity|]. rewrite Nat.eqb_refl. cbn [bind].
  unfold stack_mul. cbn [dr dl site_conj]. destruct (Nat.eqb_spec (dr A) (dl A)); [congruence|]. reflexivity.
Qed.

(** ** Map *)
Lemma map_dense D (A B : site R) : square_site D A -> square_site D B -> phys A = phys B ->
  exists M, map_asmatrix A B = Ok M /\ mr M = (D * D)%nat /\ mc M = (D * D)%nat /\
  (forall i j a b, i < D -> j < D -> a < D -> b < D ->
      me M (i * D + j)%nat (a * D + b)%nat = sum (phys A) (fun s => ent A s i a * sconj (ent B s j b))) /\
  forall v, length v = (D * D)%nat -> map_mv A B v = Ok (mvec M v) /\ map_mvr A B v = Ok (mvec (mct M) v).
Proof.
  intros HA HB Hp. destruct (map_asmatrix_ok D A B HA HB Hp) as (M & E & M1 & M2 & M3). exists M. split; [exact E|]. split; [exact M1|]. split; [exact M2|]. split; [exact M3|].
  intros v Hv. split.
  - destruct (map_mv_ok D A B v HA HB Hp Hv) as (w & W1 & W2 & W3). rewrite W1. f_equal. apply (list_square D); [exact W2|rewrite mvec_len; exact M1|].
    intros i j Hi Hj. rewrite W3 by assumption. symmetry. now apply dense_right.
  - destruct (map_mvr_ok D A B v HA HB Hp Hv) as (w & W1 & W2 & W3). rewrite W1. f_equal. apply (list_square D); [exact W2|rewrite mvec_len; exact M2|].
    intros i j Hi Hj. rewrite W3 by assumption. symmetry. now apply dense_adj.
Qed.

Lemma hdot_adj (M : mat R) (u v : list R) : length u = mr M -> length v = mc M ->
  hdot u (mvec M v) = hdot (mvec (mct M) u) v.
Proof.
  intros Hu Hv. unfold hdot. rewrite mvec_len. cbn [mct mr]. rewrite Hu.
  transitivity (sum (mr M) (fun i => sum (mc M) (fun j => sconj (nth i u 0) * (me M i j * nth j v 0)))).
  - apply sum_ext; intros i Hi. rewrite mvec_nth by exact Hi. rewrite sum_mul_l. reflexivity.
  - rewrite sum_swap. apply sum_ext; intros j Hj. rewrite mvec_nth by (cbn [mct mr]; exact Hj). cbn [mct mc me].
    rewrite sum_conj, <- sum_mul_r. apply sum_ext; intros i _. rewrite conj_mul, conj_conj. ring.
Qed.

Lemma map_adjoint D (A B : site R) (u v : list R) : square_site D A -> square_site D B -> phys A = phys B ->
  length u = (D * D)%nat -> length v = (D * D)%nat ->
  exists w z, map_mv A B v = Ok w /\ map_mvr A B u = Ok z /\ hdot u w = hdot z v.
Proof.
  intros HA HB Hp Hu Hv. destruct (map_dense D A B HA HB Hp) as (M & _ & M1 & M2 & _ & H).
  exists (mvec M v), (mvec (mct M) u). destruct (H v Hv) as [-> _], (H u Hu) as [_ ->]. split; [reflexivity|]. split; [reflexivity|].
  apply hdot_adj; congruence.
Qed.

(** for real tensors the transposed map is the adjoint *)
Lemma tm_adjoint_real D (A : site R) (u v : list R) : square_site D A ->
  (forall s i j, s < phys A -> i < D -> j < D -> sconj (ent A s i j) = ent A s i j) ->
  length u = (D * D)%nat -> length v = (D * D)%nat ->
  exists w z, tm_mv A v = Ok w /\ tm_mvr A u = Ok z /\ hdot u w = hdot z v.
Proof.
  intros HA Hr Hu Hv. destruct (tm_dense D A HA) as (M & _ & M1 & M2 & M3 & H).
  exists (mvec M v), (mvec (mtr M) u). destruct (H v Hv) as [-> _], (H u Hu) as [_ ->]. split; [reflexivity|]. split; [reflexivity|].
  rewrite hdot_adj by congruence. f_equal. apply (list_square D); [rewrite mvec_len; exact M2|rewrite mvec_len; exact M2|].
  intros i j Hi Hj. rewrite (dense_left D A A M u HA HA M1 M2 M3 i j Hi Hj), (dense_adj D A A M u HA HA M1 M2 M3 i j Hi Hj).
  destruct HA as [H1 H2]. unfold tleft, tadj. rewrite H1. apply sum_ext; intros s Hs. apply sum_ext; intros a Ha. apply sum_ext; intros b Hb.
  rewrite (Hr s a i), (Hr s b j) by assumption. reflexivity.
Qed.
End A.
