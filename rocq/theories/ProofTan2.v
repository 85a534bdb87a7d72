(** Tangent vectors as coordinate vectors. *)
From Coq Require Import Permutation Sorted.
From Verif Require Import Alg ModelMPS SpecMPS ProofMPS ModelNcon SpecNcon ProofNcon ProofNcon3 ProofNcon4 ModelEk ProofEk4 ModelNp ModelEnergy ProofEnergy ModelTan SpecTan ProofTan.

(** * Lists *)
Lemma mapM_fun {A B} (d : B) (f : A -> res B) (P : A -> B -> Prop) l : (forall x, In x l -> exists y, f x = Ok y /\ P x y) ->
  exists g, mapM f l = Ok (map g l) /\ forall x, In x l -> P x (g x).
Proof.
  intros H. exists (fun x => match f x with Ok y => y | Err _ => d end). split.
  - apply mapM_ok. intros x Hx. destruct (H x Hx) as (y & E & _). now rewrite E.
  - intros x Hx. destruct (H x Hx) as (y & E & Hy). now rewrite E.
Qed.
Lemma combine_maps {A B C} (f : A -> B) (g : A -> C) l : combine (map f l) (map g l) = map (fun x => (f x, g x)) l.
Proof. induction l as [|x l IH]; cbn; [reflexivity|now rewrite IH]. Qed.
Lemma combine_selfmap {A B} (f : A -> B) l : combine l (map f l) = map (fun x => (x, f x)) l.
Proof. induction l as [|x l IH]; cbn; [reflexivity|now rewrite IH]. Qed.
Lemma nth_error_firstn_lt {A} (l : list A) : forall z n, n < z -> nth_error (firstn z l) n = nth_error l n.
Proof. induction l as [|x l IH]; intros [|z] [|n] H; try reflexivity; try lia. cbn. apply IH. lia. Qed.
Lemma seq_map_nth {A} (d : A) (l : list A) : l = map (fun i => nth i l d) (seq 0 (length l)).
Proof. induction l as [|x l IH]; [reflexivity|]. cbn [length seq map nth]. f_equal. rewrite <- seq_shift, map_map. exact IH. Qed.
Lemma seq_add_map a n : seq a n = map (fun i => i + a) (seq 0 n).
Proof. induction n as [|n IH]; [reflexivity|]. rewrite !seq_S, map_app, IH. cbn. now rewrite (Nat.add_comm a n). Qed.
Lemma mapM_map {A B C} (f : B -> res C) (g : A -> B) l : mapM f (map g l) = mapM (fun x => f (g x)) l.
Proof. induction l as [|x l IH]; cbn; [reflexivity|]. now rewrite IH. Qed.
Lemma filter_all {A} (p : A -> bool) l : (forall x, In x l -> p x = true) -> filter p l = l.
Proof. induction l as [|x l IH]; intros H; cbn; [reflexivity|]. rewrite (H x) by (now left). f_equal. apply IH. intros y Hy. apply H. now right. Qed.
Lemma filter_none {A} (p : A -> bool) l : (forall x, In x l -> p x = false) -> filter p l = [].
Proof. induction l as [|x l IH]; intros H; cbn; [reflexivity|]. rewrite (H x) by (now left). apply IH. intros y Hy. apply H. now right. Qed.

Section P.
Context {R : sring}.
Local Open Scope sr_scope.
Add Ring Rr : (s_th R).
Variable K : tanlib R.
Variable S : setio.
Hypothesis HK : tanlib_ok K.
Hypothesis HS : setio_ok S.

Lemma chop_concat (xs : list (list R)) : chop (concat xs) (map (@length R) xs) = xs.
Proof.
  induction xs as [|x xs IH]; [reflexivity|]. cbn [map chop concat]. rewrite firstn_app, firstn_all, Nat.sub_diag, firstn_O, app_nil_r.
  rewrite skipn_app, skipn_all, Nat.sub_diag. cbn [app skipn]. now rewrite IH.
Qed.
Lemma concat_chop sizes : forall v : list R, fold_right Nat.add 0%nat sizes = length v -> concat (chop v sizes) = v /\ map (@length R) (chop v sizes) = sizes.
Proof.
  induction sizes as [|s sizes IH]; intros v H; cbn [chop concat map fold_right] in *; [destruct v; [split; reflexivity|discriminate]|].
  destruct (IH (skipn s v)) as [E1 E2]; [rewrite skipn_length; lia|]. rewrite E1, E2, firstn_skipn, firstn_length. split; [reflexivity|]. f_equal. lia.
Qed.

Variable m : fmps R.
Variables ls rs : list (mat R).
Hypothesis Hwf : wf m.
Hypothesis Hu : uniform m.
Hypothesis Hpos : positive_dims (fdata m).
Hypothesis Henv : get_envs m = Ok (ls, rs).
Hypothesis Hready : tangent_ready K (fdata m) ls rs.

(** Everything about site n. *)
Record site_data (n : nat) (A : site R) (l r C Ci E Ei : mat R) (pr : tens R) (V : site R) : Prop := {
  sd_l : nth_error ls n = Some l; sd_r : nth_error rs (n + 1) = Some r;
  sd_C : t_ch K l = Ok C; sd_Ci : t_inv K C = Ok Ci; sd_E : t_ch K r = Ok E; sd_Ei : t_inv K E = Ok Ei;
  sd_ml : env_ok l (dl A); sd_mr : env_ok r (dr A); sd_rl : root_of l C Ci; sd_rr : root_of r E Ei;
  sd_pv : left_null_projector K S m n (Some ls) None = Ok (pr, V);
  sd_nb : null_basis (dr A) (phys A) (dl A) (left_form A (fun a => me C a a)) V;
  sd_pr : forall s a t c, (a < dl A)%nat -> (c < dl A)%nat -> te pr [s; a; t; c] = sum (dr V) (fun k => me Ci a a * ent V s a k * (me Ci c c * sconj (ent V t c k)))
}.

Lemma site_pos n A : nth_error (fdata m) n = Some A -> phys A = fd m /\ (0 < phys A)%nat /\ (0 < dl A)%nat /\ (0 < dr A)%nat.
Proof.
  intros H. apply nth_error_In in H. unfold uniform in Hu. unfold positive_dims in Hpos. rewrite Forall_forall in Hu, Hpos. pose proof (Hpos A H). pose proof (Hu A H). tauto.
Qed.

Lemma site_data_ex n A : nth_error (fdata m) n = Some A -> exists l r C Ci E Ei pr V, site_data n A l r C Ci E Ei pr V.
Proof.
  intros HA. destruct Hwf as (Hc & _ & _). destruct (get_envs_struct m Hc) as (ls' & rs' & E' & H). rewrite Henv in E'. injection E' as <- <-.
  destruct (H n A HA) as (l & r & El & Hl & Er & Hr). destruct (site_pos n A HA) as (P1 & P2 & P3 & P4).
  destruct (Hready n A l r HA El Er) as (HL & E & Ei & EE & EEi). pose proof Hl as (L1 & L2 & L3). pose proof Hr as (R1 & R2 & R3).
  destruct (left_null_ok K S HK HS m n ls A l HA El P1 P2 P3 L1 L2 L3 HL) as (pr & V & C & Ci & Epv & EC & ECi & HRl & HV & _ & Hpr).
  exists l, r, C, Ci, E, Ei, pr, V. constructor; try assumption. apply (root_ok K); try assumption. rewrite R1. exact R3.
Qed.

(** * tangent_space_dims *)
Definition dsite : site R := mkSite 0 0 0 (fun _ _ _ => 0).
Definition AA (n : nat) : site R := nth n (fdata m) dsite.

Lemma AA_nth n : (n < length (fdata m))%nat -> nth_error (fdata m) n = Some (AA n).
Proof. intros H. now apply nth_error_nth'. Qed.

Lemma chain_next (l : list (site R)) : forall i n, chain i l 1 -> (n < length l)%nat ->
  dr (nth n l dsite) = if Nat.ltb (n + 1) (length l) then dl (nth (n + 1) l dsite) else 1%nat.
Proof.
  induction l as [|A l IH]; intros i n H Hn; [cbn in Hn; lia|]. cbn in H. destruct H as [_ H]. destruct n as [|n].
  - cbn [nth]. destruct l as [|B l]; cbn in *; [exact H|]. destruct H as [H _]. cbn. congruence.
  - cbn [nth length Nat.add]. rewrite (IH _ n H) by (cbn in Hn; lia). reflexivity.
Qed.

Lemma dims_ok (o : option (list (mat R))) : (o = None \/ o = Some ls) -> exists VV : nat -> site R,
  tangent_space_dims K S m o = Ok (map VV (seq 0 (length (fdata m))), map (fun n => (dr (VV n), dr (AA n))) (seq 0 (length (fdata m)))) /\
  forall n, (n < length (fdata m))%nat -> exists l r C Ci E Ei pr, site_data n (AA n) l r C Ci E Ei pr (VV n).
Proof.
  intros Ho. unfold tangent_space_dims.
  replace (match o with Some ls => Ok ls | None => do lr <- get_envs m; Ok (fst lr) end) with (@Ok (list (mat R)) ls).
  2: { destruct Ho as [->| ->]; [rewrite Henv; reflexivity|reflexivity]. }
  cbn [bind]. destruct Hwf as (Hc & HL & _). rewrite HL.
  destruct (mapM_fun dsite (fun n => do pv <- left_null_projector K S m n (Some ls) None; Ok (snd pv))
     (fun n V => exists l r C Ci E Ei pr, site_data n (AA n) l r C Ci E Ei pr V) (seq 0 (length (fdata m)))) as (VV & EV & HV).
  { intros n Hn. apply in_seq in Hn. destruct (site_data_ex n (AA n)) as (l & r & C & Ci & E & Ei & pr & V & H); [apply AA_nth; lia|]. exists V.
    rewrite (sd_pv _ _ _ _ _ _ _ _ _ _ H). split; [reflexivity|]. exists l, r, C, Ci, E, Ei, pr. exact H. }
  rewrite EV. cbn [bind]. exists VV. split; [|intros n Hn; apply HV, in_seq; lia].
  rewrite <- (map_id (seq 0 (length (fdata m)))) at 2. rewrite combine_maps, mapM_map.
  rewrite (mapM_ok _ (fun n => (dr (VV n), dr (AA n)))); [reflexivity|]. intros n Hn. apply in_seq in Hn. cbn [fst snd]. unfold AA. rewrite (chain_next (fdata m) 1 n Hc) by lia.
  destruct (Nat.ltb_spec (n + 1) (length (fdata m))) as [H|H]; [|reflexivity]. unfold getitem. rewrite (nth_error_nth' _ dsite) by exact H. reflexivity.
Qed.

(** * One site *)
Lemma flat_ok (T : tens R) a b : tsh T = [a; b] -> length (flat T) = (a * b)%nat /\ forall i j, (i < a)%nat -> (j < b)%nat -> nth (i * b + j) (flat T) 0 = te T [i; j].
Proof.
  intros H. unfold flat. rewrite H. cbn [fold_right]. rewrite map_length, seq_length. split; [lia|]. intros i j Hi Hj.
  rewrite (nth_indep _ 0 (te T (unravel [a; b] 0))) by (rewrite map_length, seq_length; nia).
  rewrite (map_nth (fun k => te T (unravel [a; b] k))), seq_nth by nia. cbn [Nat.add]. f_equal. rewrite <- (ravel2 a b). apply (unravel_ravel [a; b]). repeat constructor; assumption.
Qed.

Lemma extract_net (X Y : site R) : phys X = phys Y -> dl X = dl Y ->
  exists T, ncon S [tens_site X; tens_site Y] [[1; 2; -1]; [1; 2; -2]]%Z None None false = Ok T /\ tsh T = [dr X; dr Y] /\
    forall i j, te T [i; j] = sum (phys X) (fun s => sum (dl X) (fun a => ent X s a i * ent Y s a j)).
Proof.
  intros H1 H2.
  destruct (ncon_default_ok S (fun z => match z with 1%Z => phys X | 2%Z => dl X | (-1)%Z => dr X | _ => dr Y end)
     [tens_site X; tens_site Y] [[1; 2; -1]; [1; 2; -2]]%Z [1; 2]%Z [-1; -2]%Z false HS) as (T & E & ST & VT).
  { small_net. }
  { repeat constructor. }
  exists T. split; [exact E|]. split; [exact ST|]. intros i j. rewrite (VT [i; j] eq_refl). cbn [esum]. apply sum_ext. intros s _. apply sum_ext. intros a _.
  unfold tprod. cbv [assign eupd Z.eqb Pos.eqb]. cbn [combine map fst snd prodl fold_right te tens_site ent nth]. ring.
Qed.

Lemma sum_root_l (M C Ci : mat R) (HR : root_of M C Ci) a (f : nat -> R) : (a < mr M)%nat -> sum (mr M) (fun k => me C a k * f k) = me C a a * f a /\ sum (mr M) (fun k => me Ci a k * f k) = me Ci a a * f a.
Proof.
  intros Ha. destruct HR as (_ & _ & _ & _ & HO & _). split; (rewrite (sum_diag (mr M) a); [reflexivity|exact Ha|]); intros k Hk Hne; destruct (HO a k Ha Hk) as [E1 E2];
    rewrite ?E1, ?E2; unfold dlt; (destruct (Nat.eqb_spec a k); [lia|ring]).
Qed.
Lemma sum_root_r (M C Ci : mat R) (HR : root_of M C Ci) a (f : nat -> R) : (a < mr M)%nat -> sum (mr M) (fun k => f k * me C k a) = f a * me C a a /\ sum (mr M) (fun k => f k * me Ci k a) = f a * me Ci a a.
Proof.
  intros Ha. destruct HR as (_ & _ & _ & _ & HO & _). split; (rewrite (sum_diag (mr M) a); [reflexivity|exact Ha|]); intros k Hk Hne; destruct (HO k a Hk Ha) as [E1 E2];
    rewrite ?E1, ?E2; unfold dlt; (destruct (Nat.eqb_spec k a); [lia|ring]).
Qed.

Lemma extract_site_ok n A l r C Ci E Ei pr V dA B : site_data n A l r C Ci E Ei pr V -> nth_error dA n = Some B ->
  phys B = phys A -> dl B = dl A -> dr B = dr A -> (dr V * dr A <> 0)%nat ->
  exists y, extract_site K S m dA n (dr V, dr A) = Ok y /\ length y = (dr V * dr A)%nat /\
    forall k b, (k < dr V)%nat -> (b < dr A)%nat -> nth (k * dr A + b) y 0 =
      sum (phys A) (fun s => sum (dl A) (fun a => sconj (ent V s a k) * (me C a a * ent B s a b * me E b b))).
Proof.
  intros H HB B1 B2 B3 Hne. destruct H as [H1 H2 H3 H4 H5 H6 H7 H8 H9 H10 H11 H12 H13]. destruct H7 as (L1 & _). destruct H8 as (R1 & _).
  unfold extract_site. cbn [fst snd]. destruct (Nat.eqb_spec (dr V * dr A) 0) as [E0|_]; [contradiction|]. rewrite Henv. cbn [bind fst snd].
  replace (left_null_projector K S m n None None) with (left_null_projector K S m n (Some ls) None) by (unfold left_null_projector; now rewrite Henv).
  rewrite H11. cbn [bind snd]. unfold getitem. rewrite H1. cbn [bind]. rewrite H3. cbn [bind]. rewrite HB. cbn [bind].
  destruct H12 as (V1 & V2 & _). pose proof H9 as (C1 & C2 & _). pose proof H10 as (E1 & E2 & _).
  unfold mat_site. rewrite C2, L1, B2, Nat.eqb_refl. cbn [bind]. rewrite H2. cbn [bind]. rewrite H5. cbn [bind]. unfold site_mat. cbn [dr dl phys ent]. rewrite E1, R1, B3, Nat.eqb_refl. cbn [bind].
  match goal with |- context [ncon S [tens_site ?X0; tens_site ?Y0] _ _ _ _] => destruct (extract_net X0 Y0) as (T & ET & ST & VT) end;
    [cbn; congruence|cbn; congruence|]. rewrite ET. cbn [bind]. cbn [site_conj dr dl phys ent] in ST, VT. rewrite E2, R1 in ST.
  destruct (flat_ok T _ _ ST) as [F1 F2]. eexists. split; [reflexivity|]. split; [exact F1|]. intros k b Hk Hb. rewrite F2, VT by assumption. rewrite V1, V2.
  apply sum_ext; intros s Hs. apply sum_ext; intros a Ha. f_equal.
  rewrite <- R1, (proj1 (sum_root_r r E Ei H10 b (fun k => sum (dl A) (fun k0 => me C a k0 * ent B s k0 k)) ltac:(lia))). f_equal.
  rewrite <- L1. apply (proj1 (sum_root_l l C Ci H9 a (fun k0 => ent B s k0 b) ltac:(lia))).
Qed.

(** The tensor with coordinates x. *)
Lemma import_site_ok n A l r C Ci E Ei pr V X : site_data n A l r C Ci E Ei pr V -> mr X = dr V -> mc X = dr A ->
  exists B, (do l <- getitem ls n; do C <- t_ch K l; do Ci <- t_inv K C; do Y <- mat_site Ci V; do Y <- site_mat Y X;
             do r <- getitem rs (n + 1); do E <- t_ch K r; do Ei <- t_inv K E; site_mat Y Ei) = Ok B /\
    phys B = phys A /\ dl B = dl A /\ dr B = dr A /\
    forall s a b, (a < dl A)%nat -> (b < dr A)%nat -> ent B s a b = me Ci a a * sum (dr V) (fun k => ent V s a k * me X k b) * me Ei b b.
Proof.
  intros H X1 X2. destruct H as [H1 H2 H3 H4 H5 H6 H7 H8 H9 H10 H11 H12 H13]. destruct H7 as (L1 & _). destruct H8 as (R1 & _).
  unfold getitem. rewrite H1. cbn [bind]. rewrite H3. cbn [bind]. rewrite H4. cbn [bind]. destruct H12 as (V1 & V2 & _). pose proof H9 as (C1 & C2 & I1 & I2 & _). pose proof H10 as (E1 & E2 & J1 & J2 & _).
  unfold mat_site. rewrite I2, L1, V2, Nat.eqb_refl. cbn [bind]. unfold site_mat at 1. cbn [dr dl phys ent]. rewrite X1, Nat.eqb_refl. cbn [bind]. rewrite H2. cbn [bind]. rewrite H5. cbn [bind]. rewrite H6. cbn [bind].
  unfold site_mat. cbn [dr dl phys ent]. rewrite X2, J1, R1, Nat.eqb_refl. eexists. split; [reflexivity|]. cbn [dr dl phys ent]. split; [exact V1|]. split; [congruence|]. split; [congruence|].
  intros s a b Ha Hb. rewrite <- R1. rewrite (proj2 (sum_root_r r E Ei H10 b (fun k => sum (dr V) (fun k0 => sum (dl A) (fun k1 => me Ci a k1 * ent V s k1 k0) * me X k0 k)) ltac:(lia))). f_equal.
  rewrite <- sum_mul_l. apply sum_ext; intros k Hk. rewrite <- L1. rewrite (proj2 (sum_root_l l C Ci H9 a (fun k1 => ent V s k1 k) ltac:(lia))). ring.
Qed.

Lemma coords_back n A l r C Ci E Ei pr V (B : site R) (x : nat -> nat -> R) : site_data n A l r C Ci E Ei pr V ->
  (forall s a b, (a < dl A)%nat -> (b < dr A)%nat -> ent B s a b = me Ci a a * sum (dr V) (fun k => ent V s a k * x k b) * me Ei b b) ->
  forall k b, (k < dr V)%nat -> (b < dr A)%nat ->
    sum (phys A) (fun s => sum (dl A) (fun a => sconj (ent V s a k) * (me C a a * ent B s a b * me E b b))) = x k b.
Proof.
  intros H HB k b Hk Hb. destruct H as [H1 H2 H3 H4 H5 H6 (L1 & _) (R1 & _) H9 H10 H11 (_ & _ & _ & V2 & _) H13].
  destruct H9 as (_ & _ & _ & _ & _ & HC). destruct H10 as (_ & _ & _ & _ & _ & HE). rewrite L1 in HC. rewrite R1 in HE. destruct (HE b Hb) as (Eb & _).
  transitivity (sum (phys A) (fun s => sum (dl A) (fun a => sum (dr V) (fun k' => sconj (ent V s a k) * ent V s a k' * x k' b)))).
  - apply sum_ext; intros s _. apply sum_ext; intros a Ha. rewrite HB by assumption. destruct (HC a Ha) as (Ea & _).
    transitivity ((me C a a * me Ci a a) * (me E b b * me Ei b b) * (sconj (ent V s a k) * sum (dr V) (fun k' => ent V s a k' * x k' b))); [ring|]. rewrite Ea, Eb, <- !sum_mul_l. apply sum_ext; intros k' _. ring.
  - transitivity (sum (dr V) (fun k' => sum (phys A) (fun s => sum (dl A) (fun a => sconj (ent V s a k) * ent V s a k')) * x k' b)).
    + rewrite <- (sum_ext (phys A) (fun s => sum (dr V) (fun k' => sum (dl A) (fun a => sconj (ent V s a k) * ent V s a k' * x k' b)))) by (intros s _; apply sum_swap).
      rewrite sum_swap. apply sum_ext; intros k' _. rewrite <- sum_mul_r. apply sum_ext; intros s _. rewrite <- sum_mul_r. reflexivity.
    + rewrite (sum_ext (dr V) _ (fun k' => dlt k k' * x k' b)); [now rewrite sum_dlt1|]. intros k' Hk'. now rewrite V2.
Qed.

(** * The whole chain *)
Lemma import_ok (VV : nat -> site R) z (v : list R) :
  tangent_space_dims K S m (Some ls) = Ok (map VV (seq 0 (length (fdata m))), map (fun n => (dr (VV n), dr (AA n))) (seq 0 (length (fdata m)))) ->
  (forall n, (n < length (fdata m))%nat -> exists l r C Ci E Ei pr, site_data n (AA n) l r C Ci E Ei pr (VV n)) ->
  (z < length (fdata m))%nat -> (forall n, (n < length (fdata m))%nat -> (dr (VV n) * dr (AA n) = 0 <-> n < z)%nat) ->
  forall ys : list (list R), v = concat ys -> map (@length R) ys = map (fun n => dr (VV n) * dr (AA n))%nat (seq z (length (fdata m) - z)) ->
  exists m', import_tangent_vector K S m v = Ok m' /\ length (fdata m') = length (fdata m) /\
    (forall n, (n < z)%nat -> exists B, nth_error (fdata m') n = Some B /\ phys B = phys (AA n) /\ dl B = dl (AA n) /\ dr B = dr (AA n) /\ forall s a b, ent B s a b = 0) /\
    forall n, (z <= n)%nat -> (n < length (fdata m))%nat -> exists B l r C Ci E Ei pr, nth_error (fdata m') n = Some B /\ site_data n (AA n) l r C Ci E Ei pr (VV n) /\
      phys B = phys (AA n) /\ dl B = dl (AA n) /\ dr B = dr (AA n) /\
      forall s a b, (a < dl (AA n))%nat -> (b < dr (AA n))%nat -> ent B s a b = me Ci a a * sum (dr (VV n)) (fun k => ent (VV n) s a k * nth (k * dr (AA n) + b) (nth (n - z) ys []) 0) * me Ei b b.
Proof.
  intros ED HSD Hz Hzero ys -> Hys. set (L := length (fdata m)) in *. unfold import_tangent_vector. rewrite Henv. cbn [bind fst snd]. rewrite ED. cbn [bind fst snd].
  assert (ESeq : seq 0 L = seq 0 z ++ seq z (L - z)) by (rewrite <- seq_app; f_equal; lia).
  assert (Hin1 : forall n, In n (seq 0 z) -> (n < z)%nat /\ (n < L)%nat) by (intros n Hn; apply in_seq in Hn; lia).
  assert (Hin2 : forall n, In n (seq z (L - z)) -> (z <= n)%nat /\ (n < L)%nat) by (intros n Hn; apply in_seq in Hn; lia).
  assert (HAp : forall n, (n < L)%nat -> (0 < phys (AA n))%nat /\ (0 < dl (AA n))%nat /\ (0 < dr (AA n))%nat /\ phys (VV n) = phys (AA n) /\ dl (VV n) = dl (AA n)).
  { intros n Hn. destruct (site_pos n (AA n)) as (P1 & P2 & P3 & P4); [now apply AA_nth|]. destruct (HSD n Hn) as (l & r & C & Ci & E & Ei & pr & H). destruct (sd_nb _ _ _ _ _ _ _ _ _ _ H) as (V1 & V2 & _). auto. }
  assert (F1 : filter (fun vL => negb (Nat.eqb (phys vL * (dl vL * dr vL)) 0)) (map VV (seq 0 L)) = map VV (seq z (L - z))).
  { rewrite ESeq, map_app, filter_app, filter_none, filter_all; [reflexivity| |].
    - intros X HX. apply in_map_iff in HX as (n & <- & Hn). apply Hin2 in Hn as [H1 H2]. destruct (HAp n H2) as (P1 & P2 & P3 & V1 & V2). destruct (Nat.eqb_spec (phys (VV n) * (dl (VV n) * dr (VV n))) 0) as [E0|]; [|reflexivity].
      exfalso. rewrite V1, V2 in E0. assert (dr (VV n) = 0)%nat by nia. assert (n < z)%nat by (apply Hzero; [exact H2|nia]). lia.
    - intros X HX. apply in_map_iff in HX as (n & <- & Hn). apply Hin1 in Hn as [H1 H2]. destruct (HAp n H2) as (P1 & P2 & P3 & V1 & V2).
      apply (Hzero n H2) in H1. assert (dr (VV n) = 0)%nat by nia. replace (phys (VV n) * (dl (VV n) * dr (VV n)))%nat with 0%nat by nia. reflexivity. }
  set (shp := fun n => (dr (VV n), dr (AA n))).
  assert (F2 : filter (fun s => negb (Nat.eqb (fst s * snd s) 0)) (map shp (seq 0 L)) = map shp (seq z (L - z))).
  { rewrite ESeq, map_app, filter_app, filter_none, filter_all; [reflexivity| |].
    - intros X HX. apply in_map_iff in HX as (n & <- & Hn). apply Hin2 in Hn as [H1 H2]. cbn. destruct (Nat.eqb_spec (dr (VV n) * dr (AA n)) 0) as [E0|]; [|reflexivity]. apply Hzero in E0; [lia|exact H2].
    - intros X HX. apply in_map_iff in HX as (n & <- & Hn). apply Hin1 in Hn as [H1 H2]. cbn. apply (Hzero n H2) in H1. now rewrite H1. }
  assert (F3 : length (filter (fun s => Nat.eqb (fst s * snd s) 0) (map shp (seq 0 L))) = z).
  { rewrite ESeq, map_app, filter_app, filter_all, filter_none; [now rewrite app_nil_r, map_length, seq_length| |].
    - intros X HX. apply in_map_iff in HX as (n & <- & Hn). apply Hin2 in Hn as [H1 H2]. cbn. destruct (Nat.eqb_spec (dr (VV n) * dr (AA n)) 0) as [E0|]; [|reflexivity]. apply Hzero in E0; [lia|exact H2].
    - intros X HX. apply in_map_iff in HX as (n & <- & Hn). apply Hin1 in Hn as [H1 H2]. cbn. apply (Hzero n H2) in H1. now rewrite H1. }
  rewrite F1, F2, F3. rewrite map_map. cbn [shp fst snd].
  replace (map (fun x : nat => (dr (VV x) * dr (AA x))%nat) (seq z (L - z))) with (map (@length R) ys). rewrite chop_concat.
  set (q := (L - z)%nat) in *. assert (Lys : length ys = q) by (rewrite <- (map_length (@length R)), Hys, map_length, seq_length; reflexivity).
  match goal with |- context [combine ys ?t] => replace (combine ys t) with (combine (map (fun i => nth i ys []) (seq 0 q)) t) by (f_equal; rewrite <- Lys; symmetry; apply seq_map_nth) end. rewrite (seq_add_map z q), !map_map. rewrite combine_maps, mapM_map. unfold shp. cbn [fst snd].
  assert (Hlen : forall i, (i < q)%nat -> length (nth i ys []) = (dr (VV (i + z)%nat) * dr (AA (i + z)%nat))%nat).
  { intros i Hi. rewrite seq_add_map, map_map in Hys. assert (E := f_equal (fun l => nth i l 0%nat) Hys). cbn beta in E.
    rewrite (nth_indep _ 0%nat (length (@nil R))) in E by (rewrite map_length; lia). rewrite map_nth in E. rewrite E.
    rewrite (nth_indep _ 0%nat ((fun x => dr (VV (x + z)%nat) * dr (AA (x + z)%nat))%nat 0%nat)) by (rewrite map_length, seq_length; exact Hi).
    rewrite (map_nth (fun x => dr (VV (x + z)%nat) * dr (AA (x + z)%nat))%nat), seq_nth by exact Hi. reflexivity. }
  assert (EX : mapM (fun x => unflat (dr (VV (x + z)%nat)) (dr (AA (x + z)%nat)) (nth x ys [])) (seq 0 q) = Ok (map (fun i => mkMat (dr (VV (i + z)%nat)) (dr (AA (i + z)%nat)) (fun k b => nth (k * dr (AA (i + z)%nat) + b) (nth i ys []) 0)) (seq 0 q))).
  { apply mapM_ok. intros i Hi. apply in_seq in Hi. unfold unflat. rewrite Hlen by lia. now rewrite Nat.eqb_refl. }
  rewrite EX. cbn [bind]. rewrite map_length, seq_length. rewrite combine_maps, combine_selfmap, mapM_map. cbn [fst snd].
  match goal with |- context [mapM ?f (seq 0 q)] => destruct (mapM_fun dsite f (fun i B => exists l r C Ci E Ei pr, site_data (i + z)%nat (AA (i + z)%nat) l r C Ci E Ei pr (VV (i + z)%nat) /\
      phys B = phys (AA (i + z)%nat) /\ dl B = dl (AA (i + z)%nat) /\ dr B = dr (AA (i + z)%nat) /\
      forall s a b, (a < dl (AA (i + z)%nat))%nat -> (b < dr (AA (i + z)%nat))%nat -> ent B s a b = me Ci a a * sum (dr (VV (i + z)%nat)) (fun k => ent (VV (i + z)%nat) s a k * nth (k * dr (AA (i + z)%nat) + b) (nth i ys []) 0) * me Ei b b) (seq 0 q)) as (BB & EB & HB) end.
  { intros i Hi. apply in_seq in Hi. destruct (HSD (i + z)%nat) as (l & r & C & Ci & E & Ei & pr & H); [unfold q in Hi; lia|].
    destruct (import_site_ok _ _ _ _ _ _ _ _ _ _ (mkMat (dr (VV (i + z)%nat)) (dr (AA (i + z)%nat)) (fun k b => nth (k * dr (AA (i + z)%nat) + b) (nth i ys []) 0)) H eq_refl eq_refl) as (B & EB & B1 & B2 & B3 & HB).
    exists B. split; [exact EB|]. exists l, r, C, Ci, E, Ei, pr. repeat (split; [assumption|]). exact HB. }
  rewrite EB. cbn [bind].
  set (Z0 := map (fun A => mkSite (phys A) (dl A) (dr A) (fun _ _ _ => 0)) (firstn z (fdata m))).
  assert (LZ : length Z0 = z) by (unfold Z0; rewrite map_length, firstn_length; fold L; lia).
  assert (EI : exists m', fMPS_init (Z0 ++ map BB (seq 0 q)) None None = Ok m' /\ fdata m' = Z0 ++ map BB (seq 0 q)).
  { destruct (Z0 ++ map BB (seq 0 q)) as [|X l] eqn:EZ.
    - exfalso. assert (E0 := f_equal (@length (site R)) EZ). rewrite app_length, LZ, map_length, seq_length in E0. cbn in E0. unfold q in E0. lia.
    - unfold fMPS_init, max_bond. cbn [bind]. eexists. split; reflexivity. }
  destruct EI as (m' & EI & Em'). exists m'. split; [exact EI|]. rewrite Em'. split; [|split].
  - rewrite app_length, LZ, map_length, seq_length. unfold q. lia.
  - intros n Hn. rewrite nth_error_app1 by lia. unfold Z0. 
    assert (EN : nth_error (firstn z (fdata m)) n = Some (AA n)).
    { rewrite nth_error_firstn_lt by exact Hn. apply AA_nth. fold L. lia. }
    rewrite (map_nth_error _ _ _ EN). eexists. split; [reflexivity|]. repeat split.
  - intros n Hn1 Hn2. rewrite nth_error_app2 by lia. rewrite LZ.
    assert (EN : nth_error (seq 0 q) (n - z) = Some (n - z)%nat).
    { rewrite (nth_error_nth' _ 0%nat) by (rewrite seq_length; unfold q; lia). rewrite seq_nth by (unfold q; lia). reflexivity. }
    rewrite (map_nth_error BB _ _ EN). destruct (HB (n - z)%nat) as (l & r & C & Ci & E & Ei & pr & H & H'); [apply in_seq; unfold q; lia|].
    replace (n - z + z)%nat with n in * by lia. exists (BB (n - z)%nat), l, r, C, Ci, E, Ei, pr. split; [reflexivity|]. split; [exact H|]. exact H'.
Qed.

Lemma site_data_inj n A l r C Ci E Ei pr V l' r' C' Ci' E' Ei' pr' V' : site_data n A l r C Ci E Ei pr V -> site_data n A l' r' C' Ci' E' Ei' pr' V' ->
  l' = l /\ C' = C /\ Ci' = Ci /\ E' = E /\ Ei' = Ei /\ pr' = pr /\ V' = V.
Proof. intros [H1 H2 H3 H4 H5 H6 _ _ _ _ H7 _ _] [G1 G2 G3 G4 G5 G6 _ _ _ _ G7 _ _]. assert (l' = l) by congruence. assert (r' = r) by congruence. subst. assert (C' = C) by congruence. assert (E' = E) by congruence. subst. repeat split; congruence. Qed.

Lemma same_shapes_get (l l' : list (site R)) : same_shapes l l' -> forall n A, nth_error l n = Some A ->
  exists B, nth_error l' n = Some B /\ phys B = phys A /\ dl B = dl A /\ dr B = dr A.
Proof.
  unfold same_shapes. induction 1 as [|A B la lb HAB Hl IH]; intros [|n] X HX; try discriminate.
  - injection HX as <-. exists B. split; [reflexivity|exact HAB].
  - exact (IH n X HX).
Qed.

Lemma extract_ok (VV : nat -> site R) z (dA : list (site R)) :
  tangent_space_dims K S m None = Ok (map VV (seq 0 (length (fdata m))), map (fun n => (dr (VV n), dr (AA n))) (seq 0 (length (fdata m)))) ->
  (forall n, (n < length (fdata m))%nat -> exists l r C Ci E Ei pr, site_data n (AA n) l r C Ci E Ei pr (VV n)) ->
  (z < length (fdata m))%nat -> (forall n, (n < length (fdata m))%nat -> (dr (VV n) * dr (AA n) = 0 <-> n < z)%nat) ->
  same_shapes (fdata m) dA ->
  exists ys, extract_tangent_vector K S m dA = Ok (concat ys) /\ map (@length R) ys = map (fun n => dr (VV n) * dr (AA n))%nat (seq z (length (fdata m) - z)) /\
    forall n, (z <= n)%nat -> (n < length (fdata m))%nat -> exists B l r C Ci E Ei pr, nth_error dA n = Some B /\ site_data n (AA n) l r C Ci E Ei pr (VV n) /\
      forall k b, (k < dr (VV n))%nat -> (b < dr (AA n))%nat -> nth (k * dr (AA n) + b) (nth (n - z) ys []) 0 =
        sum (phys (AA n)) (fun s => sum (dl (AA n)) (fun a => sconj (ent (VV n) s a k) * (me C a a * ent B s a b * me E b b))).
Proof.
  intros ED HSD Hz Hzero Hsh. set (L := length (fdata m)) in *. unfold extract_tangent_vector. rewrite ED. cbn [bind fst snd]. rewrite map_length, seq_length, combine_selfmap, mapM_map. cbn [fst snd].
  match goal with |- context [mapM ?f (seq 0 L)] => destruct (mapM_fun [] f (fun n y => ((n < z)%nat -> y = []) /\ ((z <= n)%nat -> length y = (dr (VV n) * dr (AA n))%nat /\
     exists B l r C Ci E Ei pr, nth_error dA n = Some B /\ site_data n (AA n) l r C Ci E Ei pr (VV n) /\
      forall k b, (k < dr (VV n))%nat -> (b < dr (AA n))%nat -> nth (k * dr (AA n) + b) y 0 =
        sum (phys (AA n)) (fun s => sum (dl (AA n)) (fun a => sconj (ent (VV n) s a k) * (me C a a * ent B s a b * me E b b))))) (seq 0 L)) as (g & Eg & Hg) end.
  { intros n Hn. apply in_seq in Hn. destruct (Nat.lt_ge_cases n z) as [Hlt|Hge].
    - exists []. split; [|split; [reflexivity|lia]]. unfold extract_site. cbn [fst snd]. rewrite (proj2 (Hzero n ltac:(lia)) Hlt). reflexivity.
    - destruct (HSD n) as (l & r & C & Ci & E & Ei & pr & H); [lia|]. assert (HA : nth_error (fdata m) n = Some (AA n)) by (apply AA_nth; lia).
      assert (HB : exists B, nth_error dA n = Some B /\ phys B = phys (AA n) /\ dl B = dl (AA n) /\ dr B = dr (AA n)).
      { exact (same_shapes_get _ _ Hsh _ _ HA). }
      destruct HB as (B & EB & B1 & B2 & B3).
      assert (Hnz : (dr (VV n) * dr (AA n) <> 0)%nat) by (intros E0; apply Hzero in E0; lia).
      destruct (extract_site_ok n (AA n) l r C Ci E Ei pr (VV n) dA B H EB B1 B2 B3 Hnz) as (y & Ey & Ly & Hy). exists y. split; [exact Ey|]. split; [lia|]. intros _. split; [exact Ly|].
      exists B, l, r, C, Ci, E, Ei, pr. split; [exact EB|]. split; [exact H|exact Hy]. }
  rewrite Eg. cbn [bind].
  replace (forallb (fun s => Nat.eqb (fst s * snd s) 0) (map (fun n => (dr (VV n), dr (AA n))) (seq 0 L))) with false.
  2: { symmetry. apply not_true_is_false. rewrite forallb_forall. intros HF. specialize (HF (dr (VV z), dr (AA z))). cbn [fst snd] in HF.
       assert (dr (VV z) * dr (AA z) = 0)%nat by (apply Nat.eqb_eq, HF, in_map_iff; exists z; split; [reflexivity|apply in_seq; lia]). apply Hzero in H; [lia|exact Hz]. }
  assert (ESeq : seq 0 L = seq 0 z ++ seq z (L - z)) by (rewrite <- seq_app; f_equal; lia).
  exists (map g (seq z (L - z))). split; [|split].
  - f_equal. rewrite ESeq, map_app, concat_app. replace (concat (map g (seq 0 z))) with (@nil R); [reflexivity|]. symmetry.
    apply concat_nil_Forall. apply Forall_forall. intros y Hy. apply in_map_iff in Hy as (n & <- & Hn). apply in_seq in Hn. apply (Hg n); [apply in_seq; lia|lia].
  - rewrite map_map. apply map_ext_in. intros n Hn. apply in_seq in Hn. apply (Hg n); [apply in_seq; lia|lia].
  - intros n H1 H2. destruct (Hg n) as [_ HG]; [apply in_seq; lia|]. destruct (HG H1) as (_ & B & l & r & C & Ci & E & Ei & pr & EB & H & Hy). exists B, l, r, C, Ci, E, Ei, pr. split; [exact EB|]. split; [exact H|].
    intros k b Hk Hb. rewrite <- Hy by assumption. f_equal. rewrite (nth_indep _ [] (g 0%nat)) by (rewrite map_length, seq_length; lia). rewrite map_nth, seq_nth by lia. f_equal. lia.
Qed.

Lemma dims_none : tangent_space_dims K S m None = tangent_space_dims K S m (Some ls).
Proof. unfold tangent_space_dims. rewrite Henv. reflexivity. Qed.

Lemma dim_sum z (f : nat -> nat * nat) n : (z <= n)%nat -> (forall i, (i < z)%nat -> fst (f i) * snd (f i) = 0)%nat ->
  tangent_dim (map f (seq 0 n)) = fold_right Nat.add 0%nat (map (fun i => fst (f i) * snd (f i))%nat (seq z (n - z))).
Proof.
  intros Hz H. unfold tangent_dim. replace n with (z + (n - z))%nat at 1 by lia. rewrite seq_app, !map_app, map_map. cbn [Nat.add].
  rewrite fold_right_app. rewrite map_map. clear Hz. assert (G : forall x l, (forall i, In i l -> (i < z)%nat) -> fold_right Nat.add x (map (fun i => fst (f i) * snd (f i))%nat l) = x).
  { induction l as [|i l IH]; intros Hl; cbn; [reflexivity|]. rewrite H by (apply Hl; now left). apply IH. intros j Hj. apply Hl. now right. }
  apply G. intros i Hi. apply in_seq in Hi. lia.
Qed.

Lemma same_shapes_nth (l l' : list (site R)) : length l' = length l ->
  (forall n, (n < length l)%nat -> exists B, nth_error l' n = Some B /\ phys B = phys (nth n l dsite) /\ dl B = dl (nth n l dsite) /\ dr B = dr (nth n l dsite)) -> same_shapes l l'.
Proof.
  unfold same_shapes. revert l'. induction l as [|A l IH]; intros [|B l'] HL H; cbn in HL; try discriminate; constructor.
  - destruct (H 0%nat) as (B' & E & H'); [cbn; lia|]. injection E as ->. exact H'.
  - apply IH; [congruence|]. intros n Hn. apply (H (Datatypes.S n)). cbn. lia.
Qed.

Section Theorems.
Variables (vLs : list (site R)) (shapes : list (nat * nat)).
Hypothesis ED0 : tangent_space_dims K S m None = Ok (vLs, shapes).
Hypothesis HE : empty_first shapes.

Lemma setup : exists VV z, shapes = map (fun n => (dr (VV n), dr (AA n))) (seq 0 (length (fdata m))) /\ vLs = map VV (seq 0 (length (fdata m))) /\
  (forall n, (n < length (fdata m))%nat -> exists l r C Ci E Ei pr, site_data n (AA n) l r C Ci E Ei pr (VV n)) /\
  (z < length (fdata m))%nat /\ (forall n, (n < length (fdata m))%nat -> (dr (VV n) * dr (AA n) = 0 <-> n < z)%nat).
Proof.
  destruct (dims_ok None (or_introl eq_refl)) as (VV & ED & HSD). rewrite ED0 in ED. injection ED as EV ES. destruct HE as (z & Hz & Hzero). exists VV, z.
  split; [exact ES|]. split; [exact EV|]. split; [exact HSD|]. rewrite ES, map_length, seq_length in Hz. split; [exact Hz|].
  intros n Hn. apply (Hzero n (dr (VV n), dr (AA n))). rewrite ES.
  assert (E0 : nth_error (seq 0 (length (fdata m))) n = Some n) by (rewrite (nth_error_nth' _ 0%nat) by (rewrite seq_length; exact Hn); now rewrite seq_nth).
  exact (map_nth_error (fun n => (dr (VV n), dr (AA n))) _ _ E0).
Qed.

Lemma nth_split_ext (y y' : list R) k D : (0 < D)%nat -> length y = (k * D)%nat -> length y' = (k * D)%nat ->
  (forall i j, (i < k)%nat -> (j < D)%nat -> nth (i * D + j) y 0 = nth (i * D + j) y' 0) -> y = y'.
Proof.
  intros HD L1 L2 H. apply (nth_ext _ _ 0 0); [congruence|]. intros n Hn. rewrite L1 in Hn. rewrite (Nat.div_mod n D) by lia. rewrite (Nat.mul_comm D). apply H; [apply Nat.div_lt_upper_bound; lia|apply Nat.mod_upper_bound; lia].
Qed.

Lemma extract_import (v : list R) : length v = tangent_dim shapes ->
  exists m', import_tangent_vector K S m v = Ok m' /\ same_shapes (fdata m) (fdata m') /\ extract_tangent_vector K S m (fdata m') = Ok v.
Proof.
  intros Hv. destruct setup as (VV & z & ES & EV & HSD & Hz & Hzero). pose proof ED0 as ED. rewrite ES, EV in ED. pose proof ED as ED'. rewrite dims_none in ED'.
  set (L := length (fdata m)) in *.
  assert (Hd : tangent_dim shapes = fold_right Nat.add 0%nat (map (fun n => dr (VV n) * dr (AA n))%nat (seq z (L - z)))).
  { rewrite ES. rewrite (dim_sum z); [reflexivity|lia|]. intros i Hi. cbn [fst snd]. apply Hzero; lia. }
  destruct (concat_chop (map (fun n => dr (VV n) * dr (AA n))%nat (seq z (L - z))) v) as [C1 C2]; [congruence|].
  set (ys := chop v (map (fun n => dr (VV n) * dr (AA n))%nat (seq z (L - z)))) in *.
  destruct (import_ok VV z v ED' HSD Hz Hzero ys (eq_sym C1) C2) as (m' & EI & L' & HZ & HB). exists m'. split; [exact EI|].
  assert (Hsh : same_shapes (fdata m) (fdata m')).
  { apply same_shapes_nth; [exact L'|]. intros n Hn. destruct (Nat.lt_ge_cases n z) as [Hlt|Hge].
    - destruct (HZ n Hlt) as (B & E1 & E2 & E3 & E4 & _). exists B. auto.
    - destruct (HB n Hge Hn) as (B & l & r & C & Ci & E & Ei & pr & E1 & _ & E2 & E3 & E4 & _). exists B. auto. }
  split; [exact Hsh|]. destruct (extract_ok VV z (fdata m') ED HSD Hz Hzero Hsh) as (ys' & EX & Ly & Hy). rewrite EX. f_equal. rewrite <- C1. f_equal.
  fold L in Ly, Hy. assert (Ln : length ys' = length ys) by (rewrite <- (map_length (@length R) ys'), <- (map_length (@length R) ys), Ly, C2; reflexivity).
  assert (Lq : length ys = (L - z)%nat) by (rewrite <- (map_length (@length R) ys), C2, map_length, seq_length; reflexivity).
  apply (nth_ext _ _ [] []); [exact Ln|]. intros i Hi. rewrite Ln, Lq in Hi. set (n := (i + z)%nat). assert (En : (n - z)%nat = i) by (unfold n; lia).
  assert (Hn1 : (z <= n)%nat) by (unfold n; lia). assert (Hn2 : (n < L)%nat) by (unfold n; lia).
  assert (LL : forall zs : list (list R), map (@length R) zs = map (fun n => dr (VV n) * dr (AA n))%nat (seq z (L - z)) -> length (nth i zs []) = (dr (VV n) * dr (AA n))%nat).
  { intros zs HZs. assert (E0 := f_equal (fun l => nth i l 0%nat) HZs). cbn beta in E0. change 0%nat with (length (@nil R)) in E0 at 1. rewrite map_nth in E0. rewrite E0.
    rewrite (nth_indep _ 0%nat ((fun x => dr (VV x) * dr (AA x))%nat 0%nat)) by (rewrite map_length, seq_length; exact Hi). rewrite (map_nth (fun x => dr (VV x) * dr (AA x))%nat), seq_nth by exact Hi. unfold n. now rewrite (Nat.add_comm i z). }
  destruct (Hy n Hn1 Hn2) as (B & l & r & C & Ci & E & Ei & pr & EB & HSDn & Hc). rewrite En in Hc.
  destruct (HB n Hn1 Hn2) as (B' & l' & r' & C' & Ci' & E' & Ei' & pr' & EB' & HSDn' & _ & _ & _ & HBe). rewrite En in HBe.
  rewrite EB' in EB. injection EB as <-. destruct (site_data_inj _ _ _ _ _ _ _ _ _ _ _ _ _ _ _ _ _ _ HSDn HSDn') as (-> & -> & -> & -> & -> & -> & _).
  destruct (site_pos n (AA n)) as (_ & _ & _ & P4); [now apply AA_nth|].
  apply (nth_split_ext _ _ (dr (VV n)) (dr (AA n))); [exact P4|now apply LL|now apply LL|]. intros k b Hk Hb. rewrite Hc by assumption.
  exact (coords_back _ _ _ _ _ _ _ _ _ _ B' (fun k b => nth (k * dr (AA n) + b) (nth i ys []) 0) HSDn HBe k b Hk Hb).
Qed.

Lemma import_extract (dA : list (site R)) : same_shapes (fdata m) dA ->
  exists v m', extract_tangent_vector K S m dA = Ok v /\ length v = tangent_dim shapes /\ import_tangent_vector K S m v = Ok m' /\ same_shapes (fdata m) (fdata m') /\
    forall n A X l, nth_error (fdata m) n = Some A -> nth_error dA n = Some X -> nth_error ls n = Some l -> exists B pr V,
      nth_error (fdata m') n = Some B /\ left_null_projector K S m n (Some ls) None = Ok (pr, V) /\
      (forall s a b, (s < phys A)%nat -> (a < dl A)%nat -> (b < dr A)%nat -> ent B s a b = project (phys A) (dl A) (te pr) l (fun t c => ent X t c b) s a) /\
      (forall b, (b < dr A)%nat -> left_gauge A l (fun t c => ent B t c b)) /\
      ((forall b, (b < dr A)%nat -> left_gauge A l (fun t c => ent X t c b)) -> site_eq X B).
Proof.
  intros Hsh. destruct setup as (VV & z & ES & EV & HSD & Hz & Hzero). pose proof ED0 as ED. rewrite ES, EV in ED. pose proof ED as ED'. rewrite dims_none in ED'.
  set (L := length (fdata m)) in *. destruct (extract_ok VV z dA ED HSD Hz Hzero Hsh) as (ys & EX & Ly & Hy). fold L in Ly, Hy.
  destruct (import_ok VV z (concat ys) ED' HSD Hz Hzero ys eq_refl Ly) as (m' & EI & L' & HZ & HB). exists (concat ys), m'. split; [exact EX|]. split; [|split; [exact EI|]].
  { rewrite ES. rewrite (dim_sum z); [|lia|intros i Hi; cbn [fst snd]; apply Hzero; lia]. cbn [fst snd]. rewrite <- Ly. clear. induction ys as [|y ys IH]; cbn; [reflexivity|]. rewrite app_length, IH. reflexivity. }
  assert (Hsh' : same_shapes (fdata m) (fdata m')).
  { apply same_shapes_nth; [exact L'|]. intros n Hn. destruct (Nat.lt_ge_cases n z) as [Hlt|Hge].
    - destruct (HZ n Hlt) as (B & E1 & E2 & E3 & E4 & _). exists B. auto.
    - destruct (HB n Hge Hn) as (B & l & r & C & Ci & E & Ei & pr & E1 & _ & E2 & E3 & E4 & _). exists B. auto. }
  split; [exact Hsh'|]. intros n A X l HA HX Hl.
  assert (Hn : (n < L)%nat) by (apply nth_error_Some; congruence). assert (EA : AA n = A) by (unfold AA; now apply nth_error_nth).
  assert (HXs : phys X = phys A /\ dl X = dl A /\ dr X = dr A).
  { clear -Hsh HA HX. unfold same_shapes in Hsh. revert n HA HX. induction Hsh as [|A' B' la lb HAB Hl IH]; intros [|n] HA HX; try discriminate; [injection HA as <-; injection HX as <-; exact HAB|]. now apply (IH n). }
  destruct (HSD n Hn) as (l' & r & C & Ci & E & Ei & pr & H). assert (l' = l) by (pose proof (sd_l _ _ _ _ _ _ _ _ _ _ H); congruence). subst l'.
  assert (HBX : exists B, nth_error (fdata m') n = Some B /\ phys B = phys A /\ dl B = dl A /\ dr B = dr A /\
    forall s a b, (s < phys A)%nat -> (a < dl A)%nat -> (b < dr A)%nat -> ent B s a b = project (phys A) (dl A) (te pr) l (fun t c => ent X t c b) s a).
  { rewrite <- EA. destruct (sd_ml _ _ _ _ _ _ _ _ _ _ H) as (Ml & Dl & _). destruct (Nat.lt_ge_cases n z) as [Hlt|Hge].
    - destruct (HZ n Hlt) as (B & E1 & E2 & E3 & E4 & E5). exists B. repeat (split; [assumption|]). intros s a b Hs Ha Hb. rewrite E5. symmetry.
      rewrite (project_eq (AA n) l C Ci (VV n) (te pr) Ml Dl (sd_rl _ _ _ _ _ _ _ _ _ _ H) (sd_pr _ _ _ _ _ _ _ _ _ _ H)) by exact Ha.
      assert (Z0 : dr (VV n) = 0%nat). { apply (Hzero n Hn) in Hlt. destruct (site_pos n (AA n)) as (_ & _ & _ & P4); [now apply AA_nth|]. apply Nat.mul_eq_0 in Hlt. lia. } rewrite Z0. cbn [sum]. ring.
    - destruct (HB n Hge Hn) as (B & l1 & r1 & C1 & Ci1 & E1 & Ei1 & pr1 & EB & H1 & E2 & E3 & E4 & E5). exists B. repeat (split; [assumption|]). intros s a b Hs Ha Hb. rewrite E5 by assumption.
      destruct (site_data_inj _ _ _ _ _ _ _ _ _ _ _ _ _ _ _ _ _ _ H H1) as (_ & -> & -> & -> & -> & _ & _).
      rewrite (project_eq (AA n) l C Ci (VV n) (te pr) Ml Dl (sd_rl _ _ _ _ _ _ _ _ _ _ H) (sd_pr _ _ _ _ _ _ _ _ _ _ H)) by exact Ha.
      destruct (Hy n Hge Hn) as (X' & l2 & r2 & C2 & Ci2 & E2' & Ei2 & pr2 & EX' & H2 & Hc). rewrite HX in EX'. injection EX' as <-.
      destruct (site_data_inj _ _ _ _ _ _ _ _ _ _ _ _ _ _ _ _ _ _ H H2) as (_ & -> & -> & -> & -> & _ & _).
      destruct (sd_rr _ _ _ _ _ _ _ _ _ _ H) as (_ & _ & _ & _ & _ & HEE). destruct (sd_mr _ _ _ _ _ _ _ _ _ _ H) as (Mr & _). rewrite Mr in HEE. destruct (HEE b Hb) as (Eb & _).
      transitivity (me Ci a a * sum (dr (VV n)) (fun k => ent (VV n) s a k * sum (phys (AA n)) (fun t => sum (dl (AA n)) (fun c => sconj (ent (VV n) t c k) * (me C c c * ent X t c b)))) * (me E b b * me Ei b b)); [|rewrite Eb; ring].
      transitivity (me Ci a a * (sum (dr (VV n)) (fun k => ent (VV n) s a k * sum (phys (AA n)) (fun t => sum (dl (AA n)) (fun c => sconj (ent (VV n) t c k) * (me C c c * ent X t c b)))) * me E b b) * me Ei b b); [|ring].
      f_equal. f_equal. rewrite <- sum_mul_r. apply sum_ext; intros k Hk. rewrite Hc by assumption.
      transitivity (ent (VV n) s a k * (sum (phys (AA n)) (fun t => sum (dl (AA n)) (fun c => sconj (ent (VV n) t c k) * (me C c c * ent X t c b))) * me E b b)); [|ring]. f_equal.
      rewrite <- sum_mul_r. apply sum_ext; intros t _. rewrite <- sum_mul_r. apply sum_ext; intros c _. ring. }
  destruct HBX as (B & EB & B1 & B2 & B3 & HBe). exists B, pr, (VV n). split; [exact EB|]. split; [exact (sd_pv _ _ _ _ _ _ _ _ _ _ H)|]. split; [exact HBe|].
  rewrite EA in H. destruct (sd_ml _ _ _ _ _ _ _ _ _ _ H) as (Ml & Dl & _). split.
  - intros b Hb. apply (left_gauge_ext A l (project (phys A) (dl A) (te pr) l (fun t c => ent X t c b))); [intros s a Hs Ha; symmetry; now apply HBe|].
    exact (left_project_gauge A l C Ci (VV n) (te pr) Ml Dl (sd_rl _ _ _ _ _ _ _ _ _ _ H) (sd_nb _ _ _ _ _ _ _ _ _ _ H) (sd_pr _ _ _ _ _ _ _ _ _ _ H) _).
  - intros HG. destruct HXs as (X1 & X2 & X3). split; [congruence|]. split; [congruence|]. split; [congruence|]. rewrite X1, X2, X3. intros s a b Hs Ha Hb. rewrite HBe by assumption. symmetry.
    exact (left_identity A l C Ci (VV n) (te pr) Ml Dl (sd_rl _ _ _ _ _ _ _ _ _ _ H) (sd_nb _ _ _ _ _ _ _ _ _ _ H) (sd_pr _ _ _ _ _ _ _ _ _ _ H) _ (HG b Hb) s a Hs Ha).
Qed.
End Theorems.
End P.
