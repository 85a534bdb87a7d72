(** Null-space projectors. *)
From Coq Require Import Permutation Sorted.
From Verif Require Import Alg ModelMPS SpecMPS ProofMPS ModelNcon SpecNcon ProofNcon ProofNcon3 ProofNcon4 ModelEk ProofEk4 ModelNp ModelEnergy ProofEnergy ModelTan SpecTan.

Section P.
Context {R : sring}.
Local Open Scope sr_scope.
Add Ring Rr : (s_th R).

Lemma divmod_lt b q r : (r < b)%nat -> ((q * b + r) / b = q /\ (q * b + r) mod b = r)%nat.
Proof. intros H. rewrite Nat.div_add_l, Nat.div_small by lia. rewrite (Nat.add_comm (q * b)), Nat.mod_add, Nat.mod_small by lia. lia. Qed.

(** The root of a diagonal matrix is diagonal. *)
Lemma chol_diagonal (M C : mat R) : diagonal M -> is_chol M C ->
  forall i j, (i < mr M)%nat -> (j < mr M)%nat -> i <> j -> me C i j = 0.
Proof.
  intros (_ & HD) (_ & _ & HL & HU & HM).
  assert (G : forall j, (j < mr M)%nat -> forall i, (j < i)%nat -> (i < mr M)%nat -> me C i j = 0).
  { induction j as [j IH] using (well_founded_induction lt_wf). intros Hj i Hij Hi. destruct (HU j Hj) as (Hc & u & Hu).
    pose proof (HM i j Hi Hj) as E. rewrite HD in E by lia.
    rewrite (sum_diag (mr M) j) in E; [|exact Hj|].
    - rewrite Hc in E. transitivity (me C i j * (me C j j * u)); [rewrite Hu; ring|]. transitivity (me C i j * me C j j * u); [ring|]. rewrite E. ring.
    - intros k Hk Hkj. destruct (Nat.lt_trichotomy k j) as [H|[H|H]]; [|lia|].
      + rewrite (IH k H Hk j H Hj), conj_0. ring.
      + rewrite (HL j k H Hk), conj_0. ring. }
  intros i j Hi Hj Hne. destruct (Nat.lt_trichotomy i j) as [H|[H|H]]; [now apply HL|lia|now apply G].
Qed.

(** Root and inverse root of a diagonal real matrix: c(a) and u(a). *)
Definition root_of (M C Ci : mat R) : Prop :=
  mr C = mr M /\ mc C = mr M /\ mr Ci = mr M /\ mc Ci = mr M /\
  (forall a b, (a < mr M)%nat -> (b < mr M)%nat -> me C a b = dlt a b * me C a a /\ me Ci a b = dlt a b * me Ci a a) /\
  (forall a, (a < mr M)%nat -> me C a a * me Ci a a = 1 /\ me C a a * me C a a = me M a a /\ sconj (me C a a) = me C a a /\ sconj (me Ci a a) = me Ci a a).

Lemma sum_dlt1 n a (f : nat -> R) : (a < n)%nat -> sum n (fun k => dlt a k * f k) = f a.
Proof. intros H. rewrite (sum_diag n a); [unfold dlt; rewrite Nat.eqb_refl; ring|exact H|]. intros j _ Hj. unfold dlt. destruct (Nat.eqb_spec a j); [lia|ring]. Qed.

Lemma root_ok (K : tanlib R) (M C Ci : mat R) : tanlib_ok K -> diagonal M -> (forall a, (a < mr M)%nat -> sconj (me M a a) = me M a a) ->
  t_ch K M = Ok C -> t_inv K C = Ok Ci -> root_of M C Ci.
Proof.
  intros (Kc & Ki & _) HD Hreal EC EI.
  assert (HC : is_chol M C).
  { apply Kc; [|exact EC]. destruct HD as [H1 H2]. split; [exact H1|]. intros i j Hi Hj. destruct (Nat.eq_dec i j) as [->|N]; [now apply Hreal|]. rewrite !H2 by lia. apply conj_0. }
  pose proof (chol_diagonal M C HD HC) as CD. destruct HC as (C1 & C2 & HL & HU & HM).
  assert (HI : is_inverse C Ci) by (apply Ki; [congruence|exact EI]). destruct HI as (I1 & I2 & HI). rewrite C1 in *.
  assert (Hcc : forall a, (a < mr M)%nat -> me C a a * me Ci a a = 1).
  { intros a Ha. destruct (HI a a Ha Ha) as [H _]. rewrite (sum_diag (mr M) a) in H; [|exact Ha|intros k Hk Hne; rewrite (CD a k) by lia; ring]. rewrite H. unfold dlt. now rewrite Nat.eqb_refl. }
  assert (Hoff : forall a b, (a < mr M)%nat -> (b < mr M)%nat -> a <> b -> me Ci a b = 0).
  { intros a b Ha Hb Hne. destruct (HI a b Ha Hb) as [H _]. rewrite (sum_diag (mr M) a) in H; [|exact Ha|intros k Hk Hk'; rewrite (CD a k) by lia; ring].
    unfold dlt in H. destruct (Nat.eqb_spec a b); [lia|]. transitivity (me C a a * me Ci a a * me Ci a b); [rewrite Hcc by assumption; ring|]. transitivity (me Ci a a * (me C a a * me Ci a b)); [ring|]. rewrite H. ring. }
  repeat (split; [assumption|]). split.
  - intros a b Ha Hb. unfold dlt. destruct (Nat.eqb_spec a b) as [->|N]; [split; ring|]. rewrite CD, Hoff by assumption. split; ring.
  - intros a Ha. destruct (HU a Ha) as [Hc _]. split; [now apply Hcc|]. split; [|split; [exact Hc|]].
    + rewrite <- (HM a a Ha Ha). rewrite (sum_diag (mr M) a); [now rewrite Hc|exact Ha|]. intros k Hk Hne. rewrite (CD a k) by lia. ring.
    + assert (E : me C a a * sconj (me Ci a a) = 1). { rewrite <- Hc at 1. rewrite <- conj_mul, Hcc by assumption. apply conj_1. }
      transitivity (sconj (me Ci a a) * (me C a a * me Ci a a)); [rewrite Hcc by assumption; ring|]. transitivity (me C a a * sconj (me Ci a a) * me Ci a a); [ring|]. rewrite E. ring.
Qed.

(** * The reshapes *)
Lemma ravel2 a b i j : ravel [a; b] [i; j] = (i * b + j)%nat.
Proof. cbn. lia. Qed.
Lemma ravel3 a b c i j k : ravel [a; b; c] [i; j; k] = ((i * b + j) * c + k)%nat.
Proof. cbn. lia. Qed.

Lemma rows_ok (d : nat) (X : site R) : phys X = d -> (0 < d)%nat -> (0 < dr X)%nat ->
  exists M, rows_of d X = Ok M /\ mr M = dl X /\ mc M = (d * dr X)%nat /\
    forall b s a, (b < dl X)%nat -> (s < d)%nat -> (a < dr X)%nat -> me M b (s * dr X + a) = ent X s b a.
Proof.
  intros Hp Hd Hr. unfold rows_of. rewrite Hp. destruct (Nat.eqb_spec (d * dr X) 0) as [E|N]; [nia|].
  rewrite Nat.mod_mul by exact N. cbn [Nat.eqb]. rewrite Nat.div_mul by exact N. unfold reshape_. cbn [tsh].
  replace (fold_right Nat.mul 1%nat [dl X; d; dr X]) with (fold_right Nat.mul 1%nat [dl X; (d * dr X)%nat]) by (cbn; lia). rewrite Nat.eqb_refl. cbn [bind].
  eexists. split; [reflexivity|]. cbn [mr mc me te]. split; [reflexivity|]. split; [reflexivity|]. intros b s a Hb Hs Ha.
  replace (ravel [dl X; (d * dr X)%nat] [b; (s * dr X + a)%nat]) with (ravel [dl X; d; dr X] [b; s; a]) by (rewrite ravel2, ravel3; ring).
  destruct (unravel_ravel [dl X; d; dr X] [b; s; a]) as [-> _]; [repeat constructor; assumption|]. reflexivity.
Qed.

Lemma cols_ok (d e : nat) (N : mat R) : mr N = (d * e)%nat -> (0 < d)%nat -> (0 < e)%nat ->
  exists V, cols_of d e N = Ok V /\ phys V = d /\ dl V = e /\ dr V = mc N /\
    forall s a k, (s < d)%nat -> (a < e)%nat -> (k < mc N)%nat -> ent V s a k = me N (s * e + a) k.
Proof.
  intros HN Hd He. unfold cols_of. rewrite HN. destruct (Nat.eqb_spec (d * e) 0) as [E|Ne]; [nia|].
  rewrite (Nat.mul_comm (d * e) (mc N)), Nat.mod_mul by exact Ne. cbn [Nat.eqb]. rewrite Nat.div_mul by exact Ne. unfold reshape_. cbn [tsh tens_mat]. rewrite HN.
  replace (fold_right Nat.mul 1%nat [(d * e)%nat; mc N]) with (fold_right Nat.mul 1%nat [d; e; mc N]) by (cbn; lia). rewrite Nat.eqb_refl. cbn [bind].
  eexists. split; [reflexivity|]. cbn [phys dl dr ent te]. repeat (split; [reflexivity|]). intros s a k Hs Ha Hk.
  replace (ravel [d; e; mc N] [s; a; k]) with (ravel [(d * e)%nat; mc N] [(s * e + a)%nat; k]) by (rewrite ravel2, ravel3; ring).
  destruct (unravel_ravel [(d * e)%nat; mc N] [(s * e + a)%nat; k]) as [-> _]; [repeat constructor; [nia|assumption]|]. reflexivity.
Qed.

Lemma sum_two d e (f : nat -> R) : (0 < e)%nat -> sum (d * e) f = sum d (fun s => sum e (fun a => f (s * e + a)%nat)).
Proof.
  intros He. rewrite (sum_ext (d * e) f (fun k => (fun s a => f (s * e + a)%nat) (k / e)%nat (k mod e)%nat)).
  - apply (sum_mul_divmod d e (fun s a => f (s * e + a)%nat)).
  - intros k _. f_equal. rewrite Nat.mul_comm. apply Nat.div_mod. lia.
Qed.

(** * The null vectors *)
(** V is an orthonormal basis of the tensors w with sum conj(F b s a) w s a = 0. *)
Definition null_basis (q d D : nat) (F : nat -> nat -> nat -> R) (V : site R) : Prop :=
  phys V = d /\ dl V = D /\
  (forall b k, (b < q)%nat -> (k < dr V)%nat -> sum d (fun s => sum D (fun a => F b s a * ent V s a k)) = 0) /\
  (forall k k', (k < dr V)%nat -> (k' < dr V)%nat -> sum d (fun s => sum D (fun a => sconj (ent V s a k) * ent V s a k')) = dlt k k') /\
  (forall w : nat -> nat -> R, (forall b, (b < q)%nat -> sum d (fun s => sum D (fun a => F b s a * w s a)) = 0) ->
     forall s a, (s < d)%nat -> (a < D)%nat -> w s a = sum (dr V) (fun k => ent V s a k * sum d (fun t => sum D (fun c => sconj (ent V t c k) * w t c)))).

Lemma null_cols (q d D : nat) (F : nat -> nat -> nat -> R) (M N : mat R) (V : site R) : (0 < d)%nat -> (0 < D)%nat ->
  mr M = q -> mc M = (d * D)%nat -> (forall b s a, (b < q)%nat -> (s < d)%nat -> (a < D)%nat -> me M b (s * D + a) = F b s a) ->
  is_null M N -> phys V = d -> dl V = D -> dr V = mc N -> (forall s a k, (s < d)%nat -> (a < D)%nat -> (k < mc N)%nat -> ent V s a k = me N (s * D + a) k) ->
  null_basis q d D F V.
Proof.
  intros Hd HD M1 M2 HM (N1 & N2 & N3 & N4) V1 V2 V3 HV. repeat (split; [assumption|]). rewrite V3. rewrite M1, M2 in *. split; [|split].
  - intros b k Hb Hk. rewrite <- (N2 b k Hb Hk), sum_two by exact HD. apply sum_ext; intros s Hs. apply sum_ext; intros a Ha. now rewrite HM, HV.
  - intros k k' Hk Hk'. rewrite <- (N3 k k' Hk Hk'), sum_two by exact HD. apply sum_ext; intros s Hs. apply sum_ext; intros a Ha. now rewrite !HV.
  - intros w Hw s a Hs Ha.
    assert (E : forall s a, (a < D)%nat -> (fun j => w (j / D)%nat (j mod D)%nat) (s * D + a)%nat = w s a).
    { intros s' a' Ha'. cbn beta. destruct (divmod_lt D s' a' Ha') as [-> ->]. reflexivity. }
    rewrite <- (E s a Ha). rewrite (N4 (fun j => w (j / D)%nat (j mod D)%nat)); [| |nia].
    + apply sum_ext. intros k Hk. rewrite HV by assumption. f_equal. rewrite sum_two by exact HD. apply sum_ext; intros t Ht. apply sum_ext; intros c Hc. rewrite E by exact Hc. now rewrite HV.
    + intros b Hb. rewrite sum_two by exact HD. rewrite <- (Hw b Hb). apply sum_ext; intros t Ht. apply sum_ext; intros c Hc. rewrite E by exact Hc. now rewrite HM.
Qed.

(** * left_null_projector *)
Variable K : tanlib R.
Variable S : setio.
Hypothesis HK : tanlib_ok K.
Hypothesis HS : setio_ok S.

Definition left_form (A : site R) (c : nat -> R) : nat -> nat -> nat -> R := fun b s a => sconj (ent A s a b) * c a.

Lemma two_site_net (X Y : site R) : phys X = phys Y -> dl X = dl Y -> dr X = dr Y ->
  exists T, ncon S [tens_site X; tens_site Y] [[-1; -2; 1]; [-3; -4; 1]]%Z None None false = Ok T /\ tsh T = [phys X; dl X; phys X; dl X] /\
    forall s a t c, te T [s; a; t; c] = sum (dr X) (fun k => ent X s a k * ent Y t c k).
Proof.
  intros H1 H2 H3.
  destruct (ncon_default_ok S (fun z => match z with (-1)%Z | (-3)%Z => phys X | (-2)%Z | (-4)%Z => dl X | _ => dr X end)
     [tens_site X; tens_site Y] [[-1; -2; 1]; [-3; -4; 1]]%Z [1]%Z [-1; -2; -3; -4]%Z false HS) as (T & E & ST & VT).
  { small_net. }
  { repeat constructor. }
  exists T. split; [exact E|]. split; [exact ST|]. intros s a t c. rewrite (VT [s; a; t; c] eq_refl). cbn [esum]. apply sum_ext. intros k Hk.
  unfold tprod. cbv [assign eupd Z.eqb Pos.eqb]. cbn [combine map fst snd prodl fold_right te tens_site ent nth]. ring.
Qed.

Lemma left_null_ok (m : fmps R) (n : nat) (ls : list (mat R)) (A : site R) (l : mat R) :
  nth_error (fdata m) n = Some A -> nth_error ls n = Some l -> phys A = fd m -> (0 < phys A)%nat -> (0 < dl A)%nat ->
  mr l = dl A -> diagonal l -> (forall a, (a < dl A)%nat -> sconj (me l a a) = me l a a) -> left_ready K A l ->
  exists pr V C Ci, left_null_projector K S m n (Some ls) None = Ok (pr, V) /\ t_ch K l = Ok C /\ t_inv K C = Ok Ci /\ root_of l C Ci /\
    null_basis (dr A) (phys A) (dl A) (left_form A (fun a => me C a a)) V /\
    tsh pr = [phys A; dl A; phys A; dl A] /\
    forall s a t c, (a < dl A)%nat -> (c < dl A)%nat -> te pr [s; a; t; c] = sum (dr V) (fun k => me Ci a a * ent V s a k * (me Ci c c * sconj (ent V t c k))).
Proof.
  intros EA El Hp Hpos Hdl Hl HD Hreal (C & Ci & EC & ECi & HN).
  assert (HR : root_of l C Ci) by (apply (root_ok K); try assumption; rewrite Hl; assumption).
  pose proof HR as (C1 & C2 & I1 & I2 & HOff & HDia). rewrite Hl in *.
  unfold left_null_projector. cbn [bind]. unfold getitem. rewrite EA, El. cbn [bind]. rewrite EC. cbn [bind].
  unfold site_mat at 1. cbn [cT_site phys dl dr ent]. rewrite C1, Nat.eqb_refl. cbn [bind].
  match goal with |- context [rows_of (fd m) ?X0] => set (X := X0) end.
  destruct (rows_ok (fd m) X) as (M & EM & M1 & M2 & HM); [exact Hp|lia|cbn; lia|]. cbn [X dl dr phys] in M1, M2, HM. rewrite C2 in *.
  assert (HM' : forall b s a, (b < dr A)%nat -> (s < phys A)%nat -> (a < dl A)%nat -> me M b (s * dl A + a) = left_form A (fun a => me C a a) b s a).
  { intros b s a Hb Hs Ha. rewrite HM by (rewrite <- ?Hp; assumption). cbn [X ent]. unfold left_form. rewrite (sum_diag (dl A) a); [reflexivity|exact Ha|].
    intros k Hk Hne. destruct (HOff k a Hk Ha) as [-> _]. unfold dlt. destruct (Nat.eqb_spec k a); [lia|ring]. }
  rewrite EM. cbn [bind]. destruct (HN M) as (N & EN).
  { split; [exact M1|]. split; [cbn; rewrite Hp; exact M2|]. rewrite M1, M2. intros b j Hb Hj. cbn [gauge_mat me].
    assert (Ej : j = (j / dl A * dl A + j mod dl A)%nat) by (rewrite Nat.mul_comm; apply Nat.div_mod; lia). rewrite Ej at 1.
    rewrite HM; [reflexivity|exact Hb|apply Nat.div_lt_upper_bound; lia|apply Nat.mod_upper_bound; lia]. }
  rewrite EN. cbn [bind]. rewrite M2, Nat.mul_comm, Nat.div_mul by lia.
  assert (HNN : is_null M N) by (apply HK, EN).
  destruct (cols_ok (fd m) (dl A) N) as (V & EV & V1 & V2 & V3 & HV); [destruct HNN as [-> _]; exact M2|lia|lia|]. rewrite EV. cbn [bind].
  rewrite ECi. cbn [bind]. unfold mat_site. cbn [site_conj dl dr phys ent]. rewrite I2, V2, Nat.eqb_refl. cbn [bind].
  match goal with |- context [ncon S [tens_site ?X0; tens_site ?Y0] _ _ _ _] => destruct (two_site_net X0 Y0 eq_refl eq_refl eq_refl) as (T & ET & ST & VT) end.
  rewrite ET. cbn [bind]. exists T, V, C, Ci. split; [reflexivity|]. split; [first [reflexivity|exact EC]|]. split; [first [exact ECi|reflexivity]|]. split; [exact HR|]. split; [|split].
  - apply (null_cols _ _ _ _ M N); try assumption; try congruence. intros s a k Hs Ha Hk. apply HV; [congruence|exact Ha|exact Hk].
  - rewrite ST. cbn [phys dl]. now rewrite I1, V1, <- Hp.
  - intros s a t c Ha Hc. rewrite VT. cbn [dr ent]. apply sum_ext. intros k Hk.
    rewrite (sum_diag (dl A) a); [|exact Ha|]. rewrite (sum_diag (dl A) c); [ring|exact Hc|].
    + intros j Hj Hne. destruct (HOff c j Hc Hj) as [_ ->]. unfold dlt. destruct (Nat.eqb_spec c j); [lia|ring].
    + intros j Hj Hne. destruct (HOff a j Ha Hj) as [_ ->]. unfold dlt. destruct (Nat.eqb_spec a j); [lia|ring].
Qed.

Lemma sum_dlt_mid n a (f : nat -> R) (x : R) (M : mat R) : (a < n)%nat -> (forall c, (c < n)%nat -> a <> c -> me M a c = 0) ->
  sum n (fun c => x * me M a c * f c) = x * me M a a * f a.
Proof. intros Ha H. rewrite (sum_diag n a); [reflexivity|exact Ha|]. intros c Hc Hne. rewrite H by (assumption || lia). ring. Qed.

Section Left.
Variables (A : site R) (l C Ci : mat R) (V : site R) (pr : list nat -> R).
Hypothesis Hl : mr l = dl A.
Hypothesis HD : diagonal l.
Hypothesis HR : root_of l C Ci.
Hypothesis HV : null_basis (dr A) (phys A) (dl A) (left_form A (fun a => me C a a)) V.
Hypothesis Hpr : forall s a t c, (a < dl A)%nat -> (c < dl A)%nat -> pr [s; a; t; c] = sum (dr V) (fun k => me Ci a a * ent V s a k * (me Ci c c * sconj (ent V t c k))).

Lemma l_diag a (f : nat -> R) (x : R) : (a < dl A)%nat -> sum (dl A) (fun c => x * me l a c * f c) = x * me l a a * f a.
Proof. intros Ha. apply sum_dlt_mid; [exact Ha|]. intros c Hc Hne. destruct HD as [_ H]. rewrite Hl in H. now apply H. Qed.

Lemma left_gauge_iff (X : nat -> nat -> R) : left_gauge A l X <->
  forall b, (b < dr A)%nat -> sum (phys A) (fun s => sum (dl A) (fun a => left_form A (fun a => me C a a) b s a * (me C a a * X s a))) = 0.
Proof.
  unfold left_gauge. assert (E : forall b, sum (phys A) (fun s => sum (dl A) (fun a => sum (dl A) (fun a' => sconj (ent A s a b) * me l a a' * X s a'))) =
    sum (phys A) (fun s => sum (dl A) (fun a => left_form A (fun a => me C a a) b s a * (me C a a * X s a)))).
  { intros b. apply sum_ext; intros s Hs. apply sum_ext; intros a Ha. rewrite l_diag by exact Ha. destruct HR as (_ & _ & _ & _ & _ & H). rewrite Hl in H. destruct (H a Ha) as (_ & <- & _). unfold left_form. ring. }
  split; intros H b Hb; [rewrite <- E|rewrite E]; now apply H.
Qed.

Lemma project_eq (X : nat -> nat -> R) s a : (a < dl A)%nat -> project (phys A) (dl A) pr l X s a =
  me Ci a a * sum (dr V) (fun k => ent V s a k * sum (phys A) (fun t => sum (dl A) (fun c => sconj (ent V t c k) * (me C c c * X t c)))).
Proof.
  intros Ha. unfold project. destruct HR as (_ & _ & _ & _ & _ & HDia). rewrite Hl in HDia.
  transitivity (sum (phys A) (fun t => sum (dl A) (fun c => sum (dr V) (fun k => me Ci a a * (ent V s a k * (sconj (ent V t c k) * (me C c c * X t c))))))).
  - apply sum_ext; intros t Ht. apply sum_ext; intros c Hc. rewrite l_diag by exact Hc. rewrite Hpr by assumption. rewrite <- !sum_mul_r. apply sum_ext; intros k Hk.
    destruct (HDia c Hc) as (E1 & <- & _). transitivity (me Ci a a * (ent V s a k * (sconj (ent V t c k) * (me C c c * me Ci c c * me C c c * X t c)))); [ring|]. rewrite E1. ring.
  - rewrite <- sum_mul_l. transitivity (sum (phys A) (fun t => sum (dr V) (fun k => sum (dl A) (fun c => me Ci a a * (ent V s a k * (sconj (ent V t c k) * (me C c c * X t c))))))).
    + apply sum_ext; intros t _. apply sum_swap.
    + rewrite sum_swap. apply sum_ext; intros k _. rewrite <- !sum_mul_l. apply sum_ext; intros t _. rewrite <- !sum_mul_l. apply sum_ext; intros c _. reflexivity.
Qed.

Lemma left_image (x : nat -> R) : left_gauge A l (fun s a => me Ci a a * sum (dr V) (fun k => ent V s a k * x k)).
Proof.
  apply left_gauge_iff. intros b Hb. destruct HV as (_ & _ & V1 & _ & _). destruct HR as (_ & _ & _ & _ & _ & HDia). rewrite Hl in HDia.
  transitivity (sum (phys A) (fun s => sum (dl A) (fun a => sum (dr V) (fun k => left_form A (fun a => me C a a) b s a * ent V s a k * x k)))).
  - apply sum_ext; intros s _. apply sum_ext; intros a Ha. destruct (HDia a Ha) as (E & _).
    transitivity (left_form A (fun a => me C a a) b s a * (me C a a * me Ci a a) * sum (dr V) (fun k => ent V s a k * x k)); [ring|]. rewrite E.
    rewrite <- sum_mul_l. apply sum_ext; intros k _. ring.
  - transitivity (sum (phys A) (fun s => sum (dr V) (fun k => sum (dl A) (fun a => left_form A (fun a => me C a a) b s a * ent V s a k * x k)))).
    { apply sum_ext; intros s _. apply sum_swap. }
    rewrite sum_swap. apply sum_zero. intros k Hk. transitivity (sum (phys A) (fun s => sum (dl A) (fun a => left_form A (fun a => me C a a) b s a * ent V s a k)) * x k).
    { rewrite <- sum_mul_r. apply sum_ext; intros s _. rewrite <- sum_mul_r. reflexivity. }
    rewrite V1 by assumption. ring.
Qed.

Lemma left_gauge_ext (X Y : nat -> nat -> R) : (forall s a, (s < phys A)%nat -> (a < dl A)%nat -> X s a = Y s a) -> left_gauge A l X -> left_gauge A l Y.
Proof. intros H HX b Hb. rewrite <- (HX b Hb). apply sum_ext; intros s Hs. apply sum_ext; intros a Ha. apply sum_ext; intros a' Ha'. now rewrite H. Qed.

Lemma left_project_gauge (X : nat -> nat -> R) : left_gauge A l (project (phys A) (dl A) pr l X).
Proof.
  eapply left_gauge_ext; [|apply left_image]. intros s a Hs Ha. symmetry. apply project_eq. exact Ha.
Qed.

Lemma left_column_gauge t c : (c < dl A)%nat -> left_gauge A l (fun s a => pr [s; a; t; c]).
Proof.
  intros Hc. apply (left_gauge_ext (fun s a => me Ci a a * sum (dr V) (fun k => ent V s a k * (me Ci c c * sconj (ent V t c k))))); [|apply left_image].
  intros s a _ Ha. rewrite Hpr by assumption. rewrite <- sum_mul_l. apply sum_ext; intros k _. ring.
Qed.

Lemma left_self_adjoint s a t c : (a < dl A)%nat -> (c < dl A)%nat -> pr [s; a; t; c] = sconj (pr [t; c; s; a]).
Proof.
  intros Ha Hc. rewrite !Hpr by assumption. rewrite sum_conj. apply sum_ext; intros k _. destruct HR as (_ & _ & _ & _ & _ & HDia). rewrite Hl in HDia.
  destruct (HDia a Ha) as (_ & _ & _ & Ea). destruct (HDia c Hc) as (_ & _ & _ & Ec). rewrite !conj_mul, conj_conj, Ea, Ec. ring.
Qed.

Lemma left_identity (X : nat -> nat -> R) : left_gauge A l X -> forall s a, (s < phys A)%nat -> (a < dl A)%nat -> project (phys A) (dl A) pr l X s a = X s a.
Proof.
  intros HX s a Hs Ha. rewrite project_eq by exact Ha. destruct HV as (_ & _ & _ & _ & V3). destruct HR as (_ & _ & _ & _ & _ & HDia). rewrite Hl in HDia.
  rewrite <- (V3 (fun s a => me C a a * X s a)); [|now apply left_gauge_iff|exact Hs|exact Ha]. destruct (HDia a Ha) as (E & _).
  transitivity (me C a a * me Ci a a * X s a); [ring|]. rewrite E. ring.
Qed.
End Left.

(** * right_null_projector *)
Lemma right_null_ok (m : fmps R) (n : nat) (rs : list (mat R)) (A : site R) (r : mat R) :
  nth_error (fdata m) n = Some A -> nth_error rs (n + 1) = Some r -> phys A = fd m -> (0 < phys A)%nat -> (0 < dr A)%nat ->
  mr r = dr A -> diagonal r -> (forall a, (a < dr A)%nat -> sconj (me r a a) = me r a a) -> right_ready K A r ->
  exists pr V C Ci, right_null_projector K S m n (Some rs) None = Ok (pr, V) /\ t_ch K r = Ok C /\ t_inv K C = Ok Ci /\ root_of r C Ci /\
    phys V = phys A /\ dr V = dr A /\
    null_basis (dl A) (phys A) (dr A) (fun a s b => sconj (ent A s a b) * me r b b) (mkSite (phys V) (dr V) (dl V) (fun s i j => ent V s j i)) /\
    tsh pr = [phys A; dr A; phys A; dr A] /\
    forall s b t c, (b < dr A)%nat -> (c < dr A)%nat -> te pr [s; b; t; c] = sum (dl V) (fun k => me Ci b b * ent V s k b * (me Ci c c * sconj (ent V t k c))).
Proof.
  intros EA El Hp Hpos Hdr Hr HD Hreal (C & Ci & EC & ECi & HN).
  assert (HR : root_of r C Ci) by (apply (root_ok K); try assumption; rewrite Hr; assumption).
  pose proof HR as (C1 & C2 & I1 & I2 & HOff & HDia). rewrite Hr in *.
  assert (Hrc : mc r = dr A) by (destruct HD as [H _]; congruence).
  unfold right_null_projector. cbn [bind]. unfold getitem. rewrite EA, El. cbn [bind].
  unfold site_mat at 1. cbn [site_conj phys dl dr ent]. rewrite Hr, Nat.eqb_refl. cbn [bind].
  match goal with |- context [rows_of (fd m) ?X0] => set (X := X0) end.
  destruct (rows_ok (fd m) X) as (M & EM & M1 & M2 & HM); [exact Hp|lia|cbn; lia|]. cbn [X dl dr phys] in M1, M2, HM. rewrite Hrc in *.
  assert (HM' : forall b s a, (b < dl A)%nat -> (s < phys A)%nat -> (a < dr A)%nat -> me M b (s * dr A + a) = sconj (ent A s b a) * me r a a).
  { intros b s a Hb Hs Ha. rewrite HM by (rewrite <- ?Hp; assumption). cbn [X ent]. rewrite (sum_diag (dr A) a); [reflexivity|exact Ha|].
    intros k Hk Hne. destruct HD as [_ H]. rewrite H by lia. ring. }
  rewrite EM. cbn [bind]. destruct (HN M) as (N & EN).
  { split; [exact M1|]. split; [cbn; rewrite Hp; exact M2|]. rewrite M1, M2. intros b j Hb Hj. cbn [gauge_mat_r me].
    assert (Ej : j = (j / dr A * dr A + j mod dr A)%nat) by (rewrite Nat.mul_comm; apply Nat.div_mod; lia). rewrite Ej at 1.
    rewrite HM; [reflexivity|exact Hb|apply Nat.div_lt_upper_bound; lia|apply Nat.mod_upper_bound; lia]. }
  rewrite EN. cbn [bind].
  assert (HNN : is_null M N) by (apply HK, EN).
  destruct (cols_ok (fd m) (dr X) N) as (V & EV & V1 & V2 & V3 & HV); [destruct HNN as [-> _]; cbn [X dr]; rewrite Hrc; exact M2|lia|cbn [X dr]; lia|]. cbn [X dr] in V2, HV, EV. rewrite Hrc in V2, HV, EV. cbn [X dr]. rewrite Hrc, EV. cbn [bind].
  rewrite EC. cbn [bind]. rewrite ECi. cbn [bind].
  set (W := mkSite (phys V) (dr V) (dl V) (fun s i j => ent V s j i)).
  destruct (ncon_default_ok S (fun z => match z with (-1)%Z | (-3)%Z => phys V | 1%Z => dr V | _ => dr A end)
     [tens_mat Ci; tens_site W; tens_site (site_conj W); tens_mat Ci] [[-2; 2]; [-1; 1; 2]; [-3; 1; 4]; [-4; 4]]%Z [1; 2; 4]%Z [-1; -2; -3; -4]%Z false HS) as (T & ET & ST & VT).
  { small_net. }
  { repeat constructor. }
  rewrite ET. cbn [bind]. exists T, W, C, Ci. split; [reflexivity|]. split; [first [reflexivity|exact EC]|]. split; [first [exact ECi|reflexivity]|]. split; [exact HR|].
  split; [cbn; congruence|]. split; [exact V2|]. split; [|split].
  - apply (null_cols _ _ _ _ M N); try assumption; try (cbn; congruence). intros s a k Hs Ha Hk. cbn. apply HV; [congruence|exact Ha|exact Hk].
  - rewrite ST. cbn [map]. now rewrite V1, <- Hp.
  - intros s b t c Hb Hc. rewrite (VT [s; b; t; c] eq_refl). cbn [esum W dl]. apply sum_ext. intros k Hk.
    rewrite (sum_diag (dr A) b); [|exact Hb|].
    + rewrite (sum_diag (dr A) c); [|exact Hc|].
      * unfold tprod. cbv [assign eupd Z.eqb Pos.eqb]. cbn [combine map fst snd prodl fold_right te tens_site tens_mat site_conj W ent nth]. ring.
      * intros j Hj Hne. unfold tprod. cbv [assign eupd Z.eqb Pos.eqb]. cbn [combine map fst snd prodl fold_right te tens_site tens_mat site_conj W ent nth].
        destruct (HOff c j Hc Hj) as [_ ->]. unfold dlt. destruct (Nat.eqb_spec c j); [lia|ring].
    + intros j Hj Hne. apply sum_zero. intros j' Hj'. unfold tprod. cbv [assign eupd Z.eqb Pos.eqb]. cbn [combine map fst snd prodl fold_right te tens_site tens_mat site_conj W ent nth].
      destruct (HOff b j Hb Hj) as [_ ->]. unfold dlt. destruct (Nat.eqb_spec b j); [lia|ring].
Qed.

(** The columns are orthogonal to A with the weight r^(3/2). *)
Lemma right_column (A : site R) (r C Ci : mat R) (V : site R) (pr : list nat -> R) : mr r = dr A -> root_of r C Ci ->
  null_basis (dl A) (phys A) (dr A) (fun a s b => sconj (ent A s a b) * me r b b) (mkSite (phys V) (dr V) (dl V) (fun s i j => ent V s j i)) ->
  (forall s b t c, (b < dr A)%nat -> (c < dr A)%nat -> pr [s; b; t; c] = sum (dl V) (fun k => me Ci b b * ent V s k b * (me Ci c c * sconj (ent V t k c)))) ->
  forall a t c, (a < dl A)%nat -> (c < dr A)%nat ->
    sum (phys A) (fun s => sum (dr A) (fun b => sconj (ent A s a b) * (me r b b * me C b b) * pr [s; b; t; c])) = 0.
Proof.
  intros Hr HR (_ & _ & V1 & _ & _) Hpr a t c Ha Hc. destruct HR as (_ & _ & _ & _ & _ & HDia). rewrite Hr in HDia. cbn [dr dl phys ent] in V1.
  transitivity (sum (phys A) (fun s => sum (dr A) (fun b => sum (dl V) (fun k => sconj (ent A s a b) * me r b b * ent V s k b * (me Ci c c * sconj (ent V t k c)))))).
  - apply sum_ext; intros s _. apply sum_ext; intros b Hb. rewrite Hpr by assumption. rewrite <- sum_mul_l. apply sum_ext; intros k _. destruct (HDia b Hb) as (E & _).
    transitivity (me C b b * me Ci b b * (sconj (ent A s a b) * me r b b * ent V s k b * (me Ci c c * sconj (ent V t k c)))); [ring|]. rewrite E. ring.
  - transitivity (sum (phys A) (fun s => sum (dl V) (fun k => sum (dr A) (fun b => sconj (ent A s a b) * me r b b * ent V s k b * (me Ci c c * sconj (ent V t k c)))))).
    { apply sum_ext; intros s _. apply sum_swap. }
    rewrite sum_swap. apply sum_zero. intros k Hk.
    transitivity (sum (phys A) (fun s => sum (dr A) (fun b => sconj (ent A s a b) * me r b b * ent V s k b)) * (me Ci c c * sconj (ent V t k c))).
    { rewrite <- sum_mul_r. apply sum_ext; intros s _. now rewrite <- sum_mul_r. }
    rewrite V1 by assumption. ring.
Qed.

(** * Environments *)
Definition env_ok (e : mat R) (D : nat) : Prop := mr e = D /\ diagonal e /\ forall a, (a < D)%nat -> sconj (me e a a) = me e a a.

Lemma env_1_ok : env_ok env_1 1.
Proof. split; [reflexivity|]. split; [split; [reflexivity|]; cbn; intros; lia|]. intros. apply conj_1. Qed.
Lemma env_l_ok e (A : site R) : env_ok e (dl A) -> exists e', env_l e A = Ok e' /\ env_ok e' (dr A).
Proof.
  intros (H1 & (H2 & _) & _). unfold env_l. rewrite H1, <- H2, H1, Nat.eqb_refl. cbn [andb]. eexists. split; [reflexivity|]. split; [reflexivity|]. split.
  - split; [reflexivity|]. cbn [me mr]. intros i j _ _ N. destruct (Nat.eqb_spec i j); [contradiction|reflexivity].
  - intros a _. cbn [me]. rewrite Nat.eqb_refl, sum_conj. apply sum_ext. intros s _. apply conj_re.
Qed.
Lemma env_r_ok e (A : site R) : env_ok e (dr A) -> exists e', env_r e A = Ok e' /\ env_ok e' (dl A).
Proof.
  intros (H1 & (H2 & _) & _). unfold env_r. rewrite H1, <- H2, H1, Nat.eqb_refl. cbn [andb]. eexists. split; [reflexivity|]. split; [reflexivity|]. split.
  - split; [reflexivity|]. cbn [me mr]. intros i j _ _ N. destruct (Nat.eqb_spec i j); [contradiction|reflexivity].
  - intros a _. cbn [me]. rewrite Nat.eqb_refl, sum_conj. apply sum_ext. intros s _. apply conj_re.
Qed.
Lemma envs_l_struct (l : list (site R)) : forall e i j, chain i l j -> env_ok e i ->
  exists es, envs env_l e l = Ok es /\ length es = Datatypes.S (length l) /\ forall n A, nth_error l n = Some A -> exists e', nth_error es n = Some e' /\ env_ok e' (dl A).
Proof.
  induction l as [|A l IH]; intros e i j Hch He; cbn [envs].
  - exists [e]. split; [reflexivity|]. split; [reflexivity|]. intros [|n] B HB; discriminate.
  - cbn in Hch. destruct Hch as [<- Hch]. destruct (env_l_ok e A He) as (e' & E & He'). rewrite E. cbn [bind]. destruct (IH e' _ _ Hch He') as (es & Es & Ls & Hes). rewrite Es. cbn [bind].
    exists (e :: es). split; [reflexivity|]. split; [cbn; congruence|]. intros [|n] B HB; [injection HB as <-; exists e; split; [reflexivity|exact He]|]. now apply Hes.
Qed.
Lemma envs_r_struct (l : list (site R)) : forall e i j, chain i (rev l) j -> env_ok e j ->
  exists es, envs env_r e l = Ok es /\ length es = Datatypes.S (length l) /\ forall n A, nth_error l n = Some A -> exists e', nth_error es n = Some e' /\ env_ok e' (dr A).
Proof.
  induction l as [|A l IH]; intros e i j Hch He; cbn [envs].
  - exists [e]. split; [reflexivity|]. split; [reflexivity|]. intros [|n] B HB; discriminate.
  - cbn [rev] in Hch. apply chain_app in Hch as (k & Hch & HA). cbn in HA. destruct HA as [<- HA]. subst j.
    destruct (env_r_ok e A He) as (e' & E & He'). rewrite E. cbn [bind]. destruct (IH e' _ _ Hch He') as (es & Es & Ls & Hes). rewrite Es. cbn [bind].
    exists (e :: es). split; [reflexivity|]. split; [cbn; congruence|]. intros [|n] B HB; [injection HB as <-; exists e; split; [reflexivity|exact He]|]. now apply Hes.
Qed.

Lemma nth_error_rev {X} (l : list X) n : (n < length l)%nat -> nth_error (rev l) n = nth_error l (length l - 1 - n).
Proof.
  intros H. destruct (nth_error l (length l - 1 - n)) as [x|] eqn:E.
  - rewrite (nth_error_nth' _ x) by (now rewrite rev_length). rewrite rev_nth by exact H. f_equal. replace (length l - Datatypes.S n)%nat with (length l - 1 - n)%nat by lia. now apply nth_error_nth.
  - apply nth_error_None in E. lia.
Qed.

Lemma get_envs_struct (m : fmps R) : closed (fdata m) -> exists ls rs, get_envs m = Ok (ls, rs) /\
  forall n A, nth_error (fdata m) n = Some A -> exists l r, nth_error ls n = Some l /\ env_ok l (dl A) /\ nth_error rs (n + 1) = Some r /\ env_ok r (dr A).
Proof.
  intros Hc. unfold get_envs. destruct (envs_l_struct (fdata m) env_1 1 1 Hc env_1_ok) as (ls & El & Ll & Hls).
  destruct (envs_r_struct (rev (fdata m)) env_1 1 1) as (rs & Er & Lr & Hrs); [now rewrite rev_involutive|exact env_1_ok|].
  rewrite El, Er. cbn [bind]. exists ls, (rev rs). split; [reflexivity|]. intros n A HA. destruct (Hls n A HA) as (l & E1 & H1). exists l.
  assert (Hn : (n < length (fdata m))%nat) by (apply nth_error_Some; congruence). rewrite rev_length in Lr.
  destruct (Hrs (length (fdata m) - 1 - n)%nat A) as (r & E2 & H2).
  { rewrite nth_error_rev by lia. rewrite <- HA. f_equal. lia. }
  exists r. split; [exact E1|]. split; [exact H1|]. split; [|exact H2]. rewrite nth_error_rev by lia. rewrite Lr. rewrite <- E2. f_equal. lia.
Qed.
End P.
