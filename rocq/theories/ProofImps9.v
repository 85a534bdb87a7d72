(** Eigenvector predicates and storage of infinite MPS. *)
From Verif Require Import Alg ModelMPS SpecMPS ModelOrth ModelCanon ModelNcon ModelEk ModelTensor ModelNp ModelDecomp SpecDecomp
  ModelLie ModelStruct SpecStruct ProofStruct ModelImps SpecImps ProofImps.

Section C.
Context {R : sring}.
Local Open Scope sr_scope.
Add Ring Rr : (s_th R).

Lemma right_predicate close D (A B : site R) r lam : (forall M N, close M N = true <-> mat_eq M N) ->
  square_site D A -> square_site D B -> phys A = phys B -> mr r = D -> mc r = D ->
  exists b, is_right_eigenvector close A B r lam = Ok b /\
    (b = true <-> forall i j, i < D -> j < D -> me r i j = lam * tright A B (me r) i j).
Proof.
  intros Hc HA HB Hp R1 R2. unfold is_right_eigenvector. pose proof HA as [D1 D2]. rewrite D1, D2.
  rewrite reshape1_ok by (rewrite R1, R2; reflexivity). cbn [bind]. unfold linop. rewrite flat2_len, R1, R2, Nat.eqb_refl.
  destruct (map_mv_ok D A B (flat2 r) HA HB Hp) as (w & Hw & Lw & Ew); [rewrite flat2_len; congruence|]. rewrite Hw. cbn [bind].
  unfold reshape2. rewrite Lw, Nat.eqb_refl. cbn [bind]. eexists. split; [reflexivity|]. rewrite Hc. unfold mat_eq. cbn [mscal mr mc me].
  rewrite R1, R2. assert (E : forall i j, i < D -> j < D -> nth (i * D + j)%nat w 0 = tright A B (me r) i j).
  { intros i j Hi Hj. rewrite Ew by assumption. unfold tright. pose proof HB as [_ D4]. rewrite D2, D4.
    apply sum_ext; intros s _. apply sum_ext; intros a Ha. apply sum_ext; intros b Hb. rewrite unvec_flat2 by assumption. reflexivity. }
  split.
  - intros (_ & _ & H) i j Hi Hj. rewrite H by assumption. rewrite E by assumption. reflexivity.
  - intros H. split; [reflexivity|]. split; [reflexivity|]. intros i j Hi Hj. rewrite E by assumption. auto.
Qed.

Lemma left_predicate close D (A B : site R) l lam : (forall M N, close M N = true <-> mat_eq M N) ->
  square_site D A -> square_site D B -> phys A = phys B -> mr l = D -> mc l = D ->
  exists b, is_left_eigenvector close A B l lam = Ok b /\
    (b = true <-> forall i j, i < D -> j < D -> me l i j = lam * tadj A B (me l) i j).
Proof.
  intros Hc HA HB Hp R1 R2. unfold is_left_eigenvector. pose proof HA as [D1 D2]. rewrite D1.
  rewrite reshape1_ok by (rewrite R1, R2; reflexivity). cbn [bind]. unfold linop. rewrite flat2_len, R1, R2, Nat.eqb_refl.
  destruct (map_mvr_ok D A B (flat2 l) HA HB Hp) as (w & Hw & Lw & Ew); [rewrite flat2_len; congruence|]. rewrite Hw. cbn [bind].
  unfold reshape2. rewrite Lw, Nat.eqb_refl. cbn [bind]. eexists. split; [reflexivity|]. rewrite Hc. unfold mat_eq. cbn [mscal mr mc me].
  rewrite R1, R2. assert (E : forall i j, i < D -> j < D -> nth (i * D + j)%nat w 0 = tadj A B (me l) i j).
  { intros i j Hi Hj. rewrite Ew by assumption. unfold tadj. pose proof HB as [D4 _]. rewrite D1, D4.
    apply sum_ext; intros s _. apply sum_ext; intros a Ha. apply sum_ext; intros b Hb. rewrite unvec_flat2 by assumption. reflexivity. }
  split.
  - intros (_ & _ & H) i j Hi Hj. rewrite H by assumption. rewrite E by assumption. reflexivity.
  - intros H. split; [reflexivity|]. split; [reflexivity|]. intros i j Hi Hj. rewrite E by assumption. auto.
Qed.

(** storage *)
Lemma shapes_repeat (l : list (site R)) d D : Forall (fun A => phys A = d /\ square_site D A) l -> map shape_of l = repeat (d, D, D) (length l).
Proof.
  induction 1 as [|A l (H1 & H2 & H3) _ IH]; [reflexivity|]. cbn [map length repeat]. rewrite IH. f_equal. unfold shape_of. congruence.
Qed.

Lemma imps_roundtrip (m n : imps R) d D extra : i_data m <> [] -> Forall (fun A => phys A = d /\ square_site D A) (i_data m) ->
  exists v n', imps_serialize m = Ok v /\ imps_deserialize n (v ++ extra) d D (length (i_data m)) = Ok n' /\
    Forall2 site_eq (i_data m) (i_data n') /\ i_d n' = d /\ i_D n' = D /\ i_period n' = length (i_data m).
Proof.
  intros Hne HF. unfold imps_serialize, imps_deserialize. exists (flat_map flatten (i_data m)).
  rewrite <- (shapes_repeat _ d D HF). destruct (deserialize_loop_ok (i_data m) extra) as (l' & E & H). rewrite E. cbn [bind].
  eexists. split; [destruct (i_data m); [contradiction|reflexivity]|]. split; [reflexivity|]. cbn [i_data i_d i_D i_period]. auto.
Qed.

Lemma imps_roundtrip_real (I : imag R) (m n : imps R) d D : (forall x : R, sre x + im_unit I * im_part I x = x) ->
  i_data m <> [] -> Forall (fun A => phys A = d /\ square_site D A) (i_data m) ->
  exists v n', imps_serialize_real I m = Ok v /\ imps_deserialize_real I n v d D (length (i_data m)) = Ok n' /\
    Forall2 site_eq (i_data m) (i_data n') /\ i_d n' = d /\ i_D n' = D /\ i_period n' = length (i_data m).
Proof.
  intros HI Hne HF. destruct (imps_roundtrip m n d D [] Hne HF) as (v & n' & E1 & E2 & E3). rewrite app_nil_r in E2.
  unfold imps_serialize_real, imps_deserialize_real. rewrite E1. cbn [bind]. exists (map sre v ++ map (im_part I) v), n'. split; [reflexivity|].
  unfold chop2. rewrite app_length, !map_length. replace (length v + length v)%nat with (length v * 2)%nat by lia.
  rewrite Nat.mod_mul, Nat.div_mul by lia. cbn [Nat.eqb bind fst snd].
  rewrite firstn_app, map_length, Nat.sub_diag, firstn_O, app_nil_r.
  rewrite <- (map_length sre v) at 1. rewrite firstn_all. rewrite skipn_app, map_length, Nat.sub_diag.
  rewrite <- (map_length sre v) at 1. rewrite skipn_all. cbn [app skipn].
  replace (map (fun p => fst p + im_unit I * snd p) (combine (map sre v) (map (im_part I) v))) with v; [split; [exact E2|exact E3]|].
  clear - HI. induction v as [|x v IH]; [reflexivity|]. cbn [map combine fst snd]. rewrite HI. f_equal. exact IH.
Qed.

Lemma imps_file (N : numio R) (m n : imps R) : io_ok N -> i_data m <> [] -> i_period m = length (i_data m) ->
  Forall (fun A => phys A = i_d m /\ square_site (i_D m) A) (i_data m) ->
  exists f n', imps_store N m = Ok f /\ imps_load N n f = Ok n' /\
    Forall2 site_eq (i_data m) (i_data n') /\ i_d n' = i_d m /\ i_D n' = i_D m /\ i_period n' = i_period m.
Proof.
  intros HN Hne Hp HF. destruct (imps_roundtrip m n (i_d m) (i_D m) [] Hne HF) as (v & n' & E1 & E2 & E3). rewrite app_nil_r in E2.
  unfold imps_store, imps_load. rewrite E1. cbn [bind map app firstn skipn]. eexists. exists n'. split; [reflexivity|]. cbn [firstn skipn].
  rewrite !HN. rewrite Hp. split; [exact E2|exact E3].
Qed.

Lemma imps_init_ok (A : site R) rest c : exists m, iMPS_init (A :: rest) c = Ok m /\ i_data m = A :: rest /\
  i_period m = S (length rest) /\ i_d m = phys A /\ i_D m = dr A.
Proof. eexists. split; [reflexivity|]. repeat split. Qed.

(** __call__ reads two places behind the 1-based place *)
Lemma call_shift (m : imps R) k : imps_call m k = imps_get m (k + 1).
Proof. reflexivity. Qed.
End C.
