From Verif Require Import Alg ModelMPS SpecMPS ModelStruct SpecStruct.

(** create_structure *)

Lemma last_item_nth {A} (l : list A) x : l <> [] -> last_item l = Ok (nth (length l - 1) l x).
Proof.
  intros H. unfold last_item. destruct l as [|a l'] using rev_ind; [congruence|].
  rewrite rev_app_distr, app_length, app_nth2; simpl; [|lia].
  replace (length l' + 1 - 1 - length l')%nat with 0 by lia. reflexivity.
Qed.

Section CS.
Variables (L d D : nat).
Let left := map (fun n => (Nat.min (d ^ n) D, Nat.min (d ^ (n + 1)) D)) (seq 0 (L / 2)).

Lemma left_len : length left = L / 2.
Proof. unfold left. rewrite map_length, seq_length. reflexivity. Qed.

Lemma left_nth k : k < L / 2 -> nth k left (0, 0) = (Nat.min (d ^ k) D, Nat.min (d ^ (k + 1)) D).
Proof.
  intros H. unfold left.
  set (f := fun n => (Nat.min (d ^ n) D, Nat.min (d ^ (n + 1)) D)).
  rewrite (nth_indep _ (0,0) (f 0)) by (rewrite map_length, seq_length; exact H).
  rewrite (map_nth f), seq_nth by exact H. reflexivity.
Qed.

Lemma right_nth k : k < L / 2 -> nth k (transpose_tups (rev left)) (0, 0)
  = (Nat.min (d ^ (L / 2 - k)) D, Nat.min (d ^ (L / 2 - k - 1)) D).
Proof.
  intros H. unfold transpose_tups.
  rewrite (map_nth (fun t : nat * nat => (snd t, fst t)) (rev left) (0, 0)).
  rewrite rev_nth by (rewrite left_len; exact H). rewrite left_len.
  rewrite left_nth by lia. cbn [fst snd]. f_equal; f_equal; f_equal; lia.
Qed.

Lemma create_structure_spec : 2 <= L \/ L = 0 ->
  exists st, create_structure L d (Some D) = Ok st /\ length st = L /\
  forall k, k < L -> nth k st (0, 0) = (bond L d D k, bond L d D (k + 1)).
Proof.
  intros HL. unfold create_structure. fold left.
  pose proof (Nat.div_mod L 2 ltac:(lia)) as HD. pose proof (Nat.mod_upper_bound L 2 ltac:(lia)).
  destruct (Nat.eqb_spec (L mod 2) 0) as [E|E].
  - eexists. split; [reflexivity|]. split.
    { unfold transpose_tups. rewrite app_length, map_length, rev_length, left_len. lia. }
    intros k Hk. destruct (Nat.lt_ge_cases k (L / 2)).
    + rewrite app_nth1 by (rewrite left_len; lia). rewrite left_nth by lia. unfold bond.
      f_equal; f_equal; f_equal; lia.
    + rewrite app_nth2 by (rewrite left_len; lia). rewrite left_len, right_nth by lia. unfold bond.
      f_equal; f_equal; f_equal; lia.
  - assert (Hm : L mod 2 = 1) by lia. assert (1 <= L / 2) by lia.
    rewrite (last_item_nth _ (0, 0)) by (intros E2; pose proof left_len as E3; rewrite E2 in E3; cbn [length] in E3; lia).
    cbn [bind]. unfold getitem.
    assert (Hrl : length (transpose_tups (rev left)) = L / 2).
    { unfold transpose_tups. rewrite map_length, rev_length, left_len. reflexivity. }
    rewrite (nth_error_nth' _ (0, 0)) by (rewrite Hrl; lia). cbn [bind].
    eexists. split; [reflexivity|].
    rewrite left_len, left_nth, right_nth by lia. cbn [fst snd].
    split. { rewrite !app_length, Hrl, left_len. cbn [length]. lia. }
    intros k Hk. destruct (Nat.lt_ge_cases k (L / 2)).
    + rewrite app_nth1 by (rewrite left_len; lia). rewrite left_nth by lia. unfold bond.
      f_equal; f_equal; f_equal; lia.
    + rewrite app_nth2 by (rewrite left_len; lia). rewrite left_len.
      destruct (Nat.eq_dec k (L / 2)) as [->|].
      * rewrite Nat.sub_diag. cbn [app nth]. unfold bond. f_equal; f_equal; f_equal; lia.
      * rewrite app_nth2 by (cbn [length]; lia). cbn [length]. rewrite right_nth by lia. unfold bond.
        f_equal; f_equal; f_equal; lia.
Qed.
End CS.

Lemma create_structure_one d D : create_structure 1 d D = Err IndexError.
Proof. destruct D; reflexivity. Qed.

Lemma create_structure_None L d : 1 <= d -> 2 <= L ->
  exists st, create_structure L d None = Ok st /\ length st = L /\
  forall k, k < L -> nth k st (0, 0) = (d ^ Nat.min k (L - k), d ^ Nat.min (k + 1) (L - (k + 1)))%nat.
Proof.
  intros Hd HL.
  destruct (create_structure_spec L d (d ^ L) (or_introl HL)) as (st & E & Hl & Hn).
  exists st. split; [exact E|]. split; [exact Hl|]. intros k Hk. rewrite (Hn k Hk). unfold bond.
  f_equal; apply Nat.min_l; apply Nat.pow_le_mono_r; lia.
Qed.

(** Serialisation *)

Section Ser.
Context {R : sring}.
Local Open Scope sr_scope.

Lemma flat_map_len {A B} (f : A -> list B) n l : (forall x, In x l -> length (f x) = n) ->
  length (flat_map f l) = (length l * n)%nat.
Proof.
  induction l as [|x l IH]; intros H; [reflexivity|]. simpl. rewrite app_length, H by (left; reflexivity).
  rewrite IH by (intros; apply H; right; assumption). reflexivity.
Qed.

Lemma flat_map_nth {B} (f : nat -> list B) n m i j (x : B) :
  (forall k, length (f k) = n) -> i < m -> j < n ->
  nth (i * n + j) (flat_map f (seq 0 m)) x = nth j (f i) x.
Proof.
  intros Hf Hi Hj. replace m with (i + (m - i))%nat by lia.
  rewrite seq_app, flat_map_app, app_nth2;
    rewrite (flat_map_len f n) by auto; rewrite seq_length; [|lia].
  replace (i * n + j - i * n)%nat with j by lia.
  destruct (m - i)%nat as [|q] eqn:E; [lia|]. simpl. rewrite app_nth1 by (rewrite Hf; exact Hj). reflexivity.
Qed.

Lemma flatten_len (A : site R) : length (flatten A) = size3 (shape_of A).
Proof.
  unfold flatten. rewrite (flat_map_len _ (dl A * dr A)%nat).
  - rewrite seq_length. unfold size3, shape_of. cbn. lia.
  - intros s _. rewrite (flat_map_len _ (dr A)); [rewrite seq_length; reflexivity|].
    intros i _. rewrite map_length, seq_length. reflexivity.
Qed.

Lemma flatten_nth (A : site R) s i j : s < phys A -> i < dl A -> j < dr A ->
  nth ((s * dl A + i) * dr A + j)%nat (flatten A) 0 = ent A s i j.
Proof.
  intros Hs Hi Hj. unfold flatten.
  replace ((s * dl A + i) * dr A + j)%nat with (s * (dl A * dr A) + (i * dr A + j))%nat by ring.
  rewrite flat_map_nth; [|intros k|exact Hs|].
  - rewrite flat_map_nth; [|intros k; rewrite map_length, seq_length; reflexivity|exact Hi|exact Hj].
    rewrite (nth_indep _ 0 (ent A s i 0)) by (rewrite map_length, seq_length; exact Hj).
    rewrite (map_nth (fun j => ent A s i j)), seq_nth by exact Hj. reflexivity.
  - rewrite (flat_map_len _ (dr A)); [rewrite seq_length; reflexivity|].
    intros x _. rewrite map_length, seq_length. reflexivity.
  - assert ((i + 1) * dr A <= dl A * dr A)%nat by (apply Nat.mul_le_mono_r; lia). lia.
Qed.

Lemma reshape_flatten (A : site R) : exists B, reshape3 (flatten A) (shape_of A) = Ok B /\ site_eq A B.
Proof.
  unfold reshape3, shape_of. rewrite flatten_len. unfold size3, shape_of. cbn [fst snd].
  rewrite Nat.eqb_refl. eexists. split; [reflexivity|].
  repeat split. intros s i j Hs Hi Hj. cbn [ent]. rewrite flatten_nth by assumption. reflexivity.
Qed.

Lemma deserialize_loop_ok (l : list (site R)) extra :
  exists l', deserialize_loop (flat_map flatten l ++ extra) (map shape_of l) = Ok l' /\ Forall2 site_eq l l'.
Proof.
  induction l as [|A l (l' & E & H)]; [exists []; split; [reflexivity|constructor]|].
  cbn [map flat_map deserialize_loop]. rewrite <- app_assoc.
  rewrite <- (flatten_len A), firstn_app, Nat.sub_diag, firstn_all, firstn_O, app_nil_r.
  destruct (reshape_flatten A) as (B & EB & HB). rewrite EB. cbn [bind].
  rewrite skipn_app, Nat.sub_diag, skipn_all. cbn [app skipn]. rewrite E. cbn [bind].
  exists (B :: l'). split; [reflexivity|]. constructor; assumption.
Qed.

Lemma site_eq_shape (A B : site R) : site_eq A B -> shape_of A = shape_of B.
Proof. intros (H1 & H2 & H3 & _). unfold shape_of. congruence. Qed.

Lemma Forall2_shapes (l l' : list (site R)) : Forall2 site_eq l l' -> map shape_of l = map shape_of l'.
Proof. induction 1 as [|A B l l' H _ IH]; simpl; [reflexivity|]. f_equal; [apply site_eq_shape, H|exact IH]. Qed.

Lemma max_bond_shapes (l l' : list (site R)) : map shape_of l = map shape_of l' -> max_bond l = max_bond l'.
Proof.
  intros H. assert (E : map (fun x => Nat.max (dl x) (dr x)) l = map (fun x => Nat.max (dl x) (dr x)) l').
  { transitivity (map (fun sh : shape3 => Nat.max (snd (fst sh)) (snd sh)) (map shape_of l));
     [rewrite map_map; reflexivity|]. rewrite H, map_map. reflexivity. }
  unfold max_bond. rewrite E. destruct l, l'; try discriminate; reflexivity.
Qed.

Lemma Forall2_len {A B} (P : A -> B -> Prop) l l' : Forall2 P l l' -> length l = length l'.
Proof. induction 1; simpl; congruence. Qed.

Lemma init_decoded (m : fmps R) l : fdata m <> [] -> Forall2 site_eq (fdata m) l ->
  decoded m (fMPS_init l None None).
Proof.
  intros Hne H. unfold fMPS_init. destruct l as [|B l].
  - inversion H. congruence.
  - cbn [bind max_bond]. eexists. split; [reflexivity|]. split; [exact H|]. cbn.
    split; [|auto]. rewrite (Forall2_len _ _ _ H). reflexivity.
Qed.

Lemma serialize_ok (m : fmps R) : fdata m <> [] -> serialize m = Ok (flat_map flatten (fdata m)).
Proof. intros H. unfold serialize. destruct (fdata m); [congruence|reflexivity]. Qed.

Lemma serial_len (l : list (site R)) :
  length (flat_map flatten l) = list_sum (map (fun A => size3 (shape_of A)) l).
Proof.
  induction l as [|A l IH]; [reflexivity|]. simpl. rewrite app_length, flatten_len, IH. reflexivity.
Qed.

Lemma serialize_roundtrip (m : fmps R) : fdata m <> [] ->
  exists v, serialize m = Ok v /\
    length v = list_sum (map (fun A => (phys A * dl A * dr A)%nat) (fdata m)) /\
    forall extra, decoded m (deserialize (v ++ extra) (map shape_of (fdata m))).
Proof.
  intros H. exists (flat_map flatten (fdata m)). split; [apply serialize_ok, H|].
  split; [apply serial_len|]. intros extra. unfold deserialize.
  destruct (deserialize_loop_ok (fdata m) extra) as (l' & E & HF). rewrite E. cbn [bind].
  apply init_decoded; assumption.
Qed.

Lemma chop2_app (a b : list R) : length a = length b -> chop2 (a ++ b) = Ok (a, b).
Proof.
  intros H. unfold chop2. rewrite app_length, <- H.
  replace (length a + length a)%nat with (length a * 2)%nat by lia.
  rewrite Nat.mod_mul, Nat.div_mul by lia. simpl Nat.eqb.
  rewrite firstn_app, skipn_app, Nat.sub_diag, firstn_all, skipn_all, firstn_O, skipn_O, app_nil_r.
  reflexivity.
Qed.

Lemma combine_maps {A B C E} (f : A -> B) (g : A -> C) (h : B * C -> E) l :
  map h (combine (map f l) (map g l)) = map (fun x => h (f x, g x)) l.
Proof. induction l as [|x l IH]; simpl; [reflexivity|]. rewrite IH. reflexivity. Qed.

Lemma serialize_real_roundtrip (I : imag R) (m : fmps R) : 
  (forall x : R, sre x + im_unit I * im_part I x = x) -> fdata m <> [] ->
  exists v, serialize_real I m = Ok v /\
    length v = (2 * list_sum (map (fun A => (phys A * dl A * dr A)%nat) (fdata m)))%nat /\
    decoded m (deserialize_real I v (map shape_of (fdata m))).
Proof.
  intros HI H. unfold serialize_real. rewrite serialize_ok by exact H. cbn [bind].
  eexists. split; [reflexivity|]. split.
  { rewrite app_length, !map_length, serial_len. unfold size3, shape_of. cbn. lia. }
  unfold deserialize_real. rewrite chop2_app by (rewrite !map_length; reflexivity). cbn [bind fst snd].
  rewrite combine_maps. cbn [fst snd]. rewrite (map_ext _ (fun x => x) HI), map_id.
  destruct (deserialize_loop_ok (fdata m) []) as (l' & E & HF). rewrite app_nil_r in E.
  unfold deserialize. rewrite E. cbn [bind]. apply init_decoded; assumption.
Qed.

(** deserialize returns tensors of the requested shapes. *)
Lemma deserialize_loop_shapes : forall st (v : list R) l,
  deserialize_loop v st = Ok l -> map shape_of l = st.
Proof.
  induction st as [|sh st IH]; intros v l; cbn [deserialize_loop]; [intros H; injection H as <-; reflexivity|].
  destruct (reshape3 _ _) as [A|] eqn:E; [|discriminate]. cbn [bind].
  destruct (deserialize_loop _ _) as [r|] eqn:E2; [|discriminate]. cbn [bind].
  intros H; injection H as <-. simpl. f_equal; [|eapply IH; eassumption].
  unfold reshape3 in E. destruct sh as [[d a] b]. destruct (Nat.eqb _ _); [|discriminate].
  injection E as <-. reflexivity.
Qed.

(** Too short a vector is rejected. *)
Lemma deserialize_loop_short : forall st (v : list R),
  length v < list_sum (map size3 st) -> deserialize_loop v st = Err ValueError.
Proof.
  induction st as [|sh st IH]; intros v H; simpl in H; [lia|]. cbn [deserialize_loop].
  destruct sh as [[d a] b]. unfold reshape3. rewrite firstn_length.
  change (size3 (d, a, b)) with (d * a * b)%nat in *.
  destruct (Nat.eqb_spec (Nat.min (d * a * b) (length v)) (d * a * b)); [|reflexivity].
  cbn [bind]. rewrite IH; [reflexivity|]. rewrite skipn_length. lia.
Qed.

Lemma deserialize_short st (v : list R) :
  length v < list_sum (map size3 st) -> deserialize v st = Err ValueError.
Proof. intros H. unfold deserialize. rewrite deserialize_loop_short by exact H. reflexivity. Qed.

(** store / load *)

Lemma triples_ok (l : list (site R)) :
  triples (length l) (flat_map (fun A => [phys A; dl A; dr A]) l) = Ok (map shape_of l).
Proof. induction l as [|A l IH]; [reflexivity|]. simpl. rewrite IH. reflexivity. Qed.

Lemma flat3_len (l : list (site R)) :
  length (flat_map (fun A => [phys A; dl A; dr A]) l) = (length l * 3)%nat.
Proof. apply flat_map_len. reflexivity. Qed.

Lemma map_io (N : numio R) l : io_ok N -> map (to_nat N) (map (of_nat N) l) = l.
Proof. intros H. rewrite map_map. rewrite (map_ext _ (fun x => x) H). apply map_id. Qed.

Lemma firstn_app_all {A} (a b : list A) n : n = length a -> firstn n (a ++ b) = a.
Proof. intros ->. rewrite firstn_app, Nat.sub_diag, firstn_all, firstn_O. apply app_nil_r. Qed.
Lemma skipn_app_all {A} (a b : list A) n : n = length a -> skipn n (a ++ b) = b.
Proof. intros ->. rewrite skipn_app, Nat.sub_diag, skipn_all. reflexivity. Qed.

Lemma store_structured (N : numio R) (m : fmps R) : io_ok N -> fdata m <> [] ->
  exists f, store N m true = Ok f /\ decoded m (load N f true).
Proof.
  intros HN H. unfold store. rewrite serialize_ok by exact H. cbn [bind].
  eexists. split; [reflexivity|]. unfold load.
  set (st := flat_map (fun A => [phys A; dl A; dr A]) (fdata m)).
  cbn [map app]. unfold getitem. cbn [nth_error bind]. rewrite !HN.
  cbn [skipn]. rewrite firstn_app_all by (rewrite map_length; reflexivity).
  rewrite map_io by exact HN.
  assert (Hst : length st = (length (fdata m) * 3)%nat) by apply flat3_len.
  rewrite Hst at 1. rewrite Nat.div_mul by lia. unfold st at 1. rewrite triples_ok. cbn [bind].
  replace (length st + 1)%nat with (S (length st)) by lia. cbn [skipn].
  rewrite skipn_app_all by (rewrite map_length; reflexivity).
  destruct (serialize_roundtrip m H) as (v & E & _ & Hv). rewrite serialize_ok in E by exact H.
  injection E as <-. specialize (Hv []). rewrite app_nil_r in Hv. exact Hv.
Qed.

Lemma load_unstructured (N : numio R) (m : fmps R) f : io_ok N -> fdata m <> [] ->
  store N m false = Ok f ->
  load N f false = do st <- structure_LdD (fL m) (fd m) (fD m);
                   deserialize (flat_map flatten (fdata m)) st.
Proof.
  intros HN H E. unfold store in E. rewrite serialize_ok in E by exact H. cbn [bind] in E.
  injection E as <-. unfold load. cbn [map app firstn skipn]. rewrite !HN. reflexivity.
Qed.

Lemma store_unstructured (N : numio R) (m : fmps R) : io_ok N -> fdata m <> [] ->
  exists f, store N m false = Ok f /\
  (decoded m (load N f false) <-> structure_LdD (fL m) (fd m) (fD m) = Ok (map shape_of (fdata m))).
Proof.
  intros HN H. destruct (store N m false) as [f|e] eqn:E.
  2:{ unfold store in E. rewrite serialize_ok in E by exact H. discriminate. }
  exists f. split; [reflexivity|]. rewrite (load_unstructured N m f HN H E). split.
  - intros (m' & E' & HF & _). destruct (structure_LdD _ _ _) as [st|]; [|discriminate].
    cbn [bind] in E'. unfold deserialize in E'. destruct (deserialize_loop _ _) as [l|] eqn:El; [|discriminate].
    apply deserialize_loop_shapes in El. cbn [bind] in E'. unfold fMPS_init in E'.
    destruct l as [|A l]; [discriminate|]. cbn in E'. injection E' as <-. cbn [fdata] in HF.
    apply Forall2_shapes in HF. rewrite HF, El. reflexivity.
  - intros ->. cbn [bind]. destruct (serialize_roundtrip m H) as (v & E' & _ & Hv).
    rewrite serialize_ok in E' by exact H. injection E' as <-. specialize (Hv []).
    rewrite app_nil_r in Hv. exact Hv.
Qed.

End Ser.
