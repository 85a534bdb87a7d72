(** Attributes of objects and itemwise arithmetic. *)
From Verif Require Import Alg ModelMPS SpecMPS ModelOrth ModelCanon ProofState SpecTraj ProofRK.

Section Attr.
Context {R : sring}.
Local Open Scope sr_scope.
Add Ring Rr : (s_th R).

Lemma list_max_in (l : list nat) : l <> [] -> In (list_max l) l.
Proof.
  induction l as [|x l IH]; [contradiction|]. intros _. destruct l as [|y l]; [cbn; left; lia|].
  change (list_max (x :: y :: l)) with (Nat.max x (list_max (y :: l))).
  destruct (Nat.max_spec x (list_max (y :: l))) as [[_ E]|[_ E]]; rewrite E; [right; apply IH; discriminate|left; reflexivity].
Qed.

Lemma init_attr (A : site R) (data : list (site R)) d :
  exists m, fMPS_init (A :: data) d None = Ok m /\ fdata m = A :: data /\ fL m = S (length data) /\
    fd m = match d with Some d => d | None => phys A end /\
    (forall B, In B (A :: data) -> dl B <= fD m /\ dr B <= fD m) /\
    (exists B, In B (A :: data) /\ (dl B = fD m \/ dr B = fD m)) /\ bond_dimension m = Ok (fD m) /\
    fcan m = Some false /\ forth m = Some false /\ foc m = None /\ fnorm m = None.
Proof.
  set (D := list_max (map (fun x => Nat.max (dl x) (dr x)) (A :: data))).
  exists (mkF (A :: data) (S (length data)) (match d with Some d => d | None => phys A end) D (Some false) (Some false) None None).
  split; [unfold fMPS_init; destruct d; reflexivity|]. cbn [fdata fL fd fD fcan forth foc fnorm].
  do 3 (split; [reflexivity|]). split.
  { pose proof (max_bond_ge (A :: data)) as H. rewrite Forall_forall in H. exact H. }
  split.
  { pose proof (list_max_in (map (fun x => Nat.max (dl x) (dr x)) (A :: data)) ltac:(discriminate)) as H.
    apply in_map_iff in H as (B & E & HB). exists B. split; [exact HB|]. fold D in E. lia. }
  repeat split; reflexivity.
Qed.

Lemma init_fails (data : list (site R)) d D : (exists e, fMPS_init data d D = Err e) <-> data = [] \/ D <> None.
Proof.
  unfold fMPS_init. destruct data as [|A data], d, D; cbn; split; try (intros _; auto; right; discriminate);
    try (intros _; eexists; reflexivity); try (intros [e H]; discriminate); intros [H|H]; congruence.
Qed.

Lemma left_D (O : lapack2 R) m D sb minD m' Ls : left_canonicalise O m D sb minD = Ok (m', Ls) ->
  fD m' = match D with Some D => Nat.min D (fD m) | None => fD m end.
Proof.
  unfold left_canonicalise. destruct (left_can_loop _ _ _ _ _ _ _) as [dn|]; [|discriminate]. cbn [bind].
  match goal with |- context [bind ?e _] => destruct e as [dl|] end; [|discriminate]. cbn [bind].
  intros H. injection H as <- _. reflexivity.
Qed.

Lemma right_D (O : lapack2 R) m D sb minD m' Ls : right_canonicalise O m D sb minD = Ok (m', Ls) ->
  fD m' = match D with Some D => Nat.min D (fD m) | None => fD m end.
Proof.
  unfold right_canonicalise. destruct (right_can_loop _ _ _ _ _ _) as [dn|]; [|discriminate]. cbn [bind].
  match goal with |- context [bind ?e _] => destruct e as [dl|] end; [|discriminate]. cbn [bind].
  intros H. injection H as <- _. reflexivity.
Qed.

Lemma zip_sub_ok : forall a b : list (site R), shapes a = shapes b ->
  exists l, mapM (fun ab => site_zip ssub (fst ab) (snd ab)) (pyzip a b) = Ok l /\ shapes l = shapes a /\
    forall p, entries l p = entries a p - entries b p.
Proof.
  induction a as [|A a IH]; intros [|B b] H; try discriminate.
  - exists []. split; [reflexivity|]. split; [reflexivity|]. intros [[[n s] i] j]. cbn. destruct n; cbn; ring.
  - cbn [shapes map] in H. injection H as H1 H2 H3 H4. destruct (IH b H4) as (l & E & Hs & He).
    unfold pyzip in *. cbn [combine mapM fst snd]. unfold site_zip at 1.
    rewrite H1, H2, H3, !Nat.eqb_refl. cbn [andb bind]. rewrite E. cbn [bind].
    eexists. split; [reflexivity|]. split; [cbn [shapes map phys dl dr]; unfold shapes in Hs; rewrite Hs; congruence|].
    intros [[[n s] i] j]. destruct n as [|n]; [cbn; reflexivity|]. exact (He (n, s, i, j)).
Qed.

Lemma sub_ok' (a b : fmps R) : fdata a <> [] -> shapes (fdata a) = shapes (fdata b) ->
  exists m, itemwise_sub a b = Ok m /\ shapes (fdata m) = shapes (fdata a) /\
    forall p, entries (fdata m) p = entries (fdata a) p - entries (fdata b) p.
Proof.
  intros Hn H. unfold itemwise_sub. destruct (zip_sub_ok _ _ H) as (l & E & Hs & He). rewrite E. cbn [bind].
  destruct l as [|A l]; [destruct (fdata a); [contradiction|discriminate]|].
  destruct (init_attr A l None) as (m & Em & Hd & _). exists m. rewrite Em, Hd. auto.
Qed.

Lemma add_ok'' (a b : fmps R) : fdata a <> [] -> shapes (fdata a) = shapes (fdata b) ->
  exists m, itemwise_add a b = Ok m /\ shapes (fdata m) = shapes (fdata a) /\
    forall p, entries (fdata m) p = entries (fdata a) p + entries (fdata b) p.
Proof.
  intros Hn H. apply add_ok'; auto. destruct (fdata a); [contradiction|discriminate].
Qed.

Lemma mul_ok'' (a : fmps R) c : fdata a <> [] ->
  exists m, itemwise_mul a c = Ok m /\ shapes (fdata m) = shapes (fdata a) /\ fd m = fd a /\
    forall p, entries (fdata m) p = c * entries (fdata a) p.
Proof.
  intros Hn. unfold itemwise_mul. destruct (fdata a) as [|A l] eqn:E; [contradiction|].
  destruct (init_attr (site_scale c A) (map (site_scale c) l) (Some (fd a))) as (m & Em & Hd & _ & Hf & _).
  exists m. cbn [map]. rewrite Em, Hd. split; [reflexivity|].
  split; [exact (scale_shapes c (A :: l))|]. split; [exact Hf|]. intros p. exact (scale_entries c (A :: l) p).
Qed.

(** multiplying every tensor multiplies the state by the L-th power *)
Lemma amp_scale c (l : list (site R)) : forall s i j, length s = length l ->
  amp (map (site_scale c) l) s i j = spow c (length l) * amp l s i j.
Proof.
  induction l as [|A l IH]; intros [|x s] i j H; try discriminate; cbn [map amp length spow].
  - ring.
  - cbn [site_scale dr ent]. rewrite <- sum_mul_l. apply sum_ext. intros k _. rewrite IH by (cbn in H; lia). ring.
Qed.

Lemma mul_state (a : fmps R) c : fdata a <> [] ->
  exists m, itemwise_mul a c = Ok m /\ dims (fdata m) = dims (fdata a) /\
    forall s, length s = length (fdata a) -> psi m s = spow c (length (fdata a)) * psi a s.
Proof.
  intros Hn. unfold itemwise_mul. destruct (fdata a) as [|A l] eqn:E; [contradiction|].
  destruct (init_attr (site_scale c A) (map (site_scale c) l) (Some (fd a))) as (m & Em & Hd & _).
  exists m. cbn [map]. rewrite Em. split; [reflexivity|]. unfold psi. rewrite Hd, E.
  split; [unfold dims; change (site_scale c A :: map (site_scale c) l) with (map (site_scale c) (A :: l)); rewrite map_map; reflexivity|].
  intros s Hs. exact (amp_scale c (A :: l) s 0%nat 0%nat Hs).
Qed.
End Attr.
