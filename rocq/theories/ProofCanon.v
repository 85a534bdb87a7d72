From Verif Require Import Alg ModelMPS SpecMPS ProofMPS ProofMPS2 ModelOrth SpecOrth
  ProofOrth ProofOrth2 ProofOrth3 ModelCanon SpecCanon.

Section Proofs.
Context {R : sring}.
Add Ring Rr : (s_th R).
Local Open Scope sr_scope.

(** Counting a decreasing predicate. *)
Lemma filter_decr (f : nat -> bool) k :
  (forall i j, i <= j -> j < k -> f i = false -> f j = false) ->
  forall i, i < k -> (f i = true <-> i < length (filter f (seq 0 k))).
Proof.
  induction k as [|k IH]; intros H i Hi; [lia|].
  rewrite seq_S, filter_app, app_length. simpl.
  assert (H' : forall i j, i <= j -> j < k -> f i = false -> f j = false) by (intros; eapply H; eauto).
  destruct (f k) eqn:Ek.
  - assert (Hall : forall j, j < k -> f j = true).
    { intros j Hj. destruct (f j) eqn:Ej; [reflexivity|]. rewrite (H j k) in Ek; [discriminate|lia|lia|exact Ej]. }
    assert (Hlen : length (filter f (seq 0 k)) = k).
    { assert (G : forall l, (forall j, In j l -> f j = true) -> filter f l = l).
      { induction l as [|x l IHl]; intros G; [reflexivity|]. simpl. rewrite (G x) by (left; reflexivity).
        rewrite IHl; [reflexivity|]. intros; apply G; right; assumption. }
      rewrite G; [apply seq_length|]. intros j Hj. apply in_seq in Hj. apply Hall; lia. }
    simpl. rewrite Hlen. destruct (Nat.eq_dec i k) as [->|].
    + rewrite Ek. split; [lia|reflexivity].
    + rewrite Hall by lia. split; [lia|reflexivity].
  - simpl. rewrite Nat.add_0_r. destruct (Nat.eq_dec i k) as [->|].
    + rewrite Ek. split; [discriminate|]. intros Hl. exfalso.
      assert (length (filter f (seq 0 k)) <= k).
      { rewrite <- (seq_length k 0) at 2. clear. induction (seq 0 k) as [|x l IHl]; simpl; [lia|].
        destruct (f x); simpl; lia. }
      lia.
    + apply IH; [exact H'|lia].
Qed.

Lemma rank_spec (O : lapack2 R) k Sv : svd_ok O -> is_sv k Sv ->
  (rank O (mdiag k Sv) <= k)%nat /\
  forall i, i < k -> (rank O (mdiag k Sv) <= i)%nat -> Sv i = 0.
Proof.
  intros (_ & _ & H0) [_ Hz]. unfold rank. simpl. rewrite Nat.min_id.
  set (f := fun i => negb (la_is0 O (if Nat.eqb i i then Sv i else 0))).
  split.
  - rewrite <- (seq_length k 0) at 2. induction (seq 0 k) as [|x l IHl]; simpl; [lia|].
    destruct (f x); simpl; lia.
  - intros i Hi Hr.
    assert (Hf : forall j, f j = false <-> Sv j = 0).
    { intros j. unfold f. rewrite Nat.eqb_refl, negb_false_iff. apply H0. }
    apply Hf. destruct (f i) eqn:E; [|reflexivity].
    apply (filter_decr f k) in E; [|intros a b Hab Hb Ha; apply Hf; apply Hf in Ha; eapply Hz; eauto|exact Hi].
    fold f in Hr. lia.
Qed.

(** Sums may be cut where the summand vanishes. *)
Lemma sum_cut n k (f : nat -> R) : n <= k -> (forall i, n <= i -> i < k -> f i = 0) ->
  sum k f = sum n f.
Proof.
  intros Hn H. replace k with (n + (k - n))%nat by lia. rewrite sum_split.
  rewrite (sum_zero (k - n)); [ring|]. intros i Hi. apply H; lia.
Qed.

Definition cut_of (O : lapack2 R) (Sv : mat R) D minD k : nat :=
  match cut_to O Sv D minD with None => k | Some D => Nat.min D k end.

(** The cut never removes everything. *)
Definition keeps (D : option nat) (minD : bool) : Prop :=
  match D with Some D => 0 < D | None => minD = false end.

Lemma cut_ok (O : lapack2 R) k Sv D minD n :
  svd_ok O -> is_sv k Sv -> k <= n ->
  let c := cut_of O (mdiag k Sv) D minD k in
  c <= k /\ match D with Some D => c <= D | None => True end /\
  (keeps D minD -> 0 < k -> 0 < c) /\
  ((match D with Some D => n <= D | None => True end) ->
     forall i, c <= i -> i < k -> Sv i = 0).
Proof.
  intros HO Hs Hn. unfold cut_of, cut_to, keeps. destruct D as [D|].
  - simpl. repeat split; try lia.
  - destruct minD; simpl.
    + destruct (rank_spec O k Sv HO Hs) as [H1 H2]. repeat split; try lia; try discriminate.
      intros _ i Hi Hk. apply H2; [exact Hk|]. lia.
    + repeat split; lia.
Qed.

(** One step of the right-canonical sweep. *)
Definition rshape (A : site R) (c : nat) (U Sm : mat R) (B : site R) : Prop :=
  phys B = phys A /\ dr B = dr A /\ dl B = c /\ mr U = dl A /\ mc U = c /\ mr Sm = c /\ mc Sm = c.

Lemma split_B_ok (O : lapack2 R) d A D minD :
  svd_ok O -> phys A = d -> 0 < d ->
  match split_B O d A with
  | Err e => e = LinAlgError
  | Ok (U, Sm, B) => let '(U', Sm', B') := truncate_B O U Sm B D minD in
      exists c, rshape A c U' Sm' B' /\ right_iso B' /\
      c <= Nat.min (dl A) (phys A * dr A) /\
      match D with Some D => c <= D | None => True end /\
      (keeps D minD -> 0 < Nat.min (dl A) (phys A * dr A) -> 0 < c) /\
      (match D with Some D => dl A <= D | None => True end ->
       forall s i j, s < phys A -> i < dl A -> j < dr A ->
         ent A s i j = sum c (fun a => sum c (fun b => me U' i a * me Sm' a b * ent B' s b j)))
  end.
Proof.
  intros HO Hd H0. unfold split_B.
  destruct (la_svd O (rgroup A)) as [[[U Sv] V]|] eqn:E; [|reflexivity].
  pose proof (proj1 HO _ _ _ _ E) as (S1 & S2 & S3 & S4 & S5 & S6 & S7 & S8). cbn [rgroup mr mc] in *.
  set (k := Nat.min (dl A) (phys A * dr A)) in *.
  assert (Hdiv : (mc V / d)%nat = dr A).
  { rewrite S4, Hd, Nat.mul_comm. apply Nat.div_mul. lia. }
  assert (EB : chop1 d V = Ok (rungroup d (dr A) V)).
  { unfold chop1. replace (Nat.eqb d 0) with false by (symmetry; apply Nat.eqb_neq; lia).
    simpl negb. cbn [andb]. rewrite S4 at 1. rewrite Hd, Nat.mul_comm, Nat.mod_mul by lia.
    simpl Nat.eqb. cbv iota. rewrite Hdiv. reflexivity. }
  rewrite EB. cbn [bind].
  assert (Hk : k <= dl A) by apply Nat.le_min_l.
  destruct (cut_ok O k Sv D minD (dl A) HO S5 Hk) as (C1 & C2 & C4 & C3).
  set (c := cut_of O (mdiag k Sv) D minD k) in *.
  assert (HT : exists U' Sm' B', truncate_B O U (mdiag k Sv) (rungroup d (dr A) V) D minD = (U', Sm', B')
    /\ rshape A c U' Sm' B' /\ me U' = me U /\ me Sm' = me (mdiag k Sv)
    /\ ent B' = ent (rungroup d (dr A) V)).
  { unfold truncate_B, c, cut_of. destruct (cut_to O (mdiag k Sv) D minD) as [c0|].
    - do 3 eexists. split; [reflexivity|]. unfold rshape; cbn. rewrite S2, S3.
      repeat split; auto.
    - do 3 eexists. split; [reflexivity|]. unfold rshape; cbn. rewrite S2, S3.
      repeat split; auto. }
  destruct HT as (U' & Sm' & B' & ET & Hsh & EU & ES & EE). rewrite ET.
  exists c. split; [exact Hsh|]. destruct Hsh as (T1 & T2 & T3 & T4 & T5 & T6 & T7).
  split; [|split; [exact C1|split; [exact C2|split; [exact C4|]]]].
  - intros i j Hi Hj. rewrite T3 in Hi, Hj. rewrite T1, T2, EE. simpl.
    rewrite <- (S8 i j) by lia. rewrite sum_mul. reflexivity.
  - intros HD s i j Hs Hi Hj. rewrite EU, ES, EE. simpl.
    rewrite <- (rgroup_ungroup A s i j Hj).
    rewrite (S6 i (s * dr A + j)%nat Hi) by (apply ragged; assumption).
    rewrite (sum_cut c k) by (auto; intros a Ha Hb; rewrite (C3 HD a Ha Hb); ring).
    apply sum_ext. intros a Ha.
    rewrite (sum_ext c _ (fun b => dlt a b * (me U i a * Sv a * me V b (s * dr A + j)%nat))).
    + rewrite sum_dlt_l by lia. reflexivity.
    + intros b Hb. unfold dlt. destruct (Nat.eqb_spec a b) as [->|]; ring.
Qed.

(** Pushing U S into the left neighbour. *)
Definition prodm (c : nat) (U Sm : mat R) : mat R :=
  mkMat (mr U) c (fun i b => sum c (fun a => me U i a * me Sm a b)).

Lemma rpush2 (C : site R) U Sm c : mr U = dr C -> mc U = c -> mr Sm = c -> mc Sm = c ->
  exists C1 C2, site_rmul C U = Ok C1 /\ site_rmul C1 Sm = Ok C2 /\
    phys C2 = phys C /\ dl C2 = dl C /\ dr C2 = c /\
    forall s i b, ent C2 s i b = sum (dr C) (fun p => ent C s i p * me (prodm c U Sm) p b).
Proof.
  intros H1 H2 H3 H4. unfold site_rmul at 1. rewrite H1, Nat.eqb_refl.
  do 2 eexists. split; [reflexivity|]. unfold site_rmul. cbn [dr]. rewrite H2, H3, Nat.eqb_refl.
  split; [reflexivity|]. cbn. repeat split; auto.
  intros s i b.
  transitivity (sum c (fun a => sum (dr C) (fun p => ent C s i p * (me U p a * me Sm a b)))).
  - apply sum_ext. intros a _. rewrite <- sum_mul_r. apply sum_ext. intros; ring.
  - rewrite sum_swap. apply sum_ext. intros p _. apply sum_mul_l.
Qed.

Lemma amp_site_ext (A B : site R) l s x y :
  dr A = dr B -> (forall i t q, ent A t i q = ent B t i q) ->
  amp (A :: l) s x y = amp (B :: l) s x y.
Proof.
  intros H1 H2. destruct s as [|t s]; [reflexivity|]. cbn [amp]. rewrite H1.
  apply sum_ext. intros q _. rewrite H2. reflexivity.
Qed.

Definition fitsD (D : option nat) (n : nat) : Prop :=
  match D with Some D => n <= D | None => True end.

Lemma fits_l_Forall D (l : list (site R)) : fits_l D l <-> Forall (fun A => fitsD D (dl A)) l.
Proof.
  destruct D; simpl; [reflexivity|]. split; [|trivial]. intros _. apply Forall_forall; trivial.
Qed.

Lemma right_can_loop_app (O : lapack2 R) d D minD a b data :
  right_can_loop O d D minD (a ++ b) data
  = bind (right_can_loop O d D minD a data) (right_can_loop O d D minD b).
Proof.
  revert data; induction a as [|m a IH]; intros data; [reflexivity|].
  cbn [app right_can_loop].
  destruct (getitem data m) as [A|]; [|reflexivity]. cbn [bind].
  destruct (split_B O d A) as [[[U Sm] B]|]; [|reflexivity]. cbn [bind].
  destruct (truncate_B O U Sm B D minD) as [[U' Sm'] B'].
  destruct (setitem data m B') as [d1|]; [|reflexivity]. cbn [bind].
  destruct m as [|m']; [cbn [bind]; apply IH|].
  destruct (getitem d1 m') as [C|]; [|reflexivity]. cbn [bind].
  destruct (site_rmul C U') as [C1|]; [|reflexivity]. cbn [bind].
  destruct (site_rmul C1 Sm') as [C2|]; [|reflexivity]. cbn [bind].
  destruct (setitem d1 m' C2) as [d2|]; [|reflexivity]. cbn [bind]. apply IH.
Qed.

Lemma right_can_loop_ok (O : lapack2 R) d D minD : svd_ok O -> 0 < d ->
  forall n rest q i j,
  chain i rest j -> Forall (fun A => phys A = d) rest -> n < length rest ->
  match right_can_loop O d D minD (rev (seq (length rest - n) n)) (rest ++ q) with
  | Err e => e = LinAlgError
  | Ok data => exists rest', data = rest' ++ q /\
      chain i rest' j /\ dims rest' = dims rest /\
      (forall k A, (length rest - n <= k)%nat -> nth_error rest' k = Some A ->
         right_iso A /\ fitsD D (dl A)) /\
      (forall k, (S k + n < length rest)%nat -> nth_error rest' k = nth_error rest k) /\
      (keeps D minD -> pos rest -> pos rest') /\
      (fits_l D rest -> fits_l D rest' /\
       forall s x y, incfg (dims rest) s -> x < i -> y < j -> amp rest' s x y = amp rest s x y)
  end.
Proof.
  intros HO H0 n. induction n as [|n IH]; intros rest q i j Hc Hu Hn.
  - simpl. exists rest. repeat split; auto.
    + intros. assert (k < length rest) by (apply nth_error_Some; congruence). lia.
    + assert (k < length rest) by (apply nth_error_Some; congruence). lia.
  - destruct (exists_last (l := rest)) as (r1 & A & ->); [intros ->; simpl in Hn; lia|].
    rewrite app_length in Hn; simpl in Hn.
    destruct (exists_last (l := r1)) as (r & B & ->); [intros ->; simpl in Hn; lia|].
    rewrite app_length in Hn; simpl in Hn.
    rewrite seq_S, rev_app_distr. cbn [rev app].
    replace (length ((r ++ [B]) ++ [A]) - S n + n)%nat with (length (r ++ [B]))
      by (rewrite !app_length; simpl; lia).
    replace (length ((r ++ [B]) ++ [A]) - S n)%nat with (length (r ++ [B]) - n)%nat
      by (rewrite !app_length; simpl; lia).
    cbn [right_can_loop].
    rewrite <- (app_assoc (r ++ [B])). cbn [app]. rewrite getitem_app. cbn [bind].
    apply Forall_app in Hu as [Hu1 HuA]. apply Forall_app in Hu1 as [Hur HuB].
    inversion HuA as [|? ? HA _]; subst. inversion HuB as [|? ? HB _]; subst.
    pose proof (split_B_ok O (phys A) A D minD HO eq_refl H0) as HS.
    destruct (split_B O (phys A) A) as [[[U Sm] A0]|e]; [|exact HS]. cbn [bind].
    destruct (truncate_B O U Sm A0 D minD) as [[U' Sm'] A'].
    destruct HS as (c & (T1 & T2 & T3 & T4 & T5 & T6 & T7) & Hiso & Hc1 & Hc2 & Hck & Hent).
    rewrite setitem_app. cbn [bind].
    destruct (chain_app_last _ _ _ _ Hc) as (k1 & Hch1 & Hk1 & HrA).
    destruct (chain_app_last _ _ _ _ Hch1) as (k2 & Hch2 & Hk2 & HrB).
    replace (length (r ++ [B])) with (S (length r)) by (rewrite app_length; simpl; lia).
    cbv iota. rewrite <- app_assoc. cbn [app]. rewrite getitem_app. cbn [bind].
    destruct (rpush2 B U' Sm' c ltac:(congruence) T5 T6 T7) as (C1 & B' & E1 & E2 & P1 & P2 & P3 & P4).
    rewrite E1. cbn [bind]. rewrite E2. cbn [bind]. rewrite setitem_app. cbn [bind].
    replace (r ++ B' :: A' :: q) with ((r ++ [B']) ++ A' :: q) by (rewrite <- app_assoc; reflexivity).
    replace (S (length r)) with (length (r ++ [B'])) by (rewrite !app_length; simpl; lia).
    specialize (IH (r ++ [B']) (A' :: q) i c).
    assert (H1 : chain i (r ++ [B']) c) by (eapply chain_app_mk; [exact Hch2|congruence|exact P3]).
    specialize (IH H1).
    match type of IH with ?P -> _ => assert (H2 : P) end.
    { apply Forall_app; split; [exact Hur|]. constructor; [congruence|constructor]. }
    specialize (IH H2).
    match type of IH with ?P -> _ => assert (H3 : P) by (rewrite app_length; simpl; lia) end.
    specialize (IH H3).
    destruct (right_can_loop _ _ _ _ _ _) as [data|e]; [|exact IH].
    destruct IH as (rest' & -> & I1 & I3 & I4 & I5 & Ip & I6).
    assert (Hlr : length rest' = length (r ++ [B'])) by (rewrite <- !dims_length, I3; reflexivity).
    rewrite app_length in Hlr; simpl in Hlr.
    exists (rest' ++ [A']). rewrite <- app_assoc. split; [reflexivity|].
    split; [eapply chain_app_mk; [exact I1|congruence|congruence]|].
    assert (Hdr : dims (rest' ++ [A']) = dims ((r ++ [B]) ++ [A])).
    { rewrite !dims_app, I3, dims_app. unfold dims. simpl. rewrite P1, T1. reflexivity. }
    split; [exact Hdr|].
    split.
    { intros k C Hk HC. destruct (Nat.lt_ge_cases k (length rest')) as [Hlt|Hge].
      - rewrite nth_error_app1 in HC by exact Hlt. eapply I4; [|exact HC].
        rewrite !app_length in *; simpl in *; lia.
      - rewrite nth_error_app2 in HC by exact Hge.
        destruct (k - length rest')%nat as [|z] eqn:Ez; simpl in HC.
        + injection HC as <-. split; [exact Hiso|]. rewrite T3. exact Hc2.
        + destruct z; discriminate. }
    split.
    { intros k Hk. rewrite !app_length in *; simpl in *.
      rewrite nth_error_app1 by lia. rewrite I5 by (rewrite ?app_length; simpl; lia).
      rewrite nth_error_app1 by lia. rewrite nth_error_app1 by (rewrite app_length; simpl; lia).
      rewrite nth_error_app1 by lia. reflexivity. }
    split.
    { intros Hk Hp. apply Forall_app in Hp as [Hp1 HpA]. apply Forall_app in Hp1 as [Hpr HpB].
      inversion HpA as [|? ? (HpA1 & HpA2 & HpA3) _]; subst.
      inversion HpB as [|? ? (HpB1 & HpB2 & HpB3) _]; subst.
      assert (Hc0 : 0 < dl A') by (apply (Hck Hk), Nat.min_glb_lt; [assumption|nia]).
      apply Forall_app. split.
      - apply (Ip Hk). apply Forall_app. split; [exact Hpr|]. constructor; [|constructor].
        rewrite P1, P2, P3. auto.
      - constructor; [|constructor]. rewrite T1, T2. auto. }
    intros Hf. apply fits_l_Forall, Forall_app in Hf as [Hf1 HfA].
    apply Forall_app in Hf1 as [Hfr HfB].
    inversion HfA as [|? ? HfA' _]; subst. inversion HfB as [|? ? HfB' _]; subst.
    assert (Hf' : fits_l D (r ++ [B'])).
    { apply fits_l_Forall, Forall_app. split; [exact Hfr|]. constructor; [rewrite P2; exact HfB'|constructor]. }
    destruct (I6 Hf') as [I7 I8]. split.
    { apply fits_l_Forall, Forall_app. split; [apply fits_l_Forall; exact I7|].
      constructor; [exact Hc2|constructor]. }
    intros s x y Hsx Hx Hy.
    transitivity (amp ((r ++ [B']) ++ [A']) s x y).
    + eapply amp_ctx_l; [exact I1|exact H1|exact I3|rewrite Hdr; exact Hsx|exact Hx|].
      intros t p Ht Hpp. apply I8; try assumption. rewrite <- I3. exact Ht.
    + rewrite <- !app_assoc. eapply amp_ctx_r; [exact Hch2| | |exact Hx|].
      * unfold dims; simpl. rewrite P1, T1; reflexivity.
      * rewrite !dims_app in *. rewrite <- app_assoc in Hsx. unfold dims at 2. unfold dims in Hsx at 2 3.
        simpl in *. rewrite P1, T1. exact Hsx.
      * intros t p Ht Hpp. unfold dims in Ht; simpl in Ht. rewrite P1, T1 in Ht.
        destruct t as [|t0 [|t1 t]];
          [inversion Ht|inversion Ht as [|? ? ? ? ? Ht']; inversion Ht'|].
        destruct t; [|inversion Ht as [|? ? ? ? ? Ht']; inversion Ht' as [|? ? ? ? ? Ht'']; inversion Ht''].
        apply incfg_cons in Ht as [_ Ht]. apply incfg_cons in Ht as [Ht1 _].
        set (X := prodm (dl A') U' Sm') in *.
        assert (Hrs : rsplit A X A').
        { repeat split; try assumption; try (cbn; congruence).
          intros s0 i0 j0 Hs0 Hi0 Hj0. rewrite (Hent HfA' s0 i0 j0 Hs0 Hi0 Hj0).
          rewrite sum_swap. apply sum_ext. intros b _. cbn. rewrite <- sum_mul_r. reflexivity. }
        cbn [app]. rewrite <- (amp_rpush A A' B (mkSite (phys B) (dl B) (mc X)
           (fun s i j => sum (dr B) (fun k => ent B s i k * me X k j))) X [] t0 t1 [] p y Hrs);
          [|unfold site_rmul; cbn; replace (dr B) with (mr U') by congruence;
            rewrite Nat.eqb_refl; reflexivity|exact Ht1|congruence].
        apply amp_site_ext; [cbn; congruence|]. intros i0 t2 q0. rewrite P4. reflexivity.
Qed.

Lemma right_can_full (O : lapack2 R) d D minD : svd_ok O -> 0 < d ->
  forall rest i j,
  chain i rest j -> Forall (fun A => phys A = d) rest -> rest <> [] ->
  match right_can_loop O d D minD (rev (seq 0 (length rest))) rest with
  | Err e => e = LinAlgError
  | Ok data => exists c X, chain c data j /\ c <= i /\ dims data = dims rest /\
      Forall (fun A => right_iso A /\ fitsD D (dl A)) data /\
      (keeps D minD -> pos rest -> 0 < c /\ pos data) /\
      (fits_l D rest -> forall s x y, incfg (dims rest) s -> x < i -> y < j ->
         amp rest s x y = sum c (fun k => X x k * amp data s k y))
  end.
Proof.
  intros HO H0 rest i j Hc Hu Hne.
  assert (Hpos : 0 < length rest) by (destruct rest; [congruence|simpl; lia]).
  assert (Hseq : rev (seq 0 (length rest))
          = rev (seq (length rest - (length rest - 1)) (length rest - 1)) ++ [0%nat]).
  { replace (length rest) with (S (length rest - 1)) at 1 by lia.
    cbn [seq rev]. replace (length rest - (length rest - 1))%nat with 1%nat by lia. reflexivity. }
  rewrite Hseq, right_can_loop_app.
  pose proof (right_can_loop_ok O d D minD HO H0 (length rest - 1) rest [] i j Hc Hu ltac:(lia)) as H.
  rewrite app_nil_r in H.
  destruct (right_can_loop O d D minD (rev (seq (length rest - (length rest - 1)) (length rest - 1))) rest)
    as [data|e]; [|exact H].
  destruct H as (r & -> & I1 & I3 & I4 & I5 & Ip & I6). cbn [bind]. rewrite app_nil_r.
  assert (Hlen : length r = length rest) by (rewrite <- !dims_length, I3; reflexivity).
  destruct r as [|C r]; [simpl in Hlen; lia|].
  cbn [right_can_loop]. unfold getitem at 1. cbn [nth_error bind].
  assert (HdC : phys C = d).
  { destruct rest as [|C0 rest]; [congruence|]. unfold dims in I3; simpl in I3. injection I3 as I3 _.
    inversion Hu; congruence. }
  pose proof (split_B_ok O d C D minD HO HdC H0) as HS.
  destruct (split_B O d C) as [[[U Sm] C0]|e]; [|exact HS]. cbn [bind].
  destruct (truncate_B O U Sm C0 D minD) as [[U' Sm'] C'].
  destruct HS as (c & (T1 & T2 & T3 & T4 & T5 & T6 & T7) & Hiso & Hc1 & Hc2 & Hck & Hent).
  cbn [setitem bind]. destruct I1 as [HlC I1].
  exists c, (fun x k => me (prodm c U' Sm') x k).
  split; [split; [exact T3|]; rewrite T2; exact I1|].
  split; [rewrite <- HlC; eapply Nat.le_trans; [exact Hc1|apply Nat.le_min_l]|].
  split; [unfold dims in *; simpl in *; rewrite T1; exact I3|].
  split.
  { constructor; [split; [exact Hiso|rewrite T3; exact Hc2]|].
    apply Forall_forall. intros B HB. apply In_nth_error in HB as (q & HB).
    apply (I4 (S q)); [lia|exact HB]. }
  split.
  { intros Hk Hp. specialize (Ip Hk Hp). inversion Ip as [|? ? (P1 & P2 & P3) Pr]; subst.
    assert (Hc0 : 0 < dl C') by (apply (Hck Hk), Nat.min_glb_lt; [assumption|nia]).
    split; [exact Hc0|]. constructor; [|exact Pr]. rewrite T1, T2; auto. }
  intros Hf s x y Hsc Hx Hy. destruct (I6 Hf) as [I7 I8]. rewrite <- I8 by assumption.
  assert (HfC : fitsD D (dl C)) by (apply fits_l_Forall in I7; inversion I7; assumption).
  rewrite <- T3.
  apply (amp_first_split C C' (prodm (dl C') U' Sm') r s x y); [|rewrite I3; exact Hsc|lia].
  repeat split; try assumption; try (cbn; congruence).
  intros s0 i0 j0 Hs0 Hi0 Hj0. rewrite (Hent HfC s0 i0 j0 Hs0 Hi0 Hj0).
  rewrite sum_swap, T3. apply sum_ext. intros b _. cbn. rewrite <- sum_mul_r. reflexivity.
Qed.

(** Bonds of a right-isometric chain are positive. *)
Lemma iso_pos (l : list (site R)) i j : (1:R) <> 0 -> chain i l j -> 0 < i ->
  Forall right_iso l -> pos l.
Proof.
  intros H1. revert i; induction l as [|A l IH]; intros i Hc Hi Hr; [constructor|].
  destruct Hc as [HA Hc]. inversion Hr as [|? ? HrA Hr']; subst.
  assert (HP : 0 < phys A /\ 0 < dr A).
  { specialize (HrA 0%nat 0%nat Hi Hi). rewrite dlt_eq in HrA.
    destruct (Nat.eq_dec (phys A) 0) as [E|]; [rewrite E in HrA; simpl in HrA; congruence|].
    destruct (Nat.eq_dec (dr A) 0) as [E|]; [|lia].
    exfalso. apply H1. rewrite <- HrA. apply sum_zero. intros s _. rewrite E. reflexivity. }
  constructor; [tauto|]. apply (IH (dr A)); tauto.
Qed.

(** right_canonicalise without the backward sweep. *)
Lemma right_can_ok (O : lapack2 R) (m : fmps R) D sweep_back minD :
  svd_ok O -> wf m -> uniform m -> 0 < fd m -> sweep_back && minD = false ->
  match right_canonicalise O m D sweep_back minD with
  | Err e => e = LinAlgError
  | Ok (m', Ls) => Ls = None /\ dims (fdata m') = dims (fdata m) /\
      fL m' = fL m /\ fd m' = fd m /\
      fcan m' = Some true /\ forth m' = Some true /\ foc m' = Some 0%nat /\ fnorm m' = fnorm m /\
      Forall right_iso (fdata m') /\
      match D with Some D => Forall (fun A => dl A <= D) (fdata m') | None => True end /\
      (keeps D minD -> pos (fdata m) -> wf m' /\ pos (fdata m')) /\
      (fits_l D (fdata m) ->
       (exists c, forall s, incfg (dims (fdata m)) s -> psi m s = c * psi m' s) /\
       ((exists s, incfg (dims (fdata m)) s /\ psi m s <> 0) -> wf m' /\ pos (fdata m')))
  end.
Proof.
  intros HO (Hc & HL & Hne) Hu H0 Hsb. unfold right_canonicalise. rewrite Hsb.
  pose proof (right_can_full O (fd m) D minD HO H0 (fdata m) 1 1 Hc Hu Hne) as H.
  destruct (right_can_loop _ _ _ _ _ _) as [data|e]; [|exact H]. cbn [bind fst snd].
  destruct H as (c & X & I1 & I2 & I3 & I4 & I5 & I6).
  split; [reflexivity|]. cbn [fdata fL fd fcan forth foc fnorm].
  split; [exact I3|]. do 6 (split; [reflexivity|]).
  assert (Hiso : Forall right_iso data) by (eapply Forall_impl; [|exact I4]; simpl; tauto).
  split; [exact Hiso|].
  split. { destruct D; [|trivial]. eapply Forall_impl; [|exact I4]; simpl; tauto. }
  assert (Hlen : length data = length (fdata m)) by (rewrite <- !dims_length, I3; reflexivity).
  assert (Hne' : data <> []).
  { intros E. rewrite E in Hlen. destruct (fdata m); [congruence|discriminate]. }
  assert (Hwf : c = 1%nat -> wf (mkF data (fL m) (fd m) (cap_D D m) (Some true) (Some true) (Some 0%nat) (fnorm m))).
  { intros ->. split; [exact I1|]. split; [simpl; congruence|exact Hne']. }
  split. { intros Hk Hp. destruct (I5 Hk Hp) as [Hc0 Hp']. split; [apply Hwf; lia|exact Hp']. }
  intros Hf. specialize (I6 Hf).
  destruct c as [|[|c]]; [| |lia].
  - split.
    + exists 0. intros s Hs. unfold psi at 1. rewrite (I6 s 0%nat 0%nat Hs) by lia. simpl. ring.
    + intros (s & Hs & Hn). exfalso. apply Hn. unfold psi.
      rewrite (I6 s 0%nat 0%nat Hs) by lia. reflexivity.
  - split.
    + exists (X 0%nat 0%nat). intros s Hs. unfold psi. rewrite (I6 s 0%nat 0%nat Hs) by lia.
      simpl. ring.
    + intros (s & Hs & Hn). split; [apply Hwf; reflexivity|].
      apply (iso_pos data 1 1); auto. intros E. apply Hn.
      transitivity (1 * psi m s); [ring|]. rewrite E. ring.
Qed.

End Proofs.
