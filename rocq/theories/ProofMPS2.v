From Coq Require Import FinFun.
From Verif Require Import Alg ModelMPS SpecMPS ProofMPS.

Section Proofs.
Context {R : sring}.
Add Ring Rring : (s_th R).
Local Open Scope sr_scope.

Lemma init_ok (l : list (site R)) :
  l <> [] -> exists m, fMPS_init l None None = Ok m /\ fdata m = l /\ fL m = length l /\
    fd m = match l with A :: _ => phys A | [] => 0%nat end /\
    fcan m = Some false /\ forth m = Some false /\ foc m = None /\ fnorm m = None.
Proof.
  intros H. destruct l as [|A l]; [congruence|].
  eexists. split; [reflexivity|]. simpl. repeat split.
Qed.

Lemma init_ok_d (l : list (site R)) d :
  l <> [] -> exists m, fMPS_init l (Some d) None = Ok m /\ fdata m = l /\ fL m = length l /\
    fd m = d /\ fcan m = Some false /\ forth m = Some false /\ foc m = None.
Proof.
  intros H. destruct l as [|A l]; [congruence|].
  eexists. split; [reflexivity|]. simpl. repeat split.
Qed.

Lemma getitem_app {A} (p : list A) x q : getitem (p ++ x :: q) (length p) = Ok x.
Proof.
  unfold getitem. rewrite nth_error_app2 by lia. rewrite Nat.sub_diag. reflexivity.
Qed.

Lemma setitem_app {A} (p : list A) x q y :
  setitem (p ++ x :: q) (length p) y = Ok (p ++ y :: q).
Proof. induction p as [|z p IH]; simpl; [reflexivity|]. rewrite IH. reflexivity. Qed.

Lemma delitem_app {A} (p : list A) x q :
  delitem (p ++ x :: q) (length p) = Ok (p ++ q).
Proof. induction p as [|z p IH]; simpl; [reflexivity|]. rewrite IH. reflexivity. Qed.

Lemma split_at {A} (l : list A) k :
  k < length l -> exists p x q, l = p ++ x :: q /\ length p = k.
Proof.
  intros H. destruct (nth_error l k) as [x|] eqn:E.
  - apply nth_error_split in E as (p & q & -> & Hp). exists p, x, q; auto.
  - apply nth_error_None in E. lia.
Qed.

(** ** add (C03) *)

(** the loop body of [mps_add] *)
Local Notation addbody a b L := (fun i =>
            do ai <- getitem a i;
            do bi <- getitem b i;
            if Nat.eqb i 0 then concat2 ai bi
            else if Nat.eqb i (L - 1) then concat1 ai bi
            else block_diag_site ai bi).

Lemma add_rest_ok (pa pb la lb : list (site R)) i j :
  length pa = length pb -> pa <> [] -> la <> [] ->
  chain i la 1 -> chain j lb 1 -> dims la = dims lb ->
  exists l', mapM (addbody (pa ++ la) (pb ++ lb) (length pa + length la)%nat)
               (seq (length pa) (length la)) = Ok l' /\
    chain (i + j) l' 1 /\ dims l' = dims la /\
    forall s, incfg (dims la) s ->
      (forall x, x < i -> amp l' s x 0 = amp la s x 0) /\
      (forall x, x < j -> amp l' s (i + x) 0 = amp lb s x 0).
Proof.
  revert pa pb lb i j.
  induction la as [|A la IH]; intros pa pb lb i j HL Hpa Hne Ha Hb Hd; [congruence|].
  destruct lb as [|B lb]; [discriminate|]. injection Hd as Hd1 Hd2.
  destruct Ha as [Ha1 Ha2], Hb as [Hb1 Hb2].
  assert (Hk : length pa <> 0%nat) by (destruct pa; simpl; [congruence|lia]).
  change (length (A :: la)) with (S (length la)).
  cbn [seq mapM]. cbv beta. rewrite getitem_app. cbn [bind].
  rewrite HL, getitem_app, <- HL. cbn [bind].
  apply Nat.eqb_neq in Hk as Hk'. rewrite Hk'.
  destruct la as [|A2 la].
  - destruct lb as [|B2 lb]; [|discriminate].
    simpl in Ha2, Hb2.
    match goal with |- context [Nat.eqb (length pa) ?x] => replace (Nat.eqb (length pa) x) with true by (symmetry; apply Nat.eqb_eq; simpl; lia) end.
    unfold concat1. rewrite Hd1, Ha2, Hb2, !Nat.eqb_refl. simpl.
    eexists. split; [reflexivity|]. simpl. split; [split; lia|]. split; [rewrite Hd1; reflexivity|].
    intros s Hs. destruct s as [|x [|y s]]; simpl in Hs; try solve [inversion Hs; subst; match goal with H : Forall2 _ _ _ |- _ => inversion H end].
    split; intros r Hr; simpl; rewrite ?Ha2, ?Hb2; simpl.
    + assert (E : Nat.ltb r (dl A) = true) by (apply Nat.ltb_lt; lia). rewrite E. ring.
    + assert (E : Nat.ltb (i + r) (dl A) = false) by (apply Nat.ltb_ge; lia). rewrite E.
      rewrite Ha1. replace (i + r - i)%nat with r by lia. ring.
  - destruct (Nat.eqb (length pa) (length pa + S (length (A2 :: la)) - 1)) eqn:E.
    { apply Nat.eqb_eq in E. simpl in E. lia. }
    clear E.
    unfold block_diag_site. rewrite Hd1, Nat.eqb_refl. cbn [orb bind].
    specialize (IH (pa ++ [A]) (pb ++ [B]) lb (dr A) (dr B)).
    rewrite !app_length, HL in IH. specialize (IH eq_refl).
    assert (HneA : pa ++ [A] <> []) by (destruct pa; discriminate).
    specialize (IH HneA ltac:(discriminate) Ha2 Hb2 Hd2).
    destruct IH as (l' & E & Hc & Hdl & Hamp).
    rewrite <- !app_assoc in E. cbn [app] in E.
    replace (length pb + length [A])%nat with (S (length pa)) in E by (simpl; lia).
    replace (length pa + S (length (A2 :: la)))%nat
      with (S (length pa) + length (A2 :: la))%nat by lia.
    cbn [seq] in E |- *.
    match type of E with ?X = _ => match goal with |- context [bind ?Y _] => replace Y with X by reflexivity end end.
    rewrite E. cbn [bind].
    eexists. split; [reflexivity|]. cbn [chain dl dr].
    split; [split; [lia|exact Hc]|].
    split. { simpl. simpl in Hdl. rewrite Hdl, Hd1. reflexivity. }
    intros s Hs. destruct s as [|x s]; [inversion Hs|].
    unfold dims in Hs; rewrite map_cons in Hs. apply incfg_cons in Hs as [Hx Hs].
    destruct (Hamp s Hs) as [H1 H2]. split; intros r Hr.
    + rewrite amp_cons. cbn [dr ent]. rewrite sum_split, amp_cons.
      assert (E1 : Nat.ltb r (dl A) = true) by (apply Nat.ltb_lt; lia).
      rewrite E1.
      rewrite (sum_ext (dr A) _ (fun k => ent A x r k * amp (A2 :: la) s k 0)).
      2:{ intros k Hk2. apply Nat.ltb_lt in Hk2 as Hk3. rewrite Hk3, H1 by exact Hk2. reflexivity. }
      rewrite sum_zero with (n := dr B); [ring|].
      intros k Hk2. assert (E2 : Nat.ltb (dr A + k) (dr A) = false) by (apply Nat.ltb_ge; lia).
      rewrite E2. ring.
    + rewrite amp_cons. cbn [dr ent]. rewrite sum_split, amp_cons.
      assert (E1 : Nat.ltb (i + r) (dl A) = false) by (apply Nat.ltb_ge; lia).
      rewrite E1, Ha1. replace (i + r - i)%nat with r by lia.
      rewrite sum_zero.
      2:{ intros k Hk2. apply Nat.ltb_lt in Hk2 as Hk3. rewrite Hk3. ring. }
      rewrite (sum_ext (dr B) _ (fun k => ent B x r k * amp lb s k 0)); [ring|].
      intros k Hk2. assert (E2 : Nat.ltb (dr A + k) (dr A) = false) by (apply Nat.ltb_ge; lia).
      rewrite E2, H2 by exact Hk2. replace (dr A + k - dr A)%nat with k by lia. reflexivity.
Qed.

Lemma add_ok (a b : fmps R) :
  wf a -> wf b -> 2 <= fL a -> dims (fdata a) = dims (fdata b) ->
  exists m, mps_add a b = Ok m /\ wf m /\ dims (fdata m) = dims (fdata a) /\
    forall s, incfg (dims (fdata a)) s -> psi m s = psi a s + psi b s.
Proof.
  intros (Hca & HLa & Hna) (Hcb & HLb & Hnb) HL Hd.
  destruct a as [da La xa Da ca oa oca na], b as [db Lb xb Db cb ob ocb nb]; simpl in *.
  unfold mps_add; simpl.
  destruct da as [|A la]; [congruence|]. destruct db as [|B lb]; [discriminate|].
  subst La. simpl in HL.
  injection Hd as Hd1 Hd2.
  destruct Hca as [Ha1 Ha2], Hcb as [Hb1 Hb2].
  match goal with |- context [mapM ?f _] => set (body := f) end.
  assert (E0 : body 0%nat = concat2 A B) by reflexivity.
  cbn [length seq mapM]. rewrite E0.
  unfold concat2. rewrite Hd1, Ha1, Hb1, !Nat.eqb_refl. cbn [andb bind].
  assert (Hla : la <> []) by (destruct la; simpl in HL; [lia|discriminate]).
  destruct (add_rest_ok [A] [B] la lb (dr A) (dr B) eq_refl ltac:(discriminate) Hla Ha2 Hb2 Hd2)
    as (l' & E & Hc & Hdl & Hamp).
  cbn [app length Nat.add] in E. change (mapM body (seq 1 (length la)) = Ok l') in E. rewrite E. cbn [bind].
  match goal with |- context [fMPS_init ?l _ _] =>
    destruct (init_ok l) as (m & Hm & Hdata & HLm & _); [discriminate|] end.
  exists m. split; [exact Hm|].
  assert (Hdm : dims (fdata m) = phys A :: dims la).
  { rewrite Hdata. simpl. rewrite Hdl, Hd1. reflexivity. }
  split.
  { unfold wf. rewrite Hdata. repeat split; auto; discriminate. }
  split; [exact Hdm|].
  intros s Hs. destruct s as [|x s]; [inversion Hs|].
  unfold dims in Hs; simpl in Hs. apply incfg_cons in Hs as [Hx Hs].
  unfold psi. rewrite Hdata. simpl fdata. rewrite !amp_cons. cbn [dr ent].
  destruct (Hamp s Hs) as [H1 H2]. rewrite sum_split. f_equal.
  - apply sum_ext. intros k Hk. apply Nat.ltb_lt in Hk as Hk2. rewrite Hk2, H1 by exact Hk. reflexivity.
  - apply sum_ext. intros k Hk.
    assert (E2 : Nat.ltb (dr A + k) (dr A) = false) by (apply Nat.ltb_ge; lia).
    rewrite E2, H2 by exact Hk. replace (dr A + k - dr A)%nat with k by lia. reflexivity.
Qed.

(** ** scalar multiplication (C04) *)

Lemma amp_scale_all (l : list (site R)) c s i j :
  amp (map (site_scale c) l) s i j = spow c (length l) * amp l s i j.
Proof.
  revert s i; induction l as [|A l IH]; intros s i; destruct s as [|x s]; simpl; try ring.
  transitivity (sum (dr A) (fun k => c * spow c (length l) * (ent A x i k * amp l s k j))).
  - apply sum_ext. intros k _. rewrite IH. ring.
  - rewrite sum_mul_l. ring.
Qed.

Lemma chain_map (f : site R -> site R) i l j :
  (forall A, dl (f A) = dl A) -> (forall A, dr (f A) = dr A) ->
  chain i l j -> chain i (map f l) j.
Proof.
  intros H1 H2. revert i; induction l as [|A l IH]; intros i H; simpl in *; [exact H|].
  destruct H as [Hi H]. rewrite H1, H2. split; auto.
Qed.

Lemma dims_map (f : site R -> site R) l :
  (forall A, phys (f A) = phys A) -> dims (map f l) = dims l.
Proof. intros H. unfold dims. rewrite map_map. apply map_ext, H. Qed.

Lemma itemwise_mul_ok (m : fmps R) c :
  wf m -> exists m', itemwise_mul m c = Ok m' /\ wf m' /\ fd m' = fd m /\
    dims (fdata m') = dims (fdata m) /\
    forall s, psi m' s = spow c (fL m) * psi m s.
Proof.
  intros (Hc & HL & Hne). unfold itemwise_mul.
  destruct (init_ok_d (map (site_scale c) (fdata m)) (fd m)) as (m' & Hm & Hd & HL' & Hfd & _).
  { intros H. apply map_eq_nil in H. congruence. }
  exists m'. split; [exact Hm|]. unfold wf. rewrite Hd, HL', map_length.
  repeat split; auto.
  - apply chain_map; auto.
  - intros H. apply map_eq_nil in H. congruence.
  - apply dims_map. reflexivity.
  - intros s. unfold psi. rewrite Hd, amp_scale_all, HL. reflexivity.
Qed.

Lemma mul_data (A : site R) l c :
  map (fun ix => if negb (Nat.eqb (fst ix) 0) then snd ix else site_scale c (snd ix))
      (combine (seq 0 (length (A :: l))) (A :: l)) = site_scale c A :: l.
Proof.
  simpl. f_equal.
  assert (H : forall k, map (fun ix : nat * site R => if negb (Nat.eqb (fst ix) 0) then snd ix
      else site_scale c (snd ix)) (combine (seq (S k) (length l)) l) = l).
  { induction l as [|B l IH]; intros k; simpl; [reflexivity|]. rewrite IH. reflexivity. }
  apply H.
Qed.

Lemma mul_ok (m : fmps R) c :
  wf m -> exists m', mps_mul m c = Ok m' /\ wf m' /\
    dims (fdata m') = dims (fdata m) /\
    forall s, psi m' s = c * psi m s.
Proof.
  intros (Hc & HL & Hne). unfold mps_mul.
  destruct (fdata m) as [|A l] eqn:E; [congruence|].
  rewrite mul_data.
  destruct (init_ok (site_scale c A :: l)) as (m' & Hm & Hd & HL' & _); [discriminate|].
  exists m'. split; [exact Hm|]. unfold wf. rewrite Hd, HL'.
  destruct Hc as [Hc1 Hc2]. repeat split; auto; try discriminate.
  intros s. unfold psi. rewrite Hd, E. destruct s as [|x s]; simpl; [ring|].
  rewrite <- sum_mul_l. apply sum_ext. intros; ring.
Qed.

(** ** apply (C05) *)

Lemma amp_apply (p q : list (site R)) A A' op s i j :
  op_site op A = Ok A' ->
  length s = length (p ++ A :: q) ->
  forall k, chain k (p ++ A :: q) j -> i < k ->
  forall r, amp (p ++ A' :: q) s i r
   = sum (phys A) (fun t => me op (nth (length p) s 0%nat) t *
        amp (p ++ A :: q) (upd s (length p) t) i r).
Proof.
  unfold op_site. destruct (Nat.eqb_spec (mc op) (phys A)) as [Hop|]; [|discriminate].
  intros E; injection E as <-. rewrite Hop.
  revert s i; induction p as [|B p IH]; intros s i Hs k Hc Hi r;
    destruct s as [|x s]; try discriminate Hs; simpl.
  - transitivity (sum (dr A) (fun u => sum (phys A) (fun t =>
        me op x t * (ent A t i u * amp q s u r)))).
    + apply sum_ext. intros u _. rewrite <- sum_mul_r. apply sum_ext. intros; ring.
    + rewrite sum_swap. apply sum_ext. intros t _. rewrite sum_mul_l. reflexivity.
  - destruct Hc as [Hc1 Hc2]. simpl in Hs; injection Hs as Hs.
    transitivity (sum (dr B) (fun u => sum (phys A) (fun t =>
       me op (nth (length p) s 0%nat) t *
        (ent B x i u * amp (p ++ A :: q) (upd s (length p) t) u r)))).
    + apply sum_ext. intros u Hu. rewrite (IH s u Hs (dr B) Hc2 Hu), <- sum_mul_l.
      apply sum_ext. intros; ring.
    + rewrite sum_swap. apply sum_ext. intros t _. rewrite sum_mul_l. reflexivity.
Qed.

Lemma dims_app (l m : list (site R)) : dims (l ++ m) = dims l ++ dims m.
Proof. apply map_app. Qed.

Lemma apply_ok (m : fmps R) op k :
  wf m -> k < fL m -> mc op = nth k (dims (fdata m)) 0%nat ->
  exists m', mps_apply m op k = Ok m' /\ wf m' /\
    dims (fdata m') = upd (dims (fdata m)) k (mr op) /\
    (forall i, i <> k -> nth_error (fdata m') i = nth_error (fdata m) i) /\
    forall s, length s = fL m ->
      psi m' s = sum (mc op) (fun t => me op (nth k s 0%nat) t * psi m (upd s k t)).
Proof.
  intros (Hc & HL & Hne) Hk Hop. rewrite HL in Hk.
  destruct (split_at (fdata m) k Hk) as (p & A & q & E & Hp).
  assert (Hop' : mc op = phys A).
  { rewrite Hop, E, dims_app, app_nth2; unfold dims at 1; rewrite map_length; [|lia].
    rewrite Hp, Nat.sub_diag. reflexivity. }
  unfold mps_apply. rewrite E, <- Hp, getitem_app. cbn [bind].
  destruct (op_site op A) as [A'|] eqn:EA.
  2:{ unfold op_site in EA. rewrite Hop', Nat.eqb_refl in EA. discriminate. }
  cbn [bind]. rewrite setitem_app. cbn [bind].
  assert (HA' : phys A' = mr op /\ dl A' = dl A /\ dr A' = dr A).
  { unfold op_site in EA. rewrite Hop', Nat.eqb_refl in EA. injection EA as <-. auto. }
  destruct HA' as (P1 & P2 & P3).
  destruct (init_ok (p ++ A' :: q)) as (m' & Hm & Hd & HL' & _); [destruct p; discriminate|].
  exists m'. split; [exact Hm|]. rewrite Hd. split.
  { unfold wf. rewrite Hd, HL'. split; [|split; [reflexivity|destruct p; discriminate]].
    unfold closed in *. rewrite E in Hc. apply chain_app in Hc as (u & H1 & H2).
    apply chain_app. exists u. split; [exact H1|]. simpl in *. rewrite P2, P3. exact H2. }
  split.
  { rewrite !dims_app. simpl. rewrite P1. clear.
    induction p as [|B p IH]; simpl; [reflexivity|]. f_equal. exact IH. }
  split.
  { intros i Hi. clear - Hi. revert i Hi.
    induction p as [|B p IH]; intros [|i] Hi; simpl in *; auto. congruence. }
  intros s Hs. unfold psi. rewrite Hd, E, Hop'.
  apply (amp_apply p q A A' op s 0 1%nat EA) with (k := 1%nat); auto.
  - rewrite <- E. congruence.
  - rewrite <- E. exact Hc.
Qed.

(** ** append / extend *)

Lemma extend_ok (a b : fmps R) :
  wf a -> wf b ->
  exists m, mps_extend a b = Ok m /\ wf m /\
    dims (fdata m) = dims (fdata a) ++ dims (fdata b) /\
    forall s t, length s = fL a -> psi m (s ++ t) = psi a s * psi b t.
Proof.
  intros (Hca & HLa & Hna) (Hcb & HLb & Hnb). unfold mps_extend.
  destruct (init_ok (fdata a ++ fdata b)) as (m & Hm & Hd & HL & _).
  { destruct (fdata a); [congruence|discriminate]. }
  exists m. split; [exact Hm|]. unfold wf. rewrite Hd. split; [|split].
  - split; [|split; [exact HL|destruct (fdata a); [congruence|discriminate]]].
    apply chain_app. exists 1%nat. auto.
  - apply dims_app.
  - intros s t Hs. unfold psi. rewrite Hd.
    rewrite (amp_app (fdata a) (fdata b) s t 0 1 1) by (auto; lia || congruence).
    simpl. ring.
Qed.

(** ** post_select (C21) *)

Lemma amp_rmul (p q : list (site R)) B A Aw B' w s i r k :
  slice A w = Ok Aw -> site_rmul B Aw = Ok B' ->
  chain k (p ++ B :: A :: q) r -> i < k -> length s = length (p ++ B :: q) ->
  forall j, amp (p ++ B' :: q) s i j
    = amp (p ++ B :: A :: q) (ins s (S (length p)) w) i j.
Proof.
  unfold slice, site_rmul. destruct (Nat.ltb_spec w (phys A)) as [Hw|]; [|discriminate].
  intros E; injection E as <-. simpl.
  destruct (Nat.eqb_spec (dr B) (dl A)) as [HBA|]; [|discriminate].
  intros E; injection E as <-.
  revert s i k; induction p as [|C p IH]; intros s i k Hc Hi Hs j;
    destruct s as [|x s]; try discriminate Hs; simpl.
  - transitivity (sum (dr A) (fun v => sum (dr B) (fun u =>
        ent B x i u * (ent A w u v * amp q s v j)))).
    + apply sum_ext. intros v _. rewrite <- sum_mul_r. apply sum_ext. intros; ring.
    + rewrite sum_swap. apply sum_ext. intros u _. rewrite sum_mul_l. reflexivity.
  - destruct Hc as [Hc1 Hc2]. simpl in Hs. injection Hs as Hs.
    apply sum_ext. intros u Hu. f_equal. apply (IH s u (dr C) Hc2 Hu Hs j).
Qed.

Lemma post_select_ok (m : fmps R) k w :
  wf m -> 2 <= fL m -> k < fL m -> w < nth k (dims (fdata m)) 0%nat ->
  exists m', post_select m k w = Ok m' /\ closed (fdata m') /\
    S (length (fdata m')) = length (fdata m) /\
    fL m' = fL m /\ foc m' = foc m /\ fcan m' = fcan m /\ forth m' = forth m /\
    forall s, length s = length (fdata m') -> psi m' s = psi m (ins s k w).
Proof.
  intros (Hc & HL & Hne) HL2 Hk Hw. rewrite HL in Hk, HL2.
  unfold post_select, closed in *. destruct k as [|k].
  - destruct (fdata m) as [|A [|B q]] eqn:E; simpl in HL2; try lia.
    simpl in Hw. apply Nat.ltb_lt in Hw.
    cbn [getitem nth_error bind]. unfold slice. rewrite Hw. cbn [bind].
    unfold site_lmul. simpl in Hc. destruct Hc as (Hc1 & Hc2 & Hc3).
    simpl. rewrite Hc2, Nat.eqb_refl. simpl. eexists. split; [reflexivity|]. simpl.
    repeat split; auto.
    intros s Hs. unfold psi. simpl. rewrite E. destruct s as [|x s]; [discriminate|].
    cbn [ins]. rewrite (amp_cons A). simpl.
    transitivity (sum (dr B) (fun v => sum (dr A) (fun u =>
       ent A w 0 u * (ent B x u v * amp q s v 0)))).
    + apply sum_ext. intros v _. rewrite <- sum_mul_r. apply sum_ext. intros; ring.
    + rewrite sum_swap. apply sum_ext. intros u _. rewrite sum_mul_l. reflexivity.
  - destruct (split_at (fdata m) k) as (p & B & q & E & Hp); [lia|].
    destruct q as [|A q].
    { rewrite E, app_length in Hk. simpl in Hk. lia. }
    assert (Hw' : w < phys A).
    { rewrite E, dims_app, app_nth2 in Hw by (unfold dims; rewrite map_length; lia).
      unfold dims in Hw; rewrite map_length in Hw.
      replace (S k - length p)%nat with 1%nat in Hw by lia. exact Hw. }
    rewrite E.
    assert (G1 : getitem (p ++ B :: A :: q) (S k) = Ok A).
    { unfold getitem. rewrite nth_error_app2 by lia.
      replace (S k - length p)%nat with 1%nat by lia. reflexivity. }
    rewrite G1. cbn [bind]. rewrite <- Hp, getitem_app. cbn [bind].
    destruct (slice A w) as [Aw|] eqn:ES.
    2:{ unfold slice in ES. apply Nat.ltb_lt in Hw'. rewrite Hw' in ES. discriminate. }
    cbn [bind].
    rewrite E in Hc. pose proof Hc as Hc'. apply chain_app in Hc' as (u & Hc1 & Hc2).
    simpl in Hc2. destruct Hc2 as (Hc2 & Hc3 & Hc4).
    destruct (site_rmul B Aw) as [B'|] eqn:EB.
    2:{ unfold site_rmul in EB. unfold slice in ES. destruct (Nat.ltb w (phys A)); [|discriminate].
        injection ES as <-. simpl in EB. rewrite Hc3, Nat.eqb_refl in EB. discriminate. }
    cbn [bind]. rewrite setitem_app. cbn [bind].
    replace (p ++ B' :: A :: q) with ((p ++ [B']) ++ A :: q) by (rewrite <- app_assoc; reflexivity).
    replace (S (length p)) with (length (p ++ [B'])) by (rewrite app_length; simpl; lia).
    rewrite delitem_app. cbn [bind]. eexists. split; [reflexivity|]. simpl.
    rewrite <- app_assoc. cbn [app].
    assert (HB' : dl B' = dl B /\ dr B' = dr A /\ phys B' = phys B).
    { unfold slice in ES. destruct (Nat.ltb w (phys A)); [|discriminate]. injection ES as <-.
      unfold site_rmul in EB. simpl in EB. rewrite Hc3, Nat.eqb_refl in EB.
      injection EB as <-. auto. }
    destruct HB' as (P1 & P2 & P3).
    split. { apply chain_app. exists u. split; [exact Hc1|]. simpl. rewrite P1, P2. auto. }
    split. { rewrite !app_length. simpl. lia. }
    repeat split; auto.
    intros s Hs. unfold psi. simpl. rewrite E.
    replace (length (p ++ [B'])) with (S (length p)) by (rewrite app_length; simpl; lia).
    apply (amp_rmul p q B A Aw B' w s 0 1%nat 1%nat ES EB Hc); auto.
    rewrite Hs, !app_length. reflexivity.
Qed.

End Proofs.

Section Proofs2.
Context {R : sring}.
Add Ring Rring2 : (s_th R).
Local Open Scope sr_scope.

(** Equal lengths but different local dimensions: overlap raises. *)
Lemma overlap_loop_dims (la lb : list (site R)) F ja jb :
  chain (mr F) la ja -> chain (mc F) lb jb -> length la = length lb ->
  dims la <> dims lb -> overlap_loop F (combine la lb) = Err ValueError.
Proof.
  revert lb F; induction la as [|A la IH]; intros lb F Ha Hb HL Hd;
    destruct lb as [|B lb]; try discriminate HL; [congruence|].
  destruct Ha as [Ha1 Ha2], Hb as [Hb1 Hb2].
  cbn [combine]. unfold overlap_loop; fold (@overlap_loop R). unfold overlap_step.
  rewrite Ha1, Hb1, !Nat.eqb_refl. cbn [andb].
  destruct (Nat.eqb_spec (phys A) (phys B)) as [E|E]; [|reflexivity].
  cbn [bind]. apply IH; auto.
  intros H. apply Hd. simpl. rewrite E, H. reflexivity.
Qed.

Lemma overlap_dims (a b : fmps R) :
  closed (fdata a) -> closed (fdata b) -> length (fdata a) = length (fdata b) ->
  dims (fdata a) <> dims (fdata b) -> overlap a b = Err ValueError.
Proof.
  intros Ha Hb HL Hd. unfold overlap. rewrite HL, Nat.eqb_refl.
  apply (overlap_loop_dims (fdata a) (fdata b) (mkMat 1 1 (fun _ _ => 1)) 1 1); auto.
Qed.

Lemma overlap_length (a b : fmps R) :
  length (fdata a) <> length (fdata b) -> overlap a b = Err AssertionError.
Proof. intros H. unfold overlap. apply Nat.eqb_neq in H. rewrite H. reflexivity. Qed.

(** add on single sites: the second state disappears. *)
Lemma add_single (a b : fmps R) :
  wf a -> wf b -> fL a = 1%nat -> uniform a -> dims (fdata a) = dims (fdata b) ->
  exists m, mps_add a b = Ok m /\ ~ closed (fdata m) /\ recombine m = recombine a.
Proof.
  intros (Hca & HLa & Hna) (Hcb & HLb & Hnb) HL Hu Hd.
  destruct a as [da La xa Da ca oa oca na], b as [db Lb xb Db cb ob ocb nb]; simpl in *.
  subst La. destruct da as [|A [|? ?]]; try discriminate.
  destruct db as [|B [|? ?]]; try discriminate.
  destruct Hca as [Ha1 Ha2], Hcb as [Hb1 Hb2]. simpl in Ha2, Hb2. injection Hd as Hd.
  unfold mps_add; simpl. unfold concat2. rewrite Hd, Ha1, Hb1, !Nat.eqb_refl. simpl.
  rewrite Ha2, Hb2. simpl.
  eexists. split; [reflexivity|]. split.
  - simpl. unfold closed. simpl. intros [_ H]. discriminate.
  - inversion Hu as [|? ? Hp _]; subst. simpl in Hp.
    unfold recombine. simpl. subst xa. rewrite Hd.
    assert (H : forall l, Forall (fun ij => exists s, ij = [s] /\ s < phys B) l ->
      mapM (recombine_entry [mkSite (phys B) 1 2 (fun s i j => if Nat.ltb j 1 then ent A s i j
          else ent B s i (j - 1)%nat)]) l = mapM (recombine_entry [A]) l).
    { induction l as [|ij l IH]; intros Hl; [reflexivity|].
      inversion Hl as [|? ? (s & -> & Hs) Hl']; subst.
      cbn [mapM]. rewrite (IH Hl').
      unfold recombine_entry, slice. simpl. apply Nat.ltb_lt in Hs.
      rewrite Hs, Hd, Hs. simpl. rewrite Ha1, Ha2. simpl. reflexivity. }
    apply H. apply Forall_forall. intros ij Hin.
    apply in_flat_map in Hin as (s & Hs & Hin). simpl in Hin. destruct Hin as [<-|[]].
    exists s. split; [reflexivity|]. apply in_seq in Hs. lia.
Qed.

End Proofs2.

Section Proofs3.
Context {R : sring}.
Add Ring Rring3 : (s_th R).
Local Open Scope sr_scope.

Lemma wf_uniform_dims (a b : fmps R) :
  wf a -> wf b -> uniform a -> uniform b -> fd a = fd b -> fL a = fL b ->
  dims (fdata a) = dims (fdata b).
Proof.
  intros (_ & HLa & _) (_ & HLb & _) Hua Hub Hd HL.
  rewrite (dims_uniform a Hua), (dims_uniform b Hub), <- HLa, <- HLb, Hd, HL. reflexivity.
Qed.

Lemma overlap_conj_full (a b : fmps R) :
  wf a -> wf b -> uniform a -> uniform b -> fd a = fd b -> fL a = fL b ->
  exists F z, overlap a b = Ok F /\ full_overlap a b = Ok z /\ me F 0 0 = sconj z.
Proof.
  intros Ha Hb Hua Hub Hd HL.
  pose proof (wf_uniform_dims a b Ha Hb Hua Hub Hd HL) as Hdims.
  destruct (overlap_ok a b) as (F & HF & _ & _ & HF0); [apply Ha|apply Hb|exact Hdims|].
  exists F, (inner (dims (fdata a)) (psi b) (psi a)).
  split; [exact HF|]. split; [apply full_overlap_ok; assumption|].
  rewrite HF0. apply inner_conj.
Qed.

Lemma overlap_conj_sym (a b : fmps R) :
  closed (fdata a) -> closed (fdata b) -> dims (fdata a) = dims (fdata b) ->
  exists F G, overlap a b = Ok F /\ overlap b a = Ok G /\ me F 0 0 = sconj (me G 0 0).
Proof.
  intros Ha Hb Hd.
  destruct (overlap_ok a b Ha Hb Hd) as (F & HF & _ & _ & HF0).
  destruct (overlap_ok b a Hb Ha (eq_sym Hd)) as (G & HG & _ & _ & HG0).
  exists F, G. split; [exact HF|]. split; [exact HG|].
  rewrite HF0, HG0, <- Hd. apply inner_conj.
Qed.

Lemma norm_ok (a : fmps R) :
  closed (fdata a) ->
  exists F, mps_norm a = Ok F /\
    me F 0 0 = sumcfg (dims (fdata a)) (fun s => psi a s * sconj (psi a s)).
Proof.
  intros Ha. destruct (overlap_ok a a Ha Ha eq_refl) as (F & HF & _ & _ & HF0).
  exists F. split; [exact HF|exact HF0].
Qed.

Lemma amp_assoc (l m : list (site R)) s t i j k p :
  length s = length l -> chain k l j -> i < k ->
  amp (l ++ m) (s ++ t) i p = sum j (fun q => amp l s i q * amp m t q p).
Proof. intros. eapply amp_app; eauto. Qed.

(** from_product_state: amplitudes are products of the vector entries. *)
Lemma product_amp (vs : list (nat * (nat -> R))) s :
  length s = length vs ->
  amp (map (fun v => mkSite (fst v) 1 1 (fun s _ _ => snd v s)) vs) s 0 0
  = prodl (map (fun vx => snd (fst vx) (snd vx)) (combine vs s)).
Proof.
  revert s; induction vs as [|v vs IH]; intros s Hs; destruct s as [|x s]; try discriminate.
  - reflexivity.
  - simpl in Hs. injection Hs as Hs. simpl. rewrite (IH s Hs). ring.
Qed.

Lemma product_state_ok (vs : list (nat * (nat -> R))) :
  vs <> [] ->
  exists m, from_product_state vs = Ok m /\ wf m /\ dims (fdata m) = map fst vs /\
    forall s, length s = length vs ->
      psi m s = prodl (map (fun vx => snd (fst vx) (snd vx)) (combine vs s)).
Proof.
  intros Hne. unfold from_product_state.
  match goal with |- context [fMPS_init ?l _ _] =>
    destruct (init_ok l) as (m & Hm & Hd & HL & _) end.
  { intros H. apply map_eq_nil in H. congruence. }
  exists m. split; [exact Hm|]. unfold wf. rewrite Hd. split; [|split].
  - split; [|split; [exact HL|intros H; apply map_eq_nil in H; congruence]].
    clear. induction vs as [|v vs IH]; simpl; [reflexivity|]. split; [reflexivity|exact IH].
  - unfold dims. rewrite map_map. reflexivity.
  - intros s Hs. unfold psi. rewrite Hd. apply product_amp, Hs.
Qed.

(** post_select leaves the recorded length unchanged, so recombine of the
    result still has d^L entries, each amplitude repeated d times. *)
Lemma flat_map_ext_in {A B} (f g : A -> list B) l :
  (forall x, In x l -> f x = g x) -> flat_map f l = flat_map g l.
Proof.
  induction l as [|x l IH]; intros H; simpl; [reflexivity|].
  rewrite (H x) by (left; reflexivity). rewrite IH; [reflexivity|].
  intros; apply H; right; assumption.
Qed.

End Proofs3.

Lemma NoDup_app_disj {A} (l m : list A) :
  NoDup l -> NoDup m -> (forall x, In x l -> In x m -> False) -> NoDup (l ++ m).
Proof.
  induction l as [|x l IH]; intros Hl Hm H; simpl; [exact Hm|].
  inversion Hl; subst. constructor.
  - rewrite in_app_iff. intros [?|?]; [contradiction|]. apply (H x); [left|]; auto.
  - apply IH; auto. intros y H1 H2'. apply (H y); [right|]; auto.
Qed.

Lemma configs_complete d L s :
  (In s (configs d L) <-> length s = L /\ Forall (fun x => x < d) s) /\
  NoDup (configs d L) /\ length (configs d L) = (d ^ L)%nat.
Proof.
  split; [|split; [|apply configs_length]].
  - rewrite configs_In. clear. revert L; induction s as [|x s IH]; intros L.
    + split.
      * intros H. apply incfg_length in H. rewrite repeat_length in H. auto.
      * intros [H _]. simpl in H; subst L. constructor.
    + destruct L as [|L]; simpl.
      * split; [intros H; inversion H|intros [H _]; discriminate].
      * rewrite incfg_cons, IH. split.
        -- intros (H1 & H2 & H3). auto.
        -- intros [H1 H2]. inversion H2; subst. auto.
  - induction L as [|L IH]; simpl; [repeat constructor; auto|].
    assert (H : forall n k, NoDup (flat_map (fun s => map (cons s) (configs d L)) (seq k n))).
    { induction n as [|n IHn]; intros k; simpl; [constructor|].
      apply NoDup_app_disj.
      - apply Injective_map_NoDup; [|exact IH]. intros x y E; injection E; auto.
      - apply IHn.
      - intros x H1 H2. apply in_map_iff in H1 as (y & <- & _).
        apply in_flat_map in H2 as (z & Hz & H2). apply in_map_iff in H2 as (w & E & _).
        injection E as E _. subst z. apply in_seq in Hz. lia. }
    apply H.
Qed.

Section Proofs4.
Context {R : sring}.
Add Ring Rring4 : (s_th R).
Local Open Scope sr_scope.

Lemma reduce_dot_extra (l : list (site R)) acc s t :
  length s = length l -> reduce_dot acc l (s ++ t) = reduce_dot acc l s.
Proof.
  revert acc s; induction l as [|A l IH]; intros acc s Hs; destruct s as [|x s]; try discriminate;
    [destruct t; reflexivity|].
  simpl. destruct (slice A x) as [m|e]; simpl; [|reflexivity].
  destruct (mdot acc m) as [p|e]; simpl; [|reflexivity]. apply IH. simpl in Hs. lia.
Qed.

Lemma recombine_entry_extra (l : list (site R)) s t :
  length s = length l -> recombine_entry l (s ++ t) = recombine_entry l s.
Proof.
  destruct l as [|A l]; intros Hs; [reflexivity|]. destruct s as [|x s]; [discriminate|].
  simpl. destruct (slice A x) as [m|e]; simpl; [|reflexivity].
  rewrite reduce_dot_extra by (simpl in Hs; lia). reflexivity.
Qed.

(** fMPS.py:856-863 does not update self.L: recombine then enumerates one index
    too many and repeats every amplitude. *)
Lemma post_select_dims (m m' : fmps R) k w :
  post_select m k w = Ok m' -> uniform m -> uniform m'.
Proof.
  unfold post_select, uniform. intros H Hu.
  destruct (getitem (fdata m) k) as [A|] eqn:EA; simpl in H; [|discriminate].
  assert (Hset : forall l i (B : site R) l', setitem l i B = Ok l' -> phys B = fd m ->
            Forall (fun A => phys A = fd m) l -> Forall (fun A => phys A = fd m) l').
  { induction l as [|C l IH]; intros i B l' E HB HF; [discriminate|].
    inversion HF; subst. destruct i as [|i]; simpl in E.
    - injection E as <-. constructor; auto.
    - destruct (setitem l i B) as [l2|] eqn:E2; simpl in E; [|discriminate].
      injection E as <-. constructor; eauto. }
  assert (Hdel : forall (l : list (site R)) i l', delitem l i = Ok l' ->
            Forall (fun A => phys A = fd m) l -> Forall (fun A => phys A = fd m) l').
  { induction l as [|C l IH]; intros i l' E HF; [discriminate|].
    inversion HF; subst. destruct i as [|i]; simpl in E.
    - injection E as <-. auto.
    - destruct (delitem l i) as [l2|] eqn:E2; simpl in E; [|discriminate].
      injection E as <-. constructor; eauto. }
  assert (Hget : forall i B, getitem (fdata m) i = Ok B -> phys B = fd m).
  { intros i B E. unfold getitem in E. destruct (nth_error (fdata m) i) eqn:E2; [|discriminate].
    injection E as ->. apply nth_error_In in E2. rewrite Forall_forall in Hu. auto. }
  match type of H with bind ?e _ = _ => destruct e as [l|] eqn:El end; simpl in H; [|discriminate].
  destruct (delitem l k) as [l'|] eqn:Ed; simpl in H; [|discriminate].
  injection H as <-. simpl. eapply Hdel; [exact Ed|].
  destruct k as [|k].
  - destruct (getitem (fdata m) 1) as [B|] eqn:EB; simpl in El; [|discriminate].
    destruct (slice A w) as [Aw|] eqn:Ew; simpl in El; [|discriminate].
    destruct (site_lmul Aw B) as [B'|] eqn:EB'; simpl in El; [|discriminate].
    eapply Hset; [exact El| |exact Hu].
    unfold site_lmul in EB'. destruct (Nat.eqb _ _); [|discriminate].
    injection EB' as <-. simpl. eauto.
  - destruct (getitem (fdata m) k) as [B|] eqn:EB; simpl in El; [|discriminate].
    destruct (slice A w) as [Aw|] eqn:Ew; simpl in El; [|discriminate].
    destruct (site_rmul B Aw) as [B'|] eqn:EB'; simpl in El; [|discriminate].
    eapply Hset; [exact El| |exact Hu].
    unfold site_rmul in EB'. destruct (Nat.eqb _ _); [|discriminate].
    injection EB' as <-. simpl. eauto.
Qed.

Lemma incfg_repeat_firstn d n s k :
  incfg (repeat d n) s -> k <= n -> incfg (repeat d k) (firstn k s).
Proof.
  revert s k; induction n as [|n IH]; intros s k H Hk.
  - inversion H; subst. replace k with 0%nat by lia. constructor.
  - simpl in H. inversion H as [|x y s' l' Hx Hs]; subst. destruct k as [|k]; [constructor|].
    simpl. constructor; [exact Hx|]. apply IH; [exact Hs|lia].
Qed.

Lemma post_select_recombine (m : fmps R) k w :
  wf m -> uniform m -> 2 <= fL m -> k < fL m -> w < fd m ->
  exists m', post_select m k w = Ok m' /\
    recombine m' = Ok (map (fun s => psi m (ins (firstn (fL m - 1) s) k w))
                           (configs (fd m) (fL m))).
Proof.
  intros Hwf Hu HL Hk Hw. pose proof Hwf as (Hc & HLl & Hne).
  assert (Hw' : w < nth k (dims (fdata m)) 0%nat).
  { rewrite (dims_uniform m Hu), nth_indep with (d' := fd m), nth_repeat;
      [exact Hw|rewrite repeat_length; lia]. }
  destruct (post_select_ok m k w Hwf HL Hk Hw') as (m' & Hm & Hc' & Hlen & HL' & _ & _ & _ & Hpsi).
  exists m'. split; [exact Hm|].
  pose proof (post_select_dims m m' k w Hm Hu) as Hu'.
  assert (Hd' : fd m' = fd m).
  { unfold post_select in Hm.
    destruct (getitem (fdata m) k); simpl in Hm; [|discriminate].
    match type of Hm with bind ?e _ = _ => destruct e end; simpl in Hm; [|discriminate].
    destruct (delitem _ k); simpl in Hm; [|discriminate]. injection Hm as <-. reflexivity. }
  unfold recombine. rewrite HL', Hd'. apply mapM_ok.
  intros s Hs. apply configs_In in Hs.
  rewrite <- (firstn_skipn (fL m - 1) s) at 1.
  assert (Hfl : length (firstn (fL m - 1) s) = length (fdata m')).
  { apply incfg_length in Hs. rewrite repeat_length in Hs. rewrite firstn_length. lia. }
  rewrite recombine_entry_extra by exact Hfl.
  rewrite recombine_entry_ok.
  - f_equal. apply Hpsi, Hfl.
  - exact Hc'.
  - intros E. rewrite E in Hlen. simpl in Hlen. lia.
  - rewrite (dims_uniform m' Hu'), Hd'. replace (length (fdata m')) with (fL m - 1)%nat by lia.
    eapply incfg_repeat_firstn; [exact Hs|lia].
Qed.

End Proofs4.

Lemma apply_range {R : sring} (m : fmps R) op k :
  length (fdata m) <= k -> mps_apply m op k = Err IndexError.
Proof.
  intros H. unfold mps_apply, getitem. apply nth_error_None in H. rewrite H. reflexivity.
Qed.
