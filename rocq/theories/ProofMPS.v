From Verif Require Import Alg ModelMPS SpecMPS.

Section Proofs.
Context {R : sring}.
Add Ring Rring : (s_th R).
Local Open Scope sr_scope.

Lemma chain_app i (l m : list (site R)) j :
  chain i (l ++ m) j <-> exists k, chain i l k /\ chain k m j.
Proof.
  revert i; induction l as [|A l IH]; intros i; simpl.
  - split; [intros H; exists i; auto | intros (k & -> & H); exact H].
  - rewrite IH. split.
    + intros (Hi & k & H1 & H2). exists k; auto.
    + intros (k & (Hi & H1) & H2). split; [auto|]. exists k; auto.
Qed.

Lemma amp_app (l m : list (site R)) s t i j k :
  length s = length l -> chain k l j -> i < k ->
  forall p, amp (l ++ m) (s ++ t) i p = sum j (fun q => amp l s i q * amp m t q p).
Proof.
  revert s i k; induction l as [|A l IH]; intros s i k Hs Hc Hi p;
    destruct s as [|x s]; try discriminate; simpl in *.
  - subst k. rewrite (sum_dlt_l j i (fun q => amp m t q p)) by exact Hi. reflexivity.
  - destruct Hc as [Hd Hc].
    transitivity (sum (dr A) (fun r => sum j (fun q => ent A x i r * amp l s r q * amp m t q p))).
    + apply sum_ext. intros r Hr. rewrite (IH s r (dr A)) by (auto; lia).
      rewrite <- sum_mul_l. apply sum_ext. intros; ring.
    + rewrite sum_swap. apply sum_ext. intros q _. rewrite <- sum_mul_r. reflexivity.
Qed.

Lemma amp_cons A (l : list (site R)) x s i j :
  amp (A :: l) (x :: s) i j = sum (dr A) (fun k => ent A x i k * amp l s k j).
Proof. reflexivity. Qed.

Lemma amp_ext (l m : list (site R)) s i j :
  Forall2 site_eq l m -> incfg (dims l) s ->
  (forall a b, chain a l b -> i < a ->
  amp l s i j = amp m s i j).
Proof.
  intros H; revert s i; induction H as [|A B l m HAB H IH]; intros s i Hs a b Hc Hi.
  - reflexivity.
  - destruct s as [|x s]; [inversion Hs|]. apply incfg_cons in Hs as [Hx Hs].
    simpl in Hc; destruct Hc as [Ha Hc]. destruct HAB as (E1 & E2 & E3 & E4).
    simpl. rewrite <- E3. apply sum_ext. intros k Hk.
    rewrite E4 by lia. f_equal. eapply IH; eauto.
Qed.

(** ** recombine (C02) *)

Lemma reduce_dot_ok (rest : list (site R)) ij acc j :
  chain (mc acc) rest j -> incfg (dims rest) ij ->
  exists p, reduce_dot acc rest ij = Ok p /\ mr p = mr acc /\ mc p = j /\
    forall a b, b < j ->
      me p a b = sum (mc acc) (fun k => me acc a k * amp rest ij k b).
Proof.
  revert ij acc; induction rest as [|A rest IH]; intros ij acc Hc Hs;
    destruct ij as [|x ij]; try solve [inversion Hs]; simpl in Hc.
  - exists acc. repeat split; auto. intros a b Hb. simpl.
    rewrite sum_dlt_r by lia. reflexivity.
  - destruct Hc as [Hd Hc]. unfold dims in Hs; simpl in Hs.
    apply incfg_cons in Hs as [Hx Hs].
    unfold reduce_dot; fold (@reduce_dot R). unfold slice.
    apply Nat.ltb_lt in Hx. rewrite Hx. simpl bind. unfold mdot; simpl.
    rewrite Hd, Nat.eqb_refl. simpl bind.
    match goal with |- context [reduce_dot ?m rest ij] => set (acc' := m) end.
    destruct (IH ij acc' Hc Hs) as (p & Hp & H1 & H2 & H3).
    exists p. split; [exact Hp|]. split; [exact H1|]. split; [exact H2|].
    intros a b Hb. rewrite H3 by exact Hb. simpl.
    transitivity (sum (dr A) (fun k => sum (mc acc) (fun i =>
        me acc a i * (ent A x i k * amp rest ij k b)))).
    + apply sum_ext. intros k Hk. rewrite <- sum_mul_r. apply sum_ext. intros; ring.
    + rewrite sum_swap. apply sum_ext. intros i Hi. rewrite <- sum_mul_l. reflexivity.
Qed.

Lemma recombine_entry_ok (l : list (site R)) ij :
  closed l -> l <> [] -> incfg (dims l) ij ->
  recombine_entry l ij = Ok (amp l ij 0 0).
Proof.
  intros Hc Hne Hs. destruct l as [|A rest]; [congruence|].
  destruct ij as [|x ij]; [inversion Hs|].
  destruct Hc as [Hd Hc]. unfold dims in Hs; simpl in Hs.
  apply incfg_cons in Hs as [Hx Hs].
  unfold recombine_entry, slice. apply Nat.ltb_lt in Hx. rewrite Hx. simpl bind.
  match goal with |- context [reduce_dot ?m rest ij] => set (acc := m) end.
  destruct (reduce_dot_ok rest ij acc 1%nat Hc Hs) as (p & Hp & H1 & H2 & H3).
  rewrite Hp. simpl bind. rewrite H1, H2. simpl. rewrite Hd. simpl.
  rewrite H3 by lia. reflexivity.
Qed.

Lemma configs_In d L s : In s (configs d L) <-> incfg (repeat d L) s.
Proof.
  revert s; induction L as [|L IH]; intros s; simpl.
  - split.
    + intros [<-|[]]. constructor.
    + intros H; inversion H; auto.
  - rewrite in_flat_map. split.
    + intros (x & Hx & Hs). apply in_map_iff in Hs as (s' & <- & Hs').
      apply in_seq in Hx. apply IH in Hs'. constructor; [lia|exact Hs'].
    + intros H; inversion H as [|x d' s' ds Hx Hs']; subst.
      exists x. split; [apply in_seq; lia|]. apply in_map, IH, Hs'.
Qed.

Lemma configs_length d L : length (configs d L) = (d ^ L)%nat.
Proof.
  induction L as [|L IH]; [reflexivity|]. simpl.
  assert (H : forall n k, length (flat_map (fun s => map (cons s) (configs d L)) (seq k n))
              = (n * d ^ L)%nat).
  { induction n as [|n IHn]; intros k; simpl; [reflexivity|].
    rewrite app_length, map_length, IH, IHn. reflexivity. }
  rewrite H. reflexivity.
Qed.

Lemma dims_uniform (m : fmps R) :
  uniform m -> dims (fdata m) = repeat (fd m) (length (fdata m)).
Proof.
  unfold uniform, dims. intros H. induction H as [|A l HA H IH]; simpl; [reflexivity|].
  rewrite HA, IH. reflexivity.
Qed.

Lemma recombine_ok (m : fmps R) :
  wf m -> uniform m ->
  recombine m = Ok (map (psi m) (configs (fd m) (fL m))).
Proof.
  intros (Hc & HL & Hne) Hu. unfold recombine. apply mapM_ok.
  intros s Hs. apply configs_In in Hs. unfold psi.
  apply recombine_entry_ok; auto. rewrite dims_uniform by exact Hu. rewrite <- HL. exact Hs.
Qed.

(** ** overlap (C01) *)

Lemma overlap_loop_ok (la lb : list (site R)) F ja jb :
  chain (mr F) la ja -> chain (mc F) lb jb -> dims la = dims lb ->
  exists G, overlap_loop F (combine la lb) = Ok G /\ mr G = ja /\ mc G = jb /\
    forall p q,
      me G p q = sum (mr F) (fun i => sum (mc F) (fun j =>
        me F i j * sumcfg (dims la) (fun s => amp la s i p * sconj (amp lb s j q))))
      \/ ~ (p < ja /\ q < jb).
Proof.
  revert lb F; induction la as [|A la IH]; intros lb F Ha Hb Hd;
    destruct lb as [|B lb]; try discriminate; simpl in Ha, Hb.
  - exists F. repeat split; auto. intros p q. subst.
    destruct (lt_dec p (mr F)) as [Hp|Hp]; [|right; lia].
    destruct (lt_dec q (mc F)) as [Hq|Hq]; [|right; lia].
    left. simpl. symmetry. transitivity (sum (mr F) (fun i => dlt i p * me F i q)).
    + apply sum_ext. intros i _.
      transitivity (sum (mc F) (fun j => (dlt i p * me F i j) * dlt j q)).
      * apply sum_ext. intros j _. rewrite dlt_conj. ring.
      * rewrite sum_dlt_r by exact Hq. reflexivity.
    + rewrite sum_dlt_l' by exact Hp. reflexivity.
  - destruct Ha as [Ha1 Ha2], Hb as [Hb1 Hb2]. injection Hd as Hd1 Hd2.
    simpl combine. unfold overlap_loop; fold (@overlap_loop R). unfold overlap_step.
    rewrite Ha1, Hb1, Hd1, !Nat.eqb_refl. simpl andb. cbv iota. simpl bind.
    match goal with |- context [overlap_loop ?m (combine la lb)] => set (F' := m) end.
    destruct (IH lb F' Ha2 Hb2 Hd2) as (G & HG & H1 & H2 & H3).
    exists G. split; [exact HG|]. split; [exact H1|]. split; [exact H2|].
    intros p q. destruct (H3 p q) as [H4|H4]; [left|right; exact H4].
    rewrite H4. unfold F' at 1 2 3; simpl mr; simpl mc. simpl me.
    simpl dims. try rewrite Hd1. simpl sumcfg.
    (* both sides are sums over i j s a b *)
    set (T := fun a b => sumcfg (dims la) (fun s => amp la s a p * sconj (amp lb s b q))).
    change (sum (dr A) (fun a => sum (dr B) (fun b =>
       sum (mr F) (fun i => sum (mc F) (fun j => sum (phys B) (fun x =>
          me F i j * ent A x i a * sconj (ent B x j b)))) * T a b))
      = sum (mr F) (fun i => sum (mc F) (fun j => me F i j *
          sum (phys B) (fun x => sumcfg (dims la) (fun c =>
            sum (dr A) (fun k => ent A x i k * amp la c k p) *
            sconj (sum (dr B) (fun k => ent B x j k * amp lb c k q))))))).
    transitivity (sum (mr F) (fun i => sum (mc F) (fun j => sum (phys B) (fun x =>
      sum (dr A) (fun a => sum (dr B) (fun b =>
        me F i j * ent A x i a * sconj (ent B x j b) * T a b)))))).
    + transitivity (sum (dr A) (fun a => sum (mr F) (fun i => sum (dr B) (fun b =>
        sum (mc F) (fun j => sum (phys B) (fun x =>
          me F i j * ent A x i a * sconj (ent B x j b) * T a b)))))).
      { apply sum_ext. intros a _. rewrite sum_swap. apply sum_ext. intros b _.
        rewrite <- sum_mul_r. apply sum_ext. intros i _.
        rewrite <- sum_mul_r. apply sum_ext. intros j _. rewrite <- sum_mul_r. reflexivity. }
      rewrite sum_swap. apply sum_ext. intros i _.
      transitivity (sum (dr A) (fun a => sum (mc F) (fun j => sum (phys B) (fun x =>
         sum (dr B) (fun b => me F i j * ent A x i a * sconj (ent B x j b) * T a b))))).
      { apply sum_ext. intros a _. rewrite sum_swap. apply sum_ext. intros j _.
        rewrite sum_swap. reflexivity. }
      rewrite sum_swap. apply sum_ext. intros j _. rewrite sum_swap. reflexivity.
    + apply sum_ext. intros i _. apply sum_ext. intros j _.
      rewrite <- sum_mul_l. apply sum_ext. intros x _.
      transitivity (me F i j * sum (dr A) (fun a => sum (dr B) (fun b =>
          ent A x i a * sconj (ent B x j b) * T a b))).
      { rewrite <- sum_mul_l. apply sum_ext. intros a _. rewrite <- sum_mul_l.
        apply sum_ext. intros b _. ring. }
      f_equal. symmetry.
      transitivity (sumcfg (dims la) (fun c => sum (dr A) (fun a => sum (dr B) (fun b =>
         ent A x i a * sconj (ent B x j b) * (amp la c a p * sconj (amp lb c b q)))))).
      { apply sumcfg_ext. intros c _. rewrite sum_conj.
        rewrite <- sum_mul_r. apply sum_ext. intros a _.
        rewrite <- sum_mul_l. apply sum_ext. intros b _. rewrite conj_mul. ring. }
      rewrite sumcfg_sum. apply sum_ext. intros a _.
      rewrite sumcfg_sum. apply sum_ext. intros b _. apply sumcfg_mul_l.
Qed.

Lemma overlap_ok (a b : fmps R) :
  closed (fdata a) -> closed (fdata b) -> dims (fdata a) = dims (fdata b) ->
  exists G, overlap a b = Ok G /\ mr G = 1%nat /\ mc G = 1%nat /\
    me G 0 0 = inner (dims (fdata a)) (psi a) (psi b).
Proof.
  intros Ha Hb Hd. unfold overlap.
  assert (HL : length (fdata a) = length (fdata b)).
  { unfold dims in Hd. apply (f_equal (@length nat)) in Hd. rewrite !map_length in Hd. exact Hd. }
  rewrite HL, Nat.eqb_refl.
  destruct (overlap_loop_ok (fdata a) (fdata b) (mkMat 1 1 (fun _ _ => 1)) 1 1 Ha Hb Hd)
    as (G & HG & H1 & H2 & H3).
  exists G. repeat split; auto. destruct (H3 0%nat 0%nat) as [H|H]; [|lia].
  rewrite H. simpl. unfold inner, psi. ring.
Qed.

Lemma inner_conj ds (f g : list nat -> R) : inner ds f g = sconj (inner ds g f).
Proof.
  unfold inner. rewrite sumcfg_conj. apply sumcfg_ext. intros s _.
  rewrite conj_mul, conj_conj. ring.
Qed.

Lemma suml_configs d L (f : list nat -> R) :
  suml (map f (configs d L)) = sumcfg (repeat d L) f.
Proof.
  revert f; induction L as [|L IH]; intros f; simpl; [ring|].
  assert (H : forall n k, suml (map f (flat_map (fun s => map (cons s) (configs d L)) (seq k n)))
     = suml (map (fun s => sumcfg (repeat d L) (fun c => f (s :: c))) (seq k n))).
  { induction n as [|n IHn]; intros k; simpl; [reflexivity|].
    rewrite map_app, suml_app, IHn, map_map, (IH (fun c => f (k :: c))). reflexivity. }
  rewrite H. apply suml_map_seq.
Qed.

Lemma full_overlap_ok (a b : fmps R) :
  wf a -> wf b -> uniform a -> uniform b -> fd a = fd b -> fL a = fL b ->
  full_overlap a b = Ok (inner (dims (fdata a)) (psi b) (psi a)).
Proof.
  intros Ha Hb Hua Hub Hd HL. unfold full_overlap.
  rewrite (recombine_ok a), (recombine_ok b) by assumption. simpl bind.
  unfold vdot. rewrite !map_length, !configs_length, Hd, HL, Nat.eqb_refl. f_equal.
  destruct Ha as (_ & HLa & _). rewrite (dims_uniform a Hua), <- HLa, Hd, HL.
  unfold inner. rewrite <- suml_configs.
  generalize (configs (fd b) (fL b)) as l. intros l.
  induction l as [|s l IH]; simpl; [reflexivity|]. rewrite IH. ring.
Qed.

End Proofs.
