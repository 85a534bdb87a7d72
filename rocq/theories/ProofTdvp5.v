(** The number of null vectors; the derivative of the energy as a sum over the entries of a
    tensor; the loop over the terms. *)
From Verif Require Import Alg ModelMPS SpecMPS ProofMPS ModelOrth SpecOrth ProofOrth ProofOrth2 ModelNcon SpecNcon
  ModelEk SpecEk ProofEk4 ModelNp ModelEnergy SpecEnergy ProofEnergy ModelTan SpecTan ProofTan ModelTdvp SpecTdvp ProofTdvp ProofTdvp2 ProofTdvp3 ProofTdvp4.
Require Verif.SpecDecomp Verif.ProofDecomp2.

Section Count.
Context {R : sring}.
Local Open Scope sr_scope.
Add Ring Rr : (s_th R).

Lemma sofnat_add n k : sofnat (n + k) = sofnat n + sofnat k :> R.
Proof. induction k as [|k IH]; [rewrite Nat.add_0_r; cbn; ring|]. rewrite Nat.add_succ_r. cbn [sofnat]. rewrite IH. ring. Qed.

Lemma sum2_const n k : sum n (fun _ => sum k (fun _ => 1)) = sofnat (n * k) :> R.
Proof.
  induction n as [|n IH]; [reflexivity|]. cbn [sum]. rewrite IH, ProofDecomp2.sum_const, <- sofnat_add. f_equal. lia.
Qed.

(** rank and nullity, by traces *)
Lemma null_count q d D (F : nat -> nat -> nat -> R) V (u : nat -> R) : SpecDecomp.char0 R -> null_basis q d D F V ->
  (forall b b', (b < q)%nat -> (b' < q)%nat -> b <> b' -> sum d (fun s => sum D (fun a => F b s a * sconj (F b' s a))) = 0) ->
  (forall b, (b < q)%nat -> sum d (fun s => sum D (fun a => F b s a * sconj (F b s a))) * u b = 1) ->
  (dr V + q = d * D)%nat.
Proof.
  intros Hc (V1 & V2 & V3 & V4 & V5) HO Hg. apply Hc. rewrite sofnat_add.
  set (w := fun t c s a => dlt t s * dlt c a - sum q (fun b => sconj (F b s a) * (u b * F b t c))).
  assert (Hw : forall t c, (t < d)%nat -> (c < D)%nat -> forall b, (b < q)%nat -> sum d (fun s => sum D (fun a => F b s a * w t c s a)) = 0).
  { intros t c Ht Hcc b Hb. unfold w.
    transitivity (sum d (fun s => dlt t s * sum D (fun a => dlt c a * F b s a)) - sum q (fun b' => sum d (fun s => sum D (fun a => F b s a * sconj (F b' s a))) * (u b' * F b' t c))).
    - rewrite (sum_ext q _ (fun b' => sum d (fun s => sum D (fun a => F b s a * (sconj (F b' s a) * (u b' * F b' t c)))))).
      2: { intros b' _. rewrite <- sum_mul_r. apply sum_ext; intros s _. rewrite <- sum_mul_r. apply sum_ext; intros a _. ring. }
      rewrite <- (sum_rot d D q (fun s a b' => F b s a * (sconj (F b' s a) * (u b' * F b' t c)))). rewrite <- sum_sub. apply sum_ext; intros s _. rewrite <- sum_mul_l, <- sum_sub. apply sum_ext; intros a _.
      rewrite sum_mul_l. ring.
    - rewrite (sum_dlt1 d t (fun s => sum D (fun a => dlt c a * F b s a))) by exact Ht. rewrite (sum_dlt1 D c (fun a => F b t a)) by exact Hcc.
      rewrite (sum_diag q b); [|exact Hb|].
      + transitivity (F b t c - (sum d (fun s => sum D (fun a => F b s a * sconj (F b s a))) * u b) * F b t c); [ring|]. rewrite Hg by exact Hb. ring.
      + intros b' Hb' Hne. rewrite HO by auto. ring. }
  transitivity (sum d (fun t => sum D (fun c => w t c t c)) + sofnat q).
  - f_equal.
    transitivity (sum d (fun t => sum D (fun c => sum (dr V) (fun k => ent V t c k * sum d (fun s => sum D (fun a => sconj (ent V s a k) * w t c s a)))))).
    2: { apply sum_ext; intros t Ht. apply sum_ext; intros c Hcc. symmetry. apply (V5 (w t c)); auto. }
    transitivity (sum (dr V) (fun k => sum d (fun t => sum D (fun c => ent V t c k * sconj (ent V t c k))))).
    + rewrite <- ProofDecomp2.sum_const. apply sum_ext; intros k Hk. transitivity (dlt k k : R); [symmetry; apply dlt_eq|]. rewrite <- V4 by assumption.
      apply sum_ext; intros t _. apply sum_ext; intros c _. ring.
    + rewrite <- sum_rot. apply sum_ext; intros t Ht. apply sum_ext; intros c Hcc. apply sum_ext; intros k Hk. f_equal. unfold w.
      transitivity (sum d (fun s => dlt t s * sum D (fun a => dlt c a * sconj (ent V s a k))) - sum q (fun b => sum d (fun s => sum D (fun a => sconj (ent V s a k) * sconj (F b s a))) * (u b * F b t c))).
      * rewrite (sum_dlt1 d t (fun s => sum D (fun a => dlt c a * sconj (ent V s a k)))) by exact Ht. rewrite (sum_dlt1 D c (fun a => sconj (ent V t a k))) by exact Hcc.
        rewrite (sum_zero q); [ring|]. intros b Hb. replace (sum d (fun s => sum D (fun a => sconj (ent V s a k) * sconj (F b s a)))) with (sconj (sum d (fun s => sum D (fun a => F b s a * ent V s a k)))).
        { rewrite V3 by assumption. rewrite conj_0. ring. }
        rewrite sum_conj. apply sum_ext; intros s _. rewrite sum_conj. apply sum_ext; intros a _. rewrite conj_mul. ring.
      * rewrite (sum_ext q _ (fun b => sum d (fun s => sum D (fun a => sconj (ent V s a k) * (sconj (F b s a) * (u b * F b t c)))))).
        2: { intros b' _. rewrite <- sum_mul_r. apply sum_ext; intros s _. rewrite <- sum_mul_r. apply sum_ext; intros a _. ring. }
        rewrite <- (sum_rot d D q (fun s a b => sconj (ent V s a k) * (sconj (F b s a) * (u b * F b t c)))). rewrite <- sum_sub. apply sum_ext; intros s _. rewrite <- sum_mul_l, <- sum_sub. apply sum_ext; intros a _.
        rewrite sum_mul_l. ring.
  - unfold w. transitivity (sum d (fun t => sum D (fun c => 1 - sum q (fun b => sconj (F b t c) * (u b * F b t c)))) + sofnat q).
    + f_equal. apply sum_ext; intros t _. apply sum_ext; intros c _. rewrite !dlt_eq. ring.
    + rewrite (sum_ext d _ (fun t => sum D (fun c => 1) - sum D (fun c => sum q (fun b => sconj (F b t c) * (u b * F b t c))))) by (intros; apply sum_sub).
      rewrite sum_sub, sum2_const. rewrite sum_rot. rewrite (sum_ext q _ (fun _ => 1)).
      * rewrite ProofDecomp2.sum_const. ring.
      * intros b Hb. rewrite <- (Hg b Hb). rewrite <- sum_mul_r. apply sum_ext; intros s _. rewrite <- sum_mul_r. apply sum_ext; intros a _. ring.
Qed.
End Count.

Section Entries.
Context {R : sring}.
Local Open Scope sr_scope.
Add Ring Rr : (s_th R).

Lemma suml_rev (l : list R) : suml (rev l) = suml l.
Proof. induction l as [|x l IH]; [reflexivity|]. cbn [rev]. rewrite suml_app, IH. cbn [suml fold_right]. ring. Qed.

Lemma suml_scale {X} (f : X -> R) c l : suml (map (fun x => c * f x) l) = c * suml (map f l).
Proof. induction l as [|x l IH]; cbn [map suml fold_right]; [ring|]. change (fold_right sadd 0 (map ?g l)) with (suml (map g l)). rewrite IH. ring. Qed.

Lemma suml_sum {X} (f : X -> nat -> R) n l : suml (map (fun x => sum n (f x)) l) = sum n (fun i => suml (map (fun x => f x i) l)).
Proof.
  induction l as [|x l IH]; cbn [map suml fold_right]; [now rewrite sum_0|]. change (fold_right sadd 0 (map ?g l)) with (suml (map g l)). rewrite IH, <- sum_add. reflexivity.
Qed.

(** a state is linear in each tensor *)
Lemma state_lin (P Q : list (site R)) (A X : site R) a s : chain 1 P a -> dl A = a -> chain (dr A) Q 1 -> same_shape A X -> incfg (dims (P ++ A :: Q)) s ->
  state (P ++ X :: Q) s = sum (phys A) (fun t => sum (dl A) (fun c => sum (dr A) (fun b => ent X t c b * state (P ++ unit_site A t c b :: Q) s))).
Proof.
  intros HP HA HQ (X1 & X2 & X3) Hs. unfold dims in Hs. rewrite map_app in Hs. cbn [map] in Hs. fold (dims P) (dims Q) in Hs.
  pose proof (Forall2_app_inv_r _ _ Hs) as (u & w & Hu & Hw & ->). inversion Hw as [|x p0 v ps Hx Hv]; subst. unfold state.
  pose proof (incfg_length _ _ Hu) as Lu. rewrite dims_length in Lu.
  assert (G : forall Y, dl Y = dl A -> dr Y = dr A -> amp (P ++ Y :: Q) (u ++ x :: v) 0 0 = sum (dl A) (fun c => sum (dr A) (fun b => amp P u 0 c * ent Y x c b * amp Q v b 0))).
  { intros Y Y1 Y2. rewrite (amp_app P (Y :: Q) u (x :: v) 0 (dl A) 1) by (auto; lia). apply sum_ext; intros c _. cbn [amp]. rewrite Y2, <- sum_mul_l. apply sum_ext; intros; ring. }
  rewrite G by assumption.
  transitivity (sum (phys A) (fun t => dlt x t * sum (dl A) (fun c => sum (dr A) (fun b => ent X t c b * (amp P u 0 c * amp Q v b 0))))).
  - rewrite (sum_dlt1 (phys A) x (fun t => sum (dl A) (fun c => sum (dr A) (fun b => ent X t c b * (amp P u 0 c * amp Q v b 0))))) by exact Hx.
    apply sum_ext; intros c _. apply sum_ext; intros b _. ring.
  - apply sum_ext; intros t Ht. rewrite <- sum_mul_l. apply sum_ext; intros c Hc. rewrite <- sum_mul_l. apply sum_ext; intros b Hb.
    rewrite G by reflexivity. cbn [unit_site ent].
    rewrite (sum_ext (dl A) _ (fun c' => dlt c c' * (dlt x t * (amp P u 0 c' * amp Q v b 0)))).
    + rewrite (sum_dlt1 (dl A) c (fun c' => dlt x t * (amp P u 0 c' * amp Q v b 0))) by exact Hc. ring.
    + intros c' _. rewrite (sum_ext (dr A) _ (fun b' => dlt b b' * (dlt x t * (dlt c c' * (amp P u 0 c' * amp Q v b' 0))))).
      * rewrite (sum_dlt1 (dr A) b (fun b' => dlt x t * (dlt c c' * (amp P u 0 c' * amp Q v b' 0)))) by exact Hb. ring.
      * intros b' _. rewrite (dlt_sym t x). ring.
Qed.

Lemma melem_sum du db dv n (f : nat -> list nat -> R) op g : 
  melem du db dv (fun s => sum n (fun i => f i s)) op g = sum n (fun i => melem du db dv (f i) op g).
Proof.
  unfold melem. rewrite <- sumcfg_sum. apply sumcfg_ext; intros u _. rewrite <- sumcfg_sum. apply sumcfg_ext; intros b _. rewrite <- sumcfg_sum. apply sumcfg_ext; intros b' _.
  rewrite <- sumcfg_sum. apply sumcfg_ext; intros v _. rewrite sum_conj, <- !sum_mul_r. reflexivity.
Qed.
Lemma melem_scale du db dv c (f : list nat -> R) op g : melem du db dv (fun s => c * f s) op g = sconj c * melem du db dv f op g.
Proof.
  unfold melem. rewrite <- sumcfg_mul_l. apply sumcfg_ext; intros u _. rewrite <- sumcfg_mul_l. apply sumcfg_ext; intros b _. rewrite <- sumcfg_mul_l. apply sumcfg_ext; intros b' _.
  rewrite <- sumcfg_mul_l. apply sumcfg_ext; intros v _. rewrite conj_mul. ring.
Qed.
Lemma melem_ext du db dv (f f' : list nat -> R) op g : (forall s, incfg (du ++ db ++ dv) s -> f s = f' s) -> melem du db dv f op g = melem du db dv f' op g.
Proof.
  intros H. unfold melem. apply sumcfg_ext; intros u Hu. apply sumcfg_ext; intros b Hb. apply sumcfg_ext; intros b' _. apply sumcfg_ext; intros v Hv.
  rewrite H; [reflexivity|]. apply Forall2_app; [exact Hu|]. apply Forall2_app; assumption.
Qed.

Lemma term_lin d (P Q : list (site R)) (A X : site R) a k h : chain 1 P a -> dl A = a -> chain (dr A) Q 1 -> same_shape A X ->
  dims (P ++ A :: Q) = repeat d (length (P ++ A :: Q)) -> (k + 2 <= length (P ++ A :: Q))%nat ->
  term_elem d (P ++ X :: Q) (P ++ A :: Q) k h
  = sum (phys A) (fun t => sum (dl A) (fun c => sum (dr A) (fun b => sconj (ent X t c b) * term_elem d (P ++ unit_site A t c b :: Q) (P ++ A :: Q) k h))).
Proof.
  intros HP HA HQ HX Hd Hk. unfold term_elem.
  rewrite (melem_ext _ _ _ (state (P ++ X :: Q)) (fun s => sum (phys A) (fun t => sum (dl A) (fun c => sum (dr A) (fun b => ent X t c b * state (P ++ unit_site A t c b :: Q) s))))).
  - rewrite melem_sum. apply sum_ext; intros t _. rewrite melem_sum. apply sum_ext; intros c _. rewrite melem_sum. apply sum_ext; intros b _. apply melem_scale.
  - intros s Hs. apply (state_lin P Q A X a); try assumption. rewrite Hd. replace (length (P ++ A :: Q)) with (k + (2 + (length (P ++ A :: Q) - k - 2)))%nat at 1 by lia.
    rewrite !repeat_app. exact Hs.
Qed.

Lemma with_site_at (P Q : list (site R)) A X : with_site (P ++ A :: Q) (length P) X = P ++ X :: Q.
Proof.
  unfold with_site. f_equal.
  - rewrite firstn_app, firstn_all, Nat.sub_diag. cbn. apply app_nil_r.
  - f_equal. replace (P ++ A :: Q) with ((P ++ [A]) ++ Q) by (rewrite <- app_assoc; reflexivity). replace (length P + 1)%nat with (length (P ++ [A])) by (rewrite app_length; reflexivity).
    rewrite skipn_app, skipn_all, Nat.sub_diag. reflexivity.
Qed.

Lemma in_combine_seq {X} (l : list X) k x : In (k, x) (combine (seq 0 (length l)) l) -> (k < length l)%nat /\ In x l.
Proof. intros H. split; [apply in_combine_l in H; apply in_seq in H; lia|apply in_combine_r in H; exact H]. Qed.

Lemma ham_lin d (P Q : list (site R)) (A X : site R) a H : chain 1 P a -> dl A = a -> chain (dr A) Q 1 -> same_shape A X ->
  dims (P ++ A :: Q) = repeat d (length (P ++ A :: Q)) -> (length H < length (P ++ A :: Q))%nat ->
  ham_elem d (P ++ X :: Q) (P ++ A :: Q) H
  = sum (phys A) (fun t => sum (dl A) (fun c => sum (dr A) (fun b => sconj (ent X t c b) * gradient d (P ++ A :: Q) H (length P) A t c b))).
Proof.
  intros HP HA HQ HX Hd Hk. unfold ham_elem, gradient.
  transitivity (suml (map (fun kh => sum (phys A) (fun t => sum (dl A) (fun c => sum (dr A) (fun b => sconj (ent X t c b) * term_elem d (P ++ unit_site A t c b :: Q) (P ++ A :: Q) (fst kh) (snd kh))))) (combine (seq 0 (length H)) H))).
  - apply suml_map_ext. intros [k h] Hkh. cbn [fst snd]. apply in_combine_seq in Hkh as [Hkh _]. apply (term_lin d P Q A X a); try assumption. lia.
  - rewrite suml_sum. apply sum_ext; intros t _. rewrite suml_sum. apply sum_ext; intros c _. rewrite suml_sum. apply sum_ext; intros b _.
    rewrite suml_scale. unfold ham_elem. rewrite with_site_at. reflexivity.
Qed.
End Entries.
