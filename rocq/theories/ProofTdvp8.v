(** Consequences: the gauge of the rates, the variational principle, conservation of norm and energy. *)
From Verif Require Import Alg ModelMPS SpecMPS ProofMPS ModelOrth SpecOrth ProofOrth ProofOrth2 ModelNcon SpecNcon
  ModelEk SpecEk ProofEk4 ModelNp ModelEnergy SpecEnergy ProofEnergy ModelTan SpecTan ProofTan ModelTdvp SpecTdvp ProofTdvp ProofTdvp2 ProofTdvp3 ProofTdvp4 ProofTdvp5 ProofTdvp6 ProofTdvp7.
Require Verif.SpecDecomp.

Section Ovl.
Context {R : sring}.
Local Open Scope sr_scope.
Add Ring Rr : (s_th R).

Lemma dims_app (p q : list (site R)) : dims (p ++ q) = dims p ++ dims q.
Proof. unfold dims. apply map_app. Qed.

Lemma overlap_split d (p q p' q' : list (site R)) a : chain 1 p a -> chain 1 p' a -> chain a q 1 -> chain a q' 1 -> length p' = length p -> length q' = length q ->
  dims (p ++ q) = repeat d (length (p ++ q)) ->
  overlap d (p ++ q) (p' ++ q') = sum a (fun x => sum a (fun x' => ovl_l p p' x x' * ovl_r q q' x' x)).
Proof.
  intros C1 C2 C3 C4 HL HQ Hd. unfold overlap, state. replace (length (p' ++ q')) with (length (p ++ q)) by (rewrite !app_length; lia). rewrite <- Hd, dims_app, sumcfg_app.
  pose proof (gram2 p [] q p' [] q' a a [] [] C1 eq_refl C3 C2 eq_refl C4 HL eq_refl eq_refl) as G. cbn [app] in G. rewrite G.
  apply sum_ext; intros x Hx. cbn [amp].
  transitivity (sum a (fun y => dlt x y * sum a (fun x' => ovl_l p p' x x' * ovl_r q q' x' y))).
  - apply sum_ext; intros y Hy. rewrite <- sum_mul_l. apply sum_ext; intros x' Hx'.
    rewrite (sum_diag a x'); [rewrite dlt_conj, dlt_eq; ring|exact Hx'|]. intros z Hz Hne. rewrite (dlt_neq x' z) by auto. ring.
  - rewrite (sum_diag a x); [rewrite dlt_eq; ring|exact Hx|]. intros z Hz Hne. rewrite (dlt_neq x z) by auto. ring.
Qed.

Lemma overlap_zero d (P Q Q' : list (site R)) (A X Y : site R) : chain 1 P (dl A) -> diag_on (dl A) (true_l P) -> chain (dr A) Q 1 -> chain (dr A) Q' 1 -> length Q' = length Q ->
  same_shape A X -> same_shape A Y -> dims (P ++ X :: Q) = repeat d (length (P ++ X :: Q)) ->
  (forall x y, (x < dr A)%nat -> (y < dr A)%nat -> sum (phys A) (fun s => sum (dl A) (fun c => sconj (ent X s c x) * true_l P c c * ent Y s c y)) = 0) ->
  overlap d (P ++ X :: Q) (P ++ Y :: Q') = 0.
Proof.
  intros C1 Dg C3 C4 HL (X1 & X2 & X3) (Y1 & Y2 & Y3) Hd HZ.
  replace (P ++ X :: Q) with ((P ++ [X]) ++ Q) in * by (rewrite <- app_assoc; reflexivity). replace (P ++ Y :: Q') with ((P ++ [Y]) ++ Q') by (rewrite <- app_assoc; reflexivity).
  rewrite (overlap_split d (P ++ [X]) Q (P ++ [Y]) Q' (dr A)); try assumption.
  - apply sum_zero; intros x Hx. apply sum_zero; intros y Hy. rewrite (ovl_l_snoc P P X Y (dl A) x y) by (try assumption; try reflexivity; lia).
    rewrite X1. rewrite (sum_ext (phys A) _ (fun s => sum (dl A) (fun c => sconj (ent X s c x) * true_l P c c * ent Y s c y))).
    + rewrite HZ by assumption. ring.
    + intros s _. apply sum_ext; intros c Hc. rewrite (sum_diag (dl A) c); [rewrite ovl_l_same; reflexivity|exact Hc|]. intros z Hz Hne. rewrite ovl_l_same, (Dg c z) by auto. ring.
  - apply chain_app. exists (dl A). split; [exact C1|]. split; assumption.
  - apply chain_app. exists (dl A). split; [exact C1|]. split; assumption.
  - rewrite !app_length. reflexivity.
Qed.

Lemma overlap_here d (P Q : list (site R)) (A X Y : site R) : chain 1 P (dl A) -> chain (dr A) Q 1 -> diag_on (dl A) (true_l P) -> diag_on (dr A) (true_r Q) ->
  same_shape A X -> same_shape A Y -> dims (P ++ X :: Q) = repeat d (length (P ++ X :: Q)) ->
  overlap d (P ++ X :: Q) (P ++ Y :: Q) = sum (phys A) (fun s => sum (dl A) (fun a => sum (dr A) (fun b => sconj (ent X s a b) * true_l P a a * (ent Y s a b * true_r Q b b)))).
Proof.
  intros C1 C3 Dl Dr (X1 & X2 & X3) (Y1 & Y2 & Y3) Hd.
  rewrite (overlap_split d P (X :: Q) P (Y :: Q) (dl A)); try assumption; try reflexivity.
  2: { split; [assumption|rewrite X3; assumption]. } 2: { split; [assumption|rewrite Y3; assumption]. }
  rewrite (sum_swap (phys A) (dl A) (fun s a => sum (dr A) (fun b => sconj (ent X s a b) * true_l P a a * (ent Y s a b * true_r Q b b)))).
  apply sum_ext; intros a Ha. rewrite (sum_diag (dl A) a); [|exact Ha|]. 2: { intros z Hz Hne. rewrite ovl_l_same, (Dl a z) by auto. ring. }
  rewrite ovl_l_same, ovl_r_cons, X1, X3, Y3, <- sum_mul_l. apply sum_ext; intros s _. rewrite <- sum_mul_l. apply sum_ext; intros b Hb.
  rewrite (sum_diag (dr A) b); [rewrite ovl_r_same; ring|exact Hb|]. intros z Hz Hne. rewrite ovl_r_same, (Dr b z) by auto. ring.
Qed.

Lemma gauge_diag P A (X : nat -> nat -> R) : diag_on (dl A) (true_l P) ->
  (left_gauge A (env_at P A) X <-> forall b, (b < dr A)%nat -> sum (phys A) (fun s => sum (dl A) (fun a => sconj (ent A s a b) * true_l P a a * X s a)) = 0).
Proof.
  intros Dg. assert (G : forall b, sum (phys A) (fun s => sum (dl A) (fun a => sum (dl A) (fun a' => sconj (ent A s a b) * me (env_at P A) a a' * X s a'))) =
    sum (phys A) (fun s => sum (dl A) (fun a => sconj (ent A s a b) * true_l P a a * X s a))).
  { intros b. apply sum_ext; intros s _. apply sum_ext; intros a Ha. cbn [env_at me]. rewrite (sum_diag (dl A) a); [reflexivity|exact Ha|]. intros z Hz Hne. rewrite (Dg a z) by auto. ring. }
  split; intros HG b Hb; [rewrite <- G|rewrite G]; apply HG; exact Hb.
Qed.

Lemma suml_only {X} (f : nat * X -> R) (l : list X) i x : nth_error l i = Some x -> (forall j y, nth_error l j = Some y -> j <> i -> f (j, y) = 0) ->
  suml (map f (combine (seq 0 (length l)) l)) = f (i, x).
Proof.
  intros Hi Hz.
  assert (G : forall l k i x, nth_error l i = Some x -> (forall j y, nth_error l j = Some y -> j <> i -> f ((k + j)%nat, y) = 0) -> suml (map f (combine (seq k (length l)) l)) = f ((k + i)%nat, x)).
  { clear. induction l as [|y l IH]; intros k i x Hi Hz; [destruct i; discriminate|]. cbn [length seq combine map suml fold_right]. change (fold_right sadd 0 (map ?g ?l)) with (suml (map g l)).
    destruct i as [|i].
    - injection Hi as ->. rewrite Nat.add_0_r. assert (E0 : forall l k', (forall j y, nth_error l j = Some y -> f ((k' + j)%nat, y) = 0) -> suml (map f (combine (seq k' (length l)) l)) = 0).
      { clear. induction l as [|y l IH]; intros k' Hz; [reflexivity|]. cbn [length seq combine map suml fold_right]. change (fold_right sadd 0 (map ?g ?l)) with (suml (map g l)).
        rewrite (IH (S k')). - specialize (Hz 0%nat y eq_refl). rewrite Nat.add_0_r in Hz. rewrite Hz. ring. - intros j z Hj. replace (S k' + j)%nat with (k' + S j)%nat by lia. apply Hz. exact Hj. }
      rewrite E0; [ring|]. intros j z Hj. replace (S k + j)%nat with (k + S j)%nat by lia. apply Hz; [exact Hj|lia].
    - rewrite (IH (S k) i x Hi). 2: { intros j z Hj Hne. replace (S k + j)%nat with (k + S j)%nat by lia. apply Hz; [exact Hj|lia]. }
      pose proof (Hz 0%nat y eq_refl ltac:(lia)) as Z0. rewrite Nat.add_0_r in Z0. rewrite Z0. replace (k + S i)%nat with (S k + i)%nat by lia. ring. }
  exact (G l 0%nat i x Hi Hz).
Qed.

Lemma suml_all0 {X} (f : nat * X -> R) (l : list X) : (forall j y, nth_error l j = Some y -> f (j, y) = 0) -> suml (map f (combine (seq 0 (length l)) l)) = 0.
Proof.
  intros Hz. destruct l as [|x l]; [reflexivity|]. rewrite (suml_only f (x :: l) 0 x eq_refl); [apply Hz; reflexivity|]. intros; apply Hz; assumption.
Qed.

Lemma sumcfg_suml {X} ds (f : X -> list nat -> R) l : sumcfg ds (fun s => suml (map (fun x => f x s) l)) = suml (map (fun x => sumcfg ds (f x)) l).
Proof.
  induction l as [|x l IH]; cbn [map suml fold_right]; [apply sumcfg_0|]. change (fold_right sadd 0 (map ?g ?l)) with (suml (map g l)).
  rewrite <- IH, <- sumcfg_add. reflexivity.
Qed.
Lemma suml_conj {X} (f : X -> R) l : sconj (suml (map f l)) = suml (map (fun x => sconj (f x)) l).
Proof. induction l as [|x l IH]; cbn [map suml fold_right]; [apply conj_0|]. change (fold_right sadd 0 (map ?g ?l)) with (suml (map g l)). rewrite conj_add, IH. reflexivity. Qed.
Lemma suml_plus {X} (f g : X -> R) l : suml (map f l) + suml (map g l) = suml (map (fun x => f x + g x) l).
Proof. induction l as [|x l IH]; cbn [map suml fold_right]; [ring|]. change (fold_right sadd 0 (map ?g ?l)) with (suml (map g l)). rewrite <- IH. ring. Qed.
Lemma suml_zero {X} (f : X -> R) l : (forall x, In x l -> f x = 0) -> suml (map f l) = 0.
Proof. induction l as [|x l IH]; intros H; cbn [map suml fold_right]; [reflexivity|]. change (fold_right sadd 0 (map ?g ?l)) with (suml (map g l)). rewrite IH, H by (try (left; reflexivity); intros; apply H; right; assumption). ring. Qed.
Lemma suml_swap {X Y} (f : X -> Y -> R) l l' : suml (map (fun x => suml (map (f x) l')) l) = suml (map (fun y => suml (map (fun x => f x y) l)) l').
Proof.
  induction l as [|x l IH]; cbn [map suml fold_right].
  - symmetry. apply suml_zero. intros; reflexivity.
  - change (fold_right sadd 0 (map ?g ?l)) with (suml (map g l)). rewrite IH, suml_plus. reflexivity.
Qed.

Lemma melem_suml {X} du db dv (f : X -> list nat -> R) op g l : 
  melem du db dv (fun s => suml (map (fun x => f x s) l)) op g = suml (map (fun x => melem du db dv (f x) op g) l).
Proof.
  unfold melem. rewrite <- sumcfg_suml. apply sumcfg_ext; intros u _. rewrite <- sumcfg_suml. apply sumcfg_ext; intros b _. rewrite <- sumcfg_suml. apply sumcfg_ext; intros b' _.
  rewrite <- sumcfg_suml. apply sumcfg_ext; intros v _. rewrite suml_conj.
  transitivity ((op b b' * g (u ++ b' ++ v)) * suml (map (fun x => sconj (f x (u ++ b ++ v))) l)); [ring|]. rewrite <- suml_scale. apply suml_map_ext. intros; ring.
Qed.

Lemma melem_conj du db dv (f : list nat -> R) op op' g : (forall b b', incfg db b -> incfg db b' -> op' b' b = sconj (op b b')) -> sconj (melem du db dv f op g) = melem du db dv g op' f.
Proof.
  intros Hop. unfold melem. rewrite sumcfg_conj. apply sumcfg_ext; intros u _. 
  transitivity (sumcfg db (fun b => sumcfg db (fun b' => sconj (sumcfg dv (fun v => sconj (f (u ++ b ++ v)) * op b b' * g (u ++ b' ++ v)))))).
  { rewrite sumcfg_conj. apply sumcfg_ext; intros b _. apply sumcfg_conj. }
  rewrite sumcfg_swap.
  apply sumcfg_ext; intros b' Hb'. apply sumcfg_ext; intros b Hb. rewrite sumcfg_conj. apply sumcfg_ext; intros v _. rewrite !conj_mul, conj_conj, (Hop b b') by assumption. ring.
Qed.
End Ovl.
