(** Proofs about the Runge-Kutta steps and the running means. *)
From Verif Require Import Alg ModelMPS SpecMPS ProofMPS2 ModelStruct ModelOrth ModelCanon ModelPad ModelTraj SpecTraj.

Section Proofs.
Context {R : sring}.
Local Open Scope sr_scope.
Add Ring Rr : (s_th R).

Lemma zip_ok : forall a b : list (site R), shapes a = shapes b ->
  exists l, mapM (fun ab => site_zip sadd (fst ab) (snd ab)) (pyzip a b) = Ok l /\ shapes l = shapes a /\
    forall p, entries l p = entries a p + entries b p.
Proof.
  induction a as [|A a IH]; intros [|B b] H; try discriminate.
  - exists []. split; [reflexivity|]. split; [reflexivity|]. intros [[[n s] i] j]. cbn. destruct n; cbn; ring.
  - cbn in H. injection H as H1 H2 H3 H4. destruct (IH b H4) as (l & E & Hs & He).
    unfold pyzip in *. cbn [combine mapM fst snd]. unfold site_zip at 1.
    rewrite H1, H2, H3, !Nat.eqb_refl. cbn [andb bind]. rewrite E. cbn [bind].
    eexists. split; [reflexivity|]. split; [cbn; rewrite H1, H2, H3; f_equal; exact Hs|].
    intros [[[[|n] s] i] j]; cbn; [reflexivity|]. exact (He (n, s, i, j)).
Qed.

Lemma scale_shapes c (l : list (site R)) : shapes (map (site_scale c) l) = shapes l.
Proof. unfold shapes. rewrite map_map. reflexivity. Qed.

Lemma scale_entries c (l : list (site R)) p : entries (map (site_scale c) l) p = c * entries l p.
Proof.
  destruct p as [[[n s] i] j]. cbn. rewrite nth_error_map. destruct (nth_error l n); cbn; [reflexivity|ring].
Qed.

Lemma shapes_nil (l : list (site R)) sh : shapes l = sh -> sh <> [] -> l <> [].
Proof. intros H Hn ->. cbn in H. congruence. Qed.

Lemma add_ok' sh (a b : fmps R) : sh <> [] -> shapes (fdata a) = sh -> shapes (fdata b) = sh ->
  exists m, itemwise_add a b = Ok m /\ shapes (fdata m) = sh /\
    forall p, entries (fdata m) p = entries (fdata a) p + entries (fdata b) p.
Proof.
  intros Hn Ha Hb. unfold itemwise_add. destruct (zip_ok (fdata a) (fdata b)) as (l & E & Hs & He); [congruence|].
  rewrite E. cbn [bind]. assert (Hl : l <> []) by (apply (shapes_nil l sh); congruence).
  destruct (init_ok l Hl) as (m & Em & Hd & _). exists m. rewrite Hd. split; [exact Em|]. split; [congruence|exact He].
Qed.

Lemma mul_ok' sh (a : fmps R) c : sh <> [] -> shapes (fdata a) = sh ->
  exists m, itemwise_mul a c = Ok m /\ shapes (fdata m) = sh /\
    forall p, entries (fdata m) p = c * entries (fdata a) p.
Proof.
  intros Hn Ha. unfold itemwise_mul.
  assert (Hl : map (site_scale c) (fdata a) <> []).
  { apply (shapes_nil _ sh); [rewrite scale_shapes; exact Ha|exact Hn]. }
  destruct (init_ok_d _ (fd a) Hl) as (m & Em & Hd & _). exists m. rewrite Hd. split; [exact Em|].
  rewrite scale_shapes. split; [exact Ha|]. intros p. apply scale_entries.
Qed.

Section Field.
Variables (sh : list (nat * nat * nat)) (F : (place -> R) -> place -> R) (dA : fmps R -> res (fmps R)).
Hypothesis HF : is_field sh F dA.
Hypothesis Hn : sh <> [].

(** dA_dt followed by a scaling *)
Lemma stage_ok (m : fmps R) dt : shapes (fdata m) = sh ->
  exists k, (do v <- dA m; itemwise_mul v dt) = Ok k /\ shapes (fdata k) = sh /\
    agree sh (entries (fdata k)) (fun p => dt * F (entries (fdata m)) p).
Proof.
  intros Hm. destruct HF as [_ H]. destruct (H m Hm) as (v & E & Hs & Ha). rewrite E. cbn [bind].
  destruct (mul_ok' sh v dt Hn Hs) as (k & Ek & Hk & He). exists k. split; [exact Ek|]. split; [exact Hk|].
  intros p Hp. rewrite He, (Ha p Hp). reflexivity.
Qed.

Lemma rk4_classical half sixth dt (m : fmps R) : shapes (fdata m) = sh ->
  exists m', rk4_point half sixth dA dt m = Ok m' /\ shapes (fdata m') = sh /\
    agree sh (entries (fdata m')) (classical_rk4 half sixth dt F (entries (fdata m))).
Proof.
  intros Hm. destruct HF as [Hc _].
  unfold rk4_point. destruct (stage_ok m dt Hm) as (k1 & E1 & S1 & A1). rewrite E1. cbn [bind].
  destruct (mul_ok' sh k1 half Hn S1) as (h1 & Eh1 & Sh1 & Ah1). rewrite Eh1. cbn [bind].
  destruct (add_ok' sh m h1 Hn Hm Sh1) as (p1 & Ep1 & Sp1 & Ap1). rewrite Ep1. cbn [bind].
  destruct (stage_ok p1 dt Sp1) as (k2 & E2 & S2 & A2). rewrite E2. cbn [bind].
  destruct (mul_ok' sh k2 half Hn S2) as (h2 & Eh2 & Sh2 & Ah2). rewrite Eh2. cbn [bind].
  destruct (add_ok' sh m h2 Hn Hm Sh2) as (p2 & Ep2 & Sp2 & Ap2). rewrite Ep2. cbn [bind].
  destruct (stage_ok p2 dt Sp2) as (k3 & E3 & S3 & A3). rewrite E3. cbn [bind].
  destruct (add_ok' sh m k3 Hn Hm S3) as (p3 & Ep3 & Sp3 & Ap3). rewrite Ep3. cbn [bind].
  destruct (stage_ok p3 dt Sp3) as (k4 & E4 & S4 & A4). rewrite E4. cbn [bind].
  destruct (mul_ok' sh k2 (1+1) Hn S2) as (t2 & Et2 & St2 & At2). rewrite Et2. cbn [bind].
  destruct (mul_ok' sh k3 (1+1) Hn S3) as (t3 & Et3 & St3 & At3). rewrite Et3. cbn [bind].
  destruct (add_ok' sh k1 t2 Hn S1 St2) as (s1 & Es1 & Ss1 & As1). rewrite Es1. cbn [bind].
  destruct (add_ok' sh s1 t3 Hn Ss1 St3) as (s2 & Es2 & Ss2 & As2). rewrite Es2. cbn [bind].
  destruct (add_ok' sh s2 k4 Hn Ss2 S4) as (s3 & Es3 & Ss3 & As3). rewrite Es3. cbn [bind].
  destruct (mul_ok' sh s3 sixth Hn Ss3) as (s4 & Es4 & Ss4 & As4). rewrite Es4. cbn [bind].
  destruct (add_ok' sh m s4 Hn Hm Ss4) as (m' & Em' & Sm' & Am').
  exists m'. split; [exact Em'|]. split; [exact Sm'|].
  unfold classical_rk4. set (x := entries (fdata m)) in *.
  set (K1 := F x) in *. set (K2 := F (fun p => x p + half * dt * K1 p)).
  set (K3 := F (fun p => x p + half * dt * K2 p)). set (K4 := F (fun p => x p + dt * K3 p)).
  assert (B2 : agree sh (F (entries (fdata p1))) K2).
  { apply Hc. intros p Hp. rewrite Ap1, Ah1, (A1 p Hp). fold x K1. ring. }
  assert (B3 : agree sh (F (entries (fdata p2))) K3).
  { apply Hc. intros p Hp. rewrite Ap2, Ah2, (A2 p Hp), (B2 p Hp). fold x. ring. }
  assert (B4 : agree sh (F (entries (fdata p3))) K4).
  { apply Hc. intros p Hp. rewrite Ap3, (A3 p Hp), (B3 p Hp). fold x. ring. }
  intros p Hp. rewrite Am', As4, As3, As2, As1, At2, At3, (A1 p Hp), (A2 p Hp), (A3 p Hp), (A4 p Hp),
    (B2 p Hp), (B3 p Hp), (B4 p Hp). fold x. fold K1. ring.
Qed.

End Field.

(** on a linear field: the Taylor polynomial *)
Lemma rk4_taylor sh (F : (place -> R) -> place -> R) half sixth dt x :
  (forall f g, agree sh f g -> agree sh (F f) (F g)) -> linear sh F ->
  (1 + 1) * half = 1 -> (1 + 1 + 1) * sixth = half ->
  agree sh (classical_rk4 half sixth dt F x)
    (fun p => x p + dt * F x p + half * (dt * dt) * F (F x) p + sixth * (dt * dt * dt) * F (F (F x)) p
              + half * half * sixth * (dt * dt * dt * dt) * F (F (F (F x))) p).
Proof.
  intros Hc [Hadd Hmul] Hh Hs. unfold classical_rk4.
  set (K1 := F x). set (K2 := F (fun p => x p + half * dt * K1 p)).
  set (K3 := F (fun p => x p + half * dt * K2 p)). set (K4 := F (fun p => x p + dt * K3 p)).
  assert (Hlin : forall c f, agree sh (F (fun p => x p + c * f p)) (fun p => K1 p + c * F f p)).
  { intros c f p Hp. rewrite (Hadd x (fun p => c * f p) p Hp), (Hmul c f p Hp). reflexivity. }
  assert (E2 : agree sh K2 (fun p => K1 p + half * dt * F K1 p)) by apply Hlin.
  assert (F2 : agree sh (F K2) (fun p => F K1 p + half * dt * F (F K1) p)).
  { intros p Hp. rewrite (Hc _ _ E2 p Hp), (Hadd K1 (fun p => half * dt * F K1 p) p Hp), (Hmul _ _ p Hp). reflexivity. }
  assert (E3 : agree sh K3 (fun p => K1 p + half * dt * (F K1 p + half * dt * F (F K1) p))).
  { intros p Hp. unfold K3. rewrite (Hlin _ _ p Hp), (F2 p Hp). reflexivity. }
  assert (F3 : agree sh (F K3) (fun p => F K1 p + half * dt * (F (F K1) p + half * dt * F (F (F K1)) p))).
  { intros p Hp. rewrite (Hc _ _ E3 p Hp).
    rewrite (Hadd K1 (fun p => half * dt * (F K1 p + half * dt * F (F K1) p)) p Hp), (Hmul _ _ p Hp).
    rewrite (Hadd (F K1) (fun p => half * dt * F (F K1) p) p Hp), (Hmul _ _ p Hp). reflexivity. }
  assert (E4 : agree sh K4 (fun p => K1 p + dt * (F K1 p + half * dt * (F (F K1) p + half * dt * F (F (F K1)) p)))).
  { intros p Hp. unfold K4. rewrite (Hlin _ _ p Hp), (F3 p Hp). reflexivity. }
  intros p Hp. rewrite (E2 p Hp), (E3 p Hp), (E4 p Hp).
  assert (H6 : (1+1) * ((1 + 1 + 1) * sixth) = 1) by (rewrite Hs; exact Hh).
  generalize (K1 p), (F K1 p), (F (F K1) p), (F (F (F K1)) p), (x p). intros a b c e y.
  transitivity (y + ((1+1) * ((1 + 1 + 1) * sixth)) * dt * a
     + ((1+1) * half + (1+1) * half + 1) * sixth * (dt*dt) * b
     + sixth * ((1 + 1) * half * half + half) * (dt*dt*dt) * c
     + half * half * sixth * (dt * dt * dt * dt) * e); [ring|].
  rewrite H6, Hh, Hs.
  replace (1 * half + half) with ((1 + 1) * half) by ring. rewrite Hh. ring.
Qed.

Lemma rk4_taylor_step sh F (dA : fmps R -> res (fmps R)) : is_field sh F dA -> sh <> [] -> linear sh F ->
  forall half sixth dt m, (1 + 1) * half = 1 -> (1 + 1 + 1) * sixth = half -> shapes (fdata m) = sh ->
  let x := entries (fdata m) in
  exists m', rk4_point half sixth dA dt m = Ok m' /\ shapes (fdata m') = sh /\
    agree sh (entries (fdata m'))
      (fun p => x p + dt * F x p + half * (dt * dt) * F (F x) p + sixth * (dt * dt * dt) * F (F (F x)) p
                + half * half * sixth * (dt * dt * dt * dt) * F (F (F (F x))) p).
Proof.
  intros HF Hn HL half sixth dt m Hh Hs Hm x.
  destruct (rk4_classical sh F dA HF Hn half sixth dt m Hm) as (m' & E & S' & A).
  exists m'. split; [exact E|]. split; [exact S'|]. intros p Hp. rewrite (A p Hp).
  apply (rk4_taylor sh F half sixth dt (entries (fdata m)) (proj1 HF) HL Hh Hs p Hp).
Qed.

(** running means *)
Lemma nth_map_lt {A B} (f : A -> B) l c a b : c < length l -> nth c (map f l) b = f (nth c l a).
Proof.
  intros H. rewrite (nth_indep _ b (f a)) by (rewrite map_length; exact H). apply map_nth.
Qed.

Lemma vadd_ok (u v : list R) : length u = length v -> exists r, vadd u v = Ok r /\ length r = length v /\
  forall c, c < length v -> nth c r 0 = nth c u 0 + nth c v 0.
Proof.
  intros H. assert (G : forall u v : list R, length u = length v ->
     let r := map (fun p => fst p + snd p) (combine u v) in length r = length v /\
     forall c, c < length v -> nth c r 0 = nth c u 0 + nth c v 0).
  { intros u' v' H'. cbn. split; [rewrite map_length, combine_length; lia|]. intros c Hc.
    rewrite (nth_map_lt _ _ _ (0,0)) by (rewrite combine_length; lia). rewrite combine_nth by exact H'. reflexivity. }
  destruct u as [|a [|a' u]].
  - destruct v; [|discriminate]. exists []. split; [reflexivity|]. split; [reflexivity|]. cbn. lia.
  - destruct v as [|b [|]]; try discriminate. eexists. split; [reflexivity|]. split; [reflexivity|].
    intros [|c] Hc; cbn in *; [reflexivity|lia].
  - destruct v as [|b [|b' v]]; try discriminate. cbn [vadd]. rewrite (proj2 (Nat.eqb_eq _ _) H).
    eexists. split; [reflexivity|]. apply G, H.
Qed.

Lemma vscale_nth k (u : list R) c : nth c (vscale k u) 0 = nth c u 0 * k.
Proof.
  unfold vscale. destruct (Nat.lt_ge_cases c (length u)) as [H|H].
  - apply (nth_map_lt (fun x => x * k)). exact H.
  - rewrite !nth_overflow by (try rewrite map_length; exact H). ring.
Qed.

Lemma mean_step_ok div n (e r : list R) : (n = 0%nat /\ e = [0]) \/ length e = length r ->
  exists e', mean_step div n e r = Ok e' /\ length e' = length r /\
  forall c, c < length r -> nth c e' 0 = (nth c e 0 * sofnat n + nth c r 0) * div n.
Proof.
  intros H. unfold mean_step. destruct H as [[-> ->]|H].
  - cbn [vscale map vadd bind]. eexists. split; [reflexivity|]. split; [unfold vscale; rewrite !map_length; reflexivity|].
    intros c Hc. rewrite vscale_nth, (nth_map_lt _ r c 0) by exact Hc.
    replace (nth c [0] 0) with (0 : R) by (destruct c as [|[|c]]; reflexivity). reflexivity.
  - destruct (vadd_ok (vscale (sofnat n) e) r) as (s & E & Hl & Hn); [unfold vscale; rewrite map_length; exact H|].
    rewrite E. cbn [bind]. eexists. split; [reflexivity|]. split; [unfold vscale; rewrite map_length; exact Hl|].
    intros c Hc. rewrite vscale_nth, (Hn c Hc), vscale_nth. reflexivity.
Qed.

(** estimates E are the running means of the rates f over the first n steps *)
Definition means (w : nat) (f : nat -> nat -> R) (n : nat) (E : list (list R)) : Prop :=
  length E = S n /\ nth 0 E [] = [0] /\
  forall m, m < n -> length (nth (S m) E []) = w /\
    forall c, c < w -> sofnat (S m) * nth c (nth (S m) E []) 0 = sum (S m) (fun k => f k c).

Lemma last_item_nth' {A} (l : list A) n d : length l = S n -> last_item l = Ok (nth n l d).
Proof.
  intros H. destruct (exists_last (l := l)) as (l' & x & ->); [intros ->; discriminate|].
  unfold last_item. rewrite rev_app_distr. cbn. rewrite app_length in H. cbn in H.
  rewrite app_nth2 by lia. replace (n - length l')%nat with 0%nat by lia. reflexivity.
Qed.

Lemma means_step w f div n E r : (forall m, sofnat (S m) * div m = 1) -> means w f n E ->
  length r = w -> (forall c, c < w -> nth c r 0 = f n c) ->
  exists e e', last_item E = Ok e /\ mean_step div n e r = Ok e' /\ means w f (S n) (E ++ [e']).
Proof.
  intros Hd (H1 & H2 & H3) Hr Hf. exists (nth n E []).
  destruct (mean_step_ok div n (nth n E []) r) as (e' & E' & Hl & Hn).
  { destruct n as [|n]; [left; auto|]. right. destruct (H3 n) as [H4 _]; [lia|]. congruence. }
  exists e'. split; [apply last_item_nth'; exact H1|]. split; [exact E'|].
  split; [rewrite app_length; cbn; lia|]. split; [rewrite app_nth1 by lia; exact H2|].
  intros m Hm. destruct (Nat.eq_dec m n) as [->|Hne].
  - rewrite app_nth2 by lia. rewrite H1, Nat.sub_diag. cbn [nth]. split; [congruence|].
    intros c Hc. rewrite Hn by lia. rewrite Hf by exact Hc.
    assert (Hs : sofnat n * nth c (nth n E []) 0 = sum n (fun k => f k c)).
    { destruct n as [|n]; [cbn; ring|]. apply (proj2 (H3 n ltac:(lia))), Hc. }
    transitivity ((sofnat (S n) * div n) * (sofnat n * nth c (nth n E []) 0 + f n c)); [ring|].
    rewrite Hd, Hs. cbn. ring.
  - rewrite app_nth1 by lia. apply H3. lia.
Qed.

Lemma lyap_loop_ok w half div : (forall m, sofnat (S m) * div m = 1) ->
  forall rs pre, Forall (fun p => length (fst p) = w /\ length (snd p) = w) (pre ++ rs) ->
  let f := fun k c => nth c (fst (nth k (pre ++ rs) ([], []))) 0 in
  let g := fun k c => (nth c (fst (nth k (pre ++ rs) ([], []))) 0 + nth c (snd (nth k (pre ++ rs) ([], []))) 0) * half in
  forall lys exps lys_ exps_, means w f (length pre) exps -> means w g (length pre) exps_ ->
  lys = map fst pre ->
  exists exps' lys_' exps_', lyap_loop half div (length pre) rs lys exps lys_ exps_
      = Ok (map fst (pre ++ rs), exps', (lys_', exps_')) /\
    means w f (length (pre ++ rs)) exps' /\ means w g (length (pre ++ rs)) exps_'.
Proof.
  intros Hd. induction rs as [|[r r_] rs IH]; intros pre HF f g lys exps lys_ exps_ M1 M2 Hl.
  - exists exps, lys_, exps_. rewrite app_nil_r in *. subst lys. auto.
  - assert (Hr : length r = w /\ length r_ = w).
    { rewrite Forall_forall in HF. apply (HF (r, r_)). apply in_or_app. right. left. reflexivity. }
    destruct Hr as [Hr Hr_].
    assert (Hk : nth (length pre) (pre ++ (r, r_) :: rs) ([], []) = (r, r_))
      by (rewrite app_nth2, Nat.sub_diag by lia; reflexivity).
    cbn [lyap_loop].
    destruct (means_step w f div (length pre) exps r Hd M1 Hr) as (e & e' & X1 & X2 & X3).
    { intros c Hc. unfold f. rewrite Hk. reflexivity. }
    rewrite X1. cbn [bind]. rewrite X2. cbn [bind].
    destruct (vadd_ok r r_) as (q & Q1 & Q2 & Q3); [congruence|]. rewrite Q1. cbn [bind].
    destruct (means_step w g div (length pre) exps_ (vscale half q) Hd M2) as (e_ & e_' & Y1 & Y2 & Y3).
    { unfold vscale. rewrite map_length. congruence. }
    { intros c Hc. unfold g. rewrite Hk, vscale_nth, Q3 by congruence. reflexivity. }
    rewrite Y1. cbn [bind]. rewrite Y2. cbn [bind].
    assert (Happ : (pre ++ [(r, r_)]) ++ rs = pre ++ (r, r_) :: rs) by (rewrite <- app_assoc; reflexivity).
    assert (Hlen : length (pre ++ [(r, r_)]) = S (length pre)) by (rewrite app_length; cbn; lia).
    specialize (IH (pre ++ [(r, r_)])). rewrite Happ, Hlen in IH.
    apply IH; [exact HF|exact X3|exact Y3|]. rewrite map_app, Hl. reflexivity.
Qed.

Lemma lyapunov_ok w half div (rs : list (list R * list R)) :
  (forall m, sofnat (S m) * div m = 1) ->
  Forall (fun p => length (fst p) = w /\ length (snd p) = w) rs ->
  exists exps lys_ exps_, lyapunov half div rs = Ok (map fst rs, exps, (lys_, exps_)) /\
    length exps = S (length rs) /\ length exps_ = S (length rs) /\
    forall n, n < length rs ->
      length (nth (S n) exps []) = w /\ length (nth (S n) exps_ []) = w /\
      forall c, c < w ->
        sofnat (S n) * nth c (nth (S n) exps []) 0 = sum (S n) (fun k => nth c (fst (nth k rs ([], []))) 0) /\
        sofnat (S n) * nth c (nth (S n) exps_ []) 0
          = sum (S n) (fun k => (nth c (fst (nth k rs ([], []))) 0 + nth c (snd (nth k rs ([], []))) 0) * half).
Proof.
  intros Hd HF.
  assert (M0 : forall f : nat -> nat -> R, means w f 0 [[0]]).
  { intros f. split; [reflexivity|]. split; [reflexivity|]. intros m Hm. lia. }
  destruct (lyap_loop_ok w half div Hd rs [] HF [] [[0]] [] [[0]]) as (exps & lys_ & exps_ & E & M1 & M2);
    [apply M0|apply M0|reflexivity|].
  exists exps, lys_, exps_. split; [exact E|]. destruct M1 as (A1 & A2 & A3), M2 as (B1 & B2 & B3).
  split; [exact A1|]. split; [exact B1|]. intros n Hn. destruct (A3 n Hn) as [C1 C2]. destruct (B3 n Hn) as [D1 D2].
  split; [exact C1|]. split; [exact D1|]. intros c Hc. split; [exact (C2 c Hc)|exact (D2 c Hc)].
Qed.

End Proofs.
