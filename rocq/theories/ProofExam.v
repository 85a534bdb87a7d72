(** The example states. *)
From Verif Require Import Alg ModelMPS SpecMPS ModelPad ModelNcon ModelTensor ModelSpin ModelOrth SpecOrth ModelCanon SpecCanon ModelTraj ProofMPS ProofOrth ProofCanon3 ProofMatch2 ModelExam SpecExam.

Section P.
Context {R : sring}.
Local Open Scope sr_scope.
Add Ring Rr : (s_th R).
Variable O : lapack2 R.
Hypothesis HS : svd_ok O.
Hypothesis HE : eig_ok O.
Hypothesis HZ : eig_zeros_last O.
Hypothesis HD : @definite R.
Hypothesis HI : @integral R.
Hypothesis H10 : (1:R) <> 0.

Lemma canon_two (l : list (site R)) m : fMPS_init l (Some 2%nat) None = Ok m -> closed l -> dims l = [2; 2]%nat -> (exists s, incfg [2; 2]%nat s /\ amp l s 0 0 <> 0) ->
  match lcan O m None with
  | Err e => e = LinAlgError
  | Ok m' => wf m' /\ dims (fdata m') = [2; 2]%nat /\ fL m' = 2%nat /\ fd m' = 2%nat /\ Forall left_iso (fdata m') /\
      normalised_of (inner2 (fun s => amp l s 0 0) (fun s => amp l s 0 0)) (fun s => amp l s 0 0) (psi m')
  end.
Proof.
  intros Em Hc Hd (s0 & Hs0 & Hne). unfold fMPS_init in Em. cbn [bind] in Em. destruct (max_bond l) as [Dm|e]; cbn [bind] in Em; [|discriminate]. injection Em as <-.
  set (m := mkF _ _ _ _ _ _ _ _). assert (Hl : length l = 2%nat) by (apply (f_equal (@length nat)) in Hd; now rewrite dims_length in Hd).
  assert (W : wf m) by (split; [exact Hc|split; [reflexivity|cbn; destruct l; [discriminate|congruence]]]).
  assert (U : uniform m). { unfold uniform, m. cbn. unfold dims in Hd. destruct l as [|A [|B [|]]]; try discriminate. injection Hd as H1 H2. repeat constructor; assumption. }
  pose proof (left_can_back O m None HS HE HZ HD HI H10 W U ltac:(cbn; lia)) as G.
  assert (K : keeps_something_r None m) by (right; split; [exact I|]; exists s0; split; [change (dims (fdata m)) with (dims l); rewrite Hd; exact Hs0|exact Hne]). specialize (G K).
  unfold lcan. destruct (left_canonicalise O m None true true) as [[m' [Ls|]]|e]; cbn [bind fst]; [|contradiction|exact G].
  destruct G as (W' & Hd' & HL & Hfd & _ & _ & _ & Hi & _ & (X & _ & _ & _ & HX) & _). destruct (HX I) as (w & Hw & Hp).
  unfold m in Hd', HL, Hfd, Hp. cbn [fdata fL fd] in Hd', HL, Hfd, Hp. rewrite Hd in Hd', Hp.
  split; [exact W'|]. split; [exact Hd'|]. split; [congruence|]. split; [exact Hfd|]. split; [exact Hi|].
  assert (N : inner2 (psi m') (psi m') = 1).
  { pose proof (left_isos_orthonormal (fdata m') 1 1 (proj1 W') Hi 0 0 ltac:(lia) ltac:(lia)) as E. rewrite Hd' in E. cbn [sum] in E. rewrite dlt_eq in E.
    unfold inner2. rewrite <- E. unfold psi. ring. }
  split; [exact N|]. exists (me X 0%nat 0%nat * w). split.
  - unfold inner2. rewrite (sumcfg_ext _ _ (fun s => (me X 0%nat 0%nat * w * sconj (me X 0%nat 0%nat * w)) * (sconj (psi m' s) * psi m' s))).
    + rewrite sumcfg_mul_l. unfold inner2 in N. rewrite N. ring.
    + intros s Hs. unfold psi in Hp at 1. cbn [fdata] in Hp. rewrite (Hp s Hs), conj_mul. ring.
  - intros s Hs. unfold psi in Hp at 1. cbn [fdata] in Hp. rewrite (Hp s Hs). ring.
Qed.

(** multiples *)
Lemma normalised_ext (n : R) f f' g : (forall s, incfg [2; 2]%nat s -> f' s = f s) -> normalised_of n f g -> normalised_of n f' g.
Proof. intros H (N & c & Hc & Hp). split; [exact N|]. exists c. split; [exact Hc|]. intros s Hs. rewrite H by exact Hs. now apply Hp. Qed.
Lemma normalised_neg (n : R) f f' g : (forall s, incfg [2; 2]%nat s -> f' s = - f s) -> normalised_of n f g -> normalised_of n f' g.
Proof. intros H (N & c & Hc & Hp). split; [exact N|]. exists (- c). split; [rewrite conj_opp, <- Hc; ring|]. intros s Hs. rewrite H, Hp by exact Hs. ring. Qed.

Lemma cfg22 s : incfg [2; 2]%nat s -> exists x y, s = [x; y] /\ (x < 2)%nat /\ (y < 2)%nat.
Proof. intros H. inversion H as [|x ? u ? Hx Hu]; subst. inversion Hu as [|y ? v ? Hy Hv]; subst. inversion Hv; subst. eauto. Qed.
Ltac each := intros s Hs; destruct (cfg22 s Hs) as (x & y & -> & Hx & Hy); destruct x as [|[|x]]; try lia; destruct y as [|[|y]]; try lia; cbn.

Lemma conj_m1 : sconj (- (1)) = - (1) :> R. Proof. now rewrite conj_opp, conj_1. Qed.

Lemma bell_ok i : (1 <= i <= 4)%nat ->
  match bell O i with
  | Err e => e = LinAlgError
  | Ok None => False
  | Ok (Some m') => wf m' /\ dims (fdata m') = [2; 2]%nat /\ fL m' = 2%nat /\ fd m' = 2%nat /\ Forall left_iso (fdata m') /\ normalised_of (1 + 1) (bell_doc i) (psi m')
  end.
Proof.
  intros Hi. unfold bell. destruct (bell_data i) as [l|] eqn:El; [|destruct i as [|[|[|[|[|]]]]]; try discriminate; lia].
  assert (Hm : exists m, fMPS_init l (Some 2%nat) None = Ok m) by (destruct i as [|[|[|[|[|]]]]]; try discriminate; injection El as <-; eexists; reflexivity).
  destruct Hm as (m & Em). rewrite Em. cbn [bind].
  assert (Hc : closed l) by (destruct i as [|[|[|[|[|]]]]]; try discriminate; injection El as <-; repeat split).
  assert (Hd : dims l = [2; 2]%nat) by (destruct i as [|[|[|[|[|]]]]]; try discriminate; injection El as <-; reflexivity).
  assert (Hv : exists sg : bool, forall s, incfg [2; 2]%nat s -> bell_doc i s = if sg then - amp l s 0 0 else amp l s 0 0).
  { destruct i as [|[|[|[|[|]]]]]; try discriminate; injection El as <-; [exists false|exists true|exists false|exists false]; each; unfold dlt; cbn; ring. }
  destruct Hv as (sg & Hv).
  assert (Hn : inner2 (fun s => amp l s 0 0) (fun s => amp l s 0 0) = 1 + 1).
  { transitivity (inner2 (R := R) (bell_doc i) (bell_doc i)).
    - unfold inner2. apply sumcfg_ext. intros s Hs. rewrite (Hv s Hs). destruct sg; rewrite ?conj_opp; ring.
    - destruct i as [|[|[|[|[|]]]]]; try lia; cbn; rewrite ?conj_m1, ?conj_0, ?conj_1; ring. }
  assert (Hne : exists s, incfg [2; 2]%nat s /\ amp l s 0 0 <> 0).
  { exists (if Nat.leb i 2 then [1; 1]%nat else [1; 0]%nat). split; [destruct (Nat.leb i 2); repeat constructor|]. intros K.
    pose proof (Hv (if Nat.leb i 2 then [1; 1]%nat else [1; 0]%nat) ltac:(destruct (Nat.leb i 2); repeat constructor)) as V. rewrite K in V.
    apply H10. destruct i as [|[|[|[|[|]]]]]; try lia; cbn in V; rewrite V; destruct sg; ring. }
  pose proof (canon_two l m Em Hc Hd Hne) as G. destruct (lcan O m None) as [m'|e]; cbn [bind]; [|exact G].
  destruct G as (G1 & G2 & G3 & G4 & G5 & G6). rewrite Hn in G6. repeat (split; [assumption|]).
  destruct sg; [apply (normalised_neg _ (fun s => amp l s 0 0))|apply (normalised_ext _ (fun s => amp l s 0 0))]; try exact G6; exact Hv.
Qed.

Lemma inner_of (n n' : R) f f' g g' : normalised_of n f g -> normalised_of n' f' g' -> n <> 0 -> n' <> 0 -> inner2 f f' = 0 -> inner2 g g' = 0.
Proof.
  intros (_ & c & Hc & Hp) (_ & c' & Hc' & Hp') Hn Hn' H0.
  assert (E : inner2 f f' = sconj c * c' * inner2 g g').
  { unfold inner2. rewrite <- sumcfg_mul_l. apply sumcfg_ext. intros s Hs. rewrite Hp, Hp', conj_mul by exact Hs. ring. }
  rewrite H0 in E. destruct (HI (sconj c * c') (inner2 g g')) as [K|K]; [now rewrite <- E| |exact K].
  exfalso. destruct (HI _ _ K) as [K'|K']; [apply Hn|apply Hn']; [rewrite <- Hc, K'; ring|rewrite <- Hc', K'; ring].
Qed.

Lemma two_ne : (1 + 1 : R) <> 0.
Proof. intros K. apply H10. apply (HD 2%nat (fun _ => 1)) with (i := 0%nat); [|lia]. cbn. rewrite conj_1. transitivity (1 + 1 : R); [ring|exact K]. Qed.

Lemma bell_orth i j a b : (1 <= i <= 4)%nat -> (1 <= j <= 4)%nat -> i <> j -> bell O i = Ok (Some a) -> bell O j = Ok (Some b) -> inner2 (psi a) (psi b) = 0.
Proof.
  intros Hi Hj Hij Ea Eb. pose proof (bell_ok i Hi) as Ga. pose proof (bell_ok j Hj) as Gb. rewrite Ea in Ga. rewrite Eb in Gb.
  apply (inner_of (1 + 1) (1 + 1) (bell_doc i) (bell_doc j)); [apply Ga|apply Gb|exact two_ne|exact two_ne|].
  destruct i as [|[|[|[|[|]]]]]; try lia; destruct j as [|[|[|[|[|]]]]]; try lia; cbn; rewrite ?conj_m1, ?conj_0, ?conj_1; ring.
Qed.

(** ** comp_x *)
Variable im : R.
Hypothesis Him : im * im = - (1).
Definition cx_minus (i : nat) : bool * bool := match i with 1%nat => (false, false) | 2%nat => (false, true) | 3%nat => (true, false) | _ => (true, true) end.
Lemma comp_x_ok i : (1 <= i <= 4)%nat ->
  match comp_x O im i with
  | Err e => e = LinAlgError
  | Ok m' => wf m' /\ dims (fdata m') = [2; 2]%nat /\ fL m' = 2%nat /\ fd m' = 2%nat /\ Forall left_iso (fdata m') /\
      normalised_of ((1 + 1) * (1 + 1)) (pm (fst (cx_minus i)) (snd (cx_minus i))) (psi m')
  end.
Proof.
  intros Hi. unfold comp_x. set (l := comp_x_data im i).
  assert (Hm : exists m, fMPS_init l (Some 2%nat) None = Ok m) by (unfold l; destruct i as [|[|[|[|[|]]]]]; try lia; eexists; reflexivity).
  destruct Hm as (m & Em). rewrite Em. cbn [bind].
  assert (Hc : closed l) by (unfold l; destruct i as [|[|[|[|[|]]]]]; try lia; repeat split).
  assert (Hd : dims l = [2; 2]%nat) by (unfold l; destruct i as [|[|[|[|[|]]]]]; try lia; reflexivity).
  assert (Hv : exists sg : bool, forall s, incfg [2; 2]%nat s -> pm (fst (cx_minus i)) (snd (cx_minus i)) s = if sg then - amp l s 0 0 else amp l s 0 0).
  { unfold l. destruct i as [|[|[|[|[|]]]]]; try lia; [exists false|exists true|exists false|exists false]; each; unfold dlt; cbn; ring [Him]. }
  destruct Hv as (sg & Hv).
  assert (Hn : inner2 (fun s => amp l s 0 0) (fun s => amp l s 0 0) = (1 + 1) * (1 + 1)).
  { transitivity (inner2 (R := R) (pm (fst (cx_minus i)) (snd (cx_minus i))) (pm (fst (cx_minus i)) (snd (cx_minus i)))).
    - unfold inner2. apply sumcfg_ext. intros s Hs. rewrite (Hv s Hs). destruct sg; rewrite ?conj_opp; ring.
    - destruct i as [|[|[|[|[|]]]]]; try lia; cbn; rewrite ?conj_mul, ?conj_m1, ?conj_0, ?conj_1; ring. }
  assert (Hne : exists s, incfg [2; 2]%nat s /\ amp l s 0 0 <> 0).
  { exists [0; 0]%nat. split; [repeat constructor|]. intros K. pose proof (Hv [0; 0]%nat ltac:(repeat constructor)) as V. rewrite K in V.
    apply H10. cbn in V. transitivity (1 * 1 : R); [ring|]. rewrite V. destruct sg; ring. }
  pose proof (canon_two l m Em Hc Hd Hne) as G. destruct (lcan O m None) as [m'|e]; cbn [bind]; [|exact G].
  destruct G as (G1 & G2 & G3 & G4 & G5 & G6). rewrite Hn in G6. repeat (split; [assumption|]).
  destruct sg; [apply (normalised_neg _ (fun s => amp l s 0 0))|apply (normalised_ext _ (fun s => amp l s 0 0))]; try exact G6; exact Hv.
Qed.

Lemma comp_x_orth i j a b : (1 <= i <= 4)%nat -> (1 <= j <= 4)%nat -> i <> j -> comp_x O im i = Ok a -> comp_x O im j = Ok b -> inner2 (psi a) (psi b) = 0.
Proof.
  intros Hi Hj Hij Ea Eb. pose proof (comp_x_ok i Hi) as Ga. pose proof (comp_x_ok j Hj) as Gb. rewrite Ea in Ga. rewrite Eb in Gb.
  assert (N4 : (1 + 1) * (1 + 1) <> (0 : R)) by (intros K; destruct (HI _ _ K); now apply two_ne).
  apply (inner_of ((1 + 1) * (1 + 1)) ((1 + 1) * (1 + 1)) (pm (fst (cx_minus i)) (snd (cx_minus i))) (pm (fst (cx_minus j)) (snd (cx_minus j)))); [apply Ga|apply Gb|exact N4|exact N4|].
  destruct i as [|[|[|[|[|]]]]]; try lia; destruct j as [|[|[|[|[|]]]]]; try lia; cbn; rewrite ?conj_mul, ?conj_m1, ?conj_0, ?conj_1; ring.
Qed.

(** the documentation of comp_x(2) and comp_x(3) is exchanged *)
Lemma comp_x_doc a : comp_x O im 2 = Ok a -> ~ exists c, forall s, incfg [2; 2]%nat s -> psi a s = c * pm true false s.
Proof.
  intros Ea (c & Hc). pose proof (comp_x_ok 2 ltac:(lia)) as G. rewrite Ea in G. destruct G as (_ & _ & _ & _ & _ & N & k & Hk & Hp).
  cbn [cx_minus fst snd] in Hp.
  assert (I0 : incfg [2; 2]%nat [0; 0]%nat) by (repeat constructor). assert (I1 : incfg [2; 2]%nat [1; 0]%nat) by (repeat constructor).
  pose proof (Hp _ I0) as P0. pose proof (Hp _ I1) as P1. rewrite (Hc _ I0) in P0. rewrite (Hc _ I1) in P1. cbn in P0, P1.
  apply two_ne. transitivity (1 * 1 + 1 * 1 : R); [ring|]. etransitivity; [exact (f_equal2 (@sadd R) P0 P1)|ring].
Qed.
End P.

Section Z.
Context {R : sring}.
Local Open Scope sr_scope.
Add Ring Rr2 : (s_th R).
Lemma comp_z_ok a b : (a < 2)%nat -> (b < 2)%nat -> exists m : fmps R, comp_z (a * 2 + b + 1) = Ok m /\ wf m /\ uniform m /\ fL m = 2%nat /\ fd m = 2%nat /\ fD m = 2%nat /\
  forall s, incfg [2; 2]%nat s -> psi m s = if list_eq_dec Nat.eq_dec s [a; b] then 1 else 0.
Proof.
  intros Ha Hb. destruct a as [|[|a]]; try lia; destruct b as [|[|b]]; try lia; eexists; (split; [reflexivity|]);
  (split; [split; [repeat split|split; [reflexivity|discriminate]]|]); (split; [repeat constructor|]); repeat (split; [reflexivity|]);
  intros s Hs; inversion Hs as [|x ? u ? Hx Hu]; subst; inversion Hu as [|y ? v ? Hy Hv]; subst; inversion Hv; subst;
  destruct x as [|[|x]]; try lia; destruct y as [|[|y]]; try lia; cbn; unfold dlt; cbn; ring.
Qed.
End Z.
