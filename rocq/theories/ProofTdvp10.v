(** The theorems about dA_dt. *)
From Verif Require Import Alg ModelMPS SpecMPS ProofMPS ModelOrth SpecOrth ModelNcon SpecNcon
  ModelEk SpecEk ModelNp ModelEnergy SpecEnergy ProofEnergy ModelTan SpecTan ProofTan ModelTdvp SpecTdvp ProofTdvp5 ProofTdvp6 ProofTdvp7 ProofTdvp8 ProofTdvp9.
Require Verif.SpecDecomp.

Section Final.
Context {R : sring}.
Local Open Scope sr_scope.
Variable K : tanlib R.
Variable S : setio.
Hypothesis HK : tanlib_ok K.
Hypothesis HS : setio_ok S.
Hypothesis Hchar : SpecDecomp.char0 R.
Variables (m : fmps R) (H ls rs : list (mat R)).
Hypothesis Hin : tdvp_input K m H ls rs.
Notation d := (fd m).
Notation facts := (facts K S HK HS Hchar m H ls rs Hin).
Notation main := (dA_dt_ok K S HK HS Hchar m H ls rs Hin).

Lemma dt_rates im e0 : exists m' e, dA_dt K S im m H None e0 = Ok (m', e) /\ length (fdata m') = length (fdata m) /\
  rev e = map (fun kh => bond_energy (fd m) m (fst kh) (snd kh)) (combine (seq 0 (length H)) H) /\
  forall P A Q, fdata m = P ++ A :: Q -> exists B pr V,
    nth_error (fdata m') (length P) = Some B /\ same_shape A B /\
    left_null_projector K S m (length P) (Some ls) None = Ok (pr, V) /\
    forall s a b, (s < fd m)%nat -> (a < dl A)%nat -> (b < dr A)%nat ->
      ent B s a b * true_r Q b b
      = - im * sum (fd m) (fun t => sum (dl A) (fun c => te pr [s; a; t; c] * gradient (fd m) (fdata m) H (length P) A t c b)).
Proof.
  destruct (main im e0) as (m' & E & HL & HB). eexists m', _. split; [exact E|]. split; [exact HL|]. split; [rewrite rev_involutive; reflexivity|].
  intros P A Q EA. destruct (facts P Q A EA) as (l & r0 & F & pr & V & HF). destruct (HB P Q A l r0 F pr V EA HF) as (B & EB & SB & VB). exists B, pr, V. split; [exact EB|]. split; [exact SB|]. split; [apply HF|exact VB].
Qed.

Section Given.
Variables (im : R) (e0 : list R) (m' : fmps R) (e : list R).
Hypothesis E : dA_dt K S im m H None e0 = Ok (m', e).
Lemma given : length (fdata m') = length (fdata m) /\ forall P Q A l r0 F pr V, fdata m = P ++ A :: Q -> site_facts K S m ls rs P Q A l r0 F pr V ->
    exists B, nth_error (fdata m') (length P) = Some B /\ rates m H P Q A B pr im.
Proof. destruct (main im e0) as (m'' & E' & HL & HB). rewrite E in E'. injection E' as <- _. auto. Qed.
End Given.

Lemma dt_gauge im e0 m' e : dA_dt K S im m H None e0 = Ok (m', e) ->
  forall P A Q B, fdata m = P ++ A :: Q -> nth_error (fdata m') (length P) = Some B ->
  forall b, (b < dr A)%nat -> left_gauge A (env_at P A) (fun s a => ent B s a b).
Proof.
  intros E P A Q B EA EB. destruct (given im e0 m' e E) as (HL & HB). destruct (facts P Q A EA) as (l & r0 & F & pr & V & HF). destruct (HB P Q A l r0 F pr V EA HF) as (B' & EB' & HR).
  assert (B' = B) by congruence. subst B'. exact (rate_gauge K S m H ls rs im P Q A l r0 F pr V B EA HF HR).
Qed.
Lemma dt_tdvp im e0 m' e : dA_dt K S im m H None e0 = Ok (m', e) ->
  forall P A Q X, fdata m = P ++ A :: Q -> same_shape A X ->
  (forall b, (b < dr A)%nat -> left_gauge A (env_at P A) (fun s a => ent X s a b)) ->
  sumcfg (repeat (fd m) (fL m)) (fun s => sconj (state (with_site (fdata m) (length P) X) s) * velocity (fdata m) (fdata m') s)
  = - im * ham_elem (fd m) (with_site (fdata m) (length P) X) (fdata m) H.
Proof. intros E P A Q X EA. destruct (given im e0 m' e E) as (HL & HB). exact (tdvp K S HK HS Hchar m H ls rs Hin im (fdata m') HL HB P Q A X EA). Qed.
Lemma dt_norm im e0 m' e : dA_dt K S im m H None e0 = Ok (m', e) ->
  sumcfg (repeat (fd m) (fL m)) (fun s => sconj (state (fdata m) s) * velocity (fdata m) (fdata m') s) = 0.
Proof. intros E. destruct (given im e0 m' e E) as (HL & HB). exact (norm_kept K S HK HS Hchar m H ls rs Hin im (fdata m') HL HB). Qed.
Lemma dt_energy im e0 m' e : dA_dt K S im m H None e0 = Ok (m', e) -> sconj im = - im -> Forall hermitian_op H ->
  ham_between (fd m) (fL m) (velocity (fdata m) (fdata m')) H (state (fdata m)) +
  ham_between (fd m) (fL m) (state (fdata m)) H (velocity (fdata m) (fdata m')) = 0.
Proof. intros E. destruct (given im e0 m' e E) as (HL & HB). exact (energy_kept K S HK HS Hchar m H ls rs Hin im (fdata m') HL HB). Qed.

Lemma dt_count P A Q : fdata m = P ++ A :: Q -> (Q = [] -> exists u, true_l (fdata m) 0 0 * u = 1) ->
  exists pr V, left_null_projector K S m (length P) (Some ls) None = Ok (pr, V) /\ (dr V + dr A = fd m * dl A)%nat.
Proof.
  intros EA HQ. destruct (facts P Q A EA) as (l & r0 & F & pr & V & HF). exists pr, V. split; [apply HF|].
  pose proof HF as (_ & C3 & _ & _ & _ & _ & _ & _ & _ & _ & _ & _ & _ & _ & _ & _ & _ & _ & _ & Hc & _).
  destruct Q as [|B Q].
  - destruct (HQ eq_refl) as (u & Hu). apply (Hc (fun _ => u)). intros b Hb. cbn in C3. assert (b = 0)%nat by lia. subst b. rewrite <- EA. exact Hu.
  - destruct (next_inv K S HK HS Hchar m H ls rs Hin P (B :: Q) A EA) as (u & Hu); [discriminate|]. exact (Hc u Hu).
Qed.
End Final.
