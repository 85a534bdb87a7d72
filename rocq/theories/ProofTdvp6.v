(** The loop over the terms and the whole of dA_dt. *)
From Verif Require Import Alg ModelMPS SpecMPS ProofMPS ModelOrth SpecOrth ProofOrth ProofOrth2 ModelNcon SpecNcon
  ModelEk SpecEk ProofEk4 ModelNp ModelEnergy SpecEnergy ProofEnergy ModelTan SpecTan ProofTan ModelTdvp SpecTdvp ProofTdvp ProofTdvp2 ProofTdvp3 ProofTdvp4 ProofTdvp5.
Require Verif.SpecDecomp.

Section Loop.
Context {R : sring}.
Local Open Scope sr_scope.
Add Ring Rr : (s_th R).
Variable K : tanlib R.
Variable S : setio.
Hypothesis HK : tanlib_ok K.
Hypothesis HS : setio_ok S.
Hypothesis Hchar : SpecDecomp.char0 R.
Variables (m : fmps R) (H ls rs : list (mat R)).
Hypothesis Hin : tdvp_input K m H ls rs.
Notation d := (fd m).

Lemma Hwf : closed (fdata m). Proof. apply Hin. Qed.
Lemma HL : fL m = length (fdata m). Proof. apply Hin. Qed.
Lemma Hun : Forall (fun A => phys A = d) (fdata m). Proof. apply Hin. Qed.
Lemma Hdg : envs_diagonal (fdata m). Proof. apply Hin. Qed.
Lemma Hen : forall p q, fdata m = p ++ q -> exists l r a, nth_error ls (length p) = Some l /\ nth_error rs (length p) = Some r /\
      chain 1 p a /\ chain a q 1 /\ is_env l a (true_l p) /\ is_env r a (true_r q).
Proof.
  destruct (get_envs_ok m Hwf Hdg) as (ls' & rs' & E & HE). destruct Hin as (_ & _ & _ & _ & _ & E' & _). rewrite E in E'. injection E' as -> ->. exact HE.
Qed.

(** everything known at a site *)
Definition site_facts (P Q : list (site R)) (A : site R) (l r0 F : mat R) (pr : tens R) (V : site R) : Prop :=
  chain 1 P (dl A) /\ chain (dr A) Q 1 /\ diag_on (dl A) (true_l P) /\ diag_on (dr A) (true_r Q) /\
  dims P = repeat d (length P) /\ dims Q = repeat d (length Q) /\ phys A = d /\ (0 < d /\ 0 < dl A /\ 0 < dr A)%nat /\
  nth_error ls (length P) = Some l /\ is_env l (dl A) (true_l P) /\ nth_error rs (length P + 1) = Some r0 /\ is_env r0 (dr A) (true_r Q) /\ t_inv K r0 = Ok F /\
  (forall b j, (b < dr A)%nat -> (j < dr A)%nat -> true_r Q b b * me F b j = dlt b j) /\
  left_null_projector K S m (length P) (Some ls) None = Ok (pr, V) /\ tsh pr = [d; dl A; d; dl A] /\
  (forall s a t c, (a < dl A)%nat -> (c < dl A)%nat -> te pr [s; a; t; c] = sconj (te pr [t; c; s; a])) /\
  (forall t c y, (c < dl A)%nat -> (y < dr A)%nat -> sum d (fun s => sum (dl A) (fun a => sconj (ent A s a y) * true_l P a a * te pr [s; a; t; c])) = 0) /\
  (forall X, left_gauge A (env_at P A) X -> forall s a, (s < d)%nat -> (a < dl A)%nat ->
     sum d (fun t => sum (dl A) (fun c => te pr [s; a; t; c] * true_l P c c * X t c)) = X s a) /\
  (forall u, (forall b, (b < dr A)%nat -> true_l (P ++ [A]) b b * u b = 1) -> (dr V + dr A = d * dl A)%nat) /\
  (forall s a t c, (a < dl A)%nat -> (c < dl A)%nat -> dr V = 0%nat -> te pr [s; a; t; c] = 0) /\
  (forall b, (b < dl A)%nat -> exists u, true_l P b b * u = 1).

Lemma gauge_env P A l (X : nat -> nat -> R) : is_env l (dl A) (true_l P) -> left_gauge A (env_at P A) X -> left_gauge A l X.
Proof.
  intros (L1 & L2 & L3) HG b Hb. rewrite <- (HG b Hb). apply sum_ext; intros s _. apply sum_ext; intros a Ha. apply sum_ext; intros a' Ha'. cbn [env_at me]. rewrite L3 by assumption. reflexivity.
Qed.

Lemma facts P Q A : fdata m = P ++ A :: Q -> exists l r0 F pr V, site_facts P Q A l r0 F pr V.
Proof.
  intros E. assert (HA : nth_error (fdata m) (length P) = Some A) by (rewrite E, nth_error_app2, Nat.sub_diag by lia; reflexivity).
  destruct (get_envs_struct m Hwf) as (ls' & rs' & E1 & HE). pose proof Hin as (_ & _ & Hpos & H2 & _ & E2 & Hready & _). rewrite E1 in E2. injection E2 as -> ->.
  destruct (HE _ _ HA) as (l & r0 & Nl & (M1 & M2 & M3) & Nr & _).
  destruct (cut m d ls rs Hun Hdg Hen P (A :: Q) E) as (l' & _ & a & Nl' & _ & _ & (CA & _) & Hl & _). assert (l' = l) by congruence. subst l'.
  destruct (at_site m d ls rs Hun Hdg Hen P Q A r0 E Nr) as (a' & C1 & C2 & C3 & C4 & C5 & C6 & C7 & C8 & C9). rewrite <- C2 in C1, C4. rewrite <- CA in Hl.
  destruct (Hready _ A l r0 HA Nl Nr) as (HR & F & EF).
  assert (Hp : (0 < phys A /\ 0 < dl A /\ 0 < dr A)%nat). { rewrite E in Hpos. apply Forall_app in Hpos as [_ Hpos]. inversion Hpos; assumption. }
  destruct (left_null_ok K S HK HS m (length P) ls A l HA Nl C9 (proj1 Hp) (proj1 (proj2 Hp)) M1 M2 M3 HR) as (pr & V & C & Ci & EP & EC & ECi & HRt & HV & Hsh & Hpr).
  exists l, r0, F, pr, V. unfold site_facts. rewrite C9 in Hp. rewrite C9 in Hsh. repeat (split; [assumption|]).
  destruct Hl as (L1 & L2 & L3).
  split. { intros b j Hb Hj. apply (inv_entry K HK m d ls rs Hun Hdg Hen P Q A F r0 E Nr EF b j Hb Hj). }
  split; [exact EP|]. split; [exact Hsh|]. split; [|split; [|split; [|split; [|split]]]].
  - intros s a0 t c Ha Hc. exact (left_self_adjoint A l C Ci V (te pr) M1 HRt Hpr s a0 t c Ha Hc).
  - intros t c y Hc Hy. pose proof (left_column_gauge A l C Ci V (te pr) M1 M2 HRt HV Hpr t c Hc y Hy) as G. rewrite C9 in G. rewrite <- G.
    apply sum_ext; intros s _. apply sum_ext; intros x Hx. rewrite (sum_diag (dl A) x); [rewrite L3 by assumption; reflexivity|exact Hx|].
    intros z Hz Hne. rewrite L3, (C4 x z) by auto. ring.
  - intros X HX s x Hs Hx. pose proof (gauge_env P A l X (conj L1 (conj L2 L3)) HX) as HX'. rewrite <- C9 in Hs.
    rewrite <- (left_identity A l C Ci V (te pr) M1 M2 HRt HV Hpr X HX' s x Hs Hx). unfold project. rewrite C9. apply sum_ext; intros t _. apply sum_ext; intros c Hc.
    rewrite (sum_diag (dl A) c); [rewrite L3 by assumption; reflexivity|exact Hc|]. intros z Hz Hne. rewrite L3, (C4 c z) by auto. ring.
  - intros u Hg. destruct HRt as (_ & _ & _ & _ & _ & HDia). rewrite M1 in HDia.
    assert (G : forall b b', (b < dr A)%nat -> (b' < dr A)%nat -> sum d (fun s => sum (dl A) (fun a => left_form A (fun a => me C a a) b s a * sconj (left_form A (fun a => me C a a) b' s a))) = true_l (P ++ [A]) b b').
    { intros b b' Hb Hb'. rewrite (true_l_snoc P A (dl A) b b' C1 eq_refl Hb Hb'). rewrite C9. apply sum_ext; intros s _. apply sum_ext; intros x Hx.
      rewrite (sum_diag (dl A) x); [|exact Hx|]. 2: { intros z Hz Hne. rewrite (C4 x z) by auto. ring. }
      unfold left_form. rewrite conj_mul, conj_conj. destruct (HDia x Hx) as (_ & D2 & D3 & _). rewrite D3, <- (L3 x x Hx Hx), <- D2. ring. }
    rewrite C9 in HV. apply (null_count (dr A) d (dl A) (left_form A (fun a => me C a a)) V u Hchar HV).
    + intros b b' Hb Hb' Hne. rewrite G by assumption. apply (Hdg (P ++ [A]) Q (dr A)); try assumption; [rewrite E, <- app_assoc; reflexivity|]. apply chain_app. exists (dl A). split; [exact C1|split; reflexivity].
    + intros b Hb. rewrite G by assumption. apply Hg. exact Hb.
  - intros s x t c Hx Hc HV0. rewrite Hpr by assumption. rewrite HV0. reflexivity.
  - intros b Hb. destruct HRt as (_ & _ & _ & _ & _ & HDia). rewrite M1 in HDia. destruct (HDia b Hb) as (D1 & D2 & _). exists (me Ci b b * me Ci b b).
    rewrite <- (L3 b b Hb Hb), <- D2. transitivity ((me C b b * me Ci b b) * (me C b b * me Ci b b)); [ring|]. rewrite D1. ring.
Qed.

(** the rates in terms of the rows of the projector *)
Definition rate (P Q : list (site R)) (A : site R) (pr : tens R) (im : R) (s a b : nat) : R :=
  - im * ham_elem d (P ++ prow A (te pr) s a b :: Q) (fdata m) H.

Lemma loop_ok P Q A l r0 F pr V Rs im : fdata m = P ++ A :: Q -> site_facts P Q A l r0 F pr V ->
  (forall n, (n <= length P)%nat -> exists W, Rs n = Ok W /\ (forall B, nth_error (P ++ [A]) n = Some B -> tsh W = [dl B; dl B; d; dl A; dr A]) /\
    forall x y s0 a0 b0, te W [x; y; s0; a0; b0] = moved (skipn n P) A (te pr) s0 a0 b0 x y) ->
  forall khs kTs, Forall2 (fun kh kT => fst kT = fst kh /\ reshape_op d 2 (snd kh) = Ok (snd kT) /\ mr (snd kh) = (d * d)%nat /\ mc (snd kh) = (d * d)%nat /\ (fst kh + 2 <= length (fdata m))%nat) khs kTs ->
  forall B es, tsh B = [d; dl A; dr A] ->
  exists B', foldM (dA_term K S im m ls rs pr Rs (length P)) (B, es) kTs = Ok (B', es ++ map (fun kh => term_elem d (fdata m) (fdata m) (fst kh) (snd kh)) (filter (fun kh => Nat.leb (fst kh) (length P)) khs)) /\
    tsh B' = [d; dl A; dr A] /\
    forall s0 a0 b0, (s0 < d)%nat -> (a0 < dl A)%nat -> (b0 < dr A)%nat ->
      te B' [s0; a0; b0] * true_r Q b0 b0 = te B [s0; a0; b0] * true_r Q b0 b0 +
        - im * suml (map (fun kh => term_elem d (P ++ prow A (te pr) s0 a0 b0 :: Q) (fdata m) (fst kh) (snd kh)) khs).
Proof.
  intros E (C1 & C3 & C4 & C5 & C6 & C7 & C9 & Hp & Nl & Hl & Nr & Hr & EF & HF & EP & Hsh & Hsa & Hcg & _) HRs khs kTs HF2.
  assert (Hg : forall s0 a0 y, (s0 < d)%nat -> (a0 < dl A)%nat -> (y < dr A)%nat ->
    sum (phys A) (fun t => sum (dl A) (fun c => te pr [s0; a0; t; c] * true_l P c c * ent A t c y)) = 0).
  { intros s0 a0 y _ Ha Hy. rewrite <- conj_0, <- (Hcg s0 a0 y Ha Hy), sum_conj, C9. apply sum_ext; intros t _. rewrite sum_conj. apply sum_ext; intros c Hc.
    rewrite !conj_mul, conj_conj, true_l_real, <- Hsa by assumption. ring. }
  induction HF2 as [|[k h] [k' T] khs kTs (E1 & ET & Hh1 & Hh2 & Hk) HF2 IH]; intros B es SB.
  - exists B. cbn [foldM filter map suml fold_right]. rewrite app_nil_r. split; [reflexivity|]. split; [exact SB|]. intros. ring.
  - cbn [fst snd] in *. subst k'. cbn [foldM filter fst].
    destruct (Nat.leb_spec k (length P)) as [Hle|Hgt].
    + destruct (term_ok K S HK HS m d ls rs eq_refl Hun Hdg Hen P Q A pr Rs im F r0 E Hsh HRs Nr EF B es k h T SB Hk Hle ET Hh1 Hh2) as (X & EX & VX).
      rewrite EX. cbn [bind]. destruct (IH (mkT (tsh B) (fun idx => te B idx + - im * te X idx)) (es ++ [term_elem d (fdata m) (fdata m) k h])) as (B' & EB & SB' & VB); [exact SB|].
      exists B'. split; [rewrite EB, <- app_assoc; reflexivity|]. split; [exact SB'|]. intros s0 a0 b0 Hs Ha Hb. rewrite VB by assumption. cbn [te map suml fold_right fst snd].
      change (fold_right sadd 0 (map ?g khs)) with (suml (map g khs)). rewrite <- VX by assumption. ring.
    + destruct (term_zero K S m d ls rs eq_refl Hun Hdg Hen P Q A pr Rs im r0 E Hg Nr B es k h T Hk Hgt) as (EX & VX).
      rewrite EX. cbn [bind]. destruct (IH B es SB) as (B' & EB & SB' & VB).
      exists B'. split; [exact EB|]. split; [exact SB'|]. intros s0 a0 b0 Hs Ha Hb. rewrite VB by assumption. cbn [map suml fold_right fst snd].
      change (fold_right sadd 0 (map ?g khs)) with (suml (map g khs)). rewrite VX by assumption. ring.
Qed.
End Loop.
