(** Proofs for C53: the properties of the null-space projectors as the functions return them. *)
From Verif Require Import Alg ModelMPS SpecMPS ModelOrth ModelNcon SpecNcon ModelEk ModelNp ModelEnergy ModelTan SpecTan ProofTan ProofTan2.

Section P.
Context {R : sring}.
Local Open Scope sr_scope.
Add Ring Rr : (s_th R).
Variable K : tanlib R.
Variable S : setio.
Hypothesis HK : tanlib_ok K.
Hypothesis HS : setio_ok S.

Lemma left_projector (m : fmps R) (n : nat) (ls : list (mat R)) (A : site R) (l : mat R) :
  nth_error (fdata m) n = Some A -> nth_error ls n = Some l -> phys A = fd m -> (0 < phys A)%nat -> (0 < dl A)%nat ->
  mr l = dl A -> diagonal l -> (forall a, (a < dl A)%nat -> sconj (me l a a) = me l a a) -> left_ready K A l ->
  exists pr V, left_null_projector K S m n (Some ls) None = Ok (pr, V) /\ tsh pr = [phys A; dl A; phys A; dl A] /\
    (forall s a t c, (a < dl A)%nat -> (c < dl A)%nat -> te pr [s; a; t; c] = sconj (te pr [t; c; s; a])) /\
    (forall t c, (c < dl A)%nat -> left_gauge A l (fun s a => te pr [s; a; t; c])) /\
    (forall X, left_gauge A l (project (phys A) (dl A) (te pr) l X)) /\
    (forall X, left_gauge A l X -> forall s a, (s < phys A)%nat -> (a < dl A)%nat -> project (phys A) (dl A) (te pr) l X s a = X s a).
Proof.
  intros H1 H2 H3 H4 H5 H6 H7 H8 H9. destruct (left_null_ok K S HK HS m n ls A l H1 H2 H3 H4 H5 H6 H7 H8 H9) as (pr & V & C & Ci & E & _ & _ & HR & HV & Hsh & Hpr).
  exists pr, V. split; [exact E|]. split; [exact Hsh|]. split; [|split; [|split]].
  - intros s a t c Ha Hc. exact (left_self_adjoint A l C Ci V (te pr) H6 HR Hpr s a t c Ha Hc).
  - intros t c Hc. exact (left_column_gauge A l C Ci V (te pr) H6 H7 HR HV Hpr t c Hc).
  - intros X. exact (left_project_gauge A l C Ci V (te pr) H6 H7 HR HV Hpr X).
  - intros X. exact (left_identity A l C Ci V (te pr) H6 H7 HR HV Hpr X).
Qed.

Lemma left_projector_none (m : fmps R) (n : nat) (A : site R) : wf m -> uniform m -> positive_dims (fdata m) -> nth_error (fdata m) n = Some A ->
  exists ls rs l, get_envs m = Ok (ls, rs) /\ nth_error ls n = Some l /\ mr l = dl A /\ diagonal l /\
  (left_ready K A l ->
  exists pr V, left_null_projector K S m n None None = Ok (pr, V) /\ tsh pr = [phys A; dl A; phys A; dl A] /\
    (forall s a t c, (a < dl A)%nat -> (c < dl A)%nat -> te pr [s; a; t; c] = sconj (te pr [t; c; s; a])) /\
    (forall t c, (c < dl A)%nat -> left_gauge A l (fun s a => te pr [s; a; t; c])) /\
    (forall X, left_gauge A l (project (phys A) (dl A) (te pr) l X)) /\
    (forall X, left_gauge A l X -> forall s a, (s < phys A)%nat -> (a < dl A)%nat -> project (phys A) (dl A) (te pr) l X s a = X s a)).
Proof.
  intros Hwf Hu Hp HA. destruct (get_envs_struct m (proj1 Hwf)) as (ls & rs & E & Hl). destruct (Hl n A HA) as (l & r & El & (M1 & M2 & M3) & _). exists ls, rs, l.
  split; [exact E|]. split; [exact El|]. split; [exact M1|]. split; [exact M2|]. intros Hr.
  assert (HAin : In A (fdata m)) by (eapply nth_error_In; eassumption).
  pose proof (proj1 (Forall_forall _ _) Hp A HAin) as (P1 & P2 & P3).
  assert (EP : phys A = fd m) by (unfold uniform in Hu; rewrite Forall_forall in Hu; now apply Hu).
  destruct (left_projector m n ls A l HA El EP P1 P2 M1 M2 M3 Hr) as (pr & V & EV & HH). exists pr, V. split; [|exact HH].
  unfold left_null_projector in *. rewrite E. exact EV.
Qed.

Lemma right_projector (m : fmps R) (n : nat) (rs : list (mat R)) (A : site R) (r : mat R) :
  nth_error (fdata m) n = Some A -> nth_error rs (n + 1) = Some r -> phys A = fd m -> (0 < phys A)%nat -> (0 < dr A)%nat ->
  mr r = dr A -> diagonal r -> (forall a, (a < dr A)%nat -> sconj (me r a a) = me r a a) -> right_ready K A r ->
  exists pr V C, right_null_projector K S m n (Some rs) None = Ok (pr, V) /\ tsh pr = [phys A; dr A; phys A; dr A] /\ t_ch K r = Ok C /\
    (forall s b t c, (b < dr A)%nat -> (c < dr A)%nat -> te pr [s; b; t; c] = sconj (te pr [t; c; s; b])) /\
    (forall a t c, (a < dl A)%nat -> (c < dr A)%nat -> sum (phys A) (fun s => sum (dr A) (fun b => sconj (ent A s a b) * (me r b b * me C b b) * te pr [s; b; t; c])) = 0) /\
    ((forall b, (b < dr A)%nat -> me C b b = 1) -> forall t c, (c < dr A)%nat -> right_gauge A r (fun s b => te pr [s; b; t; c])).
Proof.
  intros H1 H2 H3 H4 H5 H6 H7 H8 H9. destruct (right_null_ok K S HK HS m n rs A r H1 H2 H3 H4 H5 H6 H7 H8 H9) as (pr & V & C & Ci & E & EC & _ & HR & HV1 & HV2 & HV & Hsh & Hpr).
  exists pr, V, C. split; [exact E|]. split; [exact Hsh|]. split; [exact EC|].
  assert (HW := right_column A r C Ci V (te pr) H6 HR HV Hpr). split; [|split; [exact HW|]].
  - intros s b t c Hb Hc. rewrite !Hpr by assumption. rewrite sum_conj. apply sum_ext; intros k _. rewrite !conj_mul, !conj_conj.
    destruct HR as (_ & _ & _ & _ & _ & HD). rewrite H6 in HD. destruct (HD b Hb) as (_ & _ & _ & ->). destruct (HD c Hc) as (_ & _ & _ & ->). ring.
  - intros H t c Hc a Ha. rewrite <- (HW a t c Ha Hc). apply sum_ext; intros s _. apply sum_ext; intros b Hb. rewrite H by exact Hb.
    transitivity (sum (dr A) (fun b' => dlt b b' * (sconj (ent A s a b) * me r b b * te pr [s; b'; t; c]))).
    { apply sum_ext; intros b' Hb'. destruct (Nat.eq_dec b b') as [<-|Hne]; [unfold dlt; rewrite Nat.eqb_refl; ring|]. destruct H7 as (_ & H7). rewrite H7 by (rewrite ?H6; assumption). unfold dlt. destruct (Nat.eqb_spec b b'); [contradiction|ring]. }
    rewrite (sum_dlt1 (dr A) b (fun b' => sconj (ent A s a b) * me r b b * te pr [s; b'; t; c])) by exact Hb. ring.
Qed.

Lemma dims_per_site (m : fmps R) ls rs : wf m -> uniform m -> positive_dims (fdata m) -> get_envs m = Ok (ls, rs) -> tangent_ready K (fdata m) ls rs ->
  exists vLs shapes, tangent_space_dims K S m None = Ok (vLs, shapes) /\ length shapes = length (fdata m) /\
    forall n A, nth_error (fdata m) n = Some A -> exists pr V, left_null_projector K S m n (Some ls) None = Ok (pr, V) /\ nth_error vLs n = Some V /\ nth_error shapes n = Some (dr V, dr A).
Proof.
  intros H1 H2 H3 H4 H5. destruct (dims_ok K S HK HS m ls rs H1 H2 H3 H4 H5 None (or_introl eq_refl)) as (VV & ED & HSD).
  eexists _, _. split; [exact ED|]. split; [now rewrite map_length, seq_length|]. intros n A HA.
  assert (Hn : (n < length (fdata m))%nat) by (apply nth_error_Some; congruence). destruct (HSD n Hn) as (l & r & C & Ci & E & Ei & pr & H). exists pr, (VV n).
  assert (EA : AA m n = A) by (unfold AA; now apply nth_error_nth).
  assert (E0 : nth_error (seq 0 (length (fdata m))) n = Some n) by (rewrite (nth_error_nth' _ 0%nat) by (rewrite seq_length; exact Hn); now rewrite seq_nth).
  split; [apply H|]. split; [exact (map_nth_error VV _ _ E0)|]. rewrite <- EA. exact (map_nth_error (fun n => (dr (VV n), dr (AA m n))) _ _ E0).
Qed.
End P.
