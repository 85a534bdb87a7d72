(** C78: the rates of change found by dA_dt; C79: what the flow conserves. *)
From Coq Require Import QArith Qcanon.
From Verif Require Import Alg QScalars ModelMPS SpecMPS ModelOrth Oracle ExOrth ModelNcon SpecNcon PropNcon ModelEk ModelNp SpecEnergy ModelEnergy ModelTan SpecTan ExTan
  ModelTdvp SpecTdvp ProofTdvp10 ExTdvp.
Require Verif.SpecDecomp Verif.ExDecomp.
Local Open Scope nat_scope.
Local Open Scope sr_scope.

(** dA_dt gives tensors of the shapes of the state; that of site i times the environment on its
    right is -i times the null-space projector applied to the gradient of the energy, and the
    energies it leaves in self.e are those of the bonds, the last bond first. *)
Theorem C78_rates : forall (R : sring) (K : tanlib R) (S : setio), tanlib_ok K -> setio_ok S -> SpecDecomp.char0 R ->
  forall (m : fmps R) (H ls rs : list (mat R)), tdvp_input K m H ls rs -> forall (im : R) (e0 : list R),
  exists m' e, dA_dt K S im m H None e0 = Ok (m', e) /\ length (fdata m') = length (fdata m) /\
  rev e = map (fun kh => bond_energy (fd m) m (fst kh) (snd kh)) (combine (seq 0 (length H)) H) /\
  forall P A Q, fdata m = P ++ A :: Q -> exists B pr V,
    nth_error (fdata m') (length P) = Some B /\ same_shape A B /\
    left_null_projector K S m (length P) (Some ls) None = Ok (pr, V) /\
    forall s a b, (s < fd m)%nat -> (a < dl A)%nat -> (b < dr A)%nat ->
      ent B s a b * true_r Q b b
      = - im * sum (fd m) (fun t => sum (dl A) (fun c => te pr [s; a; t; c] * gradient (fd m) (fdata m) H (length P) A t c b)).
Proof. intros R. exact dt_rates. Qed.
Print Assumptions C78_rates.

(** The rates satisfy the gauge condition of the tangent space. *)
Theorem C78_gauge : forall (R : sring) (K : tanlib R) (S : setio), tanlib_ok K -> setio_ok S -> SpecDecomp.char0 R ->
  forall (m : fmps R) (H ls rs : list (mat R)), tdvp_input K m H ls rs -> forall (im : R) (e0 : list R) m' e,
  dA_dt K S im m H None e0 = Ok (m', e) ->
  forall P A Q B, fdata m = P ++ A :: Q -> nth_error (fdata m') (length P) = Some B ->
  forall b, (b < dr A)%nat -> left_gauge A (env_at P A) (fun s a => ent B s a b).
Proof. intros R. exact dt_gauge. Qed.
Print Assumptions C78_gauge.

(** The time-dependent variational principle: the overlap of the time derivative of the state
    with every tangent vector is -i times the matrix element of the Hamiltonian. *)
Theorem C78_tdvp : forall (R : sring) (K : tanlib R) (S : setio), tanlib_ok K -> setio_ok S -> SpecDecomp.char0 R ->
  forall (m : fmps R) (H ls rs : list (mat R)), tdvp_input K m H ls rs -> forall (im : R) (e0 : list R) m' e,
  dA_dt K S im m H None e0 = Ok (m', e) ->
  forall P A Q X, fdata m = P ++ A :: Q -> same_shape A X ->
  (forall b, (b < dr A)%nat -> left_gauge A (env_at P A) (fun s a => ent X s a b)) ->
  sumcfg (repeat (fd m) (fL m)) (fun s => sconj (state (with_site (fdata m) (length P) X) s) * velocity (fdata m) (fdata m') s)
  = - im * ham_elem (fd m) (with_site (fdata m) (length P) X) (fdata m) H.
Proof. intros R. exact dt_tdvp. Qed.
Print Assumptions C78_tdvp.

(** The time derivative is orthogonal to the state, so that its norm does not change. *)
Theorem C79_norm : forall (R : sring) (K : tanlib R) (S : setio), tanlib_ok K -> setio_ok S -> SpecDecomp.char0 R ->
  forall (m : fmps R) (H ls rs : list (mat R)), tdvp_input K m H ls rs -> forall (im : R) (e0 : list R) m' e,
  dA_dt K S im m H None e0 = Ok (m', e) ->
  sumcfg (repeat (fd m) (fL m)) (fun s => sconj (state (fdata m) s) * velocity (fdata m) (fdata m') s) = 0.
Proof. intros R. exact dt_norm. Qed.
Print Assumptions C79_norm.

(** The time derivative of the energy of a Hermitian Hamiltonian vanishes. *)
Theorem C79_energy : forall (R : sring) (K : tanlib R) (S : setio), tanlib_ok K -> setio_ok S -> SpecDecomp.char0 R ->
  forall (m : fmps R) (H ls rs : list (mat R)), tdvp_input K m H ls rs -> forall (im : R) (e0 : list R) m' e,
  dA_dt K S im m H None e0 = Ok (m', e) -> sconj im = - im -> Forall hermitian_op H ->
  ham_between (fd m) (fL m) (velocity (fdata m) (fdata m')) H (state (fdata m)) +
  ham_between (fd m) (fL m) (state (fdata m)) H (velocity (fdata m) (fdata m')) = 0.
Proof. intros R. exact dt_energy. Qed.
Print Assumptions C79_energy.

(** The null space found at a site has d*D_left - D_right dimensions. *)
Theorem C26_count : forall (R : sring) (K : tanlib R) (S : setio), tanlib_ok K -> setio_ok S -> SpecDecomp.char0 R ->
  forall (m : fmps R) (H ls rs : list (mat R)), tdvp_input K m H ls rs -> forall P A Q, fdata m = P ++ A :: Q ->
  (Q = [] -> exists u, true_l (fdata m) 0 0 * u = 1) ->
  exists pr V, left_null_projector K S m (length P) (Some ls) None = Ok (pr, V) /\ (dr V + dr A = fd m * dl A)%nat.
Proof. intros R. exact dt_count. Qed.
Print Assumptions C26_count.

(** Three sites with bonds 1, 1, 2, 1: the middle one has no tangent space. *)
Example C78_example : tanlib_ok tdK /\ setio_ok setA /\ SpecDecomp.char0 Qi /\ tdvp_input tdK exX tdH (fst exXe) (snd exXe) /\
  sconj (qi 0 1 : Qi) = sopp (qi 0 1) /\ Forall hermitian_op tdH /\ dA_dt tdK setA (qi 0 1) exX tdH None [] = Ok (tdM, tdE) /\
  qlist_eqb (concat (map show (fdata tdM)))
    [qi 0 (96#3125); qi 0 (-72#3125);  q0; q0; q0; q0;
     qi (752#625) (-27076#15625); qi (-423#1250) (-162#15625); qi (336#625) (11607#15625); qi (168#625) (-4566#15625)] = true /\
  qlist_eqb tdE [qi (1304#625) 0; qi (257#625) 0] = true.
Proof.
  split; [apply tan_oracle_ok|]. split; [apply setA_ok|]. split; [exact ExDecomp.char0_Q|]. split; [exact td_input|].
  split; [apply Qi_eqb_eq; vm_compute; reflexivity|]. split; [exact td_hermitian|]. exact td_run.
Qed.
Print Assumptions C78_example.
