(** C90: the rates of change found by dA_dt for a Hamiltonian given as one matrix. *)
From Coq Require Import QArith Qcanon.
From Verif Require Import Alg QScalars ModelMPS SpecMPS ModelOrth Oracle ExOrth ModelNcon SpecNcon PropNcon ModelEk SpecEk ModelNp SpecEnergy ModelEnergy ModelTan SpecTan ExTan
  ModelTdvp SpecTdvp ExTdvp ModelFull SpecFull ProofFull6 ExFull.
Require Verif.SpecDecomp Verif.ExDecomp.
Local Open Scope nat_scope.
Local Open Scope sr_scope.

(** The tensor of site i times the environment on its right is -i times the null-space
    projector applied to the gradient of the energy of the matrix. *)
Theorem C90_rates : forall (R : sring) (K : tanlib R) (S : setio), tanlib_ok K -> setio_ok S -> SpecDecomp.char0 R ->
  forall (m : fmps R) (ls rs : list (mat R)), tdvp_input K m [] ls rs ->
  forall M : mat R, mr M = Nat.pow (fd m) (fL m) /\ mc M = Nat.pow (fd m) (fL m) -> forall im : R,
  exists m', dA_dt_full K S im m M None = Ok m' /\ length (fdata m') = length (fdata m) /\
  forall P A Q, fdata m = P ++ A :: Q -> exists B pr V,
    nth_error (fdata m') (length P) = Some B /\ same_shape A B /\
    left_null_projector K S m (length P) (Some ls) None = Ok (pr, V) /\
    forall s a b, (s < fd m)%nat -> (a < dl A)%nat -> (b < dr A)%nat ->
      ent B s a b * true_r Q b b
      = - im * sum (fd m) (fun t => sum (dl A) (fun c => te pr [s; a; t; c] * full_gradient (fd m) (fdata m) M (length P) A t c b)).
Proof. intros R. exact full_rates_ok. Qed.
Print Assumptions C90_rates.

(** The time-dependent variational principle for any matrix on the chain. *)
Theorem C90_tdvp : forall (R : sring) (K : tanlib R) (S : setio), tanlib_ok K -> setio_ok S -> SpecDecomp.char0 R ->
  forall (m : fmps R) (ls rs : list (mat R)), tdvp_input K m [] ls rs ->
  forall M : mat R, mr M = Nat.pow (fd m) (fL m) /\ mc M = Nat.pow (fd m) (fL m) -> forall (im : R) m',
  dA_dt_full K S im m M None = Ok m' ->
  forall P A Q X, fdata m = P ++ A :: Q -> same_shape A X ->
  (forall b, (b < dr A)%nat -> left_gauge A (env_at P A) (fun s a => ent X s a b)) ->
  sumcfg (repeat (fd m) (fL m)) (fun s => sconj (state (with_site (fdata m) (length P) X) s) * velocity (fdata m) (fdata m') s)
  = - im * full_elem (fd m) (with_site (fdata m) (length P) X) (fdata m) M.
Proof. intros R. exact full_tdvp. Qed.
Print Assumptions C90_tdvp.

(** The norm does not change, and neither does the energy of a Hermitian matrix. *)
Theorem C90_norm : forall (R : sring) (K : tanlib R) (S : setio), tanlib_ok K -> setio_ok S -> SpecDecomp.char0 R ->
  forall (m : fmps R) (ls rs : list (mat R)), tdvp_input K m [] ls rs ->
  forall M : mat R, mr M = Nat.pow (fd m) (fL m) /\ mc M = Nat.pow (fd m) (fL m) -> forall (im : R) m',
  dA_dt_full K S im m M None = Ok m' ->
  sumcfg (repeat (fd m) (fL m)) (fun s => sconj (state (fdata m) s) * velocity (fdata m) (fdata m') s) = 0.
Proof. intros R. exact full_norm. Qed.
Print Assumptions C90_norm.
Theorem C90_energy : forall (R : sring) (K : tanlib R) (S : setio), tanlib_ok K -> setio_ok S -> SpecDecomp.char0 R ->
  forall (m : fmps R) (ls rs : list (mat R)), tdvp_input K m [] ls rs ->
  forall M : mat R, mr M = Nat.pow (fd m) (fL m) /\ mc M = Nat.pow (fd m) (fL m) -> forall (im : R) m',
  dA_dt_full K S im m M None = Ok m' -> sconj im = - im -> hermitian_op M ->
  full_between (fd m) (fL m) (velocity (fdata m) (fdata m')) M (state (fdata m)) +
  full_between (fd m) (fL m) (state (fdata m)) M (velocity (fdata m) (fdata m')) = 0.
Proof. intros R. exact full_energy. Qed.
Print Assumptions C90_energy.

(** For the matrix of a sum of two-site terms the two ways of calling dA_dt agree. *)
Theorem C90_agrees : forall (R : sring) (K : tanlib R) (S : setio), tanlib_ok K -> setio_ok S -> SpecDecomp.char0 R ->
  forall (m : fmps R) (ls rs : list (mat R)) (H : list (mat R)) (M : mat R) (im : R) (e0 : list R) m1 e m2,
  tdvp_input K m H ls rs -> full_of (fd m) (fL m) H M ->
  dA_dt K S im m H None e0 = Ok (m1, e) -> dA_dt_full K S im m M None = Ok m2 -> Forall2 site_eq (fdata m1) (fdata m2).
Proof. intros R. exact full_local. Qed.
Print Assumptions C90_agrees.

(** The chain of C78_example with the sum of its two terms. *)
Example C90_example : tanlib_ok tdK /\ setio_ok setA /\ SpecDecomp.char0 Qi /\ tdvp_input tdK exX tdH (fst exXe) (snd exXe) /\ tdvp_input tdK exX [] (fst exXe) (snd exXe) /\
  full_of (fd exX) (fL exX) tdH tdFull /\ hermitian_op tdFull /\ sconj (qi 0 1 : Qi) = sopp (qi 0 1) /\
  dA_dt tdK setA (qi 0 1) exX tdH None [] = Ok (tdM, tdE) /\ dA_dt_full tdK setA (qi 0 1) exX tdFull None = Ok tdMf /\
  qlist_eqb (concat (map show (fdata tdMf)))
    [qi 0 (96#3125); qi 0 (-72#3125);  q0; q0; q0; q0;
     qi (752#625) (-27076#15625); qi (-423#1250) (-162#15625); qi (336#625) (11607#15625); qi (168#625) (-4566#15625)] = true.
Proof.
  split; [apply tan_oracle_ok|]. split; [apply setA_ok|]. split; [exact ExDecomp.char0_Q|]. split; [exact td_input|]. split; [exact (input_weaken _ _ _ _ _ td_input)|].
  split; [exact tdFull_of|]. split; [exact tdFull_hermitian|]. split; [apply Qi_eqb_eq; vm_compute; reflexivity|]. split; [apply td_run|]. exact tdf_run.
Qed.
Print Assumptions C90_example.
