(** C65, C66: unitaries from Lie algebra vectors, and back. *)
From Coq Require Import Reals Lra ZArith.
From Verif Require Import SpecCanon Alg ModelMPS SpecMPS ModelNcon ModelEk ModelTensor SpecTensor ModelDecomp SpecDecomp ModelSpin SpecSpin ProofSpin ProofSpin2 ProofSpin3 ProofSpin4
  ModelLie SpecLie ProofLie ProofLie2 ProofLie3 ProofLie4 ProofLie5 ModelExp SpecExp ProofExp ProofExp2 ProofExp3 ExReal ExExp.
Local Open Scope nat_scope.
Local Open Scope sr_scope.

(** * C65 *)
(** What is exponentiated: -i times the combination of the generators, for a vector with one
    entry for each generator; SU4 and SU8 are SU for 4 and 8 levels. *)
Theorem C65_generator : forall (R : sring) (C : consts R) (F : mfun R) (scale : nat -> R) (v : list R) (N : nat), (1 <= N)%nat ->
  (forall V, SU C F scale v N Adj = Ok V -> length v = (N * N - 1)%nat /\ exists A, sq N A /\ f_exp F A = Some V /\
     forall a b, me A a b = - c_im C * comb_entry v (su C scale N) a b) /\
  (length v <> (N * N - 1)%nat -> SU C F scale v N Adj = Err ValueError) /\
  SU4 C F scale v = SU C F scale v 4 Adj /\ SU8 C F scale v = SU C F scale v 8 Adj.
Proof. intros R. exact SU_generator. Qed.
Print Assumptions C65_generator.

(** Real vectors give unitaries. *)
Theorem C65_unitary : forall (R : sring) (C : consts R) (F : mfun R) (scale : nat -> R) (N : nat) (v : list R) (V : mat R),
  consts_ok C (fun _ => False) -> expm_ok (f_exp F) -> scale_ok scale N -> Forall (fun x => sconj x = x) v ->
  SU C F scale v N Adj = Ok V -> unitary_ N V.
Proof. intros R C F scale N v V HC HE. exact (SU_unitary C F scale HC HE N v V). Qed.
Print Assumptions C65_unitary.

Theorem C65_U4 : forall (R : sring) (C : consts R) (F : mfun R) (r3 r6 : R) (v : list R) (V : mat R),
  consts_ok C (fun _ => False) -> expm_ok (f_exp F) -> c_sqrt C 1 = 1 -> r3 * r3 * (1 + 1 + 1) = 1 -> r6 * r6 * ((1 + 1) * (1 + 1 + 1)) = 1 ->
  sconj r3 = r3 -> sconj r6 = r6 -> Forall (fun x => sconj x = x) v -> U4 C F r3 r6 v = Ok V -> unitary_ 4 V.
Proof. intros R C F r3 r6 v V HC HE. exact (U4_unitary C F HC HE r3 r6 v V). Qed.
Print Assumptions C65_U4.

(** U4s commutes with the exchange of the two qubits, for complex vectors too. *)
Theorem C65_U4s : forall (R : sring) (C : consts R) (F : mfun R) (v : list R) (V : mat R),
  consts_ok C (fun _ => False) -> expm_ok (f_exp F) -> c_sqrt C 1 = 1 -> U4s C F v = Ok V ->
  swap_comm V /\ (Forall (fun x => sconj x = x) v -> unitary_ 4 V).
Proof. intros R C F v V HC HE H1 E. split; [exact (U4s_swap C F HC HE v V H1 E)|]. intros Hv. exact (U4s_unitary C F HC HE v V H1 Hv E). Qed.
Print Assumptions C65_U4s.

(** SU(v, n, '2N') is SU(v, n) with an identity inserted before the last qubit. *)
Theorem C65_SU_2N : forall (R : sring) (C : consts R) (F : mfun R) (scale inv : nat -> R) (n : nat) (v : list R) (V W : mat R),
  consts_ok C (fun _ => False) -> expm_ok (f_exp F) -> scale_ok scale (2 * n) -> inverses inv (2 * n) -> (1 <= n)%nat -> place_ok Mid n ->
  SU C F scale v n Adj = Ok V -> SU C F scale v n TwoN = Ok W -> inserted Mid n V W.
Proof. intros R C F scale inv n v V W HC HE. exact (SU_2N C F scale HC HE inv n v V W). Qed.
Print Assumptions C65_SU_2N.

(** U1, U2 and unknown representations always raise. *)
Theorem C65_errors : forall (R : sring) (C : consts R) (F : mfun R) (scale : nat -> R) (v : list R) (N : nat),
  @U1 R v = Err TypeError /\ @U2 R v = Err TypeError /\ SU C F scale v N OtherRep = Err UnboundLocalError.
Proof. intros. split; [|split]; reflexivity. Qed.
Print Assumptions C65_errors.

(** exp(-i sigma_z). *)
Definition v3 : list Cx := [0; 0; 1].
Example C65_example : consts_ok Cconsts (fun _ => False) /\ expm_ok (f_exp Cfun) /\ c_sqrt Cconsts 1 = 1 /\ (forall N, scale_ok Cscale N /\ inverses Cinv N) /\
  Forall (fun x : Cx => sconj x = x) v3 /\ exists V, SU Cconsts Cfun Cscale v3 2 Adj = Ok V /\ mat_eq V Ud.
Proof.
  split; [apply Cconsts_ok|]. split; [exact Cexpm_ok|]. split; [exact Csqrt1|]. split; [intros N; split; [apply Cscale_ok|apply Cinv_ok]|].
  split; [repeat constructor; apply cx_eq; cbn; ring|]. exact SUd.
Qed.

(** * C66 *)
(** extractv inverts SU up to a factor, which is a phase for a unitary. *)
Theorem C66_extractv : forall (R : sring) (C : consts R) (F : mfun R) (scale : nat -> R) (n : nat) (U A : mat R),
  consts_ok C (fun _ => False) -> expm_ok (f_exp F) -> logm_ok (f_exp F) (f_log F) -> scale_ok scale n -> inverses (f_inv F) n -> (1 <= n)%nat ->
  sq n U -> f_log F U = Some A ->
  exists v V w, extractv C F scale U = Ok v /\ SU C F scale v n Adj = Ok V /\ mat_eq V (mscale w U) /\
    (unitary_ n U -> w * sconj w = 1 /\ Forall (fun x => sconj x = x) v).
Proof. intros R C F scale n U A HC HE HL Hs Hi Hn HU. exact (extract_SU C F HC HE scale (f_inv F) n U A Hs Hi Hn HU HL eq_refl). Qed.
Print Assumptions C66_extractv.

(** to_new_v of a real vector is a real vector of the same unitary up to a phase. *)
Theorem C66_to_new_v : forall (R : sring) (C : consts R) (F : mfun R) (scale : nat -> R) (n : nat) (v w : list R),
  consts_ok C (fun _ => False) -> expm_ok (f_exp F) -> logm_ok (f_exp F) (f_log F) -> scale_ok scale n -> inverses (f_inv F) n -> (1 <= n)%nat ->
  length v = (n * n - 1)%nat -> Forall (fun x => sconj x = x) v -> to_new_v C F scale v = Ok w ->
  Forall (fun x => sconj x = x) w /\ exists U V, SU C F scale v n Adj = Ok U /\ SU C F scale w n Adj = Ok V /\ same_ray U V.
Proof. intros R C F scale n v w HC HE HL Hs Hi Hn. exact (to_new_v_ray C F HC HE scale n v w HL Hs Hi Hn). Qed.
Print Assumptions C66_to_new_v.

(** equal_up_to_phase finds only matrices equal up to a phase, and finds them unless the
    first entry vanishes. *)
Theorem C66_equal_up_to_phase : forall (R : sring) (F : mfun R) (nonneg : R -> Prop) (close : mat R -> mat R -> bool) (U V : mat R),
  phase_ok nonneg (f_ph F) -> close_ok close ->
  (equal_up_to_phase F close U V = Ok true -> same_ray U V) /\
  (@integral R -> order_ok nonneg -> (1 <= mr U)%nat -> (1 <= mc U)%nat -> me U 0%nat 0%nat <> 0 -> same_ray U V -> equal_up_to_phase F close U V = Ok true).
Proof. intros R F nonneg close U V Hp Hc. split; [exact (phase_sound F nonneg Hp close Hc U V)|exact (phase_complete F nonneg Hp close Hc U V)]. Qed.
Print Assumptions C66_equal_up_to_phase.

(** With a vanishing first entry it compares without a phase, so it misses X and iX. *)
Theorem C66_equal_up_to_phase_refuted : forall (R : sring) (C : consts R) (F : mfun R) (nonneg : R -> Prop) (close : mat R -> mat R -> bool),
  consts_ok C (fun _ => False) -> (1 + 1 <> 0 :> R) -> phase_ok nonneg (f_ph F) -> close_ok close ->
  exists U V, same_ray U V /\ unitary_ 2 U /\ unitary_ 2 V /\ equal_up_to_phase F close U V = Ok false.
Proof. intros R C F nonneg close HC H2 Hp Hc. exact (phase_missed C F HC nonneg Hp close Hc H2). Qed.
Print Assumptions C66_equal_up_to_phase_refuted.

Example C66_example : logm_ok (f_exp Cfun) (f_log Cfun) /\ phase_ok Cnonneg (f_ph Cfun) /\ order_ok Cnonneg /\ @integral Cx /\ (1 + 1 <> 0 :> Cx) /\ close_ok Cclose /\
  f_log Cfun Ud = Some Ad /\ unitary_ 2 Ud /\ exists w, to_new_v Cconsts Cfun Cscale v3 = Ok w.
Proof.
  split; [exact Clogm_ok|]. split; [exact Cph_ok|]. split; [exact Cnonneg_ok|]. split; [exact Cintegral|].
  split; [intros K; assert (K' := f_equal fst K); cbn in K'; lra|]. split; [exact Cclose_ok|].
  split; [cbn [f_log Cfun]; unfold Clogm; now rewrite (proj2 (Cclose_ok Ud Ud) (mat_eq_refl Ud))|].
  destruct SUd as (V & EV & HV). fold v3 in EV. split; [|destruct C65_example as (H1 & H2 & _ & H3 & H4 & _)].
  - assert (HuV := C65_unitary Cx Cconsts Cfun Cscale 2 v3 V (proj1 C65_example) Cexpm_ok (Cscale_ok 2) (proj1 (proj2 (proj2 (proj2 (proj2 C65_example))))) EV).
    exact (unitary_eq 2 V Ud HV HuV).
  - assert (EL : f_log Cfun V = Some Ad) by (cbn [f_log Cfun]; unfold Clogm; now rewrite (proj2 (Cclose_ok V Ud) HV)).
    destruct (C66_extractv Cx Cconsts Cfun Cscale 2 V Ad H1 H2 Clogm_ok (Cscale_ok 2) (Cinv_ok 2) ltac:(lia) (conj (proj1 HV) (proj1 (proj2 HV))) EL) as (w & _ & _ & Ew & _).
    exists w. unfold to_new_v. change (Nat.sqrt (length v3 + 1)) with 2%nat. rewrite EV. exact Ew.
Qed.
