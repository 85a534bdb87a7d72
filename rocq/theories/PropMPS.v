(** Property theorems C01-C05 and C21: the algebra of finite MPS. *)
From Verif Require Import Alg ModelMPS SpecMPS ProofMPS ProofMPS2 Examples.
Local Open Scope sr_scope.

(** C01: overlap is the inner product of the amplitudes. *)
Theorem C01_overlap_inner_product : forall (R : sring) (a b : fmps R),
  closed (fdata a) -> closed (fdata b) -> dims (fdata a) = dims (fdata b) ->
  exists F, overlap a b = Ok F /\ mr F = 1%nat /\ mc F = 1%nat /\
    me F 0 0 = sumcfg (dims (fdata a)) (fun s => psi a s * sconj (psi b s)).
Proof. exact (@overlap_ok). Qed.
Print Assumptions C01_overlap_inner_product.

Theorem C01_full_overlap : forall (R : sring) (a b : fmps R),
  wf a -> wf b -> uniform a -> uniform b -> fd a = fd b -> fL a = fL b ->
  full_overlap a b
  = Ok (sumcfg (dims (fdata a)) (fun s => psi b s * sconj (psi a s))).
Proof. exact (@full_overlap_ok). Qed.
Print Assumptions C01_full_overlap.

Theorem C01_overlap_conj_full_overlap : forall (R : sring) (a b : fmps R),
  wf a -> wf b -> uniform a -> uniform b -> fd a = fd b -> fL a = fL b ->
  exists F z, overlap a b = Ok F /\ full_overlap a b = Ok z /\ me F 0 0 = sconj z.
Proof. exact (@overlap_conj_full). Qed.
Print Assumptions C01_overlap_conj_full_overlap.

Theorem C01_overlap_conj_symmetric : forall (R : sring) (a b : fmps R),
  closed (fdata a) -> closed (fdata b) -> dims (fdata a) = dims (fdata b) ->
  exists F G, overlap a b = Ok F /\ overlap b a = Ok G /\ me F 0 0 = sconj (me G 0 0).
Proof. exact (@overlap_conj_sym). Qed.
Print Assumptions C01_overlap_conj_symmetric.

Theorem C01_norm_sum_of_squares : forall (R : sring) (a : fmps R),
  closed (fdata a) ->
  exists F, mps_norm a = Ok F /\
    me F 0 0 = sumcfg (dims (fdata a)) (fun s => psi a s * sconj (psi a s)).
Proof. exact (@norm_ok). Qed.
Print Assumptions C01_norm_sum_of_squares.

Theorem C01_length_mismatch_rejected : forall (R : sring) (a b : fmps R),
  length (fdata a) <> length (fdata b) -> overlap a b = Err AssertionError.
Proof. exact (@overlap_length). Qed.
Print Assumptions C01_length_mismatch_rejected.

Theorem C01_dimension_mismatch_rejected : forall (R : sring) (a b : fmps R),
  closed (fdata a) -> closed (fdata b) -> length (fdata a) = length (fdata b) ->
  dims (fdata a) <> dims (fdata b) -> overlap a b = Err ValueError.
Proof. exact (@overlap_dims). Qed.
Print Assumptions C01_dimension_mismatch_rejected.

Example C01_example :
  wf exA /\ wf exB /\ uniform exA /\ uniform exB /\ fd exA = fd exB /\ fL exA = fL exB /\
  dims (fdata exA) = dims (fdata exB) /\
  match overlap exA exB with Ok F => me F 0 0 | Err _ => zi 0 0 end = zi 303 13.
Proof. exact ex_overlap. Qed.

(** C02: recombine lists the matrix-product amplitudes, in row-major order. *)
Theorem C02_recombine_amplitudes : forall (R : sring) (m : fmps R),
  wf m -> uniform m ->
  recombine m = Ok (map (fun s => amp (fdata m) s 0 0) (configs (fd m) (fL m))).
Proof. exact (@recombine_ok). Qed.
Print Assumptions C02_recombine_amplitudes.

Theorem C02_configurations_complete : forall d L s,
  (In s (configs d L) <-> length s = L /\ Forall (fun x => x < d) s) /\
  NoDup (configs d L) /\ length (configs d L) = (d ^ L)%nat.
Proof. exact configs_complete. Qed.
Print Assumptions C02_configurations_complete.

(** the amplitude of a chain cut anywhere is the matrix product of its parts:
    the association order of the reduction does not matter *)
Theorem C02_associative : forall (R : sring) (l m : list (site R)) s t i j k p,
  length s = length l -> chain k l j -> i < k ->
  amp (l ++ m) (s ++ t) i p = sum j (fun q => amp l s i q * amp m t q p).
Proof. exact (@amp_assoc). Qed.
Print Assumptions C02_associative.

Example C02_example :
  wf exA /\ uniform exA /\
  recombine exA = Ok [zi 4 5; zi 11 9; zi (-1) 3; zi (-4) 6;
                      zi 7 2; zi 17 1; zi 1 3; zi (-2) 8].
Proof. exact ex_recombine. Qed.

(** C03: add is the sum of the states. *)
Theorem C03_add_sum : forall (R : sring) (a b : fmps R),
  wf a -> wf b -> 2 <= fL a -> dims (fdata a) = dims (fdata b) ->
  exists m, mps_add a b = Ok m /\ wf m /\ dims (fdata m) = dims (fdata a) /\
    forall s, incfg (dims (fdata a)) s -> psi m s = psi a s + psi b s.
Proof. exact (@add_ok). Qed.
Print Assumptions C03_add_sum.

(** On one-site chains the second state is lost: the result's tensor is 2 wide
    and recombine reads its first entry only. *)
Theorem C03_single_site_drops_other : forall (R : sring) (a b : fmps R),
  wf a -> wf b -> fL a = 1%nat -> uniform a -> dims (fdata a) = dims (fdata b) ->
  exists m, mps_add a b = Ok m /\ ~ closed (fdata m) /\ recombine m = recombine a.
Proof. exact (@add_single). Qed.
Print Assumptions C03_single_site_drops_other.

Theorem C03_single_site_refuted : exists (a b : fmps Zi) u v m w,
  wf a /\ wf b /\ fL a = 1%nat /\ dims (fdata a) = dims (fdata b) /\
  recombine a = Ok u /\ recombine b = Ok v /\ mps_add a b = Ok m /\ recombine m = Ok w /\
  w <> map (fun xy => sadd (fst xy) (snd xy)) (combine u v).
Proof. exact ex_add_single_refuted. Qed.
Print Assumptions C03_single_site_refuted.

Example C03_example :
  wf exA /\ wf exB /\ 2 <= fL exA /\ dims (fdata exA) = dims (fdata exB) /\
  match mps_add exA exB with Ok m => recombine m | Err e => Err e end
  = Ok [zi 10 13; zi 15 15; zi 3 9; zi (-2) 6; zi 14 3; zi 22 2; zi 6 4; zi (-1) 7].
Proof. exact ex_add. Qed.

(** C04: mul scales the state once, [*] scales it once per site. *)
Theorem C04_mul_scales : forall (R : sring) (m : fmps R) c,
  wf m -> exists m', mps_mul m c = Ok m' /\ wf m' /\ dims (fdata m') = dims (fdata m) /\
    forall s, psi m' s = c * psi m s.
Proof. exact (@mul_ok). Qed.
Print Assumptions C04_mul_scales.

Theorem C04_star_scales_every_site : forall (R : sring) (m : fmps R) c,
  wf m -> exists m', itemwise_mul m c = Ok m' /\ wf m' /\ fd m' = fd m /\
    dims (fdata m') = dims (fdata m) /\ forall s, psi m' s = spow c (fL m) * psi m s.
Proof. exact (@itemwise_mul_ok). Qed.
Print Assumptions C04_star_scales_every_site.

Example C04_example :
  wf exA /\
  match mps_mul exA (zi 0 2) with Ok m => recombine m | Err e => Err e end
  = Ok [zi (-10) 8; zi (-18) 22; zi (-6) (-2); zi (-12) (-8);
        zi (-4) 14; zi (-2) 34; zi (-6) 2; zi (-16) (-4)].
Proof. exact ex_mul. Qed.

(** C05: apply acts as the operator on one site and nothing else. *)
Theorem C05_apply_one_site : forall (R : sring) (m : fmps R) op k,
  wf m -> k < fL m -> mc op = nth k (dims (fdata m)) 0%nat ->
  exists m', mps_apply m op k = Ok m' /\ wf m' /\
    dims (fdata m') = upd (dims (fdata m)) k (mr op) /\
    (forall i, i <> k -> nth_error (fdata m') i = nth_error (fdata m) i) /\
    forall s, length s = fL m ->
      psi m' s = sum (mc op) (fun t => me op (nth k s 0%nat) t * psi m (upd s k t)).
Proof. exact (@apply_ok). Qed.
Print Assumptions C05_apply_one_site.

Theorem C05_out_of_range_rejected : forall (R : sring) (m : fmps R) op k,
  length (fdata m) <= k -> mps_apply m op k = Err IndexError.
Proof. exact (@apply_range). Qed.
Print Assumptions C05_out_of_range_rejected.

Example C05_example :
  wf exA /\ 1 < fL exA /\ mc exY = nth 1 (dims (fdata exA)) 0%nat /\
  match mps_apply exA exY 1 with Ok m => recombine m | Err e => Err e end
  = Ok [zi 3 1; zi 6 4; zi (-5) 4; zi (-9) 11; zi 3 (-1); zi 8 2; zi (-2) 7; zi (-1) 17].
Proof. exact ex_apply. Qed.

(** C21: post_select projects site k onto outcome w and removes it. *)
Theorem C21_post_select_projects : forall (R : sring) (m : fmps R) k w,
  wf m -> 2 <= fL m -> k < fL m -> w < nth k (dims (fdata m)) 0%nat ->
  exists m', post_select m k w = Ok m' /\ closed (fdata m') /\
    S (length (fdata m')) = length (fdata m) /\
    fL m' = fL m /\ foc m' = foc m /\ fcan m' = fcan m /\ forth m' = forth m /\
    forall s, length s = length (fdata m') -> psi m' s = psi m (ins s k w).
Proof. exact (@post_select_ok). Qed.
Print Assumptions C21_post_select_projects.

(** The recorded length is not updated, so recombine returns d^L entries: every
    amplitude of the (L-1)-site state repeated d times. *)
Theorem C21_recombine_after_post_select : forall (R : sring) (m : fmps R) k w,
  wf m -> uniform m -> 2 <= fL m -> k < fL m -> w < fd m ->
  exists m', post_select m k w = Ok m' /\
    recombine m' = Ok (map (fun s => psi m (ins (firstn (fL m - 1) s) k w))
                           (configs (fd m) (fL m))).
Proof. exact (@post_select_recombine). Qed.
Print Assumptions C21_recombine_after_post_select.

Theorem C21_recorded_length_refuted : exists (m m' : fmps Zi) k w u,
  wf m /\ uniform m /\ 2 <= fL m /\ k < fL m /\ w < fd m /\
  post_select m k w = Ok m' /\ fL m' <> length (fdata m') /\
  recombine m' = Ok u /\ length u <> (fd m ^ length (fdata m'))%nat.
Proof. exact ex_post_select_refuted. Qed.
Print Assumptions C21_recorded_length_refuted.

Example C21_example :
  wf exA /\ 2 <= fL exA /\ 1 < fL exA /\ 0 < nth 1 (dims (fdata exA)) 0%nat /\
  match post_select exA 1 0 with
  | Ok m => mapM (recombine_entry (fdata m)) (configs 2 2) | Err e => Err e end
  = Ok [zi 4 5; zi 11 9; zi 7 2; zi 17 1] /\
  match post_select exA 1 0 with Ok m => recombine m | Err e => Err e end
  = Ok [zi 4 5; zi 4 5; zi 11 9; zi 11 9; zi 7 2; zi 7 2; zi 17 1; zi 17 1].
Proof. exact ex_post_select. Qed.

(** C56: product states and extend are tensor products. *)
Theorem C56_product_state_amplitudes :
  forall (R : sring) (vs : list (nat * (nat -> R))), vs <> [] ->
  exists m, from_product_state vs = Ok m /\ wf m /\ dims (fdata m) = map fst vs /\
    forall s, length s = length vs ->
      psi m s = prodl (map (fun vx => snd (fst vx) (snd vx)) (combine vs s)).
Proof. exact (@product_state_ok). Qed.
Print Assumptions C56_product_state_amplitudes.

Theorem C56_extend_tensor_product : forall (R : sring) (a b : fmps R),
  wf a -> wf b ->
  exists m, mps_extend a b = Ok m /\ wf m /\
    dims (fdata m) = dims (fdata a) ++ dims (fdata b) /\
    forall s t, length s = fL a -> psi m (s ++ t) = psi a s * psi b t.
Proof. exact (@extend_ok). Qed.
Print Assumptions C56_extend_tensor_product.

Example C56_example :
  wf exC /\ wf exD /\
  match mps_extend exC exD with Ok m => recombine m | Err e => Err e end
  = Ok [zi 3 0; zi 1 1; zi 0 6; zi (-2) 2].
Proof. exact ex_extend. Qed.
