(** Property theorems C09, C10, C23, C24, C59: block measurements. *)
From Coq Require Import QArith Permutation.
From Verif Require Import Alg QScalars ModelMPS SpecMPS ModelOrth SpecOrth Oracle ExOrth ModelNcon SpecNcon PropNcon ModelEk SpecEk
  ProofEk4 ProofEk5 ProofEk6 ProofEk7 ExEk.
Local Open Scope nat_scope.
Local Open Scope sr_scope.

(** C23: every label of links(k) occurs twice, labels are 1..4k; label n joins bra
    tensor n to the operator, label k+n ket tensor n; neighbours share a bond, the
    two layers share the outer bonds. *)
Theorem C23_links : forall k, 0 < k ->
  Permutation (concat (links k true)) (zs 1 (4 * k) ++ zs 1 (4 * k)) /\ length (links k true) = (2 * k + 1)%nat /\
  nth_error (links k true) k = Some (zs 1 (2 * k)) /\
  exists b c : nat -> Z, b 0%nat = c 0%nat /\ b k = c k /\ forall n, n < k ->
    nth_error (links k true) n = Some [Z.of_nat (n + 1); b n; b (S n)] /\
    nth_error (links k true) (k + 1 + n) = Some [Z.of_nat (k + (n + 1)); c n; c (S n)].
Proof. exact links_op_structure. Qed.
Print Assumptions C23_links.

Theorem C23_links_no_operator : forall k, 0 < k ->
  Permutation (concat (links k false)) (zs 1 (3 * k) ++ zs 1 (3 * k)) /\ length (links k false) = (2 * k)%nat /\
  exists b c : nat -> Z, b 0%nat = c 0%nat /\ b k = c k /\ forall n, n < k ->
    nth_error (links k false) n = Some [Z.of_nat (n + 1); b n; b (S n)] /\
    nth_error (links k false) (k + n) = Some [Z.of_nat (n + 1); c n; c (S n)].
Proof. exact links_noop_structure. Qed.
Print Assumptions C23_links_no_operator.

(** the network without operator is <psi|psi> *)
Theorem C23_norm_network : forall (R : sring) S (m : fmps R), setio_ok S -> wf m ->
  exists T, ncon S (map (fun M => tens_site (site_conj M)) (fdata m) ++ map tens_site (fdata m)) (links (fL m) false) None None false = Ok T /\
    tsh T = [] /\ te T [] = sumcfg (dims (fdata m)) (fun s => sconj (psi m s) * psi m s).
Proof. exact (@noop_norm). Qed.
Print Assumptions C23_norm_network.

Example C23_example : links 2 true = [[1;5;6];[2;6;7];[1;2;3;4];[3;5;8];[4;8;7]]%Z /\ links 2 false = [[1;3;4];[2;4;5];[1;3;6];[2;6;5]]%Z.
Proof. split; reflexivity. Qed.

(** C09: with isometries on both sides of the block E_k is <psi|O|psi>, object unchanged. *)
Theorem C09_E_k_mixed : forall (R : sring) S (O : lapack R) (m : fmps R) op i k,
  setio_ok S -> wf m -> uniform m -> (0 < k)%nat -> (i + k <= fL m)%nat ->
  mr op = Nat.pow (fd m) k -> mc op = Nat.pow (fd m) k ->
  needs_centre m (seq i k) = Ok false -> iso_around m i k ->
  mps_Ek S O m op (seq i k)
  = Ok (sre (expect (repeat (fd m) i) (repeat (fd m) k) (repeat (fd m) (fL m - i - k)) (psi m) (block_op (fd m) op)), m).
Proof. exact (@Ek_mixed). Qed.
Print Assumptions C09_E_k_mixed.

Theorem C09_E_k_string_mixed : forall (R : sring) S (O : lapack R) (m : fmps R) ops i k,
  setio_ok S -> wf m -> uniform m -> (0 < k)%nat -> (i + k <= fL m)%nat -> length ops = k ->
  Forall (fun M => mr M = fd m /\ mc M = fd m) ops ->
  needs_centre m (seq i k) = Ok false -> iso_around m i k ->
  mps_Ek_string S O m ops (seq i k)
  = Ok (sre (expect (repeat (fd m) i) (repeat (fd m) k) (repeat (fd m) (fL m - i - k)) (psi m) (string_op ops)), m).
Proof. exact (@Ek_string_mixed). Qed.
Print Assumptions C09_E_k_string_mixed.

(** any object with truthful flags: E_k moves the centre if needed and returns
    <psi|O|psi>/<psi|psi>. *)
Theorem C09_E_k : forall (R : sring) S (O : lapack R) (m : fmps R) op i k,
  setio_ok S -> lapack_ok O -> wf m -> uniform m -> pos (fdata m) -> flags_set m -> flags_true m ->
  (0 < k)%nat -> (i + k <= fL m)%nat -> mr op = Nat.pow (fd m) k -> mc op = Nat.pow (fd m) k ->
  match mps_Ek S O m op (seq i k) with
  | Err e => e = LinAlgError \/ e = Exception_
  | Ok (v, m') => meas_post m m' i k /\
      v * sumcfg (dims (fdata m)) (fun s => psi m s * sconj (psi m s))
      = sre (expect (repeat (fd m) i) (repeat (fd m) k) (repeat (fd m) (fL m - i - k)) (psi m) (block_op (fd m) op))
  end.
Proof. exact (@Ek_ok). Qed.
Print Assumptions C09_E_k.

Theorem C09_E_k_string : forall (R : sring) S (O : lapack R) (m : fmps R) ops i k,
  setio_ok S -> lapack_ok O -> wf m -> uniform m -> pos (fdata m) -> flags_set m -> flags_true m ->
  (0 < k)%nat -> (i + k <= fL m)%nat -> length ops = k -> Forall (fun M => mr M = fd m /\ mc M = fd m) ops ->
  match mps_Ek_string S O m ops (seq i k) with
  | Err e => e = LinAlgError \/ e = Exception_
  | Ok (v, m') => meas_post m m' i k /\
      v * sumcfg (dims (fdata m)) (fun s => psi m s * sconj (psi m s))
      = sre (expect (repeat (fd m) i) (repeat (fd m) k) (repeat (fd m) (fL m - i - k)) (psi m) (string_op ops))
  end.
Proof. exact (@Ek_string_ok). Qed.
Print Assumptions C09_E_k_string.

(** E_L: <psi|O|psi> in any form, without normalisation. *)
Theorem C09_E_L : forall (R : sring) S (m : fmps R) op, setio_ok S -> wf m -> uniform m ->
  mr op = Nat.pow (fd m) (fL m) -> mc op = Nat.pow (fd m) (fL m) ->
  mps_EL S m op = Ok (sre (sumcfg (dims (fdata m)) (fun s => sumcfg (dims (fdata m)) (fun t =>
     sconj (psi m s) * block_op (fd m) op s t * psi m t)))).
Proof. exact (@EL_ok). Qed.
Print Assumptions C09_E_L.

Example C09_example : setio_ok setA /\ lapack_ok exLA /\ wf exO /\ pos (fdata exO) /\
  (flags_set exO /\ flags_true exO /\ uniform exO /\ foc exO = None) /\
  match mps_Ek setA exLA exO qY [1]%nat with Ok (v, _) => Qi_eqb v (qi (52#225) 0) | _ => false end = true /\
  match mps_Ek setA exLA exO qYP [0;1]%nat with Ok (v, _) => Qi_eqb v (qi (-4#9) 0) | _ => false end = true /\
  match mps_Ek_string setA exLA exO [qY; qP] [0;1]%nat with Ok (v, _) => Qi_eqb v (qi (-4#9) 0) | _ => false end = true /\
  match mps_EL setA exO qYP with Ok v => Qi_eqb v (qi (-2500) 0) | _ => false end = true.
Proof.
  exact (conj setA_ok (conj (oracle_ok _ _ _) (conj (proj1 exO_wf) (conj (proj2 exO_wf) (conj exO_flags ex_Ek))))).
Qed.

(** ... and a run in which the centre is already in the block. *)
Example C09_mixed_example : needs_centre exM [1]%nat = Ok false /\ foc exM = Some 1%nat /\
  match mps_Ek setA exLA exM qY [1]%nat with Ok (v, _) => Qi_eqb v (qi (52#225) 0) | _ => false end = true.
Proof. exact ex_mixed_block. Qed.

(** C10: E_k on one site is the expectation value of the operator (not of its
    transpose). *)
Theorem C10_E_k : forall (R : sring) S (O : lapack R) (m : fmps R) op i,
  setio_ok S -> lapack_ok O -> wf m -> uniform m -> pos (fdata m) -> flags_set m -> flags_true m ->
  (i < fL m)%nat -> mr op = fd m -> mc op = fd m ->
  match mps_Ek S O m op [i] with
  | Err e => e = LinAlgError \/ e = Exception_
  | Ok (v, m') => meas_post m m' i 1 /\
      v * sumcfg (dims (fdata m)) (fun s => psi m s * sconj (psi m s)) = sre (expect1 (dims (fdata m)) (psi m) i (me op))
  end.
Proof. exact (@Ek_one). Qed.
Print Assumptions C10_E_k.

(** E and E_k disagree on Sy. *)
Theorem C10_E_and_E_k_differ : exists (S : setio) (O : lapack Qi) (m : fmps Qi) op v w m' m'',
  setio_ok S /\ lapack_ok O /\ wf m /\ mps_E O m op 1 = Ok (v, m') /\ mps_Ek S O m op [1]%nat = Ok (w, m'') /\ v <> w.
Proof. exact ex_differ. Qed.
Print Assumptions C10_E_and_E_k_differ.

(** C24: rho is the partial trace of |psi><psi| over the other sites. *)
Theorem C24_rho_mixed : forall (R : sring) S (O : lapack R) (m : fmps R) i k j,
  setio_ok S -> wf m -> uniform m -> (0 < fd m)%nat -> (0 < k)%nat -> (i + k <= fL m)%nat ->
  foc m = Some j -> (i <= j < i + k)%nat -> iso_around m i k ->
  exists r, mps_rho S O m (seq i k) = Ok (r, m) /\ mr r = Nat.pow (fd m) k /\ mc r = Nat.pow (fd m) k /\
    forall s t, incfg (repeat (fd m) k) s -> incfg (repeat (fd m) k) t ->
      block_op (fd m) r s t = reduced (repeat (fd m) i) (repeat (fd m) (fL m - i - k)) (psi m) s t.
Proof. exact (@rho_mixed). Qed.
Print Assumptions C24_rho_mixed.

Theorem C24_rho : forall (R : sring) S (O : lapack R) (m : fmps R) i k,
  setio_ok S -> lapack_ok O -> wf m -> uniform m -> (0 < fd m)%nat -> pos (fdata m) -> centre_true m ->
  (0 < k)%nat -> (i + k <= fL m)%nat ->
  match mps_rho S O m (seq i k) with
  | Err e => e = LinAlgError \/ e = Exception_
  | Ok (r, m') => rho_post m m' i k /\ mr r = Nat.pow (fd m) k /\ mc r = Nat.pow (fd m) k /\
      forall s t, incfg (repeat (fd m) k) s -> incfg (repeat (fd m) k) t ->
        block_op (fd m) r s t * sumcfg (dims (fdata m)) (fun s => psi m s * sconj (psi m s))
        = reduced (repeat (fd m) i) (repeat (fd m) (fL m - i - k)) (psi m) s t
  end.
Proof. exact (@rho_ok). Qed.
Print Assumptions C24_rho.

(** E_k(O) = Tr(rho O). *)
Theorem C24_E_k_is_trace : forall (R : sring) S (O : lapack R) (m : fmps R) op i k j,
  setio_ok S -> wf m -> uniform m -> (0 < fd m)%nat -> (0 < k)%nat -> (i + k <= fL m)%nat ->
  mr op = Nat.pow (fd m) k -> mc op = Nat.pow (fd m) k -> needs_centre m (seq i k) = Ok false ->
  foc m = Some j -> (i <= j < i + k)%nat -> iso_around m i k ->
  exists r, mps_rho S O m (seq i k) = Ok (r, m) /\
    mps_Ek S O m op (seq i k) = Ok (sre (sum (Nat.pow (fd m) k) (fun x => sum (Nat.pow (fd m) k) (fun y => me r x y * me op y x))), m).
Proof. exact (@Ek_trace). Qed.
Print Assumptions C24_E_k_is_trace.

(** Product states: the list of one-site matrices; their tensor product is the
    partial trace up to the norms of the other sites. *)
Theorem C24_rho_product : forall (R : sring) S (m : fmps R) i k, setio_ok S -> wf m -> uniform m -> pos (fdata m) -> fd m <> 1%nat ->
  bond_dimension m = 1%nat -> (i + k <= fL m)%nat ->
  exists rs, mps_rho_list S m (seq i k) = Ok rs /\ length rs = k /\ Forall (fun M => mr M = fd m /\ mc M = fd m) rs /\
    forall s t, length s = k -> length t = k ->
      string_op rs s t * outside_norm (fdata m) i k = reduced (repeat (fd m) i) (repeat (fd m) (fL m - i - k)) (psi m) s t.
Proof. exact (@rho_list_ok). Qed.
Print Assumptions C24_rho_product.

Example C24_example : setio_ok setA /\ lapack_ok exLA /\ wf exO /\ uniform exO /\ pos (fdata exO) /\ foc exO = None /\
  match mps_rho setA exLA exO [1]%nat with
  | Ok (r, _) => qlist_eqb [me r 0 0; me r 0 1; me r 1 0; me r 1 1]%nat [qi (157#225) 0; qi 0 (-26#225); qi 0 (26#225); qi (68#225) 0]
  | _ => false end = true.
Proof.
  exact (conj setA_ok (conj (oracle_ok _ _ _) (conj (proj1 exO_wf) (conj (proj1 (proj2 (proj2 exO_flags))) (conj (proj2 exO_wf)
    (conj (proj2 (proj2 (proj2 exO_flags))) ex_rho)))))).
Qed.

Example C24_product_example : (wf exP /\ pos (fdata exP) /\ uniform exP /\ bond_dimension exP = 1%nat /\ bond_dimension exO = 2%nat) /\
  match mps_rho_list setA exP [0;1]%nat with
  | Ok [r; r'] => qlist_eqb [me r 0 0; me r 0 1; me r 1 0; me r 1 1; me r' 0 1]%nat [qi (9#25) 0; qi 0 (-12#25); qi 0 (12#25); qi (16#25) 0; qi 2 0]
  | _ => false end = true.
Proof. exact (conj exP_flags ex_rho_list). Qed.

(** C59: local_overlap is Tr(rho_a rho_b) of the normalised states. *)
Theorem C59_local_overlap : forall (R : sring) S (O : lapack R) (a b : fmps R) i k d L,
  setio_ok S -> lapack_ok O -> wf a -> wf b -> uniform a -> uniform b -> pos (fdata a) -> pos (fdata b) ->
  fd a = d -> fd b = d -> (0 < d)%nat -> fL a = L -> fL b = L ->
  flags_set a -> flags_true a -> centre_true b -> (0 < k)%nat -> (i + k <= L)%nat ->
  bond_dimension a <> 1%nat -> bond_dimension b <> 1%nat ->
  match mps_local_overlap S O a b (seq i k) with
  | Err e => e = LinAlgError \/ e = Exception_
  | Ok (v, a', b') => meas_post a a' i k /\ rho_post b b' i k /\
      v * sumcfg (repeat d L) (fun s => psi a s * sconj (psi a s)) * sumcfg (repeat d L) (fun s => psi b s * sconj (psi b s))
      = sre (sumcfg (repeat d k) (fun s => sumcfg (repeat d k) (fun t =>
          reduced (repeat d i) (repeat d (L - i - k)) (psi a) s t * reduced (repeat d i) (repeat d (L - i - k)) (psi b) t s)))
  end.
Proof. exact (@local_overlap_ok). Qed.
Print Assumptions C59_local_overlap.

(** With a product state on either side its own norm outside the block is not
    divided out. *)
Theorem C59_local_overlap_product : forall (R : sring) S (O : lapack R) (a b : fmps R) i k d L,
  setio_ok S -> lapack_ok O -> wf a -> wf b -> uniform a -> uniform b -> pos (fdata a) -> pos (fdata b) ->
  fd a = d -> fd b = d -> (1 < d)%nat -> fL a = L -> fL b = L ->
  flags_set b -> flags_true b -> (0 < k)%nat -> (i + k <= L)%nat -> bond_dimension a = 1%nat ->
  match mps_local_overlap S O a b (seq i k) with
  | Err e => e = LinAlgError \/ e = Exception_
  | Ok (v, a', b') => a' = a /\ meas_post b b' i k /\
      v * sumcfg (repeat d L) (fun s => psi b s * sconj (psi b s)) * outside_norm (fdata a) i k
      = sre (sumcfg (repeat d k) (fun s => sumcfg (repeat d k) (fun t =>
          reduced (repeat d i) (repeat d (L - i - k)) (psi a) s t * reduced (repeat d i) (repeat d (L - i - k)) (psi b) t s)))
  end.
Proof. exact (@local_overlap_product). Qed.
Print Assumptions C59_local_overlap_product.

Theorem C59_local_overlap_product_other : forall (R : sring) S (O : lapack R) (a b : fmps R) i k d L,
  setio_ok S -> lapack_ok O -> wf a -> wf b -> uniform a -> uniform b -> pos (fdata a) -> pos (fdata b) ->
  fd a = d -> fd b = d -> (1 < d)%nat -> fL a = L -> fL b = L ->
  flags_set a -> flags_true a -> (0 < k)%nat -> (i + k <= L)%nat -> bond_dimension a <> 1%nat -> bond_dimension b = 1%nat ->
  match mps_local_overlap S O a b (seq i k) with
  | Err e => e = LinAlgError \/ e = Exception_
  | Ok (v, a', b') => meas_post a a' i k /\ b' = b /\
      v * sumcfg (repeat d L) (fun s => psi a s * sconj (psi a s)) * outside_norm (fdata b) i k
      = sre (sumcfg (repeat d k) (fun s => sumcfg (repeat d k) (fun t =>
          reduced (repeat d i) (repeat d (L - i - k)) (psi a) s t * reduced (repeat d i) (repeat d (L - i - k)) (psi b) t s)))
  end.
Proof. exact (@local_overlap_product'). Qed.
Print Assumptions C59_local_overlap_product_other.

(** the last two values carry the factor 5 = |(2,1)|^2 of the unnormalised product state *)
Example C59_example :
  match mps_local_overlap setA exLA exO exO [1]%nat with Ok (v, _, _) => Qi_eqb v (qi (49#81) 0) | _ => false end = true /\
  match mps_local_overlap setA exLA exP exO [1]%nat with Ok (v, _, _) => Qi_eqb v (qi (232#75) 0) | _ => false end = true /\
  match mps_local_overlap setA exLA exO exP [1]%nat with Ok (v, _, _) => Qi_eqb v (qi (232#75) 0) | _ => false end = true.
Proof. exact ex_local_overlap. Qed.
