(** Property theorems C18, C19, C20: factors, splitting a pair, two-site gates. *)
From Coq Require Import QArith.
From Verif Require Import Alg QScalars ModelMPS SpecMPS ModelOrth SpecOrth ModelCanon SpecCanon
  ModelTwo SpecTwo ProofTwo ProofTwo2 ProofTwo3 Oracle Oracle2 ExOrth ExCanon ExTwo.
Local Open Scope nat_scope.
Local Open Scope sr_scope.

(** C18 *)
Theorem C18_factors : forall n, 1 <= n -> exists a b, factors n = Ok (a, b) /\ (a * b = n)%nat /\
  (forall x y, (x * y = n)%nat -> Nat.max a b - Nat.min a b <= Nat.max x y - Nat.min x y) /\
  (a <= b \/ a = b + 1)%nat.
Proof. exact factors_spec. Qed.
Print Assumptions C18_factors.

Theorem C18_square : forall d, 1 <= d -> factors (d * d) = Ok (d, d).
Proof. exact factors_square. Qed.
Print Assumptions C18_square.

(** "The larger factor comes first" and "the smaller factor comes first" are both
    false. *)
Theorem C18_order_refuted : exists n m a b c d,
  factors n = Ok (a, b) /\ a < b /\ factors m = Ok (c, d) /\ d < c.
Proof. exists 8, 6, 2, 4, 3, 2. repeat split; auto. Qed.
Print Assumptions C18_order_refuted.

Example C18_example : factors 360 = Ok (18, 20)%nat /\ factors 97 = Ok (1, 97)%nat /\ factors 12 = Ok (4, 3)%nat.
Proof. vm_compute. auto. Qed.

(** C19.  [splits T A B d1 d2 c]: A and B, contracted over their bond, are c T. *)
Theorem C19_qr : forall (R : sring) (O : lapack R) (T : site R) d1 d2,
  lapack_ok O -> factors (phys T) = Ok (d1, d2) ->
  match separate_tensor_qr O T with
  | Err e => e = LinAlgError /\ exists M, la_qr O M = None
  | Ok (A, B) => splits T A B d1 d2 1 /\ left_iso A
  end.
Proof. exact (@separate_qr_ok). Qed.
Print Assumptions C19_qr.

Theorem C19_rq : forall (R : sring) (O : lapack R) (T : site R) d1 d2,
  lapack_ok O -> factors (phys T) = Ok (d1, d2) ->
  match separate_tensor_rq O T with
  | Err e => e = LinAlgError /\ exists M, la_rq O M = None
  | Ok (A, B) => splits T A B d1 d2 1 /\ right_iso B
  end.
Proof. exact (@separate_rq_ok). Qed.
Print Assumptions C19_rq.

(** With truncation to D: the bond is min(D, k), the result is the truncated
    expansion divided by the norm n of the kept singular values; without
    truncation it is T divided by n. *)
Theorem C19_svd : forall (R : sring) (O : lapack2 R) (P : lapack R) (T : site R) D which d1 d2,
  svd_ok O -> lapack_ok P -> factors (phys T) = Ok (d1, d2) ->
  match separate_tensor_svd O P T D which with
  | Err e => (e = LinAlgError /\ exists M, la_svd O M = None) \/
             (e = Exception_ /\ exists A, la_nrm P A = None)
  | Ok (A, B) => phys A = d1 /\ phys B = d2 /\ dl A = dl T /\ dr B = dr T /\ dr A = dl B /\
      dr A = Nat.min (match D with Some D => D | None => Nat.min (d1 * dl T) (d2 * dr T) end)
                     (Nat.min (d1 * dl T) (d2 * dr T)) /\
      (if which then left_iso A else right_iso B) /\
      exists u s v n ninv, is_svd (pair_mat d1 d2 T) u s v /\ sconj n = n /\ n * ninv = 1 /\
        n * n = sum (dr A) (fun a => s a * s a) /\
        (forall x y i j, x < d1 -> y < d2 -> i < dl T -> j < dr T ->
           n * sum (dr A) (fun k => ent A x i k * ent B y k j)
           = sum (dr A) (fun a => me u (x * dl T + i)%nat a * s a * me v a (y * dr T + j)%nat)) /\
        (dr A = Nat.min (d1 * dl T) (d2 * dr T) -> splits T A B d1 d2 ninv)
  end.
Proof. exact (@separate_svd_ok). Qed.
Print Assumptions C19_svd.

(** Grouping again gives back the tensor. *)
Theorem C19_group : forall (R : sring) (T A B : site R) d1 d2 c,
  0 < d2 -> phys T = (d1 * d2)%nat -> splits T A B d1 d2 c ->
  exists G, group_tensors A B = Ok G /\ site_eq G (site_scale c T).
Proof. exact (@group_split). Qed.
Print Assumptions C19_group.

(** A pair of sites of different dimensions does not come back with its own
    dimensions. *)
Theorem C19_dimensions_refuted : exists (O : lapack Qi) (A B T A' B' : site Qi),
  lapack_ok O /\ group_tensors A B = Ok T /\ separate_tensor_rq O T = Ok (A', B') /\
  phys A = 2%nat /\ phys B = 3%nat /\ phys A' = 3%nat /\ phys B' = 2%nat.
Proof. exact ex_unequal. Qed.
Print Assumptions C19_dimensions_refuted.

Example C19_example : svd_ok exSLA /\ lapack_ok exSP /\ factors (phys exS) = Ok (2, 2)%nat /\
  match separate_tensor_svd exSLA exSP exS (Some 1%nat) true, separate_tensor_svd exSLA exSP exS None false with
  | Ok (A, B), Ok (A', B') =>
      Nat.eqb (dr A) 1 && Nat.eqb (dr A') 2 &&
      qlist_eqb [ent A 0 0 0; ent A 1 0 0; ent B 0 0 0; ent B 1 0 0]%nat [q0; q1; q1; q0] &&
      qlist_eqb [ent A' 0 0 1; ent A' 1 0 0]%nat [qi (3#5) 0; qi (4#5) 0]
  | _, _ => false end = true.
Proof. exact ex_svd. Qed.

(** C20 *)
Theorem C20_apply_two_site : forall (R : sring) (O : lapack2 R) (P : lapack R) (m : fmps R) op a b which ts,
  lapack_ok P -> wf m -> dims (fdata m) = repeat 2%nat (fL m) ->
  mr op = 4%nat -> mc op = 4%nat -> a < fL m -> b < fL m -> a <> b ->
  let i := Nat.min a b in let j := Nat.max a b in
  match apply_two_site O P m op [a; b] which None ts with
  | Err e => e = LinAlgError /\ lin_fail P
  | Ok m' => wf m' /\ dims (fdata m') = dims (fdata m) /\
      (fcan m' = fcan m /\ forth m' = forth m /\ foc m' = foc m) /\
      forall s, incfg (dims (fdata m)) s -> psi m' s = act2 op i j (psi m) s
  end.
Proof. exact (@apply_two_site_ok). Qed.
Print Assumptions C20_apply_two_site.

(** With a bond dimension D given and truncate_swaps off, the moves of the far
    qubit are exact: as soon as the gate itself needs no truncation, the result
    is the exact one divided by the norm kept by the splitting. *)
Theorem C20_swaps_exact : forall (R : sring) (O : lapack2 R) (P : lapack R) (m : fmps R) op a b which D,
  svd_ok O -> lapack_ok P -> wf m -> dims (fdata m) = repeat 2%nat (fL m) ->
  mr op = 4%nat -> mc op = 4%nat -> a < fL m -> b < fL m -> a <> b ->
  let i := Nat.min a b in let j := Nat.max a b in
  (forall A, nth_error (fdata m) i = Some A -> (2 * dl A <= D)%nat) ->
  match apply_two_site O P m op [a; b] which (Some D) false with
  | Err e => (e = LinAlgError /\ (lin_fail P \/ exists M, la_svd O M = None)) \/ (e = Exception_ /\ exists A, la_nrm P A = None)
  | Ok m' => wf m' /\ dims (fdata m') = dims (fdata m) /\
      exists n ninv, n * ninv = 1 /\ forall s, incfg (dims (fdata m)) s -> n * psi m' s = act2 op i j (psi m) s
  end.
Proof. exact (@apply_two_site_trunc). Qed.
Print Assumptions C20_swaps_exact.

Example C20_swaps_exact_example : svd_ok exDO /\ lapack_ok exDP /\ wf exD /\ dims (fdata exD) = repeat 2%nat (fL exD) /\
  (forall A, nth_error (fdata exD) 0 = Some A -> (2 * dl A <= 2)%nat) /\
  match apply_two_site exDO exDP exD exC [2; 0]%nat false (Some 2%nat) false with
  | Ok m => qlist_eqb [psi m [0;0;0]; psi m [0;0;1]; psi m [1;0;0]; psi m [1;0;1]; psi m [1;1;1]]%nat
                      [q0; qi (4#5) 0; q0; qi (3#5) 0; q0]
  | Err _ => false end = true.
Proof. exact ex_gate_trunc. Qed.

(** A 2x2 operator with one site is the one-site operator; with two sites an
    error; equal sites a, a act on a, a+1. *)
Theorem C20_single_site : forall (R : sring) (O : lapack2 R) (P : lapack R) (m : fmps R) op k which D ts,
  wf m -> k < fL m -> mr op = 2%nat -> mc op = 2%nat -> nth k (dims (fdata m)) 0%nat = 2%nat ->
  exists m', apply_two_site O P m op [k] which D ts = Ok m' /\ wf m' /\
    forall s, length s = fL m ->
      psi m' s = sum 2 (fun t => me op (nth k s 0%nat) t * psi m (upd s k t)).
Proof. exact (@apply_two_site_single). Qed.
Print Assumptions C20_single_site.

Theorem C20_single_site_operator_on_two_sites : forall (R : sring) (O : lapack2 R) (P : lapack R) (m : fmps R) op a b which D ts,
  mr op = 2%nat -> mc op = 2%nat -> apply_two_site O P m op [a; b] which D ts = Err UnboundLocalError.
Proof. exact (@two_names). Qed.
Print Assumptions C20_single_site_operator_on_two_sites.

Theorem C20_equal_sites : forall (R : sring) (O : lapack2 R) (P : lapack R) (m : fmps R) op a which ts,
  lapack_ok P -> wf m -> dims (fdata m) = repeat 2%nat (fL m) ->
  mr op = 4%nat -> mc op = 4%nat -> (a + 1 < fL m)%nat ->
  match apply_two_site O P m op [a; a] which None ts with
  | Err e => e = LinAlgError /\ lin_fail P
  | Ok m' => forall s, incfg (dims (fdata m)) s -> psi m' s = act2 op a (a + 1) (psi m) s
  end.
Proof. exact (@apply_two_site_same). Qed.
Print Assumptions C20_equal_sites.

Example C20_example : lapack_ok exGLA /\ wf exG /\ dims (fdata exG) = repeat 2%nat (fL exG) /\
  match apply_two_site exLA2 exGLA exG exC [2; 0]%nat false None true with
  | Ok m => qlist_eqb [psi m [0;0;0]; psi m [0;0;1]; psi m [1;0;0]; psi m [1;0;1]; psi m [1;1;1]]%nat
                      [q0; qi 2 0; q0; q1; q0]
  | Err _ => false end = true.
Proof. exact ex_gate. Qed.

(** C11: a gate keeps the recorded orthogonality centre although the tensors
    are no longer orthogonal around it. *)
Theorem C11_gate_flags_refuted : exists (O : lapack2 Qi) (P : lapack Qi) (m m' : fmps Qi) op,
  lapack_ok P /\ wf m /\ mixed_at 0 (fdata m) /\ foc m = Some 0%nat /\ forth m = Some true /\
  apply_two_site O P m op [1; 2]%nat true None true = Ok m' /\ foc m' = Some 0%nat /\ forth m' = Some true /\
  ~ mixed_at 0 (fdata m').
Proof. exact ex_gate_stale. Qed.
Print Assumptions C11_gate_flags_refuted.
