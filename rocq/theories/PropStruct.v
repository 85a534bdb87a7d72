(** Property theorems C14-C16, C22: structures, serialisation, storage, padding. *)
From Coq Require Import QArith.
From Verif Require Import Alg QScalars ModelMPS SpecMPS ModelStruct SpecStruct ModelOrth SpecOrth
  ModelCanon SpecCanon ModelPad ProofStruct ProofPad Oracle Oracle2 ExOrth ExStruct.
Local Open Scope nat_scope.
Local Open Scope sr_scope.

(** C14 *)
Theorem C14_serialize_deserialize : forall (R : sring) (m : fmps R), fdata m <> [] ->
  exists v, serialize m = Ok v /\
    length v = list_sum (map (fun A => (phys A * dl A * dr A)%nat) (fdata m)) /\
    forall extra, decoded m (deserialize (v ++ extra) (map shape_of (fdata m))).
Proof. exact (@serialize_roundtrip). Qed.
Print Assumptions C14_serialize_deserialize.

Theorem C14_real_encoding : forall (R : sring) (I : imag R) (m : fmps R),
  (forall x : R, sre x + im_unit I * im_part I x = x) -> fdata m <> [] ->
  exists v, serialize_real I m = Ok v /\
    length v = (2 * list_sum (map (fun A => (phys A * dl A * dr A)%nat) (fdata m)))%nat /\
    decoded m (deserialize_real I v (map shape_of (fdata m))).
Proof. exact (@serialize_real_roundtrip). Qed.
Print Assumptions C14_real_encoding.

Theorem C14_short_vector_rejected : forall (R : sring) st (v : list R),
  length v < list_sum (map size3 st) -> deserialize v st = Err ValueError.
Proof. exact (@deserialize_short). Qed.
Print Assumptions C14_short_vector_rejected.

Example C14_example : fdata exO <> [] /\
  (forall x : Qi, sadd (sre x) (smul (im_unit qimag) (im_part qimag x)) = x) /\
  match serialize_real qimag exO with
  | Ok v => Nat.eqb (length v) 16 && Qi_eqb (nth 14 v s0) (qi (-3) 0) &&
      match deserialize_real qimag v (map shape_of (fdata exO)) with
      | Ok m => Qi_eqb (psi m [1;1]%nat) (qi 0 (-32)) | Err _ => false end
  | Err _ => false end = true.
Proof. exact ex_serial. Qed.

(** C15 *)
Theorem C15_structured : forall (R : sring) (N : numio R) (m : fmps R), io_ok N -> fdata m <> [] ->
  exists f, store N m true = Ok f /\ decoded m (load N f true).
Proof. exact (@store_structured). Qed.
Print Assumptions C15_structured.

Theorem C15_unstructured : forall (R : sring) (N : numio R) (m : fmps R), io_ok N -> fdata m <> [] ->
  exists f, store N m false = Ok f /\
  (decoded m (load N f false) <-> structure_LdD (fL m) (fd m) (fD m) = Ok (map shape_of (fdata m))).
Proof. exact (@store_unstructured). Qed.
Print Assumptions C15_unstructured.

(** a chain with shrunk bonds cannot be read back *)
Theorem C15_unstructured_shrunk_refuted : exists (N : numio Qi) (m : fmps Qi) f,
  io_ok N /\ wf m /\ uniform m /\ store N m false = Ok f /\ load N f false = Err ValueError.
Proof. exact ex_shrunk. Qed.
Print Assumptions C15_unstructured_shrunk_refuted.

(** a chain with a large bond is silently read back as another state *)
Theorem C15_unstructured_silent_refuted : exists (N : numio Qi) (m m' : fmps Qi) f s,
  io_ok N /\ wf m /\ uniform m /\ store N m false = Ok f /\ load N f false = Ok m' /\
  incfg (dims (fdata m)) s /\ psi m' s <> psi m s.
Proof. exact ex_fat. Qed.
Print Assumptions C15_unstructured_silent_refuted.

Example C15_example : io_ok qio /\ fdata exO <> [] /\
  structure_LdD (fL exO) (fd exO) (fD exO) = Ok (map shape_of (fdata exO)) /\
  match store qio exO false with
  | Ok f => match load qio f false with Ok m => Qi_eqb (psi m [1;1]%nat) (psi exO [1;1]%nat) | Err _ => false end
  | Err _ => false end = true /\
  match store qio exShrunk true with
  | Ok f => Nat.eqb (length f) 20 &&
     match load qio f true with Ok m => Qi_eqb (psi m [1;1;1]%nat) (qi 2 0) && Nat.eqb (fL m) 3 | Err _ => false end
  | Err _ => false end = true.
Proof. exact ex_store. Qed.

(** C16 *)
Theorem C16_create_structure : forall L d D, 2 <= L \/ L = 0%nat ->
  exists st, create_structure L d (Some D) = Ok st /\ length st = L /\
  forall k, k < L -> nth k st (0, 0)%nat
    = (Nat.min (d ^ Nat.min k (L - k)) D, Nat.min (d ^ Nat.min (k + 1) (L - (k + 1))) D).
Proof. exact create_structure_spec. Qed.
Print Assumptions C16_create_structure.

Theorem C16_no_limit_is_schmidt_bound : forall L d, 1 <= d -> 2 <= L ->
  exists st, create_structure L d None = Ok st /\ length st = L /\
  forall k, k < L -> nth k st (0, 0)%nat = (d ^ Nat.min k (L - k), d ^ Nat.min (k + 1) (L - (k + 1)))%nat.
Proof. exact create_structure_None. Qed.
Print Assumptions C16_no_limit_is_schmidt_bound.

Theorem C16_single_site_raises : forall d D, create_structure 1 d D = Err IndexError.
Proof. exact create_structure_one. Qed.
Print Assumptions C16_single_site_raises.

Example C16_example : create_structure 5 2 (Some 3%nat) = Ok [(1,2);(2,3);(3,3);(3,2);(2,1)]%nat
  /\ create_structure 4 3 None = Ok [(1,3);(3,9);(9,3);(3,1)]%nat.
Proof. exact (conj eq_refl eq_refl). Qed.

(** C22 *)
Theorem C22_expand : forall (R : sring) (O : lapack2 R) (m : fmps R) D_,
  svd_ok O -> wf m -> uniform m -> 0 < fd m -> pos (fdata m) -> 1 <= D_ -> 2 <= fL m ->
  (forall k A, nth_error (fdata m) k = Some A -> dl A <= bond (fL m) (fd m) D_ k /\
     dr A <= bond (fL m) (fd m) D_ (k + 1)) ->
  match expand O m D_ with
  | Err e => e = LinAlgError
  | Ok m' => wf m' /\ dims (fdata m') = dims (fdata m) /\ Forall left_iso (fdata m') /\
     foc m' = Some (fL m) /\ fcan m' = Some true /\
     exists X, fnorm m' = Some X /\ mr X = 1%nat /\ mc X = 1%nat /\
     forall s, incfg (dims (fdata m)) s -> psi m s = psi m' s * me X 0 0
  end.
Proof. exact (@expand_ok). Qed.
Print Assumptions C22_expand.

(** the tensors before the canonicalisation have exactly the new structure *)
Theorem C22_expand_structure : forall (R : sring) (l : list (site R)) st,
  Forall2 (fun p q => fst p <= fst q /\ snd p <= snd q) (map (fun A => (dl A, dr A)) l) st ->
  exists l', pad_loop l st = Ok l' /\ map (fun A => (dl A, dr A)) l' = st /\
  Forall2 (fun A B => phys B = phys A /\ forall s i j, i < dl B -> j < dr B ->
    ent B s i j = if Nat.ltb i (dl A) && Nat.ltb j (dr A) then ent A s i j else 0) l l'.
Proof. exact (@pad_loop_structure). Qed.
Print Assumptions C22_expand_structure.

Theorem C22_expand_cannot_shrink : forall (R : sring) (O : lapack2 R) (m : fmps R) D_ k A,
  fL m = length (fdata m) -> 2 <= fL m -> nth_error (fdata m) k = Some A ->
  bond (fL m) (fd m) D_ k < dl A \/ bond (fL m) (fd m) D_ (k + 1) < dr A ->
  expand O m D_ = Err ValueError.
Proof. exact (@expand_shrink). Qed.
Print Assumptions C22_expand_cannot_shrink.

Theorem C22_mps_pad : forall (R : sring) (m1 m2 : fmps R), wf m1 -> wf m2 -> fL m1 = fL m2 ->
  exists m1' m2', mps_pad m1 m2 = Ok (m1', m2') /\
  map (fun A => (dl A, dr A)) (fdata m1') = map (fun A => (dl A, dr A)) (fdata m2') /\
  wf m1' /\ wf m2' /\
  dims (fdata m1') = dims (fdata m1) /\ dims (fdata m2') = dims (fdata m2) /\
  (forall s, psi m1' s = psi m1 s) /\ (forall s, psi m2' s = psi m2 s) /\
  (forall k A B C, nth_error (fdata m1) k = Some A -> nth_error (fdata m2) k = Some B ->
     nth_error (fdata m1') k = Some C -> dl C = Nat.max (dl A) (dl B) /\ dr C = Nat.max (dr A) (dr B)).
Proof. exact (@mps_pad_ok). Qed.
Print Assumptions C22_mps_pad.

Example C22_example : svd_ok exLAp /\ wf exProd /\ uniform exProd /\ 0 < fd exProd /\ pos (fdata exProd) /\
  2 <= fL exProd /\
  (forall k A, nth_error (fdata exProd) k = Some A -> dl A <= bond (fL exProd) (fd exProd) 2 k /\
     dr A <= bond (fL exProd) (fd exProd) 2 (k + 1)) /\
  match expand exLAp exProd 2 with
  | Ok m => match structure m with [(1, 2); (2, 1)]%nat => true | _ => false end &&
     match fnorm m with Some X => Qi_eqb (psi exProd [1;0]%nat) (smul (psi m [1;0]%nat) (me X 0 0)) && Qi_eqb (me X 0 0) (qi 5 0)
     | None => false end
  | Err _ => false end = true.
Proof. exact ex_expand. Qed.

Example C22_example_pad : wf exProd /\ wf exO /\ fL exProd = fL exO /\
  match mps_pad exProd exO with
  | Ok (a, b) => match structure a with [(1, 2); (2, 1)]%nat => true | _ => false end &&
     Qi_eqb (psi a [1;0]%nat) (qi 4 0)
  | Err _ => false end = true.
Proof. exact ex_pad. Qed.
