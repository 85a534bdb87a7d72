(** C87: match_gauge_to.  C88: entanglement_entropy.  C89: vfMPS, indexing and comparison. *)
From Coq Require Import QArith Qcanon.
From Verif Require Import Alg QScalars ModelMPS SpecMPS ModelOrth SpecOrth Oracle ExOrth ModelCanon SpecCanon Oracle2 ExCanon ModelEk SpecEk ModelGauge SpecGauge ProofMatch2 ExGauge.
Local Open Scope nat_scope.
Local Open Scope sr_scope.

(** The state is the old one up to a factor of modulus one; the tensors have the bonds of the
    other state, and at every site sum_s A_s B_s^dagger is positive. *)
Theorem C87_match_gauge : forall (R : sring) (polar : mat R -> option (mat R * mat R)) (m b : fmps R),
  polar_ok polar -> wf m -> wf b -> dims (fdata m) = dims (fdata b) ->
  Forall2 (fun A B => (dl A <= dl B)%nat) (fdata m) (fdata b) ->
  match match_gauge_to polar m b with
  | Err e => e = LinAlgError
  | Ok m' => wf m' /\ fL m' = fL m /\ fd m' = fd m /\ Forall2 same_bonds (fdata m') (fdata b) /\ Forall2 matched (fdata m') (fdata b) /\
      (exists w, w * sconj w = 1 /\ forall s, incfg (dims (fdata m)) s -> psi m s = w * psi m' s) /\
      (Forall right_iso (fdata m) -> map (@dl R) (fdata m) = map (@dl R) (fdata b) -> Forall right_iso (fdata m'))
  end.
Proof. exact (@match_ok). Qed.
Print Assumptions C87_match_gauge.

(** Two gauges of one state: afterwards all tensors agree, and the state has changed by a phase. *)
Example C87_example : polar_ok gP /\ (wf gA /\ wf gB /\ dims (fdata gA) = dims (fdata gB) /\ Forall2 (fun A B => (dl A <= dl B)%nat) (fdata gA) (fdata gB) /\
    map (@dl Qi) (fdata gA) = map (@dl Qi) (fdata gB)) /\
  match match_gauge_to gP gA gB with
  | Ok m => forallb (fun AB => qlist_eqb (flat_map (fun s => flat_map (fun i => map (ent (fst AB) s i) (seq 0 (dr (snd AB)))) (seq 0 (dl (snd AB)))) [0;1]%nat)
                        (flat_map (fun s => flat_map (fun i => map (ent (snd AB) s i) (seq 0 (dr (snd AB)))) (seq 0 (dl (snd AB)))) [0;1]%nat)) (combine (fdata m) (fdata gB))
            && Qi_eqb (psi gA [1;0]%nat) (qi 0 (1#2)) && Qi_eqb (psi m [1;0]%nat) (qi (-1#2) 0)
  | _ => false end = true.
Proof. exact (conj (polar_of_ok _) (conj g_wf g_run)). Qed.

(** The p x are the eigenvalues, phi x the eigenvectors of the normalised density matrix of the
    first k sites. *)
Theorem C88_entanglement_entropy : forall (R : sring) (abs : R -> R) (above : R -> bool) (log : R -> R) (O : lapack2 R) (m : fmps R) k,
  svd_ok O -> eig_ok O -> eig_zeros_last O -> @definite R -> @integral R -> (1:R) <> 0 ->
  wf m -> uniform m -> (0 < fd m)%nat -> (exists s, incfg (dims (fdata m)) s /\ psi m s <> 0) -> (k < fL m)%nat ->
  match entanglement_entropy abs above log O m k with
  | Err e => e = LinAlgError
  | Ok (v, m') => wf m' /\ dims (fdata m') = dims (fdata m) /\ (exists c, forall s, incfg (dims (fdata m)) s -> psi m s = c * psi m' s) /\
      exists n (p : nat -> R) (phi : nat -> list nat -> R),
        v = - suml (map (fun p => p * log p) (filter above (map (fun x => abs (p x)) (seq 0 n)))) /\
        orthonormal (firstn k (dims (fdata m))) n phi /\
        (forall x, (x < n)%nat -> p x <> 0) /\ sum n p = 1 /\
        forall s t, incfg (firstn k (dims (fdata m))) s -> incfg (firstn k (dims (fdata m))) t ->
          reduced [] (skipn k (dims (fdata m))) (psi m) s t = sumcfg (dims (fdata m)) (fun u => psi m u * sconj (psi m u)) * sum n (fun x => p x * (phi x s * sconj (phi x t)))
  end.
Proof. exact (@entropy_ok). Qed.
Print Assumptions C88_entanglement_entropy.

Example C88_example : svd_ok exLA2 /\ eig_ok exLA2 /\ eig_zeros_last exLA2 /\ @definite Qi /\ @integral Qi /\ (1:Qi) <> 0 /\ wf exCl /\ uniform exCl /\ (0 < fd exCl)%nat /\
  match entanglement_entropy (fun x => x) (fun _ => true) (fun x => sadd x (qi 1 0)) exLA2 exCl 1 with
  | Ok (v, _) => Qi_eqb v (qi (-962#625) 0) | _ => false end = true.
Proof.
  exact (conj (proj1 exLA2_ok) (conj (proj1 (proj2 exLA2_ok)) (conj (proj2 (proj2 exLA2_ok)) (conj Qi_definite (conj Qi_integral (conj Qi_one_zero (conj (proj1 exCl_wf)
   (conj (proj1 (proj2 exCl_wf)) (conj (proj1 (proj2 (proj2 exCl_wf))) g_entropy))))))))).
Qed.

(** from_fMPS then to_fMPS gives the tensors of the canonicalised state back. *)
Theorem C89_vidal_round_trip : forall (R : sring) (inv : mat R -> option (mat R)) (O : lapack2 R) (m : fmps R),
  (forall M N, inv M = Some N -> mr N = mr M /\ mc N = mc M /\ forall i j, (i < mr M)%nat -> (j < mr M)%nat -> sum (mr M) (fun k => me M i k * me N k j) = dlt i j) ->
  svd_ok O -> eig_ok O -> eig_zeros_last O -> @definite R -> @integral R -> (1:R) <> 0 ->
  wf m -> uniform m -> (0 < fd m)%nat -> (exists s, incfg (dims (fdata m)) s /\ psi m s <> 0) ->
  match vf_from_fMPS inv O m with
  | Err e => e = LinAlgError
  | Ok (v, m') => exists Ls x, right_canonicalise O m None true true = Ok (m', Some Ls) /\ vf_to_fMPS v = Ok x /\
      fd x = fd m /\ fL x = fL m /\ wf x /\ Forall2 (fun A B => same_bonds A B /\ forall s i j, (s < phys B)%nat -> (i < dl B)%nat -> (j < dr B)%nat -> ent A s i j = ent B s i j) (fdata x) (fdata m') /\
      (forall s, incfg (dims (fdata m)) s -> psi x s = psi m' s) /\ exists c, forall s, incfg (dims (fdata m)) s -> psi m s = c * psi x s
  end.
Proof. exact (@vf_round_trip). Qed.
Print Assumptions C89_vidal_round_trip.

(** The constructor does not keep its data. *)
Theorem C89_constructor_refuted : forall (R : sring) (data : list (mat R * site R)) (d : nat) v,
  vf_init (Some data) (Some d) = Ok v -> vf_to_fMPS v = Err AttributeError.
Proof. exact (@vf_init_no_data). Qed.
Print Assumptions C89_constructor_refuted.

Theorem C89_items : forall (R : sring) (m m' : fmps R) k A, mps_setitem m k A = Ok m' ->
  mps_getitem m' k = Ok A /\ (forall j, j <> k -> mps_getitem m' j = mps_getitem m j) /\ mps_len m' = mps_len m /\ (forall j, mps_call m' j = mps_getitem m' (S j)).
Proof. exact (@item_access). Qed.
Print Assumptions C89_items.

Theorem C89_eq : forall (R : sring) (close : site R -> site R -> res bool) (a b : fmps R), length (fdata a) = length (fdata b) ->
  mps_eq close a b = Ok true <-> Forall2 (fun A B => close A B = Ok true) (fdata a) (fdata b).
Proof. exact (@eq_ok). Qed.
Print Assumptions C89_eq.

Theorem C89_ne : forall (R : sring) (close : site R -> site R -> res bool) (a b : fmps R),
  mps_ne close a b = match mps_eq close a b with Ok x => Ok (negb x) | Err e => Err e end.
Proof. exact (@ne_ok). Qed.
Print Assumptions C89_ne.

(** A state equals every state that continues it. *)
Theorem C89_eq_length_refuted : forall (R : sring) (close : site R -> site R -> res bool) (a b : fmps R) rest,
  (forall A, close A A = Ok true) -> fdata b = fdata a ++ rest -> mps_eq close a b = Ok true /\ mps_eq close b a = Ok true.
Proof. exact (@eq_prefix). Qed.
Print Assumptions C89_eq_length_refuted.

Example C89_example : (forall M N, ginv M = Some N -> mr N = mr M /\ mc N = mc M /\ forall i j, (i < mr M)%nat -> (j < mr M)%nat -> sum (mr M) (fun k => me M i k * me N k j) = dlt i j) /\
  wf exC /\ uniform exC /\ (0 < fd exC)%nat /\
  match vf_from_fMPS ginv exLA2 exC with
  | Ok (v, m) => match vf_to_fMPS v with
      | Ok x => qlist_eqb (map (psi x) [[0;0];[0;1];[1;0];[1;1]]%nat) (map (psi m) [[0;0];[0;1];[1;0];[1;1]]%nat) && Qi_eqb (psi exC [1;0]%nat) (smul (qi 625 0) (psi x [1;0]%nat))
          && negb (Qi_eqb (psi x [1;0]%nat) (qi 0 0))
      | _ => false end
  | _ => false end = true.
Proof. exact (conj ginv_ok (conj (proj1 exC_wf) (conj (proj1 (proj2 exC_wf)) (conj (proj1 (proj2 (proj2 exC_wf))) g_vidal)))). Qed.
