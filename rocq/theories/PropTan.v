(** C53: null-space projectors; C26: tangent vectors. *)
From Coq Require Import QArith Qcanon.
From Verif Require Import Alg QScalars ModelMPS SpecMPS ModelOrth Oracle ExOrth ModelNcon SpecNcon PropNcon ModelEk ModelNp ModelEnergy ModelTan SpecTan ProofTan ProofTan2 ProofTan3 ExTan.
Local Open Scope nat_scope.
Local Open Scope sr_scope.

(** With a diagonal real environment the left null projector is self-adjoint, its columns and
    images satisfy the gauge condition, and it is the identity on tensors that satisfy it. *)
Theorem C53_left : forall (R : sring) (K : tanlib R) (S : setio), tanlib_ok K -> setio_ok S ->
  forall (m : fmps R) (n : nat) (ls : list (mat R)) (A : site R) (l : mat R),
  nth_error (fdata m) n = Some A -> nth_error ls n = Some l -> phys A = fd m -> (0 < phys A)%nat -> (0 < dl A)%nat ->
  mr l = dl A -> diagonal l -> (forall a, (a < dl A)%nat -> sconj (me l a a) = me l a a) -> left_ready K A l ->
  exists pr V, left_null_projector K S m n (Some ls) None = Ok (pr, V) /\ tsh pr = [phys A; dl A; phys A; dl A] /\
    (forall s a t c, (a < dl A)%nat -> (c < dl A)%nat -> te pr [s; a; t; c] = sconj (te pr [t; c; s; a])) /\
    (forall t c, (c < dl A)%nat -> left_gauge A l (fun s a => te pr [s; a; t; c])) /\
    (forall X, left_gauge A l (project (phys A) (dl A) (te pr) l X)) /\
    (forall X, left_gauge A l X -> forall s a, (s < phys A)%nat -> (a < dl A)%nat -> project (phys A) (dl A) (te pr) l X s a = X s a).
Proof. intros R K S HK HS. exact (left_projector K S HK HS). Qed.
Print Assumptions C53_left.

(** Without environments the function takes those of get_envs, which are always diagonal. *)
Theorem C53_left_default : forall (R : sring) (K : tanlib R) (S : setio), tanlib_ok K -> setio_ok S ->
  forall (m : fmps R) (n : nat) (A : site R), wf m -> uniform m -> positive_dims (fdata m) -> nth_error (fdata m) n = Some A ->
  exists ls rs l, get_envs m = Ok (ls, rs) /\ nth_error ls n = Some l /\ mr l = dl A /\ diagonal l /\
  (left_ready K A l ->
  exists pr V, left_null_projector K S m n None None = Ok (pr, V) /\ tsh pr = [phys A; dl A; phys A; dl A] /\
    (forall s a t c, (a < dl A)%nat -> (c < dl A)%nat -> te pr [s; a; t; c] = sconj (te pr [t; c; s; a])) /\
    (forall t c, (c < dl A)%nat -> left_gauge A l (fun s a => te pr [s; a; t; c])) /\
    (forall X, left_gauge A l (project (phys A) (dl A) (te pr) l X)) /\
    (forall X, left_gauge A l X -> forall s a, (s < phys A)%nat -> (a < dl A)%nat -> project (phys A) (dl A) (te pr) l X s a = X s a)).
Proof. intros R K S HK HS. exact (left_projector_none K S HK HS). Qed.
Print Assumptions C53_left_default.

(** With the environment of a chain that is not diagonal the gauge condition fails. *)
Theorem C53_nondiagonal_refuted : exists (K : tanlib Qi) S (m : fmps Qi) l A B pr V t c,
  tanlib_ok K /\ setio_ok S /\ wf m /\ uniform m /\ fdata m = [A; B] /\ hermitian l /\ left_ready K B l /\
  (forall b b', (b < 2)%nat -> (b' < 2)%nat -> me l b b' = sum 2 (fun s => smul (sconj (ent A s 0%nat b)) (ent A s 0%nat b'))) /\
  left_null_projector K S m 1 (Some [mkMat 1 1 (fun _ _ => s1); l]) None = Ok (pr, V) /\ (t < phys B)%nat /\ (c < dl B)%nat /\
  ~ left_gauge B l (fun s a => te pr [s; a; t; c]).
Proof. exact exV_fails. Qed.
Print Assumptions C53_nondiagonal_refuted.

(** The right null projector is self-adjoint; its columns are orthogonal with the weight r times
    the root of r, so that the gauge condition holds when the root is the identity ... *)
Theorem C53_right : forall (R : sring) (K : tanlib R) (S : setio), tanlib_ok K -> setio_ok S ->
  forall (m : fmps R) (n : nat) (rs : list (mat R)) (A : site R) (r : mat R),
  nth_error (fdata m) n = Some A -> nth_error rs (n + 1) = Some r -> phys A = fd m -> (0 < phys A)%nat -> (0 < dr A)%nat ->
  mr r = dr A -> diagonal r -> (forall a, (a < dr A)%nat -> sconj (me r a a) = me r a a) -> right_ready K A r ->
  exists pr V C, right_null_projector K S m n (Some rs) None = Ok (pr, V) /\ tsh pr = [phys A; dr A; phys A; dr A] /\ t_ch K r = Ok C /\
    (forall s b t c, (b < dr A)%nat -> (c < dr A)%nat -> te pr [s; b; t; c] = sconj (te pr [t; c; s; b])) /\
    (forall a t c, (a < dl A)%nat -> (c < dr A)%nat -> sum (phys A) (fun s => sum (dr A) (fun b => sconj (ent A s a b) * (me r b b * me C b b) * te pr [s; b; t; c])) = 0) /\
    ((forall b, (b < dr A)%nat -> me C b b = 1) -> forall t c, (c < dr A)%nat -> right_gauge A r (fun s b => te pr [s; b; t; c])).
Proof. intros R K S HK HS. exact (right_projector K S HK HS). Qed.
Print Assumptions C53_right.

(** ... but not in general, even for the diagonal environments of get_envs. *)
Theorem C53_right_refuted : exists (K : tanlib Qi) S (m : fmps Qi) ls rs A r pr V t c,
  tanlib_ok K /\ setio_ok S /\ wf m /\ uniform m /\ positive_dims (fdata m) /\ nth_error (fdata m) 0 = Some A /\ get_envs m = Ok (ls, rs) /\ nth_error rs 1 = Some r /\ right_ready K A r /\
  right_null_projector K S m 0 None None = Ok (pr, V) /\ (t < phys A)%nat /\ (c < dr A)%nat /\ ~ right_gauge A r (fun s b => te pr [s; b; t; c]).
Proof. exact exW_fails. Qed.
Print Assumptions C53_right_refuted.

(** Any vector of the tangent-space dimension is imported, and extract gives it back. *)
Theorem C26_extract_import : forall (R : sring) (K : tanlib R) (S : setio), tanlib_ok K -> setio_ok S ->
  forall (m : fmps R) ls rs, wf m -> uniform m -> positive_dims (fdata m) -> get_envs m = Ok (ls, rs) -> tangent_ready K (fdata m) ls rs ->
  forall vLs shapes, tangent_space_dims K S m None = Ok (vLs, shapes) -> empty_first shapes ->
  forall v : list R, length v = tangent_dim shapes ->
  exists m', import_tangent_vector K S m v = Ok m' /\ same_shapes (fdata m) (fdata m') /\ extract_tangent_vector K S m (fdata m') = Ok v.
Proof. intros R K S HK HS m ls rs H1 H2 H3 H4 H5. exact (extract_import K S HK HS m ls rs H1 H2 H3 H4 H5). Qed.
Print Assumptions C26_extract_import.

(** extract of any tensors gives a vector of the tangent-space dimension; importing it gives the
    projections of the tensors, which are the tensors themselves if they satisfy the gauge
    condition. *)
Theorem C26_import_extract : forall (R : sring) (K : tanlib R) (S : setio), tanlib_ok K -> setio_ok S ->
  forall (m : fmps R) ls rs, wf m -> uniform m -> positive_dims (fdata m) -> get_envs m = Ok (ls, rs) -> tangent_ready K (fdata m) ls rs ->
  forall vLs shapes, tangent_space_dims K S m None = Ok (vLs, shapes) -> empty_first shapes ->
  forall dA : list (site R), same_shapes (fdata m) dA ->
  exists v m', extract_tangent_vector K S m dA = Ok v /\ length v = tangent_dim shapes /\ import_tangent_vector K S m v = Ok m' /\ same_shapes (fdata m) (fdata m') /\
    forall n A X l, nth_error (fdata m) n = Some A -> nth_error dA n = Some X -> nth_error ls n = Some l -> exists B pr V,
      nth_error (fdata m') n = Some B /\ left_null_projector K S m n (Some ls) None = Ok (pr, V) /\
      (forall s a b, (s < phys A)%nat -> (a < dl A)%nat -> (b < dr A)%nat -> ent B s a b = project (phys A) (dl A) (te pr) l (fun t c => ent X t c b) s a) /\
      (forall b, (b < dr A)%nat -> left_gauge A l (fun t c => ent B t c b)) /\
      ((forall b, (b < dr A)%nat -> left_gauge A l (fun t c => ent X t c b)) -> site_eq X B).
Proof. intros R K S HK HS m ls rs H1 H2 H3 H4 H5. exact (import_extract K S HK HS m ls rs H1 H2 H3 H4 H5). Qed.
Print Assumptions C26_import_extract.

(** The dimensions: one pair per site, (the size of its null space, its right bond). *)
Theorem C26_dims : forall (R : sring) (K : tanlib R) (S : setio), tanlib_ok K -> setio_ok S ->
  forall (m : fmps R) ls rs, wf m -> uniform m -> positive_dims (fdata m) -> get_envs m = Ok (ls, rs) -> tangent_ready K (fdata m) ls rs ->
  exists vLs shapes, tangent_space_dims K S m None = Ok (vLs, shapes) /\ length shapes = length (fdata m) /\
    forall n A, nth_error (fdata m) n = Some A -> exists pr V, left_null_projector K S m n (Some ls) None = Ok (pr, V) /\ nth_error vLs n = Some V /\ nth_error shapes n = Some (dr V, dr A).
Proof. intros R K S HK HS. exact (dims_per_site K S HK HS). Qed.
Print Assumptions C26_dims.

(** When a site with an empty tangent space follows one with a tangent space, import fails on
    what extract returned. *)
Theorem C26_order_refuted : exists (K : tanlib Qi) S (m : fmps Qi) ls rs vLs shapes v,
  tanlib_ok K /\ setio_ok S /\ wf m /\ uniform m /\ positive_dims (fdata m) /\ get_envs m = Ok (ls, rs) /\ tangent_ready K (fdata m) ls rs /\
  tangent_space_dims K S m None = Ok (vLs, shapes) /\ shapes = [(1, 1); (0, 2); (3, 1)]%nat /\
  extract_tangent_vector K S m (fdata m) = Ok v /\ length v = tangent_dim shapes /\ import_tangent_vector K S m v = Err ValueError.
Proof. exact exU_fails. Qed.
Print Assumptions C26_order_refuted.

(** Non-vacuity: a two-site chain with environments diag(1,4) and diag(9,4)/25. *)
Example C26_case : exists ls rs vLs shapes, tanlib_ok exK /\ setio_ok setA /\ wf exT /\ uniform exT /\ positive_dims (fdata exT) /\ get_envs exT = Ok (ls, rs) /\
  tangent_ready exK (fdata exT) ls rs /\ tangent_space_dims exK setA exT None = Ok (vLs, shapes) /\ empty_first shapes /\ tangent_dim shapes = 3%nat.
Proof.
  exists (fst exTe), (snd exTe), (fst exTs), (snd exTs). split; [apply tan_oracle_ok|]. split; [apply setA_ok|]. destruct exT_ok as (H1 & H2 & H3 & H4 & H5).
  repeat (split; [assumption|]). split; [apply exT_dims|]. apply exT_empty_first.
Qed.
Example C26_run : match import_tangent_vector exK setA exT [qi 1 1; qi 0 2; qi 3 0] with
  | Ok m => qlist_eqb [ent (nth 1 (fdata m) exT1) 0%nat 0%nat 0%nat; ent (nth 1 (fdata m) exT1) 1%nat 1%nat 0%nat] [qi (56#25) (4#5); qi (-18#25) (-3#5)] &&
      match extract_tangent_vector exK setA exT (fdata m) with Ok v => qlist_eqb v [qi 1 1; qi 0 2; qi 3 0] | _ => false end
  | _ => false end = true.
Proof. exact exT_run. Qed.
Example C53_case : right_ready exK exW1 exWr /\ left_ready exK exT2 (nth 1 (fst exTe) exVl).
Proof. exact exW_ready. Qed.
