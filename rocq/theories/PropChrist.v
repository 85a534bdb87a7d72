(** C82: the Christoffel symbols. *)
From Coq Require Import QArith Qcanon.
From Verif Require Import Alg QScalars ModelMPS SpecMPS ModelOrth Oracle ExOrth ModelNcon SpecNcon PropNcon ModelEk ModelNp SpecEnergy ModelEnergy ModelTan SpecTan ExTan
  ModelTdvp SpecTdvp ExTdvp ModelJac SpecJac ExJac ModelChrist SpecChrist ProofChrist3 ProofChrist4 ExChrist.
Require Verif.SpecDecomp Verif.ExDecomp.
Local Open Scope nat_scope.
Local Open Scope sr_scope.

(** christoffel(i, j, k) with nothing closed succeeds for any three sites, and its entries are
    minus the overlaps of second derivatives of the state with first ones, along the dual bases
    of the tangent directions at the three sites. *)
Theorem C82_open : forall (R : sring) (K : tanlib R) (S : setio), tanlib_ok K -> setio_ok S -> SpecDecomp.char0 R ->
  forall (m : fmps R) (H ls rs : list (mat R)), tdvp_input K m H ls rs ->
  forall prs, mapM (fun n => left_null_projector K S m n (Some ls) None) (seq 0 (fL m)) = Ok prs ->
  forall D, (forall n, (n < length (fdata m))%nat -> dual_basis (fd m) (fdata m) n (D n)) ->
  forall o, o = None \/ o = Some prs ->
  let A n := nth n (fdata m) no_site in
  forall i j k, (i < fL m)%nat -> (j < fL m)%nat -> (k < fL m)%nat ->
  exists G, christoffel K S m i j k o None = Ok G /\
    tsh G = [phys (A i); dl (A i); dr (A i); phys (A j); dl (A j); dr (A j); phys (A k); dl (A k); dr (A k)] /\
    forall s0 a0 b0 s1 a1 b1 s2 a2 b2, in_shape (A i) s0 a0 b0 -> in_shape (A j) s1 a1 b1 -> in_shape (A k) s2 a2 b2 ->
      te G [s0; a0; b0; s1; a1; b1; s2; a2; b2] = christoffel_elem (fd m) (fdata m) i (D i s0 a0 b0) j (D j s1 a1 b1) k (D k s2 a2 b2).
Proof. intros R K S HK HS Hc m H ls rs Hin prs Hp D HD o Ho A. exact (open_all K S HK HS Hc m H ls rs Hin prs Hp D HD o Ho). Qed.
Print Assumptions C82_open.

(** The dual bases and the null spaces exist. *)
Theorem C82_dual : forall (R : sring) (K : tanlib R) (S : setio), tanlib_ok K -> setio_ok S -> SpecDecomp.char0 R ->
  forall (m : fmps R) (H ls rs : list (mat R)), tdvp_input K m H ls rs ->
  (exists D, forall n, (n < length (fdata m))%nat -> dual_basis (fd m) (fdata m) n (D n)) /\
  exists prs, mapM (fun n => left_null_projector K S m n (Some ls) None) (seq 0 (fL m)) = Ok prs.
Proof. intros R K S HK HS Hc m H ls rs Hin. split; [exact (duals K S HK HS Hc m H ls rs Hin)|exact (nulls_ex K S HK HS Hc m H ls rs Hin)]. Qed.
Print Assumptions C82_dual.

(** christoffel(i, j, k, closed=(None, None, B)) for an array B with the shape of the tensor at
    site k: the entries are minus the overlaps of the second derivatives along the frames at
    sites i and j with the derivative along the direction that B represents. *)
Theorem C82_closed : forall (R : sring) (K : tanlib R) (S : setio), tanlib_ok K -> setio_ok S -> SpecDecomp.char0 R ->
  forall (m : fmps R) (H ls rs : list (mat R)), tdvp_input K m H ls rs ->
  forall prs, mapM (fun n => left_null_projector K S m n (Some ls) None) (seq 0 (fL m)) = Ok prs ->
  forall Ci Ei, inv_roots K (fL m) ls rs Ci Ei ->
  let T := root_frame Ci Ei (fdata m) (map snd prs) in let dim := frame_dim (fdata m) (map snd prs) in
  forall o, o = None \/ o = Some prs ->
  forall i j k B Z, (i < fL m)%nat -> (j < fL m)%nat -> (k < fL m)%nat -> same_shape (nth k (fdata m) no_site) B -> represents (fd m) (fdata m) k B Z ->
  exists G, christoffel K S m i j k o (Some B) = Ok G /\ tsh G = [fst (dim i); snd (dim i); fst (dim j); snd (dim j)] /\
    forall x1 y1 x2 y2, (x1 < fst (dim i))%nat -> (y1 < snd (dim i))%nat -> (x2 < fst (dim j))%nat -> (y2 < snd (dim j))%nat ->
      te G [x1; y1; x2; y2] = christoffel_elem (fd m) (fdata m) i (T i x1 y1) j (T j x2 y2) k Z.
Proof. intros R K S HK HS Hc m H ls rs Hin prs Hp Ci Ei HR T dim o Ho. exact (closed_all K S HK HS Hc m H ls rs Hin prs Hp Ci Ei HR o Ho). Qed.
Print Assumptions C82_closed.

(** The frame consists of tangent directions, and the array l(k-1) X r(k) that jac passes
    represents the direction X. *)
Theorem C82_frame : forall (R : sring) (K : tanlib R) (S : setio), tanlib_ok K -> setio_ok S -> SpecDecomp.char0 R ->
  forall (m : fmps R) (H ls rs : list (mat R)), tdvp_input K m H ls rs ->
  forall prs, mapM (fun n => left_null_projector K S m n (Some ls) None) (seq 0 (fL m)) = Ok prs ->
  forall Ci Ei, inv_roots K (fL m) ls rs Ci Ei ->
  let A n := nth n (fdata m) no_site in
  forall n, (n < fL m)%nat ->
  (forall x y, (x < fst (frame_dim (fdata m) (map snd prs) n))%nat -> tangent_at (fdata m) n (root_frame Ci Ei (fdata m) (map snd prs) n x y)) /\
  forall X B l r, tangent_at (fdata m) n X -> same_shape (A n) B -> nth_error ls n = Some l -> nth_error rs (n + 1) = Some r ->
    (forall s a b, in_shape (A n) s a b -> ent B s a b = sum (dl (A n)) (fun a' => sum (dr (A n)) (fun b' => me l a a' * ent X s a' b' * me r b' b))) ->
    represents (fd m) (fdata m) n B X.
Proof.
  intros R K S HK HS Hc m H ls rs Hin prs Hp Ci Ei HR A n Hn. split.
  - intros x y Hx. exact (frame_dir K S HK HS Hc m H ls rs Hin prs Hp Ci Ei HR n x y Hn Hx).
  - intros X B l r HX HB Nl Nr HE. exact (lower_all K S HK HS Hc m H ls rs Hin prs Hp Ci Ei HR n X B l r Hn HX HB Nl Nr HE).
Qed.
Print Assumptions C82_frame.

(** A chain of three sites over the Gaussian rationals. *)
Example C82_example : tanlib_ok chK /\ setio_ok setA /\ SpecDecomp.char0 Qi /\ tdvp_input chK exC tdH (fst exCe) (snd exCe) /\
  mapM (fun n => left_null_projector chK setA exC n (Some (fst exCe)) None) (seq 0 (fL exC)) = Ok chP /\
  inv_roots chK (fL exC) (fst exCe) (snd exCe) chCi chEi /\ same_shape (nth 1 (fdata exC) no_site) chB /\ represents (fd exC) (fdata exC) 1 chB chX /\
  christoffel chK setA exC 1 2 1 None (Some chB) = Ok chG /\ tsh chG = [2; 2; 3; 1]%nat /\
  qlist_eqb (map (fun x => te chG [0; 1; x; 0]%nat) (seq 0 3)) [qi (-5#4) 0; q0; q0] = true /\
  christoffel chK setA exC 2 1 1 None None = Ok chO /\ tsh chO = [2; 2; 1; 2; 2; 2; 2; 2; 2]%nat /\
  qlist_eqb (map (fun x => te chO [1; 1; 0; 1; 0; x; 1; 0; x]%nat) (seq 0 2)) [qi 0 (20#9); qi 0 (-45#64)] = true.
Proof.
  split; [apply tan_oracle_ok|]. split; [apply setA_ok|]. split; [exact ExDecomp.char0_Q|]. split; [exact ch_in|]. split; [exact chP_ok|]. split; [exact ch_roots|]. split; [repeat split|]. split; [exact ch_rep|]. exact ch_run.
Qed.
Print Assumptions C82_example.
