(** C81: the second part of the Jacobian of the TDVP equations. *)
From Coq Require Import QArith Qcanon.
From Verif Require Import Alg QScalars ModelMPS SpecMPS ModelOrth Oracle ExOrth ModelNcon SpecNcon PropNcon ModelEk ModelNp SpecEnergy ModelEnergy ModelTan SpecTan ExTan
  ModelTdvp SpecTdvp ExTdvp ModelJac SpecJac ProofJac5 ExJac.
Require Verif.SpecDecomp Verif.ExDecomp.
Local Open Scope nat_scope.
Local Open Scope sr_scope.

(** The directions F2 refers to: each is a change of the tensor of one site, and together they
    are orthonormal and orthogonal to the state. *)
Theorem C81_frame : forall (R : sring) (K : tanlib R) (S : setio), tanlib_ok K -> setio_ok S -> SpecDecomp.char0 R ->
  forall (m : fmps R) (H ls rs : list (mat R)) (ie : @invenvs R), jac_input K m H ls rs ie ->
  forall prs, mapM (fun n => left_null_projector K S m n (Some ls) None) (seq 0 (fL m)) = Ok prs ->
  let T := frame ie (fdata m) (map snd prs) in let dim := frame_dim (fdata m) (map snd prs) in
  forall n x y, (n < fL m)%nat -> (x < fst (dim n))%nat -> (y < snd (dim n))%nat ->
  same_shape (nth n (fdata m) no_site) (T n x y) /\
  overlap (fd m) (with_site (fdata m) n (T n x y)) (fdata m) = 0 /\
  forall n' x' y', (n' < fL m)%nat -> (x' < fst (dim n'))%nat -> (y' < snd (dim n'))%nat ->
    overlap (fd m) (with_site (fdata m) n (T n x y)) (with_site (fdata m) n' (T n' x' y')) = if Nat.eqb n n' then dlt x x' * dlt y y' else 0.
Proof.
  intros R K S HK HS Hc m H ls rs ie Hj prs Hp T dim n x y Hn Hx Hy. split; [exact (frame_shape m ie prs n x y Hn)|].
  split; [exact (frame_state K S HK HS Hc m H ls rs ie Hj prs Hp n x y Hn Hx Hy)|]. intros n' x' y' Hn' Hx' Hy'. exact (frame_orth K S HK HS Hc m H ls rs ie Hj prs Hp n n' x y x' y' Hn Hn' Hx Hy Hx' Hy').
Qed.
Print Assumptions C81_frame.

(** Every tensor that satisfies the gauge condition is a combination of the directions. *)
Theorem C81_span : forall (R : sring) (K : tanlib R) (S : setio), tanlib_ok K -> setio_ok S -> SpecDecomp.char0 R ->
  forall (m : fmps R) (H ls rs : list (mat R)) (ie : @invenvs R), jac_input K m H ls rs ie ->
  forall prs, mapM (fun n => left_null_projector K S m n (Some ls) None) (seq 0 (fL m)) = Ok prs ->
  let T := frame ie (fdata m) (map snd prs) in let dim := frame_dim (fdata m) (map snd prs) in
  forall P Q A X, fdata m = P ++ A :: Q -> same_shape A X -> (forall b, (b < dr A)%nat -> left_gauge A (env_at P A) (fun s a => ent X s a b)) ->
  exists c : nat -> nat -> R, forall s a b, (s < phys A)%nat -> (a < dl A)%nat -> (b < dr A)%nat ->
    ent X s a b = sum (fst (dim (length P))) (fun x => sum (snd (dim (length P))) (fun y => c x y * ent (T (length P) x y) s a b)).
Proof. intros R K S HK HS Hc m H ls rs ie Hj prs Hp. exact (frame_span K S HK HS Hc m H ls rs ie Hj prs Hp). Qed.
Print Assumptions C81_span.

(** F2(i, j) succeeds for any two sites in either order, and its entries are the matrix
    elements of the Hamiltonian between the second derivatives of the state along the
    directions at the two sites and the state. *)
Theorem C81_F2 : forall (R : sring) (K : tanlib R) (S : setio), tanlib_ok K -> setio_ok S -> SpecDecomp.char0 R ->
  forall (m : fmps R) (H ls rs : list (mat R)) (ie : @invenvs R), jac_input K m H ls rs ie ->
  forall prs, mapM (fun n => left_null_projector K S m n (Some ls) None) (seq 0 (fL m)) = Ok prs ->
  let T := frame ie (fdata m) (map snd prs) in let dim := frame_dim (fdata m) (map snd prs) in
  forall i j, (i < fL m)%nat -> (j < fL m)%nat ->
  exists G, F2 K S m i j H (Some ie) (Some prs) = Ok G /\ tsh G = [fst (dim i); snd (dim i); fst (dim j); snd (dim j)] /\
    forall x1 y1 x2 y2, (x1 < fst (dim i))%nat -> (y1 < snd (dim i))%nat -> (x2 < fst (dim j))%nat -> (y2 < snd (dim j))%nat ->
      te G [x1; y1; x2; y2] = second_elem (fd m) (fdata m) H i (T i x1 y1) j (T j x2 y2).
Proof. intros R K S HK HS Hc m H ls rs ie Hj prs Hp. exact (F2_ok K S HK HS Hc m H ls rs ie Hj prs Hp). Qed.
Print Assumptions C81_F2.

(** The defaults of F2 are arguments of this kind: the null spaces exist, and so do the roots
    whenever the library returns any. *)
Theorem C81_default : forall (R : sring) (K : tanlib R) (S : setio), tanlib_ok K -> setio_ok S -> SpecDecomp.char0 R ->
  forall (m : fmps R) (H ls rs : list (mat R)) (ie : @invenvs R), tdvp_input K m H ls rs -> overlap (fd m) (fdata m) (fdata m) = 1 ->
  inv_envs K ls rs (fL m) = Ok ie ->
  jac_input K m H ls rs ie /\ exists prs, mapM (fun n => left_null_projector K S m n (Some ls) None) (seq 0 (fL m)) = Ok prs /\
    forall i j, F2 K S m i j H None None = F2 K S m i j H (Some ie) (Some prs).
Proof.
  intros R K S HK HS Hc m H ls rs ie Hin Hn E. assert (Hj : jac_input K m H ls rs ie) by (split; [exact Hin|]; split; [exact Hn|]; exact (inv_envs_correct K HK m ls rs ie H Hin E)). split; [exact Hj|].
  destruct (null_list_ex K S HK HS Hc m H ls rs ie Hj) as (prs & Ep). exists prs. split; [exact Ep|]. intros i j. exact (F2_default K S m H ls rs ie prs i j Hin E Ep).
Qed.
Print Assumptions C81_default.

(** Not so for a state that is not normalised: at the first site the inverse root is taken from
    the other end of the chain, and the directions there are not normalised. *)
Theorem C81_norm_refuted : exists (K : tanlib Qi) (S : setio) (m : fmps Qi) (H ls rs : list (mat Qi)) (ie : @invenvs Qi) prs,
  tanlib_ok K /\ setio_ok S /\ tdvp_input K m H ls rs /\ inv_envs_ok K ls rs (fL m) ie /\
  mapM (fun n => left_null_projector K S m n (Some ls) None) (seq 0 (fL m)) = Ok prs /\ frame_dim (fdata m) (map snd prs) 0 = (1, 1)%nat /\
  overlap (fd m) (with_site (fdata m) 0 (frame ie (fdata m) (map snd prs) 0 0 0)) (with_site (fdata m) 0 (frame ie (fdata m) (map snd prs) 0 0 0)) <> 1.
Proof.
  exists dblK, setA, exD, tdH, (fst exDe), (snd exDe), dblE, dblP. split; [apply tan_oracle_ok|]. split; [apply setA_ok|]. split; [exact dbl_in|]. split; [exact dbl_ie|]. split; [exact dblP_ok|].
  split; [exact (proj1 dbl_frame)|]. change (overlap 2 dblT dblT <> 1). rewrite (proj2 dbl_frame). apply Qi_neq. vm_compute. reflexivity.
Qed.
Print Assumptions C81_norm_refuted.

(** A chain of three sites over the Gaussian rationals with a complex Hamiltonian. *)
Example C81_example : tanlib_ok tdK /\ setio_ok setA /\ SpecDecomp.char0 Qi /\ jac_input tdK exX tdH (fst exXe) (snd exXe) jacE /\
  mapM (fun n => left_null_projector tdK setA exX n (Some (fst exXe)) None) (seq 0 (fL exX)) = Ok jacP /\
  F2 tdK setA exX 0 2 tdH None None = Ok jacG /\ tsh jacG = [1; 1; 3; 1]%nat /\
  qlist_eqb (map (fun x => te jacG [0; 0; x; 0]%nat) (seq 0 3)) [qi (2#25) (372#625); qi (-432#625) 0; qi (-12#25) (-204#625)] = true.
Proof.
  split; [apply tan_oracle_ok|]. split; [apply setA_ok|]. split; [exact ExDecomp.char0_Q|]. split; [exact jac_in|]. split; [exact jacP_ok|]. exact jac_run.
Qed.
Print Assumptions C81_example.
