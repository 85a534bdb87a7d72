(** Property theorems C97-C100: right_transfer, rho_proj, random, isometries on two sites. *)
From Coq Require Import QArith Qcanon ZArith.
From Verif Require Import Alg QScalars ModelMPS SpecMPS ModelOrth SpecOrth ModelCanon Oracle Oracle2 ExOrth ExTan ModelNcon SpecNcon PropNcon ModelEk SpecTensor
  ModelStruct SpecStruct ModelTwo ModelRest SpecRest ProofRest ProofRest2 ProofRest3.
Local Open Scope nat_scope.
Local Open Scope sr_scope.

(** C97: R(i+1+k) of right_transfer(op, i, j) is op carried through k sites, with every
    second tensor conjugated and, when k is odd, the two bond indices exchanged; the other axes
    of op are spectators.  With ret_all=False op itself is returned. *)
Theorem C97_right_transfer : forall (R : sring) (S : setio) (m : fmps R) (op : tens R) spect pre l post D z, setio_ok S ->
  fdata m = pre ++ l ++ post -> pre <> [] -> chain D l z -> tsh op = spect ++ [D; D] ->
  let i := (length pre - 1)%nat in let j := (i + length l)%nat in
  exists Rf, right_transfer S m op i j = Ok Rf /\ right_transfer_one S m op i j = Ok op /\
    forall k, (k <= length l)%nat -> exists W D', Rf (i + 1 + k)%nat = Ok W /\ chain D (firstn k l) D' /\ tsh W = spect ++ [D'; D'] /\
      forall x p q, length x = length spect -> (p < D')%nat -> (q < D')%nat ->
        te W (x ++ [p; q]) = ends k (carried D (alternating (firstn k l)) (fun a b => te op (x ++ [a; b]))) p q.
Proof. intros R S m op spect pre l post D z. apply right_transfer_spec. Qed.
Print Assumptions C97_right_transfer.

(** C97: through tensors without imaginary parts it is op carried through the sites, transposed
    when their number is odd. *)
Theorem C97_right_transfer_real : forall (R : sring) (S : setio) (m : fmps R) (op : tens R) spect pre l post D z, setio_ok S ->
  fdata m = pre ++ l ++ post -> pre <> [] -> chain D l z -> tsh op = spect ++ [D; D] -> real_sites l ->
  let i := (length pre - 1)%nat in let j := (i + length l)%nat in
  exists Rf, right_transfer S m op i j = Ok Rf /\
    forall k, (k <= length l)%nat -> exists W D', Rf (i + 1 + k)%nat = Ok W /\ chain D (firstn k l) D' /\
      forall x p q, length x = length spect -> (p < D')%nat -> (q < D')%nat ->
        te W (x ++ [p; q]) = ends k (carried D (firstn k l) (fun a b => te op (x ++ [a; b]))) p q.
Proof.
  intros R S m op spect pre l post D z HS Ef Hp Hc Eop Hr i j.
  destruct (right_transfer_spec S m op spect pre l post D z HS Ef Hp Hc Eop) as (Rf & E & _ & H). exists Rf. split; [exact E|].
  intros k Hk. destruct (H k Hk) as (W & D' & EW & HW & _ & V). exists W, D'. split; [exact EW|]. split; [exact HW|].
  intros x p q Hx P1 P2. rewrite (V x p q Hx P1 P2). assert (Hr' : real_sites (firstn k l)).
  { unfold real_sites in *. rewrite <- (firstn_skipn k l) in Hr. apply Forall_app in Hr. apply Hr. }
  unfold ends. destruct (Nat.even k); now apply carried_real.
Qed.
Print Assumptions C97_right_transfer_real.

(** C97: one step is the transpose of the transfer, whatever the tensors. *)
Theorem C97_one_step : forall (R : sring) (S : setio) (m : fmps R) (op : tens R) spect pre A post, setio_ok S ->
  fdata m = pre ++ A :: post -> pre <> [] -> tsh op = spect ++ [dl A; dl A] ->
  exists Rf W, right_transfer S m op (length pre - 1) (length pre) = Ok Rf /\ Rf (length pre + 1)%nat = Ok W /\
    forall x p q, length x = length spect -> (p < dr A)%nat -> (q < dr A)%nat ->
      te W (x ++ [p; q]) = carried (dl A) [A] (fun a b => te op (x ++ [a; b])) q p.
Proof.
  intros R S m op spect pre A post HS Ef Hp Eop. assert (Hl : (1 <= length pre)%nat) by (destruct pre; [congruence|cbn; lia]).
  destruct (right_transfer_spec S m op spect pre [A] post (dl A) (dr A) HS Ef Hp (conj eq_refl eq_refl) Eop) as (Rf & E & _ & H).
  destruct (H 1%nat ltac:(cbn; lia)) as (W & D' & EW & (_ & HW) & _ & V). cbn in HW. subst D'. exists Rf, W.
  split; [replace (length pre) with (length pre - 1 + length [A])%nat at 2 by (cbn; lia); exact E|].
  split; [replace (length pre + 1)%nat with (length pre - 1 + 1 + 1)%nat by lia; exact EW|]. exact V.
Qed.
Print Assumptions C97_one_step.

Definition tr_m : fmps Qi := qobj [qsite 1 1 1 [q1]; qsite 1 1 2 [q1; qi 0 1]; qsite 1 2 1 [q1; qi 0 1]].
Definition tr_op : tens Qi := mkT [1; 1]%nat (fun _ => q1).
Example C97_example : setio_ok setA /\ wf tr_m /\ fdata tr_m = [qsite 1 1 1 [q1]] ++ [qsite 1 1 2 [q1; qi 0 1]; qsite 1 2 1 [q1; qi 0 1]] ++ [] /\
  chain 1 [qsite 1 1 2 [q1; qi 0 1]; qsite 1 2 1 [q1; qi 0 1]] 1 /\ tsh tr_op = [] ++ [1; 1]%nat /\
  match right_transfer setA tr_m tr_op 0 2 with
  | Ok Rf => match Rf 2%nat with Ok W => qlist_eqb [te W [0; 1]%nat; te W [1; 0]%nat] [qi 0 1; qi 0 (-1)] | _ => false end | _ => false end = true.
Proof. split; [apply setA_ok|]. split; [repeat split; try discriminate; repeat constructor|]. split; [reflexivity|]. split; [repeat constructor|]. split; [reflexivity|]. vm_compute. reflexivity. Qed.

(** C97: through two complex tensors the result is not op carried to the right, in either order
    of the indices; and ret_all=False does not return the transferred operator. *)
Theorem C97_right_transfer_refuted : exists (S : setio) (m : fmps Qi) (op : tens Qi) pre l post Rf W X,
  setio_ok S /\ wf m /\ fdata m = pre ++ l ++ post /\ length pre = 1%nat /\ length l = 2%nat /\ chain 1 l 1 /\ tsh op = [1; 1]%nat /\
  right_transfer S m op 0 2 = Ok Rf /\ Rf 3%nat = Ok W /\ te W [0; 0]%nat <> carried 1 l (fun a b => te op [a; b]) 0 0 /\
  right_transfer_one S m op 0 2 = Ok X /\ te X [0; 0]%nat <> te W [0; 0]%nat.
Proof.
  pose (Rf := the (fun _ => Ok tr_op) (right_transfer setA tr_m tr_op 0 2)). pose (W := the tr_op (Rf 3%nat)).
  exists setA, tr_m, tr_op, [qsite 1 1 1 [q1]], [qsite 1 1 2 [q1; qi 0 1]; qsite 1 2 1 [q1; qi 0 1]], [], Rf, W, tr_op.
  split; [apply setA_ok|]. split; [repeat split; try discriminate; repeat constructor|]. split; [reflexivity|]. split; [reflexivity|]. split; [reflexivity|].
  split; [repeat constructor|]. split; [reflexivity|]. split; [apply the_ok; vm_compute; reflexivity|]. split; [apply the_ok; vm_compute; reflexivity|].
  split; [intros K; apply (f_equal (fun z => Qi_eqb z (qi 0 0))) in K; vm_compute in K; discriminate|].
  split; [reflexivity|]. intros K; apply (f_equal (fun z => Qi_eqb z (qi 1 0))) in K; vm_compute in K; discriminate.
Qed.
Print Assumptions C97_right_transfer_refuted.

(** C98: rho_proj of product states on a block of sites is the partial trace of |self'><other|,
    self' being self with the tensors off the block conjugated. *)
Theorem C98_rho_proj : forall (R : sring) (S : setio) (a b : fmps R) a1 a2 a3 b1 b2 b3, setio_ok S ->
  fdata a = a1 ++ a2 ++ a3 -> fdata b = b1 ++ b2 ++ b3 -> fL a = length (fdata a) -> a2 <> [] ->
  Forall2 pairing a1 b1 -> Forall2 pairing a2 b2 -> Forall2 pairing a3 b3 ->
  exists M, rho_proj S a b (seq (length a1) (length a2)) true = Ok (Some M) /\
    forall s t, incfg (dims a2) s -> incfg (dims a2) t ->
      me M (position (dims a2) s) (position (dims a2) t) =
      partial (dims a1) (dims a3) (fun w => amp (map csite a1 ++ a2 ++ map csite a3) w 0 0) (psi b) s t.
Proof. intros R S a b a1 a2 a3 b1 b2 b3. apply rho_proj_spec. Qed.
Print Assumptions C98_rho_proj.

(** C98: it is the partial trace of |self><other| when the tensors of self off the block have no
    imaginary parts. *)
Theorem C98_rho_proj_real : forall (R : sring) (S : setio) (a b : fmps R) a1 a2 a3 b1 b2 b3, setio_ok S ->
  fdata a = a1 ++ a2 ++ a3 -> fdata b = b1 ++ b2 ++ b3 -> fL a = length (fdata a) -> a2 <> [] ->
  Forall2 pairing a1 b1 -> Forall2 pairing a2 b2 -> Forall2 pairing a3 b3 -> real_sites a1 -> real_sites a3 ->
  exists M, rho_proj S a b (seq (length a1) (length a2)) true = Ok (Some M) /\
    forall s t, incfg (dims a2) s -> incfg (dims a2) t ->
      me M (position (dims a2) s) (position (dims a2) t) = partial (dims a1) (dims a3) (psi a) (psi b) s t.
Proof. intros R S a b a1 a2 a3 b1 b2 b3. apply rho_proj_real. Qed.
Print Assumptions C98_rho_proj_real.

(** C98: with a larger bond dimension, or single_string=False, nothing is returned. *)
Theorem C98_rho_proj_none : forall (R : sring) (S : setio) (a b : fmps R) sites st,
  bond_dimension a <> 1%nat \/ st = false -> rho_proj S a b sites st = Ok None.
Proof. intros R S a b sites st. apply rho_proj_none. Qed.
Print Assumptions C98_rho_proj_none.

Definition rp_a : fmps Qi := qobj [qsite 2 1 1 [q1; qi 0 1]; qsite 2 1 1 [qi 2 0; qi 1 1]].
Example C98_example : wf rp_a /\ Forall2 pairing (fdata rp_a) (fdata rp_a) /\
  match rho_proj setA rp_a rp_a [0]%nat true with
  | Ok (Some M) => qlist_eqb [me M 0 0; me M 0 1; me M 1 0; me M 1 1]%nat [qi 4 (-2); qi (-2) (-4); qi 2 4; qi 4 (-2)] | _ => false end = true.
Proof. split; [repeat split; try discriminate; repeat constructor|]. split; [repeat constructor; discriminate|]. vm_compute. reflexivity. Qed.

(** C98: for a complex state rho_proj(self, sites) is not the reduced density matrix; its trace
    can vanish. *)
Theorem C98_rho_proj_refuted : exists (S : setio) (a : fmps Qi) A1 A2 M, setio_ok S /\ wf a /\ fdata a = [A1; A2] /\ pairing A1 A1 /\ pairing A2 A2 /\
  rho_proj S a a [1]%nat true = Ok (Some M) /\ partial [2]%nat [] (psi a) (psi a) [0]%nat [0]%nat = qi 8 0 /\ me M 0 0 = qi 0 0 /\ me M 1 1 = qi 0 0.
Proof.
  pose (M := the (Some (qmat 1 1 [])) (rho_proj setA rp_a rp_a [1]%nat true)). pose (M' := match M with Some X => X | None => qmat 1 1 [] end).
  exists setA, rp_a, (qsite 2 1 1 [q1; qi 0 1]), (qsite 2 1 1 [qi 2 0; qi 1 1]), M'.
  split; [apply setA_ok|]. split; [repeat split; try discriminate; repeat constructor|]. split; [reflexivity|].
  split; [repeat constructor; discriminate|]. split; [repeat constructor; discriminate|].
  split. { transitivity (Ok M); [apply the_ok; vm_compute; reflexivity|]. reflexivity. }
  repeat split; apply Qi_eqb_eq; vm_compute; reflexivity.
Qed.
Print Assumptions C98_rho_proj_refuted.

(** C99: random(L, d, D) with D > 1. *)
Theorem C99_random : forall (R : sring) (G : rng) (m : fmps R) L d D real, (2 <= L)%nat -> (1 <= d)%nat -> (2 <= D)%nat ->
  exists m', random G m L d D real = Ok m' /\ wf m' /\ uniform m' /\ fL m' = L /\ fd m' = d /\
    fcan m' = Some false /\ forth m' = Some false /\ foc m' = foc m /\ fnorm m' = fnorm m /\
    (forall k, (k < L)%nat -> exists A, nth_error (fdata m') k = Some A /\ dl A = bond L d D k /\ dr A = bond L d D (k + 1) /\
       forall s i j, ent A s i j = if real then rn_re G k s i j else rn_re G k s i j + rn_i G * rn_im G k s i j) /\
    (forall k, (k <= L)%nat -> (bond L d D k <= fD m')%nat) /\ (exists k, (k <= L)%nat /\ bond L d D k = fD m').
Proof. intros R G m L d D real. apply random_spec. Qed.
Print Assumptions C99_random.

(** C99: random(L, d, 1) is a normalised product of spins, of physical dimension 2 whatever d is. *)
Theorem C99_random_product : forall (R : sring) (G : rng) (m : fmps R) L d real, rng_ok G -> (1 <= L)%nat ->
  exists m', random G m L d 1 real = Ok m' /\ wf m' /\ fL m' = L /\ fd m' = d /\ fD m' = 1%nat /\
    dims (fdata m') = repeat 2%nat L /\ Forall (fun A => dl A = 1%nat /\ dr A = 1%nat) (fdata m') /\
    fcan m' = fcan m /\ forth m' = forth m /\ foc m' = foc m /\ inner (dims (fdata m')) (psi m') (psi m') = 1.
Proof. intros R G m L d real. apply random_product. Qed.
Print Assumptions C99_random_product.

(** C99: one site with D > 1 raises IndexError. *)
Theorem C99_random_one : forall (R : sring) (G : rng) (m : fmps R) d D real, D <> 1%nat -> random G m 1 d D real = Err IndexError.
Proof. intros R G m d D real. apply random_one. Qed.
Print Assumptions C99_random_one.

Definition rnG : rng (R := Qi) := mkRng (fun k s i j => qi (inject_Z (Z.of_nat (k + s + i * j))) 0) (fun _ _ _ _ => q1)
  (fun _ => qi (3#5) 0) (fun _ => qi (4#5) 0) (fun _ => qi 0 1) (qi 0 1).
Lemma rnG_ok : rng_ok rnG.
Proof. intros k. repeat split; apply Qi_eqb_eq; vm_compute; reflexivity. Qed.
Definition rn_m : fmps Qi := mkF [] 0 0 0 (Some true) (Some true) (Some 1%nat) None.
Example C99_example : rng_ok rnG /\ map (bond 4 2 3) [0; 1; 2; 3; 4]%nat = [1; 2; 3; 2; 1]%nat /\
  match random rnG rn_m 4 2 3 false with Ok m' => Nat.eqb (fD m') 3 && Qi_eqb (psi m' [0; 1; 0; 1]%nat) (qi (-305) 200) | _ => false end = true /\
  match random rnG rn_m 3 2 1 false with Ok m' => Qi_eqb (psi m' [1; 0; 1]%nat) (qi (-48#125) 0) | _ => false end = true.
Proof. split; [apply rnG_ok|]. split; [reflexivity|]. split; vm_compute; reflexivity. Qed.

(** C99: a product state with d <> 2 does not have the physical dimension asked for. *)
Theorem C99_dimension_refuted : exists (G : rng) (m m' : fmps Qi), rng_ok G /\ random G m 2 3 1 false = Ok m' /\ fd m' = 3%nat /\ ~ uniform m'.
Proof.
  exists rnG, rn_m. eexists. split; [apply rnG_ok|]. split; [reflexivity|]. split; [reflexivity|].
  intros K. inversion K as [|? ? H _]; subst. discriminate H.
Qed.
Print Assumptions C99_dimension_refuted.

(** C99: called on an object that records an orthogonality centre, random keeps that record,
    although the tensors beside it are not isometries any more. *)
Theorem C99_centre_refuted : exists (G : rng) (m m' : fmps Qi) A, random G m 2 2 2 true = Ok m' /\ foc m' = Some 1%nat /\ nth_error (fdata m') 0 = Some A /\ ~ left_iso A.
Proof.
  exists rnG, rn_m. eexists. eexists. split; [reflexivity|]. split; [reflexivity|]. split; [reflexivity|].
  intros K. specialize (K 0%nat 1%nat ltac:(cbn; lia) ltac:(cbn; lia)). apply (f_equal (fun z => Qi_eqb z (qi 0 0))) in K. vm_compute in K. discriminate.
Qed.
Print Assumptions C99_centre_refuted.

(** C100: apply_two_site_isometry on neighbours replaces one of the two tensors by the merged
    tensor with the isometry applied, and keeps the other; without the other tensor the chain
    has the state with the isometry applied; with it the bonds fit only by coincidence. *)
Theorem C100_isometry : forall (R : sring) (O : lapack2 R) (P : lapack R) (m : fmps R) (op : mat R) l1 A B l2 lr (a0 z0 : nat),
  fdata m = l1 ++ A :: B :: l2 -> chain a0 (fdata m) z0 -> mc op = (phys A * phys B)%nat ->
  exists m' G, apply_two_site_isometry O P m op (length l1) (length l1 + 1) lr = Ok m' /\
    apply_two_site_isometry O P m op (length l1 + 1) (length l1) lr = Ok m' /\
    fdata m' = (if lr then l1 ++ A :: G :: l2 else l1 ++ G :: B :: l2) /\
    phys G = mr op /\ dl G = dl A /\ dr G = dr B /\
    (forall u x v i j, length u = length l1 -> (i < a0)%nat ->
      amp (l1 ++ G :: l2) (u ++ x :: v) i j =
      sum (phys A) (fun y => sum (phys B) (fun z => me op x (y * phys B + z)%nat * amp (fdata m) (u ++ y :: z :: v) i j))) /\
    (chain a0 (fdata m') z0 <-> dr A = if lr then dl A else dr B).
Proof. intros R O P m op l1 A B l2 lr a0 z0. apply isometry_spec. Qed.
Print Assumptions C100_isometry.

Definition is_op : mat Qi := qmat 2 4 [q1; q0; q0; q0;  q0; qi (3#5) 0; qi 0 (4#5); q0].
Definition is_m : fmps Qi := qobj [qsite 2 1 2 [q1; qi 2 0; qi 0 1; q1]; qsite 2 2 1 [qi 3 0; q1; q1; qi 0 2]].
(** C100: the two sites must differ. *)
Theorem C100_same_site : forall (R : sring) (O : lapack2 R) (P : lapack R) (m : fmps R) (op : mat R) k lr,
  apply_two_site_isometry O P m op k k lr = Err AssertionError.
Proof. exact (@isometry_same). Qed.
Print Assumptions C100_same_site.

(** C100: the object returned is no longer a chain. *)
Theorem C100_isometry_refuted : exists (O : lapack2 Qi) (P : lapack Qi) (m m' : fmps Qi) op, wf m /\ uniform m /\
  apply_two_site_isometry O P m op 0 1 false = Ok m' /\ length (fdata m') = 2%nat /\ ~ wf m'.
Proof.
  pose (O := oracle2 true [] [] []). exists O, (mkLA (fun _ => None) (fun _ => None) (fun _ => None)), is_m. eexists. exists is_op.
  split; [repeat split; try discriminate; repeat constructor|]. split; [repeat constructor|]. split; [reflexivity|]. split; [reflexivity|].
  intros (K & _). cbn in K. destruct K as (_ & K & _). discriminate K.
Qed.
Print Assumptions C100_isometry_refuted.

Example C100_example : wf is_m /\ mc is_op = 4%nat /\
  match apply_two_site_isometry (oracle2 true [] [] []) (mkLA (fun _ => None) (fun _ => None) (fun _ => None)) is_m is_op 0 1 true with
  | Ok m' => match fdata m' with [_; G] => qlist_eqb [ent G 0 0 0; ent G 1 0 0]%nat [qi 5 0; qi (-9#5) (16#5)] | _ => false end | _ => false end = true.
Proof. split; [repeat split; try discriminate; repeat constructor|]. split; [reflexivity|]. vm_compute. reflexivity. Qed.
