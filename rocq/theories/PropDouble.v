(** Property theorems C95 and C96: read-outs and dynamics of thermofield doubles. *)
From Coq Require Import QArith Qcanon.
From Verif Require Import Alg QScalars ModelMPS SpecMPS ModelNcon SpecNcon PropNcon ModelNp ModelTensor ModelSpin ModelOrth SpecOrth ModelCanon SpecCanon ModelTFD SpecTFD ProofTFD ModelLie ModelTan SpecTan ModelTdvp SpecTdvp ModelEk SpecEk SpecEnergy ModelEnergy
  ModelDouble SpecDouble ProofDouble ProofDouble2 Oracle Oracle2 ExOrth ExCanon ExTan ExTdvp.
Require Verif.SpecDecomp Verif.ExDecomp.
Local Open Scope nat_scope.
Local Open Scope sr_scope.

(** C95: Es returns the expectation values of the transposed operators on the chosen half of
    the site; the object afterwards is the same state up to a factor. *)
Theorem C95_Es : forall (R : sring) (O : lapack2 R) (m : fmps R) ops k lr p,
  svd_ok O -> wf m -> uniform m -> pos (fdata m) -> (0 < fd m)%nat -> (k < fL m)%nat -> nth k (dims (fdata m)) 0%nat = (p * p)%nat ->
  Forall (fun op => mr op = p /\ mc op = p) ops ->
  match tfd_Es O m ops k lr with
  | Err e => e = LinAlgError
  | Ok (vs, m') => wf m' /\ dims (fdata m') = dims (fdata m) /\
      (exists c, forall s, incfg (dims (fdata m)) s -> psi m s = c * psi m' s) /\ length vs = length ops /\
      forall n op, nth_error ops n = Some op -> exists v, nth_error vs n = Some v /\
        v * sumcfg (dims (fdata m)) (fun s => psi m s * sconj (psi m s)) = expect1 (dims (fdata m)) (psi m) k (half_op p lr (fun a b => me op b a))
  end.
Proof. intros R. exact Es_double. Qed.
Print Assumptions C95_Es.

Theorem C95_E : forall (R : sring) (O : lapack2 R) (m : fmps R) op k lr p,
  svd_ok O -> wf m -> uniform m -> pos (fdata m) -> (0 < fd m)%nat -> (k < fL m)%nat -> nth k (dims (fdata m)) 0%nat = (p * p)%nat -> mr op = p -> mc op = p ->
  match tfd_E O m op k lr with
  | Err e => e = LinAlgError
  | Ok (v, m') => wf m' /\ dims (fdata m') = dims (fdata m) /\
      (exists c, forall s, incfg (dims (fdata m)) s -> psi m s = c * psi m' s) /\
      v * sumcfg (dims (fdata m)) (fun s => psi m s * sconj (psi m s)) = sre (expect1 (dims (fdata m)) (psi m) k (half_op p lr (fun a b => me op b a)))
  end.
Proof. intros R. exact E_double. Qed.
Print Assumptions C95_E.

(** C95: for the double of an MPS these are the expectation values of the transposed operators
    in the MPS, for both halves. *)
Theorem C95_double : forall (R : sring) (O : lapack2 R) (self m : fmps R) ops k lr,
  svd_ok O -> wf m -> uniform m -> pos (fdata m) -> (0 < fd m)%nat -> (k < fL m)%nat ->
  Forall (fun op => mr op = fd m /\ mc op = fd m) ops ->
  let n2 := sumcfg (dims (fdata m)) (fun s => psi m s * sconj (psi m s)) in
  match tfd_Es O (tfd_from_fMPS self m) ops k lr with
  | Err e => e = LinAlgError
  | Ok (vs, _) => length vs = length ops /\ forall n op, nth_error ops n = Some op -> exists v, nth_error vs n = Some v /\
        v * (n2 * n2) = expect1 (dims (fdata m)) (psi m) k (fun a b => me op b a) * n2
  end.
Proof. intros R. exact double_Es. Qed.
Print Assumptions C95_double.

(** C95: a state that does not change when the halves of every site are exchanged has the same
    expectation values on both halves. *)
Theorem C95_halves_agree : forall (R : sring) ds (f : list nat -> R) k p o, Forall is_square ds -> (k < length ds)%nat -> nth k ds 0%nat = (p * p)%nat -> exch_invariant ds f ->
  expect1 ds f k (half_op p 0 o) = expect1 ds f k (half_op p 1 o).
Proof. intros R. exact expect1_exch. Qed.
Print Assumptions C95_halves_agree.

(** C95: what dA_dt evolves with: the term k of H, meant for the sites k and k+1 of each copy,
    acts between the two halves of site k and between the two halves of site k+1; sites are
    never coupled. *)
Theorem C95_dynamics : forall (R : sring) (K : tanlib R) (S : setio), tanlib_ok K -> setio_ok S -> SpecDecomp.char0 R ->
  forall (m : fmps R) (H ls rs : list (mat R)) H_, mapM tfd_term H = Ok H_ -> tdvp_input K m H_ ls rs -> Forall (fun h => mr h = fd m /\ mc h = fd m) H ->
  forall (im : R) fullH (e0 : list R) m' e, tfd_dA_dt K S im m H fullH e0 = Ok (m', e) ->
  forall P A Q X, fdata m = P ++ A :: Q -> same_shape A X ->
  (forall b, (b < dr A)%nat -> left_gauge A (env_at P A) (fun s a => ent X s a b)) ->
  let l' := with_site (fdata m) (length P) X in
  sumcfg (repeat (fd m) (fL m)) (fun s => sconj (state l' s) * velocity (fdata m) (fdata m') s)
  = - im * suml (map (fun kh => onsite_elem (fd m) l' (fdata m) (fst kh) (snd kh) + onsite_elem (fd m) l' (fdata m) (fst kh + 1) (snd kh)) (combine (seq 0 (length H)) H)).
Proof. intros R. exact tfd_tdvp. Qed.
Print Assumptions C95_dynamics.

(** ... so that it is not the Hamiltonian of two copies: Sz Sz on two qubits is an example. *)
Theorem C95_dynamics_refuted : exists (h T : mat Qi), mr h = 4%nat /\ mc h = 4%nat /\ hermitian_op h /\ tfd_term h = Ok T /\
  exists x1 x2 y1 y2, (x1 < 4)%nat /\ (x2 < 4)%nat /\ (y1 < 4)%nat /\ (y2 < 4)%nat /\ me T (x1 * 4 + x2) (y1 * 4 + y2) <> two_copies 2 h x1 x2 y1 y2.
Proof.
  exists (qmat 4 4 [q1; q0; q0; q0;  q0; qi (-1) 0; q0; q0;  q0; q0; qi (-1) 0; q0;  q0; q0; q0; q1]). eexists.
  split; [reflexivity|]. split; [reflexivity|].
  split. { intros i j Hi Hj. cbn in Hi, Hj. destruct i as [|[|[|[|]]]]; destruct j as [|[|[|[|]]]]; try lia; apply Qi_eqb_eq; vm_compute; reflexivity. }
  split; [reflexivity|]. exists 1%nat, 1%nat, 1%nat, 1%nat. do 4 (split; [lia|]). intros E. apply (f_equal (fun z => Qi_eqb z (qi 2 0))) in E. vm_compute in E. discriminate.
Qed.
Print Assumptions C95_dynamics_refuted.

(** C96: symm_asymm gives complementary projectors and their difference, of square one. *)
Theorem C96_projectors : forall (R : sring) (half : R) q P Q M, half + half = 1 -> symm_asymm half (q * q) = Ok (P, Q, M) -> forall i j, (i < q * q)%nat -> (j < q * q)%nat ->
  me P i j + me Q i j = dlt i j /\ me P i j - me Q i j = me M i j /\
  sum (q * q) (fun k => me P i k * me P k j) = me P i j /\ sum (q * q) (fun k => me Q i k * me Q k j) = me Q i j /\
  sum (q * q) (fun k => me P i k * me Q k j) = 0 /\ sum (q * q) (fun k => me M i k * me M k j) = dlt i j.
Proof. intros R. exact symm_asymm_proj. Qed.
Print Assumptions C96_projectors.

(** C96: get_vL splits the null space into a part that M times the exchange of the physical
    halves leaves alone and a part that changes sign. *)
Theorem C96_split : forall (R : sring) (half : R) q (vL : site R), half + half = 1 -> dl vL = (q * q)%nat -> is_square (phys vL) ->
  exists a b M, get_vL_at half (q * q) vL = Ok (a, b, M) /\ phys a = phys vL /\ dl a = dl vL /\ dr a = dr vL /\ phys b = phys vL /\ dl b = dl vL /\ dr b = dr vL /\
  forall s i j, (s < phys vL)%nat -> (i < dl vL)%nat -> (j < dr vL)%nat ->
    ent a s i j + ent b s i j = ent vL s i j /\
    sum (dl vL) (fun k => me M i k * phys_exch a s k j) = ent a s i j /\
    sum (dl vL) (fun k => me M i k * phys_exch b s k j) = - ent b s i j.
Proof. intros R. exact vL_ok. Qed.
Print Assumptions C96_split.

(** C96: but the first part is not symmetric under the exchange of the halves of the sites and
    bonds: M is not the exchange of the bond halves. *)
Theorem C96_exchange_refuted : exists (vL a b : site Qi) M, get_vL_at (qi (1#2) 0) 4 vL = Ok (a, b, M) /\ phys vL = 4%nat /\ dl vL = 4%nat /\
  exists s i j, (s < 4)%nat /\ (i < 4)%nat /\ (j < dr vL)%nat /\ ent a (exch 4 s) (exch 4 i) j <> ent a s i j.
Proof.
  exists (mkSite 4 4 1 (fun s i _ => match s, i with 0, 1 => qi 1 0 | _, _ => qi 0 0 end)%nat). eexists _, _, _. split; [reflexivity|]. split; [reflexivity|]. split; [reflexivity|].
  exists 0%nat, 1%nat, 0%nat. split; [lia|]. split; [lia|]. split; [cbn; lia|].
  intros E. apply (f_equal (fun z => Qi_eqb z (qi 0 0))) in E. vm_compute in E. discriminate.
Qed.
Print Assumptions C96_exchange_refuted.

(** * Examples *)
(** The double of the product of the spinors (3, 4i)/5 and (4, 3)/5: Es of [Sy-like; Z]. *)
Definition dbM : fmps Qi := qobj [qsite 2 1 1 [qi (3#5) 0; qi 0 (4#5)]; qsite 2 1 1 [qi (4#5) 0; qi (3#5) 0]].
(** A table of decompositions of its tensors. *)
Definition dbLA : lapack2 Qi := oracle2 true
  [(ex1, [q1], qmat 1 4 [qi (9#25) 0; qi 0 (12#25); qi 0 (12#25); qi (-16#25) 0]);
   (qmat 4 1 [qi (9#25) 0; qi 0 (12#25); qi 0 (12#25); qi (-16#25) 0], [q1], ex1);
   (ex1, [q1], qmat 1 4 [qi (16#25) 0; qi (12#25) 0; qi (12#25) 0; qi (9#25) 0]);
   (qmat 4 1 [qi (16#25) 0; qi (12#25) 0; qi (12#25) 0; qi (9#25) 0], [q1], ex1)]
  [(qmat 4 4 [qi (9#25) 0; qi (12#25) 0; qi (12#25) 0; qi (16#25) 0; qi 0 (12#25); qi 0 (-9#25); qi 0 (16#25); qi 0 (-12#25); qi 0 (12#25); qi 0 (16#25); qi 0 (-9#25); qi 0 (-12#25); qi (-16#25) 0; qi (12#25) 0; qi (12#25) 0; qi (-9#25) 0], [q1], ex1);
   (qmat 4 4 [qi (16#25) 0; qi (12#25) 0; qi (12#25) 0; qi (9#25) 0; qi (12#25) 0; qi (-16#25) 0; qi (9#25) 0; qi (-12#25) 0; qi (12#25) 0; qi (9#25) 0; qi (-16#25) 0; qi (-12#25) 0; qi (9#25) 0; qi (-12#25) 0; qi (-12#25) 0; qi (16#25) 0], [q1], ex1)]
  [(ex1, [q1])].
Example C95_example : svd_ok dbLA /\ wf dbM /\ uniform dbM /\ pos (fdata dbM) /\ fd dbM = 2%nat /\ fL dbM = 2%nat /\
  match tfd_Es dbLA (tfd_from_fMPS dbM dbM) [qmat 2 2 [q0; qi 0 (-1); qi 0 1; q0]; qmat 2 2 [q1; q0; q0; qi (-1) 0]] 0 0 with
  | Ok (vs, _) => qlist_eqb vs [qi (-24#25) 0; qi (-7#25) 0] | _ => false end = true /\
  Qi_eqb (expect1 [2; 2]%nat (psi dbM) 0 (me (qmat 2 2 [q0; qi 0 (-1); qi 0 1; q0]))) (qi (24#25) 0) = true.
Proof.
  split; [apply oracle2_svd|]. split; [repeat split; try discriminate; repeat constructor|]. split; [repeat constructor|]. split; [repeat constructor|].
  split; [reflexivity|]. split; [reflexivity|]. split; vm_compute; reflexivity.
Qed.
(** A doubled product state on which dA_dt runs. *)
Definition dbX : fmps Qi := qobj [qsite 4 1 1 (map q25 [9; 12; 12; 16])%Z; qsite 4 1 1 (map q25 [9; 12; 12; 16])%Z].
Definition dbK : tanlib Qi := tan_oracle [(qmat 1 1 [q1], qmat 1 1 [q1])]
  [(qmat 4 3 (map q25 [12; 12; 16;  -9; 16; -12;  16; -9; -12;  -12; -12; 9])%Z, qmat 4 1 (map q25 [9; 12; 12; 16])%Z)].
Definition dbH : list (mat Qi) := [qmat 4 4 [q1; qi 0 1; q0; qi 2 0;  qi 0 (-1); q0; qi 1 1; q0;  q0; qi 1 (-1); qi 3 0; q1;  qi 2 0; q0; q1; qi (-1) 0]].
Definition dbH_ : list (mat Qi) := the [] (mapM tfd_term dbH).
Definition dbe := the ([], []) (get_envs dbX).
Example C95_dynamics_example : tanlib_ok dbK /\ setio_ok setA /\ SpecDecomp.char0 Qi /\ mapM tfd_term dbH = Ok dbH_ /\ tdvp_input dbK dbX dbH_ (fst dbe) (snd dbe) /\
  Forall (fun h => mr h = fd dbX /\ mc h = fd dbX) dbH /\ exists r, tfd_dA_dt dbK setA (qi 0 1) dbX dbH false [] = Ok r.
Proof.
  split; [apply tan_oracle_ok|]. split; [apply setA_ok|]. split; [exact ExDecomp.char0_Q|]. split; [reflexivity|].
  split. { split; [repeat split; try discriminate; repeat constructor|]. split; [repeat constructor|]. split; [repeat constructor|]. split; [cbn; lia|].
    split. { intros p q a E Hp x y Hx Hy Hne. exfalso. apply Hne.
      assert (Hl : (length p <= 2)%nat) by (apply (f_equal (@length _)) in E; rewrite app_length in E; cbn in E; lia).
      assert (Ep : p = firstn (length p) (fdata dbX)) by (rewrite E, firstn_app, Nat.sub_diag, firstn_all, app_nil_r; reflexivity).
      clear E. revert Ep Hl. generalize (length p). intros n -> Hn. destruct n as [|[|[|]]]; cbn in Hp; try (exfalso; lia). }
    split; [rewrite <- surjective_pairing; apply the_ok; vm_compute; reflexivity|]. split; [apply tdB_ok; vm_compute; reflexivity|]. split; [cbn; lia|]. repeat constructor. }
  split; [repeat constructor|]. exists (the (dbX, []) (tfd_dA_dt dbK setA (qi 0 1) dbX dbH false [])). apply the_ok. vm_compute. reflexivity.
Qed.
(** A null space of a site with physical dimension 4 and bond dimension 4. *)
Example C96_example : (qi (1#2) 0 + qi (1#2) 0 : Qi) = 1 /\ is_square 4 /\
  match get_vL_at (qi (1#2) 0) 4 (mkSite 4 4 1 (fun s i _ => qi (inject_Z (Z.of_nat (s * 4 + i))) 0)) with
  | Ok (a, b, M) => Qi_eqb (ent a 1 3 0) (qi (-2) 0) && Qi_eqb (ent b 1 3 0) (qi 9 0) | _ => false end = true.
Proof. split; [apply Qi_eqb_eq; vm_compute; reflexivity|]. split; [now exists 2%nat|]. vm_compute. reflexivity. Qed.

(** C95: so E is not the expectation value of the operator it is given, also for Hermitian ones. *)
Theorem C95_transpose_refuted : exists (O : lapack2 Qi) (m m' : fmps Qi) op v, svd_ok O /\ wf m /\ uniform m /\ hermitian_op op /\ mr op = 2%nat /\ mc op = 2%nat /\
  sumcfg [2; 2]%nat (fun s => psi m s * sconj (psi m s)) = 1 /\ tfd_E O (tfd_from_fMPS m m) op 0 0 = Ok (v, m') /\ v <> sre (expect1 [2; 2]%nat (psi m) 0 (me op)).
Proof.
  exists dbLA, dbM. pose (op := qmat 2 2 [q0; qi 0 (-1); qi 0 1; q0]).
  pose (r := the (q0, dbM) (tfd_E dbLA (tfd_from_fMPS dbM dbM) op 0 0)). exists (snd r), op, (fst r).
  split; [apply oracle2_svd|]. split; [repeat split; try discriminate; repeat constructor|]. split; [repeat constructor|].
  split. { intros i j Hi Hj. cbn in Hi, Hj. destruct i as [|[|]]; destruct j as [|[|]]; try lia; apply Qi_eqb_eq; vm_compute; reflexivity. }
  split; [reflexivity|]. split; [reflexivity|]. split; [apply Qi_eqb_eq; vm_compute; reflexivity|].
  split. { rewrite <- surjective_pairing. apply the_ok. vm_compute. reflexivity. }
  intros E. apply (f_equal (fun z => Qi_eqb z (qi (24#25) 0))) in E. vm_compute in E. discriminate.
Qed.
Print Assumptions C95_transpose_refuted.
