(** C32, C33, C60, C61: the matrix helpers of tensor.py. *)
From Coq Require Import QArith.
From Verif Require Import Alg QScalars ModelMPS SpecMPS ModelOrth SpecOrth Oracle ModelCanon SpecCanon Oracle2 ExOrth
  ModelDecomp SpecDecomp ProofDecomp ProofDecomp2 ProofDecomp3 ExDecomp.
Local Open Scope nat_scope.
Local Open Scope sr_scope.

(** * C32 *)
Theorem C32_uqr : forall (R : sring) (nonneg : R -> Prop) (O : decomp R), decomp_ok nonneg O ->
  forall A q r, de_qr O A = Some (q, r) -> nz_diag r ->
  exists q' r', uqr O A = Ok (q', r') /\ posqr nonneg A q' r'.
Proof. intros R nonneg O HO. exact (uqr_ok nonneg O HO). Qed.
Print Assumptions C32_uqr.

(** Two correct libraries give the same result, for matrices of every shape. *)
Theorem C32_uqr_unique : forall (R : sring) (nonneg : R -> Prop) (O1 O2 : decomp R),
  order_ok nonneg -> @integral R -> decomp_ok nonneg O1 -> decomp_ok nonneg O2 ->
  forall A q1 r1 q2 r2, de_qr O1 A = Some (q1, r1) -> de_qr O2 A = Some (q2, r2) -> nz_diag r1 -> nz_diag r2 ->
  exists qa ra qb rb, uqr O1 A = Ok (qa, ra) /\ uqr O2 A = Ok (qb, rb) /\ mat_eq qa qb /\ mat_eq ra rb.
Proof.
  intros R nonneg O1 O2 Ho Hi H1 H2 A q1 r1 q2 r2 E1 E2 N1 N2.
  destruct (uqr_ok nonneg O1 H1 A q1 r1 E1 N1) as (qa & ra & Ea & Pa).
  destruct (uqr_ok nonneg O2 H2 A q2 r2 E2 N2) as (qb & rb & Eb & Pb).
  exists qa, ra, qb, rb. split; [exact Ea|]. split; [exact Eb|]. exact (posqr_unique nonneg Ho Hi A qa ra qb rb Pa Pb).
Qed.
Print Assumptions C32_uqr_unique.

Theorem C32_urq : forall (R : sring) (nonneg : R -> Prop) (O : decomp R), decomp_ok nonneg O ->
  forall A r q qr2, (mr A <= mc A)%nat -> de_rq O A = Some (r, q) -> de_qr O A = Some qr2 -> nz_diag r ->
  exists r' q', urq O A = Ok (r', q') /\ posrq nonneg A r' q'.
Proof. intros R nonneg O HO. exact (urq_ok nonneg O HO). Qed.
Print Assumptions C32_urq.

Theorem C32_urq_unique : forall (R : sring) (nonneg : R -> Prop) (O1 O2 : decomp R),
  order_ok nonneg -> @integral R -> decomp_ok nonneg O1 -> decomp_ok nonneg O2 ->
  forall A r1 q1 r2 q2 x1 x2, (mr A <= mc A)%nat -> de_rq O1 A = Some (r1, q1) -> de_rq O2 A = Some (r2, q2) ->
  de_qr O1 A = Some x1 -> de_qr O2 A = Some x2 -> nz_diag r1 -> nz_diag r2 ->
  exists ra qa rb qb, urq O1 A = Ok (ra, qa) /\ urq O2 A = Ok (rb, qb) /\ mat_eq ra rb /\ mat_eq qa qb.
Proof.
  intros R nonneg O1 O2 Ho Hi H1 H2 A r1 q1 r2 q2 x1 x2 Hw E1 E2 F1 F2 N1 N2.
  destruct (urq_ok nonneg O1 H1 A r1 q1 x1 Hw E1 F1 N1) as (ra & qa & Ea & Pa).
  destruct (urq_ok nonneg O2 H2 A r2 q2 x2 Hw E2 F2 N2) as (rb & qb & Eb & Pb).
  exists ra, qa, rb, qb. split; [exact Ea|]. split; [exact Eb|]. exact (posrq_unique nonneg A ra qa rb qb Ho Hi Hw Pa Pb).
Qed.
Print Assumptions C32_urq_unique.

(** What a zero on the diagonal of the raw factor does: the column of q and the row
    of r are erased. *)
Theorem C32_uqr_zero : forall (R : sring) (nonneg : R -> Prop) (O : decomp R), decomp_ok nonneg O ->
  forall A q r i, de_qr O A = Some (q, r) -> (i < mr r)%nat -> me r i i = 0 ->
  exists q' r', uqr O A = Ok (q', r') /\ (forall x, me q' x i = 0) /\ (forall j, me r' i j = 0).
Proof. intros R nonneg O HO. exact (uqr_zero nonneg O HO). Qed.
Print Assumptions C32_uqr_zero.

Definition qA32 : mat Qi := qmat 2 2 [qi 3 0; qi 1 0; qi 4 0; qi 2 0].
Definition dec32 : decomp Qi := decQ
  [(qmat 2 2 [qi (-3#5) 0; qi (-4#5) 0; qi (-4#5) 0; qi (3#5) 0], qmat 2 2 [qi (-5) 0; qi (-11#5) 0; qi 0 0; qi (2#5) 0]);
   (qmat 2 2 [qi 1 0; qi 0 0; qi 0 0; qi 1 0], qmat 2 2 [qi 0 0; qi 1 0; qi 0 0; qi 0 0]);
   (qmat 2 1 [qi 0 0; qi 1 0], qmat 1 1 [qi 4 0])]
  [(qmat 2 2 [qi (-2#5) 0; qi (11#5) 0; qi 0 0; qi 5 0]%Q, qmat 2 2 [qi (-3#5) 0; qi (4#5) 0; qi (4#5) 0; qi (3#5) 0]);
   (qmat 2 1 [qi 0 0; qi 4 0], qmat 1 1 [qi 1 0])]
  [] [] [] [].

Definition qA32z : mat Qi := qmat 2 2 [qi 0 0; qi 1 0; qi 0 0; qi 0 0].
Definition qA32t : mat Qi := qmat 2 1 [qi 0 0; qi 4 0].

Example C32_example : decomp_ok nonnegQ dec32 /\ order_ok nonnegQ /\ @integral Qi /\
  match de_qr dec32 qA32, uqr dec32 qA32, urq dec32 qA32 with
  | Some (_, r), Ok (q', r'), Err LinAlgError =>
      negb (Qi_eqb (me r 0 0) s0) && negb (Qi_eqb (me r 1 1) s0) && Qi_eqb (me r' 0 0) (qi 5 0) && Qi_eqb (me r' 1 1) (qi (2#5) 0) && Qi_eqb (me q' 0 0) (qi (3#5) 0)
  | _, _, _ => false end%nat = true.
Proof. split; [apply decQ_ok|]. split; [exact order_Q|]. split; [exact Qi_integral|]. vm_compute. reflexivity. Qed.

(** Rank-deficient input: the factors do not multiply to A. *)
Theorem C32_uqr_refuted : exists (nonneg : Qi -> Prop) (O : decomp Qi) A q r,
  decomp_ok nonneg O /\ uqr O A = Ok (q, r) /\ ~ is_prod A q r.
Proof.
  exists nonnegQ, dec32, qA32z.
  exact (not_prod_run (uqr dec32 qA32z) (decomp_ok nonnegQ dec32) qA32z 0 1 (decQ_ok _ _ _ _ _ _) (Nat.lt_0_succ 1) (Nat.lt_succ_diag_r 1) (eq_refl true <: not_prod_b (uqr dec32 qA32z) qA32z 0 1 = true)).
Qed.
Print Assumptions C32_uqr_refuted.

(** A tall matrix of full column rank: urq takes the signs from the wrong diagonal and
    returns factors that do not multiply to A. *)
Theorem C32_urq_tall_refuted : exists (nonneg : Qi -> Prop) (O : decomp Qi) A r q,
  (decomp_ok nonneg O /\ mr A = 2%nat /\ mc A = 1%nat /\ me A 1%nat 0%nat <> 0) /\ urq O A = Ok (r, q) /\ ~ is_prod A r q.
Proof.
  exists nonnegQ, dec32, qA32t.
  exact (not_prod_run (urq dec32 qA32t) (decomp_ok nonnegQ dec32 /\ mr qA32t = 2%nat /\ mc qA32t = 1%nat /\ me qA32t 1%nat 0%nat <> 0) qA32t 1 0
    (conj (decQ_ok _ _ _ _ _ _) (conj eq_refl (conj eq_refl (Qi_neq _ _ (eq_refl false <: Qi_eqb (me qA32t 1%nat 0%nat) 0 = false)))))
    (Nat.lt_succ_diag_r 1) (Nat.lt_succ_diag_r 0) (eq_refl true <: not_prod_b (urq dec32 qA32t) qA32t 1 0 = true)).
Qed.
Print Assumptions C32_urq_tall_refuted.

(** * C33 *)
(** embed(v) is unitary of size v.size, its first column is v / norm(v) in row-major
    order. *)
Theorem C33_embed : forall (R : sring) (nonneg : R -> Prop) (O : decomp R), decomp_ok nonneg O -> char0 R ->
  forall v U, embed O v = Ok U ->
  exists n ninv, de_nrm O v = Some (n, ninv) /\ unitary_mat (mr v * mc v) U /\
    forall i j, (i < mr v)%nat -> (j < mc v)%nat -> n * me U (i * mc v + j)%nat 0%nat = me v i j.
Proof.
  intros R nonneg O HO Hc v U E. destruct (embed_ok nonneg O HO v U Hc E) as (n & ninv & En & HU & V).
  exists n, ninv. split; [exact En|]. split; [exact HU|]. intros i j Hi Hj. rewrite V by assumption.
  destruct (nrm_ok nonneg O HO v n ninv En) as (H1 & _).
  rewrite (Rmul_comm (s_th R) (me v i j)), (Rmul_assoc (s_th R)), H1. apply (Rmul_1_l (s_th R)).
Qed.
Print Assumptions C33_embed.

Theorem C33_deembed_embed : forall (R : sring) (nonneg : R -> Prop) (O : decomp R), decomp_ok nonneg O -> char0 R ->
  forall v U, mr v = 2%nat -> mc v = 2%nat -> embed O v = Ok U ->
  exists n ninv w, de_nrm O v = Some (n, ninv) /\ deembed U = Ok w /\ mr w = 2%nat /\ mc w = 2%nat /\
    forall i j, (i < 2)%nat -> (j < 2)%nat -> n * me w i j = me v i j.
Proof. intros R nonneg O HO Hc v U. exact (deembed_embed nonneg O HO v U Hc). Qed.
Print Assumptions C33_deembed_embed.

(** deembed knows only 4 x 4 matrices. *)
Theorem C33_deembed_size : forall (R : sring) (u : mat R), mr u <> 4%nat \/ mc u <> 4%nat -> deembed u = Err ValueError.
Proof. intros R. exact (@deembed_err R). Qed.
Print Assumptions C33_deembed_size.

Theorem C33_direct_sum : forall (R : sring) (A B : mat R),
  (forall n m, mr A = n -> mc A = n -> mr B = m -> mc B = m ->
    exists M, direct_sum A B = Ok M /\ mr M = (n + m)%nat /\ mc M = (n + m)%nat /\
      (forall i j, (i < n)%nat -> (j < n)%nat -> me M i j = me A i j) /\
      (forall i j, (i < n)%nat -> (j < m)%nat -> me M i (n + j)%nat = 0) /\
      (forall i j, (i < m)%nat -> (j < n)%nat -> me M (n + i)%nat j = 0) /\
      (forall i j, (i < m)%nat -> (j < m)%nat -> me M (n + i)%nat (n + j)%nat = me B i j)) /\
  (mr A <> mc A \/ mr B <> mc B -> direct_sum A B = Err ValueError).
Proof. intros R A B. split; [exact (direct_sum_ok A B)|exact (direct_sum_err A B)]. Qed.
Print Assumptions C33_direct_sum.

(** Tall, wide and square isometries: unitary, of size the larger of the two
    dimensions and of D, with Q in the upper left corner; raised errors come from the
    null spaces only. *)
Theorem C33_unitary_extension : forall (R : sring) (nonneg : R -> Prop) (O : decomp R), decomp_ok nonneg O -> char0 R ->
  forall Q N1 N2 D, (mc Q <= mr Q)%nat /\ orth_cols Q \/ (mr Q <= mc Q)%nat /\ orth_rows Q ->
  de_null O Q = Some N1 -> de_null O (mct Q) = Some N2 ->
  let n := Nat.max (mr Q) (mc Q) in
  exists U, unitary_extension O Q D = Ok U /\
    unitary_mat (match D with Some D => Nat.max n D | None => n end) U /\
    forall i j, (i < mr Q)%nat -> (j < mc Q)%nat -> me U i j = me Q i j.
Proof.
  intros R nonneg O HO Hc Q N1 N2 D HQ E1 E2. destruct (extension_total nonneg O HO Hc Q N1 N2 D HQ E1 E2) as [U E].
  exists U. split; [exact E|]. exact (extension_ok nonneg O HO Hc Q U D HQ E).
Qed.
Print Assumptions C33_unitary_extension.

Definition qV : mat Qi := qmat 2 2 [qi 3 0; qi 0 0; qi 0 4; qi 0 0].
Definition qrow : mat Qi := qmat 1 4 [qi (3#5) 0; qi 0 0; qi 0 (4#5); qi 0 0].
Definition qker : mat Qi := qmat 4 3 [qi 0 0; qi (4#5) 0; qi 0 0;
                                      qi 1 0; qi 0 0; qi 0 0;
                                      qi 0 0; qi 0 (3#5); qi 0 0;
                                      qi 0 0; qi 0 0; qi 1 0].
(** a 3 x 2 isometry *)
Definition qIso : mat Qi := qmat 3 2 [qi (3#5) 0; qi 0 0; qi 0 (4#5); qi 0 0; qi 0 0; qi 1 0].
Definition dec33 : decomp Qi := decQ [] []
  [(qmat 2 2 [qi (3#5) 0; qi (4#5) 0; qi 0 (-4#5); qi 0 (3#5)], qmat 2 1 [qi 5 0; qi 0 0])]
  [(qker, mct qrow); (qmat 2 0 [], mct qIso); (qmat 3 1 [qi 0 (4#5); qi (3#5) 0; qi 0 0], qIso)]
  [(qi 5 0, qi (1#5) 0)] [qi (3#5) (-4#5)].

Example C33_example : decomp_ok nonnegQ dec33 /\ char0 Qi /\ orth_cols qIso /\
  match embed dec33 qV, unitary_extension dec33 qIso None, unitary_extension dec33 qIso (Some 5%nat) with
  | Ok U, Ok U3, Ok U5 => Nat.eqb (mc U) 4 && Qi_eqb (me U 2 0)%nat (qi 0 (4#5)) && Nat.eqb (mc U3) 3 && Nat.eqb (mr U5) 5 &&
      Qi_eqb (me U5 1 0)%nat (qi 0 (4#5)) && Qi_eqb (me U5 4 4)%nat s1
  | _, _, _ => false end = true.
Proof. split; [apply decQ_ok|]. split; [exact char0_Q|]. split; [apply ocols_b_sound; vm_compute; reflexivity|]. vm_compute. reflexivity. Qed.

(** A requested size below the size of the isometry is ignored. *)
Theorem C33_requested_size_refuted : exists (nonneg : Qi -> Prop) (O : decomp Qi) Q D U,
  decomp_ok nonneg O /\ orth_cols Q /\ (mc Q <= mr Q)%nat /\ unitary_extension O Q (Some D) = Ok U /\ mr U <> D.
Proof.
  exists nonnegQ, dec33, qIso, 2%nat.
  destruct (size_run (unitary_extension dec33 qIso (Some 2%nat)) 3 (eq_refl true <: size_b (unitary_extension dec33 qIso (Some 2%nat)) 3 = true)) as (U & E & H).
  exists U. split; [apply decQ_ok|]. split; [apply ocols_b_sound; vm_compute; reflexivity|]. split; [apply Nat.leb_le; reflexivity|]. split; [exact E|].
  rewrite H. discriminate.
Qed.
Print Assumptions C33_requested_size_refuted.

(** * C60 *)
Theorem C60_null_vectors : forall (R : sring) (nonneg : R -> Prop) (O : decomp R), decomp_ok nonneg O ->
  forall A V, (mr A <= mc A)%nat -> get_null_space O A = Ok V ->
  mr V = mc A /\ mc V = (mc A - mr A)%nat /\ orth_cols V /\
  forall i k, (i < mr A)%nat -> (k < mc V)%nat -> sum (mc A) (fun j => me A i j * me V j k) = 0.
Proof. intros R nonneg O HO. exact (get_null_space_run nonneg O HO). Qed.
Print Assumptions C60_null_vectors.

(** With independent rows (B a right inverse of A) they span the kernel. *)
Theorem C60_complete : forall (R : sring) (nonneg : R -> Prop) (O : decomp R), decomp_ok nonneg O ->
  forall A B V, @integral R -> (1 : R) <> 0 -> (mr A <= mc A)%nat -> get_null_space O A = Ok V ->
  mr B = mc A -> mc B = mr A ->
  (forall i j, (i < mr A)%nat -> (j < mr A)%nat -> sum (mc A) (fun x => me A i x * me B x j) = dlt i j) ->
  is_kernel A V.
Proof. intros R nonneg O HO. exact (get_null_space_complete nonneg O HO). Qed.
Print Assumptions C60_complete.

Definition qA60 : mat Qi := qmat 1 2 [qi 3 0; qi 0 4].
Definition qB60 : mat Qi := qmat 2 1 [qi (1#3) 0; qi 0 0].
Example C60_example : (1 : Qi) <> 0 /\ prod_b (qmat 1 1 [qi 1 0]) qA60 qB60 = true /\
  match get_null_space dec33 qA60 with Ok V => Nat.eqb (mc V) 1 && Qi_eqb (me V 1 0)%nat (qi 0 (3#5)) | _ => false end = true.
Proof. split; [exact Qi_one_zero|]. split; vm_compute; reflexivity. Qed.

(** * C61 *)
(** r = phase * h with h Hermitian and h[0,0] not zero: the result is h or -h, and the
    returned phase undoes the rotation. *)
Theorem C61_rotate_to_hermitian : forall (R : sring) (nonneg : R -> Prop) (O : decomp R), decomp_ok nonneg O -> @integral R ->
  forall (h r : mat R) (ph : R) w r', hermitian h -> ph * sconj ph = 1 -> me h 0%nat 0%nat <> 0 ->
  mr r = mr h -> mc r = mc h -> (forall i j, (i < mr h)%nat -> (j < mr h)%nat -> me r i j = ph * me h i j) ->
  rotate_to_hermitian O r = Ok (w, r') ->
  exists s, (s = 1 \/ s = - (1)) /\ w = s * ph /\ hermitian r' /\ mr r' = mr h /\
    (forall i j, (i < mr h)%nat -> (j < mr h)%nat -> me r' i j = s * me h i j) /\
    (forall i j, (i < mr h)%nat -> (j < mr h)%nat -> me r i j = w * me r' i j).
Proof. intros R nonneg O HO Hi h r ph w r'. exact (rotate_ok nonneg O HO h r ph w r' Hi). Qed.
Print Assumptions C61_rotate_to_hermitian.

Definition qh61 : mat Qi := qmat 2 2 [qi 2 0; qi 1 1; qi 1 (-1); qi 3 0].
Definition qph61 : Qi := qi (3#5) (4#5).
Definition qr61 : mat Qi := mkMat 2 2 (fun i j => qph61 * me qh61 i j).
Example C61_example : qph61 * sconj qph61 = 1 /\ hermitian qh61 /\
  match rotate_to_hermitian dec33 qr61 with Ok (w, r') => Qi_eqb w qph61 && Qi_eqb (me r' 0 1)%nat (qi 1 1) | _ => false end = true.
Proof.
  split; [apply Qi_eqb_eq; vm_compute; reflexivity|]. split; [|vm_compute; reflexivity].
  split; [reflexivity|]. intros i j Hi Hj. cbn in Hi, Hj. destruct i as [|[|]]; try lia; destruct j as [|[|]]; try lia; apply Qi_eqb_eq; vm_compute; reflexivity.
Qed.
