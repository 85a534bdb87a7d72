(** C29, C30, C31: transposes, Kronecker index helpers and partial traces of tensor.py. *)
From Verif Require Import Alg ModelMPS SpecMPS ModelNcon ModelTensor SpecTensor ProofTensor ProofTrace ProofTrace2.
From Coq Require Import Permutation.
Local Open Scope nat_scope.
Local Open Scope sr_scope.

(** * C29 *)
(** T and H exchange the last two axes of an array of any rank >= 2, H conjugates. *)
Theorem C29_T : forall (R : sring) (A : tens R) sh n m, tsh A = sh ++ [n; m] ->
  exists B, tT A = Ok B /\ tsh B = sh ++ [m; n] /\
    forall r i j, length r = length sh -> te B (r ++ [j; i]) = te A (r ++ [i; j]).
Proof. intros R. exact (@tT_ok R). Qed.
Print Assumptions C29_T.

Theorem C29_H : forall (R : sring) (A : tens R) sh n m, tsh A = sh ++ [n; m] ->
  exists B, tH A = Ok B /\ tsh B = sh ++ [m; n] /\
    forall r i j, length r = length sh -> te B (r ++ [j; i]) = sconj (te A (r ++ [i; j])).
Proof. intros R. exact (@tH_ok R). Qed.
Print Assumptions C29_H.

(** below rank 2 both raise *)
Theorem C29_short : forall (R : sring) (A : tens R), (length (tsh A) < 2)%nat -> tT A = Err IndexError /\ tH A = Err IndexError.
Proof. intros R. exact (@tT_short R). Qed.
Print Assumptions C29_short.

Theorem C29_T_involution : forall (R : sring) (A B : tens R), tT A = Ok B -> exists A', tT B = Ok A' /\ tens_eq A A'.
Proof. intros R. exact (@tT_invol R). Qed.
Print Assumptions C29_T_involution.

Theorem C29_H_involution : forall (R : sring) (A B : tens R), tH A = Ok B -> exists A', tH B = Ok A' /\ tens_eq A A'.
Proof. intros R. exact (@tH_invol R). Qed.
Print Assumptions C29_H_involution.

Theorem C29_C_involution : forall (R : sring) (A : tens R), tens_eq A (tC (tC A)).
Proof. intros R. exact (@tC_invol R). Qed.
Print Assumptions C29_C_involution.

Theorem C29_H_is_C_of_T : forall (R : sring) (A B : tens R), tT A = Ok B -> exists B', tH A = Ok B' /\ tens_eq B' (tC B).
Proof. intros R. exact (@tH_CT R). Qed.
Print Assumptions C29_H_is_C_of_T.

Theorem C29_H_product : forall (R : sring) (A B P : tens R), matmul A B = Ok P ->
  exists A' B' P1 P2, tH A = Ok A' /\ tH B = Ok B' /\ tH P = Ok P1 /\ matmul B' A' = Ok P2 /\ tens_eq P1 P2.
Proof. intros R. exact (@tH_matmul R). Qed.
Print Assumptions C29_H_product.

(** two stacked 2x3 and 3x1 matrices *)
Definition exA3 : tens Zi := mkT [2; 2; 3]%nat (fun idx => match idx with [x; i; j] => zi (Z.of_nat (x + 2 * i)) (Z.of_nat j - 1) | _ => s0 end).
Definition exB3 : tens Zi := mkT [2; 3; 1]%nat (fun idx => match idx with [x; i; j] => zi (Z.of_nat i - 1) (Z.of_nat (x + j)) | _ => s0 end).
Example C29_example :
  match matmul exA3 exB3 with
  | Ok P => match tH P, tH exA3 with
            | Ok P1, Ok A' => nlist_eqb (tsh P1) [2; 1; 2]%nat && Zi_eqb (te P1 [1; 0; 1]%nat) (zi 0 (-11)) && nlist_eqb (tsh A') [2; 3; 2]%nat
            | _, _ => false end
  | _ => false end = true.
Proof. vm_compute. reflexivity. Qed.

(** * C30 *)
(** loc addresses the entry of kron(A, B) made of A[r,s] and B[v,w], for matrices of
    all shapes; the address is inside the product. *)
Theorem C30_loc : forall (R : sring) (A B : mat R) r s v w, (r < mr A)%nat -> (s < mc A)%nat -> (v < mr B)%nat -> (w < mc B)%nat ->
  exists i j, loc (r, s) (v, w) None (Some (mr B)) (Some (mc B)) = Ok (i, j) /\
    (i < mr (kron A B))%nat /\ (j < mc (kron A B))%nat /\ me (kron A B) i j = me A r s * me B v w.
Proof.
  intros R A B r s v w Hr Hs Hv Hw. eexists. eexists. destruct (kron_loc A B r s v w Hv Hw) as [E V]. split; [exact E|].
  destruct (kron_loc_in A B r s v w Hr Hs Hv Hw) as [H1 H2]. split; [exact H1|]. split; [exact H2|exact V].
Qed.
Print Assumptions C30_loc.

(** the argument d stands for p = q = d; with neither, loc raises *)
Theorem C30_loc_d : forall st uv d p q, loc st uv (Some d) p q = loc st uv None (Some d) (Some d) /\ loc st uv None None None = Err Exception_.
Proof. intros. split; reflexivity. Qed.
Print Assumptions C30_loc_d.

(** loc_3(rs, tu, vw): the second pair addresses the third factor. *)
Theorem C30_loc_3 : forall (R : sring) (A B C : mat R) d r s t u v w, mr B = d -> mc B = d -> mr C = d -> mc C = d ->
  (t < d)%nat -> (u < d)%nat -> (v < d)%nat -> (w < d)%nat ->
  let ij := loc_3 (r, s) (t, u) (v, w) d in
  me (kron (kron A B) C) (fst ij) (snd ij) = me A r s * me B v w * me C t u.
Proof. intros R. exact (@kron3_loc R). Qed.
Print Assumptions C30_loc_3.

(** split_up: the axes are (second site, first site) of the bra, then of the ket. *)
Theorem C30_split_up : forall (R : sring) (M : mat R) d p q, mr M = (d * d)%nat -> mc M = (d * d)%nat ->
  exists h, split_up M (Some d) p q = Ok h /\ tsh h = [d; d; d; d] /\
    forall u v s t, (u < d)%nat -> (v < d)%nat -> (s < d)%nat -> (t < d)%nat ->
      te h [u; v; s; t] = me M (d * v + u)%nat (d * t + s)%nat.
Proof. intros R. exact (@split_up_ok R). Qed.
Print Assumptions C30_split_up.

Theorem C30_split_up_kron : forall (R : sring) (A B : mat R) d p q, mr A = d -> mc A = d -> mr B = d -> mc B = d ->
  exists h, split_up (kron A B) (Some d) p q = Ok h /\ tsh h = [d; d; d; d] /\
    forall u v s t, (u < d)%nat -> (v < d)%nat -> (s < d)%nat -> (t < d)%nat -> te h [u; v; s; t] = me A v t * me B u s.
Proof. intros R. exact (@split_up_kron R). Qed.
Print Assumptions C30_split_up_kron.

(** without d it always raises, although p and q are documented *)
Theorem C30_split_up_without_d : forall (R : sring) (M : mat R) p q,
  split_up M None p q = Err Exception_ \/ split_up M None p q = Err TypeError.
Proof. intros R. exact (@split_up_none R). Qed.
Print Assumptions C30_split_up_without_d.

Theorem C30_split_up_3 : forall (R : sring) (A B C : mat R),
  mr A = 2%nat -> mc A = 2%nat -> mr B = 2%nat -> mc B = 2%nat -> mr C = 2%nat -> mc C = 2%nat ->
  exists h, split_up_3 (kron (kron A B) C) 2 = Ok h /\ tsh h = [2; 2; 2; 2; 2; 2]%nat /\
    forall i j k l m n, (i < 2)%nat -> (j < 2)%nat -> (k < 2)%nat -> (l < 2)%nat -> (m < 2)%nat -> (n < 2)%nat ->
      te h [i; j; k; l; m; n] = me A i j * me C k l * me B m n.
Proof. intros R. exact (@split_up_3_ok R). Qed.
Print Assumptions C30_split_up_3.

Definition zmat (r c : nat) (l : list Zi) : mat Zi := mkMat r c (fun i j => nth (i * c + j)%nat l s0).
Definition zP : mat Zi := zmat 2 2 [zi 0 0; zi 1 0; zi 0 0; zi 0 0].
Definition zZ : mat Zi := zmat 2 2 [zi 1 0; zi 0 0; zi 0 0; zi (-1) 0].
Definition zI (d : nat) : mat Zi := mkMat d d (fun i j => dlt i j).

Lemma Zi_neq x y : Zi_eqb x y = false -> x <> (y : Zi).
Proof.
  intros H E. subst. unfold Zi_eqb in H. destruct y as [a b]. cbn in H. rewrite !Z.eqb_refl in H. discriminate.
Qed.

(** The addresses of loc_3 in the documented order of the factors are wrong. *)
Theorem C30_loc_3_order_refuted : exists (A B C : mat Zi) r s t u v w,
  let ij := loc_3 (r, s) (t, u) (v, w) 2 in me (kron (kron A B) C) (fst ij) (snd ij) <> me A r s * me B t u * me C v w.
Proof. exists (zI 2), zP, zZ, 0%nat, 0%nat, 0%nat, 1%nat, 0%nat, 0%nat. apply Zi_neq. vm_compute. reflexivity. Qed.
Print Assumptions C30_loc_3_order_refuted.

(** The documented result of split_up, <u,v|H|s,t> at (u, v, s, t), is wrong. *)
Theorem C30_split_up_doc_refuted : exists (A B : mat Zi) h,
  split_up (kron A B) (Some 2%nat) None None = Ok h /\ te h [0; 0; 1; 0]%nat <> me A 0%nat 1%nat * me B 0%nat 0%nat.
Proof.
  destruct (split_up_kron zP zZ 2 None None) as (h & E & _ & V); try reflexivity.
  exists zP, zZ, h. split; [exact E|]. rewrite V by lia. apply Zi_neq. vm_compute. reflexivity.
Qed.
Print Assumptions C30_split_up_doc_refuted.

(** split_up_3 uses d = 2 whatever d it is given: wrong for d = 3 without an error. *)
Theorem C30_split_up_3_dim_refuted : exists (M : mat Zi), mr M = 27%nat /\ mc M = 27%nat /\
  match split_up_3 M 3 with
  | Ok h => te h [1; 0; 0; 0; 0; 0]%nat <> me M 9%nat 0%nat
  | Err _ => False end.
Proof.
  exists (mkMat 27 27 (fun i j => zi (Z.of_nat i) (Z.of_nat j))). split; [reflexivity|]. split; [reflexivity|].
  vm_compute. discriminate.
Qed.
Print Assumptions C30_split_up_3_dim_refuted.

Example C30_example :
  match loc (1, 0) (0, 1) None (Some 2) (Some 3), split_up (kron zP zZ) (Some 2) None None with
  | Ok ij, Ok h => Zi_eqb (te h [1; 0; 1; 1]) (zi (-1) 0) && Nat.eqb (fst ij) 2 && Nat.eqb (snd ij) 1
  | _, _ => false end%nat = true.
Proof. vm_compute. reflexivity. Qed.

(** * C31 *)
(** Entry by entry: rows and columns of the result are the basis states s, t of the
    kept spaces; the states c of the other spaces are summed. *)
Theorem C31_partial_trace : forall (R : sring) (rho : mat R) keep ds, keep_ok keep ds ->
  mr rho = fold_right Nat.mul 1%nat ds -> mc rho = fold_right Nat.mul 1%nat ds ->
  let mask := mask_of (length ds) keep in
  let K := pick true mask ds in
  exists r, partial_trace rho keep ds = Ok r /\ mr r = fold_right Nat.mul 1%nat K /\ mc r = fold_right Nat.mul 1%nat K /\
    forall s t, incfg K s -> incfg K t -> me r (position K s) (position K t)
      = sumcfg (pick false mask ds) (fun c => me rho (position ds (weave mask s c)) (position ds (weave mask t c))).
Proof. intros R rho keep ds (H0 & H1 & H2). exact (partial_trace_ok keep ds H2 H1 H0 rho). Qed.
Print Assumptions C31_partial_trace.

Theorem C31_trace_preserved : forall (R : sring) (rho : mat R) keep ds, keep_ok keep ds ->
  mr rho = fold_right Nat.mul 1%nat ds -> mc rho = fold_right Nat.mul 1%nat ds ->
  exists r, partial_trace rho keep ds = Ok r /\ mr r = mc r /\
    sum (mr r) (fun i => me r i i) = sum (mr rho) (fun i => me rho i i).
Proof. intros R. exact (@partial_trace_trace R). Qed.
Print Assumptions C31_trace_preserved.

Theorem C31_keep_all : forall (R : sring) (rho : mat R) keep ds, keep_ok keep ds -> (forall i, (i < length ds)%nat -> In i keep) ->
  mr rho = fold_right Nat.mul 1%nat ds -> mc rho = fold_right Nat.mul 1%nat ds ->
  exists r, partial_trace rho keep ds = Ok r /\ mat_eq r rho.
Proof. intros R. exact (@partial_trace_all R). Qed.
Print Assumptions C31_keep_all.

(** The order in which the kept spaces are listed has no effect (they are not
    permuted in the result). *)
Theorem C31_keep_order : forall (R : sring) (rho : mat R) keep keep' ds, keep_ok keep ds -> Permutation keep keep' ->
  mr rho = fold_right Nat.mul 1%nat ds -> mc rho = fold_right Nat.mul 1%nat ds ->
  exists r r', partial_trace rho keep ds = Ok r /\ partial_trace rho keep' ds = Ok r' /\ mat_eq r r'.
Proof. intros R. exact (@partial_trace_order R). Qed.
Print Assumptions C31_keep_order.

(** rhoA(u) is the partial trace of |u><u|. *)
Theorem C31_rhoA : forall (R : sring) (u : list R) keep ds, keep_ok keep ds -> length u = fold_right Nat.mul 1%nat ds ->
  let mask := mask_of (length ds) keep in
  let K := pick true mask ds in
  exists r, rhoA u keep ds = Ok r /\ mr r = fold_right Nat.mul 1%nat K /\ mc r = fold_right Nat.mul 1%nat K /\
    forall s t, incfg K s -> incfg K t -> me r (position K s) (position K t)
      = sumcfg (pick false mask ds) (fun c => nth (position ds (weave mask s c)) u 0 * sconj (nth (position ds (weave mask t c)) u 0)).
Proof. intros R u keep ds (H0 & H1 & H2). exact (rhoA_ok keep ds H2 H1 H0 u). Qed.
Print Assumptions C31_rhoA.

Theorem C31_rhoA_hermitian : forall (R : sring) (u : list R) keep ds, keep_ok keep ds -> length u = fold_right Nat.mul 1%nat ds ->
  exists r, rhoA u keep ds = Ok r /\ mr r = mc r /\
    forall i j, (i < mr r)%nat -> (j < mr r)%nat -> me r j i = sconj (me r i j).
Proof. intros R. exact (@rhoA_hermitian R). Qed.
Print Assumptions C31_rhoA_hermitian.

(** Keeping nothing: partial_trace raises, rhoA returns |u><u| untraced. *)
Theorem C31_keep_nothing : forall (R : sring) (rho : mat R) (u : list R) ds,
  partial_trace rho [] ds = Err IndexError /\
  exists r, rhoA u [] ds = Ok r /\ mr r = length u /\ mc r = length u /\ forall i j, me r i j = nth i u 0 * sconj (nth j u 0).
Proof. intros R rho u ds. split; [reflexivity|apply rhoA_empty]. Qed.
Print Assumptions C31_keep_nothing.

(** spaces of dimensions 2, 3, 2, the outer two kept *)
Definition exRho : mat Zi := mkMat 12 12 (fun i j => zi (Z.of_nat (i * 13 + j)) (Z.of_nat i - Z.of_nat (2 * j))).
Example C31_example : keep_ok [2; 0]%nat [2; 3; 2]%nat /\
  match partial_trace exRho [2; 0]%nat [2; 3; 2]%nat with
  | Ok r => Nat.eqb (mr r) 4 && Zi_eqb (me r 1 2)%nat (zi 141 (-39))
  | _ => false end = true.
Proof.
  split.
  - split; [discriminate|]. split; [repeat constructor; cbn; intuition discriminate|]. intros i [<-|[<-|[]]]; cbn; lia.
  - vm_compute. reflexivity.
Qed.
