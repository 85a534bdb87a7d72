(** C27, C28: ncon computes the Einstein sum; what its index check accepts. *)
From Coq Require Import Permutation Sorted.
From Verif Require Import Alg ModelMPS ModelNcon SpecNcon ProofNcon ProofNcon3 ProofNcon4.
Local Open Scope sr_scope.

(** For every well-formed network and every way in which Python walks through
    sets: ncon returns, indexed by the free labels in the order asked for, the
    sum over all values of the contracted labels of the product of all entries. *)
Theorem C27_einstein_sum : forall (R : sring) (O : setio) (ld : Z -> nat) (AA : list (tens R)) v order forder check,
  setio_ok O -> well_formed ld AA v order forder ->
  exists T, ncon O AA v (Some order) (Some forder) check = Ok T /\ tsh T = map ld forder /\
    forall idx, length idx = length forder -> te T idx = esum ld order (tprod AA v) (assign forder idx).
Proof. intros R. exact (@ncon_checked R). Qed.
Print Assumptions C27_einstein_sum.

(** Without the two optional orders the free labels come in decreasing order. *)
Theorem C27_default_orders : forall (R : sring) (O : setio) (ld : Z -> nat) (AA : list (tens R)) v order forder check,
  setio_ok O -> well_formed ld AA v order forder -> StronglySorted Z.gt forder ->
  exists T, ncon O AA v None None check = Ok T /\ tsh T = map ld forder /\
    forall idx, length idx = length forder -> te T idx = esum ld order (tprod AA v) (assign forder idx).
Proof. intros R. exact (@ncon_default_ok R). Qed.
Print Assumptions C27_default_orders.

(** The contraction order, the set order and the way disconnected parts are
    joined do not matter. *)
Theorem C27_order_independent : forall (R : sring) (O O' : setio) (ld ld' : Z -> nat) (AA : list (tens R)) v order order' forder check check',
  setio_ok O -> setio_ok O' -> well_formed ld AA v order forder -> well_formed ld' AA v order' forder ->
  exists T T', ncon O AA v (Some order) (Some forder) check = Ok T /\ ncon O' AA v (Some order') (Some forder) check' = Ok T' /\
    tsh T = tsh T' /\ forall idx, length idx = length forder -> te T idx = te T' idx.
Proof. intros R. exact (@ncon_independent R). Qed.
Print Assumptions C27_order_independent.

(** The check accepts exactly the consistent networks and raises ValueError otherwise. *)
Theorem C28_check_exact : forall (R : sring) (AA : list (tens R)) v order forder,
  (consistent AA v order forder -> do_check_indices AA v order forder = Ok tt) /\
  (~ consistent AA v order forder -> do_check_indices AA v order forder = Err ValueError).
Proof. intros R. exact (@check_iff R). Qed.
Print Assumptions C28_check_exact.

(** With checking on, default orders and no label 0: ncon returns a tensor for
    every consistent network and raises ValueError for every other. *)
Theorem C28_ncon_validates : forall (R : sring) (O : setio) (AA : list (tens R)) v,
  setio_ok O -> v <> [] -> ~ In 0%Z (concat v) ->
  (consistent AA v (create_order v) (create_forder v) -> exists T, ncon O AA v None None true = Ok T) /\
  (~ consistent AA v (create_order v) (create_forder v) -> ncon O AA v None None true = Err ValueError).
Proof. intros R. exact (@ncon_accepts R). Qed.
Print Assumptions C28_ncon_validates.

(** * Concrete cases *)
(** sets walked through from the front, and from the back *)
Definition setA : setio := mkSet (fun l => nodup Z.eq_dec l) (fun l => hd 0%nat l).
Definition setB : setio := mkSet (fun l => rev (nodup Z.eq_dec l)) (fun l => last l 0%nat).

Lemma setA_ok : setio_ok setA.
Proof.
  split.
  - intros l. split; [apply NoDup_nodup|]. intros x. apply nodup_In.
  - intros [|x l] H; [contradiction|left; reflexivity].
Qed.

Lemma setB_ok : setio_ok setB.
Proof.
  split.
  - intros l. cbn. split; [apply NoDup_rev, NoDup_nodup|]. intros x. rewrite <- in_rev. apply nodup_In.
  - intros l H. cbn. destruct (exists_last H) as (l' & x & ->). rewrite last_last. apply in_or_app. right. left. reflexivity.
Qed.

(** a matrix product, a trace and a vector, not connected to each other *)
Definition exT (k : Z) : tens Zi := mkT [2; 2]%nat (fun idx => zi (k + Z.of_nat (nth 0 idx 0%nat)) (Z.of_nat (nth 1 idx 0%nat) - 2)).
Definition exU : tens Zi := mkT [2]%nat (fun idx => zi 3 (Z.of_nat (nth 0 idx 0%nat))).
Definition exAA := [exT 1; exT 5; exT 2; exU].
Definition exv : list (list Z) := [[-1; 2]; [2; -3]; [7; 7]; [-2]]%Z.

Lemma ex_wf : well_formed (fun _ => 2%nat) exAA exv [7; 2]%Z [-1; -2; -3]%Z.
Proof.
  split; [discriminate|]. split; [repeat constructor|].
  split; [repeat constructor; cbn; intuition discriminate|].
  split; [repeat constructor; cbn; intuition discriminate|].
  split; [intros l [<-|[<-|[]]]; split; reflexivity|].
  split; [intros l [<-|[<-|[<-|[]]]]; split; reflexivity|].
  intros l H. cbn in H. cbn. intuition auto.
Qed.

Definition entries_agree (r : res (tens Zi)) (f : nat -> nat -> nat -> Zi) : bool :=
  match r with
  | Ok T => forallb (fun a => forallb (fun b => forallb (fun c => Zi_eqb (te T [a; b; c]%nat) (f a b c)) (seq 0 2)) (seq 0 2)) (seq 0 2)
            && nlist_eqb (tsh T) [2; 2; 2]%nat
  | Err _ => false
  end.

Definition ex_direct (a b c : nat) : Zi :=
  (te (exT 1) [a; 0]%nat * te (exT 5) [0; c]%nat + te (exT 1) [a; 1]%nat * te (exT 5) [1; c]%nat)
  * (te (exT 2) [0; 0]%nat + te (exT 2) [1; 1]%nat) * te exU [b].

Example C27_example :
  entries_agree (ncon setA exAA exv None None true) ex_direct = true /\
  entries_agree (ncon setB exAA exv (Some [7; 2]%Z) None true) ex_direct = true.
Proof. split; vm_compute; reflexivity. Qed.

Example C28_example : ~ In 0%Z (concat exv) /\ consistent exAA exv (create_order exv) (create_forder exv) /\
  do_check_indices exAA [[-1; 2]; [2; -3]; [7; 7]; [7]]%Z [2; 7]%Z [-1; -3]%Z = Err ValueError.
Proof.
  split; [cbn; intuition discriminate|]. split; [|reflexivity].
  exact (wf_consistent _ _ _ _ _ (proj1 (wf_default _ _ _ _ _ ex_wf))).
Qed.

(** The label 0 is neither contracted nor free: the check accepts it, and the
    contraction then fails with ValueError in the final transposition. *)
Theorem C28_label_zero_refuted : exists (AA : list (tens Zi)) v,
  do_check_indices AA v (create_order v) (create_forder v) = Ok tt /\
  ncon setA AA v None None true = Err ValueError.
Proof. exists [exU], [[0%Z]]. split; vm_compute; reflexivity. Qed.
Print Assumptions C28_label_zero_refuted.

(** Without the check (fMPS.py calls ncon this way) a trace over two legs of
    different sizes is not rejected: the sum runs over the smaller size. *)
Theorem C28_unchecked_trace_refuted : exists (AA : list (tens Zi)) v T,
  ncon setA AA v None None false = Ok T /\ ncon setA AA v None None true = Err ValueError.
Proof. exists [mkT [2; 3]%nat (fun _ => 1 : Zi)], [[1; 1]%Z]. eexists. split; vm_compute; reflexivity. Qed.
Print Assumptions C28_unchecked_trace_refuted.
