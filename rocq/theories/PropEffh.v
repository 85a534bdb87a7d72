(** C106: the effective Hamiltonian of one site, effH. *)
From Coq Require Import QArith.
From Verif Require Import Alg QScalars ModelMPS SpecMPS ModelOrth ModelNcon ModelEk ModelNp ModelQmb SpecQmb ModelEffh SpecEffh ProofEffh ProofEffh2 ProofEffh3 ExOrth PropHam ExEffh.
Local Open Scope nat_scope.
Local Open Scope sr_scope.

(** get_envs: L holds the sites on the left with axes (MPO, bra, ket), R the sites on the
    right with axes (MPO, ket, bra). *)
Theorem C106_environments : forall (R : sring) d (Wp Wq : list (tens R)) W (p q : list (site R)) A k k', eff_fits d Wp Wq W p q A k k' ->
  exists e, get_envs (Wp ++ W :: Wq) (p ++ A :: q) (length p) = Ok e /\
    tsh (e_L e) = [k; dl A; dl A] /\ tsh (e_R e) = [k'; dr A; dr A] /\
    (forall w x y, (w < k)%nat -> (x < dl A)%nat -> (y < dl A)%nat -> te (e_L e) [w; x; y] = left_block d Wp p w x y) /\
    (forall w x y, (w < k')%nat -> (x < dr A)%nat -> (y < dr A)%nat -> te (e_R e) [w; x; y] = right_block d Wq q w y x).
Proof. exact (@eff_environments). Qed.
Print Assumptions C106_environments.

(** Every entry of asmatrix. *)
Theorem C106_matrix : forall (R : sring) d (Wp Wq : list (tens R)) W (p q : list (site R)) A k k', eff_fits d Wp Wq W p q A k k' ->
  exists e M, get_envs (Wp ++ W :: Wq) (p ++ A :: q) (length p) = Ok e /\ eff_matrix e = Ok M /\
  tsh M = [(d * (dl A * dr A))%nat; (d * (dl A * dr A))%nat] /\
  forall i x y i' x' y', (i < d)%nat -> (x < dl A)%nat -> (y < dr A)%nat -> (i' < d)%nat -> (x' < dl A)%nat -> (y' < dr A)%nat ->
    te M [flat3 (dl A) (dr A) i x y; flat3 (dl A) (dr A) i' x' y'] = eff_entry d Wp Wq W p q k k' i x y i' x' y'.
Proof. exact (@eff_matrix_entries). Qed.
Print Assumptions C106_matrix.

(** When the right block is symmetric in its two copies, asmatrix is the effective
    Hamiltonian: conj(B) M B' = <.. B ..| H |.. B' ..> for all tensors B, B'. *)
Theorem C106_effective : forall (R : sring) d (Wp Wq : list (tens R)) W (p q : list (site R)) A k k', eff_fits d Wp Wq W p q A k k' ->
  (forall w x y, (w < k')%nat -> (x < dr A)%nat -> (y < dr A)%nat -> right_block d Wq q w x y = right_block d Wq q w y x) ->
  exists e M, get_envs (Wp ++ W :: Wq) (p ++ A :: q) (length p) = Ok e /\ eff_matrix e = Ok M /\
  forall B B' : site R, phys B = d -> phys B' = d -> dl B = dl A -> dl B' = dl A -> dr B = dr A -> dr B' = dr A ->
    quad M B B' = mpo_elem d (Wp ++ W :: Wq) (p ++ B :: q) (p ++ B' :: q).
Proof. exact (@eff_matrix_effective). Qed.
Print Assumptions C106_effective.

(** So it is for the last site, and when the tensors on the right are real and those of the
    MPO there symmetric in their physical indices. *)
Theorem C106_effective_real : forall (R : sring) d (Wp Wq : list (tens R)) W (p q : list (site R)) A k k', eff_fits d Wp Wq W p q A k k' ->
  (forall W, In W Wq -> forall i i' a b, te W [i; i'; a; b] = te W [i'; i; a; b]) -> (forall A, In A q -> forall i x y, sconj (ent A i x y) = ent A i x y) ->
  exists e M, get_envs (Wp ++ W :: Wq) (p ++ A :: q) (length p) = Ok e /\ eff_matrix e = Ok M /\
  forall B B' : site R, phys B = d -> phys B' = d -> dl B = dl A -> dl B' = dl A -> dr B = dr A -> dr B' = dr A ->
    quad M B B' = mpo_elem d (Wp ++ W :: Wq) (p ++ B :: q) (p ++ B' :: q).
Proof. exact (@eff_effective_real). Qed.
Print Assumptions C106_effective_real.

(** Not so in general: the Heisenberg chain of fMPO on two sites at its first site. *)
Theorem C106_effective_refuted : exists d (Wq : list (tens Qi)) W (q : list (site Qi)) A k' e M B B',
  eff_fits d [] Wq W [] q A 1 k' /\ get_envs (W :: Wq) (A :: q) 0 = Ok e /\ eff_matrix e = Ok M /\
  phys B = d /\ phys B' = d /\ dl B = dl A /\ dl B' = dl A /\ dr B = dr A /\ dr B' = dr A /\
  W :: Wq = fMPO_heisenberg hamC 2 (qi 0 0) (qi 2 0) (qi 0 0) /\
  quad M B B' <> mpo_elem d (W :: Wq) (B :: q) (B' :: q).
Proof.
  exists 2%nat, [exW1], exW0, [exA1], exA0, 5%nat, (exE 0), (exM 0), exB01, exB10.
  split; [exact ex_fits0|]. split; [exact (exE_ok 0 ltac:(lia))|]. split; [exact (exM_ok 0 ltac:(lia))|].
  do 6 (split; [reflexivity|]). split; [reflexivity|]. exact ex_quad.
Qed.
Print Assumptions C106_effective_refuted.

(** aslinearoperator() @ v: the entry at position (left, physical, right) of the result is
    the row (physical, left, right) of asmatrix() times v. *)
Theorem C106_operator : forall (R : sring) d (Wp Wq : list (tens R)) W (p q : list (site R)) A k k' (v : tens R), eff_fits d Wp Wq W p q A k k' ->
  tsh v = [(d * (dl A * dr A))%nat] -> exists e M y, get_envs (Wp ++ W :: Wq) (p ++ A :: q) (length p) = Ok e /\ eff_matrix e = Ok M /\
  eff_apply e v = Ok y /\ tsh y = [(d * (dl A * dr A))%nat] /\
  forall i x r, (i < d)%nat -> (x < dl A)%nat -> (r < dr A)%nat ->
    te y [flat3 d (dr A) x i r] = sum d (fun i' => sum (dl A) (fun x' => sum (dr A) (fun r' =>
       te M [flat3 (dl A) (dr A) i x r; flat3 (dl A) (dr A) i' x' r'] * te v [flat3 (dl A) (dr A) i' x' r']))).
Proof. exact (@eff_operator). Qed.
Print Assumptions C106_operator.

(** At a site with left bond one, the first site, the two agree. *)
Theorem C106_operator_first : forall (R : sring) d (Wp Wq : list (tens R)) W (p q : list (site R)) A k k' (v : tens R), eff_fits d Wp Wq W p q A k k' ->
  dl A = 1%nat -> tsh v = [(d * (dl A * dr A))%nat] ->
  exists e M y, get_envs (Wp ++ W :: Wq) (p ++ A :: q) (length p) = Ok e /\ eff_matrix e = Ok M /\ eff_apply e v = Ok y /\
  forall j, (j < d * (dl A * dr A))%nat -> te y [j] = sum (d * (dl A * dr A)) (fun j' => te M [j; j'] * te v [j']).
Proof. exact (@eff_operator_first). Qed.
Print Assumptions C106_operator_first.

(** Not so at the last site of two. *)
Theorem C106_operator_refuted : exists d (Wp : list (tens Qi)) W (p : list (site Qi)) A k (v : tens Qi) e M y j,
  eff_fits d Wp [] W p [] A k 1 /\ tsh v = [(d * (dl A * dr A))%nat] /\ get_envs (Wp ++ [W]) (p ++ [A]) (length p) = Ok e /\ eff_matrix e = Ok M /\ eff_apply e v = Ok y /\
  (j < d * (dl A * dr A))%nat /\ te y [j] <> sum (d * (dl A * dr A)) (fun j' => te M [j; j'] * te v [j']).
Proof.
  exists 2%nat, [exW0], exW1, [exA0], exA1, 5%nat, exV, (exE 1), (exM 1), exY, 1%nat.
  split; [exact ex_fits1|]. split; [reflexivity|]. split; [exact (exE_ok 1 ltac:(lia))|]. split; [exact (exM_ok 1 ltac:(lia))|]. split; [exact exY_ok|].
  split; [cbn; lia|]. exact ex_mv.
Qed.
Print Assumptions C106_operator_refuted.

(** * Example: the last site of the Heisenberg chain on two sites; the matrix element is 1 *)
Example C106_example : exists e M, get_envs (fMPO_heisenberg hamC 2 (qi 0 0) (qi 2 0) (qi 0 0)) [exA0; exA1] 1 = Ok e /\ eff_matrix e = Ok M /\
  (forall B B' : site Qi, phys B = 2%nat -> phys B' = 2%nat -> dl B = 2%nat -> dl B' = 2%nat -> dr B = 1%nat -> dr B' = 1%nat ->
    quad M B B' = mpo_elem 2 (fMPO_heisenberg hamC 2 (qi 0 0) (qi 2 0) (qi 0 0)) [exA0; B] [exA0; B']) /\
  quad M exC01 exC10 = qi 1 0.
Proof.
  destruct (C106_effective_real Qi 2 [exW0] [] exW1 [exA0] [] exA1 5 1 ex_fits1) as (e & M & Ee & EM & H).
  - intros W [].
  - intros A [].
  - exists e, M. split; [exact Ee|]. split; [exact EM|]. split; [exact H|]. rewrite H by reflexivity. apply Qi_eqb_eq. vm_compute. reflexivity.
Qed.
