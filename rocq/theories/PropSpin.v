(** C41-C44: n_body, spins, su, gates, Nsphere and levi_civita of spin.py. *)
From Coq Require Import QArith ZArith Reals.
From Verif Require Import Alg QScalars ModelMPS SpecMPS ModelNcon ModelEk ModelTensor SpecTensor ModelDecomp ModelSpin SpecSpin ProofSpin ProofSpin2 ProofSpin3 ProofSpin4
  ModelLie SpecLie ProofLie ProofLie3 ExReal.
Local Open Scope nat_scope.
Local Open Scope sr_scope.

(** * C41 *)
Theorem C41_n_body : forall (R : sring) (ilog : nat -> nat -> option nat) (op : mat R) (k n : nat),
  mr op = mc op -> (k < n)%nat ->
  exists M, n_body ilog op (Z.of_nat (k + 1)) n None = Ok M /\ acts_at (repeat (mr op) n) k op M.
Proof. intros R ilog. exact (n_body_acts ilog). Qed.
Print Assumptions C41_n_body.

(** Indices below the chain are silently ignored, indices above it raise. *)
Theorem C41_n_body_low : forall (R : sring) (ilog : nat -> nat -> option nat) (op : mat R) (i : Z) (n : nat),
  mr op = mc op -> (i <= 0)%Z -> (0 < n)%nat ->
  exists M, n_body ilog op i n None = Ok M /\ mat_eq M (mone (mr op ^ n)).
Proof. intros R ilog. exact (n_body_low ilog). Qed.
Print Assumptions C41_n_body_low.

Theorem C41_n_body_high : forall (R : sring) (ilog : nat -> nat -> option nat) (op : mat R) (i : Z) (n : nat),
  mr op = mc op -> (Z.of_nat n < i)%Z -> n_body ilog op i n None = Err Exception_.
Proof. intros R ilog. exact (n_body_high ilog). Qed.
Print Assumptions C41_n_body_high.

Theorem C41_commute : forall (R : sring) (ilog : nat -> nat -> option nat) (A B : mat R) (k l n : nat),
  mr A = mc A -> mr B = mc B -> mr A = mr B -> (k < n)%nat -> (l < n)%nat -> k <> l ->
  exists MA MB, n_body ilog A (Z.of_nat (k + 1)) n None = Ok MA /\ n_body ilog B (Z.of_nat (l + 1)) n None = Ok MB /\
    mat_eq (mmul MA MB) (mmul MB MA).
Proof. intros R ilog. exact (n_body_commute ilog). Qed.
Print Assumptions C41_commute.

Theorem C41_multiply : forall (R : sring) (ilog : nat -> nat -> option nat) (A B : mat R) (k n : nat),
  mr A = mc A -> mr B = mc B -> mr A = mr B -> (k < n)%nat ->
  exists MA MB MAB, n_body ilog A (Z.of_nat (k + 1)) n None = Ok MA /\ n_body ilog B (Z.of_nat (k + 1)) n None = Ok MB /\
    n_body ilog (mmul A B) (Z.of_nat (k + 1)) n None = Ok MAB /\ mat_eq (mmul MA MB) MAB.
Proof. intros R ilog. exact (n_body_multiply ilog). Qed.
Print Assumptions C41_multiply.

(** With d and an operator on k sites, op is put behind i sites of dimension d; n + 1 - k
    sites are left over in total, so that the chain has n + 1 sites. *)
Theorem C41_n_body_d : forall (R : sring) (ilog : nat -> nat -> option nat) (op : mat R) (i n d k : nat),
  mr op = mc op -> ilog (mr op) d = Some k -> (i <= n)%nat -> (i + k <= n + 1)%nat ->
  exists M, n_body ilog op (Z.of_nat i) n (Some d) = Ok M /\
    acts_at (repeat d i ++ mr op :: repeat d (n + 1 - k - i)) i op M.
Proof. intros R ilog. exact (n_body_d_acts ilog). Qed.
Print Assumptions C41_n_body_d.

Definition op41 : mat Zi := mkMat 2 2 (fun i j => nth (2 * i + j)%nat [zi 1 2; zi 3 0; zi 0 1; zi 5 0] (zi 0 0)).
Definition opb41 : mat Zi := mkMat 2 2 (fun i j => nth (2 * i + j)%nat [zi 0 1; zi 2 0; zi 7 1; zi 1 0] (zi 0 0)).
Definition log41 (a d : nat) : option nat := match a, d with 2%nat, 2%nat => Some 1%nat | 4%nat, 2%nat => Some 2%nat | _, _ => None end.
(** The second of three sites; the two-site operator behind one site of a chain of four. *)
Example C41_example : mr op41 = mc op41 /\ mr op41 = mr opb41 /\
  match n_body log41 op41 2 3 None with Ok M => Nat.eqb (mr M) 8 && Zi_eqb (me M 4 6)%nat (zi 3 0) && Zi_eqb (me M 4 5)%nat (zi 0 0) | _ => false end = true /\
  match n_body log41 (kron op41 opb41) 1 3 (Some 2%nat) with Ok M => Nat.eqb (mr M) 16 && Zi_eqb (me M 8 14)%nat (zi 6 0) | _ => false end = true.
Proof. repeat split; vm_compute; reflexivity. Qed.
Example C41_example_commute : negb (Zi_eqb (me (mmul op41 opb41) 0 0)%nat (me (mmul opb41 op41) 0 0)%nat) = true.
Proof. vm_compute. reflexivity. Qed.

(** * C42 *)
(** The angular momentum algebra for S = n/2. *)
Theorem C42_spins : forall (R : sring) (C : consts R) (n : nat), consts_ok C (spin_roots n) ->
  forall x y z, spins C n = (x, y, z) ->
  sq (S n) x /\ sq (S n) y /\ sq (S n) z /\
  mat_eq (madj x) x /\ mat_eq (madj y) y /\ mat_eq (madj z) z /\ triple (c_im C) x y z.
Proof.
  intros R C n H x y z E. unfold spins in E. injection E as <- <- <-.
  refine (conj _ (conj _ (conj _ (conj _ (conj _ (conj _ (conj _ (conj _ _)))))))); try (split; reflexivity).
  - exact (Sx_herm C n H).
  - exact (Sy_herm C n H).
  - exact (Sz_herm C n H).
  - exact (comm_xy C n H).
  - exact (comm_yz C n).
  - exact (comm_zx C n H).
Qed.
Print Assumptions C42_spins.

(** Sx^2 + Sy^2 + Sz^2 = S (S + 1). *)
Theorem C42_casimir : forall (R : sring) (C : consts R) (n : nat), consts_ok C (spin_roots n) ->
  forall x y z, spins C n = (x, y, z) ->
  mat_eq (mplus (mplus (mmul x x) (mmul y y)) (mmul z z))
    (mscale (c_half C * sofnat n * (c_half C * sofnat n + 1)) (mone (S n))).
Proof. intros R C n H x y z E. unfold spins in E. injection E as <- <- <-. exact (casimir C n H). Qed.
Print Assumptions C42_casimir.

(** Sz is diagonal with entries S, S - 1, ..., -S. *)
Theorem C42_weights : forall (R : sring) (C : consts R) (n : nat) x y z, spins C n = (x, y, z) ->
  forall a b, (a <= n)%nat -> (b <= n)%nat -> me z a b = dlt a b * (c_half C * sofnat n - sofnat a).
Proof.
  intros R C n x y z E a b _ _. unfold spins in E. injection E as <- <- <-. exact (Sz_weights C n a b).
Qed.
Print Assumptions C42_weights.

(** ladders has S_- first and S_+ second; only spins up to 3/2 are known. *)
Theorem C42_ladders : forall (R : sring) (C : consts R) (n : nat) (Lm Lp x y z : mat R),
  consts_ok C (spin_roots n) -> c_sqrt C 1 = 1 -> c_sqrt C 4 = 1 + 1 ->
  ladders C n = Some (Lm, Lp) -> spins C n = (x, y, z) ->
  mat_eq Lp (mplus x (mscale (c_im C) y)) /\ mat_eq Lm (mminus x (mscale (c_im C) y)).
Proof. intros R C n Lm Lp x y z H H1 H4 HL E. unfold spins in E. injection E as <- <- <-. exact (ladders_ok C n Lm Lp H H1 H4 HL). Qed.
Print Assumptions C42_ladders.

Theorem C42_ladders_none : forall (R : sring) (C : consts R) (n : nat), ~ (1 <= n <= 3)%nat -> ladders C n = None.
Proof. intros R. exact ladders_none. Qed.
Print Assumptions C42_ladders_none.

(** CR recognises exactly the triples with [x,y] = i z and cyclic, pCR those with 2 i. *)
Theorem C42_CR : forall (R : sring) (C : consts R) (close : mat R -> mat R -> bool) (n : nat) (x y z : mat R),
  close_ok close -> sq n x -> sq n y -> sq n z ->
  (exists b, CR C close x y z = Ok b /\ (b = true <-> triple (c_im C) x y z)) /\
  (exists b, pCR C close x y z = Ok b /\ (b = true <-> triple ((1 + 1) * c_im C) x y z)).
Proof.
  intros R C close n x y z Hc Hx Hy Hz. split.
  - exact (CR_ok1 C close n x y z Hc Hx Hy Hz).
  - exact (CR_ok C close (1 + 1) n x y z Hc Hx Hy Hz).
Qed.
Print Assumptions C42_CR.

Theorem C42_CR_spins : forall (R : sring) (C : consts R) (close : mat R -> mat R -> bool) (n : nat) x y z,
  consts_ok C (spin_roots n) -> close_ok close -> spins C n = (x, y, z) -> CR C close x y z = Ok true.
Proof.
  intros R C close n x y z HC Hc E. destruct (C42_spins R C n HC x y z E) as (Hx & Hy & Hz & _ & _ & _ & HT).
  destruct (C42_CR R C close (S n) x y z Hc Hx Hy Hz) as [(b & Eb & H) _]. rewrite Eb. f_equal. now apply H.
Qed.
Print Assumptions C42_CR_spins.

(** The Pauli matrices are the textbook ones. *)
Theorem C42_paulis : forall (R : sring) (C : consts R) (n : nat), consts_ok C (fun _ => False) -> c_sqrt C 1 = 1 ->
  forall x y z, paulis C n = (x, y, z) ->
  mat_eq x (lit 2 2 [0; 1; 1; 0]) /\ mat_eq y (lit 2 2 [0; - c_im C; c_im C; 0]) /\ mat_eq z (lit 2 2 [1; 0; 0; - (1)]).
Proof. intros R C n HC H1 x y z E. injection E as <- <- <-. exact (pauli_entries C HC H1). Qed.
Print Assumptions C42_paulis.

(** Over the complex numbers the hypotheses hold for every spin. *)
Example C42_example : forall n, consts_ok Cconsts (spin_roots n) /\ c_sqrt Cconsts 1 = 1 /\ c_sqrt Cconsts 4 = 1 + 1 /\ close_ok Cclose /\
  me (Sx Cconsts (S n)) 0%nat 1%nat = re_ (/ 2 * sqrt (INR (S n)))%R.
Proof.
  intros n. split; [apply Cconsts_ok|]. split; [exact Csqrt1|]. split; [exact Csqrt4|]. split; [exact Cclose_ok|].
  cbn [Sx me Sp Sm Nat.eqb Cconsts c_half]. unfold ladder_up. cbn [c_sqrt]. replace ((0 + 1) * (S n - 0))%nat with (S n) by lia.
  apply cx_eq; cbn - [INR]; ring.
Qed.

(** * C43 *)
Theorem C43_su : forall (R : sring) (C : consts R) (scale : nat -> R) (N : nat), (1 <= N)%nat ->
  consts_ok C (fun _ => False) -> scale_ok scale N ->
  length (su C scale N) = (N * N - 1)%nat /\ orthogonal_generators N (su C scale N).
Proof. intros R C scale N HN HC Hs. split; [exact (su_length C scale N HN)|exact (su_orth C scale N HC Hs)]. Qed.
Print Assumptions C43_su.

(** They span: a traceless matrix is the combination with coefficients Tr(Q T_k)/2. *)
Theorem C43_complete : forall (R : sring) (C : consts R) (scale inv : nat -> R) (N : nat) (Q : mat R), (1 <= N)%nat ->
  consts_ok C (fun _ => False) -> scale_ok scale N -> inverses inv N -> sq N Q -> mtrace Q = 0 ->
  forall a b, (a < N)%nat -> (b < N)%nat ->
  me Q a b = comb_entry (map (fun T => c_half C * mtrace (mmul Q T)) (su C scale N)) (su C scale N) a b.
Proof. intros R C scale inv N Q HN HC Hs Hi HQ HT. exact (su_complete C scale N HC Hs inv Q Hi HN HQ HT). Qed.
Print Assumptions C43_complete.

Example C43_example : forall N, consts_ok Cconsts (fun _ => False) /\ scale_ok Cscale N /\ inverses Cinv N /\
  me (nth 7 (su Cconsts Cscale 3) (mone 0)) 2%nat 2%nat = re_ (- 2 * sqrt (/ 3))%R.
Proof.
  intros N. split; [apply Cconsts_ok|]. split; [apply Cscale_ok|]. split; [apply Cinv_ok|].
  cbn - [Cscale]. unfold Cscale. replace (2 / (INR 2 + INR 2 * INR 2))%R with (/ 3)%R by (cbn; field). apply cx_eq; cbn; ring.
Qed.

(** * C44 *)
Theorem C44_Nsphere : forall (R : sring) (v : list (R * R)),
  Forall (fun p => fst p * fst p + snd p * snd p = 1) v ->
  length (Nsphere v) = S (length v) /\ suml (map (fun x => x * x) (Nsphere v)) = 1.
Proof. intros R v H. split; [exact (Nsphere_length v)|exact (Nsphere_unit v H)]. Qed.
Print Assumptions C44_Nsphere.

(** Component k is cos v_k times the sines of the angles before it. *)
Theorem C44_Nsphere_entries : forall (R : sring) (v : list (R * R)),
  (forall k, (k < length v)%nat -> nth k (Nsphere v) 0 = prodl (map snd (firstn k v)) * fst (nth k v (0, 0))) /\
  nth (length v) (Nsphere v) 0 = prodl (map snd v).
Proof. intros R v. split; [exact (Nsphere_entry v)|exact (Nsphere_last v)]. Qed.
Print Assumptions C44_Nsphere_entries.

Example C44_example_sphere : forall ts : list R, Forall (fun p => fst p * fst p + snd p * snd p = 1) (map angle ts).
Proof. intros ts. apply Forall_forall. intros p Hp. apply in_map_iff in Hp as (t & <- & _). apply angle_ok. Qed.

(** The gates in the basis |a b> -> 2 a + b. *)
Theorem C44_gates : forall (R : sring) (a b c d : nat), (a < 2)%nat -> (b < 2)%nat -> (c < 2)%nat -> (d < 2)%nat ->
  me (swap_gate : mat R) (a * 2 + b) (c * 2 + d) = dlt a d * dlt b c /\
  me (CNOT : mat R) (a * 2 + b) (c * 2 + d) = dlt a c * dlt b ((c + d) mod 2) /\
  me (CZ : mat R) (a * 2 + b) (c * 2 + d) = dlt a c * dlt b d * (if Nat.eqb c 1 && Nat.eqb d 1 then - (1) else 1).
Proof. intros R a b c d Ha Hb Hc Hd. split; [exact (swap_action a b c d Ha Hb Hc Hd)|]. split; [exact (CNOT_action a b c d Ha Hb Hc Hd)|exact (CZ_action a b c d Ha Hb Hc Hd)]. Qed.
Print Assumptions C44_gates.

Theorem C44_gates_unitary : forall (R : sring),
  (mat_eq (mmul swap_gate swap_gate) (mone 4 : mat R) /\ mat_eq (madj swap_gate) (swap_gate : mat R)) /\
  (mat_eq (mmul CNOT CNOT) (mone 4 : mat R) /\ mat_eq (madj CNOT) (CNOT : mat R)) /\
  (mat_eq (mmul CZ CZ) (mone 4 : mat R) /\ mat_eq (madj CZ) (CZ : mat R)).
Proof. intros R. exact (conj (conj swap_self swap_herm) (conj (conj CNOT_self CNOT_herm) (conj CZ_self CZ_herm))). Qed.
Print Assumptions C44_gates_unitary.

Theorem C44_CRy : forall (R : sring) (c s : R),
  (forall a b c' d, (a < 2)%nat -> (b < 2)%nat -> (c' < 2)%nat -> (d < 2)%nat ->
     me (CRy c s) (a * 2 + b) (c' * 2 + d) = dlt a c' * (if Nat.eqb a 0 then dlt b d else me (lit 2 2 [c; s; - s; c]) b d)) /\
  (sconj c = c -> sconj s = s -> c * c + s * s = 1 -> mat_eq (mmul (madj (CRy c s)) (CRy c s)) (mone 4)) /\
  (forall c' s', mat_eq (mmul (CRy c s) (CRy c' s')) (CRy (c * c' - s * s') (c * s' + s * c'))).
Proof. intros R c s. split; [exact (CRy_action c s)|]. split; [exact (CRy_unitary c s)|exact (CRy_compose c s)]. Qed.
Print Assumptions C44_CRy.

(** levi_civita: the sign of the permutation, and 0 if an index is repeated. *)
Theorem C44_levi_civita : forall (n : nat) (q : list nat), length q = n -> Forall (fun x => (x < n)%nat) q ->
  (NoDup q -> levi_civita n q = if Nat.odd (inversions q) then (-1)%Z else 1%Z) /\
  (~ NoDup q -> levi_civita n q = 0%Z).
Proof. intros n q Hl Hq. split; [exact (levi_ok n q Hl Hq)|exact (levi_zero n q Hl Hq)]. Qed.
Print Assumptions C44_levi_civita.

Example C44_example_levi : length [2; 0; 3; 1]%nat = 4%nat /\ NoDup [2; 0; 3; 1]%nat /\ levi_civita 4 [2; 0; 3; 1]%nat = (-1)%Z /\
  levi_civita 3 [1; 2; 0]%nat = 1%Z /\ levi_civita 3 [1; 2; 1]%nat = 0%Z.
Proof. split; [reflexivity|]. split; [repeat constructor; cbn; intuition discriminate|]. repeat split; vm_compute; reflexivity. Qed.
