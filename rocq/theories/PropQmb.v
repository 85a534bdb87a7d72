(** Property theorems C92: the chains of qmb.py and projects/fMPO.py. *)
From Coq Require Import ZArith QArith Qcanon.
From Verif Require Import Alg QScalars ModelMPS SpecMPS ModelNcon ModelEk SpecEk ModelTensor ModelSpin SpecSpin SpecLie ModelHam SpecHam
  ModelQmb SpecQmb ProofQmb ProofQmb2 ProofQmb3 Oracle PropHam.
Local Open Scope nat_scope.
Local Open Scope sr_scope.

(** C92, the code as it stands (tensor is the one of spin.py): the exchange terms vanish, only
    the ZZ coupling and the field are left, whatever J is. *)
Theorem C92_shadowed : forall (R : sring) (C : consts R) h J Jz N, (1 <= N)%nat -> exists M, anisotropic_heisenberg C true h J Jz N = Ok M /\ sq (Nat.pow 2 N) M /\
  forall s t, incfg (repeat 2%nat N) s -> incfg (repeat 2%nat N) t ->
    block_op 2 M s t = chain_ham (c_im C) N (only_zz Jz) (along LZ (- h)) 0 s t.
Proof. exact (@heisenberg_arr). Qed.
Print Assumptions C92_shadowed.

(** C92, the code as it stands: every function that returns local terms raises. *)
Theorem C92_shadowed_locals : forall (R : sring) (C : consts R) h J Jz g N,
  local_anisotropic_heisenberg C true h J Jz = Err AttributeError /\ local_anisotropic_heisenbergs C true h J Jz N = Err AttributeError /\
  local_ising C true J g = Err AttributeError /\ local_isings true J g N = Err AttributeError /\ local_XX C true J g = Err AttributeError.
Proof. exact (@locals_arr). Qed.
Print Assumptions C92_shadowed_locals.

(** C92: hence the documented Hamiltonian is not what anisotropic_heisenberg returns. *)
Theorem C92_documented_refuted : exists (h J Jz : Qi) N M s t, anisotropic_heisenberg hamC true h J Jz N = Ok M /\ incfg (repeat 2%nat N) s /\ incfg (repeat 2%nat N) t /\
  block_op 2 M s t <> chain_ham (c_im hamC) N (xxz (c_half hamC * c_half hamC * J) Jz) (along LZ (- h)) 0 s t.
Proof.
  destruct (C92_shadowed Qi hamC (qi 3 0) (qi 4 0) (qi 5 0) 2 ltac:(lia)) as (M & E & _ & HM).
  exists (qi 3 0), (qi 4 0), (qi 5 0), 2%nat, M, [0; 1]%nat, [1; 0]%nat. split; [exact E|]. assert (I1 : incfg (repeat 2%nat 2) [0; 1]%nat) by (repeat (constructor; try lia)). assert (I2 : incfg (repeat 2%nat 2) [1; 0]%nat) by (repeat (constructor; try lia)).
  split; [exact I1|]. split; [exact I2|]. rewrite HM by assumption. intros K. apply (f_equal (fun z => Qi_eqb z (qi 0 0))) in K. vm_compute in K. discriminate.
Qed.
Print Assumptions C92_documented_refuted.

(** C92, with the tensor of qutip: anisotropic_heisenberg(h, J, Jz, N) is the XXZ chain with J/4 on XX and YY, Jz on ZZ
    and the field -h along z on all N sites. *)
Theorem C92_full : forall (R : sring) (C : consts R), c_half C + c_half C = 1 -> c_im C * c_im C = - (1) ->
  forall h J Jz N, (1 <= N)%nat -> exists M, anisotropic_heisenberg C false h J Jz N = Ok M /\ sq (Nat.pow 2 N) M /\
  forall s t, incfg (repeat 2%nat N) s -> incfg (repeat 2%nat N) t ->
    block_op 2 M s t = chain_ham (c_im C) N (xxz (c_half C * c_half C * J) Jz) (along LZ (- h)) 0 s t.
Proof. exact (@heisenberg_full). Qed.
Print Assumptions C92_full.

(** C92, with the tensor of qutip: the N-1 two-site terms of local_anisotropic_heisenbergs add up to the same operator. *)
Theorem C92_locals : forall (R : sring) (C : consts R), c_half C + c_half C = 1 -> c_im C * c_im C = - (1) ->
  forall h J Jz N, (2 <= N)%nat -> exists l, local_anisotropic_heisenbergs C false h J Jz N = Ok l /\ length l = (N - 1)%nat /\ Forall (sq 4) l /\
  forall s t, incfg (repeat 2%nat N) s -> incfg (repeat 2%nat N) t ->
    sum_terms 2 l s t = chain_ham (c_im C) N (xxz (c_half C * c_half C * J) Jz) (along LZ (- h)) 0 s t.
Proof. exact (@heisenberg_locals). Qed.
Print Assumptions C92_locals.

(** C92, the code as it stands: so does the MPO of fMPO.anisotropic_heisenberg, whose L tensors fit together. *)
Theorem C92_mpo : forall (R : sring) (C : consts R), c_half C + c_half C = 1 -> c_im C * c_im C = - (1) ->
  forall h J Jz L, (2 <= L)%nat -> length (fMPO_heisenberg C L h J Jz) = L /\ mpo_linked 1 (fMPO_heisenberg C L h J Jz) 1 /\
  forall s t, incfg (repeat 2%nat L) s -> incfg (repeat 2%nat L) t ->
    mpo_prod (fMPO_heisenberg C L h J Jz) s t 0 0 = chain_ham (c_im C) L (xxz (c_half C * c_half C * J) Jz) (along LZ (- h)) 0 s t.
Proof. exact (@heisenberg_mpo). Qed.
Print Assumptions C92_mpo.

(** C92: for L <= 1 the MPO has two sites all the same. *)
Theorem C92_mpo_short : forall (R : sring) (C : consts R) h J Jz L, (L <= 1)%nat -> fMPO_heisenberg C L h J Jz = fMPO_heisenberg C 2 h J Jz.
Proof. exact (@mpo_short). Qed.
Print Assumptions C92_mpo_short.

(** C92, with the tensor of qutip: local_isings adds up to -J ZZ on all bonds with the field -g along x on all sites. *)
Theorem C92_ising : forall (R : sring) (C : consts R) (J g : R) N, (2 <= N)%nat -> c_im C * c_im C = - (1) ->
  exists l, local_isings false J g N = Ok l /\ length l = (N - 1)%nat /\ Forall (sq 4) l /\
  forall s t, incfg (repeat 2%nat N) s -> incfg (repeat 2%nat N) t ->
    sum_terms 2 l s t = chain_ham (c_im C) N (only_zz (- J)) (along LX (- g)) 0 s t.
Proof. intros R C J g N HN Hi. exact (ising_locals C Hi J g N HN). Qed.
Print Assumptions C92_ising.

(** C92, with the tensor of qutip: local_ising on every bond has only half the field on the first and the last site. *)
Theorem C92_ising_same : forall (R : sring) (C : consts R), c_half C + c_half C = 1 -> c_im C * c_im C = - (1) ->
  forall J g n, exists b, local_ising C false J g = Ok b /\ sq 4 b /\
  forall s t, incfg (repeat 2%nat (S (S n))) s -> incfg (repeat 2%nat (S (S n))) t ->
    sum_terms 2 (repeat b (S n)) s t = chain_ham (c_im C) (S (S n)) (only_zz (- J))
      (fun i a => if Nat.eqb i 0 || Nat.eqb i (S n) then along LX (- (g * c_half C)) i a else along LX (- g) i a) 0 s t.
Proof. exact (@ising_same). Qed.
Print Assumptions C92_ising_same.

(** C92, with the tensor of qutip: local_XX is -J/2 (XX + YY) - J Z on the first site: its argument g has no effect. *)
Theorem C92_XX : forall (R : sring) (C : consts R), c_im C * c_im C = - (1) -> forall J g, exists b, local_XX C false J g = Ok b /\ sq 4 b /\
  (forall s t, incfg [2; 2]%nat s -> incfg [2; 2]%nat t ->
    block_op 2 b s t = chain_ham (c_im C) 2 (xxz (- (J * c_half C)) 0) (fun i a => if Nat.eqb i 0 then along LZ (- J) i a else 0) 0 s t) /\
  (forall g', local_XX C false J g' = Ok b).
Proof.
  intros R C Hi J g. destruct (XX_local C Hi J g) as (b & E & Hb & He). exists b. split; [exact E|]. split; [exact Hb|]. split; [exact He|].
  intros g'. rewrite <- E. apply (XX_no_g C false).
Qed.
Print Assumptions C92_XX.

(** C92: S_n_body puts the operator on site i; beyond the last site it raises, before the
    first one it silently gives the identity. *)
Theorem C92_site : forall (R : sring) (op : mat R) n, sq 2 op -> (1 <= n)%nat ->
  (forall i, (i < n)%nat -> exists M, S_n_body op (Z.of_nat i) n = Ok M /\ sq (Nat.pow 2 n) M /\
    forall s t, incfg (repeat 2%nat n) s -> incfg (repeat 2%nat n) t ->
      block_op 2 M s t = string_op (repeat (eye 2) i ++ [op] ++ repeat (eye 2) (n - i - 1)) s t) /\
  (forall i, (Z.of_nat n <= i)%Z -> S_n_body op i n = Err Exception_) /\
  (forall i, (i < 0)%Z -> exists M, S_n_body op i n = Ok M /\ sq (Nat.pow 2 n) M /\
    forall s t, incfg (repeat 2%nat n) s -> incfg (repeat 2%nat n) t -> block_op 2 M s t = if nlist_eqb s t then 1 else 0).
Proof.
  intros R op n Ho Hn. split; [intros i Hi; exact (S_one op i n Ho Hi)|]. split; [intros i Hi; exact (S_n_body_high op i n Hi)|].
  intros i Hi. exact (S_n_neg op i n Ho Hi Hn).
Qed.
Print Assumptions C92_site.

(** * Example: h = 3, J = 4, Jz = 5 on three sites *)
Example C92_example : exists M l, anisotropic_heisenberg hamC false (qi 3 0) (qi 4 0) (qi 5 0) 3 = Ok M /\ local_anisotropic_heisenbergs hamC false (qi 3 0) (qi 4 0) (qi 5 0) 3 = Ok l /\
  (forall s t, incfg [2; 2; 2]%nat s -> incfg [2; 2; 2]%nat t -> block_op 2 M s t = sum_terms 2 l s t /\ block_op 2 M s t = mpo_prod (fMPO_heisenberg hamC 3 (qi 3 0) (qi 4 0) (qi 5 0)) s t 0 0) /\
  block_op 2 M [0; 0; 1]%nat [0; 1; 0]%nat = qi 2 0 /\ block_op 2 M [0; 0; 1]%nat [0; 0; 1]%nat = qi (-3) 0.
Proof.
  destruct hamC_ok as [(H1 & _ & H2 & _) _].
  destruct (C92_full Qi hamC H1 H2 (qi 3 0) (qi 4 0) (qi 5 0) 3 ltac:(lia)) as (M & EM & _ & HM).
  destruct (C92_locals Qi hamC H1 H2 (qi 3 0) (qi 4 0) (qi 5 0) 3 ltac:(lia)) as (l & El & _ & _ & Hl).
  destruct (C92_mpo Qi hamC H1 H2 (qi 3 0) (qi 4 0) (qi 5 0) 3 ltac:(lia)) as (_ & _ & Hp).
  exists M, l. split; [exact EM|]. split; [exact El|]. split.
  - intros s t Is It. split; rewrite HM by assumption; symmetry; [apply Hl|apply Hp]; assumption.
  - split; (rewrite HM by (repeat (constructor; try lia))); apply Qi_eqb_eq; vm_compute; reflexivity.
Qed.

(** * Example: an Ising chain of four sites; the corner term sees half the field *)
Example C92_ising_example : exists l b, local_isings false (qi 2 0) (qi 6 0) 4 = Ok l /\ local_ising hamC false (qi 2 0) (qi 6 0) = Ok b /\
  sum_terms 2 l [0; 0; 0; 0]%nat [1; 0; 0; 0]%nat = qi (-6) 0 /\ sum_terms 2 (repeat b 3) [0; 0; 0; 0]%nat [1; 0; 0; 0]%nat = qi (-3) 0 /\
  sum_terms 2 (repeat b 3) [0; 0; 0; 0]%nat [0; 1; 0; 0]%nat = qi (-6) 0.
Proof.
  destruct hamC_ok as [(H1 & _ & H2 & _) _].
  destruct (C92_ising Qi hamC (qi 2 0) (qi 6 0) 4 ltac:(lia) H2) as (l & El & _ & _ & Hl).
  destruct (C92_ising_same Qi hamC H1 H2 (qi 2 0) (qi 6 0) 2) as (b & Eb & _ & Hb).
  exists l, b. split; [exact El|]. split; [exact Eb|].
  split; [rewrite Hl by (repeat (constructor; try lia))|split; rewrite Hb by (repeat (constructor; try lia))]; apply Qi_eqb_eq; vm_compute; reflexivity.
Qed.
