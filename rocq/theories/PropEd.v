(** Property theorems C91: exact evolution and the read-outs of a trajectory. *)
From Coq Require Import ZArith QArith Qcanon Reals.
From Verif Require Import Alg QScalars ModelMPS SpecMPS ModelOrth SpecOrth ModelCanon SpecCanon ModelStruct SpecStruct ModelNcon ModelEk SpecEk ModelTensor ModelSpin SpecSpin ModelLie SpecLie ModelHam SpecHam
  ModelExp SpecExp SpecFull ModelState SpecState ModelTraj SpecTraj ModelEd SpecEd ProofEd ProofEd2 ProofEd3 ProofEd4 Oracle Oracle2 ExOrth ExTraj ExStruct ExReal ExExp ExEd.
Local Open Scope nat_scope.
Local Open Scope sr_scope.

(** C91: edint records one vector per time point, each the previous one times exp(-i H dt),
    and leaves an MPS proportional to the last one; Ds and mps_history are untouched. *)
Theorem C91_edint : forall (R : sring) ilog (C : consts R) F O H (e : edtraj R) a b T M, svd_ok O -> expm_ok (f_exp F) ->
  let m := tmps (ed_t e) in let d := fd m in let L := fL m in
  wf m -> uniform m -> (0 < d)%nat -> ed_ham ilog H = Ok M -> sq (Nat.pow d L) M ->
  match edint ilog C F O H e (a :: b :: T) with
  | Err er => (er = ValueError /\ f_exp F (mscale (- (c_im C * (b - a))) M) = None) \/ (er = LinAlgError /\ exists X, la_svd O X = None)
  | Ok e' => exists hist U c, ed_h e' = Some hist /\ f_exp F (mscale (- (c_im C * (b - a))) M) = Some U /\
      length hist = length (a :: b :: T) /\ (forall v, In v hist -> length v = Nat.pow d L) /\
      (forall s, incfg (repeat d L) s -> wave d hist 0 s = psi m s) /\
      (forall n s, (S n < length hist)%nat -> incfg (repeat d L) s ->
         wave d hist (S n) s = sumcfg (repeat d L) (fun t => block_op d U s t * wave d hist n t)) /\
      (let m' := tmps (ed_t e') in wf m' /\ uniform m' /\ fL m' = L /\ fd m' = d /\
        forall s, incfg (repeat d L) s -> wave d hist (length hist - 1) s = c * psi m' s) /\
      c * sconj c = sumcfg (repeat d L) (fun s => wave d hist (length hist - 1) s * sconj (wave d hist (length hist - 1) s)) /\
      tmps0 (ed_t e') = tmps0 (ed_t e) /\ tDs (ed_t e') = tDs (ed_t e) /\ thist (ed_t e') = thist (ed_t e)
  end.
Proof. exact (@edint_ok). Qed.
Print Assumptions C91_edint.

(** C91: for a Hermitian Hamiltonian and real times every observable that commutes with it
    has the same expectation at every time point: the norm, the energy, every symmetry. *)
Theorem C91_conserved : forall (R : sring) ilog (C : consts R) F O H (e e' : edtraj R) a b T M hist, svd_ok O -> expm_ok (f_exp F) ->
  let m := tmps (ed_t e) in let d := fd m in let L := fL m in
  wf m -> uniform m -> (0 < d)%nat -> ed_ham ilog H = Ok M -> sq (Nat.pow d L) M ->
  edint ilog C F O H e (a :: b :: T) = Ok e' -> ed_h e' = Some hist ->
  sconj (c_im C) = - c_im C -> sconj a = a -> sconj b = b -> self_adjoint M ->
  forall Q, sq (Nat.pow d L) Q -> commutes Q M -> forall n, (n < length hist)%nat ->
  full_between d L (wave d hist n) Q (wave d hist n) = full_between d L (psi m) Q (psi m).
Proof. exact (@ed_conserved). Qed.
Print Assumptions C91_conserved.

(** C91: ed_energies is the same number at every time point. *)
Theorem C91_energies : forall (R : sring) ilog (C : consts R) F O H (e e' : edtraj R) a b T M, svd_ok O -> expm_ok (f_exp F) ->
  let m := tmps (ed_t e) in let d := fd m in let L := fL m in
  wf m -> uniform m -> (0 < d)%nat -> ed_ham ilog H = Ok M -> sq (Nat.pow d L) M ->
  edint ilog C F O H e (a :: b :: T) = Ok e' ->
  sconj (c_im C) = - c_im C -> sconj a = a -> sconj b = b -> self_adjoint M ->
  ed_energies ilog H e' = Ok (repeat [sre (full_between d L (psi m) M (psi m))] (length (a :: b :: T))).
Proof. exact (@ed_energies_ok). Qed.
Print Assumptions C91_energies.

(** C91: ed_evs returns, per vector and operator, the real part of the expectation. *)
Theorem C91_ed_evs : forall (R : sring) (e : edtraj R) d L hist ops, (0 < d)%nat -> ed_h e = Some hist ->
  (forall v, In v hist -> length v = Nat.pow d L) -> Forall (sq (Nat.pow d L)) ops ->
  exists rows, ed_evs e ops = Ok rows /\ length rows = length hist /\
    forall n, (n < length hist)%nat -> nth n rows [] = map (fun op => sre (full_between d L (wave d hist n) op (wave d hist n))) ops.
Proof. exact (@ed_evs_ok). Qed.
Print Assumptions C91_ed_evs.

(** C91: a list of two-site terms stands for their sum, the i-th one on sites i, i+1. *)
Theorem C91_terms : forall (R : sring) ilog (l : list (mat R)), ilog 4%nat 2%nat = Some 2%nat -> l <> [] ->
  (forall a, In a l -> mr a = 4%nat /\ mc a = 4%nat) ->
  exists M, ed_ham ilog (Terms l) = Ok M /\ sq (Nat.pow 2 (S (length l))) M /\
    forall s t, incfg (repeat 2%nat (S (length l))) s -> incfg (repeat 2%nat (S (length l))) t -> block_op 2 M s t = sum_terms 2 l s t.
Proof. exact (@ham_terms). Qed.
Print Assumptions C91_terms.

(** C91: on a new trajectory mps_list and mps_evs see one state only after edint. *)
Theorem C91_readback : forall (R : sring) (I : imag R) (O : lapack2 R) m0 tr (e : edtraj R) ilog C F H T e',
  traj_init m0 = Ok tr -> ed_t e = tr -> edint ilog C F O H e T = Ok e' ->
  (2 <= length T)%nat /\ (exists hist, ed_h e' = Some hist /\ length hist = length T) /\
  (forall ms, mps_list_ed I O e' = Ok ms -> length ms = 1%nat) /\
  (forall ops k rows, mps_evs I O e' ops k = Ok rows -> length rows = 1%nat).
Proof. exact (@ed_readback). Qed.
Print Assumptions C91_readback.

Theorem C91_one_state_per_time_refuted : exists (I : imag Qi) (O : lapack2 Qi) m0 tr ilog C F H T e' ms,
  imag_ok I /\ svd_ok O /\ expm_ok (f_exp F) /\ traj_init m0 = Ok tr /\ edint ilog C F O H (mkEd tr None) T = Ok e' /\
  mps_list_ed I O e' = Ok ms /\ length T = 3%nat /\ length ms <> length T.
Proof.
  exists qimag, exLAe, exT0, exTr0, no_log, qC, trivF, (Whole zero4), exT, exEd, exEdms.
  split; [exact qimag_ok|]. split; [apply oracle2_svd|]. split; [exact triv_ok|]. split; [apply the_ok; vm_compute; reflexivity|].
  split; [exact exEd_ok|]. split; [exact exEdms_ok|]. split; [reflexivity|]. vm_compute. discriminate.
Qed.
Print Assumptions C91_one_state_per_time_refuted.

(** C91: without recorded MPS, mps_list first makes one state of every recorded vector: in
    canonical form, with non-zero environments, and proportional to the vector. *)
Theorem C91_filled : forall (R : sring) (I : imag R) (O : lapack2 R) (e e' : edtraj R) hist, svd_ok O -> eig_ok O -> eig_zeros_last O -> @definite R -> @integral R -> (1:R) <> 0 ->
  let m := tmps (ed_t e) in let d := fd m in let L := fL m in
  ed_h e = Some hist -> thist (ed_t e) = [] -> (0 < d)%nat -> (0 < L)%nat ->
  Forall (fun v => exists s, incfg (repeat d L) s /\ nth (rowmajor d s) v 0 <> 0) hist ->
  fill_history I O e = Ok e' ->
  ed_h e' = Some hist /\ tmps (ed_t e') = m /\ tDs (ed_t e') = tDs (ed_t e) /\
  Forall2 (fun v w => exists x c, serialize_real I x = Ok w /\ wf x /\ dims (fdata x) = repeat d L /\ fcan x = Some true /\ Forall left_iso (fdata x) /\
    (forall s, incfg (repeat d L) s -> nth (rowmajor d s) v 0 = c * psi x s) /\
    forall k A, nth_error (fdata x) k = Some A -> exists Sk, diag_rgram (skipn k (fdata x)) (dl A) Sk /\ forall y, (y < dl A)%nat -> Sk y <> 0) hist (thist (ed_t e')).
Proof. exact (@fill_ok). Qed.
Print Assumptions C91_filled.

Example C91_example_filled : svd_ok exLAe /\ eig_ok exLAe /\ eig_zeros_last exLAe /\ thist (ed_t exEh) = [] /\
  (let m := tmps (ed_t exEh) in Forall (fun v => exists s, incfg (repeat (fd m) (fL m)) s /\ nth (rowmajor (fd m) s) v 0 <> 0) (the [] (match ed_h exEh with Some h => Ok h | None => Err ValueError end))) /\
  runs (fill_history qimag exLAe exEh) = true.
Proof.
  split; [apply oracle2_svd|]. split; [apply oracle2_eig|]. split; [apply oracle2_zl|]. split; [reflexivity|]. split; [|vm_compute; reflexivity].
  cbn. constructor; [|constructor]. exists [0; 0]%nat. split; [repeat constructor|]. intros K. apply (f_equal (fun z => Qi_eqb z (qi 0 0))) in K. vm_compute in K. discriminate.
Qed.

(** C91: mps_evs after an ordinary run: the normalised expectations of the states recorded. *)
Theorem C91_mps_evs : forall (R : sring) (O : lapack2 R) (I : imag R) tr xs ops k, imag_ok I -> svd_ok O -> run O I tr xs -> xs <> [] ->
  Forall (fun x => closed (fdata x) /\ pos (fdata x)) xs -> (k < fL (tmps tr))%nat -> (0 < fd (tmps tr))%nat ->
  Forall (fun op => mr op = fd (tmps tr) /\ mc op = fd (tmps tr)) ops ->
  match mps_evs I O (mkEd tr None) ops k with
  | Err e => e = LinAlgError
  | Ok rows => Forall2 (fun x row => length row = length ops /\
      forall n op, nth_error ops n = Some op -> exists v, nth_error row n = Some v /\
        v * sumcfg (dims (fdata x)) (fun s => psi x s * sconj (psi x s)) = sre (expect1 (dims (fdata x)) (psi x) k (me op))) xs rows
  end.
Proof. exact (@mps_evs_run). Qed.
Print Assumptions C91_mps_evs.

(** C91: loschmidt: the modulus of the overlap of each recorded state with the first one, if
    every recorded state has the bond dimension of the current one. *)
Theorem C91_loschmidt : forall (R : sring) (O : lapack2 R) (I : imag R) abs tr x0 xs, imag_ok I -> run O I tr (x0 :: xs) ->
  Forall (fun x => closed (fdata x) /\ fits x (fD (tmps tr))) (x0 :: xs) ->
  loschmidt I abs tr = Ok (map (fun x => abs (sumcfg (dims (fdata x0)) (fun s => psi x0 s * sconj (psi x s)))) (x0 :: xs)).
Proof. exact (@loschmidt_run). Qed.
Print Assumptions C91_loschmidt.

(** Not so after a change of bond dimension, although mps_list still works. *)
Theorem C91_loschmidt_expand_refuted : exists (O : lapack2 Qi) (I : imag Qi) abs tr xs ms, imag_ok I /\ run O I tr xs /\
  mps_list I tr = Ok ms /\ length ms = length xs /\ loschmidt I abs tr = Err ValueError.
Proof.
  exists exLAt, qimag, (fun x => x), exTr3, (exXs ++ exYs), (the [] (mps_list qimag exTr3)).
  split; [exact qimag_ok|]. split; [exact exRun|]. split; [apply the_ok; exact (proj1 ex_losch)|]. split; [vm_compute; reflexivity|exact (proj2 ex_losch)].
Qed.
Print Assumptions C91_loschmidt_expand_refuted.

(** One spin in a field, three time points: every hypothesis of edint, conserved and
    energies holds, edint succeeds, and the vector really turns. *)
Example C91_example : (let m := tmps (ed_t edE) in
  svd_ok colLA /\ expm_ok (f_exp Cfun) /\ wf m /\ uniform m /\ (0 < fd m)%nat /\ ed_ham no_log (Whole edM) = Ok edM /\ sq (fd m ^ fL m) edM /\
  self_adjoint edM /\ sconj (c_im Cconsts) = sopp (c_im Cconsts) /\ sconj (re_ 0) = re_ 0 /\ sconj (re_ 1) = re_ 1) /\
  exists e', edint no_log Cconsts Cfun colLA (Whole edM) edE edT = Ok e'.
Proof. exact (conj ed_hyp ed_runs). Qed.
Example C91_terms_example : let z : mat Qi := mkMat 4 4 (fun i j => if Nat.eqb i j then qi 1 0 else s0) in
  [z; z] <> [] /\ (forall a, In a [z; z] -> mr a = 4%nat /\ mc a = 4%nat).
Proof. split; [discriminate|]. intros a [<-|[<-|[]]]; auto. Qed.
(** A run of three states of two qubits that meets the hypotheses of mps_evs and loschmidt. *)
Example C91_run_example : imag_ok qimag /\ svd_ok exLAt /\ run exLAt qimag exTr1 exXs /\ exXs <> [] /\
  Forall (fun x => closed (fdata x) /\ pos (fdata x)) exXs /\ Forall (fun x => fits x (fD (tmps exTr1))) exXs /\ (1 < fL (tmps exTr1))%nat /\ (0 < fd (tmps exTr1))%nat /\
  match loschmidt qimag (fun x => x) exTr1 with Ok l => qlist_eqb l [qi 1 0; qi 0 0; qi 1 0] | Err _ => false end = true.
Proof.
  split; [exact qimag_ok|]. split; [apply oracle2_svd|]. split; [exact exRun1|]. split; [discriminate|].
  split; [repeat constructor|]. split; [unfold exXs; repeat (apply Forall_cons; [apply fits_b_ok; vm_compute; reflexivity|]); apply Forall_nil|]. split; [vm_compute; auto|]. split; [vm_compute; auto|]. vm_compute. reflexivity.
Qed.
