(** Property theorems C101: out-of-time-order correlators by exact evolution. *)
From Coq Require Import ZArith QArith Qcanon Reals Lra.
From Verif Require Import Alg QScalars ModelMPS SpecMPS ModelOrth ModelCanon SpecOrth ModelStruct ModelNcon ModelEk SpecEk ModelTensor ModelDecomp ModelSpin SpecSpin ModelLie SpecLie
  ModelExp SpecExp ModelState ModelTraj ModelEd SpecEd ModelOtoc SpecOtoc ProofOtoc Oracle Oracle2 ExOrth ExStruct ExReal ExExp ExEd.
Local Open Scope nat_scope.

(** For Hermitian V and W the k-th entry is the squared norm of [W(t_k), V] psi. *)
Theorem C101_otoc : forall (R : sring) (C : consts R) (F : mfun R) (m : fmps R) (M V W : mat R) a b T,
  let d := fd m in let L := fL m in let N := Nat.pow d L in
  expm_ok (f_exp F) -> wf m -> uniform m -> 0 < d -> sq N M -> sq N V -> sq N W -> self_adjoint V -> self_adjoint W ->
  match ed_OTOC C F m (Whole M) (a :: b :: T) V W with
  | Err e => e = ValueError /\ exists t, In t (a :: b :: T) /\ f_exp F (mscale (sopp (smul (c_im C) t)) M) = None
  | Ok rs => Forall2 (fun t r => exists U, f_exp F (mscale (sopp (smul (c_im C) t)) M) = Some U /\
      r = norm_act d L (mcomm (heisenberg U W) V) (psi m)) (a :: b :: T) rs
  end.
Proof. exact @ed_OTOC_ok. Qed.
Print Assumptions C101_otoc.

(** Over the complex numbers all entries are real and not negative. *)
Lemma norm_act_ge d L (K : mat Cx) f : snd (norm_act d L K f) = 0%R /\ (0 <= fst (norm_act d L K f))%R.
Proof.
  unfold norm_act. generalize (act d L K f). intros g. revert g. induction (repeat d L) as [|n l IH]; intros g.
  - cbn. split; [ring|]. assert (0 <= fst (g []) * fst (g []))%R by apply Rle_0_sqr. assert (0 <= snd (g []) * snd (g []))%R by apply Rle_0_sqr. lra.
  - cbn [sumcfg]. induction n as [|n IHn]; [cbn; split; [reflexivity|lra]|]. destruct (IH (fun s => g (n :: s))) as [A1 A2]. destruct IHn as [B1 B2].
    cbn [sum]. cbn -[sum sumcfg] in *. split; lra.
Qed.

Theorem C101_nonneg : forall (C : consts Cx) (F : mfun Cx) (m : fmps Cx) (M V W : mat Cx) a b T rs,
  let N := Nat.pow (fd m) (fL m) in
  expm_ok (f_exp F) -> wf m -> uniform m -> 0 < fd m -> sq N M -> sq N V -> sq N W -> self_adjoint V -> self_adjoint W ->
  ed_OTOC C F m (Whole M) (a :: b :: T) V W = Ok rs ->
  length rs = length (a :: b :: T) /\ Forall (fun r : Cx => snd r = 0%R /\ (0 <= fst r)%R) rs.
Proof.
  intros C F m M V W a b T rs N HE Hw Hu Hd HM HV HW SV SW E. pose proof (ed_OTOC_ok C F m M V W a b T HE Hw Hu Hd HM HV HW SV SW) as K. rewrite E in K. clear E. revert K. generalize (a :: b :: T). intros l K.
  induction K as [|t r l rs (U & _ & ->) _ [IH1 IH2]]; [now split|]. split; [exact (f_equal S IH1)|]. constructor; [apply norm_act_ge|exact IH2].
Qed.
Print Assumptions C101_nonneg.

(** At time 0 it is the squared norm of [W, V] psi. *)
Theorem C101_start : forall (R : sring) (C : consts R) (F : mfun R) (m : fmps R) (M V W : mat R) b T r rs,
  let d := fd m in let L := fL m in let N := Nat.pow d L in
  expm_ok (f_exp F) -> wf m -> uniform m -> 0 < d -> sq N M -> sq N V -> sq N W -> self_adjoint V -> self_adjoint W ->
  ed_OTOC C F m (Whole M) (s0 :: b :: T) V W = Ok (r :: rs) -> r = norm_act d L (mcomm W V) (psi m).
Proof. exact @OTOC_start. Qed.
Print Assumptions C101_start.

(** If W commutes with a Hermitian Hamiltonian nothing changes in time. *)
Theorem C101_conserved : forall (R : sring) (C : consts R) (F : mfun R) (m : fmps R) (M V W : mat R) a b T rs,
  let d := fd m in let L := fL m in let N := Nat.pow d L in
  expm_ok (f_exp F) -> wf m -> uniform m -> 0 < d -> sq N M -> sq N V -> sq N W -> self_adjoint V -> self_adjoint W ->
  sconj (c_im C) = sopp (c_im C) -> Forall (fun t => sconj t = t) (a :: b :: T) -> self_adjoint M -> commutes W M ->
  ed_OTOC C F m (Whole M) (a :: b :: T) V W = Ok rs -> rs = repeat (norm_act d L (mcomm W V) (psi m)) (length (a :: b :: T)).
Proof. exact @OTOC_conserved. Qed.
Print Assumptions C101_conserved.

(** Commuting operators give zero. *)
Theorem C101_zero : forall (R : sring) d L (A B : mat R) f,
  0 < d -> sq (Nat.pow d L) A -> sq (Nat.pow d L) B -> commutes A B -> norm_act d L (mcomm A B) f = s0.
Proof. exact @norm_act_zero. Qed.
Print Assumptions C101_zero.

(** A time list of fewer than two points is refused, and so is a list of local terms. *)
Theorem C101_short : forall (R : sring) (C : consts R) (F : mfun R) (m : fmps R) M V W T,
  wf m -> uniform m -> length T <= 1 -> ed_OTOC C F m (Whole M) T V W = Err IndexError.
Proof. exact @ed_OTOC_short. Qed.
Print Assumptions C101_short.

Theorem C101_terms : forall (R : sring) (C : consts R) (F : mfun R) (m : fmps R) Hs V W T,
  ed_OTOC C F m (Terms Hs) T V W = Err AssertionError.
Proof. reflexivity. Qed.
Print Assumptions C101_terms.

(** For other V the entry is not the squared norm: raising operator against sigma_z. *)
Definition oz : mat Qi := qmat 2 2 [qi 1 0; qi 0 0; qi 0 0; qi (-1) 0].
Definition orise : mat Qi := qmat 2 2 [qi 0 0; qi 1 0; qi 0 0; qi 0 0].
Definition ozero : mat Qi := qmat 2 2 [qi 0 0; qi 0 0; qi 0 0; qi 0 0].
Definition oplus : fmps Qi := mkF [mkSite 2 1 1 (fun _ _ _ => s1)] 1 2 1 (Some false) (Some false) None None.
Theorem C101_refuted : exists (C : consts Qi) (F : mfun Qi) (m : fmps Qi) (M V W : mat Qi) T rs,
  expm_ok (f_exp F) /\ wf m /\ uniform m /\ sq 2 M /\ sq 2 V /\ sq 2 W /\ self_adjoint W /\ self_adjoint M /\
  fd m = 2 /\ fL m = 1 /\ ed_OTOC C F m (Whole M) T V W = Ok rs /\ Forall (fun r => r <> norm_act 2 1 (mcomm W V) (psi m)) rs /\ length rs = 2 /\ commutes W M.
Proof.
  exists qC, trivF, oplus, ozero, orise, oz, [qi 0 0; qi 1 0], [qi 0 0; qi 0 0].
  split; [exact triv_ok|]. split; [repeat split; discriminate|]. split; [repeat constructor|]. split; [split; reflexivity|]. split; [split; reflexivity|]. split; [split; reflexivity|].
  split; [split; [reflexivity|split; [reflexivity|]]; intros [|[|i]] [|[|j]] Hi Hj; cbn in Hi, Hj; try lia; apply Qi_eqb_eq; vm_compute; reflexivity|].
  split; [split; [reflexivity|split; [reflexivity|]]; intros [|[|i]] [|[|j]] Hi Hj; cbn in Hi, Hj; try lia; apply Qi_eqb_eq; vm_compute; reflexivity|].
  split; [reflexivity|]. split; [reflexivity|]. split.
  - assert (K : match ed_OTOC qC trivF oplus (Whole ozero) [qi 0 0; qi 1 0] orise oz with Ok [x; y] => (Qi_eqb x (qi 0 0) && Qi_eqb y (qi 0 0))%bool | _ => false end = true) by (vm_compute; reflexivity).
    destruct (ed_OTOC qC trivF oplus (Whole ozero) [qi 0 0; qi 1 0] orise oz) as [[|x [|y [|]]]|]; try discriminate. apply andb_prop in K as [K1 K2]. apply Qi_eqb_eq in K1, K2. now subst.
  - split; [|split; [reflexivity|]].
    + repeat constructor; intros K; apply (f_equal (fun z => Qi_eqb z (qi 0 0))) in K; vm_compute in K; discriminate.
    + split; [reflexivity|split; [reflexivity|]]; intros [|[|i]] [|[|j]] Hi Hj; cbn in Hi, Hj; try lia; apply Qi_eqb_eq; vm_compute; reflexivity.
Qed.
Print Assumptions C101_refuted.

(** One spin in the state (1,1) under diag(1,-1), V = sigma_z and W = sigma_x: the run succeeds and starts at 8. *)
Definition oV : mat Cx := edM.
Definition oW : mat Cx := mkMat 2 2 (fun i j => if Nat.eqb i j then s0 else s1).
Lemma oW_herm : self_adjoint oW.
Proof. split; [reflexivity|]. split; [reflexivity|]. intros [|[|i]] [|[|j]] Hi Hj; cbn in Hi, Hj; try lia; apply cx_eq; cbn; ring. Qed.
Theorem C101_example : expm_ok (f_exp Cfun) /\ wf edm /\ uniform edm /\ 0 < fd edm /\ sq (Nat.pow (fd edm) (fL edm)) edM /\ sq (Nat.pow (fd edm) (fL edm)) oV /\
  sq (Nat.pow (fd edm) (fL edm)) oW /\ self_adjoint oV /\ self_adjoint oW /\ norm_act 2 1 (mcomm oW oV) (psi edm) = re_ 8 /\
  exists r rs, ed_OTOC Cconsts Cfun edm (Whole edM) [s0; re_ 1] oV oW = Ok (r :: rs) /\ r = re_ 8.
Proof.
  destruct ed_hyp as (_ & HE & Hw & Hu & Hd & _ & HM & SM & _).
  assert (HW : sq (Nat.pow (fd edm) (fL edm)) oW) by (split; reflexivity).
  assert (HV : norm_act 2 1 (mcomm oW oV) (psi edm) = re_ 8) by (apply cx_eq; cbv -[Rplus Rmult Ropp Rminus IZR]; ring).
  do 9 (split; [first [assumption|exact oW_herm]|]). split; [exact HV|].
  pose proof (C101_otoc Cx Cconsts Cfun edm edM oV oW s0 (re_ 1) [] HE Hw Hu Hd HM HM HW SM oW_herm) as K.
  destruct (ed_OTOC Cconsts Cfun edm (Whole edM) [s0; re_ 1] oV oW) as [[|r rs]|e] eqn:E.
  - inversion K.
  - exists r, rs. split; [reflexivity|]. rewrite <- HV. exact (C101_start Cx Cconsts Cfun edm edM oV oW (re_ 1) [] r rs HE Hw Hu Hd HM HM HW SM oW_herm E).
  - exfalso. destruct K as (_ & t & _ & Hn). revert Hn. set (A := mscale _ _).
    assert (EA : f_exp Cfun A = Some (mkMat 2 2 (fun i j => if Nat.eqb i j then cexp (me A i i) else s0))).
    { change 2 with (mr A) at 1 2. apply Cexpm_diag; [reflexivity|]. intros [|[|i]] [|[|j]] Hi Hj Hne; cbn in Hi, Hj; try lia; apply cx_eq; cbn; ring. }
    rewrite EA. discriminate.
Qed.
Print Assumptions C101_example.
