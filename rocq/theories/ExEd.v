(** Concrete exact evolutions. *)
From Coq Require Import Reals Lra ZArith QArith Qcanon.
From Verif Require Import Alg QScalars ModelMPS SpecMPS ModelOrth ModelCanon SpecOrth SpecCanon ModelStruct SpecStruct ModelNcon ModelEk ModelTensor ModelDecomp SpecDecomp ModelSpin SpecSpin ModelLie SpecLie
  ModelExp SpecExp ProofSpin ProofExp ModelState Oracle Oracle2 ExOrth ExCanon ExStruct ModelTraj SpecTraj ProofTraj ExTraj ExReal ExExp ModelEd SpecEd ProofEd ProofEd2.
Local Open Scope nat_scope.

(** Singular value decomposition of the non-zero matrices with one column. *)
Definition nrm (M : mat Cx) : R := fst (sum (R := Cx) (mr M) (fun a => smul (sconj (me M a 0)) (me M a 0))).
Definition col_svd (M : mat Cx) : option (mat Cx * (nat -> Cx) * mat Cx) :=
  if Nat.eqb (mc M) 1 then
    if Rlt_dec 0 (nrm M) then
      Some (mkMat (mr M) 1 (fun i _ => smul (re_ (/ sqrt (nrm M))) (me M i 0)), (fun _ => re_ (sqrt (nrm M))), mkMat 1 1 (fun _ _ => s1))
    else None
  else None.
Definition colLA : lapack2 Cx := mkLA2 col_svd (fun _ => None) (fun _ => None) (fun x => Ceqb x s0).

Lemma nrm_real (f : nat -> Cx) n : snd (sum (R := Cx) n (fun a => smul (sconj (f a)) (f a))) = 0%R.
Proof. induction n as [|n IH]; [reflexivity|]. cbn [sum]. cbn -[sum] in *. rewrite IH. ring. Qed.

Lemma nrm_ge (f : nat -> Cx) n : (0 <= fst (sum (R := Cx) n (fun a => smul (sconj (f a)) (f a))))%R.
Proof.
  induction n as [|n IH]; [cbn; lra|]. cbn [sum]. cbn -[sum] in *.
  assert (0 <= fst (f n) * fst (f n))%R by apply Rle_0_sqr. assert (0 <= snd (f n) * snd (f n))%R by apply Rle_0_sqr. lra.
Qed.

Lemma colLA_ok : svd_ok colLA.
Proof.
  split; [|split; [discriminate|intros x; apply Ceqb_eq]]. cbn [la_svd colLA]. intros M U Sv V H. unfold col_svd in H.
  destruct (Nat.eqb_spec (mc M) 1) as [Hc|]; [|discriminate]. destruct (Rlt_dec 0 (nrm M)) as [Hn|]; [|discriminate]. injection H as <- <- <-.
  assert (Hr : mr M <> 0). { intros K. unfold nrm in Hn. rewrite K in Hn. cbn in Hn. lra. }
  assert (Hs : (0 < sqrt (nrm M))%R) by now apply sqrt_lt_R0.
  unfold is_svd. rewrite Hc. replace (Nat.min (mr M) 1) with 1 by lia. cbn [mr mc me].
  split; [reflexivity|]. split; [reflexivity|]. split; [reflexivity|]. split; [reflexivity|].
  split; [split; [intros; apply cre_conj|intros i j _ _ Z; exact Z]|]. split; [|split].
  - intros i j Hi Hj. assert (j = 0) by lia. subst j. revert Hs. generalize (sqrt (nrm M)) (me M i 0). intros r [x y] Hr0. apply cx_eq; cbn; field; lra.
  - intros i j Hi Hj. assert (i = 0) by lia. assert (j = 0) by lia. subst i j. rewrite dlt_eq.
    transitivity (smul (smul (re_ (/ sqrt (nrm M))) (re_ (/ sqrt (nrm M)))) (sum (R := Cx) (mr M) (fun a => smul (sconj (me M a 0)) (me M a 0)))).
    { rewrite <- sum_mul_l. apply sum_ext. intros a _. cbn [me]. generalize (/ sqrt (nrm M))%R (me M a 0). intros r [x y]. apply cx_eq; cbn; ring. }
    replace (sum (mr M) _) with (re_ (nrm M)); [|apply cx_eq; [reflexivity|symmetry; exact (nrm_real (fun a => me M a 0) (mr M))]].
    rewrite !cre_mul. assert (E := sqrt_sqrt (nrm M) ltac:(lra)). revert Hs E. generalize (sqrt (nrm M)). intros r Hr0 <-. apply cx_eq; cbn; [field; lra|reflexivity].
  - intros i j Hi Hj. assert (i = 0) by lia. assert (j = 0) by lia. subst i j. rewrite dlt_eq. cbn [sum me]. transitivity (sadd (s0 : Cx) s1); [f_equal; apply cx_eq; cbn; ring|apply cx_eq; cbn; ring].
Qed.

(** One spin in the state (1, 1), with the Hamiltonian diag(1, -1). *)
Definition edM : mat Cx := mkMat 2 2 (fun i j => if Nat.eqb i j then if Nat.eqb i 0 then re_ 1 else re_ (-1) else s0).
Definition edm : fmps Cx := mkF [mkSite 2 1 1 (fun _ _ _ => s1)] 1 2 1 (Some false) (Some false) None None.
Definition edE : edtraj Cx := mkEd (mkTraj edm edm [1] []) None.
Definition edT : list Cx := [re_ 0; re_ 1; re_ 2].
Definition no_log (_ _ : nat) : option nat := None.

Lemma edM_herm : self_adjoint edM.
Proof. split; [reflexivity|]. split; [reflexivity|]. intros [|[|i]] [|[|j]] Hi Hj; cbn in Hi, Hj; try lia; apply cx_eq; cbn; ring. Qed.

Lemma cexp_nz z : (0 < fst (cexp z) * fst (cexp z) + snd (cexp z) * snd (cexp z))%R.
Proof.
  unfold cexp. cbn [fst snd]. assert (H := sin2_cos2 (snd z)). unfold Rsqr in H. assert (E := exp_pos (fst z)).
  replace (_ + _)%R with (exp (fst z) * exp (fst z) * (sin (snd z) * sin (snd z) + cos (snd z) * cos (snd z)))%R by ring. rewrite H.
  rewrite Rmult_1_r. now apply Rmult_lt_0_compat.
Qed.

Lemma col_svd_some (M : mat Cx) i : mc M = 1 -> i < mr M -> (0 < fst (me M i 0) * fst (me M i 0) + snd (me M i 0) * snd (me M i 0))%R -> exists U r, col_svd M = Some (mkMat (mr M) 1 U, (fun _ => r), mkMat 1 1 (fun _ _ => s1)).
Proof.
  intros Hc Hi H. unfold col_svd. rewrite Hc, Nat.eqb_refl. destruct (Rlt_dec 0 (nrm M)) as [|Hn]; [do 2 eexists; reflexivity|]. exfalso. apply Hn. unfold nrm.
  clear Hn Hc. induction (mr M) as [|n IH]; [lia|]. cbn [sum]. assert (G := nrm_ge (fun a => me M a 0) n).
  assert (G1 : (0 <= fst (me M n 0) * fst (me M n 0))%R) by apply Rle_0_sqr. assert (G2 : (0 <= snd (me M n 0) * snd (me M n 0))%R) by apply Rle_0_sqr.
  destruct (Nat.eq_dec i n) as [->|Hne]; cbn -[sum] in *; [lra|]. assert (L := IH ltac:(lia)). cbn -[sum] in L. lra.
Qed.

Lemma ed_runs : exists e', edint no_log Cconsts Cfun colLA (Whole edM) edE edT = Ok e'.
Proof.
  unfold edint, edT. cbn [ed_t edE tmps]. unfold recombine. cbn [edm fdata fL].
  cbn [ed_ham bind getitem nth_error length Nat.sub].
  set (A := mscal _ _). assert (EA : f_exp Cfun A = Some (mkMat 2 2 (fun i j => if Nat.eqb i j then cexp (me A i i) else s0))).
  { change 2 with (mr A) at 1 2. apply Cexpm_diag; [reflexivity|]. intros [|[|i]] [|[|j]] Hi Hj Hne; cbn in Hi, Hj; try lia; apply cx_eq; cbn; ring. }
  cbn [ed_loop]. unfold expm_multiply, expm_. rewrite EA. cbn [bind]. clearbody A. clear EA.
  cbv -[Cx smul sadd ssub sopp sconj s0 s1 cexp col_svd me car].
  match goal with |- context [col_svd ?X] => destruct (col_svd_some X 0 eq_refl ltac:(cbn; lia)) as (U & r & E) end.
  - cbn [me].
    match goal with |- (0 < fst ?y * _ + _)%R => replace y with (cexp (sadd (me A 0 0) (me A 0 0))); [apply cexp_nz|] end.
    rewrite cexp_add. cbn [me]. generalize (cexp (me A 0 0)). intros [x y]. apply cx_eq; cbn; ring.
  - rewrite E. eexists. reflexivity.
Qed.

Lemma ed_hyp : let m := tmps (ed_t edE) in
  svd_ok colLA /\ expm_ok (f_exp Cfun) /\ wf m /\ uniform m /\ 0 < fd m /\ ed_ham no_log (Whole edM) = Ok edM /\ sq (fd m ^ fL m) edM /\
  self_adjoint edM /\ sconj (c_im Cconsts) = sopp (c_im Cconsts) /\ sconj (re_ 0) = re_ 0 /\ sconj (re_ 1) = re_ 1.
Proof.
  split; [exact colLA_ok|]. split; [exact Cexpm_ok|]. split; [repeat split; discriminate|]. split; [repeat constructor|]. split; [cbn; lia|]. split; [reflexivity|].
  split; [split; reflexivity|]. split; [exact edM_herm|]. split; [apply cx_eq; cbn; ring|]. split; apply cre_conj.
Qed.

(** Two qubits; an exponential that is the identity. *)
Definition triv_exp (A : mat Qi) : option (mat Qi) := if Nat.eqb (mr A) (mc A) then Some (mone (mr A)) else None.
Definition trivF : mfun Qi := mkMfun triv_exp (fun _ => None) (fun x => x) (fun _ => s1).
Definition zero4 : mat Qi := mkMat 4 4 (fun _ _ => s0).
Definition qC : consts Qi := mkConsts (qi (1#2) 0) (qi 0 1) (fun _ => qi 1 0).
Definition exLAe : lapack2 Qi := oracle2 true
  [(exI, [qi 1 0; qi 0 0], exI); (qmat 4 1 [qi 1 0; qi 0 0; qi 0 0; qi 0 0], [qi 1 0], qmat 1 1 [qi 1 0])]
  [(qmat 2 2 [qi 1 0; qi 0 0; qi 0 0; qi 1 0], [qi 1 0; qi 0 0], qmat 2 2 [qi 1 0; qi 0 0; qi 0 0; qi 1 0]);
   (exI4, [qi 1 0], qmat 1 1 [qi 1 0]);
   (qmat 2 2 [qi 1 0; qi 0 0; qi 0 0; qi 1 0], [qi 1 0], qmat 1 1 [qi 1 0]);
   (exI, [qi 1 0; qi 1 0], exI)]
  [(qmat 1 1 [qi 1 0], [qi 1 0]); (exI, [qi 1 0; qi 0 0])].
Definition exEd : edtraj Qi := the (mkEd exTr0 None) (edint no_log qC trivF exLAe (Whole zero4) (mkEd exTr0 None) exT).
Lemma exEd_ok : edint no_log qC trivF exLAe (Whole zero4) (mkEd exTr0 None) exT = Ok exEd.
Proof. apply the_ok. vm_compute. reflexivity. Qed.
Definition exEdms : list (fmps Qi) := the [] (mps_list_ed qimag exLAe exEd).
Lemma exEdms_ok : mps_list_ed qimag exLAe exEd = Ok exEdms.
Proof. apply the_ok. vm_compute. reflexivity. Qed.


(** A trajectory with recorded vectors and no recorded MPS. *)
Definition exEh : edtraj Qi := mkEd (mkTraj exT0 exT0 [] []) (Some [[qi 1 0; qi 0 0; qi 0 0; qi 0 0]]).

Lemma triv_inv A X : triv_exp A = Some X -> mr A = mc A /\ X = mone (mr A).
Proof. unfold triv_exp. destruct (Nat.eqb_spec (mr A) (mc A)); [|discriminate]. intros H. injection H as <-. auto. Qed.
Lemma triv_sq n A : sq n A -> triv_exp A = Some (mone n).
Proof. intros [A1 A2]. unfold triv_exp. now rewrite A1, A2, Nat.eqb_refl. Qed.
Lemma triv_ok : expm_ok triv_exp.
Proof.
  constructor.
  - intros A A' X (M1 & M2 & M3) E. apply triv_inv in E as [E ->]. exists (mone (mr A')). split; [apply triv_sq; split; congruence|]. rewrite M1. apply mat_eq_refl.
  - intros n A X [A1 A2] E. apply triv_inv in E as [E ->]. split; exact A1.
  - intros A X E. apply triv_inv in E as [E ->]. exists (mone (mr A)). split; [apply triv_sq; split; cbn; congruence|].
    split; [reflexivity|]. split; [reflexivity|]. intros i j _ _. cbn [madj mone me]. unfold dlt. rewrite (Nat.eqb_sym j i). destruct (Nat.eqb i j); [symmetry; apply conj_1|symmetry; apply conj_0].
  - intros n A B X Y [A1 A2] [B1 B2] _ EA EB. apply triv_inv in EA as [_ ->]. apply triv_inv in EB as [_ ->]. exists (mone n). split; [apply triv_sq; split; cbn; congruence|].
    rewrite A1, B1. apply mat_eq_sym, mone_l. reflexivity.
  - intros n. exists (mone n). split; [now apply triv_sq|apply mat_eq_refl].
  - intros n c. exists s1, (mone n). split; [now apply triv_sq|]. split; [reflexivity|]. split; [reflexivity|]. intros i j _ _. cbn [mscale me]. symmetry. apply (Rmul_1_l (s_th Qi)).
  - intros n m X A B P Q X1 X2 [A1 A2] [B1 B2] EA EB _. apply triv_inv in EA as [_ ->]. apply triv_inv in EB as [_ ->]. rewrite A1, B1.
    eapply mat_eq_trans; [apply (mone_r X m X2)|]. apply mat_eq_sym. exact (mone_l X n X1).
Qed.

(** After an expansion the stored states have different bond dimensions. *)
Lemma ex_losch : runs (mps_list qimag exTr3) = true /\ loschmidt qimag (fun x => x) exTr3 = Err ValueError.
Proof. split; [vm_compute; reflexivity|]. apply is_value_error_eq. vm_compute. reflexivity. Qed.

Lemma exRun1 : run exLAt qimag exTr1 exXs.
Proof.
  apply (run_int exLAt qimag (fun m => Ok m) exFlip exT exTr0 [] exTr1 exXs).
  - apply (run_init exLAt qimag exT0 exTr0).
    + apply the_ok. vm_compute. reflexivity.
    + apply fits_b_ok. vm_compute. reflexivity.
  - apply (the_ok exTd (invfreeint qimag exFlip exTr0 exT)). vm_compute. reflexivity.
  - discriminate.
  - reflexivity.
  - exists (tmps exTr0). split; [reflexivity|]. apply flip_iterates; vm_compute; reflexivity.
  - apply good_b_ok. vm_compute. reflexivity.
Qed.
