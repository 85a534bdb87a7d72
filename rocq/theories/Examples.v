(** Concrete objects for the non-vacuity examples.  No counterpart in /repo. *)
From Verif Require Import Alg ModelMPS SpecMPS.

(** A tensor from its flat row-major list of Gaussian integers. *)
Definition lsite (d a b : nat) (l : list Zi) : site Zi :=
  mkSite d a b (fun s i j => nth ((s * a + i) * b + j) l (zi 0 0)).

(** A matrix from its flat row-major list of Gaussian integers. *)
Definition lmat (a b : nat) (l : list Zi) : mat Zi :=
  mkMat a b (fun i j => nth (i * b + j) l (zi 0 0)).

(** An object as [fMPS(data)] builds it (fMPS.py:148-171). *)
Definition obj (l : list (site Zi)) : fmps Zi :=
  match fMPS_init l None None with
  | Ok m => m
  | Err _ => mkF [] 0 0 0 None None None None
  end.

(** Three qubits, bonds 1-2-2-1, complex entries. *)
Definition exA : fmps Zi := obj
  [lsite 2 1 2 [zi 1 0; zi 2 1; zi 0 (-1); zi 3 0];
   lsite 2 2 2 [zi 1 1; zi 0 0; zi 2 0; zi 1 0; zi 0 0; zi 1 0; zi 0 2; zi (-1) 0];
   lsite 2 2 1 [zi 1 0; zi 0 1; zi 2 0; zi 1 1]].

(** Three qubits, bonds 1-1-3-1. *)
Definition exB : fmps Zi := obj
  [lsite 2 1 1 [zi 2 0; zi 1 (-1)];
   lsite 2 1 3 [zi 1 0; zi 0 0; zi 1 2; zi 0 0; zi 3 0; zi 1 0];
   lsite 2 3 1 [zi 1 0; zi 0 1; zi 2 0; zi 1 1; zi 0 0; zi 1 0]].

(** One qubit. *)
Definition exC : fmps Zi := obj [lsite 2 1 1 [zi 1 0; zi 0 2]].
Definition exD : fmps Zi := obj [lsite 2 1 1 [zi 3 0; zi 1 1]].

(** Pauli Y. *)
Definition exY : mat Zi := lmat 2 2 [zi 0 0; zi 0 (-1); zi 0 1; zi 0 0].

Lemma exA_wf : wf exA /\ uniform exA.
Proof. repeat split; try discriminate; repeat constructor. Qed.

Lemma exB_wf : wf exB /\ uniform exB.
Proof. repeat split; try discriminate; repeat constructor. Qed.

Lemma exC_wf : wf exC /\ uniform exC.
Proof. repeat split; try discriminate; repeat constructor. Qed.

Lemma exD_wf : wf exD /\ uniform exD.
Proof. repeat split; try discriminate; repeat constructor. Qed.

(** Concrete runs used as non-vacuity examples and counterexamples. *)
Lemma ex_overlap :
  wf exA /\ wf exB /\ uniform exA /\ uniform exB /\ fd exA = fd exB /\ fL exA = fL exB /\
  dims (fdata exA) = dims (fdata exB) /\
  match overlap exA exB with Ok F => me F 0 0 | Err _ => zi 0 0 end = zi 303 13.
Proof.
  repeat split; try discriminate; repeat constructor.
Qed.

Lemma ex_recombine :
  wf exA /\ uniform exA /\
  recombine exA = Ok [zi 4 5; zi 11 9; zi (-1) 3; zi (-4) 6;
                      zi 7 2; zi 17 1; zi 1 3; zi (-2) 8].
Proof. repeat split; try discriminate; repeat constructor. Qed.

Lemma ex_add :
  wf exA /\ wf exB /\ 2 <= fL exA /\ dims (fdata exA) = dims (fdata exB) /\
  match mps_add exA exB with Ok m => recombine m | Err e => Err e end
  = Ok [zi 10 13; zi 15 15; zi 3 9; zi (-2) 6; zi 14 3; zi 22 2; zi 6 4; zi (-1) 7].
Proof. repeat split; try discriminate; repeat constructor. Qed.

Lemma ex_add_single :
  wf exC /\ wf exD /\ uniform exC /\ dims (fdata exC) = dims (fdata exD) /\
  recombine exC = Ok [zi 1 0; zi 0 2] /\ recombine exD = Ok [zi 3 0; zi 1 1] /\
  match mps_add exC exD with Ok m => recombine m | Err e => Err e end
  = Ok [zi 1 0; zi 0 2].
Proof. repeat split; try discriminate; repeat constructor. Qed.

Lemma ex_mul :
  wf exA /\
  match mps_mul exA (zi 0 2) with Ok m => recombine m | Err e => Err e end
  = Ok [zi (-10) 8; zi (-18) 22; zi (-6) (-2); zi (-12) (-8);
        zi (-4) 14; zi (-2) 34; zi (-6) 2; zi (-16) (-4)].
Proof. repeat split; try discriminate; repeat constructor. Qed.

Lemma ex_apply :
  wf exA /\ 1 < fL exA /\ mc exY = nth 1 (dims (fdata exA)) 0 /\
  match mps_apply exA exY 1 with Ok m => recombine m | Err e => Err e end
  = Ok [zi 3 1; zi 6 4; zi (-5) 4; zi (-9) 11; zi 3 (-1); zi 8 2; zi (-2) 7; zi (-1) 17].
Proof. repeat split; try discriminate; repeat constructor. Qed.

Lemma ex_post_select :
  wf exA /\ 2 <= fL exA /\ 1 < fL exA /\ 0 < nth 1 (dims (fdata exA)) 0 /\
  match post_select exA 1 0 with
  | Ok m => mapM (recombine_entry (fdata m)) (configs 2 2) | Err e => Err e end
  = Ok [zi 4 5; zi 11 9; zi 7 2; zi 17 1] /\
  match post_select exA 1 0 with Ok m => recombine m | Err e => Err e end
  = Ok [zi 4 5; zi 4 5; zi 11 9; zi 11 9; zi 7 2; zi 7 2; zi 17 1; zi 17 1].
Proof. repeat split; try discriminate; repeat constructor. Qed.

Lemma ex_extend :
  wf exC /\ wf exD /\
  match mps_extend exC exD with Ok m => recombine m | Err e => Err e end
  = Ok [zi 3 0; zi 1 1; zi 0 6; zi (-2) 2].
Proof. repeat split; try discriminate; repeat constructor. Qed.

Lemma ex_add_single_refuted : exists (a b : fmps Zi) u v m w,
  wf a /\ wf b /\ fL a = 1 /\ dims (fdata a) = dims (fdata b) /\
  recombine a = Ok u /\ recombine b = Ok v /\ mps_add a b = Ok m /\ recombine m = Ok w /\
  w <> map (fun xy => sadd (fst xy) (snd xy)) (combine u v).
Proof.
  exists exC, exD. do 4 eexists.
  split; [apply exC_wf|]. split; [apply exD_wf|].
  split; [reflexivity|]. split; [reflexivity|]. split; [reflexivity|].
  split; [reflexivity|]. split; [reflexivity|]. split; [reflexivity|].
  vm_compute. discriminate.
Qed.

Lemma ex_post_select_refuted : exists (m m' : fmps Zi) k w u,
  wf m /\ uniform m /\ 2 <= fL m /\ k < fL m /\ w < fd m /\
  post_select m k w = Ok m' /\ fL m' <> length (fdata m') /\
  recombine m' = Ok u /\ length u <> fd m ^ length (fdata m').
Proof.
  exists exA. eexists. exists 1, 0. eexists.
  split; [apply exA_wf|]. split; [apply exA_wf|].
  split; [repeat constructor|]. split; [repeat constructor|]. split; [repeat constructor|].
  split; [reflexivity|]. split; [discriminate|]. split; [reflexivity|].
  vm_compute. discriminate.
Qed.
