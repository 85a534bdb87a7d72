(** Concrete runs of serialisation, storage and padding.  No counterpart in /repo. *)
From Coq Require Import QArith Qcanon.
From Verif Require Import Alg QScalars ModelMPS SpecMPS ModelStruct SpecStruct ModelOrth SpecOrth
  ModelCanon SpecCanon ModelPad Oracle Oracle2 ExOrth.
Local Open Scope nat_scope.

(** Integers as Gaussian rationals. *)
Definition qio : numio Qi :=
  mkIO (fun n => qi (Z.of_nat n # 1) 0) (fun x => Z.to_nat (Qnum (this (fst x)))).

Lemma qio_ok : io_ok qio.
Proof.
  intros n. cbn [to_nat of_nat qio qi fst Q2Qc this].
  rewrite (Qred_identity (Z.of_nat n # 1)) by (cbn [Qnum Qden]; apply Z.gcd_1_r).
  cbn [Qnum]. apply Nat2Z.id.
Qed.

(** Imaginary part and unit. *)
Definition qimag : imag Qi := mkImag (R := Qi) (fun x => (snd x, 0%Qc)) (0%Qc, 1%Qc).
Lemma qimag_ok : forall x : Qi, sadd (sre x) (smul (im_unit qimag) (im_part qimag x)) = x.
Proof.
  intros [a b]. cbn. f_equal; ring.
Qed.

(** Bonds 1,2,1,1 with recorded D = 2: not the structure of (3,2,2). *)
Definition exShrunk : fmps Qi := qobj
  [qsite 2 1 2 [qi 1 0; qi 0 0; qi 0 0; qi 1 0]; qsite 2 2 1 [qi 1 0; qi 0 0; qi 0 0; qi 1 0];
   qsite 2 1 1 [qi 1 0; qi 2 0]].
(** A bond larger than the Schmidt bound. *)
Definition exFat : fmps Qi := qobj
  [qsite 2 1 3 [qi 1 0; qi 2 0; qi 3 0; qi 4 0; qi 5 0; qi 6 0];
   qsite 2 3 1 [qi 1 0; qi 2 0; qi 3 0; qi 4 0; qi 5 0; qi 6 0]].

Definition exShrunk_file : list Qi := the [] (store qio exShrunk false).
Definition exFat_file : list Qi := the [] (store qio exFat false).
Definition exFat_back : fmps Qi := the exFat (load qio exFat_file false).

Definition is_value_error {A} (r : res A) : bool :=
  match r with Err ValueError => true | _ => false end.
Lemma is_value_error_eq {A} (r : res A) : is_value_error r = true -> r = Err ValueError.
Proof. destruct r as [|[]]; try discriminate. reflexivity. Qed.

Lemma ex_shrunk : exists (N : numio Qi) (m : fmps Qi) f, io_ok N /\ wf m /\ uniform m /\
  store N m false = Ok f /\ load N f false = Err ValueError.
Proof.
  exists qio, exShrunk, exShrunk_file. split; [apply qio_ok|].
  split; [repeat split; discriminate|]. split; [repeat constructor|].
  split; [apply the_ok; vm_compute; reflexivity|].
  apply is_value_error_eq. vm_compute. reflexivity.
Qed.

Lemma ex_fat : exists (N : numio Qi) (m m' : fmps Qi) f s, io_ok N /\ wf m /\ uniform m /\
  store N m false = Ok f /\ load N f false = Ok m' /\
  incfg (dims (fdata m)) s /\ psi m' s <> psi m s.
Proof.
  exists qio, exFat, exFat_back, exFat_file, [0; 0]. split; [apply qio_ok|].
  split; [repeat split; discriminate|]. split; [repeat constructor|].
  split; [apply the_ok; vm_compute; reflexivity|]. split; [apply the_ok; vm_compute; reflexivity|].
  split; [repeat constructor|]. apply Qi_neq. vm_compute. reflexivity.
Qed.

Lemma ex_store : io_ok qio /\ fdata exO <> [] /\
  structure_LdD (fL exO) (fd exO) (fD exO) = Ok (map shape_of (fdata exO)) /\
  match store qio exO false with
  | Ok f => match load qio f false with Ok m => Qi_eqb (psi m [1;1]) (psi exO [1;1]) | Err _ => false end
  | Err _ => false end = true /\
  match store qio exShrunk true with
  | Ok f => Nat.eqb (length f) 20 &&
     match load qio f true with Ok m => Qi_eqb (psi m [1;1;1]) (qi 2 0) && Nat.eqb (fL m) 3 | Err _ => false end
  | Err _ => false end = true.
Proof.
  split; [apply qio_ok|]. split; [discriminate|]. split; [vm_compute; reflexivity|].
  split; vm_compute; reflexivity.
Qed.

Lemma ex_serial : fdata exO <> [] /\
  (forall x : Qi, sadd (sre x) (smul (im_unit qimag) (im_part qimag x)) = x) /\
  match serialize_real qimag exO with
  | Ok v => Nat.eqb (length v) 16 && Qi_eqb (nth 14 v s0) (qi (-3) 0) &&
      match deserialize_real qimag v (map shape_of (fdata exO)) with
      | Ok m => Qi_eqb (psi m [1;1]) (qi 0 (-32)) | Err _ => false end
  | Err _ => false end = true.
Proof. split; [discriminate|]. split; [apply qimag_ok|]. vm_compute. reflexivity. Qed.

(** A product state expanded to bond 2. *)
Definition exProd : fmps Qi := qobj
  [qsite 2 1 1 [qi 3 0; qi 4 0]; qsite 2 1 1 [qi 1 0; qi 0 0]].
Definition exI4 : mat Qi := qmat 4 4
  [qi 1 0; qi 0 0; qi 0 0; qi 0 0; qi 0 0; qi 1 0; qi 0 0; qi 0 0;
   qi 0 0; qi 0 0; qi 1 0; qi 0 0; qi 0 0; qi 0 0; qi 0 0; qi 1 0].
Definition exLAp : lapack2 Qi := oracle2 true []
  [(qmat 2 2 [qi (3#5) 0; qi (-4#5) 0; qi (4#5) 0; qi (3#5) 0], [qi 5 0; qi 0 0],
    qmat 2 2 [qi 1 0; qi 0 0; qi 0 0; qi 1 0]);
   (exI4, [qi 5 0], qmat 1 1 [qi 1 0])] [].

Lemma ex_expand : svd_ok exLAp /\ wf exProd /\ uniform exProd /\ 0 < fd exProd /\ pos (fdata exProd) /\
  2 <= fL exProd /\
  (forall k A, nth_error (fdata exProd) k = Some A -> dl A <= bond (fL exProd) (fd exProd) 2 k /\
     dr A <= bond (fL exProd) (fd exProd) 2 (k + 1)) /\
  match expand exLAp exProd 2 with
  | Ok m => match structure m with [(1, 2); (2, 1)] => true | _ => false end &&
     match fnorm m with Some X => Qi_eqb (psi exProd [1;0]) (smul (psi m [1;0]) (me X 0 0)) && Qi_eqb (me X 0 0) (qi 5 0)
     | None => false end
  | Err _ => false end = true.
Proof.
  split; [apply oracle2_svd|]. split; [repeat split; discriminate|]. split; [repeat constructor|].
  split; [repeat constructor|]. split; [repeat constructor|]. split; [repeat constructor|].
  split.
  - intros [|[|k]] A H; simpl in H; try (injection H as <-; split; repeat constructor).
    destruct k; discriminate.
  - vm_compute. reflexivity.
Qed.

Lemma ex_pad : wf exProd /\ wf exO /\ fL exProd = fL exO /\
  match mps_pad exProd exO with
  | Ok (a, b) => match structure a with [(1, 2); (2, 1)] => true | _ => false end &&
     Qi_eqb (psi a [1;0]) (qi 4 0)
  | Err _ => false end = true.
Proof.
  split; [repeat split; discriminate|]. split; [repeat split; discriminate|]. split; [reflexivity|].
  vm_compute. reflexivity.
Qed.
