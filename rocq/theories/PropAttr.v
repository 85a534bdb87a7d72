(** Attributes of objects and itemwise arithmetic (C57, C58). *)
From Verif Require Import Alg ModelMPS SpecMPS ModelOrth ModelCanon SpecTraj ProofRK ProofAttr Examples.
Local Open Scope sr_scope.

(** C57 *)
Theorem C57_constructor : forall (R : sring) (A : site R) (data : list (site R)) d,
  exists m, fMPS_init (A :: data) d None = Ok m /\ fdata m = A :: data /\ fL m = S (length data) /\
    fd m = match d with Some d => d | None => phys A end /\
    (forall B, In B (A :: data) -> dl B <= fD m /\ dr B <= fD m) /\
    (exists B, In B (A :: data) /\ (dl B = fD m \/ dr B = fD m)) /\ bond_dimension m = Ok (fD m) /\
    fcan m = Some false /\ forth m = Some false /\ foc m = None /\ fnorm m = None.
Proof. exact (@init_attr). Qed.
Print Assumptions C57_constructor.

Theorem C57_constructor_fails : forall (R : sring) (data : list (site R)) d D,
  (exists e, fMPS_init data d D = Err e) <-> data = [] \/ D <> None.
Proof. exact (@init_fails). Qed.
Print Assumptions C57_constructor_fails.

Theorem C57_left_canonicalise_limit : forall (R : sring) (O : lapack2 R) m D sb minD m' Ls,
  left_canonicalise O m D sb minD = Ok (m', Ls) ->
  fD m' = match D with Some D => Nat.min D (fD m) | None => fD m end.
Proof. exact (@left_D). Qed.
Print Assumptions C57_left_canonicalise_limit.

Theorem C57_right_canonicalise_limit : forall (R : sring) (O : lapack2 R) m D sb minD m' Ls,
  right_canonicalise O m D sb minD = Ok (m', Ls) ->
  fD m' = match D with Some D => Nat.min D (fD m) | None => fD m end.
Proof. exact (@right_D). Qed.
Print Assumptions C57_right_canonicalise_limit.

Example C57_example : match fMPS_init (fdata exA) None None with
  | Ok m => Nat.eqb (fD m) 2 && Nat.eqb (fL m) 3 && Nat.eqb (fd m) 2 | Err _ => false end = true.
Proof. vm_compute. reflexivity. Qed.

(** C58 *)
Theorem C58_itemwise_add : forall (R : sring) (a b : fmps R), fdata a <> [] -> shapes (fdata a) = shapes (fdata b) ->
  exists m, itemwise_add a b = Ok m /\ shapes (fdata m) = shapes (fdata a) /\
    forall p, entries (fdata m) p = entries (fdata a) p + entries (fdata b) p.
Proof. exact (@add_ok''). Qed.
Print Assumptions C58_itemwise_add.

Theorem C58_itemwise_sub : forall (R : sring) (a b : fmps R), fdata a <> [] -> shapes (fdata a) = shapes (fdata b) ->
  exists m, itemwise_sub a b = Ok m /\ shapes (fdata m) = shapes (fdata a) /\
    forall p, entries (fdata m) p = entries (fdata a) p - entries (fdata b) p.
Proof. exact (@sub_ok'). Qed.
Print Assumptions C58_itemwise_sub.

Theorem C58_itemwise_mul : forall (R : sring) (a : fmps R) c, fdata a <> [] ->
  exists m, itemwise_mul a c = Ok m /\ shapes (fdata m) = shapes (fdata a) /\ fd m = fd a /\
    forall p, entries (fdata m) p = c * entries (fdata a) p.
Proof. exact (@mul_ok''). Qed.
Print Assumptions C58_itemwise_mul.

(** as the docstring says: multiplication of the state by other**L *)
Theorem C58_itemwise_mul_state : forall (R : sring) (a : fmps R) c, fdata a <> [] ->
  exists m, itemwise_mul a c = Ok m /\ dims (fdata m) = dims (fdata a) /\
    forall s, length s = length (fdata a) -> psi m s = spow c (length (fdata a)) * psi a s.
Proof. exact (@mul_state). Qed.
Print Assumptions C58_itemwise_mul_state.

Example C58_example : fdata exA <> [] /\ shapes (fdata exA) = shapes (fdata exA) /\
  match itemwise_sub exA exA, itemwise_mul exA (zi 0 2) with
  | Ok z, Ok m => Zi_eqb (psi z [0;1;0]%nat) 0 && Zi_eqb (psi m [0;1;0]%nat) (zi 0 (-8) * psi exA [0;1;0]%nat)
                  && negb (Zi_eqb (psi m [0;1;0]%nat) 0)
  | _, _ => false end = true.
Proof. split; [discriminate|]. split; [reflexivity|]. vm_compute. reflexivity. Qed.
