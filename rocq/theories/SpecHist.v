(** Call histories of an MPS object. *)
From Verif Require Import Alg ModelMPS SpecMPS ModelOrth SpecOrth ModelCanon SpecCanon.

Section Spec.
Context {R : sring}.
Local Open Scope sr_scope.

(** The objects a user can hold after any finite sequence of calls, none of
    which raised: chains of L sites of local dimension d.  Each rule is one call
    (fMPS.py:148, 913, 850, 256, 247, 219, 668, 650, 686, 916, 537, 463, 615).
    O and P are the linear algebra back ends. *)
Inductive reachable (O : lapack2 R) (P : lapack R) (L d : nat) : fmps R -> Prop :=
| r_new l m : closed l -> length l = L -> Forall (fun A => phys A = d) l -> pos l ->
    fMPS_init l None None = Ok m -> reachable O P L d m
| r_copy m m' : reachable O P L d m -> mps_copy m = Ok m' -> reachable O P L d m'
| r_apply m op k m' : reachable O P L d m -> mr op = d -> mc op = d -> k < L ->
    mps_apply m op k = Ok m' -> reachable O P L d m'
| r_mul m c m' : reachable O P L d m -> mps_mul m c = Ok m' -> reachable O P L d m'
| r_itemwise_mul m c m' : reachable O P L d m -> itemwise_mul m c = Ok m' -> reachable O P L d m'
| r_add a b m' : 2 <= L -> reachable O P L d a -> reachable O P L d b ->
    mps_add a b = Ok m' -> reachable O P L d m'
| r_left m m' : reachable O P L d m -> left_orthogonalise P m 0 None = Ok m' ->
    reachable O P L d m'
| r_right m m' : reachable O P L d m -> right_orthogonalise P m 0 None = Ok m' ->
    reachable O P L d m'
| r_mixed m k m' : reachable O P L d m -> k < L -> mixed_orthogonalise P m k = Ok m' ->
    reachable O P L d m'
| r_E m op k v m' : reachable O P L d m -> k < L -> mr op = d -> mc op = d ->
    mps_E P m op k = Ok (v, m') -> reachable O P L d m'
| r_left_can m D sb minD m' Ls : reachable O P L d m -> sb && minD = false ->
    match D with Some D => 0 < D | None => minD = false end ->
    left_canonicalise O m D sb minD = Ok (m', Ls) -> reachable O P L d m'
| r_right_can m D sb minD m' Ls : reachable O P L d m -> sb && minD = false ->
    match D with Some D => 0 < D | None => minD = false end ->
    right_canonicalise O m D sb minD = Ok (m', Ls) -> reachable O P L d m'
| r_left_back m D m' Ls : reachable O P L d m -> keeps_something_r D m ->
    left_canonicalise O m D true true = Ok (m', Ls) -> reachable O P L d m'
| r_right_back m D m' Ls : reachable O P L d m -> keeps_something D m ->
    right_canonicalise O m D true true = Ok (m', Ls) -> reachable O P L d m'
| r_mixed_can0 m sb m' : reachable O P L d m -> 0 < L ->
    mixed_canonicalise O m 0 None sb = Ok m' -> reachable O P L d m'.

End Spec.
