(** Specification vocabulary for averages of local overlaps. *)
From Verif Require Import Alg ModelMPS SpecMPS ModelOrth SpecOrth ModelNcon ModelEk SpecEk.

Section Spec.
Context {R : sring}.
Local Open Scope sr_scope.

(** A state in mixed form around the centre it records, with norm one. *)
Definition settled (m : fmps R) : Prop :=
  wf m /\ pos (fdata m) /\ uniform m /\ (exists c o, fcan m = Some c /\ forth m = Some o) /\
  (exists j, foc m = Some j /\ mixed_at j (fdata m)) /\
  sumcfg (dims (fdata m)) (fun s => psi m s * sconj (psi m s)) = 1.

(** The same state up to a factor of modulus one, in tensors with the same local dimensions. *)
Definition same_ray (m m' : fmps R) : Prop :=
  fL m' = fL m /\ fd m' = fd m /\ dims (fdata m') = dims (fdata m) /\
  exists c, c * sconj c = 1 /\ forall s, incfg (dims (fdata m)) s -> psi m s = c * psi m' s.

(** Re Tr(rho_a rho_b) of the reduced matrices of the k sites from i on. *)
Definition window_overlap (d L : nat) (a b : list nat -> R) (i k : nat) : R :=
  sre (sumcfg (repeat d k) (fun s => sumcfg (repeat d k) (fun t =>
    reduced (repeat d i) (repeat d (L - i - k)) a s t * reduced (repeat d i) (repeat d (L - i - k)) b t s))).
End Spec.
