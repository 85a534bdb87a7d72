(** Specification of the index tools. *)
From Verif Require Import Alg ModelMPS ModelNcon.

(** The position of a basis state of a tensor product of spaces of dimensions ds, the
    first space most significant. *)
Definition position (ds s : list nat) : nat := fold_left (fun n xd => n * snd xd + fst xd) (combine s ds) 0.

(** The kept (b = true) or the traced (b = false) elements of a list. *)
Fixpoint pick {A} (b : bool) (mask : list bool) (l : list A) : list A :=
  match mask, l with
  | c :: mask, x :: l => if Bool.eqb b c then x :: pick b mask l else pick b mask l
  | _, _ => []
  end.

(** A basis state of all spaces from one of the kept and one of the traced spaces. *)
Fixpoint weave (mask : list bool) (s u : list nat) : list nat :=
  match mask with
  | [] => []
  | true :: mask => hd 0 s :: weave mask (tl s) u
  | false :: mask => hd 0 u :: weave mask s (tl u)
  end.

(** Which of N spaces are kept. *)
Definition mask_of (N : nat) (keep : list nat) : list bool := map (fun i => if in_dec Nat.eq_dec i keep then true else false) (seq 0 N).

(** A subset of the spaces to keep: not empty, no repetitions, in range. *)
Definition keep_ok (keep ds : list nat) : Prop := keep <> [] /\ NoDup keep /\ forall i, In i keep -> i < length ds.

Section Spec.
Context {R : sring}.
Local Open Scope sr_scope.

(** Two arrays are equal: same shape, same entries. *)
Definition tens_eq (A B : tens R) : Prop :=
  tsh A = tsh B /\ forall idx, incfg (tsh A) idx -> te A idx = te B idx.
End Spec.
