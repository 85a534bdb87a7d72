(** Model of fMPS.py:745-753 and 771-774: k_local_approx_overlap, approx_overlap and
    from_product_states. *)
From Verif Require Import Alg ModelMPS ModelOrth ModelCanon ModelNcon ModelEk.

Section Model.
Context {R : sring}.
Local Open Scope sr_scope.

(** fMPS.py:753, the values local_overlap(other, A) for A in As in order; both objects are
    changed on the way.  self and other are taken to be different objects. *)
Fixpoint local_overlaps (S : setio) (O : lapack R) (a b : fmps R) (As : list (list nat)) : res (list R * fmps R * fmps R) :=
  match As with
  | [] => Ok ([], a, b)
  | A :: As =>
      do x <- mps_local_overlap S O a b A;
      let '(v, a, b) := x in
      do y <- local_overlaps S O a b As;
      let '(vs, a, b) := y in
      Ok (v :: vs, a, b)
  end.

(** np.mean(vs) (fMPS.py:753): the sum divided by the number.  [div] is the division of numbers; the mean of
    an empty list, nan with a warning in numpy, is an error here. *)
Definition mean (div : R -> R -> option R) (vs : list R) : res R :=
  match vs with
  | [] => Err ValueError
  | _ => match div (suml vs) (sofnat (length vs)) with Some x => Ok x | None => Err ValueError end
  end.

(** fMPS.py:752-753, approx_overlap. *)
Definition approx_overlap (S : setio) (O : lapack R) (div : R -> R -> option R) (a b : fmps R) (As : list (list nat))
    : res (R * fmps R * fmps R) :=
  do y <- local_overlaps S O a b As;
  let '(vs, a, b) := y in
  do v <- mean div vs; Ok (v, a, b).

(** fMPS.py:745-750, k_local_approx_overlap; the argument L is not used by the code. *)
Definition k_local_approx_overlap (S : setio) (O : lapack R) (div : R -> R -> option R) (a b : fmps R) (k : option nat)
    : res (R * fmps R * fmps R) :=
  match k with
  | None => do F <- overlap a b; Ok (me F 0%nat 0%nat, a, b)
  | Some k => approx_overlap S O div a b (map (fun i => seq i k) (seq 0 (fL a + 1 - k)))
  end.

(** fMPS.py:771-774, from_product_states. *)
Definition from_product_states (vss : list (list (nat * (nat -> R)))) : res (list (fmps R)) := mapM from_product_state vss.
End Model.
