(** Specification of tensor networks: the Einstein sum. *)
From Verif Require Import Alg ModelNcon.

(** An assignment of values to labels, changed at one label. *)
Definition eupd (e : Z -> nat) (l : Z) (x : nat) : Z -> nat := fun k => if Z.eqb k l then x else e k.

(** The assignment giving the listed labels the listed values. *)
Fixpoint assign (ls : list Z) (xs : list nat) : Z -> nat :=
  match ls, xs with
  | l :: ls, x :: xs => eupd (assign ls xs) l x
  | _, _ => fun _ => 0
  end.

Section Spec.
Context {R : sring}.
Local Open Scope sr_scope.

(** Sum over all values of the listed labels, ld l being the range of l. *)
Fixpoint esum (ld : Z -> nat) (ls : list Z) (f : (Z -> nat) -> R) (e : Z -> nat) : R :=
  match ls with
  | [] => f e
  | l :: ls => sum (ld l) (fun x => esum ld ls f (eupd e l x))
  end.

(** The product of the entries of all tensors under an assignment. *)
Definition tprod (AA : list (tens R)) (v : list (list Z)) (e : Z -> nat) : R :=
  prodl (map (fun Tv => te (fst Tv) (map e (snd Tv))) (combine AA v)).

(** Every tensor's legs have the sizes of their labels; contracted labels are
    positive and occur twice, free labels are negative and occur once, there are
    no others. *)
Definition well_formed (ld : Z -> nat) (AA : list (tens R)) (v : list (list Z)) (order forder : list Z) : Prop :=
  v <> [] /\ Forall2 (fun A w => tsh A = map ld w) AA v /\ NoDup order /\ NoDup forder /\
  (forall l, In l order -> (0 < l)%Z /\ count_occ Z.eq_dec (concat v) l = 2%nat) /\
  (forall l, In l forder -> (l < 0)%Z /\ count_occ Z.eq_dec (concat v) l = 1%nat) /\
  (forall l, In l (concat v) -> In l order \/ In l forder).
End Spec.

(** Sets can be walked through in any order but completely; pop removes an element. *)
Definition setio_ok (O : setio) : Prop :=
  (forall l, NoDup (s_list O l) /\ forall x, In x (s_list O l) <-> In x l) /\
  (forall l, l <> [] -> In (s_pop O l) l).

Section Check.
Context {R : sring}.

(** Leg j of tensor i has label l and size d. *)
Definition leg (AA : list (tens R)) (v : list (list Z)) (i j : nat) (l : Z) (d : nat) : Prop :=
  exists A w, nth_error AA i = Some A /\ nth_error v i = Some w /\ nth_error w j = Some l /\ nth_error (tsh A) j = Some d.

(** As many label lists as tensors, as many labels as legs; every label to be
    contracted occurs twice, on legs of the same size; every free label once. *)
Definition consistent (AA : list (tens R)) (v : list (list Z)) (order forder : list Z) : Prop :=
  Forall2 (fun A w => length w = length (tsh A)) AA v /\
  (forall l, In l order -> count_occ Z.eq_dec (concat v) l = 2 /\
     forall i j d i' j' d', leg AA v i j l d -> leg AA v i' j' l d' -> d = d') /\
  (forall l, In l forder -> count_occ Z.eq_dec (concat v) l = 1).
End Check.
