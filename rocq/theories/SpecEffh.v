(** Specification of effective Hamiltonians. *)
From Verif Require Import Alg ModelMPS SpecMPS ModelNcon ModelEk SpecQmb.

Section Spec.
Context {R : sring}.
Local Open Scope sr_scope.

(** The bonds of the tensors of an MPO on sites of dimension d fit together. *)
Fixpoint mpo_chain (d a : nat) (Ws : list (tens R)) (b : nat) : Prop :=
  match Ws with
  | [] => a = b
  | W :: Ws => exists c, tsh W = [d; d; a; c] /\ mpo_chain d c Ws b
  end.

(** <l1| H |l2> for two chains of sites of dimension d and an MPO. *)
Definition mpo_elem (d : nat) (Ws : list (tens R)) (l1 l2 : list (site R)) : R :=
  sumcfg (repeat d (length l1)) (fun s => sumcfg (repeat d (length l1)) (fun t =>
    sconj (amp l1 s 0 0) * mpo_prod Ws s t 0 0 * amp l2 t 0 0)).

(** The sites left of a cut between two copies of the state: bond k of the MPO, x of the
    bra, y of the ket. *)
Definition left_block (d : nat) (Ws : list (tens R)) (p : list (site R)) (k x y : nat) : R :=
  sumcfg (repeat d (length p)) (fun s => sumcfg (repeat d (length p)) (fun t =>
    sconj (amp p s 0 x) * mpo_prod Ws s t 0 k * amp p t 0 y)).
(** The sites right of a cut: bond k of the MPO, x of the bra, y of the ket. *)
Definition right_block (d : nat) (Ws : list (tens R)) (q : list (site R)) (k x y : nat) : R :=
  sumcfg (repeat d (length q)) (fun s => sumcfg (repeat d (length q)) (fun t =>
    sconj (amp q s x 0) * mpo_prod Ws s t k 0 * amp q t y 0)).

(** Position of an entry of an array with three axes in its flattened form. *)
Definition flat3 (b c : nat) (i x y : nat) : nat := ((i * b + x) * c + y)%nat.

(** conj(B) . M . B' for a matrix M on flattened tensors of one site. *)
Definition quad (M : tens R) (B B' : site R) : R :=
  sum (phys B) (fun i => sum (dl B) (fun x => sum (dr B) (fun y =>
  sum (phys B') (fun i' => sum (dl B') (fun x' => sum (dr B') (fun y' =>
    sconj (ent B i x y) * te M [flat3 (dl B) (dr B) i x y; flat3 (dl B') (dr B') i' x' y'] * ent B' i' x' y')))))).

(** A chain p, A, q of sites of dimension d with bonds of size one at the ends, and an MPO
    with as many tensors, bond k left of site A and k' right of it. *)
Definition eff_fits (d : nat) (Wp Wq : list (tens R)) (W : tens R) (p q : list (site R)) (A : site R) (k k' : nat) : Prop :=
  chain 1 p (dl A) /\ chain (dr A) q 1 /\ phys A = d /\ Forall (fun A => phys A = d) p /\ Forall (fun A => phys A = d) q /\
  length Wp = length p /\ length Wq = length q /\ mpo_chain d 1 Wp k /\ tsh W = [d; d; k; k'] /\ mpo_chain d k' Wq 1.

(** Left block, tensor of the site and right block joined, the right block with its bra (y')
    and its ket (y) exchanged against the left one (bra x, ket x'). *)
Definition eff_entry (d : nat) (Wp Wq : list (tens R)) (W : tens R) (p q : list (site R)) (k k' : nat) (i x y i' x' y' : nat) : R :=
  sum k (fun w => left_block d Wp p w x x' * sum k' (fun w' => te W [i; i'; w; w'] * right_block d Wq q w' y' y)).
End Spec.
