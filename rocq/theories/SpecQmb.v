(** Specification vocabulary for qmb.py and projects/fMPO.py. *)
From Verif Require Import Alg ModelMPS SpecMPS ModelNcon ModelTensor SpecHam.

Section Spec.
Context {R : sring}.
Local Open Scope sr_scope.

(** Couplings of an XXZ chain: q for XX and YY, Jz for ZZ. *)
Definition xxz (q Jz : R) (a b : letter) : R :=
  match a, b with LX, LX => q | LY, LY => q | LZ, LZ => Jz | _, _ => 0 end.
(** The same field along one axis on every site. *)
Definition along (c : letter) (f : R) (_ : nat) (a : letter) : R :=
  match c, a with LX, LX => f | LY, LY => f | LZ, LZ => f | _, _ => 0 end.
(** A coupling of ZZ alone. *)
Definition only_zz (J : R) (a b : letter) : R := match a, b with LZ, LZ => J | _, _ => 0 end.

(** Product of an MPO with axes (out, in, left, right), between the bond states a and b. *)
Fixpoint mpo_prod (Ws : list (tens R)) (s t : list nat) (a b : nat) : R :=
  match Ws, s, t with
  | [], [], [] => dlt a b
  | W :: Ws, x :: s, y :: t => sum (nth 3 (tsh W) 0%nat) (fun k => te W [x; y; a; k] * mpo_prod Ws s t k b)
  | _, _, _ => 0
  end.
(** The right bond of every tensor is the left bond of the next one. *)
Fixpoint mpo_linked (a : nat) (Ws : list (tens R)) (b : nat) : Prop :=
  match Ws with
  | [] => a = b
  | W :: Ws => exists c, tsh W = [2; 2; a; c]%nat /\ mpo_linked c Ws b
  end.
End Spec.
