(** Specification vocabulary for Hamiltonians.py: spin chains as sums of Pauli strings. *)
From Coq Require Import Ascii.
From Verif Require Import Alg ModelMPS SpecMPS ModelNcon ModelTensor SpecEk ModelHam.

Inductive letter := LI | LX | LY | LZ.
Definition chr (a : letter) : ascii := match a with LI => "I" | LX => "X" | LY => "Y" | LZ => "Z" end%char.
Definition xyz : list letter := [LX; LY; LZ].

(** A chain of L letters that is the identity outside the given letters, which start at
    place i. *)
Definition place (L i : nat) (ops : list letter) : list letter := repeat LI i ++ ops ++ repeat LI (L - i - length ops).

Section Spec.
Context {R : sring}.
Local Open Scope sr_scope.

(** The identity and the Pauli matrices, for an imaginary unit im. *)
Definition sigma (im : R) (a : letter) : mat R :=
  mkMat 2 2 (fun i j => nth (i * 2 + j)%nat (match a with
    | LI => [1; 0; 0; 1] | LX => [0; 1; 1; 0] | LY => [0; - im; im; 0] | LZ => [1; 0; 0; - (1)] end) 0).

(** Matrix elements of a string of Pauli matrices. *)
Definition pstring (im : R) (l : list letter) (s t : list nat) : R := string_op (map (sigma im) l) s t.

(** The couplings J on all bonds, fields f of every site, and a constant c. *)
Definition chain_ham (im : R) (L : nat) (J : letter -> letter -> R) (f : nat -> letter -> R) (c : R) (s t : list nat) : R :=
  sum (L - 1) (fun i => suml (map (fun a => suml (map (fun b => J a b * pstring im (place L i [a; b]) s t) xyz)) xyz))
  + sum L (fun i => suml (map (fun a => f i a * pstring im (place L i [a]) s t) xyz))
  + c * pstring im (repeat LI L) s t.

(** The coefficient of a pair of letters in a dictionary. *)
Definition coef (d : dict R) (a b : letter) : R :=
  suml (map snd (filter (fun kv => key_eqb (fst kv) [chr a; chr b]) d)).

(** No key twice; only two-letter keys. *)
Definition keys_nodup (d : dict R) : Prop := NoDup (map fst d).
Definition keys_two (d : dict R) : Prop := forall k v, In (k, v) d -> exists a b, k = [chr a; chr b].

(** A matrix on k neighbouring two-level sites from place i on, the identity elsewhere. *)
Definition on_sites (k i : nat) (h : mat R) (s t : list nat) : R :=
  if nlist_eqb (firstn i s ++ skipn (i + k) s) (firstn i t ++ skipn (i + k) t)
  then me h (rowmajor 2 (firstn k (skipn i s))) (rowmajor 2 (firstn k (skipn i t))) else 0.

(** The sum of local terms, the i-th one starting at place i. *)
Definition sum_terms (k : nat) (ms : list (mat R)) (s t : list nat) : R :=
  suml (map (fun im => on_sites k (fst im) (snd im) s t) (combine (seq 0 (length ms)) ms)).

(** The matrix product of an MPO with axes (left, right, out, in) and bonds of dimension
    chi. *)
Fixpoint mpo_chain (chi : nat) (Ws : list (tens R)) (s t : list nat) (a b : nat) : R :=
  match Ws, s, t with
  | [], [], [] => dlt a b
  | W :: Ws, x :: s, y :: t => sum chi (fun k => te W [a; k; x; y] * mpo_chain chi Ws s t k b)
  | _, _, _ => 0
  end.
End Spec.

(** The documented use: couplings of two of X, Y, Z and fields of one of them. *)
Definition documented {R : sring} (d : dict R) : Prop :=
  forall k v, In (k, v) d -> (exists a, In a xyz /\ k = [chr a]) \/ (exists a b, In a xyz /\ In b xyz /\ k = [chr a; chr b]).
Definition field {R : sring} (d : dict R) (a : letter) : R :=
  suml (map snd (filter (fun kv => key_eqb (fst kv) [chr a]) d)).

(** Only XX, YY, ZZ and fields, which are the same on the left and the right site. *)
Definition heisenberg {R : sring} (d : dict R) : Prop :=
  (forall a b, In [chr a; chr b] (map fst d) -> (a = b /\ a <> LI) \/ (a = LI /\ b <> LI) \/ (a <> LI /\ b = LI)) /\
  forall a, coef d LI a = coef d a LI.
