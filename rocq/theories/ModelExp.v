(** Model of /repo/xmps/spin.py, third part: unitaries from Lie algebra vectors. *)
From Coq Require Import ZArith.
From Verif Require Import Alg ModelMPS ModelNcon ModelEk ModelTensor ModelDecomp ModelSpin ModelLie.

(** The matrix functions of scipy and numpy used here: expm (spin.py:6, 512-595), logm
    (spin.py:610), u -> exp(-1j*angle(u)) (spin.py:604) and N -> 1/N (spin.py:611). *)
Record mfun (R : sring) : Type := mkMfun {
  f_exp : mat R -> option (mat R);
  f_log : mat R -> option (mat R);
  f_ph : R -> R;
  f_inv : nat -> R
}.
Arguments mkMfun {R}. Arguments f_exp {R}. Arguments f_log {R}. Arguments f_ph {R}. Arguments f_inv {R}.

Section Model.
Context {R : sring}.
Local Open Scope sr_scope.
Variable C : consts R.
Variable F : mfun R.

Definition expm_ (A : mat R) : res (mat R) := match f_exp F A with Some X => Ok X | None => Err ValueError end.
Definition logm_ (A : mat R) : res (mat R) := match f_log F A with Some X => Ok X | None => Err ValueError end.

(** expm(-1j*tensordot(v, l, [0, 0])) for a list l of N x N matrices. *)
Definition exp_comb (N : nat) (v : list R) (l : list (mat R)) : res (mat R) :=
  do Q <- lincomb N v l; expm_ (mscal (- c_im C) Q).

(** spin.py:509-517: locals is a function, and subscripting it raises TypeError. *)
Definition U1 (v : list R) : res (mat R) := Err TypeError.
Definition U2 (v : list R) : res (mat R) := Err TypeError.
(** spin.py:519-523 and 525-528. *)
Definition U4 (r3 r6 : R) (v : list R) : res (mat R) := exp_comb 4 v (lambdas C r3 r6).
Definition U4s (v : list R) : res (mat R) := exp_comb 4 v (slambdas C).
(** spin.py:554-560. *)
Definition SU4 (scale : nat -> R) (v : list R) : res (mat R) := exp_comb 4 v (su C scale 4).
Definition SU8 (scale : nat -> R) (v : list R) : res (mat R) := exp_comb 8 v (su C scale 8).

(** spin.py:589-594, SU(v, N, rep): an unknown rep leaves Q unbound. *)
Inductive rep_ := Adj | TwoN | OtherRep.
Definition SU (scale : nat -> R) (v : list R) (N : nat) (rep : rep_) : res (mat R) :=
  match rep with
  | Adj => exp_comb N v (su C scale N)
  | TwoN => do w <- insu2N C scale v Mid; exp_comb (2 * N) w (su C scale (2 * N))
  | OtherRep => Err UnboundLocalError
  end.

(** spin.py:603-606, equal_up_to_phase; an empty first row or column raises IndexError. *)
Definition equal_up_to_phase (close : mat R -> mat R -> bool) (U V : mat R) : res bool :=
  if Nat.eqb (mr U * mc U) 0 || Nat.eqb (mr V * mc V) 0 then Err IndexError else
  Ok (close (mscal (f_ph F (me U 0%nat 0%nat)) U) (mscal (f_ph F (me V 0%nat 0%nat)) V)).

(** spin.py:608-612, extractv; Q -= ... needs a square Q. *)
Definition extractv (scale : nat -> R) (U : mat R) : res (list R) :=
  let N := mr U in
  do A <- logm_ U;
  let Q := mscal (c_im C) A in
  do Q' <- msub Q (mkMat N N (fun a b => mtr_ Q * dlt a b * f_inv F N));
  components C scale Q'.

(** spin.py:614-618, to_new_v. *)
Definition to_new_v (scale : nat -> R) (v : list R) : res (list R) :=
  let N := Nat.sqrt (length v + 1) in
  do U <- SU scale v N Adj; extractv scale U.
End Model.
