(** Specification of the second derivatives of a state along an orthonormal frame of its
    tangent space. *)
From Verif Require Import Alg ModelMPS SpecMPS SpecOrth SpecEk SpecEnergy ModelEnergy ModelTan SpecTan SpecTdvp ModelJac.

Section Spec.
Context {R : sring}.
Local Open Scope sr_scope.

(** The tangent direction (x, y) at a site A with null vectors V: L V_s[:,x] e_y^T E for
    diagonal matrices L and E. *)
Definition tvec (A V : site R) (L E : nat -> R) (x y : nat) : site R :=
  mkSite (phys A) (dl A) (dr A) (fun s a b => L a * ent V s a x * (E y * dlt y b)).

(** The lists passed as inv_envs: up to equality of the entries the roots of the environments
    to the left of and including every site and to the right of it, and their inverses.  Both
    the default of F2 and what jac passes (roots of the diagonals) are of this kind when the
    environments are diagonal. *)
Definition inv_envs_ok (K : tanlib R) (ls rs : list (mat R)) (L : nat) (ie : invenvs) : Prop :=
  length (ie_icl ie) = L /\ length (ie_cl ie) = L /\
  forall n, (n < L)%nat -> exists e f C E cl cr icl icr,
    (nth_error ls (n + 1) = Some e /\ t_ch K e = Ok C /\ nth_error (ie_cl ie) n = Some cl /\ mat_eq cl C /\ nth_error (ie_icl ie) n = Some icl /\ is_inverse C icl) /\
    (nth_error rs (n + 1) = Some f /\ t_ch K f = Ok E /\ nth_error (ie_cr ie) n = Some cr /\ mat_eq cr E /\ nth_error (ie_icr ie) n = Some icr /\ is_inverse E icr).

(** The states F1 and F2 are used on: as for dA_dt, and of norm 1. *)
Definition jac_input (K : tanlib R) (m : fmps R) (H ls rs : list (mat R)) (ie : invenvs) : Prop :=
  tdvp_input K m H ls rs /\ overlap (fd m) (fdata m) (fdata m) = 1 /\ inv_envs_ok K ls rs (fL m) ie.

(** The direction (x, y) at site n; the inverse root to the left of site 0 is taken from the
    end of the list, where it is the root of the norm. *)
Definition no_site : site R := mkSite 0 0 0 (fun _ _ _ => 0).
Definition no_mat : mat R := mkMat 0 0 (fun _ _ => 0).
Definition frame (ie : invenvs) (l vLs : list (site R)) (n x y : nat) : site R :=
  tvec (nth n l no_site) (nth n vLs no_site)
    (fun a => me (nth (match n with O => length l - 1 | S k => k end) (ie_icl ie) no_mat) a a)
    (fun b => me (nth n (ie_icr ie) no_mat) b b) x y.
(** The sizes of the two axes of the coordinates at site n. *)
Definition frame_dim (l vLs : list (site R)) (n : nat) : nat * nat := (dr (nth n vLs no_site), dr (nth n l no_site)).
End Spec.

Section Spec2.
Context {R : sring}.
Local Open Scope sr_scope.
(** <d_X d_Y psi| H |psi> for the directions X at site i and Y at site j: the amplitudes are
    linear in the tensor at each site, so that nothing is left for i = j. *)
Definition second_elem (d : nat) (l : list (site R)) (H : list (mat R)) (i : nat) (X : site R) (j : nat) (Y : site R) : R :=
  if Nat.eqb i j then 0 else ham_elem d (with_site (with_site l i X) j Y) l H.
End Spec2.
