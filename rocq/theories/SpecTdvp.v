(** Specification of the time-dependent variational principle: states, their variations and
    matrix elements between them. *)
From Verif Require Import Alg ModelMPS SpecMPS SpecOrth SpecEk SpecEnergy ModelEnergy ModelTan SpecTan.

Section Spec.
Context {R : sring}.
Local Open Scope sr_scope.

(** The matrix element <f| O |g> of an operator on a block of sites; the dimensions of the
    sites to the left, in the block and to the right are du, db and dv. *)
Definition melem (du db dv : list nat) (f : list nat -> R) (op : list nat -> list nat -> R) (g : list nat -> R) : R :=
  sumcfg du (fun u => sumcfg db (fun b => sumcfg db (fun b' => sumcfg dv (fun v =>
    sconj (f (u ++ b ++ v)) * op b b' * g (u ++ b' ++ v))))).

(** The amplitudes of a chain with boundary bonds of dimension 1. *)
Definition state (l : list (site R)) (s : list nat) : R := amp l s 0 0.

(** <l'| sum_k h_k |l> for chains of sites of dimension d, h_k acting on the sites k, k+1. *)
Definition term_elem (d : nat) (l' l : list (site R)) (k : nat) (h : mat R) : R :=
  melem (repeat d k) [d; d] (repeat d (length l - k - 2)) (state l') (block_op d h) (state l).
Definition ham_elem (d : nat) (l' l : list (site R)) (H : list (mat R)) : R :=
  suml (map (fun kh => term_elem d l' l (fst kh) (snd kh)) (combine (seq 0 (length H)) H)).
(** <l'|l> *)
Definition overlap (d : nat) (l' l : list (site R)) : R :=
  sumcfg (repeat d (length l)) (fun s => sconj (state l' s) * state l s).

(** The chain with the tensor X at site i. *)
Definition with_site (l : list (site R)) (i : nat) (X : site R) : list (site R) := firstn i l ++ X :: skipn (i + 1) l.
(** The array of the shape of A with one entry 1. *)
Definition unit_site (A : site R) (t c b : nat) : site R :=
  mkSite (phys A) (dl A) (dr A) (fun t' c' b' => dlt t t' * dlt c c' * dlt b b').
(** The gradient of <l|H|l> with respect to the conjugate of the entry (t, c, b) of site i. *)
Definition gradient (d : nat) (l : list (site R)) (H : list (mat R)) (i : nat) (A : site R) (t c b : nat) : R :=
  ham_elem d (with_site l i (unit_site A t c b)) l H.

Definition same_shape (A B : site R) : Prop := phys B = phys A /\ dl B = dl A /\ dr B = dr A.

(** The libraries succeed on everything dA_dt passes to them for this chain: the environments
    on the left are positive and null spaces are found, those on the right are invertible. *)
Definition tdvp_ready (K : tanlib R) (l : list (site R)) (ls rs : list (mat R)) : Prop :=
  forall n A e f, nth_error l n = Some A -> nth_error ls n = Some e -> nth_error rs (n + 1) = Some f ->
    left_ready K A e /\ exists F, t_inv K f = Ok F.

(** The states dA_dt is used on: a chain in canonical form up to the normalisation, local
    dimension at least 2, a Hamiltonian of two-site terms that fit on the chain, libraries that
    succeed. *)
Definition tdvp_input (K : tanlib R) (m : fmps R) (H : list (mat R)) (ls rs : list (mat R)) : Prop :=
  wf m /\ uniform m /\ positive_dims (fdata m) /\ (2 <= fd m)%nat /\ envs_diagonal (fdata m) /\
  get_envs m = Ok (ls, rs) /\ tdvp_ready K (fdata m) ls rs /\
  (length H < fL m)%nat /\ Forall (fun h => mr h = (fd m * fd m)%nat /\ mc h = (fd m * fd m)%nat) H.

(** The time derivative of the amplitudes when the tensors change with the rates Bs. *)
Definition velocity (l Bs : list (site R)) (s : list nat) : R :=
  suml (map (fun jB => state (with_site l (fst jB) (snd jB)) s) (combine (seq 0 (length Bs)) Bs)).

(** <f| sum_k h_k |g> for functions f and g on the configurations of n sites of dimension d. *)
Definition ham_between (d n : nat) (f : list nat -> R) (H : list (mat R)) (g : list nat -> R) : R :=
  suml (map (fun kh => melem (repeat d (fst kh)) [d; d] (repeat d (n - fst kh - 2)) f (block_op d (snd kh)) g) (combine (seq 0 (length H)) H)).
Definition hermitian_op (h : mat R) : Prop := forall i j, (i < mr h)%nat -> (j < mc h)%nat -> me h j i = sconj (me h i j).
(** The true left environment of a site as a matrix. *)
Definition env_at (P : list (site R)) (A : site R) : mat R := mkMat (dl A) (dl A) (true_l P).
End Spec.
