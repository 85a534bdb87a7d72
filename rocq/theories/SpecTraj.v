(** Specification notions for trajectories. *)
From Verif Require Import Alg ModelMPS SpecMPS ModelStruct SpecStruct ModelOrth ModelCanon ModelPad ModelTraj.

Section Spec.
Context {R : sring}.
Local Open Scope sr_scope.

(** Every tensor of the chain has the shape an open chain with bond limit D has. *)
Definition fits (m : fmps R) (D : nat) : Prop :=
  2 <= fL m /\ length (fdata m) = fL m /\
  forall k A, nth_error (fdata m) k = Some A ->
    phys A = fd m /\ dl A = bond (fL m) (fd m) D k /\ dr A = bond (fL m) (fd m) D (k + 1).

(** The recorded bond dimension describes the tensors. *)
Definition regular (m : fmps R) : Prop := fits m (fD m).

Definition same_tensors (a b : fmps R) : Prop := Forall2 site_eq (fdata a) (fdata b).

(** xs is an initial piece of the orbit of x0. *)
Definition iterates (step : fmps R -> res (fmps R)) (x0 : fmps R) (xs : list (fmps R)) : Prop :=
  (forall x, nth_error xs 0 = Some x -> x = x0) /\
  (forall k x y, nth_error xs k = Some x -> nth_error xs (S k) = Some y -> step x = Ok y).

(** Real and imaginary parts recombine. *)
Definition imag_ok (I : imag R) : Prop := forall x : R, sre x + im_unit I * im_part I x = x.

(** Flat view of a list of tensors: an entry is named by site, physical index
    and the two bond indices. *)
Definition place : Type := (nat * nat * nat * nat)%type.

Definition entries (l : list (site R)) (p : place) : R :=
  let '(n, s, i, j) := p in
  match nth_error l n with Some A => ent A s i j | None => 0 end.

(** p names an entry of tensors of the shapes sh. *)
Definition within (sh : list (nat * nat * nat)) (p : place) : Prop :=
  let '(n, s, i, j) := p in
  match nth_error sh n with Some (d, a, b) => s < d /\ i < a /\ j < b | None => False end.

Definition shapes (l : list (site R)) : list (nat * nat * nat) := map (fun A => (phys A, dl A, dr A)) l.

(** Equality of two collections of entries. *)
Definition agree (sh : list (nat * nat * nat)) (f g : place -> R) : Prop := forall p, within sh p -> f p = g p.

(** dA computes the vector field F on tensors of the shapes sh. *)
Definition is_field (sh : list (nat * nat * nat)) (F : (place -> R) -> place -> R)
    (dA : fmps R -> res (fmps R)) : Prop :=
  (forall f g, agree sh f g -> agree sh (F f) (F g)) /\
  (forall m, shapes (fdata m) = sh -> exists v, dA m = Ok v /\ shapes (fdata v) = sh /\
     agree sh (entries (fdata v)) (F (entries (fdata m)))).

Definition linear (sh : list (nat * nat * nat)) (F : (place -> R) -> place -> R) : Prop :=
  (forall f g, agree sh (F (fun p => f p + g p)) (fun p => F f p + F g p)) /\
  (forall c f, agree sh (F (fun p => c * f p)) (fun p => c * F f p)).

(** The classical fourth-order Runge-Kutta point for the field F from x. *)
Definition classical_rk4 (half sixth dt : R) (F : (place -> R) -> place -> R) (x : place -> R) : place -> R :=
  let k1 := F x in
  let k2 := F (fun p => x p + half * dt * k1 p) in
  let k3 := F (fun p => x p + half * dt * k2 p) in
  let k4 := F (fun p => x p + dt * k3 p) in
  fun p => x p + sixth * dt * (k1 p + (1 + 1) * k2 p + (1 + 1) * k3 p + k4 p).

(** States reached from tr by integrating (with any preparation and step), expanding and
    contracting. *)
Inductive later (O : lapack2 R) (I : imag R) : traj R -> traj R -> Prop :=
| later_refl tr : later O I tr tr
| later_int start step T tr tr1 tr2 : later O I tr tr1 -> integrate start I step tr1 T = Ok tr2 -> later O I tr tr2
| later_expand D tr tr1 tr2 : later O I tr tr1 -> traj_expand O tr1 D = Ok tr2 -> later O I tr tr2
| later_contract D tr tr1 tr2 : later O I tr tr1 -> traj_contract O tr1 D = Ok tr2 -> later O I tr tr2.

(** Runs, together with the list of the states that were stored, in which every
    stored state has the bond dimensions it claims to have, the steps of one
    integrator call keep the shapes, and expand and contract reach the
    dimension asked for. *)
Inductive run (O : lapack2 R) (I : imag R) : traj R -> list (fmps R) -> Prop :=
| run_init m tr : traj_init m = Ok tr -> regular (tmps tr) -> run O I tr []
| run_int start step T tr xs tr' ys : run O I tr xs ->
    integrate start I step tr T = Ok tr' -> T <> [] ->
    length ys = length T ->
    (exists x0, start (tmps tr) = Ok x0 /\ iterates (step (nth 1 T 0 - nth 0 T 0)) x0 ys) ->
    Forall (fun y => regular y /\ fL y = fL (tmps tr) /\ fd y = fd (tmps tr) /\
                     map shape_of (fdata y) = map shape_of (fdata (tmps tr))) ys ->
    run O I tr' (xs ++ ys)
| run_expand D tr xs tr' : run O I tr xs -> traj_expand O tr D = Ok tr' -> fits (tmps tr') D -> run O I tr' xs
| run_contract D tr xs tr' : run O I tr xs -> traj_contract O tr D = Ok tr' -> fits (tmps tr') D -> run O I tr' xs.

End Spec.
