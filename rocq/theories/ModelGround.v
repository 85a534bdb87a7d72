(** Model of /repo/xmps/iOptimize.py and of iMPS.random. *)
From Verif Require Import Alg ModelMPS ModelStruct ModelDecomp ModelTensor ModelOrth ModelCanon ModelTraj ModelImps ModelItraj.

Section Model.
Context {R : sring}.
Local Open Scope sr_scope.

(** iMPS.py:267-278, random: 5*(randn(d,D,D) + randn(d,D,D)*1j) for every site; re_ and im_ are the
    draws, im is 1j.  The attributes set by canonicalise do not exist yet. *)
Definition imps_random (im : R) (re_ im_ : nat -> nat -> nat -> nat -> R) (d D period : nat) : imps R :=
  mkI (map (fun k => mkSite d D D (fun s i j => (1 + 1 + 1 + 1 + 1) * (re_ k s i j + im_ k s i j * im))) (seq 0 period)) period d D None None None None.

(** iOptimize.py:11, 14: the increment 1j*eps*dA_dt and the energy that dA_dt leaves in the
    attribute e.  field is dA_dt together with this number. *)
Definition gs_grad (im eps : R) (field : imps R -> res (imps R * R)) (m : imps R) : res (imps R * R) :=
  do ve <- field m; do dA <- imps_mul (fst ve) (im * eps); Ok (dA, snd ve).

(** iOptimize.py:10-15: the loop; small dA is norm(dA) < tol. *)
Fixpoint gs_loop (C : icalls R) (im eps : R) (field : imps R -> res (imps R * R)) (small : imps R -> bool) (n : nat) (m : imps R) (es : list R) : res (imps R * list R) :=
  match n with
  | 0%nat => Ok (m, es)
  | S n =>
      do ge <- gs_grad im eps field m;
      if small (fst ge) then Ok (m, es)
      else
        do s <- imps_sub m (fst ge);
        do m' <- ilcan C s;
        gs_loop C im eps field small n m' (es ++ [snd ge])
  end.

(** iOptimize.py:6-16, find_ground_state; rnd is iMPS().random(2, D). *)
Definition find_ground_state (C : icalls R) (im eps : R) (field : imps R -> res (imps R * R)) (small : imps R -> bool) (rnd : imps R) (maxiters : nat) : res (imps R * list R) :=
  do m <- ilcan C rnd; gs_loop C im eps field small maxiters m [].
End Model.
