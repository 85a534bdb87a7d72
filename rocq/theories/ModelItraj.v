(** Model of Trajectory in /repo/xmps/iTDVP.py and of iMPS.overlap.  The vector field dA_dt
    is a parameter (it also sets self.e and self.vL, which are not attributes here). *)
From Verif Require Import Alg ModelMPS ModelStruct ModelDecomp ModelTensor ModelOrth ModelCanon ModelTraj ModelImps.

Section Model.
Context {R : sring}.
Local Open Scope sr_scope.

(** iTDVP.py:41-56: the attributes mps, mps_0, Ds and mps_history (H and run_name do not
    change). *)
Record itraj : Type := mkItraj
  { it_mps : imps R; it_mps0 : imps R; it_Ds : list nat; it_hist : list (list R) }.

(** iTDVP.py:41-56, __init__ with a state. *)
Definition itraj_init (m : imps R) : res itraj :=
  do a <- imps_copy m;
  do b <- imps_copy m;
  Ok (mkItraj b a [i_D b] []).

(** iMPS.py:391-392, left_canonicalise: the changed object. *)
Definition ilcan (C : icalls R) (m : imps R) : res (imps R) :=
  do r <- canonicalise C m hand_l None None false; Ok (fst r).

(** iTDVP.py:60-62 = 67-69: the part of a step under "if store". *)
Definition irecord (I : imag R) (tr : itraj) (m : imps R) : res itraj :=
  do v <- imps_serialize_real I m;
  Ok (mkItraj (it_mps tr) (it_mps0 tr) (it_Ds tr ++ [i_D m]) (it_hist tr ++ [v])).

(** iTDVP.py:63, the value of euler. *)
Definition ieuler_step (C : icalls R) (dA : imps R -> res (imps R)) (dt : R) (m : imps R) : res (imps R) :=
  do v <- dA m;
  do v <- imps_mul v dt;
  do s <- imps_add m v;
  ilcan C s.

(** iTDVP.py:70-75, the value of rk4: k3 carries a factor dt that k1, k2 and k4 do not. *)
Definition irk4_step (C : icalls R) (dA : imps R -> res (imps R)) (dt : R) (m : imps R) : res (imps R) :=
  do k1 <- dA m;
  do k2 <- (do h <- imps_div C k1 (1 + 1); do h <- imps_mul h dt; do p <- imps_add m h; dA p);
  do k3 <- (do h <- imps_div C k2 (1 + 1); do h <- imps_mul h dt; do p <- imps_add m h; do v <- dA p; imps_mul v dt);
  do k4 <- (do h <- imps_mul k3 dt; do p <- imps_add m h; dA p);
  do t2 <- imps_mul k2 (1 + 1);
  do t3 <- imps_mul k3 (1 + 1);
  do s <- imps_add k1 t2;
  do s <- imps_add s t3;
  do s <- imps_add s k4;
  do s <- imps_mul s dt;
  do s <- imps_div C s (1 + 1 + (1 + 1) + (1 + 1));
  do s <- imps_add m s;
  ilcan C s.

(** iTDVP.py:85-86 = 97-98, the loop. *)
Fixpoint iint_loop (I : imag R) (step : R -> imps R -> res (imps R)) (T ts : list R)
    (tr : itraj) (m : imps R) : res (itraj * imps R) :=
  match ts with
  | [] => Ok (tr, m)
  | _ :: ts =>
      do a <- getitem T 1;
      do b <- getitem T 0;
      do tr <- irecord I tr m;
      do m <- step (a - b) m;
      iint_loop I step T ts tr m
  end.

(** iMPS(), before deserialize (iTDVP.py:88, 100, 106, 108): no attributes yet. *)
Definition blank : imps R := mkI [] 0 0 0 None None None None.

(** iTDVP.py:82-89 = 94-101: the common body of eulerint and rk4int.  An exception leaves
    the object half updated; the model only says which exception. *)
Definition iintegrate (C : icalls R) (I : imag R) (step : R -> imps R -> res (imps R)) (tr : itraj) (T : list R) : res itraj :=
  do m <- ilcan C (it_mps tr);
  do r <- iint_loop I step T T (mkItraj m (it_mps0 tr) (it_Ds tr) (it_hist tr)) m;
  let tr := fst r in
  do v <- last_item (it_hist tr);
  do m' <- imps_deserialize_real I blank v (i_d m) (i_D m) 1;
  Ok (mkItraj m' (it_mps0 tr) (it_Ds tr) (it_hist tr)).

(** iTDVP.py:77-89, eulerint. *)
Definition ieulerint (C : icalls R) (I : imag R) (dA : imps R -> res (imps R)) := iintegrate C I (ieuler_step C dA).
(** iTDVP.py:91-101, rk4int. *)
Definition irk4int (C : icalls R) (I : imag R) (dA : imps R -> res (imps R)) := iintegrate C I (irk4_step C dA).

(** iMPS.py:408-410, overlap: both states are left canonicalised in place; the value and the
    second state.  nabs is numpy's abs. *)
Definition imps_overlap (C : icalls R) (nabs : R -> R) (a b : imps R) : res (R * imps R) :=
  do a' <- ilcan C a;
  do A <- imps_get a' 0;
  do b' <- ilcan C b;
  do B <- imps_get b' 0;
  do el <- left_fixed_point C A B None;
  Ok (nabs (fst el) * nabs (fst el), b').

(** iTDVP.py:108-109, the loop of loschmidts: mps_0 is canonicalised again in every pass. *)
Fixpoint losch_loop (C : icalls R) (I : imag R) (nabs nlog : R -> R) (d : nat) (l : list (nat * list R)) (m0 : imps R) : res (list R) :=
  match l with
  | [] => Ok []
  | (D, x) :: l =>
      do m <- imps_deserialize_real I blank x d D 1;
      do vm <- imps_overlap C nabs m m0;
      do vs <- losch_loop C I nabs nlog d l (snd vm);
      Ok (- nlog (nabs (fst vm)) :: vs)
  end.

(** iTDVP.py:103-110, loschmidts. *)
Definition iloschmidts (C : icalls R) (I : imag R) (nabs nlog : R -> R) (tr : itraj) : res (list R) :=
  match it_hist tr with
  | [] => Err AssertionError
  | x0 :: _ =>
      do m0 <- imps_deserialize_real I blank x0 (i_d (it_mps tr)) (i_D (it_mps tr)) 1;
      losch_loop C I nabs nlog (i_d (it_mps tr)) (pyzip (it_Ds tr) (it_hist tr)) m0
  end.
End Model.
Arguments itraj : clear implicits.
