(** Model of the bookkeeping of Trajectory in /repo/xmps/fTDVP.py, of the two
    Runge-Kutta steps (fTDVP.py and iTDVP.py) and of the Lyapunov averages.
    The tangent-space vector field dA_dt is an oracle; the number arithmetic of
    the averages uses an oracle for division by a whole number. *)
From Verif Require Import Alg ModelMPS ModelStruct ModelOrth ModelCanon ModelPad.

Section Model.
Context {R : sring}.
Local Open Scope sr_scope.

(** fTDVP.py:49-67: the attributes mps, mps_0, Ds and mps_history (H, W, fullH,
    run_name and continuous do not change; ed_history is not modelled). *)
Record traj : Type := mkTraj
  { tmps : fmps R; tmps0 : fmps R; tDs : list nat; thist : list (list R) }.

(** fMPS.py:913-914, copy. *)
Definition mps_copy (m : fmps R) : res (fmps R) := fMPS_init (fdata m) None None.

(** fTDVP.py:49-67, Trajectory.__init__ with a state. *)
Definition traj_init (m : fmps R) : res traj :=
  do a <- mps_copy m;
  do b <- mps_copy m;
  Ok (mkTraj b a [fD b] []).

(** fTDVP.py:71-73 = 78-80 = 90-92 = 101-103: the part of a step under "if store". *)
Definition record_state (I : imag R) (tr : traj) (m : fmps R) : res traj :=
  do v <- serialize_real I m;
  Ok (mkTraj (tmps tr) (tmps0 tr) (tDs tr ++ [fD m]) (thist tr ++ [v])).

(** x.left_canonicalise(D), used for its value (fTDVP.py:74, 86, 122, 134, 182). *)
Definition lcan (O : lapack2 R) (m : fmps R) (D : option nat) : res (fmps R) :=
  do r <- left_canonicalise O m D true true; Ok (fst r).

(** fTDVP.py:74, the value of euler; dA is mps.dA_dt(H, fullH=..). *)
Definition euler_step (O : lapack2 R) (dA : fmps R -> res (fmps R)) (dt : R) (m : fmps R) : res (fmps R) :=
  do v <- dA m;
  do v <- itemwise_mul v dt;
  do s <- itemwise_add m v;
  lcan O s (Some (fD m)).

(** fTDVP.py:81-86 without the canonicalisation: mps+(k1+2*k2+2*k3+k4)/6;
    half and sixth are the floats 1/2 and 1/6 of __truediv__ (fMPS.py:268-275). *)
Definition rk4_point (half sixth : R) (dA : fmps R -> res (fmps R)) (dt : R) (m : fmps R) : res (fmps R) :=
  do k1 <- (do v <- dA m; itemwise_mul v dt);
  do k2 <- (do h <- itemwise_mul k1 half; do p <- itemwise_add m h; do v <- dA p; itemwise_mul v dt);
  do k3 <- (do h <- itemwise_mul k2 half; do p <- itemwise_add m h; do v <- dA p; itemwise_mul v dt);
  do k4 <- (do p <- itemwise_add m k3; do v <- dA p; itemwise_mul v dt);
  do t2 <- itemwise_mul k2 (1 + 1);
  do t3 <- itemwise_mul k3 (1 + 1);
  do s <- itemwise_add k1 t2;
  do s <- itemwise_add s t3;
  do s <- itemwise_add s k4;
  do s <- itemwise_mul s sixth;
  itemwise_add m s.

(** fTDVP.py:86, the value of rk4. *)
Definition rk4_step (O : lapack2 R) (half sixth : R) (dA : fmps R -> res (fmps R)) (dt : R) (m : fmps R)
  : res (fmps R) :=
  do s <- rk4_point half sixth dA dt m; lcan O s None.

(** fTDVP.py:125-126 and 137-138, the loop: at every time point the state is
    recorded and then advanced by T[1]-T[0]. *)
Fixpoint int_loop (I : imag R) (step : R -> fmps R -> res (fmps R)) (T : list R) (ts : list R)
    (tr : traj) (m : fmps R) : res (traj * fmps R) :=
  match ts with
  | [] => Ok (tr, m)
  | _ :: ts =>
      do a <- getitem T 1;
      do b <- getitem T 0;
      do tr <- record_state I tr m;
      do m <- step (a - b) m;
      int_loop I step T ts tr m
  end.

(** fTDVP.py:122-129 = 134-141 = 152-166: the common body of the integrators;
    start is what is done to self.mps first.  The last computed state is not
    kept.  An exception leaves the object half updated; the model only says
    which exception. *)
Definition integrate (start : fmps R -> res (fmps R)) (I : imag R) (step : R -> fmps R -> res (fmps R))
    (tr : traj) (T : list R) : res traj :=
  do m <- start (tmps tr);
  do r <- int_loop I step T T (mkTraj m (tmps0 tr) (tDs tr) (thist tr)) m;
  let tr := fst r in
  do v <- last_item (thist tr);
  do st <- structure_LdD (fL m) (fd m) (fD m);
  do m' <- deserialize_real I v st;
  Ok (mkTraj m' (tmps0 tr) (tDs tr) (thist tr)).

(** fTDVP.py:117-129, eulerint. *)
Definition eulerint (O : lapack2 R) (I : imag R) (dA : fmps R -> res (fmps R)) :=
  integrate (fun m => lcan O m None) I (euler_step O dA).

(** fTDVP.py:131-141, rk4int. *)
Definition rk4int (O : lapack2 R) (I : imag R) (half sixth : R) (dA : fmps R -> res (fmps R)) :=
  integrate (fun m => lcan O m None) I (rk4_step O half sixth dA).

(** fTDVP.py:143-166, invfreeint with an MPO given; tdvp is the value of invfree
    or invfree4 (fTDVP.py:94-96, 104-115), an oracle. *)
Definition invfreeint (I : imag R) (tdvp : R -> fmps R -> res (fmps R)) :=
  integrate (fun m => Ok m) I tdvp.

(** self.Ds[-1] = D (fTDVP.py:170, 178, 183). *)
Definition set_last (l : list nat) (D : nat) : res (list nat) :=
  match rev l with [] => Err IndexError | _ :: r => Ok (rev r ++ [D]) end.

(** fTDVP.py:168-171, expand. *)
Definition traj_expand (O : lapack2 R) (tr : traj) (D : nat) : res traj :=
  do m <- expand O (tmps tr) D;
  do Ds <- set_last (tDs tr) D;
  Ok (mkTraj m (tmps0 tr) Ds (thist tr)).

(** fTDVP.py:181-184, contract. *)
Definition traj_contract (O : lapack2 R) (tr : traj) (D : nat) : res traj :=
  do m <- lcan O (tmps tr) (Some D);
  do Ds <- set_last (tDs tr) D;
  Ok (mkTraj m (tmps0 tr) Ds (thist tr)).

(** fTDVP.py:575-579, clear (the attribute lys is not part of the model). *)
Definition traj_clear (tr : traj) : res traj :=
  do m <- mps_copy (tmps0 tr);
  Ok (mkTraj m (tmps0 tr) (tDs tr) []).

(** fTDVP.py:493-495, mps_list without an ed_history. *)
Definition mps_list (I : imag R) (tr : traj) : res (list (fmps R)) :=
  match thist tr with
  | [] => Err AssertionError
  | _ => mapM (fun p => do st <- structure_LdD (fL (tmps tr)) (fd (tmps tr)) (fst p);
                        deserialize_real I (snd p) st) (combine (tDs tr) (thist tr))
  end.

(** iMPS.py:213-219, 229-236, itemwise addition and scaling of unit cells. *)
Definition cell_add (a b : list (site R)) : res (list (site R)) :=
  mapM (fun ab => site_zip sadd (fst ab) (snd ab)) (pyzip a b).
Definition cell_mul (a : list (site R)) (c : R) : list (site R) := map (site_scale c) a.

(** iTDVP.py:70-75 without the canonicalisation; k3 carries a factor dt that
    k1, k2 and k4 do not. *)
Definition irk4_point (half sixth : R) (dA : list (site R) -> res (list (site R))) (dt : R)
    (m : list (site R)) : res (list (site R)) :=
  do k1 <- dA m;
  do k2 <- (do p <- cell_add m (cell_mul (cell_mul k1 half) dt); dA p);
  do k3 <- (do p <- cell_add m (cell_mul (cell_mul k2 half) dt); do v <- dA p; Ok (cell_mul v dt));
  do k4 <- (do p <- cell_add m (cell_mul k3 dt); dA p);
  do s <- cell_add k1 (cell_mul k2 (1 + 1));
  do s <- cell_add s (cell_mul k3 (1 + 1));
  do s <- cell_add s k4;
  cell_add m (cell_mul (cell_mul s dt) sixth).

(** numpy addition of 1-d arrays with broadcasting of length 1 (fTDVP.py:352, 358). *)
Definition vadd (u v : list R) : res (list R) :=
  match u, v with
  | [a], _ => Ok (map (sadd a) v)
  | _, [b] => Ok (map (fun x => x + b) u)
  | _, _ => if Nat.eqb (length u) (length v)
            then Ok (map (fun p => fst p + snd p) (combine u v)) else Err ValueError
  end.

(** exps[-1]*n (fTDVP.py:352). *)
Definition vscale (c : R) (u : list R) : list R := map (fun x => x * c) u.

(** fTDVP.py:352, exps.append((exps[-1]*n+lys[-1])/(n+1)); div n is 1/(n+1). *)
Definition mean_step (div : nat -> R) (n : nat) (last ly : list R) : res (list R) :=
  do s <- vadd (vscale (sofnat n) last) ly; Ok (vscale (div n) s).

(** fTDVP.py:342-359, the loop of lyapunov as far as lys, exps, lys_ and exps_
    are concerned; the input lists log|diag R| and log|diag R_| of the steps
    that were made (a break shortens it). *)
Fixpoint lyap_loop (half : R) (div : nat -> R) (n : nat) (rs : list (list R * list R))
    (lys exps lys_ exps_ : list (list R)) : res (list (list R) * list (list R) * (list (list R) * list (list R))) :=
  match rs with
  | [] => Ok (lys, exps, (lys_, exps_))
  | (r, r_) :: rs =>
      do e <- last_item exps;
      do e' <- mean_step div n e r;
      do l_ <- vadd r r_;
      let l_ := vscale half l_ in
      do e_ <- last_item exps_;
      do e_' <- mean_step div n e_ l_;
      lyap_loop half div (S n) rs (lys ++ [r]) (exps ++ [e']) (lys_ ++ [l_]) (exps_ ++ [e_'])
  end.

(** fTDVP.py:327-331: the initial lists. *)
Definition lyapunov (half : R) (div : nat -> R) (rs : list (list R * list R)) :=
  lyap_loop half div 0 rs [] [[0]] [] [[0]].

End Model.
Arguments traj : clear implicits.
