(** Model of ed_OTOC in /repo/xmps/fTDVP.py. *)
From Coq Require Import ZArith.
From Verif Require Import Alg ModelMPS ModelDecomp ModelTensor ModelSpin ModelLie ModelExp ModelEd.

Section Model.
Context {R : sring}.
Local Open Scope sr_scope.

(** tensor.py:185-190, H, imported as cT (fTDVP.py:10), of a 2D array (fTDVP.py:448): the
    conjugate transpose. *)
Definition conj_t (A : mat R) : mat R := mkMat (mc A) (mr A) (fun i j => sconj (me A j i)).

(** numpy's v @ A for a vector and a 2D array (fTDVP.py:449). *)
Definition vecmat (v : list R) (A : mat R) : res (list R) :=
  if Nat.eqb (mr A) (length v)
  then Ok (map (fun j => sum (mr A) (fun i => nth i v 0 * me A i j)) (seq 0 (mc A))) else Err ValueError.

(** numpy's v @ w for two vectors (fTDVP.py:449). *)
Definition vecvec (v w : list R) : res R :=
  if Nat.eqb (length v) (length w) then Ok (sum (length v) (fun i => nth i v 0 * nth i w 0)) else Err ValueError.

(** fTDVP.py:446-449: one pass of the loop. *)
Definition otoc_at (C : consts R) (F : mfun R) (psi0 : list R) (H V W : mat R) (t : R) : res R :=
  do U <- expm_ F (mscal t (mscal (- c_im C) H));
  do UW <- mprod (conj_t U) W;
  do Wt <- mprod UW U;
  do K1 <- comm Wt V;
  do K2 <- comm Wt V;
  do a <- vecmat (map sconj psi0) K1;
  do b <- vecmat a K2;
  do r <- vecvec b psi0;
  Ok (- sre r).

(** fTDVP.py:434-450, ed_OTOC of a trajectory whose current state is m; dt = T[1]-T[0] (443)
    is not used afterwards. *)
Definition ed_OTOC (C : consts R) (F : mfun R) (m : fmps R) (H : hamil R) (T : list R) (V W : mat R) : res (list R) :=
  match H with
  | Terms _ => Err AssertionError
  | Whole M =>
      do psi0 <- recombine m;
      do b <- getitem T 1;
      do a <- getitem T 0;
      mapM (otoc_at C F psi0 M V W) T
  end.
End Model.
