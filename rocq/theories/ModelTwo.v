(** Model of the two-site functions of /repo/xmps/fMPS.py: grouping, splitting,
    and gates on two sites. *)
From Verif Require Import Alg ModelMPS ModelOrth ModelCanon.

(** fMPS.py:100-102: the loop over i = n, n-1, ..., 1 of factors. *)
Fixpoint factors_loop (n i : nat) : res (nat * nat) :=
  match i with
  | O => Err Exception_
  | S i' => if Nat.eqb (n mod i) 0 then Ok (i, n / i)%nat else factors_loop n i'
  end.

(** fMPS.py:98-103 (and fPEPS.py:18-24), factors.  int(n**0.5) is the exact
    integer square root here. *)
Definition factors (n : nat) : res (nat * nat) := factors_loop n (Nat.sqrt n + 1).

Section Model.
Context {R : sring}.
Local Open Scope sr_scope.

(** fMPS.py:95-96, group_tensors: ncon(tensors, [[-1,-3,1],[-2,1,-4]]) with the
    two physical legs merged row-major. *)
Definition group_tensors (A B : site R) : res (site R) :=
  if Nat.eqb (dr A) (dl B)
  then Ok (mkSite (phys A * phys B)%nat (dl A) (dr B) (fun s i j =>
        sum (dr A) (fun k => ent A (s / phys B)%nat i k * ent B (s mod phys B)%nat k j)))
  else Err ValueError.

(** tensordot(U, T, [1, 0]) (fMPS.py:86, 88, 90): as td in apply. *)
Definition gate_site (U : mat R) (T : site R) : res (site R) := op_site U T.

(** fMPS.py:109-111, 129-131, 138-140:
    tensor.reshape(d1, d2, Dl, Dr).transpose([0, 2, 1, 3]).reshape(d1*Dl, d2*Dr). *)
Definition pair_mat (d1 d2 : nat) (T : site R) : mat R :=
  mkMat (d1 * dl T)%nat (d2 * dr T)%nat (fun r c =>
    ent T (r / dl T * d2 + c / dr T)%nat (r mod dl T)%nat (c mod dr T)%nat).

(** fMPS.py:125-133, separate_tensor_qr.  A.reshape(d1, Dl, k) and
    B.reshape(k, d2, Dr).transpose([1, 0, 2]) are [lungroup], [rungroup]. *)
Definition separate_tensor_qr (O : lapack R) (T : site R) : res (site R * site R) :=
  do f <- factors (phys T);
  match la_qr O (pair_mat (fst f) (snd f) T) with
  | None => Err LinAlgError
  | Some (A, B) => Ok (lungroup (fst f) (dl T) A, rungroup (snd f) (dr T) B)
  end.

(** fMPS.py:135-142, separate_tensor_rq. *)
Definition separate_tensor_rq (O : lapack R) (T : site R) : res (site R * site R) :=
  do f <- factors (phys T);
  match la_rq O (pair_mat (fst f) (snd f) T) with
  | None => Err LinAlgError
  | Some (A, B) => Ok (lungroup (fst f) (dl T) A, rungroup (snd f) (dr T) B)
  end.

(** A list of k numbers as an array, for norm(s[:D]) (fMPS.py:116, 120). *)
Definition vec_site (k : nat) (Sv : nat -> R) : site R := mkSite 1 1 k (fun _ _ j => Sv j).

(** c*M on a matrix (fMPS.py:116: division by the norm). *)
Definition mscale (c : R) (M : mat R) : mat R := mkMat (mr M) (mc M) (fun i j => c * me M i j).

(** fMPS.py:105-123, separate_tensor_svd; [which] is 'l' (true) or 'r' (false).
    The case norm(s[:D]) = 0 (division by zero, nan) is reported as
    [Exception_]. *)
Definition separate_tensor_svd (O : lapack2 R) (P : lapack R) (T : site R) (D : option nat)
    (which : bool) : res (site R * site R) :=
  do f <- factors (phys T);
  let M := pair_mat (fst f) (snd f) T in
  match la_svd O M with
  | None => Err LinAlgError
  | Some (u, s, v) =>
      let k := Nat.min (mr M) (mc M) in
      let D := match D with None => k | Some D => D end in
      match la_nrm P (vec_site (Nat.min D k) s) with
      | None => Err Exception_
      | Some (n, ninv) =>
          if which
          then do sv <- mdot (mrows D (mdiag k s)) v;
               Ok (lungroup (fst f) (dl T) (mcols D u), rungroup (snd f) (dr T) (mscale ninv sv))
          else do us <- mdot u (mcols D (mdiag k s));
               Ok (lungroup (fst f) (dl T) (mscale ninv us), rungroup (snd f) (dr T) (mrows D v))
      end
  end.

(** fMPS.py:83-90, apply_unitary ([which] as above). *)
Definition apply_unitary (O : lapack2 R) (P : lapack R) (A B : site R) (U : mat R)
    (which : bool) (D : option nat) : res (site R * site R) :=
  do G <- group_tensors A B;
  do T <- gate_site U G;
  match D with
  | None => if which then separate_tensor_qr P T else separate_tensor_rq P T
  | Some _ => separate_tensor_svd O P T D which
  end.

(** fMPS.py:59-62, SWAP. *)
Definition SWAP : mat R :=
  mkMat 4 4 (fun i j => if Nat.eqb (2 * (i mod 2) + i / 2) j then 1 else 0).

(** fMPS.py:885, 888, 891: self[i], self[i+1] = apply_unitary([self[i], self[i+1]], ...). *)
Definition gate_at (O : lapack2 R) (P : lapack R) (U : mat R) (which : bool) (D : option nat)
    (i : nat) (data : list (site R)) : res (list (site R)) :=
  do A <- getitem data i;
  do B <- getitem data (i + 1);
  do AB <- apply_unitary O P A B U which D;
  do data <- setitem data i (fst AB);
  setitem data (i + 1) (snd AB).

(** The while loops of fMPS.py:884-887 and 889-892: gates at the listed sites. *)
Fixpoint gates_at (O : lapack2 R) (P : lapack R) (U : mat R) (which : bool) (D : option nat)
    (is_ : list nat) (data : list (site R)) : res (list (site R)) :=
  match is_ with
  | [] => Ok data
  | i :: is_ => do data <- gate_at O P U which D i data; gates_at O P U which D is_ data
  end.

(** fMPS.py:865-895, apply_two_site.  A 2x2 operator is applied as a one-site
    operator (a fresh object) when one site is given; with two sites the local
    names i, j are read before assignment. *)
Definition apply_two_site (O : lapack2 R) (P : lapack R) (m : fmps R) (op : mat R)
    (sites : list nat) (which : bool) (D : option nat) (truncate_swaps : bool) : res (fmps R) :=
  let swap_D := if truncate_swaps then D else None in
  if negb (Nat.eqb (mr op) (mc op)) then Err AssertionError
  else if Nat.eqb (mr op) 2
  then match sites with
       | [k] => mps_apply m op k
       | _ => Err UnboundLocalError
       end
  else match sites with
       | [a; b] =>
           let '(i, j) := if Nat.ltb a b then (a, b) else (b, a) in
           do data <- gates_at O P SWAP which swap_D (rev (seq (i + 1) (j - 1 - i))) (fdata m);
           do data <- gate_at O P op which D i data;
           do data <- gates_at O P SWAP which swap_D (seq (i + 1) (j - 1 - i)) data;
           Ok (with_data m data)
       | _ => Err ValueError
       end.

End Model.
