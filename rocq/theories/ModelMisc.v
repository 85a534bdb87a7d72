(** Models of small pieces of control code: the memo tables of F1, F2 and
    christoffel (/repo/xmps/fMPS.py), the directory names of Trajectory.stop
    (/repo/xmps/fTDVP.py) and the driver choice of svd (/repo/xmps/svd_robust.py). *)
From Coq Require Import Ascii.
From Verif Require Import Alg ModelMPS ModelStruct.

(** str(n) for a natural number (fMPS.py:1380, fTDVP.py:612), as a list of characters. *)
Definition digit (n : nat) : ascii := ascii_of_nat (48 + n).
Fixpoint dec (fuel n : nat) (acc : list ascii) : list ascii :=
  match fuel with
  | O => acc
  | S fuel => let acc := digit (n mod 10) :: acc in
              if Nat.eqb (n / 10) 0 then acc else dec fuel (n / 10) acc
  end.
Definition str (n : nat) : list ascii := dec (S n) n [].

(** == on strings. *)
Fixpoint str_eqb (a b : list ascii) : bool :=
  match a, b with
  | [], [] => true
  | x :: a, y :: b => Ascii.eqb x y && str_eqb a b
  | _, _ => false
  end.

(** A dictionary with string keys; the most recent entry for a key counts
    (fMPS.py:1376, 1627). *)
Definition dict (V : Type) : Type := list (list ascii * V).
Fixpoint dict_get {V} (d : dict V) (k : list ascii) : option V :=
  match d with
  | [] => None
  | (k', v) :: d => if str_eqb k k' then Some v else dict_get d k
  end.

Section Memo.
(** The stored tensors and the operation applied to a block found under the
    exchanged key: c(tra(., [2,3,0,1])) in F1, tra(., [2,3,0,1]) in F2. *)
Context {V : Type}.

(** The memo attributes: the id of the last call and the table. *)
Record memo : Type := mkMemo { mid_ : nat; mtab : dict V }.

(** fMPS.py:1364-1386 and 1627-1628 (F1), 1630-1650 and 1791-1792 (F2), not
    testing: block i j is the tensor computed by the part in between.  Ids are
    numbers here. *)
Definition F_call (flip : V -> V) (block : nat -> nat -> V) (id : nat) (M : memo) (i j : nat) : V * memo :=
  if negb (Nat.eqb (mid_ M) id)
  then (block i j, mkMemo id [(str i ++ str j, block i j)])
  else match dict_get (mtab M) (str i ++ str j) with
       | Some v => (v, M)
       | None =>
           match dict_get (mtab M) (str j ++ str i) with
           | Some v => (flip v, M)
           | None => (block i j, mkMemo id ((str i ++ str j, block i j) :: mtab M))
           end
       end.

(** A sequence of calls with one id, as made by jac (fMPS.py:1334-1340). *)
Fixpoint F_calls (flip : V -> V) (block : nat -> nat -> V) (id : nat) (M : memo) (ps : list (nat * nat)) : list V :=
  match ps with
  | [] => []
  | (i, j) :: ps =>
      let r := F_call flip block id M i j in
      fst r :: F_calls flip block id (snd r) ps
  end.

(** Calls with changing ids (id = None stands for a new one, fMPS.py:1369, 1633);
    block id i j is the tensor that a call with that id computes. *)
Fixpoint F_seq (flip : V -> V) (block : nat -> nat -> nat -> V) (M : memo) (ps : list (nat * (nat * nat))) : list V :=
  match ps with
  | [] => []
  | (id, (i, j)) :: ps =>
      let r := F_call flip (block id) id M i j in
      fst r :: F_seq flip block (snd r) ps
  end.

(** fMPS.py:1794-1814 and 1892-1896, christoffel with the first two arguments
    open and the third closed (contracted = True): the table holds gamma i j k
    but the value returned is ungauge i j of it.  flip is tra(., [3,4,5,0,1,2]). *)
Definition christoffel_call (flip : V -> V) (ungauge : nat -> nat -> V -> V) (gamma : nat -> nat -> nat -> V)
    (id : nat) (M : memo) (i j k : nat) : V * memo :=
  let key a b c := str a ++ str b ++ str c in
  if negb (Nat.eqb (mid_ M) id)
  then (ungauge i j (gamma i j k), mkMemo id [(key i j k, gamma i j k)])
  else match dict_get (mtab M) (key i j k) with
       | Some v => (v, M)
       | None =>
           match dict_get (mtab M) (key j i k) with
           | Some v => (flip v, M)
           | None => (ungauge i j (gamma i j k), mkMemo id ((key i j k, gamma i j k) :: mtab M))
           end
       end.

End Memo.
Arguments memo : clear implicits.

(** x[:-n] on a string (fTDVP.py:607). *)
Definition drop_last (n : nat) (x : list ascii) : list ascii := firstn (length x - n) x.

(** int(c) for one ASCII character (fTDVP.py:611). *)
Definition int_char (c : ascii) : res nat :=
  let n := nat_of_ascii c in
  if Nat.leb 48 n && Nat.leb n 57 then Ok (n - 48) else Err ValueError.

(** x.startswith(p): the names matched by glob.glob(p + '*') (fTDVP.py:607, 611)
    when p has no special characters. *)
Fixpoint starts (p x : list ascii) : bool :=
  match p, x with
  | [], _ => true
  | a :: p, b :: x => Ascii.eqb a b && starts p x
  | _ :: _, [] => false
  end.

(** os.makedirs: FileExistsError if the path exists (fTDVP.py:609, 613). *)
Definition makedirs (fs : list (list ascii)) (x : list ascii) : res (list (list ascii)) :=
  if existsb (str_eqb x) fs then Err FileExistsError else Ok (fs ++ [x]).

(** fTDVP.py:606-613 and 636, stop: the directory that is made; fs lists the
    existing paths, run_dir is os.path.join(loc, run_name).  The files written
    into the new directory (616-635) are not modelled. *)
Definition stop_dir (fs : list (list ascii)) (run_dir : list ascii) : res (list ascii * list (list ascii)) :=
  let pat := run_dir ++ ["_"%char] in
  let found := filter (starts pat) fs in
  if negb (existsb (str_eqb run_dir) (map (drop_last 2) found))
  then let dir := run_dir ++ ["_"%char; "1"%char] in
       do fs <- makedirs fs dir; Ok (dir, fs)
  else do ns <- mapM (fun x => do c <- last_item x; int_char c) found;
       let n := fold_right Nat.max 0 ns in
       let dir := run_dir ++ ["_"%char] ++ str (n + 1) in
       do fs <- makedirs fs dir; Ok (dir, fs).

(** Successive calls of stop; the names that were made. *)
Fixpoint stops (n : nat) (fs : list (list ascii)) (run_dir : list ascii) : res (list (list ascii) * list (list ascii)) :=
  match n with
  | O => Ok ([], fs)
  | S n => do r <- stop_dir fs run_dir;
           do q <- stops n (snd r) run_dir;
           Ok (fst r :: fst q, snd q)
  end.

Section Svd.
(** The value returned by an SVD routine. *)
Context {V : Type}.

(** The three routines svd can call. *)
Inductive driver : Type := Gesdd | Gesvd | OldGesvd.

(** The argument lapack_driver: one of the two valid names or another. *)
Inductive driver_name : Type := NGesdd | NGesvd | NOther.

(** svd_robust.py:82-139, svd: the calls made, in order, and the outcome; lap
    gives the outcome of a routine on the given array.  The warning is recorded
    as a flag; a warnings filter that turns it into an exception is not modelled. *)
Definition svd (old_scipy warn : bool) (name : driver_name) (lap : driver -> res V) : list driver * bool * res V :=
  let rest (calls : list driver) (warned : bool) :=
    match name with
    | NOther => (calls, warned, Err ValueError)
    | _ => if negb old_scipy then (calls ++ [Gesvd], warned, lap Gesvd)
           else (calls ++ [OldGesvd], warned, lap OldGesvd)
    end in
  match name with
  | NGesdd =>
      match lap Gesdd with
      | Ok v => ([Gesdd], false, Ok v)
      | Err LinAlgError => rest [Gesdd] warn
      | Err e => ([Gesdd], false, Err e)
      end
  | _ => rest [] false
  end.
End Svd.
