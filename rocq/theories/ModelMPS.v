(** Model of the finite MPS object of /repo/xmps/fMPS.py: construction, algebra,
    recombination, overlaps and local operators. *)
From Verif Require Import Alg.

Section Model.
Context {R : sring}.
Local Open Scope sr_scope.

(** numpy 2D array: rows, columns, entries (entries outside the shape are never
    read).  Models the matrices of fMPS.py, e.g. F in fMPS.py:740. *)
Record mat : Type := mkMat { mr : nat; mc : nat; me : nat -> nat -> R }.

(** numpy 3D array of shape (phys, dl, dr): one MPS tensor, an element of
    [self.data] (fMPS.py:144-146, 161-171). *)
Record site : Type := mkSite
  { phys : nat; dl : nat; dr : nat; ent : nat -> nat -> nat -> R }.

(** numpy.dot / @ on 2D arrays with its shape check (fMPS.py:352). *)
Definition mdot (a b : mat) : res mat :=
  if Nat.eqb (mc a) (mr b)
  then Ok (mkMat (mr a) (mc b) (fun i j => sum (mc a) (fun k => me a i k * me b k j)))
  else Err ValueError.

(** A[s] for a 3D array: the 2D slice, IndexError out of range (fMPS.py:352). *)
Definition slice (A : site) (s : nat) : res mat :=
  if Nat.ltb s (phys A) then Ok (mkMat (dl A) (dr A) (ent A s)) else Err IndexError.

(** A @ M, broadcast over the physical axis (fMPS.py:491, 661). *)
Definition site_rmul (A : site) (M : mat) : res site :=
  if Nat.eqb (dr A) (mr M)
  then Ok (mkSite (phys A) (dl A) (mc M)
             (fun s i j => sum (dr A) (fun k => ent A s i k * me M k j)))
  else Err ValueError.

(** M @ A, broadcast over the physical axis (fMPS.py:563, 679). *)
Definition site_lmul (M : mat) (A : site) : res site :=
  if Nat.eqb (mc M) (dl A)
  then Ok (mkSite (phys A) (mr M) (dr A)
             (fun s i j => sum (mc M) (fun k => me M i k * ent A s k j)))
  else Err ValueError.

(** tensor.py:193-197, C: complex conjugate, on an MPS tensor. *)
Definition site_conj (A : site) : site :=
  mkSite (phys A) (dl A) (dr A) (fun s i j => sconj (ent A s i j)).

(** The attributes of an fMPS object (fMPS.py:148-171).  [fcan], [forth], [foc]
    and [fnorm] are options because the source only sets them on some paths
    (they can be missing: AttributeError / hasattr).  The memo ids and the Ls
    list are not attributes of this record. *)
Record fmps : Type := mkF
  { fdata : list site; fL : nat; fd : nat; fD : nat;
    fcan : option bool; forth : option bool; foc : option nat; fnorm : option mat }.

(** max([max(x.shape[1:]) for x in data]) of fMPS.py:168, 282; ValueError on []. *)
Definition max_bond (data : list site) : res nat :=
  match data with
  | [] => Err ValueError
  | _ => Ok (list_max (map (fun x => Nat.max (dl x) (dr x)) data))
  end.

(** fMPS.py:148-171, __init__ with data.  With D given, right_canonicalise is
    called before self.data and self.D exist, which raises AttributeError
    (fMPS.py:166 -> 473). *)
Definition fMPS_init (data : list site) (d D : option nat) : res fmps :=
  do d' <- match d with
           | Some d => Ok d
           | None => match data with A :: _ => Ok (phys A) | [] => Err IndexError end
           end;
  match D with
  | Some _ => Err AttributeError
  | None =>
      do Dm <- max_bond data;
      Ok (mkF data (length data) d' Dm (Some false) (Some false) None None)
  end.

(** self[i] with 0 <= i (fMPS.py:180-185); IndexError out of range. *)
Definition getitem {A} (l : list A) (i : nat) : res A :=
  match nth_error l i with Some x => Ok x | None => Err IndexError end.

(** l[i] = x on a Python list (fMPS.py:187-190); IndexError out of range. *)
Fixpoint setitem {A} (l : list A) (i : nat) (x : A) : res (list A) :=
  match l, i with
  | [], _ => Err IndexError
  | _ :: l, O => Ok (x :: l)
  | y :: l, S i => do l' <- setitem l i x; Ok (y :: l')
  end.

(** fMPS.py:217 and 245: elementwise a+b / a-b of two tensors of equal
    shape (numpy broadcasting of unequal shapes is not modelled: ValueError). *)
Definition site_zip (f : R -> R -> R) (a b : site) : res site :=
  if Nat.eqb (phys a) (phys b) && Nat.eqb (dl a) (dl b) && Nat.eqb (dr a) (dr b)
  then Ok (mkSite (phys a) (dl a) (dr a) (fun s i j => f (ent a s i j) (ent b s i j)))
  else Err ValueError.

(** Python zip: truncates to the shorter list (fMPS.py:217). *)
Definition pyzip {A B} (l : list A) (m : list B) : list (A * B) := combine l m.

(** fMPS.py:211-217, __add__: itemwise addition. *)
Definition itemwise_add (a b : fmps) : res fmps :=
  do l <- mapM (fun ab => site_zip sadd (fst ab) (snd ab)) (pyzip (fdata a) (fdata b));
  fMPS_init l None None.

(** fMPS.py:239-246, __sub__: itemwise subtraction. *)
Definition itemwise_sub (a b : fmps) : res fmps :=
  do l <- mapM (fun ab => site_zip ssub (fst ab) (snd ab)) (pyzip (fdata a) (fdata b));
  fMPS_init l None None.

(** c*x on a tensor (fMPS.py:254, 259). *)
Definition site_scale (c : R) (A : site) : site :=
  mkSite (phys A) (dl A) (dr A) (fun s i j => c * ent A s i j).

(** fMPS.py:247-254 and 261-266, __mul__/__rmul__: itemwise scaling. *)
Definition itemwise_mul (m : fmps) (c : R) : res fmps :=
  fMPS_init (map (site_scale c) (fdata m)) (Some (fd m)) None.

(** fMPS.py:256-259, mul: only site 0 is scaled. *)
Definition mps_mul (m : fmps) (c : R) : res fmps :=
  fMPS_init (map (fun ix => if negb (Nat.eqb (fst ix) 0) then snd ix
                            else site_scale c (snd ix))
                 (combine (seq 0 (length (fdata m))) (fdata m))) None None.

(** np.concatenate([a, b], 2) (fMPS.py:225): right bonds side by side. *)
Definition concat2 (a b : site) : res site :=
  if Nat.eqb (phys a) (phys b) && Nat.eqb (dl a) (dl b)
  then Ok (mkSite (phys a) (dl a) (dr a + dr b)%nat
             (fun s i j => if Nat.ltb j (dr a) then ent a s i j
                           else ent b s i (j - dr a)%nat))
  else Err ValueError.

(** np.concatenate([a, b], 1) (fMPS.py:227): left bonds stacked. *)
Definition concat1 (a b : site) : res site :=
  if Nat.eqb (phys a) (phys b) && Nat.eqb (dr a) (dr b)
  then Ok (mkSite (phys a) (dl a + dl b)%nat (dr a)
             (fun s i j => if Nat.ltb i (dl a) then ent a s i j
                           else ent b s (i - dl a)%nat j))
  else Err ValueError.

(** fMPS.py:222, 229-230: block-diagonal tensor written into zeros.  The second
    assignment broadcasts a physical axis of length 1. *)
Definition block_diag_site (a b : site) : res site :=
  if Nat.eqb (phys b) (phys a) || Nat.eqb (phys b) 1
  then Ok (mkSite (phys a) (dl a + dl b)%nat (dr a + dr b)%nat
             (fun s i j =>
                if Nat.ltb i (dl a)
                then (if Nat.ltb j (dr a) then ent a s i j else 0)
                else (if Nat.ltb j (dr a) then 0
                      else ent b (if Nat.eqb (phys b) (phys a) then s else 0%nat)
                               (i - dl a)%nat (j - dr a)%nat)))
  else Err ValueError.

(** fMPS.py:219-231, add.  Indexing other[i] for i < self.L raises IndexError
    when [other] is shorter. *)
Definition mps_add (a b : fmps) : res fmps :=
  do l <- mapM (fun i =>
            do ai <- getitem (fdata a) i;
            do bi <- getitem (fdata b) i;
            if Nat.eqb i 0 then concat2 ai bi
            else if Nat.eqb i (fL a - 1) then concat1 ai bi
            else block_diag_site ai bi)
          (seq 0 (fL a));
  fMPS_init l None None.

(** fMPS.py:233-234, append. *)
Definition mps_append (a : fmps) (t : site) : res fmps :=
  fMPS_init (fdata a ++ [t]) None None.

(** fMPS.py:236-237, extend. *)
Definition mps_extend (a b : fmps) : res fmps :=
  fMPS_init (fdata a ++ fdata b) None None.

(** itertools.product of L copies of range(d), fMPS.py:350, in iteration order. *)
Fixpoint configs (d L : nat) : list (list nat) :=
  match L with
  | O => [[]]
  | S L => flat_map (fun s => map (cons s) (configs d L)) (seq 0 d)
  end.

(** fMPS.py:352: the left fold reduce(dot, ...) after its first element. *)
Fixpoint reduce_dot (acc : mat) (rest : list site) (ij : list nat) : res mat :=
  match rest with
  | [] => Ok acc
  | A :: rest =>
      match ij with
      | [] => Err IndexError
      | s :: ij => do m <- slice A s; do acc <- mdot acc m; reduce_dot acc rest ij
      end
  end.

(** fMPS.py:352-353: one entry of the state; reduce of an empty list raises
    TypeError, [0][0] on an empty axis IndexError. *)
Definition recombine_entry (data : list site) (ij : list nat) : res R :=
  match data with
  | [] => Err TypeError
  | A :: rest =>
      match ij with
      | [] => Err IndexError
      | s :: ij =>
          do m <- slice A s;
          do p <- reduce_dot m rest ij;
          if Nat.ltb 0 (mr p) && Nat.ltb 0 (mc p) then Ok (me p 0 0) else Err IndexError
      end
  end.

(** fMPS.py:347-354, recombine: entries in row-major order of the [d]*L array. *)
Definition recombine (m : fmps) : res (list R) :=
  mapM (recombine_entry (fdata m)) (configs (fd m) (fL m)).

(** fMPS.py:742: one step ncon([F, t, c(b)], [[1,2],[3,1,-1],[3,2,-2]]). *)
Definition overlap_step (F : mat) (t b : site) : res mat :=
  if Nat.eqb (mr F) (dl t) && Nat.eqb (mc F) (dl b) && Nat.eqb (phys t) (phys b)
  then Ok (mkMat (dr t) (dr b)
         (fun p q => sum (mr F) (fun i => sum (mc F) (fun j => sum (phys t) (fun s =>
             me F i j * ent t s i p * sconj (ent b s j q))))))
  else Err ValueError.

(** fMPS.py:741-742: the loop over zip(self, other). *)
Fixpoint overlap_loop (F : mat) (l : list (site * site)) : res mat :=
  match l with
  | [] => Ok F
  | (t, b) :: l => do F' <- overlap_step F t b; overlap_loop F' l
  end.

(** fMPS.py:731-743, overlap.  np.squeeze of the final matrix is left to the
    caller: for closed chains it is 1x1 and squeeze yields its entry. *)
Definition overlap (a b : fmps) : res mat :=
  if Nat.eqb (length (fdata a)) (length (fdata b))
  then overlap_loop (mkMat 1 1 (fun _ _ => 1)) (pyzip (fdata a) (fdata b))
  else Err AssertionError.

(** x.conj().T @ y on flat vectors (fMPS.py:782), ValueError on length mismatch. *)
Definition vdot (x y : list R) : res R :=
  if Nat.eqb (length x) (length y)
  then Ok (suml (map (fun xy => sconj (fst xy) * snd xy) (combine x y)))
  else Err ValueError.

(** fMPS.py:781-782, full_overlap. *)
Definition full_overlap (a b : fmps) : res R :=
  do x <- recombine a; do y <- recombine b; vdot x y.

(** fMPS.py:784-788, norm. *)
Definition mps_norm (a : fmps) : res mat := overlap a a.

(** td(op, A, [1, 0]) (fMPS.py:853): contract op's column axis with the
    physical axis of A. *)
Definition op_site (op : mat) (A : site) : res site :=
  if Nat.eqb (mc op) (phys A)
  then Ok (mkSite (mr op) (dl A) (dr A)
             (fun s i j => sum (mc op) (fun t => me op s t * ent A t i j)))
  else Err ValueError.

(** fMPS.py:850-854, apply: returns a fresh object; negative sites are not
    modelled. *)
Definition mps_apply (m : fmps) (op : mat) (k : nat) : res fmps :=
  do A <- getitem (fdata m) k;
  do A' <- op_site op A;
  do l <- setitem (fdata m) k A';
  fMPS_init l None None.

(** del l[i] on a Python list (fMPS.py:862). *)
Fixpoint delitem {A} (l : list A) (i : nat) : res (list A) :=
  match l, i with
  | [], _ => Err IndexError
  | _ :: l, O => Ok l
  | y :: l, S i => do l' <- delitem l i; Ok (y :: l')
  end.

(** Replace the tensors of an object in place, all other attributes kept. *)
Definition with_data (m : fmps) (l : list site) : fmps :=
  mkF l (fL m) (fd m) (fD m) (fcan m) (forth m) (foc m) (fnorm m).

(** fMPS.py:856-863, post_select: in place, only self.data changes. *)
Definition post_select (m : fmps) (k w : nat) : res fmps :=
  do A <- getitem (fdata m) k;
  do l <- match k with
          | S k' =>
              do B <- getitem (fdata m) k';
              do Aw <- slice A w;
              do B' <- site_rmul B Aw;
              setitem (fdata m) k' B'
          | O =>
              do B <- getitem (fdata m) 1;
              do Aw <- slice A w;
              do B' <- site_lmul Aw B;
              setitem (fdata m) 1 B'
          end;
  do l' <- delitem l k;
  Ok (with_data m l').

(** fMPS.py:913-914, copy: a fresh object over the same tensors; flags reset. *)
Definition mps_copy (m : fmps) : res fmps := fMPS_init (fdata m) None None.

(** fMPS.py:766-769, from_product_state: one vector per site (entry function on
    d levels), expanded to shape (d,1,1). *)
Definition from_product_state (vs : list (nat * (nat -> R))) : res fmps :=
  fMPS_init (map (fun v => mkSite (fst v) 1 1 (fun s _ _ => snd v s)) vs) None None.

(** fMPS.py:776-779, product_state_overlap. *)
Definition product_state_overlap (m : fmps) (vs : list (nat * (nat -> R))) : res mat :=
  do p <- from_product_state vs; overlap m p.

(** fMPS.py:280-282, bond_dimension. *)
Definition bond_dimension (m : fmps) : res nat := max_bond (fdata m).

End Model.

Arguments mat : clear implicits.
Arguments site : clear implicits.
Arguments fmps : clear implicits.
