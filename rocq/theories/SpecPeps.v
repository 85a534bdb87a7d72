(** Specification of projected entangled pair states and matrix product operators: what
    state or operator a grid of arrays stands for. *)
From Verif Require Import Alg ModelMPS SpecMPS ModelNcon SpecTensor.
Import ListNotations.

(** Entry of a grid (a list of rows) at row j and column i. *)
Definition at_ {A} (d : A) (g : list (list A)) (j i : nat) : A := nth i (nth j g []) d.

(** A grid of H rows and W columns. *)
Definition grid {A} (H W : nat) (g : list (list A)) : Prop := length g = H /\ Forall (fun r => length r = W) g.

(** A configuration of the whole grid: one number below the given size at every place. *)
Definition ingrid (dss s : list (list nat)) : Prop := Forall2 (fun t ds => incfg ds t) s dss.

(** The grid s with the entry at row j and column i replaced by x. *)
Fixpoint put (s : list (list nat)) (j i x : nat) : list (list nat) :=
  match s, j with
  | [], _ => []
  | row :: s, O => upd row i x :: s
  | row :: s, S j => row :: put s j i x
  end.

Section Spec.
Context {R : sring}.
Local Open Scope sr_scope.

(** Size of leg k of an array. *)
Definition leg (k : nat) (A : tens R) : nat := nth k (tsh A) 0%nat.

(** The array at row j and column i. *)
Definition site_at (data : list (list (tens R))) (j i : nat) : tens R := at_ (mkT [] (fun _ => 0)) data j i.

(** A PEPS of H rows and W columns: arrays with legs (physical, up, right, down, left), equal
    sizes where neighbours meet, size 1 at the border. *)
Definition peps_ok (H W : nat) (data : list (list (tens R))) : Prop :=
  (0 < H)%nat /\ (0 < W)%nat /\ grid H W data /\
  forall j i, (j < H)%nat -> (i < W)%nat ->
    let A := site_at data j i in
    length (tsh A) = 5%nat /\
    leg 1 A = (if Nat.eqb j 0 then 1%nat else leg 3 (site_at data (j - 1) i)) /\
    leg 4 A = (if Nat.eqb i 0 then 1%nat else leg 2 (site_at data j (i - 1))) /\
    (S j = H -> leg 3 A = 1%nat) /\ (S i = W -> leg 2 A = 1%nat).

(** The sizes of leg k over the grid. *)
Definition legs_of (k : nat) (data : list (list (tens R))) : list (list nat) := map (map (leg k)) data.

(** Sum over all configurations of a grid. *)
Fixpoint sumgrid (dss : list (list nat)) (f : list (list nat) -> R) : R :=
  match dss with
  | [] => f []
  | ds :: dss => sumcfg ds (fun c => sumgrid dss (fun cs => f (c :: cs)))
  end.

(** Product over all places of a grid of H rows and W columns. *)
Definition prodgrid (H W : nat) (f : nat -> nat -> R) : R :=
  prodl (map (fun j => prodl (map (f j) (seq 0 W))) (seq 0 H)).

(** The amplitude of configuration s: the sum over all values h of the bonds to the right of
    each site and v of the bonds below each site of the product of the entries; the bonds
    entering the grid have the value 0. *)
Definition pamp (H W : nat) (data : list (list (tens R))) (s : list (list nat)) : R :=
  sumgrid (legs_of 2 data) (fun h => sumgrid (legs_of 3 data) (fun v =>
    prodgrid H W (fun j i =>
      te (site_at data j i)
         [at_ 0%nat s j i; (if Nat.eqb j 0 then 0%nat else at_ 0%nat v (j - 1) i); at_ 0%nat h j i;
          at_ 0%nat v j i; (if Nat.eqb i 0 then 0%nat else at_ 0%nat h j (i - 1))]))).

(** Entry number n of an array in row-major order, as seen after A.reshape(-1). *)
Fixpoint nth_index (sh : list nat) (n : nat) : list nat :=
  match sh with
  | [] => []
  | _ :: sh => (n / fold_right Nat.mul 1%nat sh)%nat :: nth_index sh (n mod fold_right Nat.mul 1%nat sh)%nat
  end.
Definition flat (A : tens R) (n : nat) : R := te A (nth_index (tsh A) n).
Definition size (A : tens R) : nat := fold_right Nat.mul 1%nat (tsh A).

(** The place before place n on a ring of L places. *)
Definition before (L n : nat) : nat := if Nat.eqb n 0 then (L - 1)%nat else (n - 1)%nat.

(** A matrix product operator: arrays with legs (up, right, down, left), each left leg as
    large as the right leg of the array before, the last array coming before the first. *)
Definition mpo_ok (data : list (tens R)) : Prop :=
  data <> [] /\ forall n, (n < length data)%nat ->
    let A := nth n data (mkT [] (fun _ => 0)) in
    length (tsh A) = 4%nat /\ leg 3 A = leg 1 (nth (before (length data) n) data (mkT [] (fun _ => 0))).

(** Its element between the up legs us and the down legs ds: the sum over all values h of the
    bonds to the right of each array. *)
Definition mop (data : list (tens R)) (us ds : list nat) : R :=
  sumcfg (map (leg 1) data) (fun h => prodl (map (fun n =>
    te (nth n data (mkT [] (fun _ => 0)))
       [nth n us 0%nat; nth n h 0%nat; nth n ds 0%nat; nth (before (length data) n) h 0%nat]) (seq 0 (length data)))).

(** B is A with its legs taken in the order perm. *)
Definition permuted (perm : list nat) (A B : tens R) : Prop :=
  tsh B = map (fun k => leg k A) perm /\
  forall idx, length idx = length perm -> te B (map (fun k => nth k idx 0%nat) perm) = te A idx.
End Spec.

(** The grid t of W rows has at row i, column j what the grid s of H rows has at row j,
    column i; at row j, column W-1-i what s has at row j, column i; and at row H-1-j. *)
Definition transposed (H W : nat) (s t : list (list nat)) : Prop :=
  grid W H t /\ forall j i, j < H -> i < W -> at_ 0 t i j = at_ 0 s j i.
Definition mirrored (H W : nat) (s t : list (list nat)) : Prop :=
  grid H W t /\ forall j i, j < H -> i < W -> at_ 0 t j (W - 1 - i) = at_ 0 s j i.
Definition upside_down (H W : nat) (s t : list (list nat)) : Prop :=
  grid H W t /\ forall j i, j < H -> i < W -> at_ 0 t (H - 1 - j) i = at_ 0 s j i.

(** The grid t has every second row of s in reverse order. *)
Definition snaked (H W : nat) (s t : list (list nat)) : Prop :=
  grid H W t /\ forall j i, j < H -> i < W -> at_ 0 t j (if Nat.even j then i else W - 1 - i) = at_ 0 s j i.

(** Between two rows at most one bond has more than one value. *)
Definition thin {R : sring} (H W : nat) (data : list (list (tens R))) : Prop :=
  forall j i k, S j < H -> i < W -> k < W -> i <> k -> leg 3 (site_at data j i) = 1 \/ leg 3 (site_at data j k) = 1.

(** Merging n neighbours from number fr on to one: the old numbers that the new number k
    stands for. *)
Definition group (fr n k : nat) : list nat :=
  if Nat.ltb k fr then [k] else if Nat.eqb k fr then seq fr n else [k + n - 1].

(** The entries of a grid at the given rows and columns, column by column. *)
Definition entries (rows cols : list nat) (g : list (list nat)) : list nat :=
  flat_map (fun i => map (fun j => at_ 0 g j i) rows) cols.

(** The grid t is the grid s of H rows and W columns with h rows from number y on and w
    columns from number x on merged: an entry of t is the position of the entries it stands
    for, read column by column, among all entries below the sizes dss. *)
Definition merged (H W x y w h : nat) (dss s t : list (list nat)) : Prop :=
  grid (H - h + 1) (W - w + 1) t /\
  forall j i, j < H - h + 1 -> i < W - w + 1 ->
    at_ 0 t j i = position (entries (group y h j) (group x w i) dss) (entries (group y h j) (group x w i) s).

(** The grid s with the entries of the block of w columns from number x on and h rows from
    number y on replaced by b, read column by column. *)
Definition put_block (H W x y w h : nat) (s : list (list nat)) (b : list nat) : list (list nat) :=
  map (fun j => map (fun i =>
    if (Nat.leb y j && Nat.ltb j (y + h)) && (Nat.leb x i && Nat.ltb i (x + w))
    then nth ((i - x) * h + (j - y)) b 0 else at_ 0 s j i) (seq 0 W)) (seq 0 H).
