(** Specification of the truncations of a PEPS. *)
From Verif Require Import Alg ModelMPS SpecMPS ModelNcon SpecTensor ModelPeps SpecPeps.
Local Open Scope nat_scope.

(** A limit on a value of a bond: none, or below D. *)
Definition keeps (o : option nat) (x : nat) : bool := match o with None => true | Some D => Nat.ltb x D end.
(** All bonds of a grid respect their limits. *)
Definition within (H W : nat) (cap : nat -> nat -> option nat) (v : list (list nat)) : bool :=
  forallb (fun j => forallb (fun i => keeps (cap j i) (at_ 0 v j i)) (seq 0 W)) (seq 0 H).

(** Limits for the bonds below row r, in row r, below the places of column c, right of the
    places of column c. *)
Definition no_cap : nat -> nat -> option nat := fun _ _ => None.
Definition row_cap (r D : nat) : nat -> nat -> option nat := fun j _ => if Nat.eqb j r then Some D else None.
Definition col_cap (c D : nat) : nat -> nat -> option nat := fun _ i => if Nat.eqb i c then Some D else None.

Section Spec.
Context {R : sring}.
Local Open Scope sr_scope.

(** The part of the sum pamp in which the bonds to the right respect hcap and those
    downwards vcap. *)
Definition pamp_within (H W : nat) (hcap vcap : nat -> nat -> option nat) (data : list (list (tens R))) (s : list (list nat)) : R :=
  sumgrid (legs_of 2 data) (fun h => sumgrid (legs_of 3 data) (fun v =>
    if within H W hcap h && within H W vcap v then
    prodgrid H W (fun j i =>
      te (site_at data j i)
         [at_ 0%nat s j i; (if Nat.eqb j 0 then 0%nat else at_ 0%nat v (j - 1) i); at_ 0%nat h j i;
          at_ 0%nat v j i; (if Nat.eqb i 0 then 0%nat else at_ 0%nat h j (i - 1))]) else 0)).

(** q is p truncated: the sum over the bonds is restricted, in a PEPS with the same physical
    legs, every bond at most as large as its limit. *)
Definition truncated (H W : nat) (hcap vcap : nat -> nat -> option nat) (p q : peps R) : Prop :=
  peps_ok H W (pdata q) /\ legs_of 0 (pdata q) = legs_of 0 (pdata p) /\
  pLx q = pLx p /\ pLy q = pLy p /\ pd q = pd p /\ pX q = pX p /\ poc q = poc p /\
  (forall j i, (j < H)%nat -> (i < W)%nat ->
    leg 2 (site_at (pdata q) j i) = (match hcap j i with None => leg 2 (site_at (pdata p) j i) | Some D => Nat.min D (leg 2 (site_at (pdata p) j i)) end) /\
    leg 3 (site_at (pdata q) j i) = (match vcap j i with None => leg 3 (site_at (pdata p) j i) | Some D => Nat.min D (leg 3 (site_at (pdata p) j i)) end)) /\
  forall s, pamp H W (pdata q) s = pamp_within H W hcap vcap (pdata p) s.

(** The entries behind the limits are zero. *)
Definition zero_beyond (H W : nat) (hcap vcap : nat -> nat -> option nat) (data : list (list (tens R))) : Prop :=
  forall j i, (j < H)%nat -> (i < W)%nat -> forall s u r d l,
    keeps (hcap j i) r = false \/ keeps (vcap j i) d = false -> te (site_at data j i) [s; u; r; d; l] = 0.

(** A grid of H rows and W columns of arrays with five legs, of any sizes. *)
Definition five_legs (H W : nat) (data : list (list (tens R))) : Prop :=
  grid H W data /\ forall j i, (j < H)%nat -> (i < W)%nat -> length (tsh (site_at data j i)) = 5%nat.

(** Leg k of (a, b) and leg l of (a', b') of both have the smaller of the sizes in data. *)
Definition matched (data data' : list (list (tens R))) (a b k a' b' l : nat) : Prop :=
  leg k (site_at data' a b) = Nat.min (leg k (site_at data a b)) (leg l (site_at data a' b')) /\
  leg l (site_at data' a' b') = Nat.min (leg k (site_at data a b)) (leg l (site_at data a' b')).
(** Leg k of (a, b) belongs to a bond of place (j, i). *)
Definition of_place (j i a b k : nat) : Prop :=
  (a = j /\ b = i /\ (0 < k)%nat) \/ (a + 1 = j /\ b = i /\ k = 3)%nat \/ (a = j + 1 /\ b = i /\ k = 1)%nat \/
  (a = j /\ b + 1 = i /\ k = 2)%nat \/ (a = j /\ b = i + 1 /\ k = 4)%nat.
End Spec.
