(** C107: the truncations of a PEPS, and fix_neighbours. *)
From Verif Require Import Alg ModelMPS SpecMPS ModelNcon SpecTensor ModelPeps SpecPeps ModelTrunc SpecTrunc ProofTrunc ProofTrunc2 ProofTrunc3 ExPeps PropPeps ExOrth ExTrunc ProofPeps5.
Import ListNotations.
Local Open Scope nat_scope.
Local Open Scope sr_scope.

(** truncate_below(row, D): the bonds below the row keep the values below D. *)
Theorem C107_below : forall (R : sring) H W (p : peps R) row D, peps_ok H W (pdata p) -> pLx p = H -> (0 < D)%nat -> (S row < H)%nat ->
  exists q, truncate_below p row D = Ok q /\ truncated H W no_cap (row_cap row D) p q.
Proof. exact (@truncate_below_ok). Qed.
Print Assumptions C107_below.

(** truncate_above(row, D): the bonds above it. *)
Theorem C107_above : forall (R : sring) H W (p : peps R) row D, peps_ok H W (pdata p) -> (0 < D)%nat -> (0 < row < H)%nat ->
  exists q, truncate_above p row D = Ok q /\ truncated H W no_cap (row_cap (row - 1) D) p q.
Proof. exact (@truncate_above_ok). Qed.
Print Assumptions C107_above.

(** truncate_left(col, D): the bonds to the left of the column. *)
Theorem C107_left : forall (R : sring) H W (p : peps R) col D, peps_ok H W (pdata p) -> pLx p = H -> (0 < D)%nat -> (0 < col < W)%nat ->
  exists q, truncate_left p col D = Ok q /\ truncated H W (col_cap (col - 1) D) no_cap p q.
Proof. exact (@truncate_left_ok). Qed.
Print Assumptions C107_left.

(** truncate_along_row(row, D): the bonds within the row. *)
Theorem C107_along_row : forall (R : sring) H W (p : peps R) row D, peps_ok H W (pdata p) -> (0 < D)%nat -> (row < H)%nat ->
  exists q, truncate_along_row p row D = Ok q /\ truncated H W (row_cap row D) no_cap p q.
Proof. exact (@truncate_along_row_ok). Qed.
Print Assumptions C107_along_row.

(** truncate_along_column(col, D): the bonds within the column. *)
Theorem C107_along_column : forall (R : sring) H W (p : peps R) col D, peps_ok H W (pdata p) -> (0 < D)%nat -> (col < W)%nat ->
  exists q, truncate_along_column p col D = Ok q /\ truncated H W no_cap (col_cap col D) p q.
Proof. exact (@truncate_along_column_ok). Qed.
Print Assumptions C107_along_column.

(** Where the entries that are cut off are zero, the state is the same. *)
Theorem C107_lossless : forall (R : sring) H W hcap vcap (p q : peps R) s, truncated H W hcap vcap p q -> zero_beyond H W hcap vcap (pdata p) ->
  pamp H W (pdata q) s = pamp H W (pdata p) s.
Proof. exact (@truncated_same). Qed.
Print Assumptions C107_lossless.

(** At the border there is no bond to truncate. *)
Theorem C107_border : forall (R : sring) (p : peps R) D,
  truncate_above p 0 D = Err Exception_ /\ truncate_left p 0 D = Err Exception_ /\ (forall row, (row + 1)%nat = pLx p -> truncate_below p row D = Err Exception_).
Proof. exact (@truncate_border). Qed.
Print Assumptions C107_border.

(** fix_neighbours(i, j) for arrays with any bonds, when the recorded Lx is the number of columns and Ly
    that of rows: the four bonds of the place are
    cut to the smaller size on both sides, and nothing else changes. *)
Theorem C107_fix_neighbours : forall (R : sring) H W (p : peps R) i j, five_legs H W (pdata p) -> pLx p = W -> pLy p = H -> (j < H)%nat -> (i < W)%nat ->
  exists q, fix_neighbours p i j = Ok q /\ five_legs H W (pdata q) /\
    (0 < j -> matched (pdata p) (pdata q) j i 1 (j - 1) i 3)%nat /\ (i + 1 < W -> matched (pdata p) (pdata q) j i 2 j (i + 1) 4)%nat /\
    (j + 1 < H -> matched (pdata p) (pdata q) j i 3 (j + 1) i 1)%nat /\ (0 < i -> matched (pdata p) (pdata q) j i 4 j (i - 1) 2)%nat /\
    forall a b, (a < H)%nat -> (b < W)%nat -> te (site_at (pdata q) a b) = te (site_at (pdata p) a b) /\
      forall k, ~ of_place j i a b k -> leg k (site_at (pdata q) a b) = leg k (site_at (pdata p) a b).
Proof. exact (@fix_neighbours_ok). Qed.
Print Assumptions C107_fix_neighbours.

(** Not so in a PEPS made by fPEPS(data) with more columns than rows, for which Lx is the
    number of rows: it compares the row with the number of
    columns and raises in the last row; and it leaves a bond as it is. *)
Theorem C107_fix_neighbours_refuted : (exists (p : peps Zi) i j, peps_init d23 = Ok p /\ peps_ok 2 3 (pdata p) /\ (j < 2)%nat /\ (i < 3)%nat /\ fix_neighbours p i j = Err IndexError) /\
  (exists (p q : peps Zi) i j, peps_init bad23 = Ok p /\ five_legs 2 3 (pdata p) /\ (j < 2)%nat /\ (i + 1 < 3)%nat /\ fix_neighbours p i j = Ok q /\ ~ matched (pdata p) (pdata q) j i 2 j (i + 1) 4).
Proof.
  split.
  - eexists _, 0%nat, 1%nat. split; [apply (init_ok 2 3); exact d23_ok|]. split; [exact d23_ok|]. split; [lia|]. split; [lia|]. vm_compute. reflexivity.
  - exists pbad, (the pbad (fix_neighbours pbad 1 0)), 1%nat, 0%nat. split; [reflexivity|]. split; [exact bad23_five|]. split; [lia|]. split; [lia|].
    split; [apply the_ok; vm_compute; reflexivity|]. intros [K _]. vm_compute in K. discriminate.
Qed.
Print Assumptions C107_fix_neighbours_refuted.

(** The truncations below and to the left take Lx for the number of rows.  In a PEPS made by
    random(Lx, Ly, ..) it is the number of columns: truncate_left and truncate_below raise. *)
Theorem C107_left_refuted : (exists (p : peps Zi) col D, peps_ok 2 3 (pdata p) /\ pLx p = 3%nat /\ pLy p = 2%nat /\ (0 < D)%nat /\ (0 < col < 3)%nat /\ truncate_left p col D = Err IndexError) /\
  (exists (p : peps Zi) row D, peps_ok 3 2 (pdata p) /\ pLx p = 2%nat /\ pLy p = 3%nat /\ (0 < D)%nat /\ (S row < 3)%nat /\ truncate_below p row D = Err Exception_).
Proof.
  split.
  - exists r23, 1%nat, 1%nat. split; [exact d23_ok|]. do 2 (split; [reflexivity|]). split; [lia|]. split; [lia|]. vm_compute. reflexivity.
  - exists p32, 1%nat, 1%nat. split; [exact d32_ok|]. do 2 (split; [reflexivity|]). split; [lia|]. split; [lia|]. vm_compute. reflexivity.
Qed.
Print Assumptions C107_left_refuted.

(** * Examples: two rows and three columns with bonds of size 2, cut to 1 below row 0; a pair
      of singlets whose second bond value is never used *)
Example C107_example : exists q, truncate_below p107 0 1 = Ok q /\ truncated 2 3 no_cap (row_cap 0 1) p107 q /\
  pamp 2 3 (pdata q) [[0; 0; 0]; [0; 0; 0]]%nat <> pamp 2 3 (pdata p107) [[0; 0; 0]; [0; 0; 0]]%nat.
Proof.
  destruct (C107_below Zi 2 3 p107 0 1 d23_ok eq_refl ltac:(lia) ltac:(lia)) as (q & E & T). exists q. split; [exact E|]. split; [exact T|].
  rewrite (proj2 (proj2 (proj2 (proj2 (proj2 (proj2 (proj2 (proj2 T)))))))). vm_compute. discriminate.
Qed.
Example C107_example_lossless : exists q, truncate_left z107 1 1 = Ok q /\ truncated 2 2 (col_cap 0 1) no_cap z107 q /\
  (forall s, pamp 2 2 (pdata q) s = pamp 2 2 (pdata z107) s) /\ leg 2 (site_at (pdata z107) 0 0) = 2%nat /\ leg 2 (site_at (pdata q) 0 0) = 1%nat /\
  pamp 2 2 (pdata z107) [[1; 1]; [0; 0]]%nat <> 0.
Proof.
  destruct (C107_left Zi 2 2 z107 1 1 z22_ok eq_refl ltac:(lia) ltac:(lia)) as (q & E & T). exists q. split; [exact E|]. split; [exact T|].
  split; [intros s; apply (C107_lossless Zi 2 2 _ _ _ _ s T z22_zero)|]. split; [reflexivity|].
  split; [rewrite (proj1 (proj1 (proj2 (proj2 (proj2 (proj2 (proj2 (proj2 (proj2 T))))))) 0 0 ltac:(lia) ltac:(lia)))%nat; reflexivity|]. vm_compute. discriminate.
Qed.
