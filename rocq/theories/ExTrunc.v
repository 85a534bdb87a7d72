(** Concrete PEPS for the truncations.  No counterpart in /repo. *)
From Verif Require Import Alg ModelMPS SpecMPS ModelNcon ModelEk SpecTensor ModelPeps SpecPeps ModelTrunc SpecTrunc ExPeps PropPeps.
Import ListNotations.
Local Open Scope nat_scope.

Definition p107 : peps Zi := mkPeps d23 2 3 2 2 None.
(** the bond between the columns 1 and 2 of row 0 does not fit *)
Definition bad23 : list (list (tens Zi)) :=
  [[tz 1 [2;1;2;2;1]; tz 2 [2;1;3;2;2]; tz 3 [2;1;1;2;2]]; [tz 4 [2;2;2;1;1]; tz 5 [2;2;2;1;2]; tz 6 [2;2;1;1;2]]].
Definition pbad : peps Zi := mkPeps bad23 2 3 2 3 None.
Lemma bad23_five : five_legs 2 3 bad23.
Proof. split; [grid_|cells]. Qed.

(** value 1 of the bonds to the right is not used *)
Definition only0 (sh : list nat) : tens Zi :=
  mkT sh (fun idx => match idx with [s; u; r; d; l] => if Nat.eqb r 0 then zi (Z.of_nat (s + u + d + l) + 1) 1 else zi 0 0 | _ => zi 0 0 end).
Definition z22 : list (list (tens Zi)) := [[only0 [2;1;2;2;1]; only0 [2;1;1;2;2]]; [only0 [2;2;2;1;1]; only0 [2;2;1;1;2]]].
Definition z107 : peps Zi := mkPeps z22 2 2 2 2 None.
Lemma z22_ok : peps_ok 2 2 z22.
Proof. split; [lia|]. split; [lia|]. split; [grid_|cells]. Qed.
Lemma z22_zero : zero_beyond 2 2 (col_cap 0 1) no_cap z22.
Proof.
  intros j i Hj Hi s u r d l [K|K]; [|discriminate K].
  assert (Hr : r <> 0). { intros ->. unfold col_cap in K. destruct (Nat.eqb i 0); discriminate K. }
  destruct r as [|r]; [easy|]. destruct j as [|[|]]; [| |lia]; destruct i as [|[|]]; try lia; reflexivity.
Qed.

(** three rows, two columns, Lx and Ly as random(2, 3, ..) sets them *)
Definition d32 : list (list (tens Zi)) :=
  [[tz 1 [2;1;2;2;1]; tz 2 [2;1;1;2;2]]; [tz 3 [2;2;2;2;1]; tz 4 [2;2;1;2;2]]; [tz 5 [2;2;2;1;1]; tz 6 [2;2;1;1;2]]].
Definition p32 : peps Zi := mkPeps d32 2 3 2 2 None.
Lemma d32_ok : peps_ok 3 2 d32.
Proof. split; [lia|]. split; [lia|]. split; [grid_|cells]. Qed.
