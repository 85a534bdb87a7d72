(** A matrix product state laid out on a grid along a snake. *)
From Verif Require Import Alg ModelMPS ModelNcon ModelEk ModelNp ModelTensor ModelPeps SpecMPS SpecTensor SpecPeps ProofMPS ProofEk4 ProofTrace ProofTrace2 ProofNp ProofPeps ProofPeps2 ProofPeps3 ProofPeps4 ProofPeps5 ProofPeps6 ProofPeps7 ProofOrth ProofEk2.
From Coq Require Import Permutation.
Import ListNotations.
Local Notation prod_ := (fold_right Nat.mul 1%nat).

Section Lay.
Context {R : sring}.
Local Open Scope sr_scope.
Add Ring Rr : (s_th R).

(** The array for the site at place k of a row of W sites, laid out to the right or to the left. *)
Definition tile (b : bool) (W k : nat) (A : site R) (T : tens R) : Prop :=
  if Nat.eqb k 0 then
    tsh T = (if b then [phys A; dl A; dr A; 1; 1] else [phys A; dl A; 1; 1; dr A])%nat /\
    forall x i j, (x < phys A)%nat -> (i < dl A)%nat -> (j < dr A)%nat -> te T (if b then [x; i; j; 0; 0] else [x; i; 0; 0; j])%nat = ent A x i j
  else if Nat.eqb k (W - 1) then
    tsh T = (if b then [phys A; 1; 1; dr A; dl A] else [phys A; 1; dl A; dr A; 1])%nat /\
    forall x i j, (x < phys A)%nat -> (i < dl A)%nat -> (j < dr A)%nat -> te T (if b then [x; 0; 0; j; i] else [x; 0; i; j; 0])%nat = ent A x i j
  else
    tsh T = (if b then [phys A; 1; dr A; 1; dl A] else [phys A; 1; dl A; 1; dr A])%nat /\
    forall x i j, (x < phys A)%nat -> (i < dl A)%nat -> (j < dr A)%nat -> te T (if b then [x; 0; j; 0; i] else [x; 0; i; 0; j])%nat = ent A x i j.

Lemma reshape_entry sh (T : tens R) : prod_ (tsh T) = prod_ sh -> exists T', reshape_ sh T = Ok T' /\ tsh T' = sh /\
  forall a b, incfg (tsh T) a -> ravel sh b = ravel (tsh T) a -> te T' b = te T a.
Proof.
  intros E. unfold reshape_. rewrite E, Nat.eqb_refl. eexists. split; [reflexivity|]. split; [reflexivity|]. intros a b Ha Eb. cbn [te]. rewrite Eb. now destruct (unravel_ravel _ _ Ha) as [-> _].
Qed.

Lemma site_transpose (A : site R) : exists T, transpose_ [0; 2; 1]%nat (tens_site A) = Ok T /\ tsh T = [phys A; dr A; dl A] /\ forall x j i, te T [x; j; i] = ent A x i j.
Proof.
  eexists. split; [reflexivity|]. split; [reflexivity|]. intros. reflexivity.
Qed.

Ltac shape_done := cbn [tsh fold_right tens_site]; ring.
Lemma site_ok W i j (A : site R) : (1 < W)%nat -> (i < W)%nat -> exists T, snake_site W i j A = Ok T /\ tile (Nat.even j) W (if Nat.even j then i else W - 1 - i) A T.
Proof.
  intros HW Hi. unfold snake_site. destruct (site_transpose A) as (At & E & HS & HE). rewrite E. cbn [bind]. unfold tile.
  destruct (Nat.even j) eqn:Ej; cbn [negb].
  - destruct (Nat.eqb_spec i (W - 1)) as [e|e].
    + destruct (Nat.eqb_spec i 0); [lia|]. destruct (reshape_entry [phys A; 1; 1; dr A; dl A]%nat At) as (T & ET & ST & HT); [rewrite HS; shape_done|].
      exists T. split; [exact ET|]. split; [exact ST|]. intros x a c Hx Ha Hc. rewrite (HT [x; c; a]); [apply HE| |].
      * rewrite HS. repeat constructor; assumption.
      * rewrite HS. cbn [ravel fold_right]. ring.
    + destruct (Nat.eqb_spec i 0).
      * destruct (reshape_entry [phys A; dl A; dr A; 1; 1]%nat (tens_site A)) as (T & ET & ST & HT); [shape_done|].
        exists T. split; [exact ET|]. split; [exact ST|]. intros x a c Hx Ha Hc. rewrite (HT [x; a; c]); [reflexivity| |].
        -- repeat constructor; assumption.
        -- cbn [tsh tens_site ravel fold_right]. ring.
      * destruct (reshape_entry [phys A; 1; dr A; 1; dl A]%nat At) as (T & ET & ST & HT); [rewrite HS; shape_done|].
        exists T. split; [exact ET|]. split; [exact ST|]. intros x a c Hx Ha Hc. rewrite (HT [x; c; a]); [apply HE| |].
        -- rewrite HS. repeat constructor; assumption.
        -- rewrite HS. cbn [ravel fold_right]. ring.
  - destruct (Nat.eqb_spec i (W - 1)) as [e|e].
    + destruct (Nat.eqb_spec (W - 1 - i) 0); [|lia]. destruct (reshape_entry [phys A; dl A; 1; 1; dr A]%nat (tens_site A)) as (T & ET & ST & HT); [shape_done|].
      exists T. split; [exact ET|]. split; [exact ST|]. intros x a c Hx Ha Hc. rewrite (HT [x; a; c]); [reflexivity| |].
      * repeat constructor; assumption.
      * cbn [tsh tens_site ravel fold_right]. ring.
    + destruct (Nat.eqb_spec (W - 1 - i) 0); [lia|]. destruct (Nat.eqb_spec i 0) as [z|z].
      * destruct (Nat.eqb_spec (W - 1 - i) (W - 1)); [|lia]. destruct (reshape_entry [phys A; 1; dl A; dr A; 1]%nat (tens_site A)) as (T & ET & ST & HT); [shape_done|].
        exists T. split; [exact ET|]. split; [exact ST|]. intros x a c Hx Ha Hc. rewrite (HT [x; a; c]); [reflexivity| |].
        -- repeat constructor; assumption.
        -- cbn [tsh tens_site ravel fold_right]. ring.
      * destruct (Nat.eqb_spec (W - 1 - i) (W - 1)); [lia|]. destruct (reshape_entry [phys A; 1; dl A; 1; dr A]%nat (tens_site A)) as (T & ET & ST & HT); [shape_done|].
        exists T. split; [exact ET|]. split; [exact ST|]. intros x a c Hx Ha Hc. rewrite (HT [x; a; c]); [reflexivity| |].
        -- repeat constructor; assumption.
        -- cbn [tsh tens_site ravel fold_right]. ring.
Qed.

Inductive tiles (b : bool) (W : nat) : nat -> list (site R) -> list (tens R) -> Prop :=
| tiles_nil k : tiles b W k [] []
| tiles_cons k A As T Ts : tile b W k A T -> tiles b W (S k) As Ts -> tiles b W k (A :: As) (T :: Ts).

Lemma tiles_snoc b W k As Ts A T : tiles b W k As Ts -> tile b W (k + length As) A T -> tiles b W k (As ++ [A]) (Ts ++ [T]).
Proof.
  induction 1 as [k|k A' As T' Ts HT _ IH]; intros H.
  - cbn in H. rewrite Nat.add_0_r in H. constructor; [assumption|constructor].
  - cbn [app]. constructor; [assumption|]. apply IH. cbn [length] in H. now replace (S k + length As)%nat with (k + S (length As))%nat by lia.
Qed.

Lemma row_even W j l : Nat.even j = true -> (1 < W)%nat -> forall i, (i + length l <= W)%nat -> exists Ts, snake_row W i j l = Ok Ts /\ tiles true W i l Ts.
Proof.
  intros Ej HW. induction l as [|A l IH]; intros i Hi; [exists []; split; [reflexivity|constructor]|]. cbn [length] in Hi.
  destruct (site_ok W i j A HW ltac:(lia)) as (T & E & HT). rewrite Ej in HT. destruct (IH (S i) ltac:(lia)) as (Ts & E' & HTs).
  exists (T :: Ts). cbn [snake_row]. rewrite E. cbn [bind]. rewrite E'. split; [reflexivity|]. now constructor.
Qed.

Lemma row_odd W j l : Nat.even j = false -> (1 < W)%nat -> forall i, (i + length l <= W)%nat -> exists Ts, snake_row W i j l = Ok Ts /\ tiles false W (W - i - length l) (rev l) (rev Ts).
Proof.
  intros Ej HW. induction l as [|A l IH]; intros i Hi; [exists []; split; [reflexivity|constructor]|]. cbn [length] in Hi.
  destruct (site_ok W i j A HW ltac:(lia)) as (T & E & HT). rewrite Ej in HT. destruct (IH (S i) ltac:(lia)) as (Ts & E' & HTs).
  exists (T :: Ts). cbn [snake_row]. rewrite E. cbn [bind]. rewrite E'. split; [reflexivity|]. cbn [rev length]. apply tiles_snoc.
  - now replace (W - i - S (length l))%nat with (W - S i - length l)%nat by lia.
  - rewrite rev_length. now replace (W - i - S (length l) + length l)%nat with (W - 1 - i)%nat by lia.
Qed.

(** The rest of a row after its first site: its legs and its value. *)
Lemma tiles_len b W k As Ts : tiles b W k As Ts -> length Ts = length As.
Proof. induction 1; cbn; congruence. Qed.


Lemma rest_right As : forall W k Ts X Y, tiles true W k As Ts -> (0 < k)%nat -> (k + length As = W)%nat -> As <> [] -> chain X As Y ->
  row_ok X Ts 1 /\ map (leg 1) Ts = repeat 1%nat (length As) /\ map (leg 3) Ts = repeat 1%nat (length As - 1) ++ [Y] /\ map (leg 0) Ts = dims As.
Proof.
  induction As as [|A As IH]; intros W k Ts X Y HT Hk HW HN HC; [congruence|].
  inversion HT as [|? ? ? T Ts' HA HT']; subst. destruct HC as [<- HC]. unfold tile in HA.
  destruct (Nat.eqb_spec k 0); [lia|]. cbn [length] in *. destruct As as [|A' As].
  - inversion HT'; subst. cbn in HC. subst Y. cbn [length] in HA. destruct (Nat.eqb_spec k (k + 1 - 1)); [|lia]. destruct HA as [HS HE].
    cbn [length Nat.sub repeat app map row_ok dims]. unfold leg. rewrite HS. cbn [nth length]. auto.
  - cbn [length] in *. destruct (Nat.eqb_spec k (k + S (S (length As)) - 1)); [lia|]. destruct HA as [HS HE].
    destruct (IH _ (S k) Ts' (dr A) Y HT' ltac:(lia) ltac:(lia) ltac:(congruence) HC) as (Q1 & Q2 & Q3 & Q4).
    cbn [Nat.sub repeat app map row_ok dims] in *. rewrite Q2, Q3, Q4. unfold leg. rewrite HS. cbn [nth length]. rewrite Nat.sub_0_r. auto.
Qed.

Lemma rest_right_value As : forall W k Ts X Y s l d, tiles true W k As Ts -> (0 < k)%nat -> (k + length As = W)%nat -> As <> [] -> chain X As Y -> incfg (dims As) s -> (l < X)%nat -> (d < Y)%nat ->
  rowS (cells Ts s) (repeat 0%nat (length As)) (repeat 0%nat (length As - 1) ++ [d]) l 0 = amp As s l d.
Proof.
  induction As as [|A As IH]; intros W k Ts X Y s l d HT Hk HW HN HC Hs Hl Hd; [congruence|].
  inversion HT as [|? ? ? T Ts' HA HT']; subst. destruct HC as [<- HC]. inversion Hs as [|x dx s' ds Hx Hs']; subst. unfold tile in HA.
  destruct (Nat.eqb_spec k 0); [lia|]. cbn [length] in *. destruct As as [|A' As].
  - inversion HT'; subst. inversion Hs'; subst. cbn in HC. subst Y. cbn [length] in HA. destruct (Nat.eqb_spec k (k + 1 - 1)); [|lia]. destruct HA as [HS HE].
    cbn [length Nat.sub repeat app].
    rewrite cells_cons. cbn [rowS cells combine map cellof cr ce amp]. unfold leg. rewrite HS. cbn [nth]. rewrite (sum_dlt_r (dr A) d (fun k0 => ent A x l k0)) by assumption.
    rewrite (sum_dlt_r 1 0%nat (fun k0 => te T [x; 0%nat; k0; d; l])) by lia. apply HE; assumption.
  - cbn [length] in *. destruct (Nat.eqb_spec k (k + S (S (length As)) - 1)); [lia|]. destruct HA as [HS HE].
    assert (Q := fun l' Hl' => IH _ (S k) Ts' (dr A) Y s' l' d HT' ltac:(lia) ltac:(lia) ltac:(congruence) HC Hs' Hl' Hd).
    cbn [Nat.sub repeat app] in *. rewrite Nat.sub_0_r in Q. rewrite cells_cons. cbn [rowS cellof cr ce]. cbn [amp]. unfold leg. rewrite HS. cbn [nth]. apply sum_ext. intros q Hq.
    rewrite (Q q Hq). f_equal. now apply HE.
Qed.

Lemma first_right As W Ts X Y : tiles true W 0 As Ts -> length As = W -> (1 < W)%nat -> chain X As Y ->
  row_ok 1 Ts 1 /\ map (leg 1) Ts = X :: repeat 1%nat (W - 1) /\ map (leg 3) Ts = repeat 1%nat (W - 1) ++ [Y] /\ map (leg 0) Ts = dims As /\
  forall s u d, incfg (dims As) s -> (u < X)%nat -> (d < Y)%nat -> rowS (cells Ts s) (u :: repeat 0%nat (W - 1)) (repeat 0%nat (W - 1) ++ [d]) 0 0 = amp As s u d.
Proof.
  intros HT HL HW HC. inversion HT as [|? A As' T Ts' HA HT']; subst; [cbn in HW; lia|]. destruct HC as [<- HC]. cbn [length] in *. unfold tile in HA. cbn [Nat.eqb] in HA. destruct HA as [HS HE].
  assert (HN : As' <> []) by (intros ->; cbn in HW; lia).
  destruct (rest_right As' _ 1 Ts' (dr A) Y HT' ltac:(lia) ltac:(lia) HN HC) as (Q1 & Q2 & Q3 & Q4). cbn [Nat.sub] in *. rewrite Nat.sub_0_r.
  assert (HN2 : length As' = S (length As' - 1)) by (destruct As'; [congruence|cbn; lia]).
  split; [|split; [|split; [|split]]].
  - cbn [row_ok]. unfold leg. rewrite HS. cbn [nth length]. auto.
  - cbn [map]. rewrite Q2. unfold leg. now rewrite HS.
  - cbn [map]. rewrite Q3. unfold leg. rewrite HS. cbn [nth]. rewrite HN2 at 2. reflexivity.
  - cbn [map dims]. rewrite Q4. unfold leg. now rewrite HS.
  - intros s u d Hs Hu Hd. inversion Hs as [|x dx s' ds Hx Hs']; subst. rewrite cells_cons. rewrite HN2 at 2. cbn [repeat app rowS cellof cr ce amp]. unfold leg. rewrite HS. cbn [nth]. apply sum_ext. intros q Hq.
    rewrite (rest_right_value As' _ 1 Ts' (dr A) Y s' q d HT' ltac:(lia) ltac:(lia) HN HC Hs' Hq Hd). f_equal. now apply HE.
Qed.

(** * To the left *)
Lemma cells_snoc (row : list (tens R)) A s x : length s = length row -> cells (row ++ [A]) (s ++ [x]) = cells row s ++ [cellof A x].
Proof. intros H. now rewrite cells_app by assumption. Qed.

Lemma rest_left As : forall W k Ts X Y, tiles false W k As Ts -> (0 < k)%nat -> (k + length As = W)%nat -> As <> [] -> chain X As Y ->
  row_ok 1 (rev Ts) X /\ map (leg 1) Ts = repeat 1%nat (length As) /\ map (leg 3) Ts = repeat 1%nat (length As - 1) ++ [Y] /\ map (leg 0) Ts = dims As.
Proof.
  induction As as [|A As IH]; intros W k Ts X Y HT Hk HW HN HC; [congruence|].
  inversion HT as [|? ? ? T Ts' HA HT']; subst. destruct HC as [<- HC]. unfold tile in HA.
  destruct (Nat.eqb_spec k 0); [lia|]. cbn [length] in *. destruct As as [|A' As].
  - inversion HT'; subst. cbn in HC. subst Y. cbn [length] in HA. destruct (Nat.eqb_spec k (k + 1 - 1)); [|lia]. destruct HA as [HS HE].
    cbn [length Nat.sub repeat rev app map row_ok dims]. unfold leg. rewrite HS. cbn [nth length]. auto.
  - cbn [length] in *. destruct (Nat.eqb_spec k (k + S (S (length As)) - 1)); [lia|]. destruct HA as [HS HE].
    destruct (IH _ (S k) Ts' (dr A) Y HT' ltac:(lia) ltac:(lia) ltac:(congruence) HC) as (Q1 & Q2 & Q3 & Q4). split.
    + cbn [rev]. apply (row_ok_app _ _ _ (dr A)); [exact Q1|]. cbn [row_ok]. unfold leg. rewrite HS. cbn [nth length]. auto.
    + cbn [Nat.sub repeat app map dims] in *. rewrite Q2, Q3, Q4. unfold leg. rewrite HS. cbn [nth length]. rewrite Nat.sub_0_r. auto.
Qed.

Lemma rowS_last (row : list (tens R)) (A : tens R) s x us u ds d l z r : length s = length row -> length us = length row -> length ds = length row -> row_ok l row z -> (0 < l)%nat -> (r < leg 2 A)%nat ->
  rowS (cells (row ++ [A]) (s ++ [x])) (us ++ [u]) (ds ++ [d]) 0 r = sum z (fun k => rowS (cells row s) us ds 0 k * te A [x; u; r; d; k]).
Proof.
  intros Hs Hu Hd Hrow Hl Hr. rewrite cells_snoc by assumption. rewrite (rowS_app _ _ _ _ _ _ l 0%nat r) by (rewrite ?cells_length; assumption). rewrite (row_ok_lastR row s l z) by assumption.
  apply sum_ext. intros k Hk. f_equal. now apply rowS_one.
Qed.

Lemma rev_zeros_snoc n (d : nat) : rev (repeat 0%nat n ++ [d]) = d :: repeat 0%nat n.
Proof. rewrite rev_app_distr. cbn [rev app]. now rewrite rev_repeat. Qed.

Lemma rest_left_value As : forall W k Ts X Y s r d, tiles false W k As Ts -> (0 < k)%nat -> (k + length As = W)%nat -> As <> [] -> chain X As Y -> incfg (dims As) s -> (r < X)%nat -> (d < Y)%nat ->
  rowS (cells (rev Ts) (rev s)) (repeat 0%nat (length As)) (d :: repeat 0%nat (length As - 1)) 0 r = amp As s r d.
Proof.
  induction As as [|A As IH]; intros W k Ts X Y s r d HT Hk HW HN HC Hs Hr Hd; [congruence|].
  inversion HT as [|? ? ? T Ts' HA HT']; subst. destruct HC as [<- HC]. inversion Hs as [|x dx s' ds Hx Hs']; subst. unfold tile in HA.
  destruct (Nat.eqb_spec k 0); [lia|]. cbn [length] in *. destruct As as [|A' As].
  - inversion HT'; subst. inversion Hs'; subst. cbn in HC. subst Y. cbn [length] in HA. destruct (Nat.eqb_spec k (k + 1 - 1)); [|lia]. destruct HA as [HS HE].
    cbn [length Nat.sub repeat rev app].
    rewrite cells_cons. cbn [rowS cells combine map cellof cr ce amp]. unfold leg. rewrite HS. cbn [nth]. rewrite (sum_dlt_r (dr A) d (fun k0 => ent A x r k0)) by assumption.
    rewrite (sum_dlt_r (dl A) r (fun k0 => te T [x; 0%nat; k0; d; 0%nat])) by assumption. apply HE; assumption.
  - cbn [length] in *. destruct (Nat.eqb_spec k (k + S (S (length As)) - 1)); [lia|]. destruct HA as [HS HE].
    assert (Q := fun l' Hl' => IH _ (S k) Ts' (dr A) Y s' l' d HT' ltac:(lia) ltac:(lia) ltac:(congruence) HC Hs' Hl' Hd).
    destruct (rest_left _ _ (S k) Ts' (dr A) Y HT' ltac:(lia) ltac:(cbn [length]; lia) ltac:(congruence) HC) as (Q1 & _). assert (LT := tiles_len _ _ _ _ _ HT'). cbn [length] in LT.
    assert (Ls := incfg_length _ _ Hs'). unfold dims in Ls. rewrite map_length in Ls. cbn [length] in Ls.
    cbn [Nat.sub] in *. rewrite Nat.sub_0_r in Q. cbn [rev]. rewrite (repeat_snoc 0%nat (S (length As))). replace (d :: repeat 0%nat (S (length As))) with ((d :: repeat 0%nat (length As)) ++ [0%nat]) by (cbn [app]; now rewrite <- repeat_snoc).
    rewrite (rowS_last (rev Ts') T (rev s') x _ 0%nat _ 0%nat 1 (dr A) r) by (auto; rewrite ?rev_length, ?repeat_length; cbn [length]; rewrite ?repeat_length; try lia; unfold leg; rewrite HS; cbn [nth]; assumption).
    cbn [amp]. apply sum_ext. intros q Hq. rewrite (Q q Hq). rewrite (Rmul_comm (s_th R)). f_equal. now apply HE.
Qed.

Lemma first_left As W Ts X Y : tiles false W 0 As Ts -> length As = W -> (1 < W)%nat -> chain X As Y ->
  row_ok 1 (rev Ts) 1 /\ map (leg 1) (rev Ts) = repeat 1%nat (W - 1) ++ [X] /\ map (leg 3) (rev Ts) = Y :: repeat 1%nat (W - 1) /\ map (leg 0) (rev Ts) = rev (dims As) /\
  forall s u d, incfg (dims As) s -> (u < X)%nat -> (d < Y)%nat -> rowS (cells (rev Ts) (rev s)) (repeat 0%nat (W - 1) ++ [u]) (d :: repeat 0%nat (W - 1)) 0 0 = amp As s u d.
Proof.
  intros HT HL HW HC. inversion HT as [|? A As' T Ts' HA HT']; subst; [cbn in HW; lia|]. destruct HC as [<- HC]. cbn [length] in *. unfold tile in HA. cbn [Nat.eqb] in HA. destruct HA as [HS HE].
  assert (HN : As' <> []) by (intros ->; cbn in HW; lia).
  destruct (rest_left As' _ 1 Ts' (dr A) Y HT' ltac:(lia) ltac:(lia) HN HC) as (Q1 & Q2 & Q3 & Q4). cbn [Nat.sub] in *. rewrite Nat.sub_0_r.
  assert (HN2 : length As' = S (length As' - 1)) by (destruct As'; [congruence|cbn; lia]). assert (LT := tiles_len _ _ _ _ _ HT').
  split; [|split; [|split; [|split]]].
  - cbn [rev]. apply (row_ok_app _ _ _ (dr A)); [exact Q1|]. cbn [row_ok]. unfold leg. rewrite HS. cbn [nth length]. auto.
  - rewrite map_rev. cbn [map rev]. rewrite Q2, rev_repeat. unfold leg. now rewrite HS.
  - rewrite map_rev. cbn [map rev]. rewrite Q3. rewrite rev_app_distr. cbn [rev app]. rewrite rev_repeat. unfold leg. rewrite HS. cbn [nth]. rewrite <- repeat_snoc, <- HN2. reflexivity.
  - rewrite map_rev. cbn [map dims]. rewrite Q4. unfold leg. now rewrite HS.
  - intros s u d Hs Hu Hd. inversion Hs as [|x dx s' ds Hx Hs']; subst. assert (Ls := incfg_length _ _ Hs'). unfold dims in Ls. rewrite map_length in Ls. cbn [rev].
    replace (d :: repeat 0%nat (length As')) with ((d :: repeat 0%nat (length As' - 1)) ++ [0%nat]) by (cbn [app]; rewrite <- repeat_snoc; now rewrite <- HN2).
    rewrite (rowS_last (rev Ts') T (rev s') x _ u _ 0%nat 1 (dr A) 0%nat) by (auto; rewrite ?rev_length, ?repeat_length; cbn [length]; rewrite ?repeat_length; try lia; unfold leg; rewrite HS; cbn [nth]; lia).
    cbn [amp]. apply sum_ext. intros q Hq. rewrite (rest_left_value As' _ 1 Ts' (dr A) Y s' q d HT' ltac:(lia) ltac:(lia) HN HC Hs' Hq Hd). rewrite (Rmul_comm (s_th R)). f_equal. now apply HE.
Qed.

(** * The grid *)
Definition place (b : bool) (z W u : nat) : list nat := if b then u :: repeat z (W - 1) else repeat z (W - 1) ++ [u].

Lemma place_same b z W : (0 < W)%nat -> place b z W z = repeat z W.
Proof. intros H. destruct W as [|W]; [lia|]. unfold place. cbn [Nat.sub]. rewrite Nat.sub_0_r. destruct b; [reflexivity|]. now rewrite <- repeat_snoc. Qed.

Lemma dltl_zeros n : (dltl (repeat 0%nat n) (repeat 0%nat n) : R) = 1.
Proof. induction n as [|n IH]; [reflexivity|]. cbn [repeat dltl]. rewrite dlt_eq, IH. ring. Qed.
Lemma dltl_place b W u d : (dltl (place b 0 W u) (place b 0 W d) : R) = dlt u d.
Proof.
  unfold place. generalize (W - 1)%nat as n. intros n. destruct b; [cbn [dltl]; rewrite dltl_zeros; ring|]. induction n as [|n IH]; cbn [repeat app dltl]; [ring|]. rewrite IH, dlt_eq. ring.
Qed.

Lemma sumcfg_place b W Z (f : list nat -> R) : sumcfg (place b 1 W Z) f = sum Z (fun q => f (place b 0 W q)).
Proof.
  unfold place. destruct b.
  - cbn [sumcfg]. apply sum_ext. intros q Hq. apply (sumcfg_ones (W - 1) (fun s => f (q :: s))).
  - rewrite sumcfg_app. rewrite sumcfg_ones. cbn [sumcfg]. reflexivity.
Qed.

Lemma first_any b As W Ts X Y : tiles b W 0 As Ts -> length As = W -> (1 < W)%nat -> chain X As Y ->
  row_ok 1 (turn b Ts) 1 /\ map (leg 1) (turn b Ts) = place b 1 W X /\ map (leg 3) (turn b Ts) = place (negb b) 1 W Y /\ map (leg 0) (turn b Ts) = turn b (dims As) /\
  forall s u d, incfg (dims As) s -> (u < X)%nat -> (d < Y)%nat -> rowS (cells (turn b Ts) (turn b s)) (place b 0 W u) (place (negb b) 0 W d) 0 0 = amp As s u d.
Proof. destruct b; [apply first_right|apply first_left]. Qed.

Inductive laid (W : nat) : nat -> list (list (site R)) -> list (list (tens R)) -> Prop :=
| laid_nil j : laid W j [] []
| laid_cons j As rows Ts data : tiles (Nat.even j) W 0 As Ts -> laid W (S j) rows data -> laid W j (As :: rows) (turn (Nat.even j) Ts :: data).

Lemma even_S j : Nat.even (S j) = negb (Nat.even j).
Proof. rewrite Nat.even_succ. now rewrite <- Nat.negb_even. Qed.

Lemma thinl_place b W Z : thinl (place b 1 W Z).
Proof.
  unfold place. generalize (W - 1)%nat as n. intros n. assert (O : forall i, nth i (repeat 1%nat n) 1%nat = 1%nat) by (induction n as [|n IH]; intros [|i]; cbn; auto). destruct b; intros i k Hik.
  - destruct i as [|i]; [|left; cbn [nth]; apply O]. destruct k as [|k]; [lia|]. right. cbn [nth]. apply O.
  - destruct (Nat.eq_dec i n) as [->|Hi].
    + right. destruct (le_lt_dec n k); [apply nth_overflow; rewrite app_length, repeat_length; cbn; lia|]. rewrite app_nth1 by (rewrite repeat_length; lia). apply O.
    + left. destruct (le_lt_dec n i); [apply nth_overflow; rewrite app_length, repeat_length; cbn; lia|]. rewrite app_nth1 by (rewrite repeat_length; lia). apply O.
Qed.

Lemma laid_shape W j rows data : laid W j rows data -> (1 < W)%nat -> Forall (fun r => length r = W) rows -> forall X Y, chain X (concat rows) Y ->
  rows_ok (place (Nat.even j) 1 W X) data (place (Nat.even (j + length rows)) 1 W Y) /\ legs_of 0 data = turnl (snakeb j (length rows)) (map dims rows) /\
  Forall (fun r => length r = W) data /\ Forall (fun r => thinl (map (leg 3) r)) data /\ length data = length rows.
Proof.
  induction 1 as [j|j As rows Ts data HT HL IH]; intros HW HF X Y HC.
  - cbn in HC. subst. cbn [rows_ok length legs_of map turnl snakeb]. rewrite Nat.add_0_r. auto.
  - inversion HF; subst. cbn [concat] in HC. apply chain_app in HC. destruct HC as (Z & HC1 & HC2). destruct (first_any _ _ _ _ _ _ HT eq_refl HW HC1) as (Q1 & Q2 & Q3 & Q4 & _).
    destruct (IH HW H2 Z Y HC2) as (P1 & P2 & P3 & P4 & P5). cbn [rows_ok length legs_of map turnl snakeb]. rewrite even_S in P1. split; [|split; [|split; [|split]]].
    + split; [assumption|]. split; [assumption|]. rewrite Q3. now replace (j + S (length rows))%nat with (S j + length rows)%nat by lia.
    + rewrite Q4. f_equal. exact P2.
    + constructor; [|assumption]. rewrite turn_length. now apply tiles_len in HT.
    + constructor; [|assumption]. rewrite Q3. apply thinl_place.
    + now f_equal.
Qed.

Lemma laid_value W j rows data : laid W j rows data -> (1 < W)%nat -> Forall (fun r => length r = W) rows -> forall X Y, chain X (concat rows) Y ->
  forall t u d, ingrid (map dims rows) t -> (u < X)%nat -> (d < Y)%nat ->
  gridS (cellss data (turnl (snakeb j (length rows)) t)) (place (Nat.even j) 0 W u) (place (Nat.even (j + length rows)) 0 W d) (repeat 0%nat (length rows)) (repeat 0%nat (length rows))
  = amp (concat rows) (concat t) u d.
Proof.
  induction 1 as [j|j As rows Ts data HT HL IH]; intros HW HF X Y HC t u d Ht Hu Hd.
  - inversion Ht; subst. cbn [length snakeb turnl cellss combine map repeat gridS concat amp]. rewrite Nat.add_0_r. apply dltl_place.
  - inversion HF; subst. inversion Ht as [|x yy ss dss' Hx Hs']; subst. cbn [concat] in *. apply chain_app in HC. destruct HC as (Z & HC1 & HC2). destruct (first_any _ _ _ _ _ _ HT eq_refl HW HC1) as (Q1 & Q2 & Q3 & Q4 & Q5).
    assert (Lx := incfg_length _ _ Hx). unfold dims in Lx. rewrite map_length in Lx. assert (LT := tiles_len _ _ _ _ _ HT).
    rewrite (amp_app As (concat rows) x (concat ss) u Z X Lx HC1 Hu d).
    cbn [length snakeb turnl]. unfold cellss. cbn [combine map fst snd repeat gridS]. fold (cellss data (turnl (snakeb (S j) (length rows)) ss)).
    rewrite cells_cd by (rewrite !turn_length; congruence). rewrite Q3, sumcfg_place. apply sum_ext. intros q Hq. rewrite (Q5 x u q Hx Hu Hq). f_equal.
    rewrite <- (IH HW H2 Z Y HC2 ss q d Hs' Hq Hd). rewrite even_S. now replace (j + S (length rows))%nat with (S j + length rows)%nat by lia.
Qed.

Definition chop {A} (W n : nat) (l : list A) : list (list A) := map (fun j => firstn W (skipn (W * j) l)) (seq 0 n).

Lemma chop_S {A} W n (l : list A) : chop W (S n) l = firstn W l :: chop W n (skipn W l).
Proof.
  unfold chop. cbn [seq map]. rewrite Nat.mul_0_r. cbn [skipn]. f_equal. rewrite <- seq_shift, map_map. apply map_ext. intros j. f_equal. rewrite Nat.mul_succ_r. clear. generalize (W * j)%nat as k. revert l.
  induction W as [|W IH]; intros l k; [now rewrite Nat.add_0_r|]. destruct l as [|x l]; [now rewrite !skipn_nil|]. rewrite Nat.add_succ_r. cbn [skipn]. apply IH.
Qed.
Lemma chop_concat {A} W n : forall l : list A, length l = (W * n)%nat -> concat (chop W n l) = l /\ Forall (fun r => length r = W) (chop W n l) /\ length (chop W n l) = n.
Proof.
  induction n as [|n IH]; intros l HL.
  - rewrite Nat.mul_0_r in HL. destruct l; [|discriminate]. cbn. auto.
  - rewrite chop_S. rewrite Nat.mul_succ_r in HL. destruct (IH (skipn W l)) as (E & F & L); [rewrite skipn_length; lia|]. cbn [concat length]. rewrite E, L. split; [apply firstn_skipn|]. split; [|reflexivity].
    constructor; [|assumption]. rewrite firstn_length. lia.
Qed.
Lemma chop_map {A B} (f : A -> B) W n : forall l, chop W n (map f l) = map (map f) (chop W n l).
Proof. intros l. unfold chop. rewrite map_map. apply map_ext. intros j. now rewrite skipn_map, firstn_map. Qed.

Lemma lay_rows W (g : nat -> list (site R)) : (1 < W)%nat -> forall n j, (forall i, (j <= i < j + n)%nat -> length (g i) = W) ->
  exists data, mapM (fun j => snake_row W 0 j (if Nat.even j then g j else rev (g j))) (seq j n) = Ok data /\ laid W j (map g (seq j n)) data.
Proof.
  intros HW. induction n as [|n IH]; intros j Hg; [exists []; split; [reflexivity|constructor]|].
  destruct (IH (S j)) as (data & E & HL); [intros i Hi; apply Hg; lia|]. cbn [seq mapM map]. assert (Lg := Hg j ltac:(lia)). destruct (Nat.even j) eqn:Ej.
  - destruct (row_even W j (g j) Ej HW 0 ltac:(lia)) as (Ts & E1 & HT). rewrite E1. cbn [bind]. rewrite E. exists (Ts :: data). split; [reflexivity|]. change Ts with (turn true Ts). rewrite <- Ej. constructor; [now rewrite Ej|assumption].
  - destruct (row_odd W j (rev (g j)) Ej HW 0 ltac:(rewrite rev_length; lia)) as (Ts & E1 & HT). rewrite rev_involutive, rev_length, Lg in HT. rewrite Nat.sub_0_r, Nat.sub_diag in HT.
    rewrite E1. cbn [bind]. rewrite E. exists (Ts :: data). split; [reflexivity|]. replace Ts with (turn false (rev Ts)) by (cbn [turn]; apply rev_involutive). rewrite <- Ej. constructor; [now rewrite Ej|assumption].
Qed.

Lemma turnl_twice {A} bs : forall g : list (list A), length bs = length g -> turnl bs (turnl bs g) = g.
Proof. induction bs as [|b bs IH]; intros [|r g] H; try discriminate; [reflexivity|]. cbn [turnl]. f_equal; [|apply IH; cbn in H; lia]. destruct b; cbn [turn]; [reflexivity|apply rev_involutive]. Qed.

Lemma turnl_snaked H W s : grid H W s -> snaked H W s (turnl (snakeb 0 H) s).
Proof.
  intros Hs. split; [apply turnl_grid; auto using snakeb_length|]. intros j i Hj Hi. assert (Lr := grid_row _ _ _ _ Hs Hj). destruct Hs as [HL HF]. unfold at_. rewrite turnl_nth by (rewrite ?snakeb_length; lia).
  rewrite snakeb_nth by assumption. cbn [Nat.add]. destruct (Nat.even j); cbn [turn]; [reflexivity|]. rewrite rev_nth by lia. f_equal. lia.
Qed.

Lemma thinl_thin H W (data : list (list (tens R))) : grid H W data -> Forall (fun r => thinl (map (leg 3) r)) data -> thin H W data.
Proof.
  intros HG HF j i k Hj Hi Hk Hik. assert (Lr := grid_row _ _ _ j HG ltac:(lia)). rewrite Forall_forall in HF. destruct HG as [HL _].
  assert (HIn : In (nth j data []) data) by (apply nth_In; lia). assert (T := HF _ HIn i k Hik).
  assert (E : forall i, (i < W)%nat -> nth i (map (leg 3) (nth j data [])) 1%nat = leg 3 (site_at data j i)).
  { intros i' Hi'. unfold site_at, at_. rewrite (nth_indep _ _ (leg 3 (mkT [] (fun _ => 0 : R)))) by (rewrite map_length; lia). apply map_nth. }
  now rewrite !E in T.
Qed.

Lemma from_mps_ok (m : fmps R) W H : wf m -> (1 < W)%nat -> (0 < H)%nat -> fL m = (W * H)%nat ->
  exists p, peps_from_mps m (Some W) = Ok p /\ peps_ok H W (pdata p) /\ thin H W (pdata p) /\ pLx p = H /\ pLy p = W /\ poc p = None /\
    (forall dss, snaked H W (legs_of 0 (pdata p)) dss -> concat dss = dims (fdata m)) /\
    forall s t, ingrid (legs_of 0 (pdata p)) s -> snaked H W s t -> pamp H W (pdata p) s = psi m (concat t).
Proof.
  intros (HC & HL & HN) HW HH HF. destruct (chop_concat W H (fdata m) ltac:(lia)) as (CC & CF & CL).
  destruct (lay_rows W (fun j => firstn W (skipn (W * j) (fdata m))) HW H 0) as (data & E & HD).
  { intros i Hi. rewrite firstn_length, skipn_length. assert (W * S i <= W * H)%nat by (apply Nat.mul_le_mono_l; lia). nia. }
  change (map (fun j => firstn W (skipn (W * j) (fdata m))) (seq 0 H)) with (chop W H (fdata m)) in HD.
  unfold closed in HC. rewrite <- CC in HC. destruct (laid_shape _ _ _ _ HD HW CF 1 1 HC) as (S1 & S2 & S3 & S4 & S5). rewrite CL in *. rewrite !place_same in S1 by lia.
  assert (Hok : peps_ok H W data) by (apply peps_rec; repeat split; auto; lia). assert (GG : grid H W data) by (now split).
  exists (mkPeps data H W (leg 0 (site_at data 0 0)) (list_max (concat (map (fun x => tl (tsh x)) (concat data)))) None).
  split; [|cbn [pdata pLx pLy poc]; split; [assumption|split; [now apply thinl_thin|do 3 (split; [reflexivity|]); split]]].
  - unfold peps_from_mps. destruct W as [|W']; [lia|]. cbn [bind]. replace (fL m / S W')%nat with H by (rewrite HF; symmetry; rewrite Nat.mul_comm; apply Nat.div_mul; lia).
    rewrite E. cbn [bind]. rewrite (init_ok H (S W') data Hok). reflexivity.
  - intros dss Hd. rewrite (snaked_turnl H W _ _ (legs_grid 0 _ _ _ GG) Hd), S2, turnl_twice by (rewrite map_length, snakeb_length; now symmetry).
    unfold dims. rewrite <- (concat_map (fun A : site R => phys A)). now rewrite CC.
  - intros s t Hs Hst. assert (Gs : grid H W s) by (apply (ingrid_grid _ _ (legs_of 0 data)); [now apply legs_grid|assumption]).
    rewrite (pamp_gridS H W) by assumption. assert (Et := snaked_turnl _ _ _ _ Gs Hst). assert (Es : s = turnl (snakeb 0 H) t) by (rewrite Et; symmetry; apply turnl_twice; rewrite snakeb_length; now destruct Gs).
    assert (It : ingrid (map dims (chop W H (fdata m))) t).
    { rewrite Et. rewrite <- (turnl_twice (snakeb 0 H) (map dims (chop W H (fdata m)))) by (rewrite map_length, snakeb_length; now symmetry). rewrite <- S2. apply turnl_ingrid; [|assumption]. unfold legs_of. now rewrite map_length, snakeb_length. }
    assert (V := laid_value _ _ _ _ HD HW CF 1 1 HC t 0%nat 0%nat It ltac:(lia) ltac:(lia)). rewrite CL in V. rewrite !place_same in V by lia. rewrite CC in V. rewrite <- Es in V. exact V.
Qed.

Lemma from_mps_square (m : fmps R) W : (0 < W)%nat -> fL m = (W * W)%nat -> peps_from_mps m None = peps_from_mps m (Some W).
Proof.
  intros HW HF. destruct W as [|W]; [lia|]. unfold peps_from_mps. rewrite HF. rewrite Nat.sqrt_square, Nat.eqb_refl. rewrite Nat.div_mul by lia. reflexivity.
Qed.

Lemma from_mps_state (m : fmps R) W H : wf m -> (1 < W)%nat -> (0 < H)%nat -> fL m = (W * H)%nat ->
  exists p T, peps_from_mps m (Some W) = Ok p /\ peps_recombine_snake p = Ok T /\ size T = prod_ (dims (fdata m)) /\
    forall s, incfg (dims (fdata m)) s -> flat T (position (dims (fdata m)) s) = psi m s.
Proof.
  intros Hwf HW HH HF. destruct (from_mps_ok m W H Hwf HW HH HF) as (p & E & Hok & Hth & _ & _ & _ & HD & HA). destruct (snake_ok H W p Hok Hth) as (T & ET & ST & HT).
  exists p, T. split; [exact E|]. split; [exact ET|]. assert (GG : grid H W (pdata p)) by apply Hok. assert (GL := legs_grid 0 _ _ _ GG).
  assert (SN := turnl_snaked H W _ GL). set (dss := turnl (snakeb 0 H) (legs_of 0 (pdata p))) in *. assert (CD := HD dss SN).
  assert (LL : length (snakeb 0 H) = length (legs_of 0 (pdata p))) by (rewrite snakeb_length; symmetry; apply GL). split.
  - rewrite ST, <- CD. rewrite !prod_concat. f_equal. unfold dss. revert LL. generalize (snakeb 0 H) as bs. generalize (legs_of 0 (pdata p)) as g.
    clear. induction g as [|r g IH]; intros [|b bs] LL; try discriminate; [reflexivity|]. cbn [turnl map]. rewrite prod_turn. f_equal. apply IH. cbn in LL. lia.
  - intros s Hs. assert (Ls := incfg_length _ _ Hs). unfold dims in Ls. rewrite map_length in Ls. destruct Hwf as (_ & HL & _).
    destruct (chop_concat W H s ltac:(lia)) as (CC & CF & CL). set (t := chop W H s) in *. assert (Gt : grid H W t) by (now split).
    assert (Hid : ingrid dss t).
    { assert (Gd : grid H W dss) by apply SN. rewrite <- CC, <- CD in Hs. clear - Hs Gt Gd. destruct Gt as [L1 F1]. destruct Gd as [L2 F2]. rewrite <- L2 in L1. clear L2. revert Hs L1 F1 F2. generalize dss as ess. generalize t as tt. clear.
      induction tt as [|r tt IH]; intros [|ds dss] Hs L F1 F2; try discriminate; [constructor|]. inversion F1; subst. inversion F2; subst. cbn [concat] in Hs.
      apply incfg_app_inv in Hs. destruct Hs as (a & b & E & Ha & Hb). assert (La := incfg_length _ _ Ha). apply app_inv_len in E; [|congruence]. destruct E as [<- <-].
      constructor; [exact Ha|]. apply IH; auto. }
    set (s0 := turnl (snakeb 0 H) t). assert (E0 : turnl (snakeb 0 H) s0 = t) by (apply turnl_twice; rewrite snakeb_length; symmetry; apply Gt).
    assert (G0 : grid H W s0) by (apply turnl_grid; auto using snakeb_length).
    assert (I0 : ingrid (legs_of 0 (pdata p)) s0).
    { rewrite <- (turnl_twice (snakeb 0 H) (legs_of 0 (pdata p)) LL). apply turnl_ingrid; [|exact Hid]. rewrite snakeb_length. symmetry. apply SN. }
    assert (SN0 := turnl_snaked H W _ G0). rewrite E0 in SN0. rewrite <- CD, <- CC. rewrite (HT s0 t dss I0 SN0 SN). exact (HA s0 t I0 SN0).
Qed.
End Lay.
