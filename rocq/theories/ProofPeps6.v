(** Flipping a PEPS left to right and upside down. *)
From Verif Require Import Alg ModelMPS ModelNcon ModelEk ModelNp ModelTensor ModelPeps SpecTensor SpecPeps ProofEk4 ProofTrace ProofTrace2 ProofNp ProofPeps ProofPeps2 ProofPeps3 ProofPeps4 ProofPeps5.
From Coq Require Import Permutation.
Import ListNotations.
Local Notation prod_ := (fold_right Nat.mul 1%nat).

Section Flip.
Context {R : sring}.
Local Open Scope sr_scope.
Add Ring Rr : (s_th R).
Notation T0 := (mkT [] (fun _ => 0 : R)).

Lemma sumcfg_rev ds : forall (f : list nat -> R), sumcfg (rev ds) f = sumcfg ds (fun w => f (rev w)).
Proof.
  induction ds as [|d ds IH]; intros f; [reflexivity|]. cbn [rev]. rewrite sumcfg_app. rewrite IH. cbn [sumcfg].
  rewrite sumcfg_sum. reflexivity.
Qed.

Lemma incfg_rev ds s : incfg ds s -> incfg (rev ds) (rev s).
Proof.
  induction 1 as [|x d s ds Hx _ IH]; [constructor|]. cbn [rev]. apply Forall2_app; [exact IH|]. constructor; [assumption|constructor].
Qed.

Notation flipped := (permuted [0; 1; 4; 3; 2]%nat).

Lemma flipped_legs (A B : tens R) : flipped A B -> length (tsh B) = 5%nat /\ leg 0 B = leg 0 A /\ leg 1 B = leg 1 A /\ leg 2 B = leg 4 A /\ leg 3 B = leg 3 A /\ leg 4 B = leg 2 A.
Proof. intros [H _]. unfold leg at 1 3 5 7 9. rewrite H. cbn. auto 10. Qed.

Lemma row_ok_app (a : list (tens R)) : forall b l m r, row_ok l a m -> row_ok m b r -> row_ok l (a ++ b) r.
Proof.
  induction a as [|A a IH]; intros b l m r Ha Hb; cbn [app row_ok] in *; [now subst|]. destruct Ha as (H5 & H4 & Ha). split; [assumption|]. split; [assumption|]. eapply IH; eassumption.
Qed.

Lemma flip_row_ok (row row1 : list (tens R)) : Forall2 flipped row row1 -> forall l r, row_ok l row r -> row_ok r (rev row1) l.
Proof.
  induction 1 as [|A B row row1 HA HF IH]; intros l r Hr; cbn [row_ok rev] in *; [now symmetry|]. destruct Hr as (H5 & H4 & Hr).
  apply (row_ok_app _ _ _ (leg 2 A)); [now apply IH|]. destruct (flipped_legs A B HA) as (K5 & K0 & K1 & K2 & K3 & K4). cbn [row_ok]. rewrite K4, K2. auto.
Qed.

Lemma forall2_length {X Y} (P : X -> Y -> Prop) l l' : Forall2 P l l' -> length l = length l'.
Proof. induction 1; cbn; congruence. Qed.

Lemma rowS_rev (row row1 : list (tens R)) : Forall2 flipped row row1 -> forall L Rr s us ds l r, row_ok L row Rr -> length s = length row -> length us = length row -> length ds = length row ->
  (l < L)%nat -> (r < Rr)%nat -> rowS (cells (rev row1) (rev s)) (rev us) (rev ds) r l = rowS (cells row s) us ds l r.
Proof.
  induction 1 as [|A B row row1 HA HF IH]; intros L Rr s us ds l r Hrow Hs Hu Hd Hl Hr.
  - destruct s; [|discriminate]. destruct us; [|discriminate]. destruct ds; [|discriminate]. cbn. apply dlt_sym.
  - destruct s as [|x s]; [discriminate|]. destruct us as [|u us]; [discriminate|]. destruct ds as [|d ds]; [discriminate|]. cbn in Hs, Hu, Hd.
    destruct Hrow as (H5 & H4 & Hrow). destruct (flipped_legs A B HA) as (K5 & K0 & K1 & K2 & K3 & K4). assert (HL := forall2_length _ _ _ HF).
    cbn [rev]. rewrite cells_app by (rewrite !rev_length; lia). rewrite (rowS_app _ _ _ _ _ _ Rr r l) by (rewrite ?cells_length; rewrite ?rev_length; lia).
    rewrite (row_ok_lastR (rev row1) (rev s) Rr (leg 2 A)) by (rewrite ?rev_length; try lia; now apply (flip_row_ok row)).
    rewrite !cells_cons. cbn [rowS cellof cr ce]. apply sum_ext. intros k Hk. rewrite (IH (leg 2 A) Rr s us ds k r) by (auto; lia).
    change (rowS (cells [] []) [] []) with (fun a b : nat => dlt a b : R). cbv beta.
    replace (sum (leg 2 B) (fun k0 => te B [x; u; k0; d; k] * dlt k0 l)) with (te B [x; u; l; d; k]).
    + destruct HA as [_ HE]. assert (E := HE [x; u; k; d; l] eq_refl). cbn in E. rewrite E. ring.
    + symmetry. apply (sum_dlt_r (leg 2 B) l (fun k0 => te B [x; u; k0; d; k])). rewrite K2. lia.
Qed.

Lemma gridS_mirror W (data data1 : list (list (tens R))) : Forall2 (Forall2 flipped) data data1 -> forall us0 ds0 s us ds, Forall (fun r => length r = W) data -> rows_ok us0 data ds0 ->
  grid (length data) W s -> length us = W -> length ds = W ->
  gridS (cellss (map (@rev _) data1) (map (@rev _) s)) (rev us) (rev ds) (repeat 0%nat (length data)) (repeat 0%nat (length data))
  = gridS (cellss data s) us ds (repeat 0%nat (length data)) (repeat 0%nat (length data)).
Proof.
  induction 1 as [|row row1 data data1 Hrow HF IH]; intros us0 ds0 s us ds HW Hok [Ls Fs] Hu Hd.
  - destruct s; [|discriminate]. cbn [map cellss combine length repeat gridS]. revert ds W HW Fs Hu Hd. induction us as [|u us IHu]; intros [|d ds] W HW Fs Hu Hd; cbn in Hu, Hd; try lia; [reflexivity|].
    cbn [rev]. assert (X : forall a b c d, length a = length b -> dltl (a ++ [c]) (b ++ [d]) = dltl a b * (dlt c d : R)).
    { clear. induction a as [|x a IH]; intros [|y b] c d H; try discriminate; cbn [app dltl]; [ring|]. rewrite IH by (cbn in H; lia). ring. }
    rewrite X by (rewrite !rev_length; lia). cbn [dltl]. rewrite (IHu ds (length us)); auto; [ring|lia].
  - destruct s as [|x s]; [discriminate|]. inversion HW; subst. inversion Fs; subst. destruct Hok as (Hr & <- & Hok).
    unfold cellss. cbn [map combine fst snd length repeat gridS]. fold (cellss data s). fold (cellss (map (@rev _) data1) (map (@rev _) s)).
    assert (HL := forall2_length _ _ _ Hrow).
    rewrite (cells_cd (rev row1)) by (rewrite !rev_length; lia). rewrite map_rev.
    assert (E3 : map (leg 3) row1 = map (leg 3) row). { clear - Hrow. induction Hrow as [|A B row row1 HA HF IH]; [reflexivity|]. cbn [map]. f_equal; [|assumption]. now apply flipped_legs. }
    rewrite E3. rewrite sumcfg_rev. rewrite cells_cd by lia. apply sumcfg_ext. intros w Hw. assert (Lw := incfg_length _ _ Hw). rewrite map_length in Lw.
    rewrite (rowS_rev row row1 Hrow 1 1) by (auto; lia). f_equal. apply (IH (map (leg 3) row) ds0); auto; [|lia]. split; [cbn in Ls; lia|assumption].
Qed.

Lemma peps_rows H W (data : list (list (tens R))) : peps_ok H W data -> grid H W data /\ rows_ok (repeat 1%nat W) data (repeat 1%nat W).
Proof. intros Hp. apply peps_rec in Hp. tauto. Qed.

Lemma rev_repeat {A} (x : A) n : rev (repeat x n) = repeat x n.
Proof. induction n as [|n IH]; [reflexivity|]. cbn [repeat rev]. rewrite IH. clear. induction n as [|n IH]; [reflexivity|]. cbn [repeat app]. now rewrite IH. Qed.

Lemma five_forall (data : list (list (tens R))) perm : Permutation perm (seq 0 5) -> five data -> exists data1, mapM (mapM (transpose_ perm)) data = Ok data1 /\ Forall2 (Forall2 (permuted perm)) data data1.
Proof.
  intros Hp Hf. apply (mapM_rel _ (Forall (fun A => length (tsh A) = 5%nat))); [|assumption]. intros row Hrow.
  apply (mapM_rel _ (fun A => length (tsh A) = 5%nat)); [|assumption]. intros A HA. now apply transpose_perm.
Qed.

Lemma mapM_rev (data data1 : list (list (tens R))) f : mapM (mapM f) data = Ok data1 -> mapM (fun row => do r <- mapM f row; Ok (rev r)) data = Ok (map (@rev _) data1).
Proof.
  revert data1. induction data as [|row data IH]; intros data1 E; cbn [mapM] in *; [now inversion E|]. destruct (mapM f row) as [r|]; cbn [bind] in *; [|discriminate].
  destruct (mapM (mapM f) data) as [d|]; cbn [bind] in *; [|discriminate]. rewrite (IH d eq_refl). cbn [bind]. now inversion E.
Qed.

Lemma perm_flip : Permutation [0; 1; 4; 3; 2]%nat (seq 0 5).
Proof. cbn [seq]. do 2 apply perm_skip. exact (Permutation_rev [4; 3; 2]%nat). Qed.
Lemma perm_up : Permutation [0; 3; 2; 1; 4]%nat (seq 0 5).
Proof. cbn [seq]. apply perm_skip. change [1; 2; 3; 4]%nat with (rev [3; 2; 1] ++ [4])%nat. change [3; 2; 1; 4]%nat with ([3; 2; 1] ++ [4])%nat. apply Permutation_app_tail. apply Permutation_rev. Qed.

Lemma R_ok H W (p : peps R) : peps_ok H W (pdata p) ->
  exists q, peps_R p = Ok q /\ peps_ok H W (pdata q) /\ pLx q = H /\ pLy q = W /\ pd q = pd p /\ pX q = pX p /\
    poc q = match poc p with Some (i, j) => Some ((Z.of_nat (pLx p) - 1 - i)%Z, j) | None => None end /\
    (forall j i, (j < H)%nat -> (i < W)%nat -> permuted [0; 1; 4; 3; 2]%nat (site_at (pdata p) j i) (site_at (pdata q) j (W - 1 - i))) /\
    (forall s t, grid H W s -> mirrored H W s t -> pamp H W (pdata q) t = pamp H W (pdata p) s).
Proof.
  intros Hok. assert (Hok' := Hok). destruct Hok' as (HH & HW & HG & HI).
  destruct (five_forall (pdata p) _ perm_flip (peps_five _ _ _ Hok)) as (data1 & E & HT). unfold peps_R. rewrite (mapM_rev _ data1) by exact E. cbn [bind].
  assert (G1 := forall2_grid_same _ _ _ _ _ HG HT). assert (G2 := maprev_grid _ _ _ G1).
  assert (HP : forall j i, (j < H)%nat -> (i < W)%nat -> flipped (site_at (pdata p) j i) (site_at (map (@rev _) data1) j (W - 1 - i))).
  { intros j i Hj Hi. unfold site_at. rewrite (maprev_at T0 H W) by assumption. exact (proj1 (forall2_grid _ T0 T0 H W _ _ HG G1) HT j i Hj Hi). }
  assert (Hq : peps_ok H W (map (@rev _) data1)).
  { split; [assumption|]. split; [assumption|]. split; [assumption|]. intros j i' Hj Hi'. set (i := (W - 1 - i')%nat). assert (Hi : (i < W)%nat) by (unfold i; lia).
    replace i' with (W - 1 - i)%nat by (unfold i; lia). destruct (flipped_legs _ _ (HP j i Hj Hi)) as (L5 & L0 & L1 & L2 & L3 & L4).
    destruct (HI j i Hj Hi) as (K5 & K1 & K4 & K3 & K2). split; [assumption|]. rewrite L1, L2, L3, L4. split; [|split; [|split]].
    - rewrite K1. destruct (Nat.eqb_spec j 0); [reflexivity|]. symmetry. assert (Hj1 : (j - 1 < H)%nat) by lia. destruct (flipped_legs _ _ (HP _ i Hj1 Hi)) as (M5 & M0 & M1 & M2 & M3 & M4). exact M3.
    - destruct (Nat.eqb_spec (W - 1 - i) 0) as [e|e].
      + apply K2. lia.
      + assert (Hi2 : (S i < W)%nat) by lia. destruct (flipped_legs _ _ (HP j (S i) Hj Hi2)) as (M5 & M0 & M1 & M2 & M3 & M4).
        replace (W - 1 - i - 1)%nat with (W - 1 - S i)%nat by lia. rewrite M2. destruct (HI j (S i) Hj Hi2) as (_ & _ & N4 & _). rewrite N4. cbn [Nat.eqb]. now replace (S i - 1)%nat with i by lia.
    - assumption.
    - intros He. rewrite K4. destruct (Nat.eqb_spec i 0); [reflexivity|lia]. }
  rewrite (init_ok H W _ Hq). cbn [bind]. eexists. split; [reflexivity|]. unfold keep_Xd. cbn [pdata pLx pLy pd pX poc].
  split; [assumption|]. do 4 (split; [reflexivity|]). split; [reflexivity|]. split; [assumption|].
  intros s t Hs [Ht Hst]. assert (t = map (@rev _) s) as ->.
  { apply (grid_ext 0%nat H W); [assumption|now apply maprev_grid|]. intros j i' Hj Hi'. set (i := (W - 1 - i')%nat). replace i' with (W - 1 - i)%nat by (unfold i; lia).
    rewrite Hst by (unfold i; lia). symmetry. apply (maprev_at 0%nat H W); auto. unfold i; lia. }
  rewrite (pamp_gridS H W) by assumption. rewrite (pamp_gridS H W (pdata p)) by assumption. destruct (peps_rows _ _ _ Hok) as [_ Hrows].
  assert (M := gridS_mirror W (pdata p) data1 HT _ _ s (repeat 0%nat W) (repeat 0%nat W) (proj2 HG) Hrows). destruct HG as [HL HF]. rewrite HL in M. rewrite !rev_repeat in M. apply M; auto; apply repeat_length.
Qed.

(** * Upside down *)
Notation upped := (permuted [0; 3; 2; 1; 4]%nat).
Lemma upped_legs (A B : tens R) : upped A B -> length (tsh B) = 5%nat /\ leg 0 B = leg 0 A /\ leg 1 B = leg 3 A /\ leg 2 B = leg 2 A /\ leg 3 B = leg 1 A /\ leg 4 B = leg 4 A.
Proof. intros [H _]. unfold leg at 1 3 5 7 9. rewrite H. cbn. auto 10. Qed.

Lemma rowS_up (row row1 : list (tens R)) : Forall2 upped row row1 -> forall s us ds l r, rowS (cells row1 s) ds us l r = rowS (cells row s) us ds l r.
Proof.
  induction 1 as [|A B row row1 HA HF IH]; intros s us ds l r; [destruct s; cbn; destruct us, ds; reflexivity|].
  destruct s as [|x s]; [cbn; destruct us, ds; reflexivity|]. rewrite !cells_cons. cbn [rowS]. destruct us as [|u us], ds as [|d ds]; try reflexivity.
  cbn [cellof cr ce]. destruct (upped_legs _ _ HA) as (K5 & K0 & K1 & K2 & K3 & K4). rewrite K2. apply sum_ext. intros k _. rewrite IH. f_equal. destruct HA as [_ HE]. exact (HE [x; u; k; d; l] eq_refl).
Qed.

Lemma dltl_sym us : forall ds, (dltl us ds : R) = dltl ds us.
Proof. induction us as [|u us IH]; intros [|d ds]; try reflexivity. cbn [dltl]. now rewrite IH, dlt_sym. Qed.

Lemma cellss_app a b s t : length s = length a -> @cellss R (a ++ b) (s ++ t) = cellss a s ++ cellss b t.
Proof. revert s. induction a as [|r a IH]; intros [|x s] H; try discriminate; [reflexivity|]. unfold cellss in *. cbn [app combine map fst snd]. f_equal. apply IH. cbn in H. lia. Qed.

Lemma repeat_snoc {A} (x : A) n : repeat x (S n) = repeat x n ++ [x].
Proof. induction n as [|n IH]; [reflexivity|]. cbn [repeat app] in *. now rewrite <- IH. Qed.

Lemma lastD_snoc (x : list nat) rows row : lastD x (rows ++ [row]) = map (@cd R) row.
Proof. revert x. induction rows as [|r rows IH]; intros x; [reflexivity|]. cbn [app lastD]. apply IH. Qed.

Lemma gridS_up W (data data1 : list (list (tens R))) : Forall2 (Forall2 upped) data data1 -> forall us0 ds0 s us ds, Forall (fun r => length r = W) data -> rows_ok us0 data ds0 ->
  grid (length data) W s -> incfg us0 us -> incfg ds0 ds ->
  gridS (cellss (rev data1) (rev s)) ds us (repeat 0%nat (length data)) (repeat 0%nat (length data))
  = gridS (cellss data s) us ds (repeat 0%nat (length data)) (repeat 0%nat (length data)).
Proof.
  induction 1 as [|row row1 data data1 Hrow HF IH]; intros us0 ds0 s us ds HW Hok [Ls Fs] Hu Hd.
  - destruct s; [|discriminate]. cbn [rev cellss combine map length repeat gridS]. apply dltl_sym.
  - destruct s as [|x s]; [discriminate|]. inversion HW; subst. inversion Fs as [|? ? Hx Fs']; subst. destruct Hok as (Hr & <- & Hok).
    assert (HL := forall2_length _ _ _ HF). assert (HLr := forall2_length _ _ _ Hrow). cbn in Ls.
    cbn [rev length]. rewrite cellss_app by (rewrite !rev_length; lia). rewrite repeat_snoc.
    rewrite (gridS_app _ _ _ _ _ _ _ _ ds0) by (try rewrite cellss_length; rewrite ?repeat_length, ?rev_length; auto; lia).
    assert (ED : lastD ds0 (cellss (rev data1) (rev s)) = map (leg 3) row).
    { destruct data as [|rowb data].
      - inversion HF; subst. destruct s; [|discriminate]. cbn [rev cellss combine map lastD]. now symmetry.
      - inversion HF as [|? row1b ? data1' Hb HF']; subst. destruct s as [|xb s]; [discriminate|]. cbn [rev].
        rewrite cellss_app by (rewrite !rev_length; cbn in *; lia). unfold cellss at 2. cbn [combine map fst snd]. rewrite lastD_snoc.
        inversion Fs'; subst. inversion H2; subst. assert (HLb := forall2_length _ _ _ Hb). rewrite cells_cd by congruence. destruct Hok as (_ & <- & _).
        clear - Hb. induction Hb as [|A B rowb row1b HA HF IH]; [reflexivity|]. cbn [map]. f_equal; [|assumption]. now apply upped_legs. }
    rewrite ED. unfold cellss at 2 3. cbn [combine map fst snd]. fold (cellss data s). rewrite <- repeat_snoc. cbn [repeat gridS].
    rewrite (cells_cd row x) by lia. apply sumcfg_ext. intros w Hw.
    assert (Gs : grid (length data) (length row) s) by (split; [lia|assumption]). rewrite (IH (map (leg 3) row) ds0) by assumption. rewrite (Rmul_comm (s_th R)). f_equal. cbn [repeat gridS].
    assert (ES : map cd (cells row1 x) = map (leg 1) row).
    { rewrite cells_cd by lia. clear - Hrow. induction Hrow as [|A B rowb row1b HA HF IH]; [reflexivity|]. cbn [map]. f_equal; [|assumption]. now apply upped_legs. }
    rewrite ES. rewrite (sumcfg_ext _ _ (fun v => dltl us v * rowS (cells row1 x) w v 0 0)) by (intros; rewrite dltl_sym; ring).
    rewrite (dltl_sum (map (leg 1) row) us (fun v => rowS (cells row1 x) w v 0 0)) by assumption. rewrite (rowS_up row row1 Hrow). reflexivity.
Qed.

Lemma mapM_ok_len {X Y} (f : X -> res Y) l l' : mapM f l = Ok l' -> length l' = length l.
Proof. revert l'. induction l as [|x l IH]; intros l' E; cbn [mapM] in E; [now inversion E|]. destruct (f x); cbn [bind] in E; [|discriminate]. destruct (mapM f l); cbn [bind] in E; [|discriminate]. inversion E; subst. cbn. now rewrite (IH _ eq_refl). Qed.

Lemma U_ok H W (p : peps R) : peps_ok H W (pdata p) ->
  exists q, peps_U p = Ok q /\ peps_ok H W (pdata q) /\ pLx q = H /\ pLy q = W /\ pd q = pd p /\ pX q = pX p /\
    poc q = match poc p with Some (i, j) => Some (i, (Z.of_nat (pLy p) - j - 1)%Z) | None => None end /\
    (forall j i, (j < H)%nat -> (i < W)%nat -> permuted [0; 3; 2; 1; 4]%nat (site_at (pdata p) j i) (site_at (pdata q) (H - 1 - j) i)) /\
    (forall s t, grid H W s -> upside_down H W s t -> pamp H W (pdata q) t = pamp H W (pdata p) s).
Proof.
  intros Hok. assert (Hok' := Hok). destruct Hok' as (HH & HW & HG & HI).
  destruct (five_forall (pdata p) _ perm_up (peps_five _ _ _ Hok)) as (data1 & E & HT). unfold peps_U. rewrite E. cbn [bind].
  assert (G1 := forall2_grid_same _ _ _ _ _ HG HT). assert (G2 := rev_grid _ _ _ G1).
  assert (HP : forall j i, (j < H)%nat -> (i < W)%nat -> upped (site_at (pdata p) j i) (site_at (rev data1) (H - 1 - j) i)).
  { intros j i Hj Hi. unfold site_at. rewrite (rev_at T0 H W) by assumption. exact (proj1 (forall2_grid _ T0 T0 H W _ _ HG G1) HT j i Hj Hi). }
  assert (Hq : peps_ok H W (rev data1)).
  { split; [assumption|]. split; [assumption|]. split; [assumption|]. intros j' i Hj' Hi. set (j := (H - 1 - j')%nat). assert (Hj : (j < H)%nat) by (unfold j; lia).
    replace j' with (H - 1 - j)%nat by (unfold j; lia). destruct (upped_legs _ _ (HP j i Hj Hi)) as (L5 & L0 & L1 & L2 & L3 & L4).
    destruct (HI j i Hj Hi) as (K5 & K1 & K4 & K3 & K2). split; [assumption|]. rewrite L1, L2, L3, L4. split; [|split; [|split]].
    - destruct (Nat.eqb_spec (H - 1 - j) 0) as [e|e].
      + apply K3. lia.
      + assert (Hi2 : (S j < H)%nat) by lia. destruct (upped_legs _ _ (HP (S j) i Hi2 Hi)) as (M5 & M0 & M1 & M2 & M3 & M4).
        replace (H - 1 - j - 1)%nat with (H - 1 - S j)%nat by lia. rewrite M3. destruct (HI (S j) i Hi2 Hi) as (_ & N1 & _). rewrite N1. cbn [Nat.eqb]. now replace (S j - 1)%nat with j by lia.
    - rewrite K4. destruct (Nat.eqb_spec i 0); [reflexivity|]. symmetry. assert (Hi1 : (i - 1 < W)%nat) by lia. destruct (upped_legs _ _ (HP j _ Hj Hi1)) as (M5 & M0 & M1 & M2 & M3 & M4). exact M2.
    - intros He. rewrite K1. destruct (Nat.eqb_spec j 0); [reflexivity|lia].
    - assumption. }
  rewrite (init_ok H W _ Hq). cbn [bind]. eexists. split; [reflexivity|]. unfold keep_Xd. cbn [pdata pLx pLy pd pX poc].
  split; [assumption|]. do 4 (split; [reflexivity|]). split; [reflexivity|]. split; [assumption|].
  intros s t Hs [Ht Hst]. assert (t = rev s) as ->.
  { apply (grid_ext 0%nat H W); [assumption|now apply rev_grid|]. intros j' i Hj' Hi. set (j := (H - 1 - j')%nat). replace j' with (H - 1 - j)%nat by (unfold j; lia).
    rewrite Hst by (unfold j; lia). symmetry. apply (rev_at 0%nat H W); auto. unfold j; lia. }
  rewrite (pamp_gridS H W) by assumption. rewrite (pamp_gridS H W (pdata p)) by assumption. destruct (peps_rows _ _ _ Hok) as [_ Hrows].
  assert (M := gridS_up W (pdata p) data1 HT _ _ s (repeat 0%nat W) (repeat 0%nat W) (proj2 HG) Hrows). destruct HG as [HL HF]. rewrite HL in M. apply M; auto using incfg_zeros.
Qed.
End Flip.
