From Verif Require Import Alg ModelMPS SpecMPS ProofMPS ProofMPS2 ModelOrth SpecOrth
  ProofOrth ProofOrth2 ProofOrth3 ModelCanon SpecCanon ProofCanon ProofCanon2 ProofGauge ProofRank.

Section Proofs.
Context {R : sring}.
Add Ring Rr : (s_th R).
Local Open Scope sr_scope.

Lemma rank_spec2 (O : lapack2 R) k (X : mat R) : svd_ok O -> mr X = k -> mc X = k ->
  (forall i j, i <= j -> j < k -> me X i i = 0 -> me X j j = 0) ->
  rank O X <= k /\ forall i, i < k -> (me X i i = 0 <-> rank O X <= i).
Proof.
  intros (_ & _ & H0) H1 H2 Hz. unfold rank. rewrite H1, H2, Nat.min_id.
  set (f := fun i => negb (la_is0 O (me X i i))).
  split.
  - rewrite <- (seq_length k 0) at 2. induction (seq 0 k) as [|x l IHl]; simpl; [lia|].
    destruct (f x); simpl; lia.
  - intros i Hi.
    assert (Hf : forall j, f j = false <-> me X j j = 0).
    { intros j. unfold f. rewrite negb_false_iff. apply H0. }
    rewrite <- Hf.
    assert (Hd := filter_decr f k (fun a b Hab Hb Ha => proj2 (Hf b) (Hz a b Hab Hb (proj1 (Hf a) Ha))) i Hi).
    destruct (f i); split; intros H; try reflexivity; try discriminate; try lia.
Qed.

Lemma gram_zero (p : list (site R)) a : @definite R -> left_gram p a a = 0 ->
  forall u, incfg (dims p) u -> amp p u 0 a = 0.
Proof.
  intros HD H. apply (definite_cfg HD (dims p) (fun u => amp p u 0 a)).
  rewrite <- H. unfold left_gram. apply sumcfg_ext. intros; ring.
Qed.

Lemma unitary_id n : unitary n (@mid R n).
Proof.
  unfold unitary, mid; cbn. do 2 (split; [reflexivity|]). split; intros i j Hi Hj.
  - rewrite (sum_ext n _ (fun k => dlt i k * dlt k j)).
    + rewrite sum_dlt_l by exact Hi. reflexivity.
    + intros k _. rewrite sconj_dlt. unfold dlt. rewrite (Nat.eqb_sym k i). ring.
  - rewrite sum_dlt_l by exact Hi. rewrite sconj_dlt. unfold dlt. rewrite Nat.eqb_sym. reflexivity.
Qed.


(** Cutting the bonds of a chain with diagonal environments to their ranks. *)
Lemma cut_sem (d1 d2 : list (site R)) (Sv : nat -> nat -> R) (r : nat -> nat) :
  @definite R -> @integral R ->
  chain 1 d1 1 -> Forall right_iso d1 -> length d2 = length d1 ->
  (forall k A, nth_error d1 k = Some A -> exists B, nth_error d2 k = Some B /\
      cutq A B (r k) (if Nat.ltb (S k) (length d1) then r (S k) else dr A)) ->
  (forall k A, nth_error d1 k = Some A -> diag_gram (firstn k d1) (dl A) (Sv k)) ->
  (forall k A, nth_error d1 k = Some A -> r k <= dl A /\
     forall x, x < dl A -> (Sv k x = 0 <-> r k <= x)) ->
  r 0%nat = 1%nat ->
  chain 1 d2 1 /\ dims d2 = dims d1 /\ Forall right_iso d2 /\
  (forall s, incfg (dims d1) s -> amp d2 s 0 0 = amp d1 s 0 0) /\
  (forall k B, nth_error d2 k = Some B -> dl B = r k /\ diag_gram (firstn k d2) (r k) (Sv k) /\
     forall x, x < r k -> Sv k x <> 0).
Proof.
  intros HDf HI I1 I3 Hl2 Hcut HB HRk Hr0.
  assert (Hz : forall k A u a, nth_error d1 k = Some A -> incfg (dims (firstn k d1)) u ->
     r k <= a -> a < dl A -> amp (firstn k d1) u 0 a = 0).
  { intros k A u a HA Hu Ha1 Ha2. apply (gram_zero _ a HDf); [|exact Hu].
    pose proof (HB k A HA) as HG. rewrite (HG a a Ha2 Ha2), Nat.eqb_refl.
    apply (HRk k A HA); assumption. }
  pose proof (amp_cut d1 d2 r 1 I1 Hl2 Hcut (fun k A HA => proj1 (HRk k A HA)) Hr0 Hz) as HAC.
  pose proof (HAC (length d1) (le_n _)) as (Q1 & Q2 & Q3).
  rewrite Nat.ltb_irrefl in Q1, Q3.
  rewrite firstn_all in Q2, Q3. rewrite <- Hl2 in Q1, Q2, Q3. rewrite firstn_all in Q1, Q2, Q3.
  split; [exact Q1|]. split; [exact Q2|].
  split.
  { (* isometries *)
    apply Forall_forall. intros B HB'. apply In_nth_error in HB' as (k & EB).
    assert (Hk : k < length d1).
    { rewrite <- Hl2. apply nth_error_Some. rewrite EB. discriminate. }
    destruct (nth_error d1 k) as [A|] eqn:EA; [|apply nth_error_None in EA; lia].
    destruct (Hcut k A EA) as (B' & EB' & (C1 & C2 & C3 & C4)). assert (B' = B) by congruence. subst B'.
    assert (HiA : right_iso A).
    { rewrite Forall_forall in I3. apply I3. eapply nth_error_In. exact EA. }
    destruct (HRk k A EA) as [HrA HsA]. pose proof (HB k A EA) as HGk.
    intros a b Ha Hb. rewrite C2 in Ha, Hb. rewrite C1.
    rewrite <- (HiA a b) by lia. apply sum_ext. intros s Hs. rewrite C3.
    rewrite (sum_ext _ _ (fun j => ent A s a j * sconj (ent A s b j)))
      by (intros j Hj; rewrite !C4 by assumption; reflexivity).
    destruct (Nat.ltb_spec (S k) (length d1)) as [HSk|HSk]; [|reflexivity].
    destruct (nth_error d1 (S k)) as [A'|] eqn:EA'; [|apply nth_error_None in EA'; lia].
    destruct (chain_next _ _ _ _ _ I1 EA') as (A'' & E'' & Hd''). assert (A'' = A) by congruence. subst A''.
    destruct (HRk _ _ EA') as [HrA' _].
    symmetry. apply sum_cut; [lia|]. intros j Hj1 Hj2.
    assert (E0 : ent A s a j = 0); [|rewrite E0; ring].
    (* S_a A_s[a,j] = sum_u conj(amp u a) amp (u,s) j = 0 *)
    assert (HS : Sv k a * ent A s a j = 0).
    { transitivity (sumcfg (dims (firstn k d1)) (fun u => sconj (amp (firstn k d1) u 0 a) *
          amp (firstn (S k) d1) (u ++ [s]) 0 j)).
      - transitivity (sum (dl A) (fun q => left_gram (firstn k d1) a q * ent A s q j)).
        + rewrite (sum_ext _ _ (fun q => dlt a q * (Sv k a * ent A s q j))).
          * rewrite sum_dlt_l by lia. reflexivity.
          * intros q Hq. rewrite HGk by lia. unfold dlt. destruct (Nat.eqb a q); ring.
        + unfold left_gram.
          transitivity (sum (dl A) (fun q => sumcfg (dims (firstn k d1)) (fun u =>
             sconj (amp (firstn k d1) u 0 a) * amp (firstn k d1) u 0 q * ent A s q j))).
          { apply sum_ext. intros q _. rewrite <- sumcfg_mul_r. reflexivity. }
          rewrite <- sumcfg_sum. apply sumcfg_ext. intros u Hu.
          rewrite (firstn_snoc _ _ _ EA).
          rewrite (amp_snoc (firstn k d1) A u s j (dl A)); [|eapply chain_firstn; eauto|reflexivity| |lia].
          * rewrite <- sum_mul_l. apply sum_ext. intros; ring.
          * apply incfg_length in Hu. rewrite dims_length in Hu. exact Hu.
      - rewrite <- (sumcfg_0 (dims (firstn k d1))). apply sumcfg_ext. intros u Hu. rewrite (Hz (S k) A' (u ++ [s]) j EA'); [ring| |lia|lia].
        rewrite (firstn_snoc _ _ _ EA), dims_app. apply incfg_app; [exact Hu|].
        constructor; [exact Hs|constructor]. }
    destruct (HI _ _ HS) as [E|E]; [|exact E]. exfalso. apply HsA in E; lia. }
  split.
  { intros s Hs. apply Q3; [exact Hs|lia]. }
  intros k B EB.
  assert (Hk : k < length d1).
  { rewrite <- Hl2. apply nth_error_Some. rewrite EB. discriminate. }
  destruct (nth_error d1 k) as [A|] eqn:EA; [|apply nth_error_None in EA; lia].
  destruct (Hcut k A EA) as (B' & EB' & (C1 & C2 & C3 & C4)). assert (B' = B) by congruence. subst B'.
  destruct (HRk k A EA) as [HrA HsA]. pose proof (HB k A EA) as HGk.
  split; [exact C2|]. split.
  - intros a b Ha Hb. rewrite <- (HGk a b) by lia.
    destruct (HAC k (Nat.lt_le_incl _ _ Hk)) as (_ & T2 & T3).
    replace (Nat.ltb k (length d1)) with true in T3 by (symmetry; apply Nat.ltb_lt; exact Hk).
    unfold left_gram. rewrite T2. apply sumcfg_ext. intros u Hu. rewrite !T3 by assumption. reflexivity.
  - intros x Hx E. apply HsA in E; lia.
Qed.

Lemma eigs_nth (O : lapack2 R) ns Ls Svs k n : eigs_of O ns Ls Svs -> nth_error ns k = Some n ->
  exists Sk, nth_error Ls k = Some (mdiag n Sk) /\ nth_error Svs k = Some Sk /\
   (eig_zeros_last O -> forall x y, x <= y -> y < n -> Sk x = 0 -> Sk y = 0).
Proof.
  intros (H & H1 & H2) Hn. revert ns Svs k n H H1 H2 Hn.
  induction Ls as [|X Ls IH]; intros ns Svs k n H H1 H2 Hn.
  - destruct ns; [|discriminate]. destruct k; discriminate.
  - destruct ns as [|n0 ns]; [discriminate|]. destruct Svs as [|S0 Svs]; [discriminate|].
    simpl in H. inversion H as [|? ? ? ? E0 H']; subst. destruct E0 as [E Hz]. subst X.
    destruct k as [|k]; simpl in *.
    + injection Hn as <-. exists S0. auto.
    + apply (IH ns); auto.
Qed.

Lemma same_dr (l l' : list (site R)) i j : chain i l j -> chain i l' j ->
  map (fun A => dl A) l = map (fun A => dl A) l' -> map (fun A => dr A) l = map (fun A => dr A) l'.
Proof.
  revert l' i. induction l as [|A l IH]; intros [|B l'] i H1 H2 H; try discriminate; [reflexivity|].
  simpl in *. injection H as H3 H4. destruct H1 as [H1 H1'], H2 as [H2 H2'].
  assert (Hd : dr A = dr B).
  { destruct l as [|A' l], l' as [|B' l']; try discriminate; simpl in *; [congruence|].
    injection H4 as H4 _. destruct H1' as [H1' _], H2' as [H2' _]. congruence. }
  f_equal; [exact Hd|]. apply (IH _ (dr A)); auto. rewrite Hd. exact H2'.
Qed.

(** The part of right_canonicalise after the first sweep (fMPS.py:493-526). *)
Definition back_part (O : lapack2 R) (data : list (site R)) :=
  do g <- right_gauge O (mid 1) (fun _ => 1) data;
  match rev (snd g) with
  | [] => Err IndexError
  | last :: _ =>
      do r <- rank_loop O (seq 0 (length (fst g))) (ones_like last :: snd g) (fst g);
      Ok (fst r, Some (snd r))
  end.

(** ... and of left_canonicalise (fMPS.py:569-598). *)
Definition back_part_l (O : lapack2 R) (data : list (site R)) :=
  do g <- left_gauge O (mid 1) (fun _ => 1) (rev data);
  let data := rev (fst g) in
  let Ls := rev (snd g) in
  match Ls with
  | [] => Err IndexError
  | first :: _ =>
      do r <- rank_loop O (seq 0 (length data)) (Ls ++ [ones_like first]) data;
      Ok (fst r, Some (snd r))
  end.

Lemma gram_nil : diag_gram (@nil (site R)) 1 (fun _ => 1).
Proof.
  intros a b Ha Hb. replace a with 0%nat by lia. replace b with 0%nat by lia.
  unfold left_gram; simpl. unfold dlt; simpl. rewrite conj_1. ring.
Qed.

(** The sweep from a trivial left end. *)
Lemma gauged_closed (data data' : list (site R)) Svs :
  gauged (mid 1) (fun _ => 1) data data' Svs -> chain 1 data 1 -> Forall right_iso data ->
  exists w, w * sconj w = 1 /\ chain 1 data' 1 /\ dims data' = dims data /\ Forall right_iso data' /\
    map (fun A => dl A) data' = map (fun A => dl A) data /\
    (forall s, incfg (dims data) s -> amp data' s 0 0 = amp data s 0 0 * w) /\
    length Svs = length data /\
    (forall k A, nth_error data' k = Some A -> exists Sk, nth_error Svs k = Some Sk /\
         diag_gram (firstn (S k) data') (dr A) Sk).
Proof.
  intros HG Hc Hiso.
  destruct (gauged_ok _ _ _ _ _ HG [] [] 1 1 eq_refl eq_refl eq_refl (unitary_id 1)) as
    (W & I1 & I2 & I3 & I4 & I5 & I6 & I7 & I8).
  - intros u a Hu Ha. replace a with 0%nat by lia. inversion Hu; subst; simpl; unfold dlt; simpl; ring.
  - exact gram_nil.
  - exact Hc.
  - exact Hiso.
  - exists (me W 0%nat 0%nat). split.
    { destruct I4 as (_ & _ & _ & W4). specialize (W4 0%nat 0%nat ltac:(lia) ltac:(lia)).
      simpl in W4. unfold dlt in W4; simpl in W4. rewrite <- W4. ring. }
    do 4 (split; [assumption|]). split; [|split; [exact I7|exact I8]].
    intros s Hs. transitivity (sum 1 (fun b => amp data s 0 b * me W b 0%nat)); [|simpl; ring].
    apply (I6 s 0%nat Hs). lia.
Qed.

Lemma right_back_ok (O : lapack2 R) (data : list (site R)) :
  svd_ok O -> eig_ok O -> eig_zeros_last O -> @definite R -> @integral R -> (1:R) <> 0 ->
  chain 1 data 1 -> data <> [] -> Forall right_iso data ->
  match back_part O data with
  | Err e => e = LinAlgError
  | Ok (data', None) => False
  | Ok (data', Some Ls) => exists w, w * sconj w = 1 /\
      chain 1 data' 1 /\ data' <> [] /\ dims data' = dims data /\ Forall right_iso data' /\
      (forall s, incfg (dims data) s -> amp data' s 0 0 = amp data s 0 0 * w) /\
      length Ls = S (length data) /\
      (forall k A, nth_error data' k = Some A -> exists Sk X, nth_error Ls k = Some X /\
         mat_eq X (mdiag (dl A) Sk) /\ diag_gram (firstn k data') (dl A) Sk /\
         (forall x, x < dl A -> Sk x <> 0)) /\
      (forall k A, nth_error data k = Some A -> exists B, nth_error data' k = Some B /\ dl B <= dl A)
  end.
Proof.
  intros HO HE HZ HDf HI H01 Hc Hne Hiso. unfold back_part.
  pose proof (right_gauge_gauged O HE data (mid 1) (fun _ => 1) 1 1 eq_refl eq_refl
     (fun _ _ => conj_1) Hc) as HR.
  destruct (right_gauge O (mid 1) (fun _ => 1) data) as [[d1 Ls1]|e]; [|exact HR].
  cbn [bind fst snd]. destruct HR as (Svs & HG & HEi).
  destruct (gauged_closed data d1 Svs HG Hc Hiso) as (w & Hw & I1 & I2 & I3 & I5 & I6 & I7 & I8).
  assert (Hld : length d1 = length data) by (rewrite <- !dims_length, I2; reflexivity).
  assert (HL : 0 < length d1) by (rewrite Hld; destruct data; [congruence|simpl; lia]).
  assert (HLs1 : length Ls1 = length d1) by (destruct HEi as (_ & E & _); rewrite E, map_length; congruence).
  (* the matrices are those of the relation *)
  assert (HEn : forall k A, nth_error d1 k = Some A -> exists Sk,
     nth_error Ls1 k = Some (mdiag (dr A) Sk) /\ diag_gram (firstn (S k) d1) (dr A) Sk /\
     (forall x y, x <= y -> y < dr A -> Sk x = 0 -> Sk y = 0)).
  { intros k A HA. destruct (I8 k A HA) as (Sk & ES & HGk).
    assert (HdrA : nth_error (map (fun A => dr A) data) k = Some (dr A)).
    { assert (E : map (fun A => dr A) data = map (fun A => dr A) d1).
      { symmetry. exact (same_dr d1 data 1 1 I1 Hc I5). }
      rewrite E. apply (map_nth_error (fun A : site R => dr A)). exact HA. }
    destruct (eigs_nth O _ _ _ _ _ HEi HdrA) as (Sk' & E1 & E2 & E3).
    assert (Sk' = Sk) by congruence. subst Sk'. exists Sk. split; [exact E1|]. split; [exact HGk|exact (E3 HZ)]. }
  (* the last environment is 1 x 1 *)
  destruct (rev Ls1) as [|lastL Lr] eqn:ER.
  { exfalso. apply (f_equal (@length _)) in ER. rewrite rev_length in ER. simpl in ER. lia. }
  assert (ELs : Ls1 = rev Lr ++ [lastL]) by (rewrite <- (rev_involutive Ls1), ER; reflexivity).
  assert (Hlast : mr lastL = 1%nat /\ mc lastL = 1%nat).
  { destruct (nth_error d1 (length d1 - 1)) as [A|] eqn:EA.
    2:{ apply nth_error_None in EA. lia. }
    destruct (HEn _ _ EA) as (Sk & EK & _). rewrite (chain_last _ _ _ _ I1 EA) in EK.
    rewrite ELs, nth_error_app2 in EK.
    - replace (length d1 - 1 - length (rev Lr))%nat with 0%nat in EK.
      + simpl in EK. injection EK as ->. split; reflexivity.
      + rewrite ELs, app_length in HLs1. simpl in HLs1. lia.
    - rewrite ELs, app_length in HLs1. simpl in HLs1. lia. }
  set (Ls0 := ones_like lastL :: Ls1).
  set (Sv := fun k x => me (nth k Ls0 (mid 0)) x x : R).
  set (r := fun k => rank O (nth k Ls0 (mid 0))).
  assert (HB : forall k A, nth_error d1 k = Some A ->
     nth_error Ls0 k = Some (nth k Ls0 (mid 0)) /\ mr (nth k Ls0 (mid 0)) = dl A /\
     mat_eq (nth k Ls0 (mid 0)) (mdiag (dl A) (Sv k)) /\
     diag_gram (firstn k d1) (dl A) (Sv k) /\
     (forall x y, x <= y -> y < dl A -> Sv k x = 0 -> Sv k y = 0)).
  { intros k A HA. destruct k as [|k].
    - assert (HdA : dl A = 1%nat).
      { destruct d1 as [|A0 d1']; [discriminate|]. injection HA as <-. exact (proj1 I1). }
      unfold Sv. simpl nth. rewrite HdA. split; [reflexivity|]. split; [exact (proj1 Hlast)|].
      unfold ones_like. split; [|split].
      + split; [exact (proj1 Hlast)|]. split; [exact (proj2 Hlast)|]. cbn.
        rewrite (proj1 Hlast), (proj2 Hlast). intros i j Hi Hj.
        replace i with 0%nat by lia. replace j with 0%nat by lia. reflexivity.
      + simpl firstn. exact gram_nil.
      + cbn. intros x y _ _ H. exfalso. exact (H01 H).
    - destruct (chain_next _ _ _ _ _ I1 HA) as (B & EB & HdB).
      destruct (HEn k B EB) as (Sk & EK & HGk & Hz). rewrite HdB in *.
      assert (En : nth (S k) Ls0 (mid 0) = mdiag (dl A) Sk).
      { unfold Ls0. cbn [nth]. exact (nth_error_nth _ _ _ EK). }
      assert (Es : forall x, Sv (S k) x = Sk x).
      { intros x. unfold Sv. rewrite En. cbn. rewrite Nat.eqb_refl. reflexivity. }
      rewrite En. split; [exact EK|]. split; [reflexivity|].
      split; [|split].
      + split; [reflexivity|]. split; [reflexivity|]. cbn. intros i j _ _. rewrite Es. reflexivity.
      + intros a b Ha Hb. rewrite Es. exact (HGk a b Ha Hb).
      + intros x y Hxy Hy. rewrite !Es. apply (Hz x y Hxy Hy). }
  assert (HRk : forall k A, nth_error d1 k = Some A -> r k <= dl A /\
     forall x, x < dl A -> (Sv k x = 0 <-> r k <= x)).
  { intros k A HA. destruct (HB k A HA) as (_ & B1 & (_ & B2 & _) & _ & B4). cbn in B2.
    apply (rank_spec2 O (dl A) _ HO B1 B2). exact B4. }
  assert (HdA0 : forall A, nth_error d1 0 = Some A -> dl A = 1%nat).
  { intros A HA. destruct d1; [discriminate|]. injection HA as ->. exact (proj1 I1). }
  assert (Hr0 : r 0%nat = 1%nat).
  { destruct (nth_error d1 0) as [A0|] eqn:EA0; [|apply nth_error_None in EA0; lia].
    pose proof (HdA0 A0 eq_refl) as HdA.
    destruct (HRk 0%nat A0 EA0) as [G1 G2]. rewrite HdA in G1, G2.
    destruct (r 0%nat) as [|[|n]]; [|reflexivity|lia].
    exfalso. apply H01. change (Sv 0%nat 0%nat = 0). apply G2; lia. }
  assert (HLs0 : length Ls0 = S (length d1)) by (unfold Ls0; simpl; lia).
  assert (G1 : forall k A, nth_error d1 k = Some A -> exists X, nth_error Ls0 k = Some X /\
      mr X = dl A /\ mat_eq X (mdiag (dl A) (Sv k)) /\ rank O X = r k /\ r k <= dl A).
  { intros k A HA. destruct (HB k A HA) as (B0 & B1 & B2 & _). exists (nth k Ls0 (mid 0)).
    split; [exact B0|]. split; [exact B1|]. split; [exact B2|]. split; [reflexivity|].
    exact (proj1 (HRk k A HA)). }
  assert (G2 : forall A B, nth_error d1 0 = Some A -> nth_error d1 (length d1 - 1) = Some B -> dl A = dr B).
  { intros A B HA HBl. rewrite (HdA0 A HA). symmetry. exact (chain_last _ _ _ _ I1 HBl). }
  assert (G3 : forall A, nth_error d1 0 = Some A -> r 0%nat = dl A).
  { intros A HA. rewrite (HdA0 A HA). exact Hr0. }
  assert (G4 : forall k A, nth_error d1 k = Some A -> exists B, nth_error d1 k = Some B /\
      cutq A B (if Nat.ltb k 0 then r k else dl A) (if Nat.ltb (S k) 0 then r (S k) else dr A)).
  { intros k A HA. exists A. split; [exact HA|]. simpl. unfold cutq. auto. }
  destruct (rank_loop_ok O d1 Ls0 Sv r HL HLs0 G1 (fun k A HA => chain_next _ _ _ _ _ I1 HA) G2 G3
    (length d1) 0%nat d1 Ls0 eq_refl eq_refl HLs0 G4 (fun k _ => eq_refl)
    (fun k Hk => False_ind _ (Nat.nlt_0_r k Hk)))
    as (d2 & Ls2 & ER2 & Hl2 & HlL2 & Hcut & HLk & _).
  rewrite ER2. cbn [bind fst snd].
  destruct (cut_sem d1 d2 Sv r HDf HI I1 I3 Hl2 Hcut) as (Q1 & Q2 & Q3 & Q4 & Q5).
  { intros k A HA. apply (HB k A HA). }
  { exact HRk. }
  { exact Hr0. }
  exists w. split; [exact Hw|]. split; [exact Q1|].
  split; [intros E; rewrite E in Hl2; simpl in Hl2; lia|].
  split; [rewrite Q2; exact I2|]. split; [exact Q3|].
  split. { intros s Hs. rewrite Q4 by (rewrite I2; exact Hs). apply I6. exact Hs. }
  split; [lia|].
  split.
  - intros k B EB. destruct (Q5 k B EB) as (T1 & T2 & T3).
    assert (Hk : k < length d1).
    { rewrite <- Hl2. apply nth_error_Some. rewrite EB. discriminate. }
    destruct (HLk k Hk) as (X & EX & HX). rewrite T1. exists (Sv k), X. auto.
  - intros k A0 EA0.
    assert (Hk : k < length d1) by (rewrite Hld; apply nth_error_Some; rewrite EA0; discriminate).
    destruct (nth_error d1 k) as [A|] eqn:EA; [|apply nth_error_None in EA; lia].
    destruct (Hcut k A EA) as (B & EB & (C1 & C2 & C3 & C4)). exists B. split; [exact EB|].
    rewrite C2. replace (dl A0) with (dl A); [exact (proj1 (HRk k A EA))|].
    apply (f_equal (fun l => nth_error l k)) in I5.
    rewrite (map_nth_error _ _ _ EA), (map_nth_error _ _ _ EA0) in I5. congruence.
Qed.

End Proofs.
