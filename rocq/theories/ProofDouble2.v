(** Proofs for C95 (the Hamiltonian of a thermofield double) and C96 (get_vL). *)
From Verif Require Import Alg ModelMPS SpecMPS ModelNcon ProofNcon ModelNp ProofNp ProofEk4 ProofTrace ModelTensor ModelSpin ModelOrth SpecOrth ProofOrth ModelCanon ModelTFD SpecTFD ProofTFD ModelLie ModelTan SpecTan ModelTdvp SpecTdvp ModelEk SpecEk SpecEnergy SpecNcon ModelDouble SpecDouble ProofDouble ProofTdvp10.
From Coq Require Import Permutation.
Require Verif.SpecDecomp.

Section P.
Context {R : sring}.
Add Ring Rr : (s_th R).
Local Open Scope sr_scope.

Definition tterm (h : mat R) : mat R :=
  mkMat (mr h * mr h) (mr h * mc h) (fun i j => me (kron (eye (mr h)) h) i j + me (kron h (eye (mr h))) i j).
Lemma tfd_term_ok d (h : mat R) : mr h = d -> mc h = d -> tfd_term h = Ok (tterm h) /\ mr (tterm h) = (d * d)%nat /\ mc (tterm h) = (d * d)%nat /\
  forall x1 x2 y1 y2, (x2 < d)%nat -> (y2 < d)%nat -> me (tterm h) (x1 * d + x2) (y1 * d + y2) = dlt x1 y1 * me h x2 y2 + me h x1 y1 * dlt x2 y2.
Proof.
  intros E1 E2. unfold tfd_term, madd, tterm. cbn [kron eye mr mc me]. rewrite E1, E2, !Nat.eqb_refl. cbn [andb]. repeat split; try reflexivity.
  intros x1 x2 y1 y2 H1 H2. destruct (dm d x1 x2 H1) as [-> ->]. destruct (dm d y1 y2 H2) as [-> ->]. reflexivity.
Qed.

Lemma mapM_terms d (H : list (mat R)) : Forall (fun h => mr h = d /\ mc h = d) H -> mapM tfd_term H = Ok (map tterm H).
Proof. induction 1 as [|h H [E1 E2] HH IH]; [reflexivity|]. cbn [mapM map]. destruct (tfd_term_ok d h E1 E2) as [-> _]. cbn [bind]. rewrite IH. reflexivity. Qed.

Lemma repeat_snoc (d k : nat) : repeat d (k + 1) = repeat d k ++ [d].
Proof. induction k; [reflexivity|]. cbn. now rewrite IHk. Qed.

Lemma term_split d (l' l : list (site R)) k h : mr h = d -> mc h = d -> (k + 1 < length l)%nat ->
  term_elem d l' l k (tterm h) = onsite_elem d l' l k h + onsite_elem d l' l (k + 1) h.
Proof.
  intros E1 E2 Hk. destruct (tfd_term_ok d h E1 E2) as (_ & _ & _ & V).
  unfold term_elem, onsite_elem, melem.
  replace (length l - (k + 1) - 1)%nat with (length l - k - 2)%nat by lia.
  replace (length l - k - 1)%nat with (S (length l - k - 2)) by lia. cbn [repeat].
  rewrite repeat_snoc, sumcfg_app, <- sumcfg_add. apply sumcfg_ext; intros u _. cbn [sumcfg].
  set (es := repeat d (length l - k - 2)).
  rewrite <- sum_add. apply sum_ext; intros b1 Hb1.
  transitivity (sum d (fun c1 => sum d (fun b2 => sum d (fun c2 => sumcfg es (fun v => sconj (state l' (u ++ [b1; b2] ++ v)) * (dlt b1 c1 * me h b2 c2 + me h b1 c1 * dlt b2 c2) * state l (u ++ [c1; c2] ++ v)))))).
  { rewrite sum_swap. apply sum_ext; intros b2 Hb2. apply sum_ext; intros c1 Hc1. apply sum_ext; intros c2 Hc2. apply sumcfg_ext; intros v _.
    f_equal. f_equal. unfold block_op. cbn [rowmajor fold_left]. rewrite !Nat.mul_0_l, !Nat.add_0_l. apply V; assumption. }
  transitivity (sum d (fun c1 => sum d (fun b2 => sumcfg es (fun v => sconj (state l' (u ++ [b1; b2] ++ v)) * me h b1 c1 * state l (u ++ [c1; b2] ++ v))))
    + sum d (fun b2 => sum d (fun c2 => sumcfg es (fun v => sconj (state l' (u ++ [b1; b2] ++ v)) * me h b2 c2 * state l (u ++ [b1; c2] ++ v))))).
  - transitivity (sum d (fun c1 => sum d (fun b2 => sum d (fun c2 =>
       dlt b1 c1 * sumcfg es (fun v => sconj (state l' (u ++ [b1; b2] ++ v)) * me h b2 c2 * state l (u ++ [c1; c2] ++ v))
       + dlt b2 c2 * sumcfg es (fun v => sconj (state l' (u ++ [b1; b2] ++ v)) * me h b1 c1 * state l (u ++ [c1; c2] ++ v)))))).
    { apply sum_ext; intros c1 _. apply sum_ext; intros b2 _. apply sum_ext; intros c2 _. rewrite <- !sumcfg_mul_l, <- sumcfg_add. apply sumcfg_ext; intros v _. ring. }
    rewrite (sum_ext d _ (fun c1 => dlt b1 c1 * sum d (fun b2 => sum d (fun c2 => sumcfg es (fun v => sconj (state l' (u ++ [b1; b2] ++ v)) * me h b2 c2 * state l (u ++ [c1; c2] ++ v))))
        + sum d (fun b2 => sumcfg es (fun v => sconj (state l' (u ++ [b1; b2] ++ v)) * me h b1 c1 * state l (u ++ [c1; b2] ++ v))))).
    + rewrite sum_add. rewrite (sum_single d b1 (fun c1 => dlt b1 c1 * _) Hb1) by (intros c Hc Hne; rewrite dlt_neq by congruence; ring). rewrite dlt_eq. ring.
    + intros c1 _. rewrite <- sum_mul_l, <- sum_add. apply sum_ext; intros b2 Hb2. rewrite sum_add. f_equal; [rewrite <- sum_mul_l; reflexivity|].
      rewrite (sum_single d b2 _ Hb2) by (intros c Hc Hne; rewrite dlt_neq by congruence; ring). rewrite dlt_eq. ring.
  - f_equal. apply sum_ext; intros b2 _. apply sum_ext; intros c2 _. apply sumcfg_ext; intros v _. now rewrite <- !app_assoc.
Qed.

Lemma ham_split d (l' l : list (site R)) (H : list (mat R)) : Forall (fun h => mr h = d /\ mc h = d) H -> (length H < length l)%nat ->
  ham_elem d l' l (map tterm H) = suml (map (fun kh => onsite_elem d l' l (fst kh) (snd kh) + onsite_elem d l' l (fst kh + 1) (snd kh)) (combine (seq 0 (length H)) H)).
Proof.
  intros HH HL. unfold ham_elem. rewrite map_length.
  assert (G : forall a, (a + length H < length l)%nat -> suml (map (fun kh => term_elem d l' l (fst kh) (snd kh)) (combine (seq a (length H)) (map tterm H)))
    = suml (map (fun kh => onsite_elem d l' l (fst kh) (snd kh) + onsite_elem d l' l (fst kh + 1) (snd kh)) (combine (seq a (length H)) H))).
  { clear HL. induction HH as [|h H [E1 E2] HH IH]; intros a Ha; [reflexivity|]. cbn [length] in *. cbn [seq map combine suml fst snd]. 
    rewrite (term_split d l' l a h E1 E2) by lia. f_equal. apply IH. lia. }
  apply G. lia.
Qed.

(** The evolution of a thermofield double. *)
Lemma tfd_tdvp (K : tanlib R) (S : setio) : tanlib_ok K -> setio_ok S -> SpecDecomp.char0 R ->
  forall (m : fmps R) (H ls rs : list (mat R)) H_, mapM tfd_term H = Ok H_ -> tdvp_input K m H_ ls rs -> Forall (fun h => mr h = fd m /\ mc h = fd m) H ->
  forall (im : R) fullH (e0 : list R) m' e, tfd_dA_dt K S im m H fullH e0 = Ok (m', e) ->
  forall P A Q X, fdata m = P ++ A :: Q -> same_shape A X ->
  (forall b, (b < dr A)%nat -> left_gauge A (env_at P A) (fun s a => ent X s a b)) ->
  let l' := with_site (fdata m) (length P) X in
  sumcfg (repeat (fd m) (fL m)) (fun s => sconj (state l' s) * velocity (fdata m) (fdata m') s)
  = - im * suml (map (fun kh => onsite_elem (fd m) l' (fdata m) (fst kh) (snd kh) + onsite_elem (fd m) l' (fdata m) (fst kh + 1) (snd kh)) (combine (seq 0 (length H)) H)).
Proof.
  intros HK HS Hc m H ls rs H_ EH Hin HH im fullH e0 m' e E P A Q X EA HX HG l'. unfold tfd_dA_dt in E. rewrite EH in E. cbn [bind] in E.
  etransitivity; [exact (dt_tdvp K S HK HS Hc m H_ ls rs Hin im e0 m' e E P A Q X EA HX HG)|]. f_equal.
  rewrite (mapM_terms (fd m) H HH) in EH. injection EH as <-. apply ham_split; [exact HH|].
  destruct Hin as (Hw & _ & _ & _ & _ & _ & _ & HL & _). rewrite map_length in HL. destruct Hw as (_ & ? & _). lia.
Qed.

(** * get_vL *)
Lemma fs_ok (X : site R) : is_square (phys X) -> exists Y, fs X = Ok Y /\ phys Y = phys X /\ dl Y = dl X /\ dr Y = dr X /\
  forall s i j, (s < phys X)%nat -> (i < dl X)%nat -> (j < dr X)%nat -> ent Y s i j = phys_exch X s i j.
Proof.
  intros [p Hp]. unfold fs, phys_exch. rewrite Hp, !Nat.sqrt_square. set (a := dl X). set (b := dr X).
  unfold reshape_ at 1. cbn [tens_site tsh]. rewrite Hp. fold a b.
  replace (fold_right Nat.mul 1%nat [p; p; a; b]) with (fold_right Nat.mul 1%nat [p * p; a; b]%nat) by (cbn; ring). rewrite Nat.eqb_refl. cbn [bind].
  match goal with |- context [transpose_ _ ?T] => set (T1 := T) end.
  destruct (transpose_ok [1; 0; 2; 3]%nat T1) as (T2 & E2 & S2 & V2).
  { cbn. apply NoDup_Permutation; [repeat constructor; cbn; intuition lia|repeat constructor; cbn; intuition lia|]. intros x. cbn. intuition lia. }
  rewrite E2. cbn [bind]. cbn in S2. unfold reshape_ at 1. rewrite S2.
  replace (fold_right Nat.mul 1%nat [p; p; a; b]) with (fold_right Nat.mul 1%nat [p * p; a; b]%nat) by (cbn; ring). rewrite Nat.eqb_refl. cbn [bind].
  eexists. split; [reflexivity|]. do 3 (split; [reflexivity|]).
  cbn [phys dl dr ent te]. intros s i j Hs Hi Hj.
  destruct (split_square p s Hs) as (s1 & s2 & Hs1 & Hs2 & ->).
  rewrite !exch_pair by assumption.
  assert (G : forall u1 u2 v w, ravel [p * p; a; b]%nat [u1 * p + u2; v; w]%nat = ravel [p; p; a; b] [u1; u2; v; w]).
  { intros. cbn. ring. }
  rewrite G by assumption. destruct (unravel_ravel [p; p; a; b] [s1; s2; i; j]) as [-> _]; [repeat constructor; assumption|].
  assert (V3 : te T2 [s1; s2; i; j] = te T1 [s2; s1; i; j]) by exact (V2 [s2; s1; i; j] eq_refl). rewrite V3. unfold T1. cbn [te].
  rewrite <- G by assumption. destruct (unravel_ravel [p * p; a; b]%nat [s2 * p + s1; i; j]%nat) as [-> _]; [repeat constructor; try assumption; now apply pair_lt|].
  reflexivity.
Qed.

(** The sign of the matrix M at position i: the first q (q + 1) / 2 are +1. *)
Definition sg (q i : nat) : R := if Nat.ltb i (q * (q + 1) / 2) then 1 else - (1).
Lemma tri q : (q * (q + 1) / 2 + q * (q - 1) / 2 = q ^ 2)%nat.
Proof.
  assert (E : forall x, (x * (x + 1) = 2 * (x * (x + 1) / 2))%nat).
  { intros x. apply Nat.div_exact; [lia|]. induction x as [|x IH]; [reflexivity|]. replace (S x * (S x + 1))%nat with (x * (x + 1) + (x + 1) * 2)%nat by ring. rewrite Nat.mod_add by lia. exact IH. }
  destruct q as [|q]; [reflexivity|]. replace (S q - 1)%nat with q by lia. pose proof (E (S q)) as E1. pose proof (E q) as E2.
  replace (S q * q)%nat with (q * (q + 1))%nat by ring. cbn [Nat.pow]. nia.
Qed.
Lemma signs_entry q i j : me (bd_signs (R := R) (q * (q + 1) / 2) (q * (q - 1) / 2)) i j = sg q i * dlt i j.
Proof.
  cbn [bd_signs me]. unfold sg. set (n := (q * (q + 1) / 2)%nat). unfold dlt.
  destruct (Nat.ltb_spec i n); destruct (Nat.ltb_spec j n); destruct (Nat.eqb_spec i j); destruct (Nat.eqb_spec (i - n) (j - n)); try lia; ring.
Qed.
Lemma sg_sg q i : sg q i * sg q i = 1.
Proof. unfold sg. destruct (Nat.ltb _ _); ring. Qed.

Lemma symm_asymm_ok (half : R) q : half + half = 1 -> exists P Q M, symm_asymm half (q * q) = Ok (P, Q, M) /\
  mr M = (q * q)%nat /\ mc M = (q * q)%nat /\ mr P = (q * q)%nat /\ mc P = (q * q)%nat /\ mr Q = (q * q)%nat /\ mc Q = (q * q)%nat /\
  forall i j, me M i j = sg q i * dlt i j /\ me P i j = half * (1 + sg q i) * dlt i j /\ me Q i j = half * (1 - sg q i) * dlt i j.
Proof.
  intros Hh. unfold symm_asymm. rewrite Nat.sqrt_square.
  assert (F1 : mr (bd_signs (R := R) (q * (q + 1) / 2) (q * (q - 1) / 2)) = (q ^ 2)%nat) by (rewrite <- (tri q); reflexivity).
  assert (F2 : mc (bd_signs (R := R) (q * (q + 1) / 2) (q * (q - 1) / 2)) = (q ^ 2)%nat) by (rewrite <- (tri q); reflexivity).
  pose proof (signs_entry q) as F3. revert F1 F2 F3. generalize (bd_signs (R := R) (q * (q + 1) / 2) (q * (q - 1) / 2)). intros M F1 F2 F3.
  assert (F4 : (q ^ 2 = q * q)%nat) by (cbn; ring). rewrite F4 in *.
  unfold madd, msub. rewrite F1, F2. cbn [eye mr mc]. rewrite !Nat.eqb_refl. cbn [andb bind].
  eexists _, _, M. split; [reflexivity|]. cbn [mscal mr mc]. split; [exact F1|]. split; [exact F2|]. do 4 (split; [reflexivity|]).
  intros i j. cbn [me mscal eye]. rewrite F3. split; [reflexivity|]. split; ring.
Qed.

Lemma diag_prod n (f g : nat -> R) i j : (i < n)%nat -> sum n (fun k => f i * dlt i k * (g k * dlt k j)) = f i * g i * dlt i j.
Proof. intros Hi. rewrite (sum_single n i _ Hi). { rewrite dlt_eq. ring. } intros k Hk Hne. rewrite dlt_neq by congruence. ring. Qed.

Lemma symm_asymm_proj (half : R) q P Q M : half + half = 1 -> symm_asymm half (q * q) = Ok (P, Q, M) -> forall i j, (i < q * q)%nat -> (j < q * q)%nat ->
  me P i j + me Q i j = dlt i j /\ me P i j - me Q i j = me M i j /\
  sum (q * q) (fun k => me P i k * me P k j) = me P i j /\ sum (q * q) (fun k => me Q i k * me Q k j) = me Q i j /\
  sum (q * q) (fun k => me P i k * me Q k j) = 0 /\ sum (q * q) (fun k => me M i k * me M k j) = dlt i j.
Proof.
  intros Hh E i j Hi Hj. destruct (symm_asymm_ok half q Hh) as (P' & Q' & M' & E' & _ & _ & _ & _ & _ & _ & V). rewrite E in E'. injection E' as <- <- <-.
  assert (H1 : half * (1 + sg q i) + half * (1 - sg q i) = 1) by (transitivity (half + half); [ring|exact Hh]).
  assert (H2 : half * (1 + sg q i) - half * (1 - sg q i) = sg q i) by (transitivity ((half + half) * sg q i); [ring|rewrite Hh; ring]).
  assert (H4 : half * (1 + sg q i) * (half * (1 + sg q i)) = half * (1 + sg q i)).
  { transitivity (half * half * (1 + sg q i + sg q i + sg q i * sg q i)); [ring|]. rewrite sg_sg. transitivity (half * (half + half) * (1 + sg q i)); [ring|]. rewrite Hh. ring. }
  assert (H5 : half * (1 - sg q i) * (half * (1 - sg q i)) = half * (1 - sg q i)).
  { transitivity (half * half * (1 - sg q i - sg q i + sg q i * sg q i)); [ring|]. rewrite sg_sg. transitivity (half * (half + half) * (1 - sg q i)); [ring|]. rewrite Hh. ring. }
  assert (H6 : half * (1 + sg q i) * (half * (1 - sg q i)) = 0).
  { transitivity (half * half * (1 - sg q i * sg q i)); [ring|]. rewrite sg_sg. ring. }
  destruct (V i j) as (V1 & V2 & V3). rewrite V1, V2, V3.
  split. { transitivity ((half * (1 + sg q i) + half * (1 - sg q i)) * dlt i j); [ring|]. rewrite H1. ring. }
  split. { transitivity ((half * (1 + sg q i) - half * (1 - sg q i)) * dlt i j); [ring|]. rewrite H2. ring. }
  split. { rewrite (sum_ext _ _ (fun k => half * (1 + sg q i) * dlt i k * (half * (1 + sg q k) * dlt k j))) by (intros k _; now rewrite (proj1 (proj2 (V i k))), (proj1 (proj2 (V k j)))).
    rewrite (diag_prod (q * q) (fun i => half * (1 + sg q i)) (fun k => half * (1 + sg q k)) i j Hi). now rewrite H4. }
  split. { rewrite (sum_ext _ _ (fun k => half * (1 - sg q i) * dlt i k * (half * (1 - sg q k) * dlt k j))) by (intros k _; now rewrite (proj2 (proj2 (V i k))), (proj2 (proj2 (V k j)))).
    rewrite (diag_prod (q * q) (fun i => half * (1 - sg q i)) (fun k => half * (1 - sg q k)) i j Hi). now rewrite H5. }
  split. { rewrite (sum_ext _ _ (fun k => half * (1 + sg q i) * dlt i k * (half * (1 - sg q k) * dlt k j))) by (intros k _; now rewrite (proj1 (proj2 (V i k))), (proj2 (proj2 (V k j)))).
    rewrite (diag_prod (q * q) (fun i => half * (1 + sg q i)) (fun k => half * (1 - sg q k)) i j Hi). rewrite H6. ring. }
  rewrite (sum_ext _ _ (fun k => sg q i * dlt i k * (sg q k * dlt k j))) by (intros k _; now rewrite (proj1 (V i k)), (proj1 (V k j))).
  rewrite (diag_prod (q * q) (sg q) (sg q) i j Hi), sg_sg. ring.
Qed.

Lemma vL_ok (half : R) q (vL : site R) : half + half = 1 -> dl vL = (q * q)%nat -> is_square (phys vL) ->
  exists a b M, get_vL_at half (q * q) vL = Ok (a, b, M) /\ phys a = phys vL /\ dl a = dl vL /\ dr a = dr vL /\ phys b = phys vL /\ dl b = dl vL /\ dr b = dr vL /\
  forall s i j, (s < phys vL)%nat -> (i < dl vL)%nat -> (j < dr vL)%nat ->
    ent a s i j + ent b s i j = ent vL s i j /\
    sum (dl vL) (fun k => me M i k * phys_exch a s k j) = ent a s i j /\
    sum (dl vL) (fun k => me M i k * phys_exch b s k j) = - ent b s i j.
Proof.
  intros Hh Hq Hs. unfold get_vL_at. destruct (symm_asymm_ok half q Hh) as (P & Q & M & E & M1 & M2 & _ & _ & _ & _ & V). rewrite E. cbn [bind snd].
  destruct (fs_ok vL Hs) as (Y & EY & Y1 & Y2 & Y3 & Y4). rewrite EY. cbn [bind]. unfold mat_site. rewrite M2, Y2, Hq, Nat.eqb_refl. cbn [bind].
  unfold lin_site. cbn [phys dl dr]. rewrite M1, Y1, Y3, Hq, !Nat.eqb_refl. cbn [andb bind].
  eexists _, _, M. split; [reflexivity|]. cbn [phys dl dr ent]. do 6 (split; [reflexivity|]).
  assert (D : forall s i j, (s < phys vL)%nat -> (i < q * q)%nat -> (j < dr vL)%nat -> sum (q * q) (fun k => me M i k * ent Y s k j) = sg q i * phys_exch vL s i j).
  { intros s i j Hs1 Hi Hj. rewrite (sum_single _ i _ Hi).
    - rewrite (proj1 (V i i)), dlt_eq, Y4 by (rewrite ?Hq; assumption). ring.
    - intros k Hk Hne. rewrite (proj1 (V i k)), dlt_neq by congruence. ring. }
  intros s i j Hs1 Hi Hj. pose proof (exch_lt _ s Hs Hs1) as Hx.
  split. { transitivity ((half + half) * ent vL s i j); [ring|rewrite Hh; ring]. }
  assert (F : forall c, sum (q * q) (fun k => me M i k * (half * ent vL (exch (phys vL) s) k j + c * sum (q * q) (fun k0 => me M k k0 * ent Y (exch (phys vL) s) k0 j)))
     = half * (sg q i * ent vL (exch (phys vL) s) i j) + c * ent vL s i j).
  { intros c. rewrite (sum_single _ i _ Hi).
    - rewrite (proj1 (V i i)), dlt_eq, D by assumption. unfold phys_exch. rewrite exch_exch by assumption.
      transitivity (half * (sg q i * ent vL (exch (phys vL) s) i j) + sg q i * sg q i * c * ent vL s i j); [ring|]. rewrite sg_sg. ring.
    - intros k Hk Hne. rewrite (proj1 (V i k)), dlt_neq by congruence. ring. }
  unfold phys_exch at 1 2. cbn [ent phys]. rewrite D by assumption. rewrite !F. unfold phys_exch. split; ring.
Qed.
End P.
