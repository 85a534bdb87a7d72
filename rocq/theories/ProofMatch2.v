(** match_gauge_to, the Schmidt spectrum behind entanglement_entropy, vfMPS, indexing and comparison. *)
From Verif Require Import Alg ModelMPS SpecMPS ProofMPS ProofMPS2 ModelOrth SpecOrth ProofOrth ModelCanon SpecCanon ProofCanon ProofCanon2 ProofCanon3 ProofCanon4
  ModelEk SpecEk ModelGauge SpecGauge ProofMatch.

Section Proof.
Context {R : sring}.
Local Open Scope sr_scope.
Add Ring Rr : (s_th R).

Lemma match_ok (polar : mat R -> option (mat R * mat R)) (m b : fmps R) : polar_ok polar -> wf m -> wf b -> dims (fdata m) = dims (fdata b) ->
  Forall2 (fun A B => (dl A <= dl B)%nat) (fdata m) (fdata b) ->
  match match_gauge_to polar m b with
  | Err e => e = LinAlgError
  | Ok m' => wf m' /\ fL m' = fL m /\ fd m' = fd m /\ Forall2 same_bonds (fdata m') (fdata b) /\ Forall2 matched (fdata m') (fdata b) /\
      (exists w, w * sconj w = 1 /\ forall s, incfg (dims (fdata m)) s -> psi m s = w * psi m' s) /\
      (Forall right_iso (fdata m) -> map (@dl R) (fdata m) = map (@dl R) (fdata b) -> Forall right_iso (fdata m'))
  end.
Proof.
  intros HP (Hc & HL & Hn) (Hcb & HLb & Hnb) Hd HD. unfold match_gauge_to. rewrite HL.
  assert (Hlen : exists n, length (fdata m) = S n) by (destruct (fdata m); [congruence|cbn; eauto]). destruct Hlen as (n & Hlen).
  pose proof (gauge_loop_ok polar HP n (fdata m) (fdata b) [] [] 1 1 1 Hlen Hc Hcb Hd HD) as H. rewrite !app_nil_r in H.
  destruct (gauge_loop polar _ _ _) as [data|e]; cbn [bind]; [|exact H].
  destruct H as (rest' & U & -> & H1 & H2 & H3 & (U1 & U2 & HU) & H4 & H5). rewrite app_nil_r. unfold with_data, wf, psi. cbn [fdata fL fd].
  assert (HLr : length rest' = length (fdata b)) by (clear -H2; induction H2; cbn; congruence).
  assert (HLd : length (fdata b) = length (fdata m)) by (rewrite <- !dims_length, Hd; reflexivity).
  split; [split; [exact H1|split; [congruence|intros ->; cbn in HLr; lia]]|]. split; [exact HL|]. split; [reflexivity|]. split; [exact H2|]. split; [exact H3|]. split; [|exact H5].
  exists (me U 0%nat 0%nat). split.
  - specialize (HU 0%nat 0%nat ltac:(lia) ltac:(lia)). cbn [sum] in HU. rewrite dlt_eq in HU. rewrite <- HU. ring.
  - intros s Hs. rewrite (H4 s 0%nat 0%nat Hs) by lia. cbn [sum]. ring.
Qed.

(** ** Schmidt spectrum *)
Lemma left_isos_orthonormal (l : list (site R)) : forall i k, chain i l k -> Forall left_iso l -> forall x y, (x < k)%nat -> (y < k)%nat ->
  sum i (fun z => sumcfg (dims l) (fun s => sconj (amp l s z x) * amp l s z y)) = dlt x y.
Proof.
  induction l as [|A l IH]; intros i k Hc HI x y Hx Hy.
  - cbn in Hc. subst i. cbn [dims map sumcfg amp].
    rewrite sum_dlt_r by exact Hy. rewrite dlt_conj. apply dlt_sym.
  - destruct Hc as [HcA Hc]. inversion HI as [|? ? HA HIl]; subst.
    transitivity (sum (dr A) (fun p => sum (dr A) (fun q => sum (phys A) (fun u => sum (dl A) (fun z => sconj (ent A u z p) * ent A u z q)) *
      sumcfg (dims l) (fun s => sconj (amp l s p x) * amp l s q y)))).
    + cbn [dims map sumcfg amp]. fold (dims l).
      rewrite (sum_ext (dl A) _ (fun z => sum (phys A) (fun u => sum (dr A) (fun p => sum (dr A) (fun q => sconj (ent A u z p) * ent A u z q * sumcfg (dims l) (fun s => sconj (amp l s p x) * amp l s q y)))))).
      * rewrite sum_swap. rewrite (sum_ext (phys A) _ (fun u => sum (dr A) (fun p => sum (dr A) (fun q => sum (dl A) (fun z => sconj (ent A u z p) * ent A u z q) * sumcfg (dims l) (fun s => sconj (amp l s p x) * amp l s q y))))).
        -- rewrite sum_swap. apply sum_ext; intros p _. rewrite sum_swap. apply sum_ext; intros q _. now rewrite sum_mul_r.
        -- intros u _. rewrite sum_swap. apply sum_ext; intros p _. rewrite sum_swap. apply sum_ext; intros q _. now rewrite sum_mul_r.
      * intros z _. apply sum_ext; intros u _.
        rewrite (sumcfg_ext _ _ (fun s => sum (dr A) (fun p => sum (dr A) (fun q => sconj (ent A u z p) * ent A u z q * (sconj (amp l s p x) * amp l s q y))))).
        -- rewrite sumcfg_sum. apply sum_ext; intros p _. rewrite sumcfg_sum. apply sum_ext; intros q _. apply sumcfg_mul_l.
        -- intros s _. rewrite sum_conj, sum_prod. apply sum_ext; intros p _. apply sum_ext; intros q _. rewrite conj_mul. ring.
    + rewrite (sum_ext _ _ (fun p => sumcfg (dims l) (fun s => sconj (amp l s p x) * amp l s p y))).
      * exact (IH (dr A) k Hc HIl x y Hx Hy).
      * intros p Hp. rewrite (sum_ext _ _ (fun q => dlt p q * sumcfg (dims l) (fun s => sconj (amp l s p x) * amp l s q y))).
        -- rewrite sum_dlt_l by exact Hp. reflexivity.
        -- intros q Hq. now rewrite (HA p q Hp Hq).
Qed.

Lemma cut_spectrum (l : list (site R)) k A Sk : chain 1 l 1 -> Forall left_iso l -> nth_error l k = Some A -> diag_rgram (skipn k l) (dl A) Sk ->
  orthonormal (dims (firstn k l)) (dl A) (fun x s => amp (firstn k l) s 0%nat x) /\
  forall s t, length s = k -> length t = k ->
    sumcfg (dims (skipn k l)) (fun v => amp l (s ++ v) 0%nat 0%nat * sconj (amp l (t ++ v) 0%nat 0%nat))
    = sum (dl A) (fun x => Sk x * (amp (firstn k l) s 0%nat x * sconj (amp (firstn k l) t 0%nat x))).
Proof.
  intros Hc HI HA HG. assert (Hkl : (k < length l)%nat) by (apply nth_error_Some; congruence).
  assert (Hs : skipn k l = A :: skipn (S k) l).
  { clear -HA. revert k HA; induction l as [|B l IH]; intros [|k] HA; try discriminate; cbn in *; [now injection HA as ->|]. exact (IH k HA). }
  rewrite <- (firstn_skipn k l) in Hc, HI. apply chain_app in Hc as (c & Hc1 & Hc2). apply Forall_app in HI as [HI1 _].
  assert (Hcd : c = dl A) by (rewrite Hs in Hc2; destruct Hc2 as [<- _]; reflexivity). subst c.
  split.
  - intros x y Hx Hy. pose proof (left_isos_orthonormal _ 1 (dl A) Hc1 HI1 x y Hx Hy) as H. cbn [sum] in H. rewrite <- H. ring.
  - intros s t Ls Lt.
    assert (Hamp : forall u v, length u = k -> amp l (u ++ v) 0%nat 0%nat = sum (dl A) (fun x => amp (firstn k l) u 0%nat x * amp (skipn k l) v x 0%nat)).
    { intros u v Lu. rewrite <- (firstn_skipn k l) at 1. apply (amp_app (firstn k l) (skipn k l) u v 0%nat (dl A) 1%nat); [rewrite firstn_length; lia|exact Hc1|lia]. }
    rewrite (sumcfg_ext _ _ (fun v => sum (dl A) (fun x => sum (dl A) (fun y => (amp (firstn k l) s 0%nat x * sconj (amp (firstn k l) t 0%nat y)) * (amp (skipn k l) v x 0%nat * sconj (amp (skipn k l) v y 0%nat)))))).
    2: { intros v _. rewrite !Hamp by assumption. rewrite sum_conj, sum_prod. apply sum_ext; intros x _. apply sum_ext; intros y _. rewrite conj_mul. ring. }
    rewrite sumcfg_sum. apply sum_ext; intros x Hx. rewrite sumcfg_sum.
    rewrite (sum_ext _ _ (fun y => dlt x y * (Sk x * (amp (firstn k l) s 0%nat x * sconj (amp (firstn k l) t 0%nat y))))).
    + rewrite sum_dlt_l by exact Hx. reflexivity.
    + intros y Hy. rewrite sumcfg_mul_l. change (sumcfg (dims (skipn k l)) (fun v => amp (skipn k l) v x 0%nat * sconj (amp (skipn k l) v y 0%nat))) with (right_gram (skipn k l) x y).
      rewrite (HG x y Hx Hy). unfold dlt. destruct (Nat.eqb x y); ring.
Qed.

Lemma entropy_ok (abs : R -> R) (above : R -> bool) (log : R -> R) (O : lapack2 R) (m : fmps R) k :
  svd_ok O -> eig_ok O -> eig_zeros_last O -> @definite R -> @integral R -> (1:R) <> 0 ->
  wf m -> uniform m -> (0 < fd m)%nat -> (exists s, incfg (dims (fdata m)) s /\ psi m s <> 0) -> (k < fL m)%nat ->
  match entanglement_entropy abs above log O m k with
  | Err e => e = LinAlgError
  | Ok (v, m') => wf m' /\ dims (fdata m') = dims (fdata m) /\ (exists c, forall s, incfg (dims (fdata m)) s -> psi m s = c * psi m' s) /\
      exists n (p : nat -> R) (phi : nat -> list nat -> R),
        v = - suml (map (fun p => p * log p) (filter above (map (fun x => abs (p x)) (seq 0 n)))) /\
        orthonormal (firstn k (dims (fdata m))) n phi /\
        (forall x, (x < n)%nat -> p x <> 0) /\ sum n p = 1 /\
        forall s t, incfg (firstn k (dims (fdata m))) s -> incfg (firstn k (dims (fdata m))) t ->
          reduced [] (skipn k (dims (fdata m))) (psi m) s t = sumcfg (dims (fdata m)) (fun u => psi m u * sconj (psi m u)) * sum n (fun x => p x * (phi x s * sconj (phi x t)))
  end.
Proof.
  intros HS HE HZ Hdef Hint H10 Hw Hu Hdp Hnz Hk. unfold entanglement_entropy.
  assert (HK : keeps_something_r None m) by (right; split; [exact I|exact Hnz]).
  pose proof (left_can_back O m None HS HE HZ Hdef Hint H10 Hw Hu Hdp HK) as H.
  destruct (left_canonicalise O m None true true) as [[m' [Ls|]]|e]; [| |exact H]; cbn [bind snd fst]; [|destruct H].
  destruct H as (W' & D' & L' & d' & _ & _ & _ & HI & _ & (X & _ & _ & _ & HX) & HLs & HG).
  destruct (HX I) as (w & Hw1 & Hpsi). clear HX.
  assert (HkA : exists A, nth_error (fdata m') k = Some A).
  { destruct (nth_error (fdata m') k) as [A|] eqn:E; [eauto|]. apply nth_error_None in E. destruct W' as (_ & W' & _). lia. }
  destruct HkA as (A & HA). destruct (HG k A HA) as (Sk & Y & HY & HYd & Hgr & Hnz').
  unfold getitem. rewrite HY. cbn [bind].
  destruct HYd as (Y1 & Y2 & Y3). cbn in Y1, Y2.
  destruct (cut_spectrum (fdata m') k A Sk (proj1 W') HI HA Hgr) as [Hon Hsp].
  split; [exact W'|]. split; [exact D'|]. split; [exists (me X 0%nat 0%nat * w); intros s Hs; rewrite (Hpsi s Hs); ring|].
  assert (Hdf : dims (firstn k (fdata m')) = firstn k (dims (fdata m))) by (rewrite <- D'; unfold dims; now rewrite firstn_map).
  assert (Hds : dims (skipn k (fdata m')) = skipn k (dims (fdata m))) by (rewrite <- D'; unfold dims; now rewrite skipn_map).
  assert (N1 : sumcfg (dims (fdata m)) (fun u => psi m' u * sconj (psi m' u)) = 1).
  { pose proof (left_isos_orthonormal (fdata m') 1 1 (proj1 W') HI 0%nat 0%nat ltac:(lia) ltac:(lia)) as E. cbn [sum] in E. rewrite dlt_eq, D' in E. unfold psi. rewrite <- E.
    transitivity (sumcfg (dims (fdata m)) (fun s => sconj (amp (fdata m') s 0%nat 0%nat) * amp (fdata m') s 0%nat 0%nat)); [apply sumcfg_ext; intros; ring|ring]. }
  exists (dl A), Sk, (fun x s => amp (firstn k (fdata m')) s 0%nat x). split.
  { rewrite Y1, Y2, Nat.min_id. do 4 f_equal. apply map_ext_in. intros x Hx. apply in_seq in Hx. rewrite Y3 by (cbn; lia). cbn. now rewrite Nat.eqb_refl. }
  split; [rewrite <- Hdf; exact Hon|]. split; [exact Hnz'|].
  assert (HT : sum (dl A) Sk = 1).
  { rewrite <- N1. rewrite <- D', <- (firstn_skipn k (dims (fdata m'))), D', <- Hdf, <- Hds. rewrite sumcfg_app.
    rewrite (sumcfg_ext _ _ (fun s => sum (dl A) (fun x => Sk x * (sconj (amp (firstn k (fdata m')) s 0%nat x) * amp (firstn k (fdata m')) s 0%nat x)))).
    - rewrite sumcfg_sum. apply sum_ext; intros x Hx. rewrite sumcfg_mul_l, (Hon x x Hx Hx), dlt_eq. ring.
    - intros s Hs. apply incfg_length in Hs. rewrite dims_length, firstn_length in Hs. unfold psi. rewrite (Hsp s s) by (destruct W' as (_ & W' & _); lia). apply sum_ext; intros; ring. }
  split; [exact HT|]. intros s t Hs Ht.
  assert (Ls' : length s = k) by (apply incfg_length in Hs; rewrite firstn_length, dims_length in Hs; destruct Hw as (_ & Hw & _); lia).
  assert (Lt' : length t = k) by (apply incfg_length in Ht; rewrite firstn_length, dims_length in Ht; destruct Hw as (_ & Hw & _); lia).
  set (c := me X 0%nat 0%nat * w) in *.
  assert (NN : sumcfg (dims (fdata m)) (fun u => psi m u * sconj (psi m u)) = c * sconj c).
  { rewrite (sumcfg_ext _ _ (fun u => c * sconj c * (psi m' u * sconj (psi m' u)))); [rewrite sumcfg_mul_l, N1; ring|]. intros u Hu'. rewrite (Hpsi u Hu'), conj_mul. ring. }
  rewrite NN. unfold reduced. cbn [sumcfg app]. rewrite <- (Hsp s t Ls' Lt'), Hds, <- sumcfg_mul_l. apply sumcfg_ext; intros v Hv.
  assert (Hin : forall u, incfg (firstn k (dims (fdata m))) u -> incfg (dims (fdata m)) (u ++ v)).
  { intros u Hu'. rewrite <- (firstn_skipn k (dims (fdata m))). now apply incfg_app. }
  rewrite !Hpsi by auto. unfold psi. rewrite conj_mul. ring.
Qed.

(** ** Vidal pairs *)
Lemma vf_round_trip (inv : mat R -> option (mat R)) (O : lapack2 R) (m : fmps R) :
  (forall M N, inv M = Some N -> mr N = mr M /\ mc N = mc M /\ forall i j, (i < mr M)%nat -> (j < mr M)%nat -> sum (mr M) (fun k => me M i k * me N k j) = dlt i j) ->
  svd_ok O -> eig_ok O -> eig_zeros_last O -> @definite R -> @integral R -> (1:R) <> 0 ->
  wf m -> uniform m -> (0 < fd m)%nat -> (exists s, incfg (dims (fdata m)) s /\ psi m s <> 0) ->
  match vf_from_fMPS inv O m with
  | Err e => e = LinAlgError
  | Ok (v, m') => exists Ls x, right_canonicalise O m None true true = Ok (m', Some Ls) /\ vf_to_fMPS v = Ok x /\
      fd x = fd m /\ fL x = fL m /\ wf x /\ Forall2 (fun A B => same_bonds A B /\ forall s i j, (s < phys B)%nat -> (i < dl B)%nat -> (j < dr B)%nat -> ent A s i j = ent B s i j) (fdata x) (fdata m') /\
      (forall s, incfg (dims (fdata m)) s -> psi x s = psi m' s) /\ exists c, forall s, incfg (dims (fdata m)) s -> psi m s = c * psi x s
  end.
Proof.
  intros HV HS HE HZ Hdef Hint H10 Hw Hu Hdp Hnz. unfold vf_from_fMPS.
  assert (HK : keeps_something None m) by (right; split; [exact I|exact Hnz]).
  pose proof (right_can_back O m None HS HE HZ Hdef Hint H10 Hw Hu Hdp HK) as H.
  destruct (right_canonicalise O m None true true) as [[m' [Ls|]]|e]; [| |exact H]; cbn [bind snd fst]; [|destruct H].
  destruct H as (W' & D' & L' & d' & _ & _ & _ & _ & HI & _ & HX & HLs & HG). destruct (HX I) as (c & Hpsi). clear HX.
  assert (Hkey : forall (l : list (site R)) Xs, (forall k A, nth_error l k = Some A -> exists X, nth_error Xs k = Some X /\ mr X = dl A /\ mc X = dl A) -> (length l <= length Xs)%nat ->
    match mapM (fun LA => match inv (fst LA) with None => Err LinAlgError | Some Li => do G <- site_lmul Li (snd LA); Ok (fst LA, G) end) (pyzip Xs l) with
    | Err e => e = LinAlgError
    | Ok l' => exists l2, mapM (fun x => site_lmul (fst x) (snd x)) l' = Ok l2 /\
        Forall2 (fun A B => same_bonds A B /\ forall s i j, (s < phys B)%nat -> (i < dl B)%nat -> (j < dr B)%nat -> ent A s i j = ent B s i j) l2 l
    end).
  { induction l as [|A l IH]; intros Xs Hl Hlen.
    - destruct Xs; cbn; exists []; auto.
    - destruct Xs as [|X Xs]; [cbn in Hlen; lia|]. destruct (Hl 0%nat A eq_refl) as (X' & HX' & X1 & X2). cbn in HX'. injection HX' as <-.
      specialize (IH Xs (fun k => Hl (S k)) ltac:(cbn in Hlen; lia)). cbn [pyzip combine mapM fst snd]. change (combine Xs l) with (pyzip Xs l).
      destruct (inv X) as [Li|] eqn:EI; [|reflexivity]. destruct (HV _ _ EI) as (V1 & V2 & V3).
      unfold site_lmul at 1. rewrite V2, X2, Nat.eqb_refl. cbn [bind].
      destruct (mapM _ (pyzip Xs l)) as [l'|e]; cbn [bind]; [|exact IH]. destruct IH as (l2 & Hl2 & HF). cbn [mapM fst snd].
      unfold site_lmul at 1. cbn [dl]. rewrite X2, V1, X1, Nat.eqb_refl. cbn [bind]. rewrite Hl2. cbn [bind]. eexists. split; [reflexivity|]. constructor; [|exact HF].
      split; [unfold same_bonds; cbn; auto|]. intros s i j Hs Hi Hj. cbn [ent].
      rewrite (sum_ext _ _ (fun k => sum (dl A) (fun q => me X i k * me Li k q * ent A s q j))) by (intros k _; rewrite <- sum_mul_l; apply sum_ext; intros; ring).
      rewrite sum_swap. rewrite (sum_ext _ _ (fun q => dlt i q * ent A s q j)); [exact (sum_dlt_l (dl A) i (fun q => ent A s q j) Hi)|].
      intros q Hq. rewrite sum_mul_r. f_equal. rewrite <- X1. apply V3; lia. }
  specialize (Hkey (fdata m') Ls). match type of Hkey with ?P -> _ => assert (G1 : P) end.
  { intros k A HA. destruct (HG k A HA) as (Sk & X & HXk & (X1 & X2 & _) & _). exists X. auto. }
  specialize (Hkey G1). specialize (Hkey ltac:(destruct W' as (_ & W' & _); lia)).
  destruct (mapM _ (pyzip Ls (fdata m'))) as [l'|e]; cbn [bind]; [|exact Hkey]. destruct Hkey as (l2 & Hl2 & HF).
  exists Ls. unfold vf_to_fMPS. cbn [vf_data vf_d]. rewrite Hl2. cbn [bind].
  assert (Hn2 : l2 <> []). { intros ->. inversion HF as [E|]. destruct W' as (_ & _ & W'). congruence. }
  destruct (init_ok_d l2 (fd m) Hn2) as (x & Hx & Xd & XL & Xfd & _). exists x. split; [reflexivity|]. split; [exact Hx|]. split; [exact Xfd|].
  assert (HL2 : length l2 = length (fdata m')) by (clear -HF; induction HF; cbn; congruence).
  split; [rewrite XL, HL2; destruct W' as (_ & W' & _); congruence|].
  assert (Hch : forall i j, chain i (fdata m') j -> chain i l2 j).
  { clear -HF. induction HF as [|A B l l' [(E1 & E2 & E3) _] _ IH]; intros i j Hc; [exact Hc|]. destruct Hc as [Hc1 Hc2]. split; [congruence|]. rewrite E3. auto. }
  assert (Ham : forall i j s, chain i (fdata m') j -> incfg (dims (fdata m')) s -> forall p q, (p < i)%nat -> amp l2 s p q = amp (fdata m') s p q).
  { clear -HF. induction HF as [|A B l l' [(E1 & E2 & E3) HE] _ IH]; intros i j s Hc Hs p q Hp; [reflexivity|]. destruct s as [|t s]; [inversion Hs|].
    apply incfg_cons in Hs as [Ht Hs]. destruct Hc as [Hc1 Hc2]. cbn [amp]. rewrite E3. apply sum_ext; intros k Hk. rewrite HE by lia. f_equal. exact (IH (dr B) j s Hc2 Hs k q Hk). }
  split; [split; [rewrite Xd; apply Hch, W'|split; [now rewrite Xd|now rewrite Xd]]|]. split; [now rewrite Xd|].
  assert (Hp : forall s, incfg (dims (fdata m)) s -> psi x s = psi m' s).
  { intros s Hs. unfold psi. rewrite Xd. apply (Ham 1%nat 1%nat); [apply W'|now rewrite D'|lia]. }
  split; [exact Hp|]. exists c. intros s Hs. rewrite (Hpsi s Hs), Hp by exact Hs. reflexivity.
Qed.

Lemma vf_init_no_data (data : list (mat R * site R)) (d : nat) v : vf_init (Some data) (Some d) = Ok v -> vf_to_fMPS v = Err AttributeError.
Proof. unfold vf_init. destruct data; [discriminate|]. intros H; injection H as <-. reflexivity. Qed.

(** ** Indexing and comparison *)
Lemma item_access (m m' : fmps R) k A : mps_setitem m k A = Ok m' ->
  mps_getitem m' k = Ok A /\ (forall j, j <> k -> mps_getitem m' j = mps_getitem m j) /\ mps_len m' = mps_len m /\ (forall j, mps_call m' j = mps_getitem m' (S j)).
Proof.
  unfold mps_setitem, mps_getitem, mps_len, mps_call. destruct (setitem (fdata m) k A) as [l|] eqn:E; [|discriminate]. cbn [bind]. intros H; injection H as <-. cbn [with_data fdata].
  assert (G : forall (a : list (site R)) k l, setitem a k A = Ok l -> getitem l k = Ok A /\ (forall j, j <> k -> getitem l j = getitem a j) /\ length l = length a).
  { clear. induction a as [|B a IH]; intros [|k] l H; cbn in H; try discriminate.
    - injection H as <-. split; [reflexivity|]. split; [|reflexivity]. intros [|j] Hj; [congruence|reflexivity].
    - destruct (setitem a k A) as [l'|] eqn:E; [|discriminate]. cbn [bind] in H. injection H as <-. destruct (IH k l' E) as (H1 & H2 & H3).
      split; [exact H1|]. split; [|cbn; congruence]. intros [|j] Hj; [reflexivity|]. exact (H2 j ltac:(congruence)). }
  destruct (G _ _ _ E) as (G1 & G2 & G3). repeat split; auto. intros j. now rewrite Nat.add_1_r.
Qed.

Lemma eq_ok (close : site R -> site R -> res bool) (a b : fmps R) : length (fdata a) = length (fdata b) ->
  mps_eq close a b = Ok true <-> Forall2 (fun A B => close A B = Ok true) (fdata a) (fdata b).
Proof.
  intros HL. unfold mps_eq, pyzip. split.
  - revert HL. generalize (fdata b). induction (fdata a) as [|A l IH]; intros [|B l'] HL H; try discriminate; [constructor|]. cbn [combine mapM fst snd] in H.
    destruct (close A B) as [c|] eqn:E; [|discriminate]. cbn [bind] in H. destruct (mapM _ (combine l l')) as [cs|] eqn:E2; [|discriminate]. cbn [bind forallb] in H. injection H as H.
    apply andb_prop in H as [-> H]. constructor; [exact E|]. apply IH; [now injection HL|]. rewrite E2. cbn [bind]. now rewrite H.
  - intros H. clear HL. assert (E : mapM (fun x => close (fst x) (snd x)) (combine (fdata a) (fdata b)) = Ok (repeat true (length (fdata a)))).
    { induction H as [|A B l l' HA _ IH]; [reflexivity|]. cbn [combine mapM fst snd length repeat]. rewrite HA. cbn [bind]. now rewrite IH. }
    rewrite E. cbn [bind]. f_equal. clear. induction (length (fdata a)) as [|n IH]; [reflexivity|exact IH].
Qed.

Lemma ne_ok (close : site R -> site R -> res bool) (a b : fmps R) : mps_ne close a b = match mps_eq close a b with Ok x => Ok (negb x) | Err e => Err e end.
Proof. unfold mps_ne. destruct (mps_eq close a b); reflexivity. Qed.

Lemma eq_prefix (close : site R -> site R -> res bool) (a b : fmps R) rest : (forall A, close A A = Ok true) -> fdata b = fdata a ++ rest -> mps_eq close a b = Ok true /\ mps_eq close b a = Ok true.
Proof.
  intros Hr E0. unfold mps_eq, pyzip. rewrite E0.
  assert (E : forall l, mapM (fun x => close (fst x) (snd x)) (combine l (l ++ rest)) = Ok (repeat true (length l)) /\ mapM (fun x => close (fst x) (snd x)) (combine (l ++ rest) l) = Ok (repeat true (length l))).
  { induction l as [|A l [IH1 IH2]]; [split; destruct rest; reflexivity|]. cbn [app combine mapM fst snd length repeat]. rewrite Hr. cbn [bind]. rewrite IH1, IH2. split; reflexivity. }
  destruct (E (fdata a)) as [E1 E2]. rewrite E1, E2. cbn [bind]. assert (T : forall n, forallb (fun x : bool => x) (repeat true n) = true) by (induction n; cbn; auto). rewrite T. auto.
Qed.
End Proof.
