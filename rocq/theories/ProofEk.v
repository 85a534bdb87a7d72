(** Contraction of the networks built by links: the interior bonds of a chain. *)
From Verif Require Import Alg ModelMPS SpecMPS ProofMPS ModelOrth SpecOrth ProofOrth2 ModelNcon SpecNcon ProofNcon ProofNcon4 ModelEk.
From Coq Require Import Permutation.

Section Chain.
Context {R : sring}.
Local Open Scope sr_scope.
Add Ring Rr : (s_th R).

Lemma tprod_cons (A : tens R) AA w v e : tprod (A :: AA) (w :: v) e = te A (map e w) * tprod AA v e.
Proof. reflexivity. Qed.

Lemma prodl_app (a b : list R) : prodl (a ++ b) = prodl a * prodl b.
Proof. induction a as [|x a IH]; cbn; [ring|]. rewrite IH. ring. Qed.

Lemma tprod_app (AA BB : list (tens R)) v w e : length AA = length v ->
  tprod (AA ++ BB) (v ++ w) e = tprod AA v e * tprod BB w e.
Proof.
  revert v. induction AA as [|A AA IH]; intros [|x v] H; try discriminate; cbn [app].
  - unfold tprod at 2. cbn. ring.
  - rewrite !tprod_cons, IH by (cbn in H; lia). ring.
Qed.

Lemma tprod_free (AA : list (tens R)) v l x e : ~ In l (concat v) -> tprod AA v (eupd e l x) = tprod AA v e.
Proof.
  revert v. induction AA as [|A AA IH]; intros [|w v] H; try reflexivity.
  rewrite !tprod_cons. cbn [concat] in H. rewrite IH by (intros G; apply H, in_or_app; right; exact G).
  f_equal. f_equal. apply map_ext_in. intros k Hk. apply eupd_other. intros ->. apply H, in_or_app. left. exact Hk.
Qed.

Lemma esum_free ld ls (f : (Z -> nat) -> R) e l x : proper f -> ~ In l ls ->
  (forall e, f (eupd e l x) = f e) -> esum ld ls f (eupd e l x) = esum ld ls f e.
Proof.
  intros Hp. revert e. induction ls as [|k ls IH]; intros e Hl Hf; cbn; [apply Hf|].
  apply sum_ext. intros y _. rewrite <- (IH (eupd e k y)); [|intros G; apply Hl; right; exact G|exact Hf].
  apply esum_proper; [exact Hp|]. intros z. unfold eupd.
  destruct (Z.eqb_spec z k), (Z.eqb_spec z l); try reflexivity. subst. exfalso. apply Hl. left. reflexivity.
Qed.

Definition lnk (p b : nat -> Z) (n0 k : nat) : list (list Z) := map (fun n => [p n; b n; b (S n)]) (seq n0 k).

Lemma lnk_length p b n0 k : length (lnk p b n0 k) = k.
Proof. unfold lnk. rewrite map_length, seq_length. reflexivity. Qed.

Lemma in_lnk p b n0 k l : In l (concat (lnk p b n0 k)) ->
  (exists n, n0 <= n < n0 + k /\ l = p n)%nat \/ (exists n, n0 <= n <= n0 + k /\ l = b n)%nat.
Proof.
  intros H. apply in_concat in H as (w & Hw & Hl). apply in_map_iff in Hw as (n & <- & Hn). apply in_seq in Hn.
  destruct Hl as [<-|[<-|[<-|[]]]]; [left|right|right]; [exists n|exists n|exists (S n)]; split; (lia || reflexivity).
Qed.

Definition injb (b : nat -> Z) n0 k := forall n m, (n0 <= n <= n0 + k)%nat -> (n0 <= m <= n0 + k)%nat -> b n = b m -> n = m.

Lemma chain_esum ld (Ms : list (site R)) : forall n0 p b e a z, Ms <> [] -> chain a Ms z ->
  injb b n0 (length Ms) ->
  (forall n m, (n0 <= n < n0 + length Ms)%nat -> (n0 <= m <= n0 + length Ms)%nat -> p n <> b m) ->
  (forall i A, nth_error Ms i = Some A -> ld (b (n0 + i)%nat) = dl A) ->
  (e (b (n0 + length Ms)%nat) < z)%nat ->
  esum ld (map b (seq (S n0) (length Ms - 1))) (tprod (map tens_site Ms) (lnk p b n0 (length Ms))) e
  = amp Ms (map (fun n => e (p n)) (seq n0 (length Ms))) (e (b n0)) (e (b (n0 + length Ms)%nat)).
Proof.
  induction Ms as [|M Ms IH]; intros n0 p b e a z Hne HC Hb Hpb Hld Hz; [contradiction|]. destruct HC as [Ha Hc]. clear Hne.
  destruct Ms as [|M' Ms].
  - cbn in Hc. subst z. cbn [length Nat.sub seq map]. cbn [esum amp]. unfold lnk. cbn [seq map]. rewrite tprod_cons.
    cbn [map tens_site te nth]. unfold tprod. cbn [combine map prodl].
    cbn [length] in *. replace (n0 + 1)%nat with (S n0) in * by lia.
    rewrite sum_dlt_r by exact Hz. ring.
  - set (N := M' :: Ms) in *. assert (HN : N <> []) by discriminate.
    assert (HS : length N = S (length N - 1)) by (unfold N; cbn; lia).
    cbn [length Nat.sub]. rewrite Nat.sub_0_r. rewrite HS at 1. cbn [seq map esum amp].
    assert (Hd : ld (b (S n0)) = dr M).
    { rewrite <- Nat.add_1_r. rewrite (Hld 1%nat M' eq_refl). destruct Hc as [Hc _]. exact Hc. }
    rewrite Hd. apply sum_ext. intros x Hx.
    assert (Hsplit : forall e', tprod (tens_site M :: map tens_site N) (lnk p b n0 (S (length N))) e'
       = tprod (map tens_site N) (lnk p b (S n0) (length N)) e' * ent M (e' (p n0)) (e' (b n0)) (e' (b (S n0)))).
    { intros e'. unfold lnk. cbn [seq map]. rewrite tprod_cons. cbn [map tens_site te nth]. ring. }
    rewrite (esum_ext _ _ _ _ Hsplit).
    rewrite (esum_factor ld (tprod (map tens_site N) (lnk p b (S n0) (length N)))
              (fun e' => ent M (e' (p n0)) (e' (b n0)) (e' (b (S n0))))).
    2: { intros e' l y Hl. apply in_map_iff in Hl as (n & <- & Hn). apply in_seq in Hn.
         rewrite !eupd_other; [reflexivity| | |].
         - intros G. apply Hb in G; cbn [length] in *; lia.
         - intros G. apply Hb in G; cbn [length] in *; lia.
         - apply Hpb; cbn [length] in *; lia. }
    rewrite (IH (S n0) p b (eupd e (b (S n0)) x) (dr M) z HN Hc).
    + rewrite eupd_same.
      rewrite (eupd_other e (b (S n0)) x (p n0)) by (apply Hpb; cbn [length]; lia).
      rewrite (eupd_other e (b (S n0)) x (b n0)).
      2: { intros G. apply Hb in G; cbn [length] in *; lia. }
      rewrite (eupd_other e (b (S n0)) x (b (S n0 + length N)%nat)).
      2: { intros G. apply Hb in G; cbn [length] in *; lia. }
      replace (n0 + S (length N))%nat with (S n0 + length N)%nat by lia.
      rewrite (s_th R).(Rmul_comm). f_equal. f_equal. apply map_ext_in. intros n Hn. apply in_seq in Hn. apply eupd_other.
      apply Hpb; cbn [length]; lia.
    + intros n m Hn Hm. apply Hb; cbn [length]; lia.
    + intros n m Hn Hm. apply Hpb; cbn [length]; lia.
    + intros i A Hi. replace (S n0 + i)%nat with (n0 + S i)%nat by lia. apply Hld. exact Hi.
    + rewrite eupd_other; [|intros G; apply Hb in G; cbn [length] in *; lia].
      replace (S n0 + length N)%nat with (n0 + length (M :: N))%nat by (cbn [length]; lia). exact Hz.
Qed.

(** Two chains joined at both ends. *)
Lemma pair_esum ld (X Y : list (site R)) p b q c k a z e :
  length X = k -> length Y = k -> (0 < k)%nat -> chain a X z -> chain a Y z ->
  b 0%nat = c 0%nat -> b k = c k -> injb b 0 k -> injb c 0 k ->
  (forall n m, (n < k)%nat -> (m <= k)%nat -> p n <> b m /\ p n <> c m /\ q n <> b m /\ q n <> c m) ->
  (forall n m, (0 < n < k)%nat -> (m <= k)%nat -> b n <> c m) ->
  (forall n m, (0 < n < k)%nat -> (m <= k)%nat -> c n <> b m) ->
  (forall i A, nth_error X i = Some A -> ld (b i) = dl A) ->
  (forall i A, nth_error Y i = Some A -> ld (c i) = dl A) -> ld (b k) = z ->
  esum ld ([b 0%nat; b k] ++ map b (seq 1 (k - 1)) ++ map c (seq 1 (k - 1)))
    (fun e => tprod (map tens_site X) (lnk p b 0 k) e * tprod (map tens_site Y) (lnk q c 0 k) e) e
  = sum a (fun i => sum z (fun j => amp X (map (fun n => e (p n)) (seq 0 k)) i j * amp Y (map (fun n => e (q n)) (seq 0 k)) i j)).
Proof.
  intros HX HY Hk HcX HcY E0 Ek Hb Hc Hpq Hbc Hcb HlX HlY Hz. cbn [app esum].
  assert (HXn : X <> []) by (intros ->; cbn in HX; lia).
  assert (HYn : Y <> []) by (intros ->; cbn in HY; lia).
  assert (Ha : ld (b 0%nat) = a). { destruct X as [|A X]; [contradiction|]. rewrite (HlX 0%nat A eq_refl). apply HcX. }
  rewrite Ha, Hz. apply sum_ext. intros i Hi. apply sum_ext. intros j Hj.
  set (e' := eupd (eupd e (b 0%nat) i) (b k) j).
  assert (F1 : forall d, esum ld (map c (seq 1 (k - 1)))
     (fun e => tprod (map tens_site X) (lnk p b 0 k) e * tprod (map tens_site Y) (lnk q c 0 k) e) d
     = tprod (map tens_site X) (lnk p b 0 k) d * esum ld (map c (seq 1 (k - 1))) (tprod (map tens_site Y) (lnk q c 0 k)) d).
  { intros d. rewrite (s_th R).(Rmul_comm).
    rewrite <- (esum_factor ld (tprod (map tens_site Y) (lnk q c 0 k)) (tprod (map tens_site X) (lnk p b 0 k))).
    - apply esum_ext. intros; ring.
    - intros d' l x Hl. apply in_map_iff in Hl as (n & <- & Hn). apply in_seq in Hn. apply tprod_free.
      intros G. apply in_lnk in G as [(m & Hm & G)|(m & Hm & G)].
      + destruct (Hpq m n ltac:(lia) ltac:(lia)) as (_ & H & _). congruence.
      + apply (Hcb n m); [lia|lia|exact G]. }
  rewrite esum_app. rewrite (esum_ext _ _ _ _ F1).
  rewrite (esum_factor ld (tprod (map tens_site X) (lnk p b 0 k)) (esum ld (map c (seq 1 (k - 1))) (tprod (map tens_site Y) (lnk q c 0 k)))).
  2: { intros d l x Hl. apply in_map_iff in Hl as (n & <- & Hn). apply in_seq in Hn. apply esum_free.
       - apply tprod_proper.
       - intros G. apply in_map_iff in G as (m & G & Hm). apply in_seq in Hm. apply (Hbc n m); [lia|lia|congruence].
       - intros d'. apply tprod_free. intros G. apply in_lnk in G as [(m & Hm & G)|(m & Hm & G)].
         + destruct (Hpq m n ltac:(lia) ltac:(lia)) as (_ & _ & H & _). congruence.
         + apply (Hbc n m); [lia|lia|exact G]. }
  assert (V0 : e' (b 0%nat) = i).
  { unfold e'. rewrite eupd_other, eupd_same; [reflexivity|]. intros G. apply Hb in G; lia. }
  assert (Vk : e' (b k) = j) by apply eupd_same.
  assert (Vp : map (fun n => e' (p n)) (seq 0 k) = map (fun n => e (p n)) (seq 0 k)).
  { apply map_ext_in. intros n Hn. apply in_seq in Hn. unfold e'. rewrite !eupd_other; [reflexivity| |]; apply Hpq; lia. }
  assert (Vq : map (fun n => e' (q n)) (seq 0 k) = map (fun n => e (q n)) (seq 0 k)).
  { apply map_ext_in. intros n Hn. apply in_seq in Hn. unfold e'. rewrite !eupd_other; [reflexivity| |]; apply Hpq; lia. }
  f_equal.
  - rewrite <- HX. rewrite (chain_esum ld X 0 p b e' a z HXn HcX); rewrite ?HX.
    + cbn [Nat.add]. rewrite V0, Vk, Vp. reflexivity.
    + exact Hb.
    + intros n m Hn Hm. apply Hpq; lia.
    + exact HlX.
    + cbn [Nat.add]. rewrite Vk. exact Hj.
  - rewrite <- HY. rewrite (chain_esum ld Y 0 q c e' a z HYn HcY); rewrite ?HY.
    + cbn [Nat.add]. rewrite <- E0, <- Ek, V0, Vk, Vq. reflexivity.
    + exact Hc.
    + intros n m Hn Hm. apply Hpq; lia.
    + exact HlY.
    + cbn [Nat.add]. rewrite <- Ek, Vk. exact Hj.
Qed.

Lemma lnk_dims ld (Ms : list (site R)) : forall n0 p b a z, chain a Ms z ->
  (forall i A, nth_error Ms i = Some A -> ld (p (n0 + i)%nat) = phys A /\ ld (b (n0 + i)%nat) = dl A) ->
  ld (b (n0 + length Ms)%nat) = z ->
  Forall2 (fun A w => tsh A = map ld w) (map tens_site Ms) (lnk p b n0 (length Ms)).
Proof.
  induction Ms as [|M Ms IH]; intros n0 p b a z Hc Hl Hz; cbn; constructor.
  - destruct (Hl 0%nat M eq_refl) as [H1 H2]. rewrite Nat.add_0_r in H1, H2. cbn. rewrite H1, H2. do 3 f_equal.
    destruct Hc as [_ Hc]. destruct Ms as [|M' Ms].
    + cbn in Hc, Hz. rewrite Nat.add_1_r in Hz. congruence.
    + destruct Hc as [Hc _]. destruct (Hl 1%nat M' eq_refl) as [_ H]. rewrite Nat.add_1_r in H. congruence.
  - apply (IH (S n0) p b (dr M) z).
    + apply Hc.
    + intros i A Hi. replace (S n0 + i)%nat with (n0 + S i)%nat by lia. apply Hl. exact Hi.
    + replace (S n0 + length Ms)%nat with (n0 + length (M :: Ms))%nat by (cbn; lia). exact Hz.
Qed.
End Chain.
