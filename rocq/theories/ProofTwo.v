(** Proofs about factors, splitting of grouped sites, and two-site gates. *)
From Verif Require Import Alg ModelMPS SpecMPS ProofMPS ProofMPS2 ModelOrth SpecOrth ProofOrth
  ProofOrth2 ModelCanon SpecCanon ModelTwo SpecTwo.

(** factors *)

Lemma factors_loop_ok n i : 0 < i ->
  exists a, factors_loop n i = Ok (a, n / a)%nat /\ 1 <= a <= i /\ n mod a = 0 /\
  forall x, a < x <= i -> n mod x <> 0.
Proof.
  induction i as [|i IH]; intros Hi; [lia|]. cbn [factors_loop].
  destruct (Nat.eqb_spec (n mod S i) 0) as [E|E].
  - exists (S i). split; [reflexivity|]. split; [lia|]. split; [exact E|]. intros; lia.
  - destruct i as [|i].
    + exfalso. apply E. apply Nat.mod_1_r.
    + destruct (IH ltac:(lia)) as (a & H1 & H2 & H3 & H4). exists a. split; [exact H1|].
      split; [lia|]. split; [exact H3|]. intros x Hx. destruct (Nat.eq_dec x (S (S i))) as [->|]; [exact E|].
      apply H4. lia.
Qed.

Lemma factors_spec n : 1 <= n -> exists a b, factors n = Ok (a, b) /\ (a * b = n)%nat /\
  (forall x y, (x * y = n)%nat -> Nat.max a b - Nat.min a b <= Nat.max x y - Nat.min x y) /\
  (a <= b \/ a = b + 1)%nat.
Proof.
  intros Hn. unfold factors.
  destruct (factors_loop_ok n (Nat.sqrt n + 1) ltac:(lia)) as (a & -> & Ha & Hm & Hmax).
  pose proof (Nat.sqrt_spec' n) as [Hs1 Hs2]. set (r := Nat.sqrt n) in *. clearbody r.
  assert (Hab : (a * (n / a) = n)%nat).
  { pose proof (Nat.div_mod_eq n a) as H. lia. }
  set (b := n / a) in *. clearbody b.
  assert (Hord : a <= b \/ (a = b + 1 /\ b = r)%nat).
  { destruct (Nat.le_gt_cases a r) as [H|H].
    - left. nia.
    - assert (a = r + 1) by lia. subst a. right.
      assert (b <= r) by nia. assert (r <= b) by nia. lia. }
  exists a, b. split; [reflexivity|]. split; [exact Hab|]. split; [|lia].
  assert (G : forall x y, (x * y = n)%nat -> x <= y -> Nat.max a b - Nat.min a b <= y - x).
  { intros x y Hxy Hle.
    assert (Hx1 : 1 <= x) by nia. assert (Hxr : x <= r) by nia.
    assert (Hxa : x <= a).
    { destruct (Nat.le_gt_cases x a) as [|H]; [assumption|]. exfalso. apply (Hmax x); [lia|].
      rewrite <- Hxy, Nat.mul_comm. apply Nat.mod_mul. lia. }
    destruct Hord as [H|[H1 H2]].
    - assert (b <= y) by nia. lia.
    - assert (x <> y) by nia. lia. }
  intros x y Hxy. destruct (Nat.le_gt_cases x y) as [H|H].
  - specialize (G x y Hxy H). lia.
  - rewrite Nat.mul_comm in Hxy. specialize (G y x Hxy ltac:(lia)). lia.
Qed.

Lemma factors_square d : 1 <= d -> factors (d * d) = Ok (d, d).
Proof.
  intros Hd. destruct (factors_spec (d * d) ltac:(nia)) as (a & b & -> & H1 & H2 & _).
  specialize (H2 d d eq_refl). assert (a = b) by lia. subst b. assert (a = d) by nia. subst. reflexivity.
Qed.

Section Proofs.
Context {R : sring}.
Add Ring Rring : (s_th R).
Local Open Scope sr_scope.

Lemma lung_iso d a (Q : mat R) : mr Q = (d * a)%nat ->
  (forall i j, i < mc Q -> j < mc Q ->
     sum (mr Q) (fun k => sconj (me Q k i) * me Q k j) = dlt i j) ->
  left_iso (lungroup d a Q).
Proof.
  intros Hr H i j Hi Hj. cbn in *. rewrite <- (H i j Hi Hj), Hr, sum_mul. reflexivity.
Qed.

Lemma rung_iso d b (Q : mat R) : mc Q = (d * b)%nat ->
  (forall i j, i < mr Q -> j < mr Q ->
     sum (mc Q) (fun k => me Q i k * sconj (me Q j k)) = dlt i j) ->
  right_iso (rungroup d b Q).
Proof.
  intros Hr H i j Hi Hj. cbn in *. rewrite <- (H i j Hi Hj), Hr, sum_mul. reflexivity.
Qed.

(** The two factors of the matrix of a pair recombine to the pair. *)
Lemma pair_split d1 d2 (T : site R) (X Y : mat R) c :
  mr X = (d1 * dl T)%nat -> mc Y = (d2 * dr T)%nat -> mc X = mr Y ->
  (forall i j, i < d1 * dl T -> j < d2 * dr T ->
     c * me (pair_mat d1 d2 T) i j = sum (mc X) (fun k => me X i k * me Y k j)) ->
  splits T (lungroup d1 (dl T) X) (rungroup d2 (dr T) Y) d1 d2 c.
Proof.
  intros Hr Hc Hk H. do 4 (split; [reflexivity|]). split; [exact Hk|]. cbn.
  intros x y i j Hx Hy Hi Hj. rewrite <- H; [|apply ragged; assumption|apply ragged; assumption].
  cbn. f_equal.
  rewrite !Nat.div_add_l, (Nat.div_small i), (Nat.div_small j) by lia. rewrite !Nat.add_0_r.
  replace ((x * dl T + i) mod dl T) with i.
  2:{ rewrite Nat.add_comm, Nat.mod_add by lia. symmetry. apply Nat.mod_small. exact Hi. }
  replace ((y * dr T + j) mod dr T) with j.
  2:{ rewrite Nat.add_comm, Nat.mod_add by lia. symmetry. apply Nat.mod_small. exact Hj. }
  reflexivity.
Qed.

(** Grouping the two parts again. *)
Lemma group_split (T A B : site R) d1 d2 c : 0 < d2 -> phys T = (d1 * d2)%nat -> splits T A B d1 d2 c ->
  exists G, group_tensors A B = Ok G /\ site_eq G (site_scale c T).
Proof.
  intros Hd Hp (h1 & h2 & h3 & h4 & h5 & h6). unfold group_tensors. rewrite <- h5, Nat.eqb_refl.
  eexists. split; [reflexivity|]. rewrite h1, h2, h3, h4.
  split; [symmetry; exact Hp|]. split; [reflexivity|]. split; [reflexivity|].
  cbn. intros s i j Hs Hi Hj.
  assert (H1 : s / d2 < d1) by (apply Nat.div_lt_upper_bound; lia).
  assert (H2 : s mod d2 < d2) by (apply Nat.mod_upper_bound; lia).
  rewrite h6 by assumption. do 2 f_equal. rewrite (Nat.div_mod_eq s d2) at 3. lia.
Qed.

Lemma separate_qr_ok (O : lapack R) (T : site R) d1 d2 : lapack_ok O -> factors (phys T) = Ok (d1, d2) ->
  match separate_tensor_qr O T with
  | Err e => e = LinAlgError /\ exists M, la_qr O M = None
  | Ok (A, B) => splits T A B d1 d2 1 /\ left_iso A
  end.
Proof.
  intros HO Hf. unfold separate_tensor_qr. rewrite Hf. cbn [bind fst snd].
  destruct (la_qr O _) as [[Q Rm]|] eqn:E; [|split; [reflexivity|eexists; exact E]].
  apply HO in E. destruct E as (E1 & E2 & E3 & E4 & E5 & E6). cbn in E1, E4.
  split.
  - apply pair_split; try assumption; try congruence.
    intros i j Hi Hj. rewrite <- E5 by assumption. ring.
  - apply lung_iso; assumption.
Qed.

Lemma separate_rq_ok (O : lapack R) (T : site R) d1 d2 : lapack_ok O -> factors (phys T) = Ok (d1, d2) ->
  match separate_tensor_rq O T with
  | Err e => e = LinAlgError /\ exists M, la_rq O M = None
  | Ok (A, B) => splits T A B d1 d2 1 /\ right_iso B
  end.
Proof.
  intros HO Hf. unfold separate_tensor_rq. rewrite Hf. cbn [bind fst snd].
  destruct (la_rq O _) as [[Rm Q]|] eqn:E; [|split; [reflexivity|eexists; exact E]].
  apply HO in E. destruct E as (E1 & E2 & E3 & E4 & E5 & E6). cbn in E1, E4.
  split.
  - apply pair_split; try assumption; try congruence.
    intros i j Hi Hj. rewrite E3, <- E2, <- E5 by assumption. ring.
  - apply rung_iso; assumption.
Qed.

Lemma sum_diag_l k n (s : nat -> R) (f : nat -> R) a : a < k -> n = k ->
  sum n (fun x => (if Nat.eqb a x then s a else 0) * f x) = s a * f a.
Proof.
  intros Ha ->. rewrite (sum_single k a); [rewrite Nat.eqb_refl; reflexivity|exact Ha|].
  intros i _ Hi. destruct (Nat.eqb_spec a i); [congruence|ring].
Qed.
Lemma sum_diag_r k n (s : nat -> R) (f : nat -> R) a : a < k -> n = k ->
  sum n (fun x => f x * (if Nat.eqb x a then s x else 0)) = f a * s a.
Proof.
  intros Ha ->. rewrite (sum_single k a); [rewrite Nat.eqb_refl; reflexivity|exact Ha|].
  intros i _ Hi. destruct (Nat.eqb_spec i a); [congruence|ring].
Qed.

Lemma separate_svd_ok (O : lapack2 R) (P : lapack R) (T : site R) D which d1 d2 :
  svd_ok O -> lapack_ok P -> factors (phys T) = Ok (d1, d2) ->
  match separate_tensor_svd O P T D which with
  | Err e => (e = LinAlgError /\ exists M, la_svd O M = None) \/
             (e = Exception_ /\ exists A, la_nrm P A = None)
  | Ok (A, B) => phys A = d1 /\ phys B = d2 /\ dl A = dl T /\ dr B = dr T /\ dr A = dl B /\
      dr A = Nat.min (match D with Some D => D | None => Nat.min (d1 * dl T) (d2 * dr T) end)
                     (Nat.min (d1 * dl T) (d2 * dr T)) /\
      (if which then left_iso A else right_iso B) /\
      exists u s v n ninv, is_svd (pair_mat d1 d2 T) u s v /\ sconj n = n /\ n * ninv = 1 /\
        n * n = sum (dr A) (fun a => s a * s a) /\
        (forall x y i j, x < d1 -> y < d2 -> i < dl T -> j < dr T ->
           n * sum (dr A) (fun k => ent A x i k * ent B y k j)
           = sum (dr A) (fun a => me u (x * dl T + i)%nat a * s a * me v a (y * dr T + j)%nat)) /\
        (dr A = Nat.min (d1 * dl T) (d2 * dr T) -> splits T A B d1 d2 ninv)
  end.
Proof.
  intros HO HP Hf. unfold separate_tensor_svd. rewrite Hf. cbn [bind fst snd].
  set (M := pair_mat d1 d2 T).
  destruct (la_svd O M) as [[[u s] v]|] eqn:E; [|left; split; [reflexivity|eexists; exact E]].
  apply HO in E. pose proof E as (E1 & E2 & E3 & E4 & E5 & E6 & E7 & E8).
  set (k := Nat.min (mr M) (mc M)) in *.
  set (D' := match D with None => k | Some D => D end).
  destruct (la_nrm P _) as [[n ninv]|] eqn:En; [|right; split; [reflexivity|eexists; exact En]].
  apply HP in En. destruct En as (N1 & N2 & N3).
  assert (Hk : k = Nat.min (d1 * dl T) (d2 * dr T)) by reflexivity.
  assert (HD : forall a, a < Nat.min D' k -> a < k) by (intros; lia).
  assert (N2' : n * n = sum (Nat.min D' k) (fun a => s a * s a)).
  { rewrite N2. unfold frob, vec_site. cbn [phys dl dr ent]. rewrite !sum_one. apply sum_ext. intros a Ha. f_equal. apply E5. apply HD, Ha. }
  assert (Hs : sconj ninv = ninv).
  { transitivity (sconj ninv * (n * ninv)); [rewrite N3; ring|].
    transitivity (sconj (ninv * n) * ninv); [rewrite conj_mul, N1; ring|].
    replace (ninv * n) with (n * ninv) by ring. rewrite N3, conj_1. ring. }
  assert (Hfull : forall (X Y : mat R), mr X = (d1 * dl T)%nat -> mc Y = (d2 * dr T)%nat -> mc X = mr Y ->
     mc X = Nat.min D' k ->
     (forall i j, i < d1 * dl T -> j < d2 * dr T ->
       sum (mc X) (fun a => me X i a * me Y a j) = ninv * sum (Nat.min D' k) (fun a => me u i a * s a * me v a j)) ->
     (forall x y i j, x < d1 -> y < d2 -> i < dl T -> j < dr T ->
       n * sum (mc X) (fun k => me X (x * dl T + i)%nat k * me Y k (y * dr T + j)%nat)
           = sum (Nat.min D' k) (fun a => me u (x * dl T + i)%nat a * s a * me v a (y * dr T + j)%nat)) /\
     (Nat.min D' k = k -> splits T (lungroup d1 (dl T) X) (rungroup d2 (dr T) Y) d1 d2 ninv)).
  { intros X Y h1 h2 h3 h4 h5. split.
    - intros x y i j Hx Hy Hi Hj. rewrite h5 by (apply ragged; assumption).
      match goal with |- n * (ninv * ?z) = _ => transitivity (n * ninv * z); [ring|] end.
      rewrite N3. ring.
    - intros hk. apply pair_split; try assumption. intros i j Hi Hj. rewrite h5 by assumption.
      rewrite hk. f_equal. apply E6; assumption. }
  destruct which.
  - unfold mdot. cbn [mc mrows mdiag]. rewrite E3, Nat.eqb_refl. cbn [bind].
    assert (hd : Nat.min D' (mc u) = Nat.min D' k) by (rewrite E2; reflexivity).
    destruct (Hfull (mcols D' u) (mscale ninv (mkMat (Nat.min D' k) (mc v)
        (fun i j => sum k (fun a => (if Nat.eqb i a then s i else 0) * me v a j))))) as [F1 F2].
    { exact E1. } { exact E4. } { exact hd. } { exact hd. }
    { intros i j Hi Hj. cbn [mc mcols me mscale]. rewrite hd, <- sum_mul_l. apply sum_ext. intros a Ha.
      rewrite (sum_diag_l k k s (fun x => me v x j)) by (try reflexivity; apply HD, Ha). ring. }
    split; [reflexivity|]. split; [reflexivity|]. split; [reflexivity|]. split; [reflexivity|].
    split; [exact hd|]. split; [cbn; rewrite hd; unfold D'; rewrite Hk; reflexivity|]. split.
    + apply lung_iso; [exact E1|]. cbn [mcols mc mr me]. intros i j Hi Hj. rewrite E1. apply E7; lia.
    + exists u, s, v, n, ninv. split; [exact E|]. split; [exact N1|]. split; [exact N3|].
      split; [cbn [dr lungroup mcols mc]; rewrite hd; exact N2'|].
      split; [cbn [dr lungroup mcols mc]; rewrite hd in *; cbn [mc mcols] in F1; rewrite hd in F1; exact F1|].
      cbn [dr lungroup mcols mc]. rewrite hd. exact F2.
  - unfold mdot. cbn [mr mc mcols mdiag]. rewrite E2, Nat.eqb_refl. cbn [bind].
    destruct (Hfull (mscale ninv (mkMat (mr u) (Nat.min D' k)
        (fun i j => sum k (fun a => me u i a * (if Nat.eqb a j then s a else 0))))) (mrows D' v)) as [F1 F2].
    { exact E1. } { exact E4. } { cbn. rewrite E3. reflexivity. } { reflexivity. }
    { intros i j Hi Hj. cbn [mc mrows me mscale]. rewrite <- sum_mul_l. apply sum_ext. intros a Ha.
      rewrite (sum_diag_r k k s (fun x => me u i x)) by (try reflexivity; apply HD, Ha). ring. }
    split; [reflexivity|]. split; [reflexivity|]. split; [reflexivity|]. split; [reflexivity|].
    split; [cbn; rewrite E3; reflexivity|]. split; [cbn; unfold D'; rewrite Hk; reflexivity|]. split.
    + apply rung_iso; [exact E4|]. cbn [mrows mc mr me]. intros i j Hi Hj. rewrite E4. apply E8; lia.
    + exists u, s, v, n, ninv. split; [exact E|]. split; [exact N1|]. split; [exact N3|].
      cbn [dr lungroup mscale mc]. split; [exact N2'|]. split; [exact F1|exact F2].
Qed.

End Proofs.
