(** Proofs about the memo tables, the run directories and the SVD wrapper. *)
From Coq Require Import Ascii FinFun.
From Verif Require Import Alg ModelMPS ModelStruct ModelMisc.

Lemma str_eqb_eq a : forall b, str_eqb a b = true <-> a = b.
Proof.
  induction a as [|x a IH]; intros [|y b]; cbn; try (split; [discriminate|discriminate]); try tauto.
  rewrite Bool.andb_true_iff, Ascii.eqb_eq, IH. split; [intros [-> ->]; reflexivity|].
  intros H. injection H as -> ->. auto.
Qed.

Lemma str_eqb_refl a : str_eqb a a = true.
Proof. apply str_eqb_eq. reflexivity. Qed.

Lemma str_eqb_neq a b : a <> b -> str_eqb a b = false.
Proof. intros H. destruct (str_eqb a b) eqn:E; [|reflexivity]. apply str_eqb_eq in E. contradiction. Qed.

(** decimal strings denote their number *)
Definition num (l : list ascii) : nat := fold_left (fun a c => 10 * a + (nat_of_ascii c - 48)) l 0.

Lemma digit_val n : n < 10 -> nat_of_ascii (digit n) - 48 = n.
Proof. intros H. unfold digit. rewrite nat_ascii_embedding by lia. lia. Qed.

Lemma dec_app fuel : forall n acc, dec fuel n acc = dec fuel n [] ++ acc.
Proof.
  induction fuel as [|fuel IH]; intros n acc; cbn [dec]; [reflexivity|].
  destruct (Nat.eqb (n / 10) 0); [reflexivity|]. rewrite IH, (IH _ [_]), <- app_assoc. reflexivity.
Qed.

Lemma dec_num fuel : forall n, n < fuel -> num (dec fuel n []) = n.
Proof.
  induction fuel as [|fuel IH]; intros n H; [lia|]. cbn [dec].
  pose proof (Nat.div_mod n 10 ltac:(lia)) as Hd. pose proof (Nat.mod_upper_bound n 10 ltac:(lia)) as Hm.
  destruct (Nat.eqb_spec (n / 10) 0) as [E|E].
  - unfold num. cbn [fold_left]. rewrite digit_val by exact Hm. lia.
  - rewrite dec_app. unfold num. rewrite fold_left_app. fold (num (dec fuel (n / 10) [])).
    rewrite IH by lia. cbn [fold_left]. rewrite digit_val by exact Hm. lia.
Qed.

Lemma str_num n : num (str n) = n.
Proof. unfold str. apply dec_num. lia. Qed.

(** C25: keys *)
Definition pairs (L : nat) : list (nat * nat) := list_prod (seq 0 L) (seq 0 L).

Lemma keys_check : forallb (fun p => forallb (fun q =>
    implb (str_eqb (str (fst p) ++ str (snd p)) (str (fst q) ++ str (snd q)))
          (Nat.eqb (fst p) (fst q) && Nat.eqb (snd p) (snd q))) (pairs 11)) (pairs 11) = true.
Proof. vm_compute. reflexivity. Qed.

Lemma in_pairs L i j : In (i, j) (pairs L) <-> i < L /\ j < L.
Proof. unfold pairs. rewrite in_prod_iff, !in_seq. lia. Qed.

Lemma keys_inj i j i' j' : i < 11 -> j < 11 -> i' < 11 -> j' < 11 ->
  str i ++ str j = str i' ++ str j' -> i = i' /\ j = j'.
Proof.
  intros H1 H2 H3 H4 E. pose proof keys_check as K. rewrite forallb_forall in K.
  specialize (K (i, j) (proj2 (in_pairs 11 i j) (conj H1 H2))). rewrite forallb_forall in K.
  specialize (K (i', j') (proj2 (in_pairs 11 i' j') (conj H3 H4))). cbn [fst snd] in K.
  rewrite E, str_eqb_refl in K. cbn [implb] in K. apply Bool.andb_true_iff in K as [K1 K2].
  apply Nat.eqb_eq in K1, K2. auto.
Qed.

Lemma keys_iff L : (forall i j i' j', i < L -> j < L -> i' < L -> j' < L ->
    str i ++ str j = str i' ++ str j' -> i = i' /\ j = j') <-> L <= 11.
Proof.
  split.
  - intros H. destruct (Nat.le_gt_cases L 11) as [|G]; [assumption|]. exfalso.
    destruct (H 1 11 11 1) as [E _]; try lia. vm_compute. reflexivity.
  - intros HL i j i' j' H1 H2 H3 H4. apply keys_inj; lia.
Qed.

Definition triples3 (L : nat) : list (nat * (nat * nat)) := list_prod (seq 0 L) (pairs L).

Lemma str_small n : n < 10 -> exists c, str n = [c].
Proof. intros H. do 10 (destruct n as [|n]; [eexists; vm_compute; reflexivity|]). lia. Qed.

Lemma keys3_iff L : (forall i j k i' j' k', i < L -> j < L -> k < L -> i' < L -> j' < L -> k' < L ->
    str i ++ str j ++ str k = str i' ++ str j' ++ str k' -> i = i' /\ j = j' /\ k = k') <-> L <= 10.
Proof.
  split.
  - intros H. destruct (Nat.le_gt_cases L 10) as [|G]; [assumption|]. exfalso.
    destruct (H 1 0 10 10 1 0) as [E _]; try lia. vm_compute. reflexivity.
  - intros HL i j k i' j' k' H1 H2 H3 H4 H5 H6 E.
    destruct (str_small i) as (a & Ea), (str_small j) as (b & Eb), (str_small k) as (c & Ec),
      (str_small i') as (a' & Ea'), (str_small j') as (b' & Eb'), (str_small k') as (c' & Ec'); try lia.
    rewrite Ea, Eb, Ec, Ea', Eb', Ec' in E. cbn in E. injection E as -> -> ->.
    rewrite <- (str_num i), <- (str_num j), <- (str_num k), Ea, Eb, Ec, <- Ea', <- Eb', <- Ec', !str_num. auto.
Qed.

(** the memo is transparent on short chains *)
Section Memo.
Context {V : Type} (flip : V -> V) (block : nat -> nat -> V).

Definition sound (L : nat) (d : dict V) : Prop :=
  forall k v, dict_get d k = Some v -> exists i j, i < L /\ j < L /\ k = str i ++ str j /\ v = block i j.

Lemma F_calls_sound L id : L <= 11 -> (forall i j, i < L -> j < L -> block j i = flip (block i j)) ->
  forall ps M, Forall (fun p => fst p < L /\ snd p < L) ps -> (mid_ M = id -> sound L (mtab M)) ->
  F_calls flip block id M ps = map (fun p => block (fst p) (snd p)) ps.
Proof.
  intros HL Hb ps. induction ps as [|[i j] ps IH]; intros M HF HM; [reflexivity|].
  inversion HF as [|? ? [Hi Hj] HF']; subst. cbn [fst snd] in Hi, Hj. cbn [F_calls map fst snd].
  assert (Hadd : forall d, sound L d -> sound L ((str i ++ str j, block i j) :: d)).
  { intros d Hd k v. cbn [dict_get]. destruct (str_eqb k (str i ++ str j)) eqn:E.
    - intros H. injection H as <-. apply str_eqb_eq in E. exists i, j. auto.
    - apply Hd. }
  unfold F_call. destruct (Nat.eqb_spec (mid_ M) id) as [E|E]; cbn [negb].
  - specialize (HM E). destruct (dict_get (mtab M) (str i ++ str j)) as [v|] eqn:G1.
    + cbn [fst snd]. destruct (HM _ _ G1) as (i' & j' & Hi' & Hj' & Hk & ->).
      apply keys_inj in Hk; [|lia..]. destruct Hk as [-> ->]. f_equal. apply IH; auto.
    + destruct (dict_get (mtab M) (str j ++ str i)) as [v|] eqn:G2.
      * cbn [fst snd]. destruct (HM _ _ G2) as (i' & j' & Hi' & Hj' & Hk & ->).
        apply keys_inj in Hk; [|lia..]. destruct Hk as [-> ->]. rewrite <- Hb by assumption. f_equal. apply IH; auto.
      * cbn [fst snd]. f_equal. apply IH; [exact HF'|]. cbn [mid_ mtab]. intros _. apply Hadd, HM.
  - cbn [fst snd]. f_equal. apply IH; [exact HF'|]. cbn [mid_ mtab]. intros _. apply Hadd. intros k v H. discriminate.
Qed.
End Memo.

Lemma F_call_sound {V} flip (block : nat -> nat -> V) L id M i j : L <= 11 ->
  (forall i j, i < L -> j < L -> block j i = flip (block i j)) -> i < L -> j < L ->
  (mid_ M = id -> sound block L (mtab M)) ->
  fst (F_call flip block id M i j) = block i j /\ mid_ (snd (F_call flip block id M i j)) = id /\
  sound block L (mtab (snd (F_call flip block id M i j))).
Proof.
  intros HL Hb Hi Hj HM.
  assert (Hadd : forall d, sound block L d -> sound block L ((str i ++ str j, block i j) :: d)).
  { intros d Hd k v. cbn [dict_get]. destruct (str_eqb k (str i ++ str j)) eqn:E.
    - intros H. injection H as <-. apply str_eqb_eq in E. exists i, j. auto.
    - apply Hd. }
  unfold F_call. destruct (Nat.eqb_spec (mid_ M) id) as [E|E]; cbn [negb].
  - specialize (HM E). destruct (dict_get (mtab M) (str i ++ str j)) as [v|] eqn:G1.
    + cbn [fst snd]. destruct (HM _ _ G1) as (i' & j' & Hi' & Hj' & Hk & ->).
      apply keys_inj in Hk; [|lia..]. destruct Hk as [-> ->]. auto.
    + destruct (dict_get (mtab M) (str j ++ str i)) as [v|] eqn:G2; cbn [fst snd mid_ mtab].
      * destruct (HM _ _ G2) as (i' & j' & Hi' & Hj' & Hk & ->).
        apply keys_inj in Hk; [|lia..]. destruct Hk as [-> ->]. rewrite <- Hb by assumption. auto.
      * auto.
  - cbn [fst snd mid_ mtab]. split; [reflexivity|]. split; [reflexivity|]. apply Hadd. intros k v H. discriminate.
Qed.

Lemma F_seq_sound {V} flip (block : nat -> nat -> nat -> V) L : L <= 11 ->
  (forall id i j, i < L -> j < L -> block id j i = flip (block id i j)) ->
  forall ps M, Forall (fun p => fst (snd p) < L /\ snd (snd p) < L) ps -> sound (block (mid_ M)) L (mtab M) ->
  F_seq flip block M ps = map (fun p => block (fst p) (fst (snd p)) (snd (snd p))) ps.
Proof.
  intros HL Hb ps. induction ps as [|[id [i j]] ps IH]; intros M HF HM; [reflexivity|].
  inversion HF as [|? ? [Hi Hj] HF']; subst. cbn [fst snd] in Hi, Hj. cbn [F_seq map fst snd].
  destruct (F_call_sound flip (block id) L id M i j HL (Hb id) Hi Hj) as (E1 & E2 & E3).
  { intros <-. exact HM. }
  rewrite E1. f_equal. apply IH; [exact HF'|]. rewrite E2. exact E3.
Qed.

Lemma memo_transparent {V} flip (block : nat -> nat -> nat -> V) L id0 : L <= 11 ->
  (forall id i j, i < L -> j < L -> block id j i = flip (block id i j)) ->
  forall ps, Forall (fun p => fst (snd p) < L /\ snd (snd p) < L) ps ->
  F_seq flip block (mkMemo id0 []) ps = map (fun p => block (fst p) (fst (snd p)) (snd (snd p))) ps.
Proof. intros HL Hb ps HF. apply (F_seq_sound flip block L HL Hb ps _ HF). intros k v H. discriminate. Qed.

Lemma memo_long : forall L, 12 <= L ->
  exists (V : Type) (flip : V -> V) (block : nat -> nat -> nat -> V) ps,
  (forall id i j, i < L -> j < L -> block id j i = flip (block id i j)) /\
  Forall (fun p => fst (snd p) < L /\ snd (snd p) < L) ps /\ NoDup ps /\
  F_seq flip block (mkMemo 0 []) ps <> map (fun p => block (fst p) (fst (snd p)) (snd (snd p))) ps.
Proof.
  intros L HL. exists (nat * nat)%type, (fun p => (snd p, fst p)), (fun _ i j => (i, j)), [(1, (1, 11)); (1, (11, 1))].
  split; [reflexivity|]. split; [repeat constructor; cbn; lia|].
  split; [constructor; [intros [H|[]]; discriminate|]; constructor; [intros []|constructor]|].
  vm_compute. discriminate.
Qed.

Lemma christoffel_differs : exists (V : Type) (flip : V -> V) (ungauge : nat -> nat -> V -> V) (gamma : nat -> nat -> nat -> V) id M i j k,
  let r := christoffel_call flip ungauge gamma id M i j k in
  i < 3 /\ j < 3 /\ k < 3 /\
  (forall i j k, gamma j i k = flip (gamma i j k)) /\
  fst (christoffel_call flip ungauge gamma id (snd r) i j k) <> fst r.
Proof.
  exists (nat * nat * nat)%type, (fun p => (snd (fst p), fst (fst p), snd p)),
    (fun i j p => (fst (fst p), snd (fst p), S (snd p))), (fun i j k => (i, j, k)), 1, (mkMemo 0 []), 0, 1, 2.
  cbn zeta. do 3 (split; [lia|]). split; [reflexivity|]. vm_compute. discriminate.
Qed.

(** C37 *)
Lemma starts_app p x : starts p (p ++ x) = true.
Proof. induction p as [|a p IH]; cbn; [reflexivity|]. rewrite Ascii.eqb_refl. exact IH. Qed.

Definition run_name (r : list ascii) (k : nat) : list ascii := r ++ ["_"%char] ++ str k.

Lemma run_name_inj r k k' : run_name r k = run_name r k' -> k = k'.
Proof.
  unfold run_name. intros H. apply app_inv_head in H. apply app_inv_head in H.
  rewrite <- (str_num k), H. apply str_num.
Qed.

Section Stops.
Variables (fs : list (list ascii)) (r : list ascii).
Hypothesis Hfs : forall x, In x fs -> starts (r ++ ["_"%char]) x = false.

Definition made (n : nat) : list (list ascii) := map (run_name r) (seq 1 n).

Lemma found_made n : filter (starts (r ++ ["_"%char])) (fs ++ made n) = made n.
Proof.
  rewrite filter_app.
  assert (E1 : filter (starts (r ++ ["_"%char])) fs = []).
  { clear -Hfs. induction fs as [|x l IH]; [reflexivity|]. cbn. rewrite (Hfs x) by (left; reflexivity).
    apply IH. intros y Hy. apply Hfs. right. exact Hy. }
  rewrite E1. cbn [app]. unfold made. induction (seq 1 n) as [|k l IH]; [reflexivity|].
  cbn [map filter]. unfold run_name at 1. rewrite (app_assoc r), starts_app. f_equal. exact IH.
Qed.

Lemma makedirs_new n k : (k = 0 \/ n < k) -> makedirs (fs ++ made n) (run_name r k) = Ok ((fs ++ made n) ++ [run_name r k]).
Proof.
  intros Hk. unfold makedirs. destruct (existsb _ _) eqn:E; [|reflexivity].
  apply existsb_exists in E as (x & Hin & E). apply str_eqb_eq in E. subst x.
  apply in_app_or in Hin as [Hin|Hin].
  - apply Hfs in Hin. unfold run_name in Hin. rewrite app_assoc, starts_app in Hin. discriminate.
  - unfold made in Hin. apply in_map_iff in Hin as (k' & E & Hk'). apply run_name_inj in E. subst.
    apply in_seq in Hk'. lia.
Qed.

Lemma makedirs_old n k : 1 <= k <= n -> makedirs (fs ++ made n) (run_name r k) = Err FileExistsError.
Proof.
  intros Hk. unfold makedirs. replace (existsb _ _) with true; [reflexivity|]. symmetry.
  apply existsb_exists. exists (run_name r k). split; [|apply str_eqb_refl]. apply in_or_app. right.
  unfold made. apply in_map, in_seq. lia.
Qed.

Lemma made_snoc n : made n ++ [run_name r (S n)] = made (S n).
Proof. unfold made. rewrite seq_S, map_app. reflexivity. Qed.

Lemma last_item_app {A} (l m : list A) : m <> [] -> last_item (l ++ m) = last_item m.
Proof.
  intros H. destruct (exists_last H) as (m' & x & ->). unfold last_item. rewrite app_assoc, !rev_app_distr. reflexivity.
Qed.

Lemma drop2 (a : list ascii) x y : drop_last 2 (a ++ [x; y]) = a.
Proof.
  unfold drop_last. rewrite app_length. cbn. replace (length a + 2 - 2) with (length a) by lia.
  rewrite firstn_app, Nat.sub_diag. cbn. rewrite app_nil_r. apply firstn_all.
Qed.

Lemma first_found n : 1 <= n -> existsb (str_eqb r) (map (drop_last 2) (made n)) = true.
Proof.
  intros H. destruct n as [|n]; [lia|]. cbn [made seq map existsb]. unfold made. cbn [seq map existsb].
  change (run_name r 1) with (r ++ ["_"%char; "1"%char]). rewrite drop2, str_eqb_refl. reflexivity.
Qed.

(** the largest last digit of the numbers 1..n *)
Lemma last_digit k : exists c, last_item (run_name r k) = last_item (str k) /\ last_item (str k) = Ok c /\ int_char c = Ok (k mod 10).
Proof.
  unfold run_name. rewrite app_assoc. rewrite last_item_app.
  2:{ intros C. pose proof (str_num k) as H. rewrite C in H. cbn in H. subst k. discriminate. }
  assert (G : forall fuel n, last_item (dec (S fuel) n []) = Ok (digit (n mod 10))).
  { intros fuel n. cbn [dec]. destruct (Nat.eqb (n / 10) 0); [reflexivity|].
    rewrite dec_app. rewrite last_item_app by discriminate. reflexivity. }
  unfold str. rewrite (G k k). exists (digit (k mod 10)). split; [reflexivity|]. split; [reflexivity|].
  pose proof (Nat.mod_upper_bound k 10 ltac:(lia)) as Hm. unfold int_char, digit.
  rewrite nat_ascii_embedding by lia.
  destruct (Nat.leb_spec 48 (48 + k mod 10)); [|lia]. destruct (Nat.leb_spec (48 + k mod 10) 57); [|lia].
  cbn [andb]. f_equal. lia.
Qed.

Lemma digits_made l : mapM (fun x => do c <- last_item x; int_char c) (map (run_name r) l) = Ok (map (fun k => k mod 10) l).
Proof.
  induction l as [|k l IH]; [reflexivity|]. cbn [map mapM].
  destruct (last_digit k) as (c & E1 & E2 & E3). rewrite E1, E2. cbn [bind]. rewrite E3. cbn [bind].
  rewrite IH. reflexivity.
Qed.

Lemma stop_ok n : n <= 9 -> stop_dir (fs ++ made n) r = Ok (run_name r (S n), fs ++ made (S n)).
Proof.
  intros Hn. unfold stop_dir. rewrite found_made. destruct n as [|n].
  - change (map (drop_last 2) (made 0)) with (@nil (list ascii)). cbn [existsb negb].
    change (r ++ ["_"%char; "1"%char]) with (run_name r 1).
    rewrite makedirs_new by lia. cbn [bind]. rewrite <- app_assoc, made_snoc. reflexivity.
  - rewrite first_found by lia. cbn [negb]. unfold made at 1. rewrite digits_made. cbn [bind].
    assert (E : fold_right Nat.max 0 (map (fun k => k mod 10) (seq 1 (S n))) + 1 = S (S n)).
    { clear -Hn. do 9 (destruct n as [|n]; [vm_compute; reflexivity|]). lia. }
    rewrite E. fold (run_name r (S (S n))). rewrite makedirs_new by lia. cbn [bind].
    rewrite <- app_assoc, made_snoc. reflexivity.
Qed.

Lemma stop_eleventh : stop_dir (fs ++ made 10) r = Err FileExistsError.
Proof.
  unfold stop_dir. rewrite found_made, first_found by lia. cbn [negb]. unfold made at 1.
  rewrite digits_made. cbn [bind].
  change (fold_right Nat.max 0 (map (fun k => k mod 10) (seq 1 10)) + 1) with 10.
  fold (run_name r 10). rewrite makedirs_old by lia. reflexivity.
Qed.

Lemma stops_ok n : forall k, n + k <= 10 ->
  stops n (fs ++ made k) r = Ok (map (run_name r) (seq (S k) n), fs ++ made (n + k)).
Proof.
  induction n as [|n IH]; intros k H; [reflexivity|]. cbn [stops]. rewrite stop_ok by lia. cbn [bind snd fst].
  rewrite IH by lia. cbn [bind fst snd seq map]. rewrite Nat.add_succ_r. reflexivity.
Qed.

Lemma stops_fail n : forall k, k <= 10 -> 10 < n + k -> stops n (fs ++ made k) r = Err FileExistsError.
Proof.
  induction n as [|n IH]; intros k Hk H; [lia|]. cbn [stops].
  destruct (Nat.eq_dec k 10) as [->|Hne]; [rewrite stop_eleventh; reflexivity|].
  rewrite stop_ok by lia. cbn [bind snd]. rewrite IH by lia. reflexivity.
Qed.

Lemma stops_spec n :
  if Nat.leb n 10
  then exists names, stops n fs r = Ok (names, fs ++ names) /\ length names = n /\ NoDup (names ++ filter (starts (r ++ ["_"%char])) fs) /\
       forall k, k < n -> nth_error names k = Some (r ++ ["_"%char] ++ str (S k))
  else stops n fs r = Err FileExistsError.
Proof.
  assert (E0 : fs = fs ++ made 0) by (unfold made; cbn; rewrite app_nil_r; reflexivity).
  destruct (Nat.leb_spec n 10) as [H|H].
  - exists (made n). pose proof (stops_ok n 0 ltac:(lia)) as E. rewrite Nat.add_0_r, <- E0 in E.
    split; [exact E|]. split; [unfold made; rewrite map_length, seq_length; reflexivity|].
    split.
    { assert (Hf : filter (starts (r ++ ["_"%char])) fs = []).
      { clear -Hfs. induction fs as [|x l IH]; [reflexivity|]. cbn. rewrite (Hfs x) by (left; reflexivity).
        apply IH. intros y Hy. apply Hfs. right. exact Hy. }
      rewrite Hf, app_nil_r. unfold made. apply FinFun.Injective_map_NoDup; [|apply seq_NoDup].
      intros a b. apply run_name_inj. }
    intros k Hk. unfold made. rewrite nth_error_map.
    rewrite (nth_error_nth' (seq 1 n) 0) by (rewrite seq_length; exact Hk). rewrite seq_nth by exact Hk. reflexivity.
  - rewrite E0. apply stops_fail; lia.
Qed.
End Stops.

(** C54 *)
Lemma svd_spec {V} (old warn : bool) (lap : driver -> res V) :
  let last := if old then OldGesvd else Gesvd in
  (forall v, lap Gesdd = Ok v -> svd old warn NGesdd lap = ([Gesdd], false, Ok v)) /\
  (lap Gesdd = Err LinAlgError -> svd old warn NGesdd lap = ([Gesdd; last], warn, lap last)) /\
  (forall e, lap Gesdd = Err e -> e <> LinAlgError -> svd old warn NGesdd lap = ([Gesdd], false, Err e)) /\
  svd old warn NGesvd lap = ([last], false, lap last) /\
  svd old warn NOther lap = ([], false, Err ValueError).
Proof.
  unfold svd. destruct old; cbn; (split; [intros v ->; reflexivity|]); (split; [intros ->; reflexivity|]);
    (split; [|split; reflexivity]); intros e -> He; destruct e; congruence.
Qed.

Lemma svd_raises {V} (old warn : bool) name (lap : driver -> res V) e :
  snd (svd old warn name lap) = Err e ->
  (name = NOther /\ e = ValueError) \/
  exists d cs, fst (fst (svd old warn name lap)) = cs ++ [d] /\ lap d = Err e /\
    (forall d', In d' cs -> lap d' = Err LinAlgError).
Proof.
  unfold svd. destruct name.
  - destruct (lap Gesdd) as [v|e'] eqn:E; [discriminate|].
    destruct e'; try (intros H; cbn in H; injection H as <-; right; exists Gesdd, []; split; [reflexivity|];
      split; [exact E|intros d []]).
    destruct old; cbn; intros H; right; eexists _, [Gesdd]; (split; [reflexivity|]); (split; [exact H|]);
      intros d [<-|[]]; exact E.
  - destruct old; cbn; intros H; right; eexists _, []; (split; [reflexivity|]); (split; [exact H|]); intros d [].
  - cbn. intros H. injection H as <-. left. auto.
Qed.
