(** Environments and the energy. *)
From Verif Require Import Alg ModelMPS SpecMPS ProofMPS ModelOrth SpecOrth ProofOrth ProofOrth2 ProofOrth3 ProofMeas
  ModelNcon SpecNcon ProofNcon ProofNcon3 ProofNcon4 ModelEk SpecEk ProofEk ProofEk2 ProofEk3 ProofEk4 ModelEnergy SpecEnergy.
From Coq Require Import Permutation Sorted.

(** small networks written out *)
Ltac small_net :=
  split; [discriminate|]; split; [repeat first [apply Forall2_nil | apply Forall2_cons]; cbn; congruence|];
  split; [repeat first [apply NoDup_nil | apply NoDup_cons]; cbn; intros HX; repeat (destruct HX as [HX|HX]; [discriminate HX|]); exact HX|];
  split; [repeat first [apply NoDup_nil | apply NoDup_cons]; cbn; intros HX; repeat (destruct HX as [HX|HX]; [discriminate HX|]); exact HX|];
  split; [let z := fresh "z" in let Hz := fresh in cbn; intros z Hz; repeat (destruct Hz as [<-|Hz]; [split; reflexivity|]); contradiction|];
  split; [let z := fresh "z" in let Hz := fresh in cbn; intros z Hz; repeat (destruct Hz as [<-|Hz]; [split; reflexivity|]); contradiction|];
  let z := fresh "z" in let Hz := fresh in cbn; intros z Hz; tauto.

Section Energy.
Context {R : sring}.
Local Open Scope sr_scope.
Add Ring Rr : (s_th R).

(** the local contraction with general environments *)
Lemma gram_general (p blk q : list (site R)) a b w w' :
  chain 1 p a -> chain a blk b -> chain b q 1 ->
  length w = length blk -> length w' = length blk ->
  sumcfg (dims p) (fun u => sumcfg (dims q) (fun v =>
    sconj (amp (p ++ blk ++ q) (u ++ w ++ v) 0 0) * amp (p ++ blk ++ q) (u ++ w' ++ v) 0 0))
  = sum a (fun x => sum b (fun y => sum a (fun x' => sum b (fun y' =>
       true_l p x x' * (sconj (amp blk w x y) * amp blk w' x' y') * true_r q y' y)))).
Proof.
  intros Hp Hb Hq Hw Hw'.
  transitivity (sumcfg (dims p) (fun u => sumcfg (dims q) (fun v =>
     sum a (fun x => sum b (fun y => sum a (fun x' => sum b (fun y' =>
       (sconj (amp p u 0 x) * amp p u 0 x') *
       (sconj (amp blk w x y) * amp blk w' x' y') *
       (amp q v y' 0 * sconj (amp q v y 0))))))))).
  { apply sumcfg_ext; intros u Hu. apply sumcfg_ext; intros v Hv.
    apply incfg_length in Hu. rewrite dims_length in Hu.
    rewrite (amp3 p blk q 1 a b 1 u w v 0) by (auto; lia).
    rewrite (amp3 p blk q 1 a b 1 u w' v 0) by (auto; lia).
    rewrite sum_conj, <- sum_mul_r. apply sum_ext; intros x _.
    rewrite sum_conj, <- sum_mul_r. apply sum_ext; intros y _.
    rewrite <- sum_mul_l. apply sum_ext; intros x' _.
    rewrite <- sum_mul_l. apply sum_ext; intros y' _.
    rewrite !conj_mul. ring. }
  transitivity (sum a (fun x => sum b (fun y => sum a (fun x' => sum b (fun y' =>
      sumcfg (dims p) (fun u => sumcfg (dims q) (fun v =>
       (sconj (amp p u 0 x) * amp p u 0 x') *
       (sconj (amp blk w x y) * amp blk w' x' y') *
       (amp q v y' 0 * sconj (amp q v y 0))))))))).
  - transitivity (sumcfg (dims p) (fun u => sum a (fun x => sum b (fun y => sum a (fun x' => sum b (fun y' =>
       sumcfg (dims q) (fun v =>
       (sconj (amp p u 0 x) * amp p u 0 x') *
       (sconj (amp blk w x y) * amp blk w' x' y') *
       (amp q v y' 0 * sconj (amp q v y 0))))))))).
    + apply sumcfg_ext; intros u _.
      rewrite sumcfg_sum; apply sum_ext; intros x _.
      rewrite sumcfg_sum; apply sum_ext; intros y _.
      rewrite sumcfg_sum; apply sum_ext; intros x' _.
      rewrite sumcfg_sum; apply sum_ext; intros y' _. reflexivity.
    + rewrite sumcfg_sum; apply sum_ext; intros x _.
      rewrite sumcfg_sum; apply sum_ext; intros y _.
      rewrite sumcfg_sum; apply sum_ext; intros x' _.
      rewrite sumcfg_sum; apply sum_ext; intros y' _. reflexivity.
  - apply sum_ext; intros x Hx. apply sum_ext; intros y Hy.
    apply sum_ext; intros x' Hx'. apply sum_ext; intros y' Hy'.
    unfold true_l, true_r.
    transitivity (sumcfg (dims p) (fun u => sconj (amp p u 0 x) * amp p u 0 x' *
        ((sconj (amp blk w x y) * amp blk w' x' y') *
         sumcfg (dims q) (fun v => amp q v y' 0 * sconj (amp q v y 0))))).
    + apply sumcfg_ext; intros u _. rewrite <- sumcfg_mul_l, <- sumcfg_mul_l.
      apply sumcfg_ext; intros; ring.
    + rewrite sumcfg_mul_r. ring.
Qed.

Lemma sum_diag n i (f : nat -> R) : (i < n)%nat -> (forall j, (j < n)%nat -> j <> i -> f j = 0) -> sum n f = f i.
Proof.
  intros Hi H. transitivity (sum n (fun j => dlt j i * f j)).
  - apply sum_ext. intros j Hj. unfold dlt. destruct (Nat.eqb_spec j i) as [->|Hne]; [ring|]. rewrite (H j Hj Hne). ring.
  - transitivity (sum n (fun j => f j * dlt j i)); [apply sum_ext; intros; ring|]. apply sum_dlt_r, Hi.
Qed.

Lemma gram_diag (p blk q : list (site R)) a b w w' :
  chain 1 p a -> chain a blk b -> chain b q 1 ->
  length w = length blk -> length w' = length blk ->
  (forall x y, (x < a)%nat -> (y < a)%nat -> x <> y -> true_l p x y = 0) ->
  (forall x y, (x < b)%nat -> (y < b)%nat -> x <> y -> true_r q x y = 0) ->
  sumcfg (dims p) (fun u => sumcfg (dims q) (fun v =>
    sconj (amp (p ++ blk ++ q) (u ++ w ++ v) 0 0) * amp (p ++ blk ++ q) (u ++ w' ++ v) 0 0))
  = sum a (fun x => sum b (fun y => true_l p x x * (sconj (amp blk w x y) * amp blk w' x y) * true_r q y y)).
Proof.
  intros Hp Hb Hq Hw Hw' Dl Dr. rewrite (gram_general p blk q a b w w' Hp Hb Hq Hw Hw').
  apply sum_ext; intros x Hx. apply sum_ext; intros y Hy.
  rewrite (sum_diag a x).
  - rewrite (sum_diag b y); [reflexivity|exact Hy|]. intros y' Hy' Hne. rewrite (Dr y' y) by auto. ring.
  - exact Hx.
  - intros x' Hx' Hne. apply sum_zero. intros y' Hy'. rewrite (Dl x x') by auto. ring.
Qed.

(** one step of the true environments *)
Lemma true_l_snoc (p : list (site R)) A a x y : chain 1 p a -> dl A = a -> (x < dr A)%nat -> (y < dr A)%nat ->
  true_l (p ++ [A]) x y = sum (phys A) (fun s => sum a (fun i => sum a (fun j =>
    sconj (ent A s i x) * true_l p i j * ent A s j y))).
Proof.
  intros Hp HA Hx Hy. unfold true_l. unfold dims at 1; rewrite map_app; fold (dims p); rewrite sumcfg_app. cbn [dims map sumcfg].
  transitivity (sumcfg (dims p) (fun u => sum (phys A) (fun s => sum a (fun i => sum a (fun j =>
    sconj (ent A s i x) * (sconj (amp p u 0 i) * amp p u 0 j) * ent A s j y))))).
  - apply sumcfg_ext; intros u Hu. apply incfg_length in Hu. rewrite dims_length in Hu.
    apply sum_ext; intros s _.
    assert (E : forall z, (z < dr A)%nat -> amp (p ++ [A]) (u ++ [s]) 0 z = sum a (fun i => amp p u 0 i * ent A s i z)).
    { intros z Hz. rewrite (amp_app p [A] u [s] 0 a 1) by (auto; lia). apply sum_ext. intros i _. cbn [amp].
      rewrite (sum_dlt_r (dr A) z (fun k => ent A s i k)) by exact Hz. reflexivity. }
    rewrite !E by assumption. rewrite sum_conj, <- sum_mul_r. apply sum_ext; intros i _.
    rewrite <- sum_mul_l. apply sum_ext; intros j _. rewrite conj_mul. ring.
  - rewrite sumcfg_sum. apply sum_ext; intros s _. rewrite sumcfg_sum. apply sum_ext; intros i _.
    rewrite sumcfg_sum. apply sum_ext; intros j _.
    transitivity (sumcfg (dims p) (fun u => sconj (amp p u 0 i) * amp p u 0 j * (sconj (ent A s i x) * ent A s j y))).
    + apply sumcfg_ext; intros; ring.
    + rewrite sumcfg_mul_r. ring.
Qed.

Lemma true_r_cons (q : list (site R)) A x y :
  true_r (A :: q) x y = sum (phys A) (fun s => sum (dr A) (fun i => sum (dr A) (fun j =>
    ent A s x i * true_r q i j * sconj (ent A s y j)))).
Proof.
  unfold true_r. cbn [dims map sumcfg]. apply sum_ext; intros s _.
  transitivity (sumcfg (dims q) (fun v => sum (dr A) (fun i => sum (dr A) (fun j =>
    ent A s x i * (amp q v i 0 * sconj (amp q v j 0)) * sconj (ent A s y j))))).
  - apply sumcfg_ext; intros v _. cbn [amp]. rewrite sum_conj, <- sum_mul_r. apply sum_ext; intros i _.
    rewrite <- sum_mul_l. apply sum_ext; intros j _. rewrite conj_mul. ring.
  - rewrite sumcfg_sum. apply sum_ext; intros i _. rewrite sumcfg_sum. apply sum_ext; intros j _.
    transitivity (sumcfg (dims q) (fun v => amp q v i 0 * sconj (amp q v j 0) * (ent A s x i * sconj (ent A s y j)))).
    + apply sumcfg_ext; intros; ring.
    + rewrite sumcfg_mul_r. ring.
Qed.

Lemma true_l_real (p : list (site R)) x : sconj (true_l p x x) = true_l p x x.
Proof. unfold true_l. rewrite sumcfg_conj. apply sumcfg_ext. intros. rewrite conj_mul, conj_conj. ring. Qed.
Lemma true_r_real (q : list (site R)) x : sconj (true_r q x x) = true_r q x x.
Proof. unfold true_r. rewrite sumcfg_conj. apply sumcfg_ext. intros. rewrite conj_mul, conj_conj. ring. Qed.

Lemma chain_fun (l : list (site R)) : forall a b c, chain a l b -> chain a l c -> b = c.
Proof.
  induction l as [|A l IH]; intros a b c H1 H2; [cbn in *; congruence|]. destruct H1 as [_ H1], H2 as [_ H2]. eapply IH; eassumption.
Qed.
Lemma chain_start (l : list (site R)) a b z : chain a l z -> chain b l z -> a = b.
Proof. destruct l; cbn; intuition congruence. Qed.
Lemma dims_cat (l l' : list (site R)) : dims (l ++ l') = dims l ++ dims l'.
Proof. unfold dims. apply map_app. Qed.

(** computed environments agree with the true ones *)
Definition is_env (e : mat R) (a : nat) (f : nat -> nat -> R) : Prop :=
  mr e = a /\ mc e = a /\ forall x y, (x < a)%nat -> (y < a)%nat -> me e x y = f x y.

Lemma env_l_ok e (p : list (site R)) A a : chain 1 p a -> dl A = a -> is_env e a (true_l p) ->
  (forall x y, (x < dr A)%nat -> (y < dr A)%nat -> x <> y -> true_l (p ++ [A]) x y = 0) ->
  exists e', env_l e A = Ok e' /\ is_env e' (dr A) (true_l (p ++ [A])).
Proof.
  intros Hp HA (H1 & H2 & H3) HD. unfold env_l. rewrite H1, H2, HA, Nat.eqb_refl. cbn [andb]. eexists. split; [reflexivity|].
  split; [reflexivity|]. split; [reflexivity|]. intros x y Hx Hy. cbn [me].
  destruct (Nat.eqb_spec x y) as [<-|Hne]; [|rewrite HD by assumption; reflexivity].
  rewrite <- sum_re. rewrite <- (re_real _ _ (true_l_real (p ++ [A]) x)). f_equal.
  rewrite (true_l_snoc p A a x x) by assumption. apply sum_ext; intros s _. apply sum_ext; intros i Hi. apply sum_ext; intros j Hj.
  rewrite H3 by assumption. reflexivity.
Qed.

Lemma env_r_ok e (q : list (site R)) A b : dr A = b -> is_env e b (true_r q) ->
  (forall x y, (x < dl A)%nat -> (y < dl A)%nat -> x <> y -> true_r (A :: q) x y = 0) ->
  exists e', env_r e A = Ok e' /\ is_env e' (dl A) (true_r (A :: q)).
Proof.
  intros HA (H1 & H2 & H3) HD. unfold env_r. rewrite H1, H2, HA, Nat.eqb_refl. cbn [andb]. eexists. split; [reflexivity|].
  split; [reflexivity|]. split; [reflexivity|]. intros x y Hx Hy. cbn [me].
  destruct (Nat.eqb_spec x y) as [<-|Hne]; [|rewrite HD by assumption; reflexivity].
  rewrite <- sum_re. rewrite <- (re_real _ _ (true_r_real (A :: q) x)). f_equal.
  rewrite (true_r_cons q A x x). rewrite HA. apply sum_ext; intros s _. apply sum_ext; intros i Hi. apply sum_ext; intros j Hj.
  rewrite H3 by assumption. reflexivity.
Qed.

Lemma envs_l_ok (l : list (site R)) : forall p e a, chain 1 p a -> chain a l 1 -> is_env e a (true_l p) ->
  envs_diagonal (p ++ l) ->
  exists es, envs env_l e l = Ok es /\ length es = S (length l) /\
    forall l1 l2, l = l1 ++ l2 -> exists e' a', nth_error es (length l1) = Some e' /\ chain 1 (p ++ l1) a' /\ is_env e' a' (true_l (p ++ l1)).
Proof.
  induction l as [|A l IH]; intros p e a Hp Hl He HD.
  - exists [e]. split; [reflexivity|]. split; [reflexivity|]. intros l1 l2 E.
    destruct l1; [|discriminate]. exists e, a. rewrite app_nil_r. auto.
  - destruct Hl as [HA Hl]. assert (Hp' : chain 1 (p ++ [A]) (dr A)) by (eapply chain_app_mk; [exact Hp|exact HA|reflexivity]).
    destruct (env_l_ok e p A a Hp HA He) as (e' & E1 & He').
    { intros x y Hx Hy Hne. apply (HD (p ++ [A]) l (dr A)); auto. rewrite <- app_assoc. reflexivity. }
    destruct (IH (p ++ [A]) e' (dr A) Hp' Hl He') as (es & E2 & L2 & Hes).
    { rewrite <- app_assoc. exact HD. }
    exists (e :: es). cbn [envs]. rewrite E1. cbn [bind]. rewrite E2. cbn [bind]. split; [reflexivity|]. split; [cbn; lia|].
    intros l1 l2 E. destruct l1 as [|B l1].
    + exists e, a. rewrite app_nil_r. auto.
    + injection E as <- E. destruct (Hes l1 l2 E) as (e1 & a1 & N1 & N2 & N3). exists e1, a1.
      rewrite <- app_assoc in N2, N3. auto.
Qed.

Lemma envs_r_ok (l : list (site R)) : forall q e b, chain 1 (rev l) b -> chain b q 1 -> is_env e b (true_r q) ->
  envs_diagonal (rev l ++ q) ->
  exists es, envs env_r e l = Ok es /\ length es = S (length l) /\
    forall l1 l2, l = l1 ++ l2 -> exists e' a', nth_error es (length l1) = Some e' /\ chain a' (rev l1 ++ q) 1 /\ is_env e' a' (true_r (rev l1 ++ q)).
Proof.
  induction l as [|A l IH]; intros q e b Hl Hq He HD.
  - exists [e]. split; [reflexivity|]. split; [reflexivity|]. intros l1 l2 E.
    destruct l1; [|discriminate]. exists e, b. auto.
  - cbn [rev] in Hl. destruct (chain_parts (rev l) [A] [] 1 b) as (a & b' & C1 & C2 & C3).
    { rewrite app_nil_r. exact Hl. }
    destruct C2 as [HA HA']. cbn in HA', C3. assert (HB : dr A = b) by congruence.
    destruct (env_r_ok e q A b HB He) as (e' & E1 & He').
    { intros x y Hx Hy Hne. rewrite HA in Hx, Hy. apply (HD (rev l) (A :: q) a); auto.
      cbn [rev]. rewrite <- app_assoc. reflexivity. }
    rewrite HA in He'.
    destruct (IH (A :: q) e' a C1) as (es & E2 & L2 & Hes).
    { split; [exact HA|]. rewrite HB. exact Hq. }
    { exact He'. }
    { cbn [rev] in HD. rewrite <- app_assoc in HD. exact HD. }
    exists (e :: es). cbn [envs]. rewrite E1. cbn [bind]. rewrite E2. cbn [bind]. split; [reflexivity|]. split; [cbn; lia|].
    intros l1 l2 E. destruct l1 as [|B l1].
    + exists e, b. auto.
    + injection E as <- E. destruct (Hes l1 l2 E) as (e1 & a1 & N1 & N2 & N3). exists e1, a1.
      cbn [rev]. rewrite <- !app_assoc. cbn [app]. auto.
Qed.

Lemma get_envs_ok (m : fmps R) : closed (fdata m) -> envs_diagonal (fdata m) ->
  exists ls rs, get_envs m = Ok (ls, rs) /\
    forall p q, fdata m = p ++ q -> exists l r a, nth_error ls (length p) = Some l /\ nth_error rs (length p) = Some r /\
      chain 1 p a /\ chain a q 1 /\ is_env l a (true_l p) /\ is_env r a (true_r q).
Proof.
  intros Hc HD. unfold get_envs.
  assert (H1 : forall f : list (site R) -> nat -> nat -> R, f [] 0%nat 0%nat = 1 -> is_env env_1 1 (f [])).
  { intros f Hf. split; [reflexivity|]. split; [reflexivity|]. intros x y Hx Hy. destruct x; [|lia]. destruct y; [|lia]. symmetry. exact Hf. }
  destruct (envs_l_ok (fdata m) [] env_1 1 eq_refl Hc) as (ls & E1 & L1 & Hls); [|exact HD|].
  { apply H1. unfold true_l. cbn. unfold dlt. cbn. rewrite conj_1. ring. }
  destruct (envs_r_ok (rev (fdata m)) [] env_1 1) as (rs & E2 & L2 & Hrs).
  { rewrite rev_involutive. exact Hc. }
  { reflexivity. }
  { apply H1. unfold true_r. cbn. unfold dlt. cbn. rewrite conj_1. ring. }
  { rewrite rev_involutive, app_nil_r. exact HD. }
  rewrite E1. cbn [bind]. rewrite E2. cbn [bind]. exists ls, (rev rs). split; [reflexivity|].
  intros p q E. destruct (Hls p q E) as (l & a & N1 & N2 & N3). cbn [app] in N2, N3.
  destruct (Hrs (rev q) (rev p)) as (r & b & M1 & M2 & M3).
  { rewrite E. apply rev_app_distr. }
  rewrite rev_involutive, app_nil_r in M2, M3. rewrite rev_length in M1, L2.
  assert (Hab : b = a).
  { unfold closed in Hc. rewrite E in Hc. destruct (chain_parts p q [] 1 1) as (c & c' & C1 & C2 & C3).
    - rewrite app_nil_r. exact Hc.
    - cbn in C3. subst c'. rewrite <- (chain_fun p 1 a c N2 C1) in C2. eapply chain_start; eassumption. }
  subst b. exists l, r, a. split; [exact N1|]. split; [|auto].
  destruct (nth_error_split _ _ M1) as (r1 & r2 & -> & Hr). rewrite rev_app_distr. cbn [rev]. rewrite <- app_assoc. cbn [app].
  rewrite E, app_length in L2. rewrite app_length in L2. cbn [length] in L2.
  rewrite nth_error_app2 by (rewrite rev_length; lia). rewrite rev_length. replace (length p - length r2)%nat with 0%nat by lia. reflexivity.
Qed.

Lemma amp_pair (A B : site R) s t a b : (b < dr B)%nat ->
  amp [A; B] [s; t] a b = sum (dr A) (fun k => ent A s a k * ent B t k b).
Proof.
  intros Hb. cbn [amp]. apply sum_ext; intros k _. f_equal.
  rewrite (sum_dlt_r (dr B) b (fun z => ent B t k z)) by exact Hb. reflexivity.
Qed.

Lemma energy_term_ok (S : setio) (m : fmps R) ls rs p A B q h l r a b : setio_ok S ->
  fdata m = p ++ [A; B] ++ q -> chain 1 p a -> chain a [A; B] b -> chain b q 1 -> phys A = fd m -> phys B = fd m ->
  mr h = (fd m * fd m)%nat -> mc h = (fd m * fd m)%nat ->
  nth_error ls (length p) = Some l -> nth_error rs (length p + 2) = Some r ->
  is_env l a (true_l p) -> is_env r b (true_r q) ->
  (forall x y, (x < a)%nat -> (y < a)%nat -> x <> y -> true_l p x y = 0) ->
  (forall x y, (x < b)%nat -> (y < b)%nat -> x <> y -> true_r q x y = 0) ->
  energy_term S m ls rs (length p) h
  = Ok (expect (dims p) [fd m; fd m] (dims q) (fun s => amp (fdata m) s 0 0) (block_op (fd m) h)).
Proof.
  intros HS E Hp HAB Hq PA PB Hr Hc Nl Nr (L1 & L2 & L3) (R1 & R2 & R3) Dl Dr.
  destruct HAB as (CA & CB & CC). cbn in CC.
  unfold energy_term.
  destruct (reshape_op_ok (fd m) 2 h) as (T & ET & ST & VT); [cbn; lia|cbn; lia|]. cbn in ST.
  rewrite ET. cbn [bind].
  replace (firstn 2 (skipn (length p) (fdata m))) with [A; B].
  2: { rewrite E, skipn_app, skipn_all, Nat.sub_diag. reflexivity. }
  cbn [map].
  assert (Ed : exists d, fd m = d) by eauto. destruct Ed as (d & Ed). rewrite Ed in *.
  destruct (ncon_default_ok S (fun z => match z with (-3)%Z => a | 3%Z => dr A | (-4)%Z => b | _ => d end)
     [T; tens_site A; tens_site B] [[-1; -2; 1; 2]; [1; -3; 3]; [2; 3; -4]]%Z [1; 2; 3]%Z [-1; -2; -3; -4]%Z false HS) as (C & EC & SC & VC).
  { small_net. }
  { repeat constructor. }
  cbn [map] in SC. rewrite EC. cbn [bind]. unfold getitem. rewrite Nl. cbn [bind].
  rewrite E, nth_error_app2, Nat.sub_diag by lia. cbn [nth_error app bind].
  unfold dot_l. cbn [dl dr phys ent site_conj]. rewrite L1, L2, CA, Nat.eqb_refl. cbn [bind].
  rewrite nth_error_app2 by lia. replace (length p + 1 - length p)%nat with 1%nat by lia. cbn [nth_error bind].
  rewrite Nr. cbn [bind]. unfold dot_r. cbn [dl dr phys ent site_conj]. rewrite R1, R2, CC, Nat.eqb_refl. cbn [bind].
  match goal with |- context [ncon S [?X; ?Y; C] _ _ _ _] =>
    destruct (ncon_default_ok S (fun z => match z with 3%Z => a | 4%Z => dr A | 5%Z => b | _ => d end)
     [X; Y; C] [[1; 3; 4]; [2; 4; 5]; [1; 2; 3; 5]]%Z [1; 2; 3; 4; 5]%Z [] false HS) as (F & EF & SF & VF) end.
  { small_net. }
  { constructor. }
  rewrite EF. cbn [bind]. f_equal. rewrite (VF [] eq_refl). clear VF EF.
  unfold expect. rewrite swap4.
  transitivity (sum d (fun s => sum d (fun t => sum d (fun s' => sum d (fun t' => 
    sum a (fun x => sum b (fun y => block_op d h [s; t] [s'; t'] * (true_l p x x * (sconj (amp [A; B] [s; t] x y) * amp [A; B] [s'; t'] x y) * true_r q y y)))))))).
  - transitivity (sum d (fun s => sum d (fun t => sum a (fun x => sum (dr A) (fun k => sum b (fun y =>
      (true_l p x x * sconj (ent A s x k)) * (sconj (ent B t k y) * true_r q y y) *
      sum d (fun s' => sum d (fun t' => sum (dr A) (fun k' => block_op d h [s; t] [s'; t'] * (ent A s' x k' * ent B t' k' y)))))))))).
    + cbn [esum]. apply sum_ext; intros s Hs. apply sum_ext; intros t Ht. apply sum_ext; intros x Hx.
      apply sum_ext; intros k Hk. apply sum_ext; intros y Hy.
      unfold tprod. cbv [eupd Z.eqb Pos.eqb]. cbn [combine map fst snd prodl fold_right te tens_site ent nth].
      rewrite (sum_diag a x (fun z => sconj (me l x z) * sconj (ent A s z k))); [|exact Hx|].
      2: { intros z Hz Hne. rewrite L3, (Dl x z) by auto. rewrite conj_0. ring. }
      rewrite (sum_diag b y (fun z => sconj (ent B t k z) * sconj (me r z y))); [|exact Hy|].
      2: { intros z Hz Hne. rewrite R3, (Dr z y) by auto. rewrite conj_0. ring. }
      rewrite L3, R3, true_l_real, true_r_real by auto.
      rewrite (VC [s; t; x; y] eq_refl). cbn [esum].
      transitivity (true_l p x x * sconj (ent A s x k) * (sconj (ent B t k y) * true_r q y y) * sum d (fun s' => sum d (fun t' => sum (dr A) (fun k' =>
        tprod [T; tens_site A; tens_site B] [[-1; -2; 1; 2]; [1; -3; 3]; [2; 3; -4]]%Z
           (eupd (eupd (eupd (assign [-1; -2; -3; -4]%Z [s; t; x; y]) 1 s') 2 t') 3 k'))))); [ring|].
      f_equal. apply sum_ext; intros s' Hs'. apply sum_ext; intros t' Ht'. apply sum_ext; intros k' Hk'.
      unfold tprod. cbv [assign eupd Z.eqb Pos.eqb]. cbn [combine map fst snd prodl fold_right te tens_site ent nth].
      change [s; t; s'; t'] with ([s; t] ++ [s'; t']). rewrite VT; [ring| |]; repeat first [apply Forall2_nil | apply Forall2_cons]; assumption.
    + apply sum_ext; intros s _. apply sum_ext; intros t _.
      transitivity (sum a (fun x => sum b (fun y => sum d (fun s' => sum d (fun t' =>
        block_op d h [s; t] [s'; t'] * (true_l p x x * (sconj (amp [A; B] [s; t] x y) * amp [A; B] [s'; t'] x y) * true_r q y y)))))).
      * apply sum_ext; intros x _. rewrite sum_swap. apply sum_ext; intros y Hy. rewrite !amp_pair by lia.
        transitivity (sconj (sum (dr A) (fun k => ent A s x k * ent B t k y)) * (true_l p x x * true_r q y y *
          sum d (fun s' => sum d (fun t' => sum (dr A) (fun k' => block_op d h [s; t] [s'; t'] * (ent A s' x k' * ent B t' k' y)))))).
        -- rewrite sum_conj, <- sum_mul_r. apply sum_ext; intros k _. rewrite conj_mul. ring.
        -- rewrite <- !sum_mul_l. apply sum_ext; intros s' _. rewrite <- !sum_mul_l. apply sum_ext; intros t' _.
           rewrite amp_pair by lia. rewrite sum_mul_l. ring.
      * transitivity (sum a (fun x => sum d (fun s' => sum d (fun t' => sum b (fun y =>
          block_op d h [s; t] [s'; t'] * (true_l p x x * (sconj (amp [A; B] [s; t] x y) * amp [A; B] [s'; t'] x y) * true_r q y y)))))).
        { apply sum_ext; intros x _. rewrite sum_swap. apply sum_ext; intros s' _. rewrite sum_swap. reflexivity. }
        rewrite sum_swap. apply sum_ext; intros s' _. rewrite sum_swap. reflexivity.
  - cbn [sumcfg]. apply sum_ext; intros s Hs. apply sum_ext; intros t Ht. apply sum_ext; intros s' _. apply sum_ext; intros t' _.
    pose proof (gram_diag p [A; B] q a b [s; t] [s'; t'] Hp) as G. cbn [app] in G.
    transitivity (block_op d h [s; t] [s'; t'] * sumcfg (dims p) (fun u => sumcfg (dims q) (fun v =>
       sconj (amp (p ++ A :: B :: q) (u ++ s :: t :: v) 0 0) * amp (p ++ A :: B :: q) (u ++ s' :: t' :: v) 0 0))).
    + rewrite G by (first [assumption | reflexivity | split; [exact CA|split; [exact CB|exact CC]]]).
      rewrite <- sum_mul_l. apply sum_ext; intros x _. rewrite <- sum_mul_l. reflexivity.
    + rewrite <- sumcfg_mul_l. apply sumcfg_ext; intros u _. rewrite <- sumcfg_mul_l. apply sumcfg_ext; intros v _. cbn [app]. ring.
Qed.

Lemma mapM_all {X Y} (f : X -> res Y) (g : X -> Y) (l : list X) : (forall x, In x l -> f x = Ok (g x)) -> mapM f l = Ok (map g l).
Proof.
  induction l as [|x l IH]; intros H; [reflexivity|]. cbn [mapM map]. rewrite (H x (or_introl eq_refl)). cbn [bind].
  rewrite IH; [reflexivity|]. intros y Hy. apply H. right. exact Hy.
Qed.

Theorem energy_ok (S : setio) quot (m : fmps R) H : setio_ok S -> wf m -> uniform m -> envs_diagonal (fdata m) ->
  (length H < fL m)%nat -> Forall (fun h => mr h = (fd m * fd m)%nat /\ mc h = (fd m * fd m)%nat) H ->
  mps_energy S quot m H = Ok (quot (sre (total_energy (fd m) m H)) (fL m)).
Proof.
  intros HS (Hc & HL & Hw) Hu HD HH Hsh. unfold mps_energy.
  destruct (get_envs_ok m Hc HD) as (ls & rs & E & Hlr). rewrite E. cbn [bind fst snd].
  rewrite (mapM_all _ (fun ih => bond_energy (fd m) m (fst ih) (snd ih))); [reflexivity|].
  intros [i h] Hin. cbn [fst snd].
  assert (Hi : (i < length H)%nat) by (apply in_combine_l in Hin; apply in_seq in Hin; lia).
  pose proof (in_combine_r _ _ _ _ Hin) as Hh. rewrite Forall_forall in Hsh. destruct (Hsh h Hh) as [M1 M2].
  destruct (block_form_exists m i 2) as (p & blk & q & a & b & Ef & Lp & Lb & C1 & C2 & C3 & D1 & D2 & D3).
  { split; [exact Hc|]. split; [exact HL|exact Hw]. }
  { exact Hu. }
  { lia. }
  destruct blk as [|A [|B [|]]]; try discriminate Lb.
  destruct (Hlr p ([A; B] ++ q) Ef) as (l & r0 & a1 & N1 & _ & K1 & K2 & I1 & _).
  destruct (Hlr (p ++ [A; B]) q) as (l0 & r & b1 & _ & N2 & K3 & K4 & _ & I2).
  { rewrite Ef, <- app_assoc. reflexivity. }
  rewrite (chain_fun p 1 a1 a K1 C1) in I1.
  assert (Eb : b1 = b) by (eapply chain_start; eassumption). rewrite Eb in I2.
  rewrite app_length in N2. cbn [length] in N2.
  assert (PA : phys A = fd m /\ phys B = fd m).
  { cbn in D2. injection D2 as E1 E2. split; assumption. }
  destruct PA as [PA PB]. rewrite <- Lp.
  rewrite (energy_term_ok S m ls rs p A B q h l r a b); try assumption.
  - unfold bond_energy. f_equal. rewrite D1, D3, Lp, <- HL. reflexivity.
  - intros x y Hx Hy Hne. apply (HD p ([A; B] ++ q) a); auto.
  - intros x y Hx Hy Hne. apply (HD (p ++ [A; B]) q b); auto.
    + rewrite Ef, <- app_assoc. reflexivity.
    + rewrite <- Eb. exact K3.
Qed.

Theorem energy_value (S : setio) quot (m : fmps R) H : setio_ok S -> (forall x n, (0 < n)%nat -> sofnat n * quot x n = x) ->
  wf m -> uniform m -> envs_diagonal (fdata m) ->
  (length H < fL m)%nat -> Forall (fun h => mr h = (fd m * fd m)%nat /\ mc h = (fd m * fd m)%nat) H ->
  exists v, mps_energy S quot m H = Ok v /\ sofnat (fL m) * v = sre (total_energy (fd m) m H).
Proof.
  intros HS Hq Hw Hu HD HH Hsh. eexists. split; [apply energy_ok; assumption|]. apply Hq. lia.
Qed.

(** in a right-canonical chain only the left environments matter *)
Lemma right_iso_true_r (q : list (site R)) b x y : chain b q 1 -> Forall right_iso q -> (x < b)%nat -> (y < b)%nat -> true_r q x y = dlt x y.
Proof.
  intros Hc HF Hx Hy. rewrite <- (right_collapse q b 1 Hc HF x y Hx Hy). unfold true_r. apply sumcfg_ext. intros v _. cbn [sum]. ring.
Qed.

Lemma canonical_diagonal (l : list (site R)) : closed l -> Forall right_iso l ->
  (forall p q a, l = p ++ q -> chain 1 p a -> forall x y, (x < a)%nat -> (y < a)%nat -> x <> y -> true_l p x y = 0) ->
  envs_diagonal l.
Proof.
  intros Hc HF HD p q a E Hp x y Hx Hy Hne. split; [eapply HD; eauto|].
  unfold closed in Hc. rewrite E in Hc, HF. apply Forall_app in HF as [_ HF].
  destruct (chain_parts p q [] 1 1) as (c & c' & C1 & C2 & C3); [rewrite app_nil_r; exact Hc|]. cbn in C3. subst c'.
  rewrite (chain_fun p 1 c a C1 Hp) in C2. rewrite (right_iso_true_r q a x y C2 HF Hx Hy). unfold dlt.
  destruct (Nat.eqb_spec x y); [contradiction|reflexivity].
Qed.

Theorem energy_right (S : setio) quot (m : fmps R) H : setio_ok S -> (forall x n, (0 < n)%nat -> sofnat n * quot x n = x) ->
  wf m -> uniform m -> Forall right_iso (fdata m) ->
  (forall p q a, fdata m = p ++ q -> chain 1 p a -> forall x y, (x < a)%nat -> (y < a)%nat -> x <> y -> true_l p x y = 0) ->
  (length H < fL m)%nat -> Forall (fun h => mr h = (fd m * fd m)%nat /\ mc h = (fd m * fd m)%nat) H ->
  exists v, mps_energy S quot m H = Ok v /\ sofnat (fL m) * v = sre (total_energy (fd m) m H).
Proof. intros HS Hq Hw Hu HF HD. apply energy_value; try assumption. apply canonical_diagonal; [apply Hw|exact HF|exact HD]. Qed.
End Energy.
