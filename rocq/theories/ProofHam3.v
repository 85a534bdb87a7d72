(** Proofs about Hamiltonians.py: the sum over the bonds of a chain, and the MPO. *)
From Coq Require Import Ascii.
From Verif Require Import Alg ModelMPS SpecMPS ModelNcon ProofNcon ModelEk ModelTensor SpecTensor SpecEk ModelSpin SpecSpin ProofTensor ProofSpin ProofSpin2 ProofEk3 ModelHam SpecHam ProofHam ProofHam2.

Section P.
Context {R : sring}.
Local Open Scope sr_scope.
Add Ring Rr : (s_th R).
Variable C : consts R.
Variable eqb : R -> R -> bool.
Hypothesis HC : consts_ok C (fun _ => False).
Hypothesis H1 : c_sqrt C 1 = 1.
Hypothesis Heqb : forall x y, eqb x y = true <-> x = y.
Let im := c_im C.

(** * Sums over the bonds *)
Lemma shift_sum n (A B : nat -> R) :
  sum (S n) (fun i => (if Nat.ltb i n then A i else 0) + match i with O => 0 | S j => B j end) = sum n A + sum n B.
Proof.
  rewrite sum_add. f_equal.
  - cbn [sum]. rewrite Nat.ltb_irrefl. rewrite (sum_ext n _ A); [ring|]. intros i Hi. destruct (Nat.ltb_spec i n); [reflexivity|lia].
  - rewrite sum_S_l. rewrite (sum_ext n _ B) by reflexivity. ring.
Qed.

Lemma place_right L i a : (i + 2 <= L)%nat -> place L i [a; LI] = place L i [a].
Proof.
  intros H. unfold place. f_equal. cbn [app length]. f_equal.
  replace (L - i - 1)%nat with (S (L - i - 2)) by lia. reflexivity.
Qed.
Lemma repeat_snoc {A} (x : A) n : repeat x (S n) = repeat x n ++ [x].
Proof. induction n; [reflexivity|]. cbn [repeat app] in *. now rewrite IHn at 1. Qed.
Lemma place_left L i a : (i + 2 <= L)%nat -> place L i [LI; a] = place L (S i) [a].
Proof.
  intros H. unfold place. rewrite repeat_snoc, <- app_assoc. cbn [app length]. do 4 f_equal. lia.
Qed.
Lemma place_none L i : (i + 2 <= L)%nat -> place L i [LI; LI] = repeat LI L.
Proof.
  intros H. unfold place. change [LI; LI] with (repeat LI 2). rewrite <- !repeat_app. f_equal. cbn [length repeat]. lia.
Qed.

Lemma regroup n (co : nat -> letter -> letter -> R) J f c s t :
  (forall i a b, (i < n)%nat -> In a xyz -> In b xyz -> co i a b = J a b) ->
  (forall i a, (i <= n)%nat -> In a xyz -> f i a = (if Nat.ltb i n then co i a LI else 0) + match i with O => 0 | S j => co j LI a end) ->
  c = sum n (fun i => co i LI LI) ->
  sum n (fun i => suml (map (fun a => suml (map (fun b => co i a b * pstring im (place (S n) i [a; b]) s t) all4)) all4))
  = chain_ham im (S n) J f c s t.
Proof.
  intros HJ Hf ->. unfold chain_ham. replace (S n - 1)%nat with n by lia.
  set (p := fun i a => pstring im (place (S n) i [a]) s t).
  rewrite (sum_ext (S n) _ (fun i => (if Nat.ltb i n then suml (map (fun a => co i a LI * p i a) xyz) else 0)
     + match i with O => 0 | S j => suml (map (fun a => co j LI a * p (S j) a) xyz) end)).
  2:{ intros i Hi. transitivity (suml (map (fun a => ((if Nat.ltb i n then co i a LI else 0) + match i with O => 0 | S j => co j LI a end) * p i a) xyz)).
      - apply suml_map_ext. intros a Ha. now rewrite <- Hf by (lia || assumption).
      - cbn [xyz map suml]. destruct (Nat.ltb i n), i; ring. }
  rewrite (shift_sum n (fun i => suml (map (fun a => co i a LI * p i a) xyz)) (fun j => suml (map (fun a => co j LI a * p (S j) a) xyz))).
  rewrite <- sum_mul_r, <- !sum_add. apply sum_ext. intros i Hi.
  cbn [all4 xyz map suml]. rewrite !place_right, !place_left by lia.
  rewrite <- (place_none (S n) i) by lia. rewrite (place_right (S n) i LI) by lia. fold (p i LX) (p i LY) (p i LZ) (p (S i) LX) (p (S i) LY) (p (S i) LZ).
  repeat match goal with |- context [co i ?a ?b] => rewrite (HJ i a b Hi) by (cbn; tauto) end. ring.
Qed.

Lemma sum_terms_local n (co : nat -> letter -> letter -> R) ms s t : length ms = n ->
  (forall i m, nth_error ms i = Some m -> is_local C (co i) m) -> incfg (repeat 2%nat (S n)) s -> incfg (repeat 2%nat (S n)) t ->
  sum_terms 2 ms s t = sum n (fun i => suml (map (fun a => suml (map (fun b => co i a b * pstring im (place (S n) i [a; b]) s t) all4)) all4)).
Proof.
  intros Hl Hm Hs Ht. unfold sum_terms.
  assert (G : forall ms' o, (forall i m, nth_error ms' i = Some m -> is_local C (co (o + i)%nat) m) -> (o + length ms' = n)%nat ->
    suml (map (fun im0 => on_sites 2 (fst im0) (snd im0) s t) (combine (seq o (length ms')) ms'))
    = sum (length ms') (fun i => suml (map (fun a => suml (map (fun b => co (o + i)%nat a b * pstring im (place (S n) (o + i) [a; b]) s t) all4)) all4))).
  { induction ms' as [|m ms' IH]; intros o Ho Hlen; [reflexivity|]. cbn [length seq combine map suml fst snd]. rewrite sum_S_l, !Nat.add_0_r. f_equal.
    - apply (on_local C (S n) o (co o) m s t); [cbn [length] in Hlen; lia| |assumption|assumption].
      specialize (Ho 0%nat m eq_refl). now rewrite Nat.add_0_r in Ho.
    - rewrite (IH (S o)); [|intros i m' Hi; specialize (Ho (S i) m' Hi); now rewrite Nat.add_succ_r in Ho|cbn [length] in Hlen; lia].
      apply sum_ext. intros i _. cbn [Nat.add]. now rewrite Nat.add_succ_r. }
  rewrite (G ms 0%nat Hm) by lia. rewrite Hl. reflexivity.
Qed.

(** * to_matrices *)
Definition co_0 (d : dict R) a b := coef d a b * (if isI a && negb (isI b) then c_half C else 1).
Definition co_L (d : dict R) a b := coef d a b * (if negb (isI a) && isI b then c_half C else 1).
Definition co_i (d : dict R) a b := co_L d a b * (if isI a && negb (isI b) then c_half C else 1).

Lemma is_local_ext co co' h : (forall a b, co a b = co' a b) -> is_local C co h -> is_local C co' h.
Proof.
  intros E (Hr & Hc & He). split; [exact Hr|]. split; [exact Hc|]. intros x y x' y' Hx Hy Hx' Hy'. rewrite He by assumption.
  apply suml_map_ext. intros a _. apply suml_map_ext. intros b _. now rewrite E.
Qed.

Lemma part_ok (d : dict R) co : tidy d -> (forall a b, coef d a b = co a b) ->
  exists h, strings_to_matrix C (squeeze eqb (widen d)) = Ok h /\ is_local C co h.
Proof.
  intros [Hn Ht] Hc. rewrite widen_two by exact Ht.
  destruct (to_matrix_ok C HC H1 (squeeze eqb d) (two_squeeze eqb d Ht)) as (h & E & Hl). exists h. split; [exact E|].
  eapply is_local_ext; [|exact Hl]. intros a b. rewrite coef_squeeze by exact Heqb. apply Hc.
Qed.

(** which of the three matrices acts on bond i of n bonds *)
Definition co_at n (d : dict R) (i : nat) : letter -> letter -> R :=
  if Nat.eqb i 0 then co_0 d else if Nat.eqb (S i) n then co_L d else co_i d.

Lemma to_matrices_ok h (d : dict R) L : h_strings h = Some d -> tidy d -> (3 <= L)%nat ->
  exists ms, to_matrices C eqb h L = Ok ms /\ length ms = (L - 1)%nat /\
    forall i m, nth_error ms i = Some m -> is_local C (co_at (L - 1) d i) m.
Proof.
  intros Hh Hd HL. unfold to_matrices, strings_of. rewrite Hh. cbn [bind].
  destruct (halve_right_ok C d Hd) as [Tr Er]. destruct (halve_left_ok C d Hd) as [Tl El]. destruct (halve_right_ok C _ Tl) as [Ti Ei].
  destruct (part_ok _ (co_0 d) Tr Er) as (a & -> & Ha). destruct (part_ok _ (co_L d) Tl El) as (b & -> & Hb).
  destruct (part_ok _ (co_i d) Ti) as (m & -> & Hm). { intros. rewrite Ei, El. reflexivity. }
  cbn [bind]. destruct (Nat.eqb_spec L 2); [lia|]. destruct (Nat.eqb_spec L 3) as [->|H3].
  - exists [a; b]. split; [reflexivity|]. split; [reflexivity|]. intros i x Hi.
    destruct i as [|[|[|]]]; cbn in Hi; try discriminate; injection Hi as <-; assumption.
  - exists ([a] ++ repeat m (L - 3) ++ [b]). split; [reflexivity|]. split; [rewrite !app_length, repeat_length; cbn; lia|].
    intros i x Hi. unfold co_at. destruct i as [|i]; [cbn in Hi; injection Hi as <-; exact Ha|]. cbn [app nth_error] in Hi. destruct (Nat.eqb_spec (S i) 0); [lia|].
    destruct (Nat.eqb_spec (S (S i)) (L - 1)) as [E|E].
    + rewrite nth_error_app2 in Hi by (rewrite repeat_length; lia). rewrite repeat_length in Hi. replace (i - (L - 3))%nat with 0%nat in Hi by lia.
      cbn in Hi. injection Hi as <-. exact Hb.
    + destruct (Nat.lt_ge_cases i (L - 3)) as [Hlt|Hge].
      * rewrite nth_error_app1 in Hi by (rewrite repeat_length; lia). apply nth_error_In, repeat_spec in Hi. subst x. exact Hm.
      * exfalso. assert (nth_error (repeat m (L - 3) ++ [b]) i <> None) by congruence. apply nth_error_Some in H. rewrite app_length, repeat_length in H. cbn in H. lia.
Qed.

(** the fields of the sites that the bond matrices add up to *)
Definition bond_field (L : nat) (d : dict R) (i : nat) (a : letter) : R :=
  if Nat.eqb i 0 then coef d a LI else if Nat.eqb (S i) L then coef d LI a else c_half C * (coef d a LI + coef d LI a).

Lemma sum_const n (c : R) : sum n (fun _ => c) = sofnat n * c.
Proof. induction n; cbn [sum sofnat]; [ring|]. rewrite IHn. ring. Qed.

Lemma to_matrices_sum h (d : dict R) L : h_strings h = Some d -> tidy d -> (3 <= L)%nat ->
  exists ms, to_matrices C eqb h L = Ok ms /\ length ms = (L - 1)%nat /\ (forall m, In m ms -> mr m = 4%nat /\ mc m = 4%nat) /\
    forall s t, incfg (repeat 2%nat L) s -> incfg (repeat 2%nat L) t ->
      sum_terms 2 ms s t = chain_ham im L (coef d) (bond_field L d) (sofnat (L - 1) * coef d LI LI) s t.
Proof.
  intros Hh Hd HL. destruct (to_matrices_ok h d L Hh Hd HL) as (ms & E & Hl & Hm). exists ms. split; [exact E|]. split; [exact Hl|]. split.
  { intros m Hi. apply In_nth_error in Hi. destruct Hi as [i Hi]. destruct (Hm i m Hi) as (? & ? & _). now split. }
  intros s t Hs Ht. destruct L as [|n]; [lia|]. replace (S n - 1)%nat with n in * by lia.
  rewrite (sum_terms_local n (co_at n d) ms s t Hl Hm Hs Ht). apply regroup.
  - intros i a b Hi Ha Hb. unfold co_at, co_i, co_0, co_L.
    destruct (Nat.eqb i 0); [|destruct (Nat.eqb (S i) n)]; destruct a, b; cbn; try ring; cbn in Ha, Hb; intuition discriminate.
  - intros i a Hi Ha. unfold bond_field, co_at, co_i, co_0, co_L. assert (Ia : isI a = false) by (destruct a; try reflexivity; cbn in Ha; intuition discriminate).
    destruct i as [|i].
    + cbn [Nat.eqb]. destruct (Nat.ltb_spec 0 n); [|lia]. rewrite Ia. cbn [isI andb negb]. ring.
    + destruct (Nat.eqb_spec (S i) 0); [lia|]. destruct (Nat.eqb_spec i 0) as [->|Hi0].
      * destruct (Nat.ltb_spec 1 n); [|lia]. destruct (Nat.eqb_spec 1 n); [lia|]. destruct (Nat.eqb_spec 2 (S n)); [lia|].
        destruct (Nat.eqb_spec 2 n); rewrite Ia; cbn [isI andb negb]; ring.
      * destruct (Nat.ltb_spec (S i) n); destruct (Nat.eqb_spec (S i) n); try lia; destruct (Nat.eqb_spec (S (S i)) (S n)); try lia.
        -- destruct (Nat.eqb_spec (S (S i)) n); rewrite Ia; cbn [isI andb negb]; ring.
        -- rewrite ?Ia; cbn [isI andb negb]; ring.
  - rewrite (sum_ext n _ (fun _ => coef d LI LI)); [now rewrite sum_const|].
    intros i Hi. unfold co_at, co_i, co_0, co_L. destruct (Nat.eqb i 0); [|destruct (Nat.eqb (S i) n)]; cbn [isI andb negb]; ring.
Qed.

Lemma to_matrices_two h (d : dict R) : h_strings h = Some d -> tidy d ->
  exists m, to_matrices C eqb h 2 = Ok [m] /\ mr m = 4%nat /\ mc m = 4%nat /\
    forall s t, incfg [2; 2]%nat s -> incfg [2; 2]%nat t ->
      sum_terms 2 [m] s t = chain_ham im 2 (coef d) (fun i a => c_half C * (if Nat.eqb i 0 then coef d a LI else coef d LI a)) (coef d LI LI) s t.
Proof.
  intros Hh Hd. unfold to_matrices, strings_of. rewrite Hh. cbn [bind Nat.eqb].
  destruct (halve_left_ok C d Hd) as [Tl El]. destruct (halve_right_ok C _ Tl) as [Ti Ei].
  destruct (part_ok _ (co_i d) Ti) as (m & -> & Hm). { intros. rewrite Ei, El. reflexivity. }
  exists m. split; [reflexivity|]. split; [apply Hm|]. split; [apply Hm|]. intros s t Hs Ht.
  rewrite (sum_terms_local 1 (fun _ => co_i d) [m] s t eq_refl); [|intros i x Hi; destruct i as [|[|]]; cbn in Hi; try discriminate; injection Hi as <-; exact Hm|assumption|assumption].
  apply regroup.
  - intros i a b Hi Ha Hb. unfold co_i, co_L. destruct a, b; cbn; try ring; cbn in Ha, Hb; intuition discriminate.
  - intros i a Hi Ha. unfold co_i, co_L. assert (Ia : isI a = false) by (destruct a; try reflexivity; cbn in Ha; intuition discriminate).
    rewrite Ia. cbn [isI andb negb]. destruct i as [|[|i]]; cbn; try lia; ring.
  - cbn [sum]. unfold co_i, co_L. cbn [isI andb negb]. ring.
Qed.

(** * The MPO *)
Lemma mpo_last Ws s t Jx Jy Jz hx hy hz : let W := heis_mpo C Jx Jy Jz hx hy hz in
  forall L, Ws = repeat W L -> incfg (repeat 2%nat L) s -> incfg (repeat 2%nat L) t ->
  mpo_chain 5 Ws s t 4 4 = pstring im (repeat LI L) s t.
Proof.
  intros W L. revert Ws s t. induction L as [|L IH]; intros Ws s t -> Hs Ht; cbn [repeat] in Hs, Ht.
  - inversion Hs; inversion Ht; subst. reflexivity.
  - inversion Hs; subst. inversion Ht; subst. cbn [repeat mpo_chain]. unfold pstring. cbn [map string_op]. fold (pstring im (repeat LI L) l l0).
    rewrite <- (IH _ l l0 eq_refl) by assumption. cbn [sum].
    assert (E4 : forall b u v, (b < 4)%nat -> te W [4; b; u; v]%nat = 0) by (intros b u v Hb; do 4 (destruct b as [|b]; [reflexivity|]); lia).
    rewrite !E4 by lia. change (te W [4; 4; x; x0]%nat) with (dlt x x0 : R).
    replace (me (sigma im LI) x x0) with (dlt x x0 : R) by (destruct x as [|[|]]; try lia; destruct x0 as [|[|]]; try lia; reflexivity). ring.
Qed.

(** the rows 1, 2, 3 complete a coupling *)
Definition row_J Jx Jy Jz (k : nat) : R := match k with 1%nat => Jz | 2%nat => Jy | _ => Jx end.
Definition row_l (k : nat) : letter := match k with 1%nat => LZ | 2%nat => LY | _ => LX end.
Lemma mpo_mid s t Jx Jy Jz hx hy hz k : let W := heis_mpo C Jx Jy Jz hx hy hz in
  forall L, In k [1; 2; 3]%nat -> incfg (repeat 2%nat L) s -> incfg (repeat 2%nat L) t ->
  mpo_chain 5 (repeat W L) s t k 4 = match L with O => 0 | S _ => row_J Jx Jy Jz k * pstring im (place L 0 [row_l k]) s t end.
Proof.
  intros W [|L] Hk Hs Ht; cbn [repeat] in Hs, Ht.
  - inversion Hs; inversion Ht; subst. destruct Hk as [<-|[<-|[<-|[]]]]; reflexivity.
  - inversion Hs; subst. inversion Ht; subst. cbn [repeat mpo_chain]. unfold place. cbn [repeat app length]. replace (S L - 0 - 1)%nat with L by lia.
    unfold pstring. cbn [map string_op]. fold (pstring im (repeat LI L) l l0). cbn [sum].
    pose proof (mpo_last _ l l0 Jx Jy Jz hx hy hz L eq_refl H4 H6) as EL. fold W in EL. rewrite EL.
    assert (E4 : forall b u v, (b < 4)%nat -> te W [k; b; u; v]%nat = 0)
      by (intros b u v Hb; destruct Hk as [<-|[<-|[<-|[]]]]; do 4 (destruct b as [|b]; [reflexivity|]); lia).
    rewrite !E4 by lia.
    replace (te W [k; 4; x; x0]%nat) with (row_J Jx Jy Jz k * me (sigma im (row_l k)) x x0); [ring|].
    destruct Hk as [<-|[<-|[<-|[]]]]; reflexivity.
Qed.

Lemma chain_ham_cons L J f s t x y : (x < 2)%nat -> (y < 2)%nat -> (1 <= L)%nat -> (forall i a, (i < S L)%nat -> f i a = f 0%nat a) ->
  chain_ham im (S L) J f 0 (x :: s) (y :: t) =
    dlt x y * chain_ham im L J f 0 s t
    + suml (map (fun a => suml (map (fun b => J a b * (me (sigma im a) x y * pstring im (place L 0 [b]) s t)) xyz)) xyz)
    + suml (map (fun a => f 0%nat a * (me (sigma im a) x y * pstring im (repeat LI L) s t)) xyz).
Proof.
  intros Hx Hy HL Hf. unfold chain_ham. destruct L as [|n]; [lia|]. replace (S (S n) - 1)%nat with (S n) by lia. replace (S n - 1)%nat with n by lia.
  assert (PS : forall i ops, pstring im (place (S (S n)) (S i) ops) (x :: s) (y :: t) = dlt x y * pstring im (place (S n) i ops) s t).
  { intros i ops. unfold place. cbn [repeat app Nat.sub]. unfold pstring. cbn [map string_op]. f_equal.
    destruct x as [|[|]]; try lia; destruct y as [|[|]]; try lia; reflexivity. }
  rewrite (sum_S_l n). rewrite (sum_S_l (S n)).
  rewrite (sum_ext n (fun i => suml (map _ xyz)) (fun i => dlt x y * suml (map (fun a => suml (map (fun b => J a b * pstring im (place (S n) i [a; b]) s t) xyz)) xyz))).
  2:{ intros i _. cbn [xyz map suml]. rewrite !PS. ring. }
  rewrite (sum_ext (S n) (fun i => suml (map _ xyz)) (fun i => dlt x y * suml (map (fun a => f i a * pstring im (place (S n) i [a]) s t) xyz))).
  2:{ intros i Hi. cbn [xyz map suml]. rewrite !PS, !(Hf (S i)), !(Hf i) by lia. ring. }
  rewrite !sum_mul_l.
  assert (E2 : forall a b, pstring im (place (S (S n)) 0 [a; b]) (x :: s) (y :: t) = me (sigma im a) x y * pstring im (place (S n) 0 [b]) s t).
  { intros a b. unfold place, pstring. cbn [repeat app length map string_op]. do 4 f_equal. }
  assert (E1 : forall a, pstring im (place (S (S n)) 0 [a]) (x :: s) (y :: t) = me (sigma im a) x y * pstring im (repeat LI (S n)) s t) by reflexivity.
  cbn [xyz map suml]. rewrite !E2, !E1. change (repeat LI (S (S n))) with (LI :: repeat LI (S n)).
  ring.
Qed.

Lemma mpo_first Jx Jy Jz hx hy hz (J : letter -> letter -> R) (f : nat -> letter -> R) :
  J LX LX = Jx -> J LY LY = Jy -> J LZ LZ = Jz -> (forall a b, In a xyz -> In b xyz -> a <> b -> J a b = 0) ->
  (forall i, f i LX = hx) -> (forall i, f i LY = hy) -> (forall i, f i LZ = hz) -> (forall i, f i LI = 0) ->
  forall L s t, incfg (repeat 2%nat L) s -> incfg (repeat 2%nat L) t ->
  mpo_chain 5 (repeat (heis_mpo C Jx Jy Jz hx hy hz) L) s t 0 4 = chain_ham im L J f 0 s t.
Proof.
  intros JX JY JZ Jo FX FY FZ FI L. set (W := heis_mpo C Jx Jy Jz hx hy hz). induction L as [|L IH]; intros s t Hs Ht; cbn [repeat] in Hs, Ht.
  - inversion Hs; inversion Ht; subst. unfold chain_ham. cbn. unfold dlt. cbn [Nat.eqb]. ring.
  - inversion Hs as [|x ? s' ? Hx Hs']; subst. inversion Ht as [|y ? t' ? Hy Ht']; subst.
    assert (Step : mpo_chain 5 (repeat W (S L)) (x :: s') (y :: t') 0 4 =
       dlt x y * mpo_chain 5 (repeat W L) s' t' 0 4 + me (sigma im LZ) x y * mpo_chain 5 (repeat W L) s' t' 1 4
       + me (sigma im LY) x y * mpo_chain 5 (repeat W L) s' t' 2 4 + me (sigma im LX) x y * mpo_chain 5 (repeat W L) s' t' 3 4
       + (J LZ LZ * 0 + f 0%nat LZ * me (sigma im LZ) x y + f 0%nat LY * me (sigma im LY) x y + f 0%nat LX * me (sigma im LX) x y) * pstring im (repeat LI L) s' t').
    { rewrite FX, FY, FZ. rewrite <- (mpo_last _ s' t' (J LX LX) (J LY LY) (J LZ LZ) hx hy hz L eq_refl) by assumption. fold W.
      cbn [repeat mpo_chain sum]. unfold W at 1 3 5 7 9. cbn [te heis_mpo heis_W].
      change (@me R (lit 2 2 [0; 1; 1; 0]) x y) with (me (sigma im LX) x y).
      change (@me R (lit 2 2 [0; - c_im C; c_im C; 0]) x y) with (me (sigma im LY) x y).
      change (@me R (lit 2 2 [1; 0; 0; - (1)]) x y) with (me (sigma im LZ) x y). ring. }
    rewrite Step. rewrite IH by assumption.
    unfold W. rewrite (mpo_mid s' t' _ _ _ hx hy hz 1 L), (mpo_mid s' t' _ _ _ hx hy hz 2 L), (mpo_mid s' t' _ _ _ hx hy hz 3 L) by (assumption || (cbn; tauto)).
    destruct L as [|L].
    + inversion Hs'; inversion Ht'; subst. unfold chain_ham. cbn [sum Nat.sub]. unfold place, pstring. cbn [repeat app length map string_op xyz suml Nat.sub]. rewrite ?FX, ?FY, ?FZ. ring.
    + rewrite (chain_ham_cons (S L) J f s' t' x y Hx Hy).
      2: lia.
      2:{ intros i a _. destruct a; [rewrite !FI|rewrite !FX|rewrite !FY|rewrite !FZ]; reflexivity. }
      cbn [xyz map suml row_J row_l].
      rewrite (Jo LX LY), (Jo LX LZ), (Jo LY LX), (Jo LY LZ), (Jo LZ LX), (Jo LZ LY) by (discriminate || (cbn; tauto)). ring.
Qed.
End P.
