(** Transposes and index helpers. *)
From Verif Require Import Alg ModelMPS SpecMPS ModelNcon SpecNcon ModelEk ModelTensor SpecTensor ProofNcon.

Lemma swap_last_app {A} (l : list A) x y : swap_last (l ++ [x; y]) = l ++ [y; x].
Proof.
  unfold swap_last. rewrite rev_app_distr. cbn [rev app]. rewrite rev_involutive. reflexivity.
Qed.

Lemma last_two {A} (l : list A) : 2 <= length l -> exists r x y, l = r ++ [x; y].
Proof.
  intros H. destruct (rev l) as [|y [|x r]] eqn:E; try (apply (f_equal (@length A)) in E; rewrite rev_length in E; cbn in E; lia).
  exists (rev r), x, y. rewrite <- (rev_involutive l), E. cbn. rewrite <- app_assoc. reflexivity.
Qed.

Lemma short_swap {A} (l : list A) : length l < 2 -> swap_last l = l.
Proof.
  intros H. unfold swap_last. destruct (rev l) as [|y [|x r]] eqn:E; try reflexivity.
  apply (f_equal (@length A)) in E. rewrite rev_length in E. cbn in E. lia.
Qed.

Lemma swap_last_invol {A} (l : list A) : swap_last (swap_last l) = l.
Proof.
  destruct (le_lt_dec 2 (length l)) as [H|H]; [|rewrite !short_swap; auto; rewrite short_swap; auto].
  destruct (last_two l H) as (r & x & y & ->). rewrite !swap_last_app. reflexivity.
Qed.

Lemma swap_last_length {A} (l : list A) : length (swap_last l) = length l.
Proof.
  destruct (le_lt_dec 2 (length l)) as [H|H]; [|rewrite short_swap; auto].
  destruct (last_two l H) as (r & x & y & ->). rewrite swap_last_app, !app_length. reflexivity.
Qed.

Section Transposes.
Context {R : sring}.
Local Open Scope sr_scope.
Add Ring Rr : (s_th R).

Lemma tT_ok (A : tens R) sh n m : tsh A = sh ++ [n; m] ->
  exists B, tT A = Ok B /\ tsh B = sh ++ [m; n] /\ forall r i j, length r = length sh -> te B (r ++ [j; i]) = te A (r ++ [i; j]).
Proof.
  intros E. unfold tT, swapaxes_last. rewrite E, app_length. cbn [length].
  destruct (Nat.ltb_spec (length sh + 2) 2) as [H|H]; [lia|]. eexists. split; [reflexivity|].
  split; [apply swap_last_app|]. intros r i j _. cbn [te]. rewrite swap_last_app. reflexivity.
Qed.

Lemma tH_ok (A : tens R) sh n m : tsh A = sh ++ [n; m] ->
  exists B, tH A = Ok B /\ tsh B = sh ++ [m; n] /\ forall r i j, length r = length sh -> te B (r ++ [j; i]) = sconj (te A (r ++ [i; j])).
Proof. intros E. exact (tT_ok (tC A) sh n m E). Qed.

Lemma tT_short (A : tens R) : (length (tsh A) < 2)%nat -> tT A = Err IndexError /\ tH A = Err IndexError.
Proof.
  intros H. unfold tT, tH, swapaxes_last. cbn [tC tsh]. apply Nat.ltb_lt in H. rewrite H. split; reflexivity.
Qed.

Lemma tT_invol (A B : tens R) : tT A = Ok B -> exists A', tT B = Ok A' /\ tens_eq A A'.
Proof.
  unfold tT, swapaxes_last. destruct (Nat.ltb_spec (length (tsh A)) 2) as [H|H]; [discriminate|]. intros E. injection E as <-.
  cbn [tsh te]. rewrite swap_last_length. apply Nat.ltb_ge in H. rewrite H. eexists. split; [reflexivity|].
  split; cbn [tsh te]; [symmetry; apply swap_last_invol|]. intros idx _. rewrite swap_last_invol. reflexivity.
Qed.

Lemma tC_invol (A : tens R) : tens_eq A (tC (tC A)).
Proof. split; [reflexivity|]. intros idx _. cbn. rewrite conj_conj. reflexivity. Qed.

Lemma tH_invol (A B : tens R) : tH A = Ok B -> exists A', tH B = Ok A' /\ tens_eq A A'.
Proof.
  unfold tH, swapaxes_last. cbn [tC tsh te]. destruct (Nat.ltb_spec (length (tsh A)) 2) as [H|H]; [discriminate|]. intros E. injection E as <-.
  cbn [tsh te]. rewrite swap_last_length. apply Nat.ltb_ge in H. rewrite H. eexists. split; [reflexivity|].
  split; cbn [tsh te]; [symmetry; apply swap_last_invol|]. intros idx _. rewrite swap_last_invol, conj_conj. reflexivity.
Qed.

Lemma tH_CT (A B : tens R) : tT A = Ok B -> exists B', tH A = Ok B' /\ tens_eq B' (tC B).
Proof.
  unfold tT, tH, swapaxes_last. cbn [tC tsh te]. destruct (Nat.ltb_spec (length (tsh A)) 2) as [H|H]; [discriminate|].
  intros E. injection E as <-. eexists. split; [reflexivity|]. split; reflexivity.
Qed.

Lemma matmul_ok (A B : tens R) sh n k m : tsh A = sh ++ [n; k] -> tsh B = sh ++ [k; m] ->
  exists P, matmul A B = Ok P /\ tsh P = sh ++ [n; m] /\
    forall r i j, te P (r ++ [i; j]) = sum k (fun x => te A (r ++ [i; x]) * te B (r ++ [x; j])).
Proof.
  intros EA EB. unfold matmul. rewrite EA, EB, !rev_app_distr. cbn [rev app].
  rewrite Nat.eqb_refl, nlist_eqb_refl. cbn [andb]. eexists. split; [reflexivity|].
  split; [cbn [tsh]; rewrite rev_involutive; reflexivity|]. intros r i j. cbn [te]. rewrite rev_app_distr. cbn [rev app].
  rewrite rev_involutive. reflexivity.
Qed.

Lemma tH_matmul (A B P : tens R) : matmul A B = Ok P ->
  exists A' B' P1 P2, tH A = Ok A' /\ tH B = Ok B' /\ tH P = Ok P1 /\ matmul B' A' = Ok P2 /\ tens_eq P1 P2.
Proof.
  intros E. assert (H : exists sh n k m, tsh A = sh ++ [n; k] /\ tsh B = sh ++ [k; m]).
  { unfold matmul in E. destruct (rev (tsh A)) as [|k [|n l]] eqn:EA; try discriminate.
    destruct (rev (tsh B)) as [|m [|k' l']] eqn:EB; try discriminate.
    destruct (Nat.eqb_spec k k') as [<-|]; [|discriminate]. cbn [andb] in E.
    destruct (nlist_eqb l l') eqn:El; [|discriminate].
    assert (l = l') as <-.
    { clear - El. revert l' El. induction l as [|x l IH]; intros [|y l'] H; cbn in H; try discriminate; [reflexivity|].
      apply andb_prop in H as [H1 H2]. apply Nat.eqb_eq in H1. subst. f_equal. apply IH, H2. }
    exists (rev l), n, k, m. rewrite <- (rev_involutive (tsh A)), <- (rev_involutive (tsh B)), EA, EB. cbn. rewrite <- !app_assoc.
    split; reflexivity. }
  destruct H as (sh & n & k & m & HA & HB).
  destruct (matmul_ok A B sh n k m HA HB) as (P' & EP & SP & VP). rewrite E in EP. injection EP as <-.
  destruct (tH_ok A sh n k HA) as (A' & EA & SA & VA). destruct (tH_ok B sh k m HB) as (B' & EB & SB & VB).
  destruct (tH_ok P sh n m SP) as (P1 & E1 & S1 & V1). destruct (matmul_ok B' A' sh m k n SB SA) as (P2 & E2 & S2 & V2).
  exists A', B', P1, P2. repeat (split; [assumption|]). split; [congruence|]. intros idx Hi. rewrite S1 in Hi.
  assert (Hl := incfg_length _ _ Hi). rewrite app_length in Hl. cbn in Hl.
  destruct (last_two idx) as (r & j & i & ->); [lia|]. rewrite app_length in Hl. cbn in Hl.
  rewrite V1, V2, VP by lia. rewrite sum_conj. apply sum_ext. intros x _. rewrite VA, VB by lia. rewrite conj_mul. ring.
Qed.

(** ** loc *)
Lemma kron_loc (A B : mat R) r s v w : (v < mr B)%nat -> (w < mc B)%nat ->
  loc (r, s) (v, w) None (Some (mr B)) (Some (mc B)) = Ok (mr B * r + v, mc B * s + w)%nat /\
  me (kron A B) (mr B * r + v)%nat (mc B * s + w)%nat = me A r s * me B v w.
Proof.
  intros Hv Hw. split; [reflexivity|]. cbn [kron me].
  rewrite !(Nat.mul_comm (mr B)), !(Nat.mul_comm (mc B)).
  rewrite !Nat.div_add_l, !Nat.div_small, !Nat.add_0_r by lia.
  rewrite !(Nat.add_comm (_ * _)), !Nat.mod_add, !Nat.mod_small by lia. reflexivity.
Qed.

Lemma kron_loc_in (A B : mat R) r s v w : (r < mr A)%nat -> (s < mc A)%nat -> (v < mr B)%nat -> (w < mc B)%nat ->
  (mr B * r + v < mr (kron A B))%nat /\ (mc B * s + w < mc (kron A B))%nat.
Proof. intros. cbn [kron mr mc]. nia. Qed.

Lemma kron3_loc (A B C : mat R) d r s t u v w : mr B = d -> mc B = d -> mr C = d -> mc C = d ->
  (t < d)%nat -> (u < d)%nat -> (v < d)%nat -> (w < d)%nat ->
  let ij := loc_3 (r, s) (t, u) (v, w) d in
  me (kron (kron A B) C) (fst ij) (snd ij) = me A r s * me B v w * me C t u.
Proof.
  intros B1 B2 C1 C2 Ht Hu Hv Hw. cbn [loc_3 fst snd].
  replace (d ^ 2 * r + d * v + t)%nat with (mr C * (mr B * r + v) + t)%nat by (cbn; rewrite B1, C1; lia).
  replace (d ^ 2 * s + d * w + u)%nat with (mc C * (mc B * s + w) + u)%nat by (cbn; rewrite B2, C2; lia).
  destruct (kron_loc (kron A B) C (mr B * r + v) (mc B * s + w) t u) as [_ ->]; [lia|lia|].
  destruct (kron_loc A B r s v w) as [_ ->]; [lia|lia|]. reflexivity.
Qed.

(** ** split_up *)
Lemma fill_ok sh : forall (f : list nat -> res R) (g : list nat -> R), (forall idx, incfg sh idx -> f idx = Ok (g idx)) ->
  exists T, fill sh f = Ok T /\ tsh T = sh /\ forall idx, incfg sh idx -> te T idx = g idx.
Proof.
  induction sh as [|n sh IH]; intros f g H.
  - cbn [fill]. rewrite (H [] (Forall2_nil _)). cbn [bind]. eexists. split; [reflexivity|]. split; [reflexivity|].
    intros idx Hi. inversion Hi. reflexivity.
  - assert (K : forall l, (forall i, In i l -> (i < n)%nat) -> exists Ts, mapM (fun i => fill sh (fun idx => f (i :: idx))) l = Ok Ts /\
       length Ts = length l /\ forall k i T, nth_error l k = Some i -> nth_error Ts k = Some T -> forall idx, incfg sh idx -> te T idx = g (i :: idx)).
    { induction l as [|i l IHl]; intros Hl; cbn [mapM].
      - exists []. split; [reflexivity|]. split; [reflexivity|]. intros [|]; discriminate.
      - destruct (IH (fun idx => f (i :: idx)) (fun idx => g (i :: idx))) as (T & ET & ST & VT).
        { intros idx Hi. apply H. apply Forall2_cons; [apply Hl; left; reflexivity|exact Hi]. }
        rewrite ET. cbn [bind]. destruct IHl as (Ts & ETs & LTs & VTs); [intros; apply Hl; right; assumption|].
        rewrite ETs. cbn [bind]. exists (T :: Ts). split; [reflexivity|]. split; [cbn; lia|].
        intros [|k] i' T' H1 H2; cbn in H1, H2.
        + injection H1 as <-. injection H2 as <-. exact VT.
        + eapply VTs; eassumption. }
    destruct (K (seq 0 n)) as (Ts & ETs & LTs & VTs); [intros i Hi; apply in_seq in Hi; lia|].
    cbn [fill]. rewrite ETs. cbn [bind]. eexists. split; [reflexivity|]. split; [reflexivity|].
    intros idx Hi. inversion Hi as [|x ? s ? Hx Hs]; subst. cbn [te hd tl].
    rewrite seq_length in LTs. destruct (nth_error Ts x) as [T|] eqn:E; [|apply nth_error_None in E; lia].
    apply (VTs x x T); auto. rewrite (nth_error_nth' _ 0%nat) by (rewrite seq_length; exact Hx). rewrite seq_nth by exact Hx. reflexivity.
Qed.

Lemma split_up_ok (M : mat R) d p q : mr M = (d * d)%nat -> mc M = (d * d)%nat ->
  exists h, split_up M (Some d) p q = Ok h /\ tsh h = [d; d; d; d] /\
    forall u v s t, (u < d)%nat -> (v < d)%nat -> (s < d)%nat -> (t < d)%nat -> te h [u; v; s; t] = me M (d * v + u)%nat (d * t + s)%nat.
Proof.
  intros H1 H2. unfold split_up.
  destruct (fill_ok [d; d; d; d] (fun idx =>
    do ij <- loc (nth 0 idx 0%nat, nth 1 idx 0%nat) (nth 2 idx 0%nat, nth 3 idx 0%nat) None (Some d) (Some d); mget M ij)
    (fun idx => me M (d * nth 0 idx 0 + nth 2 idx 0)%nat (d * nth 1 idx 0 + nth 3 idx 0)%nat)) as (T & ET & ST & VT).
  { intros idx Hi. inversion Hi as [|i ? l ? Hx Hi1]; subst. inversion Hi1 as [|j ? l1 ? Hx1 Hi2]; subst.
    inversion Hi2 as [|k ? l2 ? Hx2 Hi3]; subst. inversion Hi3 as [|l3 ? l4 ? Hx3 Hi4]; subst. inversion Hi4; subst.
    cbn [nth loc bind fst snd]. unfold mget. cbn [fst snd]. rewrite H1, H2.
    destruct (Nat.ltb_spec (d * i + k) (d * d)); [|nia]. destruct (Nat.ltb_spec (d * j + l3) (d * d)); [|nia]. reflexivity. }
  cbv beta in ET. rewrite ET. cbn [bind]. eexists. split; [reflexivity|]. split; [reflexivity|].
  intros u v s t Hu Hv Hs Ht. cbn [te nth]. rewrite VT; [reflexivity|]. repeat first [apply Forall2_nil | apply Forall2_cons]; assumption.
Qed.

Lemma split_up_kron (A B : mat R) d p q : mr A = d -> mc A = d -> mr B = d -> mc B = d ->
  exists h, split_up (kron A B) (Some d) p q = Ok h /\ tsh h = [d; d; d; d] /\
    forall u v s t, (u < d)%nat -> (v < d)%nat -> (s < d)%nat -> (t < d)%nat -> te h [u; v; s; t] = me A v t * me B u s.
Proof.
  intros A1 A2 B1 B2. destruct (split_up_ok (kron A B) d p q) as (h & E & Sh & V); [cbn; congruence|cbn; congruence|].
  exists h. split; [exact E|]. split; [exact Sh|]. intros u v s t Hu Hv Hs Ht. rewrite V by assumption.
  destruct (kron_loc A B v t u s) as [_ K]; [lia|lia|]. rewrite B1, B2 in K. exact K.
Qed.

Lemma split_up_none (M : mat R) p q : split_up M None p q = Err Exception_ \/ split_up M None p q = Err TypeError.
Proof. destruct p, q; cbn; auto. Qed.

Lemma split_up_3_ok (A B C : mat R) : mr A = 2%nat -> mc A = 2%nat -> mr B = 2%nat -> mc B = 2%nat -> mr C = 2%nat -> mc C = 2%nat ->
  exists h, split_up_3 (kron (kron A B) C) 2 = Ok h /\ tsh h = [2; 2; 2; 2; 2; 2]%nat /\
    forall i j k l m n, (i < 2)%nat -> (j < 2)%nat -> (k < 2)%nat -> (l < 2)%nat -> (m < 2)%nat -> (n < 2)%nat ->
      te h [i; j; k; l; m; n] = me A i j * me C k l * me B m n.
Proof.
  intros A1 A2 B1 B2 C1 C2. unfold split_up_3.
  destruct (fill_ok [2; 2; 2; 2; 2; 2]%nat (fun idx =>
    mget (kron (kron A B) C) (loc_3 (nth 0 idx 0, nth 1 idx 0)%nat (nth 2 idx 0, nth 3 idx 0)%nat (nth 4 idx 0, nth 5 idx 0)%nat 2))
    (fun idx => me A (nth 0 idx 0)%nat (nth 1 idx 0)%nat * me C (nth 2 idx 0)%nat (nth 3 idx 0)%nat * me B (nth 4 idx 0)%nat (nth 5 idx 0)%nat))
    as (T & ET & ST & VT).
  { intros idx Hi. inversion Hi as [|i ? l ? Hx Hi1]; subst. inversion Hi1 as [|j ? l1 ? Hx1 Hi2]; subst.
    inversion Hi2 as [|k ? l2 ? Hx2 Hi3]; subst. inversion Hi3 as [|l3 ? l4 ? Hx3 Hi4]; subst.
    inversion Hi4 as [|m ? l5 ? Hx4 Hi5]; subst. inversion Hi5 as [|n ? l6 ? Hx5 Hi6]; subst. inversion Hi6; subst.
    cbn [nth]. unfold mget.
    assert (K := kron3_loc A B C 2 i j k l3 m n B1 B2 C1 C2 Hx2 Hx3 Hx4 Hx5). cbv zeta in K. rewrite K.
    cbn [kron mr mc loc_3 fst snd]. rewrite A1, A2, B1, B2, C1, C2.
    destruct (Nat.ltb_spec (2 ^ 2 * i + 2 * m + k) (2 * 2 * 2)); [|cbn in *; lia].
    destruct (Nat.ltb_spec (2 ^ 2 * j + 2 * n + l3) (2 * 2 * 2)); [|cbn in *; lia]. cbn [andb]. f_equal. ring. }
  exists T. split; [exact ET|]. split; [exact ST|]. intros. rewrite VT; [reflexivity|].
  repeat first [apply Forall2_nil | apply Forall2_cons]; assumption.
Qed.
End Transposes.
