(** The network of dA_dt for a Hamiltonian given as one matrix. *)
From Verif Require Import Alg ModelMPS SpecMPS ProofMPS ModelOrth SpecOrth ProofOrth ProofOrth2 ModelNcon SpecNcon ProofNcon ProofNcon3 ProofNcon4 ModelEk SpecEk ProofEk ProofEk2 ProofEk3
  ModelNp ModelEnergy ModelTan ModelTdvp ModelFull ProofFull.
From Coq Require Import Permutation Sorted.

Lemma lnk_split p b s n k : lnk p b s (n + k) = lnk p b s n ++ lnk p b (s + n) k.
Proof. unfold lnk. rewrite seq_app, map_app. reflexivity. Qed.
Lemma lnk_S p b s k : lnk p b s (S k) = [p s; b s; b (S s)] :: lnk p b (S s) k.
Proof. reflexivity. Qed.

Lemma getitem_at {A} (l : list A) x r n : n = length l -> getitem (l ++ x :: r) n = Ok x.
Proof. intros ->. unfold getitem. rewrite nth_error_app2, Nat.sub_diag by lia. reflexivity. Qed.
Lemma setitem_at {A} (l : list A) x r y n : n = length l -> setitem (l ++ x :: r) n y = Ok (l ++ y :: r).
Proof. intros ->. induction l as [|z l IH]; cbn [app length setitem]; [reflexivity|]. rewrite IH. reflexivity. Qed.

Definition tword k := map lp (seq 0 k) ++ map (lq k) (seq 0 k).
Lemma full_links_last n : full_links (S n) n = Ok (lnk lp (lb (S n)) 0 n ++ [-1; -2; lp n; lb (S n) n]%Z :: tword (S n) :: lnk (lq (S n)) (lc (S n)) 0 n ++ [[lq (S n) n; lc (S n) n; (-3)%Z]]).
Proof.
  unfold full_links. rewrite links_op. fold (tword (S n)). set (k := S n). assert (Ek : k = n + 1) by (unfold k; lia). 
  assert (EL : forall p b, lnk p b 0 k = lnk p b 0 n ++ [[p n; b n; b (S n)]]) by (intros p b; rewrite Ek, lnk_split; reflexivity).
  rewrite !EL, <- app_assoc. cbn [app].
  pose proof (lnk_length lp (lb k) 0 n) as Hn. rewrite getitem_at by (rewrite lnk_length; reflexivity). cbn [bind]. rewrite setitem_at by (rewrite lnk_length; reflexivity). cbn [bind firstn app].
  replace (k - 1) with n by lia. rewrite Nat.eqb_refl.
  set (pre := lnk lp (lb k) 0 n ++ [-1; -2; lp n; lb k n]%Z :: tword k :: lnk (lq k) (lc k) 0 n).
  assert (E : lnk lp (lb k) 0 n ++ [-1; -2; lp n; lb k n]%Z :: tword k :: lnk (lq k) (lc k) 0 n ++ [[lq k n; lc k n; lc k (S n)]] = pre ++ [[lq k n; lc k n; lc k (S n)]]).
  { unfold pre. rewrite <- app_assoc. reflexivity. }
  rewrite E. assert (Hp : length (pre ++ [[lq k n; lc k n; lc k (S n)]]) - 1 = length pre) by (rewrite app_length; cbn [length]; lia).
  rewrite Hp, getitem_at by reflexivity. cbn [bind]. rewrite setitem_at by reflexivity. cbn [firstn app]. unfold pre. rewrite <- app_assoc. reflexivity.
Qed.

Lemma full_links_mid n j : full_links (n + S (S j)) n = Ok (lnk lp (lb (n + S (S j))) 0 n ++ [-1; -2; lp n; lb (n + S (S j)) n]%Z :: [lp (S n); -3; lb (n + S (S j)) (S (S n))]%Z ::
  lnk lp (lb (n + S (S j))) (S (S n)) j ++ tword (n + S (S j)) :: lnk (lq (n + S (S j))) (lc (n + S (S j))) 0 (n + S (S j))).
Proof.
  unfold full_links. rewrite links_op. fold (tword (n + S (S j))). remember (n + S (S j)) as k eqn:Ek. 
  assert (EL : lnk lp (lb k) 0 k = lnk lp (lb k) 0 n ++ [lp n; lb k n; lb k (S n)] :: [lp (S n); lb k (S n); lb k (S (S n))] :: lnk lp (lb k) (S (S n)) j) by (rewrite Ek at 2; rewrite lnk_split; reflexivity).
  rewrite EL, <- app_assoc. cbn [app].
  pose proof (lnk_length lp (lb k) 0 n) as Hn. rewrite getitem_at by (rewrite lnk_length; reflexivity). cbn [bind]. rewrite setitem_at by (rewrite lnk_length; reflexivity). cbn [bind firstn app].
  destruct (Nat.eqb_spec n (k - 1)); [lia|].
  set (pre := lnk lp (lb k) 0 n ++ [[-1; -2; lp n; lb k n]%Z]).
  assert (E : forall r, lnk lp (lb k) 0 n ++ [-1; -2; lp n; lb k n]%Z :: r = pre ++ r) by (intros; unfold pre; rewrite <- app_assoc; reflexivity).
  rewrite !E. assert (Hp : n + 1 = length pre) by (unfold pre; rewrite app_length, lnk_length; reflexivity).
  rewrite Hp, getitem_at by reflexivity. cbn [bind getitem nth_error]. rewrite setitem_at by reflexivity. unfold pre. rewrite <- app_assoc. reflexivity.
Qed.

Lemma cnt_cons (x : Z) l y : cnt (x :: l) y = cnt [x] y + cnt l y.
Proof. cbn [count_occ]. destruct (Z.eq_dec x y); lia. Qed.

Lemma lb_in k n : n < k -> In (lb k (n + 1)) (map lp (seq 0 k) ++ map (lq k) (seq 0 k) ++ bonds_of (lb k) (lc k) k).
Proof.
  intros Hn. apply in_or_app; right. apply in_or_app; right. unfold bonds_of. destruct (Nat.eq_dec (n + 1) k) as [E|E].
  - rewrite E. right. left. reflexivity.
  - apply in_or_app; right. apply in_or_app; left. apply in_map. apply in_seq. lia.
Qed.

Lemma lb_not_neg k n x : In x [-1; -2; -3]%Z -> x <> lb k n.
Proof. unfold lb. intros [<-|[<-|[<-|[]]]]; lia. Qed.
