(** from_mps (fPEPS.py:237-243): the state as an operator with trivial up legs. *)
From Verif Require Import Alg ModelMPS SpecMPS ModelNcon SpecNcon ModelEk ModelNp ModelTensor ModelPeps SpecTensor SpecPeps.
Import ListNotations.

Section Proof.
Context {R : sring}.
Local Open Scope sr_scope.
Add Ring Rr : (s_th R).

Fixpoint path (l : list (site R)) (s h : list nat) (i : nat) : R :=
  match l, s, h with
  | [], _, _ => 1
  | A :: l, x :: s, k :: h => ent A x i k * path l s h k
  | _, _, _ => 0
  end.

Lemma path_amp l : forall s i0 i, l <> [] -> chain i0 l 1 -> length s = length l ->
  sumcfg (map (@dr R) l) (fun h => path l s h i) = amp l s i 0.
Proof.
  induction l as [|A l IH]; intros s i0 i Hn Hc Hl; [easy|]. destruct s as [|x s]; [discriminate|]. cbn [map sumcfg path amp].
  destruct Hc as [_ Hc]. injection Hl as Hl. apply sum_ext; intros k Hk. rewrite sumcfg_mul_l. f_equal. destruct l as [|B l].
  - destruct s; [|discriminate]. cbn in Hc. cbn [map sumcfg path amp]. assert (k = 0%nat) as -> by lia. now rewrite dlt_eq.
  - apply (IH s (dr A) k); [easy|exact Hc|exact Hl].
Qed.

Definition prev (h : list nat) (i n : nat) : nat := match n with 0%nat => i | S n => nth n h 0%nat end.
Lemma path_prodl l (dA : site R) : forall s h i, length s = length l -> length h = length l ->
  path l s h i = prodl (map (fun n => ent (nth n l dA) (nth n s 0%nat) (prev h i n) (nth n h 0%nat)) (seq 0 (length l))).
Proof.
  induction l as [|A l IH]; intros s h i Hs Hh; [reflexivity|]. destruct s as [|x s], h as [|k h]; try discriminate.
  injection Hs as Hs. injection Hh as Hh. cbn [length seq map prodl path nth prev]. f_equal. rewrite (IH s h k Hs Hh). f_equal.
  rewrite <- seq_shift, map_map. apply map_ext. intros [|n]; reflexivity.
Qed.

Lemma last_bond l : forall i0 h, l <> [] -> chain i0 l 1 -> incfg (map (@dr R) l) h -> nth (length l - 1) h 0%nat = 0%nat.
Proof.
  induction l as [|A l IH]; intros i0 h Hn Hc Hh; [easy|]. destruct h as [|k h]; [inversion Hh|]. apply incfg_cons in Hh as [Hk Hh].
  destruct Hc as [_ Hc]. destruct l as [|B l]; [cbn in *; lia|].
  specialize (IH (dr A) h ltac:(easy) Hc Hh). cbn [length] in *. replace (S (S (length l)) - 1)%nat with (S (S (length l) - 1)) by lia. exact IH.
Qed.

Definition turn (A : site R) : tens R := mkT [1%nat; dr A; phys A; dl A]
  (fun idx => ent A (nth 2 idx 0%nat) (nth 3 idx 0%nat) (nth 1 idx 0%nat)).

Lemma chain_nth (l : list (site R)) (dA : site R) : forall i0 j n, chain i0 l j -> (S n < length l)%nat -> dl (nth (S n) l dA) = dr (nth n l dA) :> nat.
Proof.
  induction l as [|A l IH]; intros i0 j n Hc Hn; [cbn in Hn; lia|]. destruct Hc as [_ Hc]. cbn in Hn. destruct n as [|n].
  - destruct l as [|B l]; [cbn in Hn; lia|]. destruct Hc as [Hc _]. exact Hc.
  - cbn [nth]. apply (IH (dr A) j n Hc). lia.
Qed.
Lemma chain_last (l : list (site R)) (dA : site R) : forall i0, l <> [] -> chain i0 l 1 -> dr (nth (length l - 1) l dA) = 1%nat :> nat.
Proof.
  induction l as [|A l IH]; intros i0 Hn Hc; [easy|]. destruct Hc as [_ Hc]. destruct l as [|B l]; [exact Hc|].
  cbn [length]. replace (S (S (length l)) - 1)%nat with (S (S (length l) - 1)) by lia. exact (IH (dr A) ltac:(easy) Hc).
Qed.

Lemma from_mps_ok (m : fmps R) : wf m -> exists o, mpo_from_mps m = Ok o /\ oL o = fL m /\ oX o = fD m /\ od o = fd m /\
  length (odata o) = fL m /\ mpo_ok (odata o) /\ map (leg 0) (odata o) = repeat 1%nat (fL m) /\ map (leg 2) (odata o) = dims (fdata m) /\
  forall ds, incfg (dims (fdata m)) ds -> mop (odata o) (repeat 0%nat (fL m)) ds = psi m ds.
Proof.
  intros (Hc & HL & Hn). eexists. split; [reflexivity|]. cbn [oL oX od odata]. rewrite map_length. split; [reflexivity|]. split; [reflexivity|].
  split; [reflexivity|]. split; [congruence|]. change (map _ (fdata m)) with (map turn (fdata m)). set (l := fdata m) in *.
  assert (dA : site R) by (destruct l as [|A ?]; [easy|exact A]).
  assert (N : forall n, (n < length l)%nat -> nth n (map turn l) (mkT [] (fun _ => 0)) = turn (nth n l dA)).
  { intros n Hlt. rewrite (nth_indep _ _ (turn dA)) by (rewrite map_length; exact Hlt). apply map_nth. }
  assert (Hl0 : (0 < length l)%nat) by (destruct l; [easy|cbn; lia]).
  split; [|split; [|split]].
  - split; [destruct l; easy|]. rewrite map_length. intros n Hlt. cbv zeta. rewrite N by exact Hlt. split; [reflexivity|].
    unfold before. destruct n as [|n]; cbn [Nat.eqb].
    + rewrite N by lia. unfold leg, turn; cbn [tsh nth]. rewrite (chain_last l dA 1) by assumption. destruct l as [|A l']; [easy|]. destruct Hc as [Hc _]. exact Hc.
    + replace (S n - 1)%nat with n by lia. rewrite N by lia. unfold leg, turn; cbn [tsh nth]. exact (chain_nth l dA 1 1 n Hc Hlt).
  - rewrite HL. clear. induction l as [|A l IH]; [reflexivity|]. cbn [map length repeat]. f_equal. exact IH.
  - unfold dims. rewrite map_map. reflexivity.
  - intros ds Hd. assert (Ld := incfg_length _ _ Hd). unfold dims in Ld. rewrite map_length in Ld. fold l in Ld.
    unfold mop, psi. fold l. rewrite <- (path_amp l ds 1 0 Hn Hc Ld). rewrite map_map. apply sumcfg_ext. intros h Hh.
    assert (Lh := incfg_length _ _ Hh). rewrite map_length in Lh. rewrite (path_prodl l dA ds h 0 Ld Lh). rewrite map_length. f_equal.
    apply map_ext_in. intros n Hin. apply in_seq in Hin. rewrite N by lia. unfold turn; cbn [te nth]. f_equal.
    unfold before. destruct n as [|n]; cbn [Nat.eqb prev]; [|now replace (S n - 1)%nat with n by lia].
    exact (last_bond l 1 h Hn Hc Hh).
Qed.
End Proof.
