(** Proofs about grouping legs. *)
From Verif Require Import Alg ModelMPS SpecMPS ModelNcon SpecNcon ModelEk ModelTensor SpecTensor ProofNcon ProofEk4 ProofTensor ProofTrace ModelNp SpecNp.
From Coq Require Import Permutation.
Local Notation prod_ := (fold_right Nat.mul 1).

Lemma index_of_nth perm : NoDup perm -> forall k, k < length perm -> index_of Nat.eqb (nth k perm 0) perm = Some k.
Proof.
  intros Hn k Hk. destruct (index_of Nat.eqb (nth k perm 0) perm) as [q|] eqn:E.
  - assert (Hq := index_of_lt _ _ _ E). apply index_of_nat in E. f_equal. apply (proj1 (NoDup_nth perm 0) Hn); try assumption. now apply nth_error_nth.
  - exfalso. revert E. apply index_of_in. now apply nth_In.
Qed.

Lemma perm_nth perm n : Permutation perm (seq 0 n) -> NoDup perm /\ length perm = n /\ forall a, a < n <-> In a perm.
Proof.
  intros H. split; [|split].
  - apply (Permutation_NoDup (Permutation_sym H)). apply seq_NoDup.
  - rewrite (Permutation_length H). apply seq_length.
  - intros a. split; intros Ha.
    + apply (Permutation_in _ (Permutation_sym H)). apply in_seq. lia.
    + apply (Permutation_in _ H) in Ha. apply in_seq in Ha. lia.
Qed.

Lemma nth_map_ {A} (f : nat -> A) l k d : k < length l -> nth k (map f l) d = f (nth k l 0).
Proof. intros H. rewrite (nth_indep _ d (f 0)) by (rewrite map_length; exact H). apply map_nth. Qed.

(** Permuting an index there and back. *)
Lemma lookup_back perm n idx : Permutation perm (seq 0 n) -> length idx = n ->
  map (fun a => match index_of Nat.eqb a perm with Some k => nth k (map (fun p => nth p idx 0) perm) 0 | None => 0 end) (seq 0 n) = idx.
Proof.
  intros Hp Hl. destruct (perm_nth _ _ Hp) as (Hnd & Hlen & Hin). apply (nth_ext _ _ 0 0); [rewrite map_length, seq_length; congruence|].
  intros a Ha. rewrite map_length, seq_length in Ha.
  rewrite nth_map_ by (rewrite seq_length; exact Ha). rewrite seq_nth by exact Ha. cbn [Nat.add]. destruct (index_of Nat.eqb a perm) as [k|] eqn:E.
  - assert (Hk := index_of_lt _ _ _ E). apply index_of_nat in E.
    rewrite nth_map_ by exact Hk. now rewrite (nth_error_nth _ _ 0 E).
  - exfalso. apply (index_of_in a perm); [now apply Hin|exact E].
Qed.

Lemma forallb_perm perm n : Permutation perm (seq 0 n) -> forallb (fun a => nmem a perm) (seq 0 n) = true.
Proof.
  intros Hp. apply forallb_forall. intros a Ha. unfold nmem. apply existsb_exists. exists a. split; [|apply Nat.eqb_refl].
  apply (Permutation_in _ (Permutation_sym Hp) Ha).
Qed.

Lemma perm_of_check perm n : length perm = n -> forallb (fun a => nmem a perm) (seq 0 n) = true -> Permutation perm (seq 0 n).
Proof.
  intros Hl Hf. apply Permutation_sym. apply NoDup_Permutation_bis.
  - apply seq_NoDup.
  - rewrite seq_length. lia.
  - intros a Ha. rewrite forallb_forall in Hf. specialize (Hf a Ha). unfold nmem in Hf. apply existsb_exists in Hf as (b & Hb & E). apply Nat.eqb_eq in E. now subst.
Qed.

(** Groups of an index list. *)
Fixpoint chunks (ns : list nat) (l : list nat) : list (list nat) :=
  match ns with [] => [] | n :: ns => firstn n l :: chunks ns (skipn n l) end.
Lemma group_shapes_chunks sh legs : group_shapes sh legs = chunks (map (@length nat) legs) sh.
Proof. revert sh. induction legs as [|l legs IH]; intros sh; cbn; [reflexivity|]. now rewrite IH. Qed.
Lemma chunks_map (f : nat -> nat) (legs : list (list nat)) : chunks (map (@length nat) legs) (map f (concat legs)) = map (map f) legs.
Proof.
  induction legs as [|l legs IH]; cbn; [reflexivity|]. rewrite map_app, firstn_app, map_length, Nat.sub_diag. cbn [firstn]. rewrite app_nil_r.
  rewrite <- (map_length f l) at 1. rewrite firstn_all. f_equal. rewrite skipn_app, map_length, Nat.sub_diag. cbn [skipn].
  rewrite <- (map_length f l) at 1. rewrite skipn_all. exact IH.
Qed.

(** Row-major positions group by group. *)
Lemma ravel_groups gs : forall ss, Forall2 incfg gs ss ->
  ravel (map prod_ gs) (map (fun gs => ravel (fst gs) (snd gs)) (combine gs ss)) = ravel (concat gs) (concat ss) /\
  incfg (map prod_ gs) (map (fun gs => ravel (fst gs) (snd gs)) (combine gs ss)) /\ prod_ (map prod_ gs) = prod_ (concat gs).
Proof.
  induction gs as [|g gs IH]; intros ss H; inversion H as [|? s ? ss' Hg Hs]; subst; [cbn; split; [reflexivity|split; [constructor|reflexivity]]|].
  destruct (IH _ Hs) as (H1 & H2 & H3). cbn [map combine fst snd concat]. rewrite ravel_app by (apply (incfg_length _ _ Hg)). cbn [ravel]. rewrite H1, H3, prod_app. cbn [fold_right]. rewrite H3.
  split; [reflexivity|]. split; [|reflexivity]. constructor; [apply unravel_ravel; exact Hg|exact H2].
Qed.

Section Proof.
Context {R : sring}.

Lemma transpose_ok perm (T : tens R) : Permutation perm (seq 0 (length (tsh T))) ->
  exists T', transpose_ perm T = Ok T' /\ tsh T' = map (fun a => nth a (tsh T) 0) perm /\
    forall idx, length idx = length (tsh T) -> te T' (map (fun p => nth p idx 0) perm) = te T idx.
Proof.
  intros Hp. unfold transpose_. destruct (perm_nth _ _ Hp) as (_ & -> & _). rewrite Nat.eqb_refl, forallb_perm by exact Hp. cbn [andb]. eexists. split; [reflexivity|]. split; [reflexivity|].
  intros idx Hl. cbn [te]. now rewrite lookup_back.
Qed.
Lemma transpose_err perm (T : tens R) : ~ Permutation perm (seq 0 (length (tsh T))) -> transpose_ perm T = Err ValueError.
Proof.
  intros Hp. unfold transpose_. destruct (Nat.eqb_spec (length perm) (length (tsh T))) as [Hl|]; [|reflexivity]. cbn [andb].
  destruct (forallb _ _) eqn:E; [|reflexivity]. exfalso. apply Hp. now apply perm_of_check.
Qed.

Lemma incfg_perm perm (sh idx : list nat) : incfg sh idx -> (forall a, In a perm -> a < length sh) -> incfg (map (fun a => nth a sh 0) perm) (map (fun a => nth a idx 0) perm).
Proof.
  intros H Hp. induction perm as [|p perm IH]; [constructor|]. cbn. constructor; [|apply IH; intros; apply Hp; now right].
  assert (Hb : p < length sh) by (apply Hp; now left). clear -H Hb. revert p Hb. induction H as [|x d s sh Hx Hs IH]; intros p Hb; cbn in *; [lia|]. destruct p; [exact Hx|]. apply IH. lia.
Qed.

Lemma forall_groups legs (sh idx : list nat) : incfg sh idx -> (forall a, In a (concat legs) -> a < length sh) -> Forall2 incfg (map (sizes sh) legs) (map (sizes idx) legs).
Proof.
  intros H Hp. induction legs as [|l legs IH]; [constructor|]. cbn. constructor.
  - apply incfg_perm; [exact H|]. intros a Ha. apply Hp. cbn. apply in_or_app. now left.
  - apply IH. intros a Ha. apply Hp. cbn. apply in_or_app. now right.
Qed.

Lemma group_ok (T : tens R) legs : partition_of (length (tsh T)) legs -> ~ In [] legs ->
  exists T', group_legs T legs = Ok (T', (concat legs, map (sizes (tsh T)) legs)) /\ tsh T' = map (fun l => prod_ (sizes (tsh T) l)) legs /\
    (forall idx, incfg (tsh T) idx -> te T' (map (group_index (tsh T) idx) legs) = te T idx).
Proof.
  intros Hp Hne. destruct (transpose_ok (concat legs) T Hp) as (T1 & E1 & S1 & V1). unfold group_legs. rewrite E1. cbn [bind].
  rewrite group_shapes_chunks, S1, chunks_map. fold (sizes (tsh T)). change (map (map (fun a => nth a (tsh T) 0)) legs) with (map (sizes (tsh T)) legs).
  assert (Hex : existsb (fun g => Nat.eqb (length g) 0) (map (sizes (tsh T)) legs) = false).
  { apply Bool.not_true_is_false. intros E. apply existsb_exists in E as (g & Hg & E). apply in_map_iff in Hg as (l & <- & Hl). unfold sizes in E. rewrite map_length in E. apply Nat.eqb_eq in E.
    destruct l; [contradiction|discriminate]. }
  rewrite Hex. assert (Hin : forall a, In a (concat legs) -> a < length (tsh T)) by (intros a Ha; destruct (perm_nth _ _ Hp) as (_ & _ & H); now apply H).
  assert (Hpc : prod_ (map prod_ (map (sizes (tsh T)) legs)) = prod_ (map (fun a => nth a (tsh T) 0) (concat legs))).
  { rewrite <- (concat_map (fun a => nth a (tsh T) 0)) || idtac. clear. induction legs as [|l legs IH]; cbn; [reflexivity|]. rewrite map_app, prod_app. unfold sizes at 1. cbn. rewrite IH. reflexivity. }
  unfold reshape_. rewrite S1, Hpc, Nat.eqb_refl. cbn [bind]. eexists. split; [reflexivity|]. split; [cbn [tsh]; now rewrite map_map|].
  intros idx Hidx. cbn [te]. rewrite <- (V1 idx) by (apply (incfg_length _ _ Hidx)). f_equal.
  assert (HF := forall_groups legs _ _ Hidx Hin). destruct (ravel_groups _ _ HF) as (G1 & _ & _).
  assert (Em : map (group_index (tsh T) idx) legs = map (fun gs => ravel (fst gs) (snd gs)) (combine (map (sizes (tsh T)) legs) (map (sizes idx) legs))).
  { clear. induction legs as [|l legs IH]; cbn; [reflexivity|]. rewrite IH. f_equal. unfold group_index. apply position_ravel. unfold sizes. now rewrite !map_length. }
  rewrite Em, G1. assert (Ec : forall x, concat (map (sizes x) legs) = map (fun a => nth a x 0) (concat legs)).
  { clear. intros x. induction legs as [|l legs IH]; cbn; [reflexivity|]. rewrite map_app, IH. reflexivity. }
  rewrite !Ec. apply unravel_ravel. apply incfg_perm; assumption.
Qed.

Lemma group_empty (T : tens R) legs : partition_of (length (tsh T)) legs -> In [] legs -> group_legs T legs = Err TypeError.
Proof.
  intros Hp Hne. destruct (transpose_ok (concat legs) T Hp) as (T1 & E1 & S1 & V1). unfold group_legs. rewrite E1. cbn [bind]. rewrite group_shapes_chunks, S1, chunks_map.
  assert (Hex : existsb (fun g => Nat.eqb (length g) 0) (map (map (fun a => nth a (tsh T) 0)) legs) = true).
  { apply existsb_exists. exists []. split; [|reflexivity]. apply in_map_iff. exists []. now split. }
  now rewrite Hex.
Qed.
Lemma group_bad (T : tens R) legs : ~ partition_of (length (tsh T)) legs -> group_legs T legs = Err ValueError.
Proof. intros Hp. unfold group_legs. now rewrite transpose_err. Qed.

(** inverse_transpose *)
Lemma setitem_ok {A} (l : list A) i x : i < length l -> exists l', setitem l i x = Ok l' /\ length l' = length l /\
  (forall d, nth i l' d = x) /\ (forall j d, j <> i -> nth j l' d = nth j l d).
Proof.
  revert i. induction l as [|y l IH]; intros i Hi; cbn in Hi; [lia|]. destruct i as [|i]; cbn [setitem].
  - exists (x :: l). split; [reflexivity|]. split; [reflexivity|]. split; [reflexivity|]. intros j d Hj. destruct j; [lia|reflexivity].
  - destruct (IH i ltac:(lia)) as (l' & E & L & H1 & H2). rewrite E. cbn [bind]. exists (y :: l'). split; [reflexivity|]. split; [cbn; lia|]. split; [exact H1|].
    intros j d Hj. destruct j; [reflexivity|]. cbn. apply H2. lia.
Qed.

Lemma inv_loop_ok perm : forall i inv, NoDup perm -> (forall p, In p perm -> p < length inv) ->
  exists inv', inv_loop i perm inv = Ok inv' /\ length inv' = length inv /\
    (forall k, k < length perm -> nth (nth k perm 0) inv' 0 = i + k) /\ (forall p, ~ In p perm -> nth p inv' 0 = nth p inv 0).
Proof.
  induction perm as [|p perm IH]; intros i inv Hnd Hin; cbn [inv_loop].
  - exists inv. split; [reflexivity|]. split; [reflexivity|]. split; [cbn; lia|reflexivity].
  - inversion Hnd as [|? ? Hp Hnd']; subst. destruct (setitem_ok inv p i) as (inv1 & E1 & L1 & A1 & B1); [apply Hin; now left|]. rewrite E1. cbn [bind].
    destruct (IH (S i) inv1 Hnd') as (inv2 & E2 & L2 & A2 & B2); [intros q Hq; rewrite L1; apply Hin; now right|].
    exists inv2. split; [exact E2|]. split; [congruence|]. split.
    + intros k Hk. destruct k as [|k]; cbn [nth].
      * rewrite B2 by exact Hp. rewrite A1. lia.
      * rewrite A2 by (cbn in Hk; lia). lia.
    + intros q Hq. rewrite B2 by (intros K; apply Hq; now right). apply B1. intros ->. apply Hq. now left.
Qed.

Lemma inverse_ok perm n : Permutation perm (seq 0 n) -> exists inv, inverse_transpose perm = Ok inv /\ Permutation inv (seq 0 n) /\
  (forall k, k < n -> nth (nth k perm 0) inv 0 = k) /\ (forall k, k < n -> nth (nth k inv 0) perm 0 = k).
Proof.
  intros Hp. destruct (perm_nth _ _ Hp) as (Hnd & Hlen & Hin). unfold inverse_transpose.
  destruct (inv_loop_ok perm 0 (repeat 0 (length perm)) Hnd) as (inv & E & L & A & B); [intros p H; rewrite repeat_length, Hlen; now apply Hin|].
  rewrite repeat_length, Hlen in L. rewrite Hlen in A. exists inv. split; [exact E|].
  assert (H1 : forall k, k < n -> nth (nth k perm 0) inv 0 = k) by (intros k Hk; now apply A).
  assert (H2 : forall a, a < n -> exists k, k < n /\ nth k perm 0 = a).
  { intros a Ha. apply Hin in Ha. apply (In_nth _ _ 0) in Ha as (k & Hk & E'). exists k. split; [lia|exact E']. }
  split; [|split; [exact H1|]].
  - apply Permutation_sym, NoDup_Permutation_bis; [apply seq_NoDup|rewrite seq_length; lia|]. intros k Hk. apply in_seq in Hk. rewrite <- (H1 k) by lia. apply nth_In. rewrite L.
    apply Hin. apply nth_In. lia.
  - intros a Ha. destruct (H2 a Ha) as (k & Hk & <-). now rewrite H1.
Qed.

Lemma ungroup_ok (T T' : tens R) legs pipe : group_legs T legs = Ok (T', pipe) -> partition_of (length (tsh T)) legs -> ~ In [] legs ->
  exists T'', ungroup_legs T' pipe = Ok T'' /\ tens_eq T'' T.
Proof.
  intros E Hp Hne. destruct (group_ok T legs Hp Hne) as (T0 & E0 & S0 & V0). rewrite E in E0. injection E0 as <- ->. clear E.
  unfold ungroup_legs. rewrite S0, !map_length, Nat.eqb_refl. cbn [negb].
  assert (Hin : forall a, In a (concat legs) -> a < length (tsh T)) by (intros a Ha; destruct (perm_nth _ _ Hp) as (_ & _ & H); now apply H).
  assert (Esh : concat (map (fun gd => if Nat.eqb (length (fst gd)) 1 then [snd gd] else fst gd) (combine (map (sizes (tsh T)) legs) (map (fun l => prod_ (sizes (tsh T) l)) legs)))
    = map (fun a => nth a (tsh T) 0) (concat legs)).
  { clear. induction legs as [|l legs IH]; cbn; [reflexivity|]. rewrite IH, map_app. f_equal. unfold sizes at 1. rewrite map_length. destruct (Nat.eqb_spec (length l) 1) as [El|]; [|reflexivity].
    destruct l as [|x [|y l]]; try discriminate. cbn. now rewrite Nat.mul_1_r. }
  rewrite Esh. set (sh' := map (fun a => nth a (tsh T) 0) (concat legs)).
  assert (Hpc : prod_ (tsh T') = prod_ sh').
  { rewrite S0. unfold sh'. clear. induction legs as [|l legs IH]; cbn; [reflexivity|]. rewrite map_app, prod_app. unfold sizes at 1. cbn. rewrite IH. reflexivity. }
  unfold reshape_. rewrite Hpc, Nat.eqb_refl. cbn [bind]. destruct (inverse_ok _ _ Hp) as (inv & Ei & Pi & I1 & I2). rewrite Ei. cbn [bind].
  set (T1 := mkT sh' _). destruct (perm_nth _ _ Hp) as (Hnd & Hlen & _). assert (Lsh : length (tsh T1) = length (tsh T)) by (cbn; unfold sh'; rewrite map_length; exact Hlen).
  destruct (transpose_ok inv T1) as (T2 & E2 & S2 & V2); [rewrite Lsh; exact Pi|]. rewrite E2. exists T2. split; [reflexivity|].
  destruct (perm_nth _ _ Pi) as (_ & Hli & _).
  assert (Esh2 : tsh T2 = tsh T).
  { rewrite S2. apply (nth_ext _ _ 0 0); [rewrite map_length; exact Hli|]. intros k Hk. rewrite map_length in Hk.
    rewrite nth_map_ by exact Hk. cbn [T1 tsh]. unfold sh'.
    assert (Hk' : nth k inv 0 < length (concat legs)) by (rewrite Hlen; destruct (perm_nth _ _ Pi) as (_ & _ & H); apply H; now apply nth_In).
    rewrite nth_map_ by exact Hk'. f_equal. apply I2. lia. }
  split; [exact Esh2|]. rewrite Esh2. intros idx Hidx. assert (Li := incfg_length _ _ Hidx).
  set (j := map (fun p => nth p idx 0) (concat legs)).
  assert (Ej : map (fun p => nth p j 0) inv = idx).
  { apply (nth_ext _ _ 0 0); [rewrite map_length; congruence|]. intros k Hk. rewrite map_length in Hk. rewrite nth_map_ by exact Hk. unfold j.
    assert (Hk' : nth k inv 0 < length (concat legs)) by (rewrite Hlen; destruct (perm_nth _ _ Pi) as (_ & _ & H); apply H; now apply nth_In).
    rewrite nth_map_ by exact Hk'. f_equal. apply I2. lia. }
  rewrite <- Ej at 1. rewrite V2 by (rewrite Lsh; unfold j; rewrite map_length; exact Hlen). cbn [T1 te]. rewrite <- (V0 idx Hidx). f_equal.
  assert (HF := forall_groups legs _ _ Hidx Hin). destruct (ravel_groups _ _ HF) as (G1 & G2 & _).
  assert (Em : map (group_index (tsh T) idx) legs = map (fun gs => ravel (fst gs) (snd gs)) (combine (map (sizes (tsh T)) legs) (map (sizes idx) legs))).
  { clear. induction legs as [|l legs IH]; cbn; [reflexivity|]. rewrite IH. f_equal. unfold group_index. apply position_ravel. unfold sizes. now rewrite !map_length. }
  assert (Ec : forall x, map (fun a => nth a x 0) (concat legs) = concat (map (sizes x) legs)).
  { clear. intros x. induction legs as [|l legs IH]; cbn; [reflexivity|]. rewrite map_app, IH. reflexivity. }
  unfold j, sh'. rewrite !Ec, <- G1, Em, S0. rewrite <- (map_map (sizes (tsh T)) prod_ legs). apply unravel_ravel. exact G2.
Qed.
End Proof.
