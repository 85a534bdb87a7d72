(** Sums over the bonds of a grid of cells. *)
From Verif Require Import Alg ModelMPS ModelNcon SpecTensor SpecPeps.
Import ListNotations.

Section Cells.
Context {R : sring}.
Local Open Scope sr_scope.
Add Ring Rr : (s_th R).

(** A cell: sizes of the legs right and down, entries by (up, right, down, left). *)
Record cell := mkC { cr : nat; cd : nat; ce : nat -> nat -> nat -> nat -> R }.
Definition tc (c : cell) : cell := mkC (cd c) (cr c) (fun u r d l => ce c l d r u).

(** Sum over the bonds of a row between left index l and right index r. *)
Fixpoint rowS (cs : list cell) (us ds : list nat) (l r : nat) : R :=
  match cs, us, ds with
  | [], [], [] => dlt l r
  | c :: cs, u :: us, d :: ds => sum (cr c) (fun k => ce c u k d l * rowS cs us ds k r)
  | _, _, _ => 0
  end.

Fixpoint dltl (us ds : list nat) : R :=
  match us, ds with
  | [], [] => 1
  | u :: us, d :: ds => dlt u d * dltl us ds
  | _, _ => 0
  end.

(** Sum over the bonds of a grid with given indices at its four sides. *)
Fixpoint gridS (rows : list (list cell)) (us ds ls rs : list nat) : R :=
  match rows, ls, rs with
  | [], [], [] => dltl us ds
  | row :: rows, l :: ls, r :: rs => sumcfg (map cd row) (fun w => rowS row us w l r * gridS rows w ds ls rs)
  | _, _, _ => 0
  end.

(** Columns of a grid of W columns. *)
Definition addcol {A} (row : list A) (cols : list (list A)) : list (list A) :=
  map (fun xr => fst xr :: snd xr) (combine row cols).
Fixpoint trW {A} (W : nat) (rows : list (list A)) : list (list A) :=
  match rows with
  | [] => repeat [] W
  | row :: rows => addcol row (trW W rows)
  end.

Lemma addcol_length {A} (row : list A) cols : length (addcol row cols) = Nat.min (length row) (length cols).
Proof. unfold addcol. now rewrite map_length, combine_length. Qed.

Lemma trW_length {A} W (rows : list (list A)) : Forall (fun r => length r = W) rows -> length (trW W rows) = W.
Proof.
  induction 1 as [|r rows Hr _ IH]; cbn [trW]; [apply repeat_length|].
  rewrite addcol_length. lia.
Qed.

Lemma sumcfg_mul_lr ds es (f g : list nat -> R) :
  sumcfg ds f * sumcfg es g = sumcfg ds (fun x => sumcfg es (fun y => f x * g y)).
Proof.
  rewrite <- sumcfg_mul_r. apply sumcfg_ext. intros x _. now rewrite <- sumcfg_mul_l.
Qed.

Lemma gridS_col row : forall cols us ds l r ls rs, length cols = length row -> length us = length row -> length ds = length row ->
  sumcfg (map cd row) (fun w => rowS row us w l r * gridS cols ls rs w ds)
  = gridS (addcol (map tc row) cols) (l :: ls) (r :: rs) us ds.
Proof.
  induction row as [|c row IH]; intros cols us ds l r ls rs Hc Hu Hd.
  - destruct cols; [|discriminate]. destruct us; [|discriminate]. destruct ds; [|discriminate].
    cbn. reflexivity.
  - destruct cols as [|col cols]; [discriminate|]. destruct us as [|u us]; [discriminate|].
    destruct ds as [|d ds]; [discriminate|]. cbn in Hc, Hu, Hd.
    unfold addcol. cbn [map combine fst snd]. fold (addcol (map tc row) cols).
    cbn [gridS map sumcfg rowS tc cd cr ce].
    transitivity (sum (cr c) (fun k => sumcfg (map cd col) (fun ks => sum (cd c) (fun w0 =>
        ce c u k w0 l * rowS col ls ks w0 d *
        sumcfg (map cd row) (fun w => rowS row us w k r * gridS cols ks rs w ds))))).
    + transitivity (sum (cd c) (fun w0 => sum (cr c) (fun k => sumcfg (map cd col) (fun ks =>
        ce c u k w0 l * rowS col ls ks w0 d *
        sumcfg (map cd row) (fun w => rowS row us w k r * gridS cols ks rs w ds))))).
      * apply sum_ext. intros w0 Hw0.
        transitivity (sumcfg (map cd row) (fun w => sum (cr c) (fun k => sumcfg (map cd col) (fun ks =>
           ce c u k w0 l * rowS col ls ks w0 d * (rowS row us w k r * gridS cols ks rs w ds))))).
        -- apply sumcfg_ext. intros w _. rewrite <- sum_mul_r. apply sum_ext. intros k _.
           rewrite <- sumcfg_mul_l. apply sumcfg_ext. intros ks _. ring.
        -- rewrite sumcfg_sum. apply sum_ext. intros k _. rewrite sumcfg_swap.
           apply sumcfg_ext. intros ks _. now rewrite sumcfg_mul_l.
      * rewrite sum_swap. apply sum_ext. intros k _. now rewrite sumcfg_sum.
    + apply sum_ext. intros k _. apply sumcfg_ext. intros ks _.
      rewrite <- (IH cols us ds k r ks rs) by lia. now rewrite sum_mul_r.
Qed.

Lemma gridS_empty W : forall us ds, length us = W -> length ds = W -> gridS (repeat [] W) [] [] us ds = dltl us ds.
Proof.
  induction W as [|W IH]; intros [|u us] [|d ds] Hu Hd; try discriminate; [reflexivity|].
  cbn [repeat gridS map sumcfg rowS dltl]. now rewrite IH by (cbn in *; lia).
Qed.

(** Rows and columns can be exchanged. *)
Lemma gridS_tr W rows : forall us ds ls rs, Forall (fun r => length r = W) rows ->
  length us = W -> length ds = W -> length ls = length rows -> length rs = length rows ->
  gridS rows us ds ls rs = gridS (trW W (map (map tc) rows)) ls rs us ds.
Proof.
  induction rows as [|row rows IH]; intros us ds ls rs HF Hu Hd Hl Hr.
  - destruct ls; [|discriminate]. destruct rs; [|discriminate]. cbn [gridS map trW]. now rewrite gridS_empty.
  - destruct ls as [|l ls]; [discriminate|]. destruct rs as [|r rs]; [discriminate|]. inversion HF; subst.
    cbn [gridS map trW]. rewrite <- gridS_col; try congruence.
    + apply sumcfg_ext. intros w Hw. f_equal. apply IH; auto.
      now rewrite (incfg_length _ _ Hw), map_length.
    + rewrite trW_length; [now rewrite H1|]. apply Forall_forall. intros x Hx. apply in_map_iff in Hx. destruct Hx as [y [<- Hy]].
      rewrite map_length. rewrite Forall_forall in H2. auto.
Qed.

(** Rows put together. *)
Fixpoint lastR (x : nat) (cs : list cell) : nat := match cs with [] => x | c :: cs => lastR (cr c) cs end.
Fixpoint lastD (x : list nat) (rows : list (list cell)) : list nat := match rows with [] => x | row :: rows => lastD (map cd row) rows end.

Lemma rowS_app a : forall b us vs ds es x l r, length us = length a -> length ds = length a -> (l < x)%nat ->
  rowS (a ++ b) (us ++ vs) (ds ++ es) l r = sum (lastR x a) (fun k => rowS a us ds l k * rowS b vs es k r).
Proof.
  induction a as [|c a IH]; intros b us vs ds es x l r Hu Hd Hl.
  - destruct us; [|discriminate]. destruct ds; [|discriminate]. cbn [app lastR rowS].
    now rewrite sum_dlt_l by assumption.
  - destruct us as [|u us]; [discriminate|]. destruct ds as [|d ds]; [discriminate|]. cbn [app lastR rowS].
    transitivity (sum (cr c) (fun k0 => sum (lastR (cr c) a) (fun k => ce c u k0 d l * rowS a us ds k0 k * rowS b vs es k r))).
    + apply sum_ext. intros k0 Hk0. rewrite (IH b us vs ds es (cr c) k0 r) by (cbn in *; lia).
      rewrite <- sum_mul_l. apply sum_ext. intros k _. ring.
    + rewrite sum_swap. apply sum_ext. intros k _. now rewrite sum_mul_r.
Qed.

Lemma dltl_sum ds : forall us (f : list nat -> R), incfg ds us -> sumcfg ds (fun w => dltl us w * f w) = f us.
Proof.
  induction ds as [|d ds IH]; intros us f H; destruct us as [|u us]; try (now inversion H).
  - cbn [sumcfg dltl]. ring.
  - apply incfg_cons in H. destruct H as [Hu H]. cbn [sumcfg dltl].
    transitivity (sum d (fun x => dlt u x * f (x :: us))).
    + apply sum_ext. intros x _. rewrite <- (IH us (fun w => f (x :: w)) H). rewrite <- sumcfg_mul_l.
      apply sumcfg_ext. intros w _. ring.
    + now rewrite sum_dlt_l.
Qed.

Lemma gridS_app a : forall b us ds ls ls' rs rs' x, length ls = length a -> length rs = length a -> incfg x us ->
  gridS (a ++ b) us ds (ls ++ ls') (rs ++ rs') = sumcfg (lastD x a) (fun w => gridS a us w ls rs * gridS b w ds ls' rs').
Proof.
  induction a as [|row a IH]; intros b us ds ls ls' rs rs' x Hl Hr Hx.
  - destruct ls; [|discriminate]. destruct rs; [|discriminate]. cbn [app lastD gridS].
    now rewrite (dltl_sum x us (fun w => gridS b w ds ls' rs')) by assumption.
  - destruct ls as [|l ls]; [discriminate|]. destruct rs as [|r rs]; [discriminate|]. cbn [app lastD gridS].
    transitivity (sumcfg (map cd row) (fun v => sumcfg (lastD (map cd row) a) (fun w => rowS row us v l r * gridS a v w ls rs * gridS b w ds ls' rs'))).
    + apply sumcfg_ext. intros v Hv. rewrite (IH b v ds ls ls' rs rs' (map cd row)) by (cbn in *; auto; lia).
      rewrite <- sumcfg_mul_l. apply sumcfg_ext. intros w _. ring.
    + rewrite sumcfg_swap. apply sumcfg_ext. intros w _. now rewrite sumcfg_mul_r.
Qed.
End Cells.
Arguments cell : clear implicits.
