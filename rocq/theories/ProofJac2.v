(** The networks of F2. *)
From Verif Require Import Alg ModelMPS SpecMPS ProofMPS ModelOrth SpecOrth ProofOrth ProofOrth2 ModelNcon SpecNcon ProofNcon ProofNcon3 ProofNcon4
  ModelEk SpecEk ProofEk4 ModelNp ModelEnergy SpecEnergy ProofEnergy ModelTan SpecTan ProofTan ModelTdvp SpecTdvp ProofTdvp ProofTdvp2 ProofTdvp3 ProofTdvp4 ModelJac SpecJac ProofJac.
From Coq Require Import Permutation Sorted.

Section Nets.
Context {R : sring}.
Local Open Scope sr_scope.
Add Ring Rr : (s_th R).
Variable S : setio.
Hypothesis HS : setio_ok S.

Ltac do_net ld AA v order forder N EN SN VN :=
  destruct (ncon_default_ok S ld AA v order forder false HS) as (N & EN & SN & VN);
  [fast_net | repeat constructor |].
Ltac net_entry := unfold tprod; cbv [assign eupd Z.eqb Pos.eqb]; cbn [combine map fst snd prodl fold_right te tens_site tens_mat ent nth]; ring.

Lemma jnet_two (X : tens R) (V Y : site R) d a b : tsh X = [d; d; a; b] -> phys V = d -> dl V = a -> phys Y = d ->
  exists T, ncon S [X; tens_site V; tens_site Y] [[1; 2; 3; -4]; [1; 3; -1]; [2; -2; -3]]%Z None None false = Ok T /\ tsh T = [dr V; dl Y; dr Y; b] /\
    forall x1 y1 x2 y2, te T [x1; y1; x2; y2] = sum d (fun s => sum d (fun t => sum a (fun x => te X [s; t; x; y2] * ent V s x x1 * ent Y t y1 x2))).
Proof.
  intros SX PV LV PY.
  do_net (fun z => match z with 1%Z | 2%Z => d | 3%Z => a | (-4)%Z => b | (-1)%Z => dr V | (-2)%Z => dl Y | _ => dr Y end)
    [X; tens_site V; tens_site Y] [[1; 2; 3; -4]; [1; 3; -1]; [2; -2; -3]]%Z [1; 2; 3]%Z [-1; -2; -3; -4]%Z T ET ST VT.
  exists T. split; [exact ET|]. split; [exact ST|]. intros x1 y1 x2 y2. rewrite (VT [x1; y1; x2; y2] eq_refl). cbn [esum].
  apply sum_ext; intros s _. apply sum_ext; intros t _. apply sum_ext; intros x _. net_entry.
Qed.

Lemma jnet_here (X : tens R) (V Y : site R) d a b : tsh X = [d; d; a; b] -> phys V = d -> dl V = a -> phys Y = d ->
  exists T, ncon S [X; tens_site V; tens_site Y] [[3; 4; 1; -3]; [3; 1; -1]; [4; -2; -4]]%Z None None false = Ok T /\ tsh T = [dr V; dl Y; b; dr Y] /\
    forall x1 y1 z w, te T [x1; y1; z; w] = sum a (fun x => sum d (fun s => sum d (fun t => te X [s; t; x; z] * ent V s x x1 * ent Y t y1 w))).
Proof.
  intros SX PV LV PY.
  do_net (fun z => match z with 3%Z | 4%Z => d | 1%Z => a | (-3)%Z => b | (-1)%Z => dr V | (-2)%Z => dl Y | _ => dr Y end)
    [X; tens_site V; tens_site Y] [[3; 4; 1; -3]; [3; 1; -1]; [4; -2; -4]]%Z [1; 3; 4]%Z [-1; -2; -3; -4]%Z T ET ST VT.
  exists T. split; [exact ET|]. split; [exact ST|]. intros x1 y1 z w. rewrite (VT [x1; y1; z; w] eq_refl). cbn [esum].
  apply sum_ext; intros x _. apply sum_ext; intros s _. apply sum_ext; intros t _. net_entry.
Qed.

Lemma jnet_left (X : tens R) (A Y : site R) d a b : tsh X = [d; d; a; b] -> phys A = d -> dl A = a -> phys Y = d -> dl Y = dr A ->
  exists T, ncon S [X; tens_site A; tens_site Y] [[2; 4; 1; -2]; [2; 1; 3]; [4; 3; -1]]%Z None None false = Ok T /\ tsh T = [dr Y; b] /\
    forall x1 z, te T [x1; z] = sum a (fun x => sum d (fun s => sum (dr A) (fun k => sum d (fun t => te X [s; t; x; z] * ent A s x k * ent Y t k x1)))).
Proof.
  intros SX PA LA PY LY.
  do_net (fun z => match z with 2%Z | 4%Z => d | 1%Z => a | 3%Z => dr A | (-2)%Z => b | _ => dr Y end)
    [X; tens_site A; tens_site Y] [[2; 4; 1; -2]; [2; 1; 3]; [4; 3; -1]]%Z [1; 2; 3; 4]%Z [-1; -2]%Z T ET ST VT.
  exists T. split; [exact ET|]. split; [exact ST|]. intros x1 z. rewrite (VT [x1; z] eq_refl). cbn [esum].
  apply sum_ext; intros x _. apply sum_ext; intros s _. apply sum_ext; intros k _. apply sum_ext; intros t _. net_entry.
Qed.

Lemma jnet_e1 (e : mat R) (W : tens R) n p q : mr e = n -> mc e = n -> tsh W = [n; n; p; q] ->
  exists T, ncon S [tens_mat e; W] [[-2; 1]; [-1; 1; -3; -4]]%Z None None false = Ok T /\ tsh T = [n; n; p; q] /\
    forall z y u v, te T [z; y; u; v] = sum n (fun k => me e y k * te W [z; k; u; v]).
Proof.
  intros E1 E2 SW.
  do_net (fun z => match z with (-3)%Z => p | (-4)%Z => q | _ => n end) [tens_mat e; W] [[-2; 1]; [-1; 1; -3; -4]]%Z [1]%Z [-1; -2; -3; -4]%Z T ET ST VT.
  exists T. split; [exact ET|]. split; [exact ST|]. intros z y u v. rewrite (VT [z; y; u; v] eq_refl). cbn [esum]. apply sum_ext; intros k _. net_entry.
Qed.

Lemma jnet_e2 (e : mat R) (U : tens R) n g p q : mr e = n -> mc e = n -> tsh U = [g; n; p; q] ->
  exists T, ncon S [U; tens_mat e] [[-1; 1; -3; -4]; [1; -2]]%Z None None false = Ok T /\ tsh T = [g; n; p; q] /\
    forall x y u v, te T [x; y; u; v] = sum n (fun k => te U [x; k; u; v] * me e k y).
Proof.
  intros E1 E2 SU.
  do_net (fun z => match z with (-1)%Z => g | (-3)%Z => p | (-4)%Z => q | _ => n end) [U; tens_mat e] [[-1; 1; -3; -4]; [1; -2]]%Z [1]%Z [-1; -2; -3; -4]%Z T ET ST VT.
  exists T. split; [exact ET|]. split; [exact ST|]. intros x y u v. rewrite (VT [x; y; u; v] eq_refl). cbn [esum]. apply sum_ext; intros k _. net_entry.
Qed.

Lemma jnet_R (X Y : site R) : phys X = phys Y ->
  exists T, ncon S [tens_site X; tens_site Y] [[1; -2; -3]; [1; -1; -4]]%Z None None false = Ok T /\ tsh T = [dl Y; dl X; dr X; dr Y] /\
    forall x y u v, te T [x; y; u; v] = sum (phys Y) (fun t => ent X t y u * ent Y t x v).
Proof.
  intros PX.
  do_net (fun z => match z with 1%Z => phys Y | (-1)%Z => dl Y | (-2)%Z => dl X | (-3)%Z => dr X | _ => dr Y end) [tens_site X; tens_site Y] [[1; -2; -3]; [1; -1; -4]]%Z [1]%Z [-1; -2; -3; -4]%Z T ET ST VT.
  exists T. split; [exact ET|]. split; [exact ST|]. intros x y u v. rewrite (VT [x; y; u; v] eq_refl). cbn [esum]. apply sum_ext; intros k _. net_entry.
Qed.

(** tensordot *)
Lemma con_23 (T W : tens R) g b n p q : tsh T = [g; b; n; n] -> tsh W = [n; n; p; q] ->
  exists U, con T W [2; 3]%nat [0; 1]%nat = Ok U /\ tsh U = [g; b; p; q] /\
    forall x y u v, te U [x; y; u; v] = sum n (fun k => sum n (fun k' => te T [x; y; k; k'] * te W [k; k'; u; v])).
Proof.
  intros ST SW. unfold con. rewrite ST, SW. cbn -[sum]. rewrite !Nat.eqb_refl. cbn -[sum]. eexists. split; [reflexivity|]. split; [reflexivity|]. intros. reflexivity.
Qed.
Lemma con_1 (T W : tens R) g n p q r : tsh T = [g; n] -> tsh W = [n; p; q; r] ->
  exists U, con T W [1]%nat [0]%nat = Ok U /\ tsh U = [g; p; q; r] /\
    forall x y u v, te U [x; y; u; v] = sum n (fun k => te T [x; k] * te W [k; y; u; v]).
Proof.
  intros ST SW. unfold con. rewrite ST, SW. cbn -[sum]. rewrite !Nat.eqb_refl. cbn -[sum]. eexists. split; [reflexivity|]. split; [reflexivity|]. intros. reflexivity.
Qed.
Lemma con_01 (T W : tens R) n p q : tsh T = [n; n] -> tsh W = [n; n; p; q] ->
  exists U, con T W [0; 1]%nat [0; 1]%nat = Ok U /\ tsh U = [p; q] /\
    forall u v, te U [u; v] = sum n (fun k => sum n (fun k' => te T [k; k'] * te W [k; k'; u; v])).
Proof.
  intros ST SW. unfold con. rewrite ST, SW. cbn -[sum]. rewrite !Nat.eqb_refl. cbn -[sum]. eexists. split; [reflexivity|]. split; [reflexivity|]. intros. reflexivity.
Qed.

(** diagonal matrices *)
Definition is_dmat (M : mat R) (n : nat) (f : nat -> R) : Prop := mr M = n /\ mc M = n /\ forall i j, (i < n)%nat -> (j < n)%nat -> me M i j = dlt i j * f i.
Lemma dmat_l M n f i (g : nat -> R) : is_dmat M n f -> (i < n)%nat -> sum n (fun k => me M i k * g k) = f i * g i.
Proof.
  intros (_ & _ & H) Hi. rewrite (sum_ext n _ (fun k => dlt i k * (f i * g k))) by (intros; rewrite H by assumption; ring). rewrite sum_dlt1 by exact Hi. reflexivity.
Qed.
Lemma dmat_r M n f i (g : nat -> R) : is_dmat M n f -> (i < n)%nat -> sum n (fun k => g k * me M k i) = g i * f i.
Proof.
  intros (_ & _ & H) Hi. rewrite (sum_ext n _ (fun k => dlt i k * (g k * f k))) by (intros k Hk; rewrite H, (dlt_sym k i) by assumption; ring). rewrite sum_dlt1 by exact Hi. reflexivity.
Qed.
Lemma dmat_site M f (A : site R) : is_dmat M (dl A) f -> exists X, mat_site M A = Ok X /\ phys X = phys A /\ dl X = dl A /\ dr X = dr A /\
  forall s i j, (i < dl A)%nat -> ent X s i j = f i * ent A s i j.
Proof.
  intros HM. pose proof HM as (H1 & H2 & _). unfold mat_site. rewrite H2, Nat.eqb_refl. eexists. split; [reflexivity|]. cbn [phys dl dr ent]. repeat (split; [assumption || reflexivity|]).
  intros s i j Hi. apply (dmat_l M (dl A) f i (fun k => ent A s k j) HM Hi).
Qed.
Lemma site_dmat M f (A : site R) : is_dmat M (dr A) f -> exists X, site_mat A M = Ok X /\ phys X = phys A /\ dl X = dl A /\ dr X = dr A /\
  forall s i j, (j < dr A)%nat -> ent X s i j = ent A s i j * f j.
Proof.
  intros HM. pose proof HM as (H1 & H2 & _). unfold site_mat. rewrite H1, Nat.eqb_refl. eexists. split; [reflexivity|]. cbn [phys dl dr ent]. repeat (split; [assumption || reflexivity|]).
  intros s i j Hj. apply (dmat_r M (dr A) f j (fun k => ent A s i k) HM Hj).
Qed.
Lemma dmat_dmat M N n f g : is_dmat M n f -> is_dmat N n g -> exists X, mdot M N = Ok X /\ is_dmat X n (fun i => f i * g i).
Proof.
  intros HM (N1 & N2 & N3). pose proof HM as (H1 & H2 & _). unfold mdot. rewrite H2, N1, Nat.eqb_refl. eexists. split; [reflexivity|]. repeat split; cbn [mr mc me]; try assumption.
  intros i j Hi Hj. rewrite (dmat_l M n f i (fun k => me N k j) HM Hi), N3 by assumption. ring.
Qed.
Lemma dmat_4 M f (C : tens R) d a b : is_dmat M a f -> tsh C = [d; d; a; b] -> exists X, ldot4 M C = Ok X /\ tsh X = [d; d; a; b] /\
  forall s t x y, (x < a)%nat -> te X [s; t; x; y] = f x * te C [s; t; x; y].
Proof.
  intros HM SC. pose proof HM as (H1 & H2 & _). unfold ldot4. rewrite SC, H2, Nat.eqb_refl. eexists. split; [reflexivity|]. cbn [tsh te nth]. split; [congruence|].
  intros s t x y Hx. apply (dmat_l M a f x (fun k => te C [s; t; k; y]) HM Hx).
Qed.
Lemma dmat_4_dmat M f N g (C : tens R) d a b : is_dmat M a f -> is_dmat N b g -> tsh C = [d; d; a; b] -> exists X, dot4 M C N = Ok X /\ tsh X = [d; d; a; b] /\
  forall s t x y, (x < a)%nat -> (y < b)%nat -> te X [s; t; x; y] = f x * te C [s; t; x; y] * g y.
Proof.
  intros HM HN SC. pose proof HM as (H1 & H2 & _). pose proof HN as (N1 & N2 & _). unfold dot4. rewrite SC, H2, N1, !Nat.eqb_refl. cbn [andb]. eexists. split; [reflexivity|]. cbn [tsh te nth]. split; [congruence|].
  intros s t x y Hx Hy. rewrite (sum_ext a _ (fun k => me M x k * (te C [s; t; k; y] * g y))).
  - rewrite (dmat_l M a f x (fun k => te C [s; t; k; y] * g y) HM Hx). ring.
  - intros k _. rewrite (dmat_r N b g y (fun z => me M x k * te C [s; t; k; z]) HN Hy). ring.
Qed.

(** the transfer of an array with two more axes *)
Lemma lt_step4 (A : site R) (L : tens R) p q : tsh L = [dr A; dr A; p; q] ->
  exists W, lt_step A L = Ok W /\ tsh W = [dl A; dl A; p; q] /\
    forall x y u v, te W [x; y; u; v] = xfer [A] (fun x y => te L [x; y; u; v]) x y.
Proof.
  intros SL. unfold lt_step, con. rewrite SL. cbn -[sum]. rewrite !Nat.eqb_refl. cbn -[sum]. rewrite !Nat.eqb_refl. cbn -[sum].
  eexists. split; [reflexivity|]. cbn -[sum]. split; [reflexivity|]. intros x y u v. apply sum_ext; intros t _. apply sum_ext; intros k _. rewrite <- sum_mul_l. reflexivity.
Qed.
Lemma lt_loop4 (P mid : list (site R)) n p q : forall rest a L, chain a mid n -> tsh L = [n; n; p; q] ->
  exists Ls, lt_loop (P ++ mid ++ rest) (rev (seq (length P) (length mid))) L = Ok Ls /\ length Ls = Datatypes.S (length mid) /\
    forall t, (t <= length mid)%nat -> exists W b, nth_error Ls t = Some W /\ chain b (skipn t mid) n /\ tsh W = [b; b; p; q] /\
      forall x y u v, te W [x; y; u; v] = xfer (skipn t mid) (fun x y => te L [x; y; u; v]) x y.
Proof.
  revert n. induction mid as [|B mid IH] using rev_ind; intros n rest a L Hc SL.
  - exists [L]. split; [reflexivity|]. split; [reflexivity|]. intros t Ht. cbn in Ht. assert (t = 0%nat) by lia. subst t. exists L, n. repeat split; auto.
  - apply chain_app_last in Hc as (c & Hc & HB1 & HB2). rewrite app_length. cbn [length]. rewrite Nat.add_1_r, seq_S, rev_app_distr. cbn [rev app lt_loop].
    unfold getitem. rewrite <- app_assoc. cbn [app]. rewrite nth_error_app2 by lia. replace (length P + length mid - length P)%nat with (length mid) by lia. rewrite nth_error_app2, Nat.sub_diag by lia. cbn [nth_error bind].
    rewrite <- HB2 in SL. destruct (lt_step4 B L p q SL) as (W & EW & SW & VW). rewrite EW. cbn [bind].
    rewrite HB1 in SW. destruct (IH c (B :: rest) a W Hc SW) as (Ls & ELs & LLs & HLs). rewrite ELs. cbn [bind]. exists (Ls ++ [L]). split; [reflexivity|]. split; [rewrite app_length; cbn; lia|].
    intros t Ht. destruct (Nat.eq_dec t (Datatypes.S (length mid))) as [->|Hne].
    + exists L, n. split; [rewrite nth_error_app2, LLs, Nat.sub_diag by lia; reflexivity|]. rewrite skipn_all2 by (rewrite app_length; cbn; lia). split; [reflexivity|]. split; [rewrite <- HB2; exact SL|]. intros. reflexivity.
    + destruct (HLs t) as (W' & b & E1 & E2 & E3 & E4); [lia|]. exists W', b. split; [rewrite nth_error_app1 by lia; exact E1|].
      rewrite skipn_app. replace (t - length mid)%nat with 0%nat by lia. cbn [skipn]. split; [apply chain_app; exists c; split; [exact E2|split; [exact HB1|exact HB2]]|]. split; [exact E3|].
      intros x y u v. rewrite E4, xfer_app. assert (EQ : forall m x y, xfer m (fun x y => te W [x; y; u; v]) x y = xfer m (xfer [B] (fun x y => te L [x; y; u; v])) x y).
      { clear - VW. induction m as [|D m IHm]; intros x y; [apply VW|]. cbn [xfer]. apply sum_ext; intros s _. apply sum_ext; intros k _. apply sum_ext; intros k' _. rewrite IHm. reflexivity. }
      apply EQ.
Qed.
End Nets.
