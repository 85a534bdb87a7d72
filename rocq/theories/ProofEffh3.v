(** effH: what its matrix and its linear operator compute. *)
From Verif Require Import Alg ModelMPS SpecMPS ProofMPS ProofMPS2 ModelOrth SpecOrth ProofOrth ModelNcon ModelEk ProofEk4 ModelNp SpecQmb ModelEffh SpecEffh ProofEffh ProofEffh2 ProofTan.
Local Open Scope nat_scope.

Section Proofs.
Context {R : sring}.
Local Open Scope sr_scope.
Add Ring Rr : (s_th R).

Lemma get_envs_ok d (Wp Wq : list (tens R)) W (p q : list (site R)) A k k' :
  chain 1 p (dl A) -> chain (dr A) q 1 -> phys A = d -> Forall (fun A => phys A = d) p -> Forall (fun A => phys A = d) q ->
  length Wp = length p -> length Wq = length q -> mpo_chain d 1 Wp k -> tsh W = [d; d; k; k'] -> mpo_chain d k' Wq 1 ->
  exists e, get_envs (Wp ++ W :: Wq) (p ++ A :: q) (length p) = Ok e /\ e_W e = W /\ e_A e = A /\
    is_left d k (dl A) Wp p (e_L e) /\ is_right d k' (dr A) Wq q (e_R e).
Proof.
  intros Hp Hq Hd Fp Fq Lp Lq HWp HW HWq. unfold get_envs.
  destruct (get_left_env_ok d (Wp ++ W :: Wq) (p ++ A :: q) Wp p (dl A) k (W :: Wq) (A :: q)) as (L & EL & IL); try assumption; try reflexivity.
  destruct (get_right_env_ok d (Wp ++ W :: Wq) (p ++ A :: q) (Wp ++ [W]) (p ++ [A]) Wq q (dr A) k') as (T & ET & IT); try assumption; try reflexivity.
  { now rewrite <- app_assoc. } { now rewrite <- app_assoc. } { rewrite !app_length, Lp. reflexivity. }
  rewrite app_length in ET. cbn [length] in ET. rewrite EL. cbn [bind]. rewrite ET. cbn [bind].
  assert (G1 : getitem (Wp ++ W :: Wq) (length p) = Ok W).
  { unfold getitem. rewrite nth_error_app2 by lia. rewrite Lp, Nat.sub_diag. reflexivity. }
  assert (G2 : getitem (p ++ A :: q) (length p) = Ok A).
  { unfold getitem. rewrite nth_error_app2 by lia. rewrite Nat.sub_diag. reflexivity. }
  rewrite G1. cbn [bind]. rewrite G2. cbn [bind]. eexists. split; [reflexivity|]. repeat split; try reflexivity; try apply IL; apply IT.
Qed.

Section Site.
Variables (d : nat) (Wp Wq : list (tens R)) (W : tens R) (p q : list (site R)) (A : site R) (k k' : nat).
Notation eff_fits := (eff_fits d Wp Wq W p q A k k').
Notation eff_entry := (eff_entry d Wp Wq W p q k k').
Lemma eff_run : eff_fits -> exists e, get_envs (Wp ++ W :: Wq) (p ++ A :: q) (length p) = Ok e /\ eff_shape e d k k' /\ e_A e = A /\
  is_left d k (dl A) Wp p (e_L e) /\ is_right d k' (dr A) Wq q (e_R e) /\
  forall i x y i' x' y', (x < dl A)%nat -> (y < dr A)%nat -> (x' < dl A)%nat -> (y' < dr A)%nat ->
    sum k (fun w => te (e_L e) [w; x; x'] * sum k' (fun w' => te (e_W e) [i; i'; w; w'] * te (e_R e) [w'; y; y'])) = eff_entry i x y i' x' y'.
Proof.
  intros (Hp & Hq & Hd & Fp & Fq & Lp & Lq & HWp & HW & HWq).
  destruct (get_envs_ok d Wp Wq W p q A k k') as (e & Ee & EW & EA & IL & IT); try assumption.
  exists e. split; [exact Ee|]. split; [|split; [exact EA|split; [exact IL|split; [exact IT|]]]].
  - unfold eff_shape. rewrite EA, EW. repeat split; try assumption; [apply IL|apply IT].
  - intros i x y i' x' y' Hx Hy Hx' Hy'. unfold eff_entry. apply sum_ext; intros w Hw. rewrite (proj2 IL) by assumption. f_equal.
    apply sum_ext; intros w' Hw'. rewrite EW, (proj2 IT) by assumption. reflexivity.
Qed.

Lemma eff_matrix_entries : eff_fits -> exists e M, get_envs (Wp ++ W :: Wq) (p ++ A :: q) (length p) = Ok e /\ eff_matrix e = Ok M /\
  tsh M = [(d * (dl A * dr A))%nat; (d * (dl A * dr A))%nat] /\
  forall i x y i' x' y', (i < d)%nat -> (x < dl A)%nat -> (y < dr A)%nat -> (i' < d)%nat -> (x' < dl A)%nat -> (y' < dr A)%nat ->
    te M [flat3 (dl A) (dr A) i x y; flat3 (dl A) (dr A) i' x' y'] = eff_entry i x y i' x' y'.
Proof.
  intros H. destruct (eff_run H) as (e & Ee & Se & EA & _ & _ & V). destruct (eff_matrix_ok e d k k' Se) as (M & EM & SM & VM). rewrite EA in SM, VM.
  exists e, M. split; [exact Ee|]. split; [exact EM|]. split; [rewrite SM; now rewrite Nat.mul_1_r|].
  intros. rewrite VM, V by assumption. reflexivity.
Qed.

(** with a right block symmetric in its two copies the matrix is the effective Hamiltonian *)
Lemma eff_matrix_effective : eff_fits -> (forall w x y, (w < k')%nat -> (x < dr A)%nat -> (y < dr A)%nat -> right_block d Wq q w x y = right_block d Wq q w y x) ->
  exists e M, get_envs (Wp ++ W :: Wq) (p ++ A :: q) (length p) = Ok e /\ eff_matrix e = Ok M /\
  forall B B' : site R, phys B = d -> phys B' = d -> dl B = dl A -> dl B' = dl A -> dr B = dr A -> dr B' = dr A ->
    quad M B B' = mpo_elem d (Wp ++ W :: Wq) (p ++ B :: q) (p ++ B' :: q).
Proof.
  intros H Hs. destruct (eff_matrix_entries H) as (e & M & Ee & EM & _ & VM). exists e, M. split; [exact Ee|]. split; [exact EM|].
  destruct H as (Hp & Hq & Hd & Fp & Fq & Lp & Lq & HWp & HW & HWq).
  intros B B' P P' L1 L1' R1 R1'. rewrite (elem_open d Wp Wq W p q B B' k k') by (congruence || (rewrite ?L1, ?L1', ?R1; assumption)).
  unfold quad. rewrite P, P', L1, L1', R1, R1'. apply sum_ext; intros i Hi.
  transitivity (sum (dl A) (fun x => sum d (fun i' => sum (dr A) (fun y => sum (dl A) (fun x' => sum (dr A) (fun y' =>
    sconj (ent B i x y) * te M [flat3 (dl A) (dr A) i x y; flat3 (dl A) (dr A) i' x' y'] * ent B' i' x' y')))))).
  { apply sum_ext; intros x _. apply sum_swap. }
  rewrite sum_swap. apply sum_ext; intros i' Hi'. apply sum_ext; intros x Hx.
  etransitivity; [apply sum_swap|]. symmetry. etransitivity; [apply sum_swap|]. symmetry.
  apply sum_ext; intros x' Hx'.
  transitivity (sum (dr A) (fun y => sum (dr A) (fun y' => sum k (fun w => sum k' (fun w' =>
     sconj (ent B i x y) * te W [i; i'; w; w'] * ent B' i' x' y' * (left_block d Wp p w x x' * right_block d Wq q w' y y')))))).
  { apply sum_ext; intros y Hy. apply sum_ext; intros y' Hy'. rewrite VM by assumption. unfold eff_entry.
    rewrite <- sum_mul_l, <- sum_mul_r. apply sum_ext; intros w _. rewrite <- sum_mul_l, <- sum_mul_l, <- sum_mul_r. apply sum_ext; intros w' Hw'.
    rewrite (Hs w' y' y) by assumption. ring. }
  etransitivity. { apply sum_ext; intros y _. etransitivity; [apply sum_swap|]. apply sum_ext; intros w _. apply sum_swap. }
  apply sum_swap.
Qed.

(** the linear operator: entry (x, i, r) of its result is row (i, x, r) of the matrix *)
Lemma eff_operator (v : tens R) : eff_fits -> tsh v = [(d * (dl A * dr A))%nat] -> exists e M y, get_envs (Wp ++ W :: Wq) (p ++ A :: q) (length p) = Ok e /\ eff_matrix e = Ok M /\
  eff_apply e v = Ok y /\ tsh y = [(d * (dl A * dr A))%nat] /\
  forall i x r, (i < d)%nat -> (x < dl A)%nat -> (r < dr A)%nat ->
    te y [flat3 d (dr A) x i r] = sum d (fun i' => sum (dl A) (fun x' => sum (dr A) (fun r' =>
       te M [flat3 (dl A) (dr A) i x r; flat3 (dl A) (dr A) i' x' r'] * te v [flat3 (dl A) (dr A) i' x' r']))).
Proof.
  intros H Hv. destruct (eff_run H) as (e & Ee & Se & EA & _ & _ & V). destruct (eff_matrix_ok e d k k' Se) as (M & EM & SM & VM).
  destruct (eff_apply_ok e d k k' v Se) as (y & Ey & Sy & Vy). { rewrite EA, Nat.mul_1_r. exact Hv. }
  rewrite EA in *. exists e, M, y. repeat (split; [assumption|]).
  intros i x r Hi Hx Hr. rewrite Vy by assumption. apply sum_ext; intros i' Hi'. apply sum_ext; intros x' Hx'. apply sum_ext; intros r' Hr'. now rewrite VM by assumption.
Qed.
End Site.

(** real symmetric tensors give symmetric blocks *)
Lemma mpo_prod_sym (Ws : list (tens R)) : (forall W, In W Ws -> forall i i' a b, te W [i; i'; a; b] = te W [i'; i; a; b]) ->
  forall s t a b, mpo_prod Ws s t a b = mpo_prod Ws t s a b.
Proof.
  induction Ws as [|W Ws IH]; intros HW [|x s] [|y t] a b; cbn [mpo_prod]; try reflexivity.
  apply sum_ext; intros c _. rewrite (HW W (or_introl eq_refl)). f_equal. apply IH. intros; apply HW; now right.
Qed.

Lemma amp_real (l : list (site R)) : (forall A, In A l -> forall i x y, sconj (ent A i x y) = ent A i x y) -> forall s a b, sconj (amp l s a b) = amp l s a b.
Proof.
  induction l as [|A l IH]; intros Hl [|i s] a b; cbn [amp]; try apply conj_0; [unfold dlt; destruct (Nat.eqb a b); [apply conj_1|apply conj_0]|].
  rewrite sum_conj. apply sum_ext; intros c _. rewrite conj_mul, (Hl A (or_introl eq_refl)). f_equal. apply IH. intros A0 HA0; apply Hl; now right.
Qed.

Lemma right_block_sym d (Wq : list (tens R)) (q : list (site R)) :
  (forall W, In W Wq -> forall i i' a b, te W [i; i'; a; b] = te W [i'; i; a; b]) -> (forall A, In A q -> forall i x y, sconj (ent A i x y) = ent A i x y) ->
  forall w x y, right_block d Wq q w x y = right_block d Wq q w y x.
Proof.
  intros HW Hq w x y. unfold right_block. rewrite sumcfg_swap. apply sumcfg_ext; intros s _. apply sumcfg_ext; intros t _.
  rewrite !amp_real by assumption. rewrite (mpo_prod_sym Wq HW t s). ring.
Qed.

Lemma eff_environments d (Wp Wq : list (tens R)) W (p q : list (site R)) A k k' : eff_fits d Wp Wq W p q A k k' ->
  exists e, get_envs (Wp ++ W :: Wq) (p ++ A :: q) (length p) = Ok e /\
    tsh (e_L e) = [k; dl A; dl A] /\ tsh (e_R e) = [k'; dr A; dr A] /\
    (forall w x y, (w < k)%nat -> (x < dl A)%nat -> (y < dl A)%nat -> te (e_L e) [w; x; y] = left_block d Wp p w x y) /\
    (forall w x y, (w < k')%nat -> (x < dr A)%nat -> (y < dr A)%nat -> te (e_R e) [w; x; y] = right_block d Wq q w y x).
Proof.
  intros H. destruct (eff_run d Wp Wq W p q A k k' H) as (e & Ee & _ & _ & IL & IT & _). exists e. split; [exact Ee|].
  split; [apply IL|]. split; [apply IT|]. split; [apply IL|apply IT].
Qed.

Lemma eff_effective_real d (Wp Wq : list (tens R)) W (p q : list (site R)) A k k' : eff_fits d Wp Wq W p q A k k' ->
  (forall W, In W Wq -> forall i i' a b, te W [i; i'; a; b] = te W [i'; i; a; b]) -> (forall A, In A q -> forall i x y, sconj (ent A i x y) = ent A i x y) ->
  exists e M, get_envs (Wp ++ W :: Wq) (p ++ A :: q) (length p) = Ok e /\ eff_matrix e = Ok M /\
  forall B B' : site R, phys B = d -> phys B' = d -> dl B = dl A -> dl B' = dl A -> dr B = dr A -> dr B' = dr A ->
    quad M B B' = mpo_elem d (Wp ++ W :: Wq) (p ++ B :: q) (p ++ B' :: q).
Proof. intros H HW Hq. apply (eff_matrix_effective d Wp Wq W p q A k k' H). intros w x y _ _ _. now apply right_block_sym. Qed.

Lemma eff_operator_first d (Wp Wq : list (tens R)) W (p q : list (site R)) A k k' (v : tens R) : eff_fits d Wp Wq W p q A k k' ->
  dl A = 1%nat -> tsh v = [(d * (dl A * dr A))%nat] ->
  exists e M y, get_envs (Wp ++ W :: Wq) (p ++ A :: q) (length p) = Ok e /\ eff_matrix e = Ok M /\ eff_apply e v = Ok y /\
  forall j, (j < d * (dl A * dr A))%nat -> te y [j] = sum (d * (dl A * dr A)) (fun j' => te M [j; j'] * te v [j']).
Proof.
  intros H H1 Hv. destruct (eff_operator d Wp Wq W p q A k k' v H Hv) as (e & M & y & Ee & EM & Ey & _ & V).
  exists e, M, y. do 3 (split; [assumption|]). rewrite H1, Nat.mul_1_l in *. intros j Hj. set (b := dr A) in *.
  assert (Hb : b <> 0%nat) by (intros K; rewrite K in Hj; lia).
  assert (Ej : j = flat3 d b 0 (j / b) (j mod b)). { unfold flat3. rewrite (Nat.div_mod j b Hb) at 1. lia. }
  assert (Ej' : j = flat3 1 b (j / b) 0 (j mod b)). { unfold flat3. rewrite (Nat.div_mod j b Hb) at 1. lia. }
  rewrite Ej at 1. rewrite V; [|apply Nat.div_lt_upper_bound; lia|lia|now apply Nat.mod_upper_bound].
  rewrite <- Ej'. rewrite (sum_two d b) by lia. apply sum_ext; intros i' _. transitivity (sum b (fun r' => te M [j; (i' * b + r')%nat] * te v [(i' * b + r')%nat])); [|reflexivity]. cbn [sum].
  match goal with |- ?a + ?b = ?c => transitivity b; [ring|] end. apply sum_ext; intros r' _.
  unfold flat3. rewrite Nat.mul_1_r, Nat.add_0_r. reflexivity.
Qed.
End Proofs.
