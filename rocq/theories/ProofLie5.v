(** Proofs about lambdas and the spinors. *)
From Coq Require Import ZArith Permutation.
From Verif Require Import Alg ModelMPS SpecMPS ModelNcon ModelEk ModelTensor SpecTensor ModelDecomp ModelSpin SpecSpin ProofSpin ProofSpin2 ProofSpin3 ProofSpin4
  ModelLie SpecLie ProofLie ProofLie3 ProofLie4.

Section Proof.
Context {R : sring}.
Add Ring Rr : (s_th R).
Local Open Scope sr_scope.

Ltac four := apply mat4; try reflexivity; intros i Hi j Hj;
  repeat (destruct Hi as [<-|Hi]); try destruct Hi; repeat (destruct Hj as [<-|Hj]); try destruct Hj.

Section Sym.
Variable C : consts R.
Hypothesis HC : consts_ok C (fun _ => False).
Hypothesis H1 : c_sqrt C 1 = 1.
Notation hh := (hh C HC).

(** * lambdas *)
Variables r3 r6 : R.
Hypothesis Hr3 : r3 * r3 * (1 + 1 + 1) = 1.
Hypothesis Hr6 : r6 * r6 * ((1 + 1) * (1 + 1 + 1)) = 1.
Hypothesis Cr3 : sconj r3 = r3.
Hypothesis Cr6 : sconj r6 = r6.

Definition lscale (i : nat) : R := match i with 1%nat => 1 | 2%nat => r3 | _ => r6 end.
Lemma lscale_ok : scale_ok lscale 4.
Proof.
  intros i Hi1 Hi2. destruct i as [|[|[|[|i]]]]; try lia; cbn [lscale]; (split; [first [apply conj_1|assumption]|]); cbn [sofnat].
  - ring.
  - transitivity (r3 * r3 * (1 + 1 + 1) * (1 + 1)); [ring|]. rewrite Hr3. ring.
  - transitivity (r6 * r6 * ((1 + 1) * (1 + 1 + 1)) * (1 + 1)); [ring|]. rewrite Hr6. ring.
Qed.

Definition ldesc : list (R * gen) :=
  [ (1, GS 1%nat 0%nat); (- (1), GA 1%nat 0%nat); (1, GD 1%nat); (1, GS 2%nat 0%nat); (- (1), GA 2%nat 0%nat); (1, GS 2%nat 1%nat); (- (1), GA 2%nat 1%nat); (1, GD 2%nat);
    (1, GS 3%nat 0%nat); (- (1), GA 3%nat 0%nat); (1, GS 3%nat 1%nat); (- (1), GA 3%nat 1%nat); (1, GS 3%nat 2%nat); (- (1), GA 3%nat 2%nat); (1, GD 3%nat) ].
Lemma lam_desc : Forall2 (fun A p => mat_eq A (mscale (fst p) (gmat C lscale 4 (snd p)))) (lambdas C r3 r6) ldesc.
Proof.
  destruct (pauli_entries C HC H1) as ((_ & _ & EX) & (_ & _ & EY) & (_ & _ & EZ)). cbn [twice Sx Sy Sz mr mc] in EX, EY, EZ.
  unfold lambdas, ldesc. repeat (apply Forall2_cons || apply Forall2_nil); cbn [fst snd gmat].
  1-3: (split; [reflexivity|split; [reflexivity|]]; cbn [mr mc me]; intros a b Ha Hb;
    (do 4 (destruct a as [|a]; [do 4 (destruct b as [|b]; [cbn [Nat.ltb Nat.leb andb]; rewrite ?EX, ?EY, ?EZ by lia; cbn; ring|]); lia|]); lia)).
  all: four; cbn; ring.
Qed.
Lemma ldesc_gens : map snd ldesc = [GS 1 0; GA 1 0; GD 1; GS 2 0; GA 2 0; GS 2 1; GA 2 1; GD 2; GS 3 0; GA 3 0; GS 3 1; GA 3 1; GS 3 2; GA 3 2; GD 3]%nat.
Proof. reflexivity. Qed.
Lemma ldesc_nodup : NoDup (map snd ldesc).
Proof. rewrite ldesc_gens. repeat constructor; cbn; intuition discriminate. Qed.
Lemma ldesc_ok p : In p ldesc -> gen_ok 4 (snd p) /\ fst p * fst p = 1 /\ sconj (fst p) = fst p.
Proof.
  intros H. cbn in H. repeat (destruct H as [<-|H]; [cbn; split; [lia|]; rewrite ?conj_opp, conj_1; split; [ring|reflexivity]|]). destruct H.
Qed.

Lemma Forall2_nth_error {A B} (P : A -> B -> Prop) l m : Forall2 P l m -> forall k x, nth_error l k = Some x -> exists y, nth_error m k = Some y /\ P x y.
Proof.
  induction 1 as [|x y l m Hxy H IH]; intros [|k] z Hz; try discriminate; [|apply IH; exact Hz]. injection Hz as <-. exists y. split; [reflexivity|exact Hxy].
Qed.

Lemma lam_orth : orthogonal_generators 4 (lambdas C r3 r6).
Proof.
  split.
  - intros T HT. apply In_nth_error in HT as (k & Hk). destruct (Forall2_nth_error _ _ _ lam_desc k T Hk) as (p & Hp & E).
    apply nth_error_In in Hp. destruct (ldesc_ok p Hp) as (Ho & He & Hc). destruct (gmat_shape C lscale 4 (snd p)) as [G1 G2].
    destruct E as (E1 & E2 & E3). cbn [mscale mr mc me] in *. split; [split; congruence|]. rewrite E1 in E3. rewrite E2 in E3. rewrite G1, G2 in *. split.
    + split; [cbn; congruence|]. split; [cbn; congruence|]. cbn [madj mr mc me]. rewrite E1, E2. intros a b Ha Hb. rewrite !E3 by assumption. rewrite conj_mul, Hc. f_equal.
      destruct (gmat_herm C lscale 4 HC lscale_ok (snd p) Ho) as (_ & _ & K). cbn [madj mr mc me] in K. apply K; congruence.
    + unfold mtrace. rewrite E1. rewrite (sum_ext 4 _ (fun a => fst p * me (gmat C lscale 4 (snd p)) a a)) by (intros; now apply E3).
      rewrite sum_mul_l. assert (K := gmat_traceless C lscale 4 (snd p) Ho). unfold mtrace in K. rewrite G1 in K. rewrite K. ring.
  - intros a b A B HA HB. destruct (Forall2_nth_error _ _ _ lam_desc a A HA) as (p & Hp & EA). destruct (Forall2_nth_error _ _ _ lam_desc b B HB) as (q & Hq & EB).
    destruct (ldesc_ok p (nth_error_In _ _ Hp)) as (Po & Pe & _). destruct (ldesc_ok q (nth_error_In _ _ Hq)) as (Qo & Qe & _).
    destruct (gmat_shape C lscale 4 (snd p)) as [G1 G2]. destruct (gmat_shape C lscale 4 (snd q)) as [K1 K2].
    rewrite (mtrace_mmul_eq _ _ _ _ EA EB) by (destruct EA as (? & ? & _), EB as (? & ? & _); cbn [mscale mr mc] in *; congruence).
    transitivity (fst p * fst q * tr2 C lscale 4 (gmat C lscale 4 (snd p)) (snd q)).
    { unfold mtrace, tr2. cbn [mmul mscale mr mc me]. rewrite G1, G2. rewrite <- sum_mul_l. apply sum_ext. intros x Hx. rewrite <- sum_mul_l. apply sum_ext. intros y Hy. ring. }
    rewrite (tr2_gen C lscale 4 HC lscale_ok) by assumption.
    assert (Hab : (a = b) <-> snd p = snd q).
    { split; [intros ->; congruence|]. intros E. apply (proj1 (NoDup_nth_error (map snd ldesc)) ldesc_nodup).
      - apply nth_error_Some. rewrite nth_error_map, Hp. discriminate.
      - rewrite !nth_error_map, Hp, Hq. cbn. now rewrite E. }
    destruct (gen_eqb_spec (snd p) (snd q)) as [E|E]; destruct (Nat.eqb_spec a b) as [E'|E']; try tauto; [|ring].
    subst b. rewrite Hp in Hq. injection Hq as <-. rewrite Pe. ring.
Qed.

Lemma suml_perm {A} (f : A -> R) l m : Permutation l m -> suml (map f l) = suml (map f m).
Proof. induction 1; cbn; [reflexivity|congruence|ring|congruence]. Qed.

Lemma lam_complete (inv4 : R) (Q : mat R) : sofnat 4 * inv4 = 1 -> sq 4 Q -> mtrace Q = 0 -> forall a b, (a < 4)%nat -> (b < 4)%nat ->
  me Q a b = comb_entry (map (fun T => c_half C * mtrace (mmul Q T)) (lambdas C r3 r6)) (lambdas C r3 r6) a b.
Proof.
  intros H4 HQ HT a b Ha Hb.
  set (inv := fun i => match i with 1%nat => 1 | 2%nat => c_half C | 3%nat => r3 * r3 | _ => inv4 end).
  assert (Hinv : inverses inv 4).
  { intros i Hi1 Hi2. destruct i as [|[|[|[|[|i]]]]]; try lia; cbn [inv]; [cbn [sofnat]; ring| | |exact H4].
    - transitivity (c_half C * (1 + 1)); [cbn [sofnat]; ring|exact hh].
    - transitivity (r3 * r3 * (1 + 1 + 1)); [cbn [sofnat]; ring|exact Hr3]. }
  assert (E := complete C lscale 4 HC lscale_ok inv Q a b Hinv ltac:(lia) Ha Hb).
  unfold mtrace in HT. rewrite (proj1 HQ) in HT. rewrite HT in E.
  assert (P : Permutation (gens 4) (map snd ldesc)).
  { apply NoDup_Permutation; [apply gens_nodup|exact ldesc_nodup|]. intros g. rewrite ldesc_gens. vm_compute. tauto. }
  rewrite (suml_perm _ _ _ P), map_map in E.
  unfold comb_entry.
  rewrite <- (suml_combine (fun c M => c * me M a b) (mone 0)) by (now rewrite map_length).
  transitivity (c_half C * ((1 + 1) * (me Q a b - dlt a b * (inv 4%nat * 0)))).
  { transitivity (c_half C * (1 + 1) * me Q a b); [rewrite hh|]; ring. }
  rewrite <- E. clear E P.
  assert (Hok : Forall (fun p => gen_ok 4 (snd p) /\ fst p * fst p = 1 /\ sconj (fst p) = fst p) ldesc) by (apply Forall_forall; intros; now apply ldesc_ok).
  assert (H := lam_desc). induction H as [|A p l m EA H IH]; cbn [map combine suml fst snd]; [ring|]. inversion Hok; subst. specialize (IH H5). destruct H3 as (_ & He & _).
  destruct (gmat_shape C lscale 4 (snd p)) as [G1 G2]. destruct EA as (E1 & E2 & E3). cbn [mscale mr mc me] in *.
  rewrite E3 by congruence.
  assert (ET : mtrace (mmul Q A) = fst p * tr2 C lscale 4 Q (snd p)).
  { unfold mtrace, tr2. cbn [mmul mr mc me]. destruct HQ as [Q1 Q2]. rewrite Q1, Q2. rewrite <- sum_mul_l. apply sum_ext. intros x Hx. rewrite <- sum_mul_l. apply sum_ext. intros y Hy.
    rewrite E3 by congruence. ring. }
  rewrite ET. match type of IH with ?x = ?y => transitivity (c_half C * (tr2 C lscale 4 Q (snd p) * me (gmat C lscale 4 (snd p)) a b) * (fst p * fst p) + x) end;
    [rewrite He; ring|]. rewrite IH. ring.
Qed.

(** * Spinors *)
Variable ilog : nat -> nat -> option nat.
Let i_ := c_im C.
Lemma antiferro_lit : exists x y z, antiferro C ilog = Ok [x; y; z] /\
  mat_eq x (lit 4 4 [0; 0; 0; 0;  0; 0; 1; 0;  0; 1; 0; 0;  0; 0; 0; 0]) /\
  mat_eq y (lit 4 4 [0; 0; 0; 0;  0; 0; i_; 0;  0; - i_; 0; 0;  0; 0; 0; 0]) /\
  mat_eq z (lit 4 4 [0; 0; 0; 0;  0; - (1); 0; 0;  0; 0; 1; 0;  0; 0; 0; 0]).
Proof.
  eexists. eexists. eexists. split; [reflexivity|].
  refine (conj _ (conj _ _)); four; cbn; unfold dlt; cbn; rewrite ?H1; fold i_; ring.
Qed.
Lemma ferro_lit : exists x y z, ferro C ilog = Ok [x; y; z] /\
  mat_eq x (lit 4 4 [0; 0; 0; 1;  0; 0; 0; 0;  0; 0; 0; 0;  1; 0; 0; 0]) /\
  mat_eq y (lit 4 4 [0; 0; 0; - i_;  0; 0; 0; 0;  0; 0; 0; 0;  i_; 0; 0; 0]) /\
  mat_eq z (lit 4 4 [c_half C; 0; 0; 0;  0; 0; 0; 0;  0; 0; 0; 0;  0; 0; 0; - c_half C]).
Proof.
  assert (Hh : c_half C * (c_half C + c_half C) = c_half C) by (destruct HC as (H & _); rewrite H; ring).
  eexists. eexists. eexists. split; [reflexivity|].
  refine (conj _ (conj _ _)); [four; cbn; unfold dlt; cbn; rewrite ?H1; fold i_; ring ..|].
  set (w := c_half C * (c_half C + c_half C)) in Hh.
  apply (mat_eq_trans _ (lit 4 4 [w; 0; 0; 0;  0; w - c_half C; 0; 0;  0; 0; w - c_half C; 0;  0; 0; 0; w - c_half C - c_half C])); [unfold w; clear w Hh|rewrite Hh].
  - four; cbn; unfold dlt; cbn; ring.
  - four; cbn; ring.
Qed.

Lemma comm_transfer (A A' B B' D D' : mat R) c n : sq n A' -> sq n B' -> mat_eq A A' -> mat_eq B B' -> mat_eq D D' ->
  mat_eq (mcomm A' B') (mscale c D') -> mat_eq (mcomm A B) (mscale c D).
Proof.
  intros [S1 S2] [T1 T2] (A1 & A2 & A3) (B1 & B2 & B3) (D1 & D2 & D3) (E1 & E2 & E3). cbn [mcomm mminus mmul mscale mr mc me] in *.
  split; [cbn [mcomm mminus mmul mscale mr mc]; congruence|]. split; [cbn [mcomm mminus mmul mscale mr mc]; congruence|]. cbn [mcomm mminus mmul mscale mr mc me]. intros a b Ha Hb.
  rewrite D3 by congruence. rewrite <- E3 by congruence. rewrite A2, B2, S2, T2. f_equal; apply sum_ext; intros k Hk; rewrite A3, B3 by congruence; reflexivity.
Qed.

Lemma antiferro_ok : exists x y z, antiferro C ilog = Ok [x; y; z] /\ triple ((1 + 1) * c_im C) x y z.
Proof.
  assert (Hii : i_ * i_ = - (1)) by (destruct HC as (_ & _ & H & _); exact H). fold i_.
  destruct antiferro_lit as (x & y & z & E & Ex & Ey & Ez). exists x, y, z. split; [exact E|].
  refine (conj _ (conj _ _)).
  - refine (comm_transfer _ _ _ _ _ _ _ 4 _ _ Ex Ey Ez _); [split; reflexivity|split; reflexivity|]. four; cbn; ring [Hii].
  - refine (comm_transfer _ _ _ _ _ _ _ 4 _ _ Ey Ez Ex _); [split; reflexivity|split; reflexivity|]. four; cbn; ring [Hii].
  - refine (comm_transfer _ _ _ _ _ _ _ 4 _ _ Ez Ex Ey _); [split; reflexivity|split; reflexivity|]. four; cbn; ring [Hii].
Qed.
Lemma ferro_ok : exists x y z, ferro C ilog = Ok [x; y; z] /\
  mat_eq (mcomm x y) (mscale ((1 + 1) * (1 + 1) * c_im C) z) /\ mat_eq (mcomm y z) (mscale (c_im C) x) /\ mat_eq (mcomm z x) (mscale (c_im C) y).
Proof.
  assert (Hii : i_ * i_ = - (1)) by (destruct HC as (_ & _ & H & _); exact H). fold i_. set (h := c_half C). assert (Hh : forall u : R, u = h * (1 + 1) * u) by (intros u; unfold h; rewrite hh; ring).
  destruct ferro_lit as (x & y & z & E & Ex & Ey & Ez). fold h in Ez. exists x, y, z. split; [exact E|].
  refine (conj _ (conj _ _)).
  - refine (comm_transfer _ _ _ _ _ _ _ 4 _ _ Ex Ey Ez _); [split; reflexivity|split; reflexivity|]. four; cbn; match goal with |- ?l = ?r => first [ring [Hii]|transitivity (h * (1 + 1) * l); [apply Hh|ring [Hii]]|transitivity (h * (1 + 1) * r); [ring [Hii]|symmetry; apply Hh]] end.
  - refine (comm_transfer _ _ _ _ _ _ _ 4 _ _ Ey Ez Ex _); [split; reflexivity|split; reflexivity|]. four; cbn; match goal with |- ?l = ?r => first [ring [Hii]|transitivity (h * (1 + 1) * l); [apply Hh|ring [Hii]]|transitivity (h * (1 + 1) * r); [ring [Hii]|symmetry; apply Hh]] end.
  - refine (comm_transfer _ _ _ _ _ _ _ 4 _ _ Ez Ex Ey _); [split; reflexivity|split; reflexivity|]. four; cbn; match goal with |- ?l = ?r => first [ring [Hii]|transitivity (h * (1 + 1) * l); [apply Hh|ring [Hii]]|transitivity (h * (1 + 1) * r); [ring [Hii]|symmetry; apply Hh]] end.
Qed.
End Sym.
End Proof.
