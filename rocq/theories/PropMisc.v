(** Memo tables, run directories, SVD wrapper (C25, C37, C54). *)
From Coq Require Import Ascii.
From Verif Require Import Alg ModelMPS ModelStruct ModelMisc ProofMisc ExTraj.

(** C25 *)
Theorem C25_pair_keys : forall L, (forall i j i' j', i < L -> j < L -> i' < L -> j' < L ->
    str i ++ str j = str i' ++ str j' -> i = i' /\ j = j') <-> L <= 11.
Proof. exact keys_iff. Qed.
Print Assumptions C25_pair_keys.

Theorem C25_triple_keys : forall L, (forall i j k i' j' k', i < L -> j < L -> k < L -> i' < L -> j' < L -> k' < L ->
    str i ++ str j ++ str k = str i' ++ str j' ++ str k' -> i = i' /\ j = j' /\ k = k') <-> L <= 10.
Proof. exact keys3_iff. Qed.
Print Assumptions C25_triple_keys.

(** every call of every sequence of calls returns the block it was asked for *)
Theorem C25_memo_transparent : forall V (flip : V -> V) (block : nat -> nat -> nat -> V) L id0, L <= 11 ->
  (forall id i j, i < L -> j < L -> block id j i = flip (block id i j)) ->
  forall ps, Forall (fun p => fst (snd p) < L /\ snd (snd p) < L) ps ->
  F_seq flip block (mkMemo id0 []) ps = map (fun p => block (fst p) (fst (snd p)) (snd (snd p))) ps.
Proof. exact (@memo_transparent). Qed.
Print Assumptions C25_memo_transparent.

Theorem C25_long_chain_refuted : forall L, 12 <= L ->
  exists (V : Type) (flip : V -> V) (block : nat -> nat -> nat -> V) ps,
  (forall id i j, i < L -> j < L -> block id j i = flip (block id i j)) /\
  Forall (fun p => fst (snd p) < L /\ snd (snd p) < L) ps /\ NoDup ps /\
  F_seq flip block (mkMemo 0 []) ps <> map (fun p => block (fst p) (fst (snd p)) (snd (snd p))) ps.
Proof. exact memo_long. Qed.
Print Assumptions C25_long_chain_refuted.

(** christoffel: the second identical call gives another value, on a short chain *)
Theorem C25_christoffel_refuted : exists (V : Type) (flip : V -> V) (ungauge : nat -> nat -> V -> V) (gamma : nat -> nat -> nat -> V) id M i j k,
  let r := christoffel_call flip ungauge gamma id M i j k in
  i < 3 /\ j < 3 /\ k < 3 /\
  (forall i j k, gamma j i k = flip (gamma i j k)) /\
  fst (christoffel_call flip ungauge gamma id (snd r) i j k) <> fst r.
Proof. exact christoffel_differs. Qed.
Print Assumptions C25_christoffel_refuted.

Example C25_example :
  let flip (p : nat * nat * nat) := (fst (fst p), snd p, snd (fst p)) in
  let block id i j := (id, i, j) in
  (forall id i j, block id j i = flip (block id i j)) /\
  F_seq flip block (mkMemo 0 []) [(1, (1, 10)); (1, (10, 1)); (2, (1, 10)); (2, (10, 1)); (1, (10, 1)); (1, (10, 10))]
    = [(1, 1, 10); (1, 10, 1); (2, 1, 10); (2, 10, 1); (1, 10, 1); (1, 10, 10)].
Proof. split; [reflexivity|]. vm_compute. reflexivity. Qed.

(** C37.  The names are run_dir_1, run_dir_2, ...; no existing path is chosen; the
    eleventh call fails. *)
Theorem C37_run_names : forall (fs : list (list ascii)) (r : list ascii),
  (forall x, In x fs -> starts (r ++ ["_"%char]) x = false) -> forall n,
  if Nat.leb n 10
  then exists names, stops n fs r = Ok (names, fs ++ names) /\ length names = n /\
       NoDup (names ++ filter (starts (r ++ ["_"%char])) fs) /\
       forall k, k < n -> nth_error names k = Some (r ++ ["_"%char] ++ str (S k))
  else stops n fs r = Err FileExistsError.
Proof. exact stops_spec. Qed.
Print Assumptions C37_run_names.

(** a run whose name continues that of another with an underscore disturbs it *)
Theorem C37_other_names_refuted : exists fs r,
  ~ In r (map (drop_last 2) fs) /\ (exists q, stops 2 fs r = Ok q) /\ stops 3 fs r = Err FileExistsError.
Proof. exact ex_interference. Qed.
Print Assumptions C37_other_names_refuted.

Example C37_example :
  (forall x, In x [["b"%char]; ["b"%char; "_"%char; "1"%char]] -> starts (["a"%char] ++ ["_"%char]) x = false) /\
  stops 2 [["b"%char]; ["b"%char; "_"%char; "1"%char]] ["a"%char]
  = Ok ([["a"%char; "_"%char; "1"%char]; ["a"%char; "_"%char; "2"%char]],
        [["b"%char]; ["b"%char; "_"%char; "1"%char]; ["a"%char; "_"%char; "1"%char]; ["a"%char; "_"%char; "2"%char]]).
Proof. split; [intros x [<-|[<-|[]]]; reflexivity|]. vm_compute. reflexivity. Qed.

(** C54 *)
Theorem C54_driver_choice : forall V (old warn : bool) (lap : driver -> res V),
  let last := if old then OldGesvd else Gesvd in
  (forall v, lap Gesdd = Ok v -> svd old warn NGesdd lap = ([Gesdd], false, Ok v)) /\
  (lap Gesdd = Err LinAlgError -> svd old warn NGesdd lap = ([Gesdd; last], warn, lap last)) /\
  (forall e, lap Gesdd = Err e -> e <> LinAlgError -> svd old warn NGesdd lap = ([Gesdd], false, Err e)) /\
  svd old warn NGesvd lap = ([last], false, lap last) /\
  svd old warn NOther lap = ([], false, Err ValueError).
Proof. exact (@svd_spec). Qed.
Print Assumptions C54_driver_choice.

Theorem C54_failures : forall V (old warn : bool) name (lap : driver -> res V) e,
  snd (svd old warn name lap) = Err e ->
  (name = NOther /\ e = ValueError) \/
  exists d cs, fst (fst (svd old warn name lap)) = cs ++ [d] /\ lap d = Err e /\
    (forall d', In d' cs -> lap d' = Err LinAlgError).
Proof. exact (@svd_raises). Qed.
Print Assumptions C54_failures.

Example C54_example :
  svd false true NGesdd (fun d => match d with Gesdd => Err LinAlgError | _ => Ok 7 end) = ([Gesdd; Gesvd], true, Ok 7)
  /\ svd false true NGesdd (fun d => Err (A := nat) LinAlgError) = ([Gesdd; Gesvd], true, Err LinAlgError).
Proof. split; reflexivity. Qed.
