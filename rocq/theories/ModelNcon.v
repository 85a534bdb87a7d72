(** Model of ncon of /repo/xmps/ncon.py on numpy arrays. *)
From Verif Require Import Alg ModelMPS.

(** An array of any rank: its shape and its entries (the elements of AA, ncon.py:8). *)
Record tens (R : sring) : Type := mkT { tsh : list nat; te : list nat -> R }.
Arguments mkT {R} tsh te.
Arguments tsh {R} t.
Arguments te {R} t idx.

(** The order in which Python walks through a set of labels, and the element
    that set.pop removes (ncon.py:94, 104, 123, 126, 141, 143, 199-200): both unspecified. *)
Record setio : Type := mkSet { s_list : list Z -> list Z; s_pop : list nat -> nat }.

(** x in l, on labels and on positions (ncon.py:134, 172). *)
Definition zmem (x : Z) (l : list Z) : bool := existsb (Z.eqb x) l.
Definition nmem (x : nat) (l : list nat) : bool := existsb (Nat.eqb x) l.

(** set.add and set.discard on positions (ncon.py:126-135). *)
Definition nadd (x : nat) (l : list nat) : list nat := if nmem x l then l else l ++ [x].
Definition nrem (x : nat) (l : list nat) : list nat := filter (fun y => negb (Nat.eqb x y)) l.

(** [i for i, x in enumerate(l, k) if p(x)] (ncon.py:132, 171-173, 208, 213). *)
Fixpoint where_ {A} (k : nat) (p : A -> bool) (l : list A) : list nat :=
  match l with
  | [] => []
  | x :: l => if p x then k :: where_ (S k) p l else where_ (S k) p l
  end.

(** sorted of a set: insertion without duplicates (ncon.py:94-95, 105-106). *)
Fixpoint zinsert (x : Z) (l : list Z) : list Z :=
  match l with
  | [] => [x]
  | y :: l => if Z.ltb x y then x :: y :: l else if Z.eqb x y then y :: l else y :: zinsert x l
  end.

(** ncon.py:89-95, create_order. *)
Definition create_order (v : list (list Z)) : list Z :=
  fold_right zinsert [] (filter (fun i => Z.ltb 0 i) (concat v)).

(** ncon.py:98-106, create_forder. *)
Definition create_forder (v : list (list Z)) : list Z :=
  rev (fold_right zinsert [] (filter (fun i => Z.ltb i 0) (concat v))).

(** ncon.py:131-132: the tensors sharing a label with tensor i. *)
Definition neighs (v : list (list Z)) (i : nat) : list nat :=
  where_ 0 (fun inds => existsb (fun l => zmem l inds) (nth i v [])) v.

(** ncon.py:124-135: the inner loop; returns component, visited, unvisited.  The
    fuel is the number of tensors, which is enough. *)
Fixpoint visit (O : setio) (v : list (list Z)) (fuel : nat) (to_visit visited unvisited component : list nat)
  : list nat * list nat * list nat :=
  match to_visit, fuel with
  | [], _ => (component, visited, unvisited)
  | _, O => (component, visited, unvisited)
  | _, S fuel =>
      let i := s_pop O to_visit in
      let to_visit := nrem i to_visit in
      let unvisited := nrem i unvisited in
      let component := nadd i component in
      let visited := nadd i visited in
      let to_visit := fold_left (fun tv j => if nmem j visited then tv else nadd j tv) (neighs v i) to_visit in
      visit O v fuel to_visit visited unvisited component
  end.

(** ncon.py:118-136: the list ccomponents. *)
Fixpoint components (O : setio) (v : list (list Z)) (fuel : nat) (unvisited visited : list nat)
    (acc : list (list nat)) : list (list nat) :=
  match unvisited, fuel with
  | [], _ => acc
  | _, O => acc
  | _, S fuel =>
      let i := s_pop O unvisited in
      let '(component, visited, unvisited) := visit O v (length v) [i] visited (nrem i unvisited) [] in
      components O v fuel unvisited visited (acc ++ [component])
  end.

(** Elements of l at positions (counted from k) that are not listed: the axes
    left over by numpy.tensordot and trace (ncon.py:315-323). *)
Fixpoint drop_pos {A} (k : nat) (ps : list nat) (l : list A) : list A :=
  match l with
  | [] => []
  | x :: l => if nmem k ps then drop_pos (S k) ps l else x :: drop_pos (S k) ps l
  end.

(** l.index(x) (ncon.py:239), for positions and for labels. *)
Fixpoint index_of {A} (eqb : A -> A -> bool) (x : A) (l : list A) : option nat :=
  match l with
  | [] => None
  | y :: l => if eqb x y then Some 0 else option_map S (index_of eqb x l)
  end.

(** The index list with entries c at the positions ps and the entries of rest,
    in order, at the others; n axes from k on (numpy.tensordot and trace,
    ncon.py:315-323). *)
Fixpoint merge (k n : nat) (ps c rest : list nat) : list nat :=
  match n with
  | O => []
  | S n =>
      match index_of Nat.eqb k ps with
      | Some q => nth q c 0 :: merge (S k) n ps c rest
      | None => hd 0 rest :: merge (S k) n ps c (tl rest)
      end
  end.

(** ncon.py:204-215, get_pos for one tensor. *)
Definition get_pos (inds icon : list Z) : list nat :=
  flat_map (fun e => where_ 0 (Z.eqb e) inds) icon.

(** ncon.py:194-201, get_icon. *)
Definition get_icon (O : setio) (inds1 inds2 : list Z) : list Z :=
  s_list O (filter (fun l => zmem l inds2) inds1).

(** ncon.py:218-227, find_newv. *)
Definition find_newv (inds icon : list Z) : list Z := filter (fun i => negb (zmem i icon)) inds.

(** ncon.py:230-232, renew_order. *)
Definition renew_order (order icon : list Z) : list Z := filter (fun i => negb (zmem i icon)) order.

(** ncon.py:166-191, get_tcon. *)
Definition get_tcon (v : list (list Z)) (index : Z) : res (list nat) :=
  let tcon := where_ 0 (zmem index) v in
  match tcon with
  | [] => Err ValueError
  | [i] => if Nat.eqb (length (where_ 0 (Z.eqb index) (nth i v []))) 2 then Ok tcon else Err ValueError
  | [_; _] => Ok tcon
  | _ => Err ValueError
  end.

(** del l[i] (ncon.py:78-79). *)
Definition del_at {A} (i : nat) (l : list A) : list A := firstn i l ++ skipn (S i) l.

(** Equality of two lists of dimensions, as tensordot tests it (ncon.py:317). *)
Fixpoint nlist_eqb (a b : list nat) : bool :=
  match a, b with
  | [], [] => true
  | x :: a, y :: b => Nat.eqb x y && nlist_eqb a b
  | _, _ => false
  end.

(** max(order) (ncon.py:157). *)
Definition zmax (l : list Z) (d : Z) : Z := fold_left Z.max l d.

Section Model.
Context {R : sring}.
Local Open Scope sr_scope.

(** The tensors with their label lists.  AA and v are two lists in the source,
    always changed together (ncon.py:72-79, 149-161). *)
Definition net : Type := list (tens R * list Z).

(** np.expand_dims(A, axis) (ncon.py:148-155); an axis beyond the rank raises
    AxisError, a ValueError. *)
Definition expand_dims (A : tens R) (axis : nat) : res (tens R) :=
  if Nat.leb axis (length (tsh A))
  then Ok (mkT (firstn axis (tsh A) ++ [1%nat] ++ skipn axis (tsh A)) (fun idx => te A (del_at axis idx)))
  else Err ValueError.

(** ncon.py:143-162: one pass of the loop that joins the component of c with
    another one.  (For c = d the source would differ; it does not happen.) *)
Definition join (O : setio) (c : nat) (s : net * list Z) (comp : list nat) : res (net * list Z) :=
  let d := s_pop O comp in
  do A_c <- getitem (fst s) c;
  do A_d <- getitem (fst s) d;
  do Ac <- expand_dims (fst A_c) (length (snd A_c));
  do Ad <- expand_dims (fst A_d) (length (snd A_d));
  let dim_num := match snd s with [] => 1%Z | x :: l => (zmax l x + 1)%Z end in
  do n <- setitem (fst s) c (Ac, snd A_c ++ [dim_num]);
  do n <- setitem n d (Ad, snd A_d ++ [dim_num]);
  Ok (n, snd s ++ [dim_num]).

(** ncon.py:142: the loop over the remaining components. *)
Fixpoint joins (O : setio) (c : nat) (s : net * list Z) (comps : list (list nat)) : res (net * list Z) :=
  match comps with
  | [] => Ok s
  | comp :: comps => do s <- join O c s comp; joins O c s comps
  end.

(** ncon.py:109-163, connect_graph. *)
Definition connect_graph (O : setio) (n : net) (order : list Z) : res (net * list Z) :=
  let v := map snd n in
  match rev (components O v (length n) (seq 0 (length n)) [] []) with
  | [] => Err IndexError
  | comp :: comps => joins O (s_pop O comp) (n, order) comps
  end.

(** np.tensordot(A, B, (pos1, pos2)) (ncon.py:315-319). *)
Definition con (A B : tens R) (pos1 pos2 : list nat) : res (tens R) :=
  do d1 <- mapM (getitem (tsh A)) pos1;
  do d2 <- mapM (getitem (tsh B)) pos2;
  if nlist_eqb d1 d2
  then let n1 := length (tsh A) in
       let n2 := length (tsh B) in
       let sh1 := drop_pos 0 pos1 (tsh A) in
       let sh2 := drop_pos 0 pos2 (tsh B) in
       Ok (mkT (sh1 ++ sh2) (fun idx =>
         sumcfg d1 (fun c => te A (merge 0 n1 pos1 c (firstn (length sh1) idx))
                             * te B (merge 0 n2 pos2 c (skipn (length sh1) idx)))))
  else Err ValueError.

(** A.trace(axis1=pos1[0], axis2=pos1[1]) (ncon.py:68, 322-323). *)
Definition trace (A : tens R) (pos : list nat) : res (tens R) :=
  match pos with
  | p1 :: p2 :: _ =>
      do d1 <- getitem (tsh A) p1;
      do d2 <- getitem (tsh A) p2;
      Ok (mkT (drop_pos 0 [p1; p2] (tsh A)) (fun idx =>
        sum (Nat.min d1 d2) (fun x => te A (merge 0 (length (tsh A)) [p1; p2] [x; x] idx))))
  | _ => Err IndexError
  end.

(** ncon.py:54-80, the main loop.  Every pass removes order[0] from order, so the
    length of order is enough fuel. *)
Fixpoint ncon_loop (O : setio) (fuel : nat) (n : net) (order : list Z) : res net :=
  match order, fuel with
  | [], _ => Ok n
  | _, 0%nat => Err Exception_
  | o :: _, S fuel =>
      do tcon <- get_tcon (map snd n) o;
      match tcon with
      | [i] =>
          do A <- getitem n i;
          do new <- trace (fst A) (get_pos (snd A) [o]);
          ncon_loop O fuel (del_at i (n ++ [(new, find_newv (snd A) [o])])) (renew_order order [o])
      | [i; j] =>
          do A <- getitem n i;
          do B <- getitem n j;
          let icon := get_icon O (snd A) (snd B) in
          do new <- con (fst A) (fst B) (get_pos (snd A) icon) (get_pos (snd B) icon);
          ncon_loop O fuel (del_at i (del_at j (n ++ [(new, find_newv (snd A ++ snd B) icon)]))) (renew_order order icon)
      | _ => Err ValueError
      end
  end.

(** ncon.py:235-244, permute_final: v.index raises ValueError for a missing
    label, transpose unless perm is a permutation of the axes. *)
Definition permute_final (A : tens R) (v forder : list Z) : res (tens R) :=
  do perm <- mapM (fun i => match index_of Z.eqb i v with Some k => Ok k | None => Err ValueError end) forder;
  if Nat.eqb (length perm) (length (tsh A))
     && forallb (fun a => nmem a perm) (seq 0 (length (tsh A)))
  then Ok (mkT (map (fun a => nth a (tsh A) 0%nat) perm) (fun idx =>
         te A (map (fun a => match index_of Nat.eqb a perm with Some k => nth k idx 0%nat | None => 0%nat end)
                   (seq 0 (length (tsh A))))))
  else Err ValueError.

(** ncon.py:274-276: tensor number, leg number and label of every leg. *)
Definition legs (v : list (list Z)) : list (nat * nat * Z) :=
  flat_map (fun is_ => map (fun jl => (fst is_, fst jl, snd jl)) (combine (seq 0 (length (snd is_))) (snd is_)))
           (combine (seq 0 (length v)) v).

(** The size of a leg, AA[i].shape[j] (ncon.py:293). *)
Definition leg_dim (AA : list (tens R)) (i j : nat) : option nat :=
  match nth_error AA i with Some A => nth_error (tsh A) j | None => None end.

(** ncon.py:247-306, do_check_indices (arrays have no compatible_indices). *)
Definition do_check_indices (AA : list (tens R)) (v : list (list Z)) (order forder : list Z) : res unit :=
  if negb (Nat.eqb (length AA) (length v)) then Err ValueError
  else if negb (forallb (fun Av => Nat.eqb (length (snd Av)) (length (tsh (fst Av)))) (combine AA v)) then Err ValueError
  else if negb (forallb (fun e =>
            match filter (fun t => Z.eqb (snd t) e) (legs v) with
            | [t; u] => match leg_dim AA (fst (fst t)) (snd (fst t)), leg_dim AA (fst (fst u)) (snd (fst u)) with
                        | Some a, Some b => Nat.eqb a b
                        | _, _ => false
                        end
            | _ => false
            end) order) then Err ValueError
  else if negb (forallb (fun e => Nat.eqb (length (filter (fun t => Z.eqb t e) (concat v))) 1) forder) then Err ValueError
  else Ok tt.

(** ncon.py:7-85, ncon.  Arguments that are not yet lists are not modelled, nor is
    the case of unequal numbers of tensors and label lists without the check
    (ValueError here).  connect_graph also extends the list given as order by
    the caller. *)
Definition ncon (O : setio) (AA : list (tens R)) (v : list (list Z)) (order forder : option (list Z))
    (check_indices : bool) : res (tens R) :=
  match v with
  | [] => Err IndexError
  | _ =>
      let order := match order with None => create_order v | Some order => order end in
      let forder := match forder with None => create_forder v | Some forder => forder end in
      do _ <- (if check_indices then do_check_indices AA v order forder else Ok tt);
      if negb (Nat.eqb (length AA) (length v)) then Err ValueError else
      do no <- connect_graph O (combine AA v) order;
      do n <- ncon_loop O (length (snd no)) (fst no) (snd no);
      match n with
      | [] => Err IndexError
      | (A, vlast) :: _ => permute_final A vlast forder
      end
  end.

End Model.
