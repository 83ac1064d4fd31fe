(** Model of [/repo/src/btree/btree_set.rs]: [BTreeSet] over the map model. *)
From Coq Require Import List PeanoNat Bool NArith.
From Verif Require Import Base Spec SetSpec Vec BTreeModel BTreeIterModel BTreeHistModel SetOpModel.
From Verif Require AvlSetModel.
Import ListNotations.

Section BTreeSet.
  Context {T Q : Type} (bor : T -> Q) (cmp : Q -> Q -> comparison) (N : nat).
  (** btree_set.rs:12-14 [struct BTreeSet] (derive(Clone)): a [BTreeMap<T, (), N>]. *)
  Definition bset := bt_map T unit.
  Notation bt := (bt T unit).

  (** btree_set.rs:158-162 [new], :450-454 [default], :37-39 [clear], :153-155 [len],
      :118-120 [is_empty]. *)
  Definition bs_new : bset := b_new.
  Definition bs_clear (s : bset) : bset := b_clear s.
  Definition bs_len (s : bset) : nat := b_len s.
  Definition bs_is_empty (s : bset) : bool := b_is_empty s.
  (** btree_set.rs:42-48 [contains], :74-80 [get], :69-71 [first], :148-150 [last]. *)
  Definition bs_contains (s : bset) (q : Q) : bool := b_contains_key bor cmp s q.
  Definition bs_get (s : bset) (q : Q) : option T := option_map fst (b_get_key_value bor cmp s q).
  Definition bs_first (s : bset) : res (option T) := o <- b_first_key_value s;; Ok (option_map fst o).
  Definition bs_last (s : bset) : option T := option_map fst (b_last_key_value s).
  (** btree_set.rs:84-89 [insert], :258-264 [remove]. *)
  Definition bs_insert (s : bset) (x : T) : res (bset * bool) :=
    '(s', o) <- b_insert bor cmp N s x tt;; Ok (s', is_none o).
  Definition bs_remove (s : bset) (q : Q) : res (bset * bool) :=
    '(s', o) <- b_remove bor cmp N s q;; Ok (s', is_some o).
  (** btree_set.rs:319-330 [take], :267-276 [replace]. *)
  Definition bs_take (s : bset) (q : Q) : res (bset * option T) :=
    if negb (bs_contains s q) then Ok (s, None)
    else '(s', o) <- rm_and_rebal s (n_remove bor cmp N q);; Ok (s', option_map fst o).
  Definition bs_replace (s : bset) (x : T) : res (bset * option T) :=
    '(s1, o) <- rm_and_rebal s (n_remove bor cmp N (bor x));;
    '(s2, _) <- bs_insert s1 x;;
    Ok (s2, option_map fst o).
  (** btree_set.rs:229-242 [pop_first], [pop_last]. *)
  Definition bs_pop_first (s : bset) : res (bset * option T) :=
    '(s', o) <- b_pop_first N s;; Ok (s', option_map fst o).
  Definition bs_pop_last (s : bset) : res (bset * option T) :=
    '(s', o) <- b_pop_last N s;; Ok (s', option_map fst o).
  (** btree_set.rs:456-470 [extend] (both), :472-478 [From<[T; M]>], :480-486 [from_iter]. *)
  Fixpoint bs_extend (s : bset) (xs : list T) : res bset :=
    match xs with
    | [] => Ok s
    | x :: xs' => '(s', _) <- bs_insert s x;; bs_extend s' xs'
    end.
  Definition bs_from_iter (xs : list T) : res bset := bs_extend bs_new xs.

  (** btree_set.rs:358-382 [Iter]. *)
  Definition bs_it := b_iter (@erg T unit).
  Definition bs_iter (s : bset) : bs_it := bt_iter s.
  Definition bs_next (i : bs_it) : res (option T * bs_it) :=
    '(o, i') <- b_next borrowed i;; Ok (option_map fst o, i').
  Definition bs_next_back (i : bs_it) : res (option T * bs_it) :=
    '(o, i') <- b_next_back borrowed i;; Ok (option_map fst o, i').
  Definition bs_it_len (i : bs_it) : nat := bi_len i.
  (** The results of calls from both ends, each with the [len()] after it. *)
  Fixpoint bs_ends (cs : list end_call) (i : bs_it) : res (list (option T * nat)) :=
    match cs with
    | [] => Ok []
    | c :: cs' =>
      '(o, i') <- match c with Front => bs_next i | Back => bs_next_back i end;;
      rest <- bs_ends cs' i';;
      Ok ((o, bs_it_len i') :: rest)
    end.
  (** btree_set.rs:244-254 [range]. *)
  Definition bs_range (s : bset) (lb ub : bound Q) (cs : list end_call) : res (list (option T)) :=
    it <- b_range bor cmp s lb ub;;
    l <- b_run_ends borrowed cs it;;
    Ok (map (fun x => option_map fst (fst x)) l).

  (** btree_set.rs:51-56 [difference], :92-97 [intersection], :300-305
      [symmetric_difference], :335-337 [union]: the results of [n] calls of [next]. *)
  Definition bs_setop (policy : BinNums.N) (a b : bset) (n : nat) : res (list (option T)) :=
    setop_nexts bs_next bs_it_len (AvlSetModel.tcmp bor cmp) n policy (merge_new (bs_iter a) (bs_iter b)).
  Definition bs_setop_first (policy : BinNums.N) (a b : bset) : res (option T) :=
    '(o, _) <- setop_next bs_next bs_it_len (AvlSetModel.tcmp bor cmp) policy
                          (merge_new (bs_iter a) (bs_iter b));;
    Ok o.
  (** btree_set.rs:110-115 [is_disjoint], :123-130 [is_subset], :133-138 [is_superset]. *)
  Definition bs_is_disjoint (a b : bset) : res bool :=
    o <- bs_setop_first p_intersection a b;; Ok (is_none o).
  Definition bs_is_subset (a b : bset) : res bool :=
    if bs_is_empty a then Ok true
    else if bs_len a <? bs_len b then o <- bs_setop_first p_difference a b;; Ok (is_none o)
    else Ok false.
  Definition bs_is_superset (a b : bset) : res bool := bs_is_subset b a.

  (** *** Operations that consume a set. [un] tells which nodes the owning iterator
      finds unshared. *)
  Context (un : bt -> bool).

  (** btree_set.rs:389-416 [IntoIter], all its items. *)
  Definition bs_into_list (s : bset) : res (list T) :=
    l <- b_into_list un s;; Ok (map fst l).
  (** btree_set.rs:29-34 [append], :289-297 [split_off]. *)
  Definition bs_append (a b : bset) : res (bset * bset) := b_append bor cmp N un a b.
  Definition bs_split_off (s : bset) (q : Q) : res (bset * bset) := b_split_off bor cmp N un s q.
  (** btree_set.rs:279-286 [retain]; the closure is state-passing. *)
  Fixpoint filter_state {S} (f : S -> T -> S * bool) (s : S) (xs : list T) : list T * S :=
    match xs with
    | [] => ([], s)
    | x :: xs' =>
      let '(s1, keep) := f s x in
      let '(rest, s2) := filter_state f s1 xs' in
      (if keep : bool then x :: rest else rest, s2)
    end.
  Definition bs_retain {S} (f : S -> T -> S * bool) (x : bset) (s : S) : res (bset * S) :=
    xs <- bs_into_list x;;
    let '(ys, s') := filter_state f s xs in
    x' <- bs_extend bs_new ys;;
    Ok (x', s').
  (** btree_set.rs:165-177 [new_diff], and the loop in it. The products [len * 4] do
      not overflow: no set has [2^62] elements. *)
  Fixpoint remove_all (s : bset) (xs : list T) : res bset :=
    match xs with
    | [] => Ok s
    | x :: xs' => '(s', _) <- bs_remove s (bor x);; remove_all s' xs'
    end.
  Definition bs_new_diff (lhs rhs : bset) : res bset :=
    if bs_len lhs * 4 <? bs_len rhs then
      xs <- bs_into_list lhs;;
      bs_from_iter (filter (fun k => negb (bs_contains rhs (bor k))) xs)
    else
      xs <- bs_into_list rhs;;
      remove_all lhs xs.
  (** btree_set.rs:180-189 [new_intersection]. *)
  Definition bs_new_intersection (lhs rhs : bset) : res bset :=
    if bs_len lhs <? bs_len rhs then
      xs <- bs_into_list lhs;;
      bs_from_iter (filter (fun k => bs_contains rhs (bor k)) xs)
    else
      xs <- bs_into_list rhs;;
      bs_from_iter (filter (fun k => bs_contains lhs (bor k)) xs).
  (** btree_set.rs:192-206 [new_union]; [entry(k).or_default()]. *)
  Fixpoint or_default_all (s : bset) (xs : list T) : res bset :=
    match xs with
    | [] => Ok s
    | x :: xs' => '(s', _) <- b_or_insert bor cmp N s x tt (fun v => v);; or_default_all s' xs'
    end.
  Definition bs_new_union (lhs rhs : bset) : res bset :=
    if bs_len lhs * 4 <=? bs_len rhs then
      xs <- bs_into_list lhs;;
      or_default_all rhs xs
    else
      xs <- bs_into_list rhs;;
      bs_extend lhs xs.
  (** btree_set.rs:209-226 [new_sym_diff]. *)
  Fixpoint toggle_all (s : bset) (xs : list T) : res bset :=
    match xs with
    | [] => Ok s
    | x :: xs' =>
      '(s1, was) <- bs_remove s (bor x);;
      s2 <- (if negb was then '(s2, _) <- bs_insert s1 x;; Ok s2 else Ok s1);;
      toggle_all s2 xs'
    end.
  Definition bs_new_sym_diff (lhs rhs : bset) : res bset :=
    let '(lhs, rhs) := if bs_len rhs <=? bs_len lhs then (lhs, rhs) else (rhs, lhs) in
    xs <- bs_into_list rhs;;
    toggle_all lhs xs.

  (** btree_set.rs:523-527 [eq], :517-521 [cmp], :529-533 [partial_cmp], :488-495 [hash],
      :343-348 [check]. *)
  Context (teq : T -> T -> bool) (ocmp : T -> T -> comparison).
  Definition bs_eq (a b : bset) : res bool := b_eq teq (fun _ _ => true) a b.
  Definition bs_cmp (a b : bset) : res comparison := b_cmp ocmp (fun _ _ => Eq) a b.
  Fixpoint bs_hash_loop {H} (fuel : nat) (ht : H -> T -> H) (i : bs_it) (s : H) : res H :=
    match fuel with
    | O => Panic
    | S fuel' =>
      '(o, i') <- bs_next i;;
      match o with None => Ok s | Some x => bs_hash_loop fuel' ht i' (ht s x) end
    end.
  Definition bs_hash {H} (hlen : H -> nat -> H) (ht : H -> T -> H) (a : bset) (s : H) : res H :=
    bs_hash_loop (S (bm_len a)) ht (bs_iter a) (hlen s (bm_len a)).
  Definition bs_check (a : bset) : res bool :=
    r <- b_chk bor cmp N a;; Ok (match r with inl _ => true | inr _ => false end).
End BTreeSet.

Section Client.
  Context {T Q : Type} (bor : T -> Q) (cmp : Q -> Q -> comparison) (N : nat).
  Context (teq : T -> T -> bool) (ocmp : T -> T -> comparison).
  Notation bset := (@bset T).
  Notation xon := AvlSetModel.xon.
  Notation xon2 := AvlSetModel.xon2.

  (** One call; [un] tells which nodes an owning iterator finds unshared. *)
  Definition bs_step (un : bt T unit -> bool) (st : list bset) (o : xop T Q)
    : res (list bset * xobs T) :=
    let put h (r : res (bset * option T)) := '(s', x) <- r;; Ok (x_set_nth h s' st, XElem x) in
    let putb h (r : res (bset * bool)) := '(s', b) <- r;; Ok (x_set_nth h s' st, XBool b) in
    let make (r : res bset) := s <- r;; Ok (st ++ [s], XUnit) in
    let items (r : res (list (option T))) := l <- r;; Ok (st, XItems l) in
    let yes (r : res bool) := b <- r;; Ok (st, XBool b) in
    match o with
    | XNew => Ok (st ++ [bs_new], XUnit)
    | XClone h => xon st h (fun s => Ok (st ++ [s], XUnit))
    | XFromIter xs => make (bs_from_iter bor cmp N xs)
    | XInsert h x => xon st h (fun s => putb h (bs_insert bor cmp N s x))
    | XRemove h q => xon st h (fun s => putb h (bs_remove bor cmp N s q))
    | XTake h q => xon st h (fun s => put h (bs_take bor cmp N s q))
    | XReplace h x => xon st h (fun s => put h (bs_replace bor cmp N s x))
    | XGet h q => xon st h (fun s => Ok (st, XElem (bs_get bor cmp s q)))
    | XContains h q => xon st h (fun s => Ok (st, XBool (bs_contains bor cmp s q)))
    | XFirst h => xon st h (fun s => x <- bs_first s;; Ok (st, XElem x))
    | XLast h => xon st h (fun s => Ok (st, XElem (bs_last s)))
    | XPopFirst h => xon st h (fun s => put h (bs_pop_first N s))
    | XPopLast h => xon st h (fun s => put h (bs_pop_last N s))
    | XLen h => xon st h (fun s => Ok (st, XNum (bs_len s)))
    | XIsEmpty h => xon st h (fun s => Ok (st, XBool (bs_is_empty s)))
    | XClear h => xon st h (fun s => Ok (x_set_nth h (bs_clear s) st, XUnit))
    | XExtend h xs => xon st h (fun s =>
        s' <- bs_extend bor cmp N s xs;; Ok (x_set_nth h s' st, XUnit))
    | XRetain h g => xon st h (fun s =>
        '(s', _) <- bs_retain bor cmp N un (fun u x => (u, g x)) s tt;; Ok (x_set_nth h s' st, XUnit))
    | XSplitOff h q => xon st h (fun s =>
        '(s1, s2) <- bs_split_off bor cmp N un s q;; Ok (x_set_nth h s1 st ++ [s2], XUnit))
    | XAppend h1 h2 => xon2 st h1 h2 (fun a b =>
        (* two [&mut] borrows: the sets are different *)
        if Nat.eqb h1 h2 then Ok (st, XUnit)
        else '(a', b') <- bs_append bor cmp N un a b;; Ok (x_set_nth h2 b' (x_set_nth h1 a' st), XUnit))
    | XNewUnion h1 h2 => xon2 st h1 h2 (fun a b => make (bs_new_union bor cmp N un a b))
    | XNewInter h1 h2 => xon2 st h1 h2 (fun a b => make (bs_new_intersection bor cmp N un a b))
    | XNewDiff h1 h2 => xon2 st h1 h2 (fun a b => make (bs_new_diff bor cmp N un a b))
    | XNewSymDiff h1 h2 => xon2 st h1 h2 (fun a b => make (bs_new_sym_diff bor cmp N un a b))
    | XUnion h1 h2 n => xon2 st h1 h2 (fun a b => items (bs_setop bor cmp p_union a b n))
    | XInter h1 h2 n => xon2 st h1 h2 (fun a b => items (bs_setop bor cmp p_intersection a b n))
    | XDiff h1 h2 n => xon2 st h1 h2 (fun a b => items (bs_setop bor cmp p_difference a b n))
    | XSymDiff h1 h2 n => xon2 st h1 h2 (fun a b =>
        items (bs_setop bor cmp p_symmetric_difference a b n))
    | XIsDisjoint h1 h2 => xon2 st h1 h2 (fun a b => yes (bs_is_disjoint bor cmp a b))
    | XIsSubset h1 h2 => xon2 st h1 h2 (fun a b => yes (bs_is_subset bor cmp a b))
    | XIsSuperset h1 h2 => xon2 st h1 h2 (fun a b => yes (bs_is_superset bor cmp a b))
    | XIter h n => xon st h (fun s => l <- bs_ends (repeat Front n) (bs_iter s);; Ok (st, XSeq l))
    | XRange h lo hi cs => xon st h (fun s => items (bs_range bor cmp s lo hi cs))
    | XEq h1 h2 => xon2 st h1 h2 (fun a b => yes (bs_eq teq a b))
    | XCmp h1 h2 => xon2 st h1 h2 (fun a b => r <- bs_cmp ocmp a b;; Ok (st, XOrd r))
    | XCheck h => xon st h (fun s => yes (bs_check bor cmp N s))
    end.

  (** A history; [un] may answer differently at every call. *)
  Fixpoint bs_run (un : nat -> bt T unit -> bool) (st : list bset) (os : list (xop T Q))
    : res (list bset * list (xobs T)) :=
    match os with
    | [] => Ok (st, [])
    | o :: os' =>
      '(st1, r) <- bs_step (un 0) st o;;
      '(st2, rs) <- bs_run (fun n => un (S n)) st1 os';;
      Ok (st2, r :: rs)
    end.
End Client.
