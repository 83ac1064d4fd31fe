(** Model of [/repo/src/avl/avl_set.rs]: [AvlSet] over the map model. *)
From Coq Require Import List ZArith Bool NArith.
From Verif Require Import Base Spec SetSpec AvlModel AvlIterModel SetOpModel.
Import ListNotations.

Section AvlSet.
  Context {T Q : Type} (bor : T -> Q) (cmp : Q -> Q -> comparison).
  (** avl_set.rs:20-22 [struct AvlSet] (derive(Clone)): an [AvlMap<T, ()>]. *)
  Definition aset := avl_map T unit.
  Notation tree := (tree T unit).

  (** avl_set.rs:214-216 [new], :510 [default], :34-36 [clear], :209-211 [len], :97-99 [is_empty]. *)
  Definition as_new : aset := avl_new.
  Definition as_clear (s : aset) : aset := avl_clear s.
  Definition as_len (s : aset) : nat := avl_len s.
  Definition as_is_empty (s : aset) : bool := avl_is_empty s.
  (** avl_set.rs:39-45 [contains], :63-69 [get], :58-60 [first], :204-206 [last]. *)
  Definition as_contains (s : aset) (q : Q) : bool := avl_contains_key bor cmp s q.
  Definition as_get (s : aset) (q : Q) : option T := option_map fst (avl_get_key_value bor cmp s q).
  Definition as_first (s : aset) : option T := option_map fst (avl_first_key_value s).
  Definition as_last (s : aset) : option T := option_map fst (avl_last_key_value s).
  (** avl_set.rs:73-78 [insert], :305-311 [remove]. *)
  Definition as_insert (s : aset) (x : T) : res (aset * bool) :=
    '(s', o) <- avl_insert bor cmp s x tt;; Ok (s', is_none o).
  Definition as_remove (s : aset) (q : Q) : res (aset * bool) :=
    '(s', o) <- avl_remove bor cmp s q;; Ok (s', is_some o).
  (** avl_set.rs:393-404 [take]. *)
  Definition as_take (s : aset) (q : Q) : res (aset * option T) :=
    '(t, o, _) <- rm bor cmp (am_root s) q;;
    match o with
    | Some (k, _) => len <- usize_sub (am_len s) 1;; Ok (AvlMap len t, Some k)
    | None => Ok (AvlMap (am_len s) t, None)
    end.
  (** avl_set.rs:314-322 [replace]. *)
  Definition as_replace (s : aset) (x : T) : res (aset * option T) :=
    '(s1, ret) <- as_take s (bor x);;
    '(s2, _) <- as_insert s1 x;;
    Ok (s2, ret).
  (** avl_set.rs:275-288 [pop_first], [pop_last]. *)
  Definition as_pop_first (s : aset) : res (aset * option T) :=
    '(s', o) <- avl_pop_first s;; Ok (s', option_map fst o).
  Definition as_pop_last (s : aset) : res (aset * option T) :=
    '(s', o) <- avl_pop_last s;; Ok (s', option_map fst o).
  (** avl_set.rs:26-31 [append], :363-371 [split_off]. *)
  Definition as_append (a b : aset) : res (aset * aset) := avl_append bor cmp a b.
  Definition as_split_off (s : aset) (q : Q) : res (aset * aset) := avl_split_off bor cmp s q.
  (** avl_set.rs:516-530 [extend] (both), :532-536 [From<[T; N]>], :538-544 [from_iter]. *)
  Fixpoint as_extend (s : aset) (xs : list T) : res aset :=
    match xs with
    | [] => Ok s
    | x :: xs' => '(s', _) <- as_insert s x;; as_extend s' xs'
    end.
  Definition as_from_iter (xs : list T) : res aset := as_extend as_new xs.

  (** avl_set.rs:325-360 [retain]: the depth-first walk inserts what is kept into a
      new map. [make_mut] then [try_unwrap] always succeeds. The closure is
      state-passing. *)
  Fixpoint retain_dfs {S} (f : S -> T -> S * bool) (n : tree) (s : S) (acc : avl_map T unit)
    : res (S * avl_map T unit) :=
    match n with
    | Leaf => Ok (s, acc)
    | Node k _ _ _ l r =>
      '(s1, acc1) <- retain_dfs f l s acc;;
      let '(s2, keep) := f s1 k in
      acc2 <- (if keep : bool then '(m, _) <- avl_insert bor cmp acc1 k tt;; Ok m else Ok acc1);;
      retain_dfs f r s2 acc2
    end.
  Definition as_retain {S} (f : S -> T -> S * bool) (x : aset) (s : S) : res (aset * S) :=
    match am_root x with
    | Leaf => Ok (x, s)
    | root => '(s', acc) <- retain_dfs f root s avl_new;; Ok (acc, s')
    end.

  (** avl_set.rs:219-272 [new_diff], [new_intersection], [new_union], [new_sym_diff]; the
      operators [-] (:593), [&] (:478), [|] (:486), [^] (:494) call them on clones. *)
  Definition as_new_diff (a b : aset) : res aset := avl_new_diff bor cmp a b.
  Definition as_new_intersection (a b : aset) : res aset := avl_new_intersect bor cmp a b.
  Definition as_new_union (a b : aset) : res aset := avl_new_union bor cmp a b.
  Definition as_new_sym_diff (a b : aset) : res aset := avl_new_sym_diff bor cmp a b.

  (** avl_set.rs:433-451 [Iter]: [next] and [len]. *)
  Definition as_it := inner_iter (@nnode T unit) (T * unit).
  Definition as_iter (s : aset) : as_it := avl_iter s.
  Definition as_next (i : as_it) : res (option T * as_it) :=
    '(o, i') <- avl_next i;; Ok (option_map fst o, i').
  Definition as_it_len (i : as_it) : nat := it_len i.
  (** The results of [n] calls of [next], each with the [len()] after it. *)
  Fixpoint as_nexts (n : nat) (i : as_it) : res (list (option T * nat)) :=
    match n with
    | O => Ok []
    | S n' => '(o, i') <- as_next i;; rest <- as_nexts n' i';; Ok ((o, as_it_len i') :: rest)
    end.
  (** avl_set.rs:291-301 [range]. *)
  Definition as_range (s : aset) (lb ub : bound Q) (cs : list end_call) : res (list (option T)) :=
    it <- avl_range bor cmp s lb ub;;
    l <- run_ends norm_destr norm_size cs it;;
    Ok (map (fun x => option_map fst (fst x)) l).

  (** avl_set.rs:48-53 [difference], :81-86 [intersection], :374-379
      [symmetric_difference], :409-411 [union]: the results of [n] calls of [next]. *)
  Definition tcmp (x y : T) : comparison := cmp (bor x) (bor y).
  Definition as_setop (policy : N) (a b : aset) (n : nat) : res (list (option T)) :=
    setop_nexts as_next as_it_len tcmp n policy (merge_new (as_iter a) (as_iter b)).
  (** avl_set.rs:89-94 [is_disjoint]. *)
  Definition as_is_disjoint (a b : aset) : res bool :=
    '(o, _) <- setop_next as_next as_it_len tcmp p_intersection (merge_new (as_iter a) (as_iter b));;
    Ok (is_none o).

  (** *** [is_subset]

      [same a b] is [Arc::ptr_eq] of the pointers to two nodes. Two pointers can be
      equal only if the nodes are; when they are is not fixed here. *)
  Context (same : tree -> tree -> bool).

  (** How the [while] loop of [has_all] ends: the two pointers are equal; an equal
      key; no such key. *)
  Inductive seek_res := SamePtr | EqualKey | NoKey.
  (** A worklist entry: a node of [rhs] and [is_left_done]; the top is the head. *)
  Definition w_node (t : tree) : tree * bool :=
    (t, match t with Node _ _ _ _ Leaf _ => true | _ => false end).
  Definition w_right (t : tree) (w : list (tree * bool)) : list (tree * bool) :=
    match t with
    | Node _ _ _ _ _ Leaf | Leaf => w
    | Node _ _ _ _ _ r => w_node r :: w
    end.
  (** avl_set.rs:133-180: the loop; [lhs] is the node with key [k]. *)
  Fixpoint seek (fuel : nat) (lhs : tree) (k : T) (w : list (tree * bool))
    : res (seek_res * list (tree * bool)) :=
    match fuel with
    | O => Panic
    | S fuel' =>
      match w with
      | [] => Ok (NoKey, [])
      | (rhs, is_left_done) :: w' =>
        if same lhs rhs then Ok (SamePtr, w') else
        match rhs with
        | Leaf => Panic (* not a node *)
        | Node rk _ _ _ rl _ =>
          match cmp (bor k) (bor rk) with
          | Lt =>
            if is_left_done then Ok (NoKey, w)
            else match rl with
                 | Leaf => Panic
                 | _ => seek fuel' lhs k (w_node rl :: (rhs, true) :: w')
                 end
          | Eq => Ok (EqualKey, w_right rhs w')
          | Gt => seek fuel' lhs k (w_right rhs w')
          end
        end
      end
    end.
  Definition w_size (w : list (tree * bool)) : nat :=
    fold_right (fun x s => 2 * t_len (fst x) + s)%nat 0%nat w.
  (** avl_set.rs:112-181 [has_all]. *)
  Fixpoint has_all (lhs : tree) (w : list (tree * bool)) : res (bool * list (tree * bool)) :=
    match lhs with
    | Leaf => Panic (* not a node *)
    | Node k _ _ _ ll lr =>
      '(ok, w1) <- match ll with Leaf => Ok (true, w) | _ => has_all ll w end;;
      if negb ok then Ok (false, w1) else
      '(r, w2) <- seek (S (w_size w1)) lhs k w1;;
      match r with
      | SamePtr => Ok (true, w2)
      | NoKey => Ok (false, w2)
      | EqualKey => match lr with Leaf => Ok (true, w2) | _ => has_all lr w2 end
      end
    end.
  (** avl_set.rs:102-186 [is_subset], :189-194 [is_superset]. *)
  Definition as_is_subset (a b : aset) : res bool :=
    if as_is_empty a then Ok true
    else if Nat.ltb (as_len b) (as_len a) then Ok false
    else match am_root a, am_root b with
         | Leaf, _ | _, Leaf => Panic
         | lhs, rhs => '(r, _) <- has_all lhs [w_node rhs];; Ok r
         end.
  Definition as_is_superset (a b : aset) : res bool := as_is_subset b a.

  (** avl_set.rs:579-583 [eq], :573-577 [cmp], :585-589 [partial_cmp], :546-553 [hash]; all values are [()]. *)
  Context (teq : T -> T -> bool) (ocmp : T -> T -> comparison).
  Definition as_eq (a b : aset) : res bool := avl_eq teq (fun _ _ => true) a b.
  Definition as_cmp (a b : aset) : res comparison := avl_cmp ocmp (fun _ _ => Eq) a b.
  Fixpoint as_hash_loop {H} (fuel : nat) (ht : H -> T -> H) (i : as_it) (s : H) : res H :=
    match fuel with
    | O => Panic
    | S fuel' =>
      '(o, i') <- as_next i;;
      match o with None => Ok s | Some x => as_hash_loop fuel' ht i' (ht s x) end
    end.
  Definition as_hash {H} (hlen : H -> nat -> H) (ht : H -> T -> H) (a : aset) (s : H) : res H :=
    as_hash_loop (S (am_len a)) ht (as_iter a) (hlen s (am_len a)).
  (** avl_set.rs:417-423 [check]. *)
  Definition as_check (a : aset) : res bool :=
    r <- avl_chk bor cmp a;; Ok (match r with inl _ => true | inr _ => false end).
End AvlSet.

Section Client.
  Context {T Q : Type} (bor : T -> Q) (cmp : Q -> Q -> comparison).
  Context (teq : T -> T -> bool) (ocmp : T -> T -> comparison).
  Notation aset := (@aset T).

  Section On.
    Context {M : Type}.
    (** Calls with a handle that does not exist do nothing. *)
    Definition xon (st : list M) (h : nat) (f : M -> res (list M * xobs T)) : res (list M * xobs T) :=
      match nth_error st h with Some m => f m | None => Ok (st, XUnit) end.
    Definition xon2 (st : list M) (h1 h2 : nat) (f : M -> M -> res (list M * xobs T)) :=
      xon st h1 (fun a => xon st h2 (fun b => f a b)).
  End On.

  (** One call; [same] is [Arc::ptr_eq] at that time. *)
  Definition as_step (same : tree T unit -> tree T unit -> bool) (st : list aset) (o : xop T Q)
    : res (list aset * xobs T) :=
    let put h (r : res (aset * option T)) := '(s', x) <- r;; Ok (x_set_nth h s' st, XElem x) in
    let putb h (r : res (aset * bool)) := '(s', b) <- r;; Ok (x_set_nth h s' st, XBool b) in
    let make (r : res aset) := s <- r;; Ok (st ++ [s], XUnit) in
    let items (r : res (list (option T))) := l <- r;; Ok (st, XItems l) in
    let yes (r : res bool) := b <- r;; Ok (st, XBool b) in
    match o with
    | XNew => Ok (st ++ [as_new], XUnit)
    | XClone h => xon st h (fun s => Ok (st ++ [s], XUnit))
    | XFromIter xs => make (as_from_iter bor cmp xs)
    | XInsert h x => xon st h (fun s => putb h (as_insert bor cmp s x))
    | XRemove h q => xon st h (fun s => putb h (as_remove bor cmp s q))
    | XTake h q => xon st h (fun s => put h (as_take bor cmp s q))
    | XReplace h x => xon st h (fun s => put h (as_replace bor cmp s x))
    | XGet h q => xon st h (fun s => Ok (st, XElem (as_get bor cmp s q)))
    | XContains h q => xon st h (fun s => Ok (st, XBool (as_contains bor cmp s q)))
    | XFirst h => xon st h (fun s => Ok (st, XElem (as_first s)))
    | XLast h => xon st h (fun s => Ok (st, XElem (as_last s)))
    | XPopFirst h => xon st h (fun s => put h (as_pop_first s))
    | XPopLast h => xon st h (fun s => put h (as_pop_last s))
    | XLen h => xon st h (fun s => Ok (st, XNum (as_len s)))
    | XIsEmpty h => xon st h (fun s => Ok (st, XBool (as_is_empty s)))
    | XClear h => xon st h (fun s => Ok (x_set_nth h (as_clear s) st, XUnit))
    | XExtend h xs => xon st h (fun s =>
        s' <- as_extend bor cmp s xs;; Ok (x_set_nth h s' st, XUnit))
    | XRetain h g => xon st h (fun s =>
        '(s', _) <- as_retain bor cmp (fun u x => (u, g x)) s tt;; Ok (x_set_nth h s' st, XUnit))
    | XSplitOff h q => xon st h (fun s =>
        '(s1, s2) <- as_split_off bor cmp s q;; Ok (x_set_nth h s1 st ++ [s2], XUnit))
    | XAppend h1 h2 => xon2 st h1 h2 (fun a b =>
        (* two [&mut] borrows: the sets are different *)
        if Nat.eqb h1 h2 then Ok (st, XUnit)
        else '(a', b') <- as_append bor cmp a b;; Ok (x_set_nth h2 b' (x_set_nth h1 a' st), XUnit))
    | XNewUnion h1 h2 => xon2 st h1 h2 (fun a b => make (as_new_union bor cmp a b))
    | XNewInter h1 h2 => xon2 st h1 h2 (fun a b => make (as_new_intersection bor cmp a b))
    | XNewDiff h1 h2 => xon2 st h1 h2 (fun a b => make (as_new_diff bor cmp a b))
    | XNewSymDiff h1 h2 => xon2 st h1 h2 (fun a b => make (as_new_sym_diff bor cmp a b))
    | XUnion h1 h2 n => xon2 st h1 h2 (fun a b => items (as_setop bor cmp p_union a b n))
    | XInter h1 h2 n => xon2 st h1 h2 (fun a b => items (as_setop bor cmp p_intersection a b n))
    | XDiff h1 h2 n => xon2 st h1 h2 (fun a b => items (as_setop bor cmp p_difference a b n))
    | XSymDiff h1 h2 n => xon2 st h1 h2 (fun a b =>
        items (as_setop bor cmp p_symmetric_difference a b n))
    | XIsDisjoint h1 h2 => xon2 st h1 h2 (fun a b => yes (as_is_disjoint bor cmp a b))
    | XIsSubset h1 h2 => xon2 st h1 h2 (fun a b => yes (as_is_subset bor cmp same a b))
    | XIsSuperset h1 h2 => xon2 st h1 h2 (fun a b => yes (as_is_superset bor cmp same a b))
    | XIter h n => xon st h (fun s => l <- as_nexts n (as_iter s);; Ok (st, XSeq l))
    | XRange h lo hi cs => xon st h (fun s => items (as_range bor cmp s lo hi cs))
    | XEq h1 h2 => xon2 st h1 h2 (fun a b => yes (as_eq teq a b))
    | XCmp h1 h2 => xon2 st h1 h2 (fun a b => r <- as_cmp ocmp a b;; Ok (st, XOrd r))
    | XCheck h => xon st h (fun s => yes (as_check bor cmp s))
    end.

  (** A history; [same] may answer differently at every call. *)
  Fixpoint as_run (same : nat -> tree T unit -> tree T unit -> bool) (st : list aset) (os : list (xop T Q))
    : res (list aset * list (xobs T)) :=
    match os with
    | [] => Ok (st, [])
    | o :: os' =>
      '(st1, r) <- as_step (same 0%nat) st o;;
      '(st2, rs) <- as_run (fun n => same (S n)) st1 os';;
      Ok (st2, r :: rs)
    end.
End Client.
