(** Model of the iterators of [/repo/src/avl.rs]: the generic worklist iterator
    [InnerIter], its instances for shared and mutable iteration, [range] and
    [range_mut], and the trait implementations that are built on iteration
    ([PartialEq], [PartialOrd], [Ord], [Hash]). *)
From Coq Require Import List ZArith Bool.
From Verif Require Import Base Spec AvlModel.
Import ListNotations.

(** avl.rs:1915-1918 [enum IterAction]. *)
Inductive action (N I : Type) : Type :=
| Descend (n : N)
| Return (i : I).
Arguments Descend {N I} n.
Arguments Return {N I} i.

(** avl.rs:1929-1932 [struct InnerIter]; the [VecDeque] is a list, front first. *)
Record inner_iter (N I : Type) := InnerIter { it_work : list (action N I); it_len : nat }.
Arguments InnerIter {N I} it_work it_len.
Arguments it_work {N I} i.
Arguments it_len {N I} i.

Section Inner.
  (** avl.rs:1920-1927 [trait IterNode]: [destruct] splits a node. *)
  Context {N I : Type} (destr : N -> option N * I * option N).
  (** A bound on the work below a node. Used only to compute fuel: running out of
      fuel is a [Panic] that the theorems exclude. *)
  Context (nsize : N -> nat).

  Definition odesc (o : option N) : list (action N I) :=
    match o with Some n => [Descend n] | None => [] end.

  Definition asize (a : action N I) : nat :=
    match a with Descend n => nsize n | Return _ => 0 end.
  Definition wsize (w : list (action N I)) : nat := fold_right (fun a s => asize a + s)%nat 0%nat w.

  (** avl.rs:1934-1965 [InnerIter::next]. *)
  Fixpoint next_fuel (fuel : nat) (w : list (action N I)) (len : nat)
    : res (option I * inner_iter N I) :=
    match fuel with
    | O => Panic
    | S fuel' =>
      match w with
      | [] => Ok (None, InnerIter [] len)
      | Return x :: w' => n <- usize_sub len 1;; Ok (Some x, InnerIter w' n)
      | Descend n :: w' =>
        let '(lf, item, rt) := destr n in
        next_fuel fuel' (odesc lf ++ Return item :: odesc rt ++ w') len
      end
    end.
  Definition next (it : inner_iter N I) : res (option I * inner_iter N I) :=
    next_fuel (S (wsize (it_work it))) (it_work it) (it_len it).

  (** avl.rs:1967-1996 [InnerIter::next_back]; the back of the deque is the head
      of the reversed list. *)
  Fixpoint next_back_fuel (fuel : nat) (w : list (action N I)) (len : nat)
    : res (option I * inner_iter N I) :=
    match fuel with
    | O => Panic
    | S fuel' =>
      match rev w with
      | [] => Ok (None, InnerIter [] len)
      | Return x :: w' => n <- usize_sub len 1;; Ok (Some x, InnerIter (rev w') n)
      | Descend n :: w' =>
        let '(lf, item, rt) := destr n in
        next_back_fuel fuel' (rev w' ++ odesc lf ++ Return item :: odesc rt) len
      end
    end.
  Definition next_back (it : inner_iter N I) : res (option I * inner_iter N I) :=
    next_back_fuel (S (wsize (it_work it))) (it_work it) (it_len it).

  (** avl.rs:1998-2002 [ExactSizeIterator::len]. *)
  Definition it_remaining (it : inner_iter N I) : nat := it_len it.

  (** [Iterator::size_hint] is not overridden by [Iter], [IterMut], [IntoIter]
      (avl.rs:2026-2046, 2068-2088, 2198-2218): the provided method. *)
  Definition it_size_hint (it : inner_iter N I) : nat * option nat := (0%nat, None).
  (** avl.rs:2101-2103 [Range::size_hint]. *)
  Definition range_size_hint (it : inner_iter N I) : nat * option nat := (0%nat, Some (it_len it)).

  (** Results of a sequence of calls, each with the [len()] reported after it. *)
  Fixpoint run_ends (cs : list end_call) (it : inner_iter N I) : res (list (option I * nat)) :=
    match cs with
    | [] => Ok []
    | c :: cs' =>
      '(x, it') <- match c with Front => next it | Back => next_back it end;;
      rest <- run_ends cs' it';;
      Ok ((x, it_len it') :: rest)
    end.

  (** *** [range] / [range_mut] *)
  Context {Q : Type} (ikey : I -> Q) (cmp : Q -> Q -> comparison) (lb ub : bound Q).

  (** [RangeBounds::contains] (core): lower then upper bound. *)
  Definition contains (q : Q) : bool :=
    match lb with
    | Unbounded => true
    | Included k => match cmp k q with Gt => false | _ => true end
    | Excluded k => match cmp k q with Lt => true | _ => false end
    end &&
    match ub with
    | Unbounded => true
    | Included k => match cmp q k with Gt => false | _ => true end
    | Excluded k => match cmp q k with Lt => true | _ => false end
    end.

  (** avl.rs:1562-1565, 1596-1599 [Excluded(k) | Included(k) if k <= n.key]. *)
  Definition prune_rt (q : Q) : bool :=
    match ub with
    | Unbounded => false
    | Included k | Excluded k => match cmp k q with Gt => false | _ => true end
    end.
  (** avl.rs:1573-1576, 1585-1588 [Excluded(k) | Included(k) if k >= n.key]. *)
  Definition prune_lf (q : Q) : bool :=
    match lb with
    | Unbounded => false
    | Included k | Excluded k => match cmp k q with Lt => false | _ => true end
    end.

  (** What one round of either loop puts in place of [Descend n]. *)
  Definition expand (n : N) : list (action N I) :=
    let '(lf, item, rt) := destr n in
    (if prune_lf (ikey item) then [] else odesc lf)
      ++ (if contains (ikey item) then [Return item] else [])
      ++ (if prune_rt (ikey item) then [] else odesc rt).

  (** avl.rs:1556-1578 (and 1640-1662): the front loop. *)
  Fixpoint prune_front (fuel : nat) (w : list (action N I)) : res (list (action N I)) :=
    match fuel with
    | O => Panic
    | S fuel' =>
      match w with
      | Descend n :: w' => prune_front fuel' (expand n ++ w')
      | _ => Ok w
      end
    end.

  (** avl.rs:1581-1603 (and 1665-1687): the back loop. *)
  Fixpoint prune_back (fuel : nat) (w : list (action N I)) : res (list (action N I)) :=
    match fuel with
    | O => Panic
    | S fuel' =>
      match rev w with
      | Descend n :: w' => prune_back fuel' (rev w' ++ expand n)
      | _ => Ok w
      end
    end.

  (** avl.rs:1534-1613 [range], :1616-1691 [range_mut]. *)
  Definition range_iter (root : option N) (len : nat) : res (inner_iter N I) :=
    let w0 := odesc root in
    w1 <- prune_front (S (wsize w0)) w0;;
    w2 <- prune_back (S (wsize w1)) w1;;
    Ok (InnerIter w2 len).
End Inner.

Section AvlIter.
  Context {K V Q : Type} (bor : K -> Q) (cmp : Q -> Q -> comparison).

  (** avl.rs:2014-2018 [NormIterNode::destruct], and by value :2160-2185
      [IntoIterNode::destruct] (both arms yield the same value; which arm runs
      depends on sharing). A [Leaf] is never put on a worklist: that would
      need a default item, so nodes carry their entry. *)
  Definition nnode := ((K * V) * tree K V * tree K V)%type.
  Definition mk_nnode (t : tree K V) : option nnode :=
    match t with Leaf => None | Node k v _ _ l r => Some ((k, v), l, r) end.
  Definition norm_destr (n : nnode) : option nnode * (K * V) * option nnode :=
    let '(e, l, r) := n in (mk_nnode l, e, mk_nnode r).
  Definition norm_size (n : nnode) : nat := let '(_, l, r) := n in (t_len l + 1 + t_len r)%nat.

  (** avl.rs:1243-1255 [iter], :2220-2238 [into_iter]. *)
  Definition avl_iter (m : avl_map K V) : inner_iter nnode (K * V) :=
    InnerIter (odesc (mk_nnode (am_root m))) (am_len m).
  Definition avl_next := next norm_destr norm_size.
  Definition avl_next_back := next_back norm_destr norm_size.

  (** avl.rs:1534-1613 [range]. *)
  Definition avl_range (m : avl_map K V) (lb ub : bound Q) : res (inner_iter nnode (K * V)) :=
    range_iter norm_destr norm_size (fun e => bor (fst e)) cmp lb ub (mk_nnode (am_root m)) (avl_len m).

  (** All remaining items, by calling [next] until [None] ([Iterator::collect]). *)
  Fixpoint collect (fuel : nat) (it : inner_iter nnode (K * V)) : res (list (K * V)) :=
    match fuel with
    | O => Panic
    | S fuel' =>
      '(x, it') <- avl_next it;;
      match x with
      | None => Ok []
      | Some e => rest <- collect fuel' it';; Ok (e :: rest)
      end
    end.
  Definition avl_collect (m : avl_map K V) : res (list (K * V)) :=
    collect (S (am_len m)) (avl_iter m).

  (** *** Mutable iteration

      A [&mut V] into a map is the position of its entry in the tree (the list of
      turns from the root), together with the key. *)
  Definition path := list bool.   (* true = right *)
  Definition mref := (path * K)%type.
  Definition mnode := (path * K * tree K V * tree K V)%type.
  Definition mk_mnode (p : path) (t : tree K V) : option mnode :=
    match t with Leaf => None | Node k _ _ _ l r => Some (p, k, l, r) end.
  (** avl.rs:2053-2066 [IterMutNode::destruct]. *)
  Definition mut_destr (n : mnode) : option mnode * mref * option mnode :=
    let '(p, k, l, r) := n in
    (mk_mnode (p ++ [false]) l, (p, k), mk_mnode (p ++ [true]) r).
  Definition mut_size (n : mnode) : nat := let '(_, _, l, r) := n in (t_len l + 1 + t_len r)%nat.

  (** avl.rs:1281-1299 [iter_mut]; [values_mut] (:1843-1851) maps it. *)
  Definition avl_iter_mut (m : avl_map K V) : inner_iter mnode mref :=
    InnerIter (odesc (mk_mnode [] (am_root m))) (am_len m).
  (** avl.rs:1616-1691 [range_mut]. *)
  Definition avl_range_mut (m : avl_map K V) (lb ub : bound Q) : res (inner_iter mnode mref) :=
    range_iter mut_destr mut_size (fun r => bor (snd r)) cmp lb ub (mk_mnode [] (am_root m)) (avl_len m).

  (** Writing through a reference. *)
  Fixpoint write_at (p : path) (w : V -> V) (t : tree K V) {struct t} : tree K V :=
    match t with
    | Leaf => Leaf
    | Node k v lh rh l r =>
      match p with
      | [] => Node k (w v) lh rh l r
      | false :: p' => Node k v lh rh (write_at p' w l) r
      | true :: p' => Node k v lh rh l (write_at p' w r)
      end
    end.
  Definition avl_write (r : mref) (w : V -> V) (m : avl_map K V) : avl_map K V :=
    AvlMap (am_len m) (write_at (fst r) w (am_root m)).

  (** *** Comparison and hashing *)
  Context (keq : K -> K -> bool) (veq : V -> V -> bool).
  Context (kcmp : K -> K -> comparison) (vcmp : V -> V -> comparison).

  (** avl.rs:259-268 [PartialEq::eq]: same length and [zip(..).all(..)]. *)
  Fixpoint zip_all (fuel : nat) (a b : inner_iter nnode (K * V)) : res bool :=
    match fuel with
    | O => Panic
    | S fuel' =>
      '(x, a') <- avl_next a;;
      match x with
      | None => Ok true
      | Some (k1, v1) =>
        '(y, b') <- avl_next b;;
        match y with
        | None => Ok true
        | Some (k2, v2) => if keq k1 k2 && veq v1 v2 then zip_all fuel' a' b' else Ok false
        end
      end
    end.
  Definition avl_eq (a b : avl_map K V) : res bool :=
    if Nat.eqb (avl_len a) (avl_len b)
    then zip_all (S (am_len a)) (avl_iter a) (avl_iter b)
    else Ok false.

  (** [Ord::cmp] on pairs. *)
  Definition pair_cmp (x y : K * V) : comparison :=
    match kcmp (fst x) (fst y) with Eq => vcmp (snd x) (snd y) | c => c end.

  (** avl.rs:272-286 [PartialOrd], [Ord]: [Iterator::cmp] of the two iterators. *)
  Fixpoint iter_cmp (fuel : nat) (a b : inner_iter nnode (K * V)) : res comparison :=
    match fuel with
    | O => Panic
    | S fuel' =>
      '(x, a') <- avl_next a;;
      match x with
      | None => '(y, _) <- avl_next b;; Ok (match y with None => Eq | Some _ => Lt end)
      | Some e1 =>
        '(y, b') <- avl_next b;;
        match y with
        | None => Ok Gt
        | Some e2 => match pair_cmp e1 e2 with Eq => iter_cmp fuel' a' b' | c => Ok c end
        end
      end
    end.
  Definition avl_cmp (a b : avl_map K V) : res comparison :=
    iter_cmp (S (am_len a)) (avl_iter a) (avl_iter b).

  (** avl.rs:288-300 [Hash::hash] into a hasher with state [H]. *)
  Definition avl_hash {H} (hlen : H -> nat -> H) (hk : H -> K -> H) (hv : H -> V -> H)
             (m : avl_map K V) (s : H) : H :=
    for_each (fun s k v => hv (hk s k) v) (am_root m) (hlen s (am_len m)).
End AvlIter.
