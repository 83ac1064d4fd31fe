(** Model of the iterators of [/repo/src/btree.rs]: the shared worklist iterator
    [InnerIter] over the [NodeIter] trait, its borrowed and owning instances, [range]
    and [range_mut]; and what the map builds on iteration ([append], [retain],
    [split_off], [PartialEq], [PartialOrd], [Ord]). *)
From Coq Require Import List PeanoNat Bool.
From Verif Require Import Base Spec Vec BTreeModel.
Import ListNotations.

(** btree.rs:1225-1239 [trait NodeIter], with the constructor that [InnerIter] keeps
    as [make_node_iter]. [ni_fuel] bounds the descents that can start at a node
    iterator; running out of fuel is a [Panic] that the theorems exclude. *)
Record node_iter (E C I : Type) := NodeIter {
  ni_empty : E -> bool;
  ni_next_elem : E -> res (option I * E);
  ni_next_back_elem : E -> res (option I * E);
  ni_next_kid : E -> res (option C * E);
  ni_next_back_kid : E -> res (option C * E);
  ni_lf : E -> bool;
  ni_rt : E -> bool;
  ni_make : C -> E;
  ni_fuel : E -> nat }.
Arguments ni_empty {E C I}.
Arguments ni_next_elem {E C I}.
Arguments ni_next_back_elem {E C I}.
Arguments ni_next_kid {E C I}.
Arguments ni_next_back_kid {E C I}.
Arguments ni_lf {E C I}.
Arguments ni_rt {E C I}.
Arguments ni_make {E C I}.
Arguments ni_fuel {E C I}.

(** btree.rs:1332-1336 [struct InnerIter]; the [VecDeque] is a list, front first. *)
Record b_iter (E : Type) := BIter { bi_work : list E; bi_len : nat }.
Arguments BIter {E} bi_work bi_len.
Arguments bi_work {E} b.
Arguments bi_len {E} b.

Section Inner.
  Context {E C I : Type} (ops : node_iter E C I).

  (** btree.rs:1346-1352: the loop that descends at the front. *)
  Fixpoint des_lf (fuel : nat) (w : list E) : res (list E) :=
    match fuel, w with
    | S fuel', erg :: w' =>
      '(kid, erg1) <- ni_next_kid ops erg;;
      match kid with
      | None => Ok (erg1 :: w')
      | Some c => des_lf fuel' (ni_make ops c :: (if ni_empty ops erg1 then w' else erg1 :: w'))
      end
    | _, _ => Panic
    end.

  (** btree.rs:1338-1366 [InnerIter::next]. *)
  Definition b_next (it : b_iter E) : res (option I * b_iter E) :=
    match bi_work it with
    | [] => Ok (None, it)
    | erg :: _ =>
      w <- (if ni_lf ops erg then des_lf (ni_fuel ops erg) (bi_work it) else Ok (bi_work it));;
      match w with
      | [] => Panic
      | erg :: w' =>
        '(ret, erg1) <- ni_next_elem ops erg;;
        _ <- assert_ (match ret with Some _ => true | None => false end);;
        len <- usize_sub (bi_len it) 1;;
        Ok (ret, BIter (if ni_empty ops erg1 then w' else erg1 :: w') len)
      end
    end.

  (** btree.rs:1373-1379: the loop that descends at the back. *)
  Fixpoint des_rt (fuel : nat) (w : list E) : res (list E) :=
    match fuel with
    | O => Panic
    | S fuel' =>
      '(erg, w') <- unwrap (vec_pop w);;
      '(kid, erg1) <- ni_next_back_kid ops erg;;
      match kid with
      | None => Ok (w' ++ [erg1])
      | Some c => des_rt fuel' ((if ni_empty ops erg1 then w' else w' ++ [erg1]) ++ [ni_make ops c])
      end
    end.

  (** btree.rs:1368-1393 [InnerIter::next_back]. *)
  Definition b_next_back (it : b_iter E) : res (option I * b_iter E) :=
    match vec_pop (bi_work it) with
    | None => Ok (None, it)
    | Some (erg, _) =>
      w <- (if ni_rt ops erg then des_rt (ni_fuel ops erg) (bi_work it) else Ok (bi_work it));;
      '(erg, w') <- unwrap (vec_pop w);;
      '(ret, erg1) <- ni_next_back_elem ops erg;;
      _ <- assert_ (match ret with Some _ => true | None => false end);;
      len <- usize_sub (bi_len it) 1;;
      Ok (ret, BIter (if ni_empty ops erg1 then w' else w' ++ [erg1]) len)
    end.

  (** Results of a sequence of calls, each with the [len()] reported after it
      (btree.rs:1410-1414, 1465-1473, 1722-1730). *)
  Fixpoint b_run_ends (cs : list end_call) (it : b_iter E) : res (list (option I * nat)) :=
    match cs with
    | [] => Ok []
    | c :: cs' =>
      '(x, it') <- match c with Front => b_next it | Back => b_next_back it end;;
      rest <- b_run_ends cs' it';;
      Ok ((x, bi_len it') :: rest)
    end.

  (** All remaining items, by calling [next] until [None]. [fuel] bounds their number. *)
  Fixpoint b_items (fuel : nat) (it : b_iter E) : res (list I) :=
    match fuel with
    | O => Panic
    | S fuel' =>
      '(x, it') <- b_next it;;
      match x with
      | None => Ok []
      | Some e => rest <- b_items fuel' it';; Ok (e :: rest)
      end
    end.
End Inner.

Section BTreeIter.
  Context {K V Q : Type} (bor : K -> Q) (cmp : Q -> Q -> comparison) (N : nat).
  Notation bt := (bt K V).
  Notation bmap := (bt_map K V).
  Notation entry := (K * V)%type.

  (** The number of entries and of levels below a node, for fuel only. *)
  Fixpoint n_count (t : bt) : nat :=
    match t with BN es ks => length es + fold_right (fun c s => n_count c + s) 0 ks end.
  Fixpoint n_levels (t : bt) : nat :=
    match t with BN _ ks => S (fold_right (fun c s => Nat.max (n_levels c) s) 0 ks) end.

  (** btree.rs:1246-1251 [struct BorrowedNodeIter]. *)
  Record erg := Erg { g_elems : list entry; g_kids : list bt; g_lf : bool; g_rt : bool }.

  (** btree.rs:1261-1263 [is_empty]. *)
  Definition g_empty (g : erg) : bool := is_nil (g_elems g) && is_nil (g_kids g).
  (** btree.rs:1265-1273 [next_elem], :1275-1283 [next_back_elem]. *)
  Definition g_next_elem (g : erg) : res (option entry * erg) :=
    _ <- assert_ (negb (g_lf g));;
    Ok (hd_error (g_elems g), Erg (tl (g_elems g)) (g_kids g) (negb (is_nil (g_kids g))) (g_rt g)).
  Definition g_next_back_elem (g : erg) : res (option entry * erg) :=
    _ <- assert_ (negb (g_rt g));;
    Ok (hd_error (rev (g_elems g)),
        Erg (removelast (g_elems g)) (g_kids g) (g_lf g) (negb (is_nil (g_kids g)))).
  (** btree.rs:1285-1292 [next_kid], :1294-1301 [next_back_kid]. *)
  Definition g_next_kid (g : erg) : res (option bt * erg) :=
    _ <- assert_ (is_nil (g_kids g) || g_lf g);;
    Ok (hd_error (g_kids g), Erg (g_elems g) (tl (g_kids g)) false (g_rt g)).
  Definition g_next_back_kid (g : erg) : res (option bt * erg) :=
    _ <- assert_ (is_nil (g_kids g) || g_rt g);;
    Ok (hd_error (rev (g_kids g)), Erg (g_elems g) (removelast (g_kids g)) (g_lf g) false).
  (** btree.rs:1312-1325 [BorrowedNodeIter::new], :1404-1408 [make_node_iter],
      :1455-1464 [make_node_iter_mut]. *)
  Definition g_make (t : bt) : erg :=
    match t with BN es ks => let d := negb (is_nil ks) in Erg es ks d d end.
  Definition g_fuel (g : erg) : nat :=
    S (S (fold_right (fun c s => Nat.max (n_levels c) s) 0 (g_kids g))).

  Definition borrowed : node_iter erg bt entry :=
    NodeIter _ _ _ g_empty g_next_elem g_next_back_elem g_next_kid g_next_back_kid
             g_lf g_rt g_make g_fuel.

  (** btree.rs:742-760 [iter]. *)
  Definition bt_iter (m : bmap) : b_iter erg :=
    match bm_root m with
    | Some t => BIter [g_make t] (bm_len m)
    | None => BIter [] 0
    end.
  Definition o_count (o : option bt) : nat := match o with Some t => n_count t | None => 0 end.
  Definition b_collect (m : bmap) : res (list entry) :=
    b_items borrowed (S (o_count (bm_root m))) (bt_iter m).

  (** *** By value *)

  (** btree.rs:1507-1536 [ArcNodeIntoIter], [OwnedNodeIntoIter], [IntoNodeIter]. *)
  Inductive into_node :=
  | Arcked (n : bt) (lb_elems ub_elems lb_kids ub_kids : nat) (lf rt : bool)
  | Owned (g : erg).
  (** The child items are [Result<Node, Arc<Node>>]: [inl] if the node was unwrapped. *)
  Definition kid_item := (bt + bt)%type.

  (** Whether [Arc::try_unwrap] finds the node unshared. This depends on what
      else refers to the node: any function. *)
  Context (unshared : bt -> bool).
  Definition try_unwrap (t : bt) : kid_item := if unshared t then inl t else inr t.

  (** btree.rs:1546-1554. *)
  Definition i_empty (e : into_node) : bool :=
    match e with
    | Arcked _ le ue lk uk _ _ => (ue <=? le) && (uk <=? lk)
    | Owned g => g_empty g
    end.
  (** btree.rs:1556-1568. *)
  Definition i_lf (e : into_node) : bool := match e with Arcked _ _ _ _ _ lf _ => lf | Owned g => g_lf g end.
  Definition i_rt (e : into_node) : bool := match e with Arcked _ _ _ _ _ _ rt => rt | Owned g => g_rt g end.
  (** btree.rs:1570-1590. *)
  Definition i_next_elem (e : into_node) : res (option entry * into_node) :=
    match e with
    | Arcked n le ue lk uk lf rt =>
      _ <- assert_ (negb lf);;
      let lf := lk <? uk in
      if le <? ue then
        x <- unwrap (nth_error (elems_of n) (le + 1 - 1));;
        Ok (Some x, Arcked n (le + 1) ue lk uk lf rt)
      else Ok (None, Arcked n le ue lk uk lf rt)
    | Owned g => '(x, g') <- g_next_elem g;; Ok (x, Owned g')
    end.
  (** btree.rs:1592-1612. *)
  Definition i_next_back_elem (e : into_node) : res (option entry * into_node) :=
    match e with
    | Arcked n le ue lk uk lf rt =>
      _ <- assert_ (negb rt);;
      let rt := lk <? uk in
      if le <? ue then
        ue <- usize_sub ue 1;;
        x <- unwrap (nth_error (elems_of n) ue);;
        Ok (Some x, Arcked n le ue lk uk lf rt)
      else Ok (None, Arcked n le ue lk uk lf rt)
    | Owned g => '(x, g') <- g_next_back_elem g;; Ok (x, Owned g')
    end.
  (** btree.rs:1614-1633; the child of a shared node is shared. *)
  Definition i_next_kid (e : into_node) : res (option kid_item * into_node) :=
    match e with
    | Arcked n le ue lk uk lf rt =>
      _ <- assert_ (lf || (lk =? uk));;
      if lk <? uk then
        c <- unwrap (nth_error (kids_of n) (lk + 1 - 1));;
        Ok (Some (inr c), Arcked n le ue (lk + 1) uk false rt)
      else Ok (None, Arcked n le ue lk uk false rt)
    | Owned g => '(c, g') <- g_next_kid g;; Ok (option_map try_unwrap c, Owned g')
    end.
  (** btree.rs:1635-1654. *)
  Definition i_next_back_kid (e : into_node) : res (option kid_item * into_node) :=
    match e with
    | Arcked n le ue lk uk lf rt =>
      _ <- assert_ (rt || (lk =? uk));;
      if lk <? uk then
        uk <- usize_sub uk 1;;
        c <- unwrap (nth_error (kids_of n) uk);;
        Ok (Some (inr c), Arcked n le ue lk uk lf false)
      else Ok (None, Arcked n le ue lk uk lf false)
    | Owned g => '(c, g') <- g_next_back_kid g;; Ok (option_map try_unwrap c, Owned g')
    end.
  (** btree.rs:1666-1698 [make_into_node_iter]. *)
  Definition i_make (c : kid_item) : into_node :=
    match c with
    | inl n => Owned (Erg (elems_of n) (kids_of n) (is_branch n) (is_branch n))
    | inr n => Arcked n 0 (n_len n) 0 (length (kids_of n)) (is_branch n) (is_branch n)
    end.
  Definition i_fuel (e : into_node) : nat :=
    match e with
    | Arcked n _ _ _ _ _ _ => S (S (n_levels n))
    | Owned g => g_fuel g
    end.
  Definition owning : node_iter into_node kid_item entry :=
    NodeIter _ _ _ i_empty i_next_elem i_next_back_elem i_next_kid i_next_back_kid
             i_lf i_rt i_make i_fuel.
  (** btree.rs:1700-1720 [IntoIter::new]; [into_keys] (:716-725) and [into_values]
      (:727-736) map it. *)
  Definition bt_into_iter (m : bmap) : b_iter into_node :=
    match bm_root m with
    | Some t => BIter [i_make (try_unwrap t)] (bm_len m)
    | None => BIter [] 0
    end.
  (** All items of [into_iter], in order. *)
  Definition b_into_list (m : bmap) : res (list entry) :=
    b_items owning (S (o_count (bm_root m))) (bt_into_iter m).

  (** *** [range] *)

  (** btree.rs:1770-1775 [BdOrd], :1777-1792 [cmp_bd]. *)
  Inductive bd_ord := BUnbounded | BLess | BEqual (is_in : bool) | BGreater.
  Definition cmp_bd (bd : bound Q) (k : Q) : bd_ord :=
    match bd with
    | Unbounded => BUnbounded
    | Excluded b => match cmp b k with Lt => BLess | Eq => BEqual false | Gt => BGreater end
    | Included b => match cmp b k with Lt => BLess | Eq => BEqual true | Gt => BGreater end
    end.

  (** btree.rs:1826-1853: the left edge. [i] is the index of the first of the
      remaining [elems]; [None] if the loop runs out. Also what [elems] has left. *)
  Fixpoint left_edge (lb : bound Q) (i : nat) (elems : list entry)
    : option (nat * nat * bool) * (nat * list entry) :=
    match elems with
    | [] => (None, (i, []))
    | e :: elems' =>
      match cmp_bd lb (bor (fst e)) with
      | BUnbounded => (Some (0, 0, false), (i, elems))
      | BLess => (Some (i, i, true), (i, elems))
      | BEqual is_in => (Some (i + Nat.b2n (negb is_in), i + 1, false), (i, elems))
      | BGreater => left_edge lb (S i) elems'
      end
    end.
  (** btree.rs:1856-1879: the right edge; [n] is the number of all elements. *)
  Fixpoint right_edge (ub : bound Q) (n i : nat) (elems : list entry) : option (nat * nat * bool) :=
    match elems with
    | [] => None
    | e :: elems' =>
      match cmp_bd ub (bor (fst e)) with
      | BUnbounded => Some (n, n + 1, false)
      | BLess => Some (i, i + 1, true)
      | BEqual is_in => Some (i + Nat.b2n is_in, i + 1, false)
      | BGreater => right_edge ub n (S i) elems'
      end
    end.
  (** btree.rs:1794-1802 [RangeEdges], :1804-1882 [find_range_edges]. *)
  Definition find_range_edges (es : list entry) (lb ub : bound Q) : (nat * nat * bool) * (nat * nat * bool) :=
    let n := length es in
    let '(l, (i, rest)) := left_edge lb 0 es in
    (match l with Some x => x | None => (n, n, true) end,
     match right_edge ub n i rest with Some x => x | None => (n, n + 1, true) end).

  (** btree.rs:1884-1938 [make_worklist], :1940-1996 [make_mut_worklist]. A child is
      represented by the call on it; [kids] and [calls] are sliced alike. *)
  Fixpoint make_worklist (t : bt) (lb ub : bound Q) {struct t} : res (list erg) :=
    match t with
    | BN es ks =>
      let '((lb_elems, lb_kids, left_prune), (ub_elems, ub_kids, right_prune)) :=
        find_range_edges es lb ub in
      elems <- slice lb_elems ub_elems es;;
      let kids := slice_or_default lb_kids ub_kids ks in
      let calls := slice_or_default lb_kids ub_kids (map make_worklist ks) in
      '(w1, kids, calls, lb) <-
        (if left_prune then
           ub' <- (if (length kids =? 1) && right_prune
                   then _ <- assert_ (length elems =? 0);; Ok ub
                   else Ok Unbounded);;
           w1 <- match calls with c :: _ => c lb ub' | [] => Ok [] end;;
           Ok (w1, tl kids, tl calls, Unbounded)
         else Ok ([], kids, calls, lb));;
      let '(kids, to_prune) :=
        if right_prune then (removelast kids, last_opt calls) else (kids, None) in
      let w2 := if (0 <? length elems) || (0 <? length kids)
                then [Erg elems kids (negb left_prune && (lb_elems =? lb_kids))
                                     (negb right_prune && (ub_elems <? ub_kids))]
                else [] in
      w3 <- match to_prune with Some c => c lb ub | None => Ok [] end;;
      Ok (w1 ++ w2 ++ w3)
    end.

  (** btree.rs:2010-2020: the guard [k2 < k1]. *)
  Definition bad_range (lb ub : bound Q) : bool :=
    match lb, ub with
    | (Excluded k1 | Included k1), (Excluded k2 | Included k2) =>
      match cmp k2 k1 with Lt => true | _ => false end
    | _, _ => false
    end.
  (** btree.rs:2003-2038 [Range::new], :855-862 [range]. *)
  Definition b_range (m : bmap) (lb ub : bound Q) : res (b_iter erg) :=
    if bad_range lb ub then Panic else
    w <- match bm_root m with Some t => make_worklist t lb ub | None => Ok [] end;;
    Ok (BIter w (b_len m)).
  (** btree.rs:2062-2070 [Range::size_hint], :2141-2149 [RangeMut::size_hint]. *)
  Definition b_range_hint (it : b_iter erg) : nat * nat :=
    (fold_right (fun g s => (length (g_elems g) + N * length (g_kids g)) + s) 0 (bi_work it), bi_len it).
  (** Results of a sequence of calls on a range, each with the [size_hint()] after it. *)
  Fixpoint b_range_calls (cs : list end_call) (it : b_iter erg) : res (list (option entry * (nat * nat))) :=
    match cs with
    | [] => Ok []
    | c :: cs' =>
      '(x, it') <- match c with Front => b_next borrowed it | Back => b_next_back borrowed it end;;
      rest <- b_range_calls cs' it';;
      Ok ((x, b_range_hint it') :: rest)
    end.

  (** *** Operations built on iteration *)

  (** btree.rs:553-559 [append]: [self.extend(take(other))]. The pairs that the
      iterator yields are listed first and then inserted; the source does both at a
      time, which makes no difference to values. *)
  Definition b_append (m other : bmap) : res (bmap * bmap) :=
    ps <- b_into_list other;;
    m' <- b_extend bor cmp N m ps;;
    Ok (m', b_new).

  (** btree.rs:902-923 [retain]: take, filter and collect. *)
  Fixpoint retain_list {S} (f : S -> K -> V -> S * V * bool) (s : S) (ps : list entry)
    : list entry * S :=
    match ps with
    | [] => ([], s)
    | (k, v) :: ps' =>
      let '(s1, v1, keep) := f s k v in
      let '(rest, s2) := retain_list f s1 ps' in
      (if keep then (k, v1) :: rest else rest, s2)
    end.
  Definition b_retain {S} (f : S -> K -> V -> S * V * bool) (m : bmap) (s : S) : res (bmap * S) :=
    ps <- b_into_list m;;
    let '(qs, s') := retain_list f s ps in
    m' <- b_from_iter bor cmp N qs;;
    Ok (m', s').

  (** btree.rs:925-938 [split_off]: [partition(|(k, _)| key > k.borrow())], which
      extends two empty maps by one pair at a time. *)
  Definition b_split_off (m : bmap) (q : Q) : res (bmap * bmap) :=
    ps <- b_into_list m;;
    let lt (e : entry) := match cmp q (bor (fst e)) with Gt => true | _ => false end in
    m1 <- b_from_iter bor cmp N (filter lt ps);;
    m2 <- b_from_iter bor cmp N (filter (fun e => negb (lt e)) ps);;
    Ok (m1, m2).

  (** *** Comparison *)
  Context (keq : K -> K -> bool) (veq : V -> V -> bool).
  Context (kcmp : K -> K -> comparison) (vcmp : V -> V -> comparison).

  (** btree.rs:1188-1197 [PartialEq::eq]. *)
  Fixpoint b_zip_all (fuel : nat) (a b : b_iter erg) : res bool :=
    match fuel with
    | O => Panic
    | S fuel' =>
      '(x, a') <- b_next borrowed a;;
      match x with
      | None => Ok true
      | Some (k1, v1) =>
        '(y, b') <- b_next borrowed b;;
        match y with
        | None => Ok true
        | Some (k2, v2) => if keq k1 k2 && veq v1 v2 then b_zip_all fuel' a' b' else Ok false
        end
      end
    end.
  Definition b_eq (a b : bmap) : res bool :=
    if Nat.eqb (b_len a) (b_len b)
    then b_zip_all (S (o_count (bm_root a))) (bt_iter a) (bt_iter b)
    else Ok false.

  (** btree.rs:1199-1214 [PartialOrd], [Ord]: [Iterator::cmp] of the two iterators. *)
  Definition b_pair_cmp (x y : entry) : comparison :=
    match kcmp (fst x) (fst y) with Eq => vcmp (snd x) (snd y) | c => c end.
  Fixpoint b_iter_cmp (fuel : nat) (a b : b_iter erg) : res comparison :=
    match fuel with
    | O => Panic
    | S fuel' =>
      '(x, a') <- b_next borrowed a;;
      match x with
      | None => '(y, _) <- b_next borrowed b;; Ok (match y with None => Eq | Some _ => Lt end)
      | Some e1 =>
        '(y, b') <- b_next borrowed b;;
        match y with
        | None => Ok Gt
        | Some e2 => match b_pair_cmp e1 e2 with Eq => b_iter_cmp fuel' a' b' | c => Ok c end
        end
      end
    end.
  Definition b_cmp (a b : bmap) : res comparison :=
    b_iter_cmp (S (o_count (bm_root a))) (bt_iter a) (bt_iter b).
End BTreeIter.
Arguments erg K V : clear implicits.
Arguments into_node K V : clear implicits.

(** *** Mutable iteration

    A [&mut V] into a map is the position of its entry: the child indices from the
    root, the index in the node; and the key. [iter_mut] and [range_mut] are the code of
    [iter] and [range] on mutable slices (the same generic [BorrowedNodeIter] and
    [InnerIter]; btree.rs:1436-1503, 1940-1996, 2079-2160): here, the same
    iterators on the tree whose keys carry their positions. *)
Section BTreeMut.
  Context {K V Q : Type} (bor : K -> Q) (cmp : Q -> Q -> comparison).
  Definition bpath := (list nat * nat)%type.
  Definition bref := (bpath * K)%type.

  Fixpoint mapi_from {A B} (i : nat) (f : nat -> A -> B) (l : list A) : list B :=
    match l with [] => [] | x :: l' => f i x :: mapi_from (S i) f l' end.

  Fixpoint with_pos (p : list nat) (t : bt K V) {struct t} : bt bref V :=
    match t with
    | BN es ks =>
      BN (mapi_from 0 (fun i e => (((p, i), fst e), snd e)) es)
         ((fix go i ks := match ks with
                          | [] => []
                          | c :: ks' => with_pos (p ++ [i]) c :: go (S i) ks'
                          end) 0 ks)
    end.
  Definition map_pos (m : bt_map K V) : bt_map bref V :=
    BMap (bm_len m) (option_map (with_pos []) (bm_root m)).

  (** btree.rs:762-784 [iter_mut]; [values_mut] (:949-958) maps it. *)
  Definition bt_iter_mut (m : bt_map K V) : b_iter (erg bref V) := bt_iter (map_pos m).
  (** btree.rs:864-874 [range_mut], :2083-2117 [RangeMut::new]. *)
  Definition b_range_mut (m : bt_map K V) (lb ub : bound Q) : res (b_iter (erg bref V)) :=
    b_range (fun r => bor (snd r)) cmp (map_pos m) lb ub.

  (** Writing through a reference. *)
  Fixpoint n_write (p : list nat) (i : nat) (w : V -> V) (t : bt K V) {struct t} : bt K V :=
    match t with
    | BN es ks =>
      match p with
      | [] => match nth_error es i with
              | Some e => BN (set_at i (fst e, w (snd e)) es) ks
              | None => t
              end
      | j :: p' => match nth_error (map (n_write p' i w) ks) j with
                   | Some c => BN es (set_at j c ks)
                   | None => t
                   end
      end
    end.
  Definition b_write (r : bref) (w : V -> V) (m : bt_map K V) : bt_map K V :=
    BMap (bm_len m) (option_map (n_write (fst (fst r)) (snd (fst r)) w) (bm_root m)).
End BTreeMut.
