(** The functions of [/repo/src/btree.rs] that write or consume, with the sharing of nodes: every
    [Arc<Node>] is a cell of the reference-counted heap of [Heap]. The payload of a cell is
    the vector [elems], the pointers are the vector [kids].

    [&mut Node] into a cell, which [make_mut] hands out only for a uniquely owned cell, is modelled by taking
    the contents out of the cell ([opn]) and putting them back ([cls]). A function with an [&mut Node]
    argument that its callers obtain by [make_mut] takes the address and calls [make_mut] itself.

    [bomb n = true] says that the user's [clone] panics in clone number [n], where the clone of a whole
    node counts as one; the call then ends with [Unwound]: the local variables are dropped, and what
    belongs to the caller is returned as it was left.

    [fuel] bounds the recursion depth ([Panic] if exceeded); a path in the heap is never longer than the
    number of cells, see [depth]. *)
From Coq Require Import List PeanoNat Bool.
From Verif Require Import Base Spec Vec Heap BTreeModel BTreeIterModel.
Import ListNotations.
Local Open Scope nat_scope.

Inductive out (A : Type) := Done (a : A) | Unwound.
Arguments Done {A} a.
Arguments Unwound {A}.

(** btree.rs:46-50 [enum InsertResult]. *)
Inductive hins (K V : Type) :=
| HReplaced (v : V)
| HSplit (c : option addr) (k : K) (v : V)
| HAbsorbed.
Arguments HReplaced {K V} v.
Arguments HSplit {K V} c k v.
Arguments HAbsorbed {K V}.

(** btree.rs:546-550 [struct BTreeMap]. *)
Record hbmap := HB { hb_len : nat; hb_root : ptr }.

Fixpoint map_res {A B} (f : A -> res B) (l : list A) : res (list B) :=
  match l with
  | [] => Ok []
  | x :: l' => y <- f x;; ys <- map_res f l';; Ok (y :: ys)
  end.

Section BTreeHeap.
  Context {K V Q : Type} (bor : K -> Q) (cmp : Q -> Q -> comparison) (N : nat).
  Variable bomb : nat -> bool.
  Notation entry := (K * V)%type.
  Notation pay := (list (K * V)).
  Notation heap := (heap pay).
  Notation MIN_OCC := (MIN_OCC N).
  Notation MAX_OCC := (MAX_OCC N).

  Definition depth (h : heap) : nat := S (length (cells h)).

  (** What follows the pointers: the tree that a reader sees. *)
  Fixpoint h_read (fuel : nat) (h : heap) (p : ptr) : res (bt K V) :=
    match fuel, p with
    | S fuel', Some a =>
      match get h a with
      | Some (_, n) => ks <- map_res (h_read fuel' h) (nd_kids n);; Ok (BN (nd_data n) ks)
      | None => Panic
      end
    | _, _ => Panic
    end.
  Definition hb_read (h : heap) (m : hbmap) : res (bt_map K V) :=
    match hb_root m with
    | None => Ok (BMap (hb_len m) None)
    | p => t <- h_read (depth h) h p;; Ok (BMap (hb_len m) (Some t))
    end.

  (** [Arc::make_mut], and the node it gives access to. *)
  Definition opn (h : heap) (a : addr) : res (heap * out (addr * pay * list addr)) :=
    '(h1, r) <- make_mut bomb h a;;
    match r with
    | None => Ok (h1, Unwound)
    | Some a' => '(h2, n) <- take h1 a';; Ok (h2, Done (a', nd_data n, olists (nd_kids n)))
    end.
  Definition cls (h : heap) (a : addr) (es : pay) (ks : list addr) : heap := give h a (Nd es (map Some ks)).

  (** [match Arc::try_unwrap(rc) { Ok(n) => n, Err(rc) => ( *rc).clone() }], and the drop of [rc]. *)
  Definition own (h : heap) (a : addr) : res (heap * out (pay * list addr)) :=
    match get h a with
    | None => Panic
    | Some (1, _) => '(h1, n) <- take h a;; Ok (h1, Done (nd_data n, olists (nd_kids n)))
    | Some (_, n) =>
      let h0 := log h (nd_data n) in
      if bomb (length (clones h)) then h1 <- dec h0 a;; Ok (h1, Unwound)
      else h1 <- incs h0 (nd_kids n);; h2 <- dec h1 a;; Ok (h2, Done (nd_data n, olists (nd_kids n)))
    end.

  (** Reading [elems] of a node. *)
  Definition peek (h : heap) (a : addr) : res pay :=
    match get h a with Some (_, n) => Ok (nd_data n) | None => Panic end.

  (** btree.rs:107-129 [Node::get_mut]; [w] is what the caller does through the reference. *)
  Fixpoint h_get_mut (fuel : nat) (h : heap) (a : addr) (q : Q) (w : V -> V)
    : res (heap * addr * out (option entry)) :=
    match fuel with
    | O => Panic
    | S fuel' =>
      '(h1, r) <- opn h a;;
      match r with
      | Unwound => Ok (h1, a, Unwound)
      | Done (a', es, ks) =>
        let below i :=
          match nth_error ks i with
          | None => Ok (cls h1 a' es ks, a', Done None)
          | Some c => '(h2, c', o) <- h_get_mut fuel' h1 c q w;; Ok (cls h2 a' es (set_at i c' ks), a', o)
          end in
        let '(i, c) := scan bor cmp q es in
        match c with
        | Eq =>
          match nth_error es i with
          | Some e => Ok (cls h1 a' (set_at i (fst e, w (snd e)) es) ks, a', Done (Some e))
          | None => Ok (cls h1 a' es ks, a', Done None)
          end
        | Lt => below i
        | Gt => below (length ks - 1)
        end
      end
    end.

  (** btree.rs:181-206 [Node::split] of the opened node [a]: it is closed with the upper half. *)
  Definition h_split (h : heap) (a : addr) (es : pay) (ks : list addr) : res (heap * hins K V) :=
    _ <- assert_ (MAX_OCC <? length es);;
    '(lo_es, hi_es) <- vec_split_off (MIN_OCC + 1) es;;
    '(lo_ks, hi_ks) <- (if is_nil ks then Ok (ks, []) else vec_split_off (MIN_OCC + 1) ks);;
    '(mid, lo_es') <- unwrap (vec_pop lo_es);;
    let h1 := cls h a hi_es hi_ks in
    let '(h2, b) := alloc h1 (Nd lo_es' (map Some lo_ks)) in
    Ok (h2, HSplit (Some b) (fst mid) (snd mid)).

  (** btree.rs:131-178 [Node::insert]. *)
  Fixpoint h_insert (fuel : nat) (h : heap) (a : addr) (k : K) (v : V)
    : res (heap * addr * out (hins K V)) :=
    match fuel with
    | O => Panic
    | S fuel' =>
      '(h1, r) <- opn h a;;
      match r with
      | Unwound => Ok (h1, a, Unwound)
      | Done (a', es, ks) =>
        let '(ub, c) := scan bor cmp (bor k) es in
        match c with
        | Eq =>
          e <- unwrap (nth_error es ub);;
          Ok (cls h1 a' (set_at ub (k, v) es) ks, a', Done (HReplaced (snd e)))
        | _ =>
          '(h2, ks1, r) <- match nth_error ks ub with
                           | Some c => '(h2, c', o) <- h_insert fuel' h1 c k v;; Ok (h2, set_at ub c' ks, o)
                           | None => Ok (h1, ks, Done (HSplit None k v))
                           end;;
          match r with
          | Unwound => Ok (cls h2 a' es ks1, a', Unwound)
          | Done (HSplit child k1 v1) =>
            es1 <- vec_insert ub (k1, v1) es;;
            ks2 <- match child with Some rc => vec_insert ub rc ks1 | None => Ok ks1 end;;
            if length es1 <=? MAX_OCC then Ok (cls h2 a' es1 ks2, a', Done HAbsorbed)
            else '(h3, s) <- h_split h2 a' es1 ks2;; Ok (h3, a', Done s)
          | Done s => Ok (cls h2 a' es ks1, a', Done s)
          end
        end
      end
    end.

  (** btree.rs:323-363 [Node::rot_lf] of an opened node. When the clone of the left child panics, the old
      separator and [k1_to_k2] are dropped. *)
  Definition h_rot_lf (h : heap) (es : pay) (ks : list addr) (idx : nat)
    : res (heap * pay * list addr * out unit) :=
    _ <- assert_ (negb (is_nil ks));;
    r <- unwrap (nth_error ks (idx + 1));;
    r_es0 <- peek h r;;
    _ <- assert_ (MIN_OCC <? length r_es0);;
    '(h1, o) <- opn h r;;
    match o with
    | Unwound => Ok (h1, es, ks, Unwound)
    | Done (r', r_es, r_ks) =>
      '(kv2, r_es') <- vec_remove 0 r_es;;
      '(kid, r_ks') <- (if is_nil r_ks then Ok (None, r_ks)
                        else '(x, r_ks') <- vec_remove 0 r_ks;; Ok (Some x, r_ks'));;
      let h2 := cls h1 r' r_es' r_ks' in
      let ks1 := set_at (idx + 1) r' ks in
      kv1 <- unwrap (nth_error es idx);;
      let es1 := set_at idx kv2 es in
      l <- unwrap (nth_error ks1 idx);;
      l_es0 <- peek h2 l;;
      _ <- assert_ (length l_es0 <? MIN_OCC);;
      '(h3, o) <- opn h2 l;;
      match o with
      | Unwound => h4 <- drop h3 kid;; Ok (h4, es1, ks1, Unwound)
      | Done (l', l_es, l_ks) =>
        Ok (cls h3 l' (l_es ++ [kv1]) (l_ks ++ olist kid), es1, set_at idx l' ks1, Done tt)
      end
    end.

  (** btree.rs:365-395 [Node::rot_rt]. *)
  Definition h_rot_rt (h : heap) (es : pay) (ks : list addr) (idx : nat)
    : res (heap * pay * list addr * out unit) :=
    _ <- assert_ (negb (is_nil ks));;
    l <- unwrap (nth_error ks idx);;
    l_es0 <- peek h l;;
    _ <- assert_ (MIN_OCC <? length l_es0);;
    '(h1, o) <- opn h l;;
    match o with
    | Unwound => Ok (h1, es, ks, Unwound)
    | Done (l', l_es, l_ks) =>
      '(kv0, l_es') <- unwrap (vec_pop l_es);;
      let '(kid, l_ks') := match vec_pop l_ks with
                           | Some (x, l_ks') => (Some x, l_ks')
                           | None => (None, l_ks)
                           end in
      let h2 := cls h1 l' l_es' l_ks' in
      let ks1 := set_at idx l' ks in
      kv1 <- unwrap (nth_error es idx);;
      let es1 := set_at idx kv0 es in
      r <- unwrap (nth_error ks1 (idx + 1));;
      '(h3, o) <- opn h2 r;;
      match o with
      | Unwound => h4 <- drop h3 kid;; Ok (h4, es1, ks1, Unwound)
      | Done (r', r_es, r_ks) =>
        r_es' <- vec_insert 0 kv1 r_es;;
        r_ks' <- match kid with Some x => vec_insert 0 x r_ks | None => Ok r_ks end;;
        Ok (cls h3 r' r_es' r_ks', es1, set_at (idx + 1) r' ks1, Done tt)
      end
    end.

  (** btree.rs:398-425 [Node::merge_kids]. When the clone of the right child panics, the left child and the
      separator are dropped; when that of the left child does, so is the separator. *)
  Definition h_merge_kids (h : heap) (es : pay) (ks : list addr) (at_ : nat)
    : res (heap * pay * list addr * out unit) :=
    '(mid, es1) <- vec_remove at_ es;;
    '(l, ks1) <- vec_remove at_ ks;;
    '(h1, o) <- own h l;;
    match o with
    | Unwound => Ok (h1, es1, ks1, Unwound)
    | Done (l_es, l_ks) =>
      r <- unwrap (nth_error ks1 at_);;
      '(h2, o) <- opn h1 r;;
      match o with
      | Unwound => h3 <- drops h2 (map Some l_ks);; Ok (h3, es1, ks1, Unwound)
      | Done (r', r_es, r_ks) =>
        Ok (cls h2 r' ((l_es ++ [mid]) ++ r_es) (l_ks ++ r_ks), es1, set_at at_ r' ks1, Done tt)
      end
    end.

  (** btree.rs:428-449 [Node::rebal]. *)
  Definition h_rebal (h : heap) (es : pay) (ks : list addr) (at_ : nat)
    : res (heap * pay * list addr * out bool) :=
    _ <- assert_ (negb (is_nil ks));;
    let threshold := MAX_OCC - MIN_OCC in
    '(h1, es1, ks1, o) <-
      (if 0 <? at_ then
         s <- unwrap (nth_error ks (at_ - 1));;
         s_es <- peek h s;;
         if threshold <? length s_es then h_rot_rt h es ks (at_ - 1) else h_merge_kids h es ks (at_ - 1)
       else
         s <- unwrap (nth_error ks (at_ + 1));;
         s_es <- peek h s;;
         if threshold <? length s_es then h_rot_lf h es ks at_ else h_merge_kids h es ks at_);;
    Ok (h1, es1, ks1, match o with Done _ => Done (length es1 <? MIN_OCC) | Unwound => Unwound end).

  (** A call of [rebal] as the last action, and the end of the borrow of the node. *)
  Definition h_rebal_cls (h : heap) (a : addr) (es : pay) (ks : list addr) (at_ : nat) (kv : entry)
    : res (heap * addr * out (option (entry * bool))) :=
    '(h1, es1, ks1, o) <- h_rebal h es ks at_;;
    Ok (cls h1 a es1 ks1, a, match o with Done u => Done (Some (kv, u)) | Unwound => Unwound end).

  (** btree.rs:451-470 [Node::pop_first]. *)
  Fixpoint h_pop_first (fuel : nat) (h : heap) (a : addr) : res (heap * addr * out (option (entry * bool))) :=
    match fuel with
    | O => Panic
    | S fuel' =>
      '(h1, r) <- opn h a;;
      match r with
      | Unwound => Ok (h1, a, Unwound)
      | Done (a', es, ks) =>
        match nth_error ks 0 with
        | Some c =>
          '(h2, c', o) <- h_pop_first fuel' h1 c;;
          let ks1 := set_at 0 c' ks in
          match o with
          | Done (Some (kv, true)) => h_rebal_cls h2 a' es ks1 0 kv
          | _ => Ok (cls h2 a' es ks1, a', o)
          end
        | None =>
          '(kv, es') <- vec_remove 0 es;;
          Ok (cls h1 a' es' ks, a', Done (Some (kv, length es' <? MIN_OCC)))
        end
      end
    end.

  (** btree.rs:472-491 [Node::pop_last]. *)
  Fixpoint h_pop_last (fuel : nat) (h : heap) (a : addr) : res (heap * addr * out (option (entry * bool))) :=
    match fuel with
    | O => Panic
    | S fuel' =>
      '(h1, r) <- opn h a;;
      match r with
      | Unwound => Ok (h1, a, Unwound)
      | Done (a', es, ks) =>
        match last_opt ks with
        | Some c =>
          '(h2, c', o) <- h_pop_last fuel' h1 c;;
          let ks1 := set_at (length ks - 1) c' ks in
          match o with
          | Done (Some (kv, true)) => h_rebal_cls h2 a' es ks1 (length es) kv
          | _ => Ok (cls h2 a' es ks1, a', o)
          end
        | None =>
          '(kv, es') <- unwrap (vec_pop es);;
          Ok (cls h1 a' es' ks, a', Done (Some (kv, length es' <? MIN_OCC)))
        end
      end
    end.

  (** btree.rs:493-543 [Node::remove]. *)
  Fixpoint h_remove (fuel : nat) (h : heap) (a : addr) (q : Q) : res (heap * addr * out (option (entry * bool))) :=
    match fuel with
    | O => Panic
    | S fuel' =>
      '(h1, r) <- opn h a;;
      match r with
      | Unwound => Ok (h1, a, Unwound)
      | Done (a', es, ks) =>
        let below i at_ :=
          match nth_error ks i with
          | None => Ok (cls h1 a' es ks, a', Done None)
          | Some c =>
            '(h2, c', o) <- h_remove fuel' h1 c q;;
            let ks1 := set_at i c' ks in
            match o with
            | Done (Some (kv, true)) => h_rebal_cls h2 a' es ks1 at_ kv
            | _ => Ok (cls h2 a' es ks1, a', o)
            end
          end in
        let '(i, c) := scan bor cmp q es in
        match c with
        | Lt => below i i
        | Gt => below (length ks - 1) (length es)
        | Eq =>
          if is_nil ks then
            '(kv, es') <- vec_remove i es;;
            Ok (cls h1 a' es' ks, a', Done (Some (kv, length es' <? MIN_OCC)))
          else
            c <- unwrap (nth_error ks i);;
            '(h2, c', o) <- h_pop_last fuel' h1 c;;
            let ks1 := set_at i c' ks in
            match o with
            | Unwound => Ok (cls h2 a' es ks1, a', Unwound)
            | Done ret =>
              '(kv, under) <- unwrap ret;;
              old <- unwrap (nth_error es i);;
              let es1 := set_at i kv es in
              if (under : bool) then h_rebal_cls h2 a' es1 ks1 i old
              else Ok (cls h2 a' es1 ks1, a', Done (Some (old, false)))
            end
        end
      end
    end.

  (** ** [BTreeMap] *)

  (** btree.rs:815-817 [new]; :561-564 [clear]; the drop of a map; :545 [derive(Clone)]. *)
  Definition hb_new : hbmap := HB 0 None.
  Definition hb_drop (h : heap) (m : hbmap) : res heap := drop h (hb_root m).
  Definition hb_clear (h : heap) (m : hbmap) : res (heap * hbmap) :=
    h1 <- drop h (hb_root m);; Ok (h1, HB 0 None).
  Definition hb_clone (h : heap) (m : hbmap) : res (heap * hbmap) :=
    h1 <- inc h (hb_root m);; Ok (h1, m).

  (** btree.rs:661-670 [get_mut]. *)
  Definition hb_get_mut (h : heap) (m : hbmap) (q : Q) (w : V -> V) : res (heap * hbmap * out (option V)) :=
    match hb_root m with
    | None => Ok (h, m, Done None)
    | Some a =>
      '(h1, a1, o) <- h_get_mut (depth h) h a q w;;
      Ok (h1, HB (hb_len m) (Some a1), match o with Done e => Done (option_map snd e) | Unwound => Unwound end)
    end.

  (** btree.rs:683-714 [insert]. *)
  Definition hb_insert (h : heap) (m : hbmap) (k : K) (v : V) : res (heap * hbmap * out (option V)) :=
    match hb_root m with
    | Some a =>
      '(h1, a1, o) <- h_insert (depth h) h a k v;;
      match o with
      | Unwound => Ok (h1, HB (hb_len m) (Some a1), Unwound)
      | Done (HReplaced old) => Ok (h1, HB (hb_len m) (Some a1), Done (Some old))
      | Done (HSplit lhs k1 v1) =>
        l <- unwrap lhs;;
        let '(h2, r) := alloc h1 (Nd [(k1, v1)] [Some l; Some a1]) in
        Ok (h2, HB (hb_len m + 1) (Some r), Done None)
      | Done HAbsorbed => Ok (h1, HB (hb_len m + 1) (Some a1), Done None)
      end
    | None =>
      let '(h1, r) := alloc h (Nd [(k, v)] []) in
      Ok (h1, HB 1 (Some r), Done None)
    end.

  (** btree.rs:819-837 [rm_and_rebal]. [self.root = n.kids.pop()] takes the last child out of the root node
      and then drops that node. *)
  Definition h_rm_and_rebal (h : heap) (m : hbmap)
      (remover : heap -> addr -> res (heap * addr * out (option (entry * bool))))
    : res (heap * hbmap * out (option entry)) :=
    match hb_root m with
    | None => Ok (h, m, Done None)
    | Some a =>
      '(h1, a1, o) <- remover h a;;
      match o with
      | Unwound => Ok (h1, HB (hb_len m) (Some a1), Unwound)
      | Done None => Ok (h1, HB (hb_len m) (Some a1), Done None)
      | Done (Some (old, under)) =>
        len <- usize_sub (hb_len m) 1;;
        '(h2, n) <- take h1 a1;;
        let es := nd_data n in
        let ks := olists (nd_kids n) in
        if under && is_nil es then
          _ <- assert_ (length ks <=? 1);;
          let '(root, ks') := match vec_pop ks with Some (c, ks') => (Some c, ks') | None => (None, ks) end in
          h3 <- drop (cls h2 a1 es ks') (Some a1);;
          Ok (h3, HB len root, Done (Some old))
        else Ok (cls h2 a1 es ks, HB len (Some a1), Done (Some old))
      end
    end.

  (** btree.rs:839-853 [pop_first], [pop_last]; :888-900 [remove]. *)
  Definition hb_pop_first (h : heap) (m : hbmap) := h_rm_and_rebal h m (h_pop_first (depth h)).
  Definition hb_pop_last (h : heap) (m : hbmap) := h_rm_and_rebal h m (h_pop_last (depth h)).
  Definition hb_remove (h : heap) (m : hbmap) (q : Q) : res (heap * hbmap * out (option V)) :=
    b <- hb_read h m;;
    if negb (b_contains_key bor cmp b q) then Ok (h, m, Done None)
    else
      '(h1, m1, o) <- h_rm_and_rebal h m (fun h a => h_remove (depth h) h a q);;
      Ok (h1, m1, match o with Done e => Done (option_map snd e) | Unwound => Unwound end).

  (** btree.rs:977-987 [extend] by a list: stops where it unwinds. *)
  Fixpoint hb_extend (h : heap) (m : hbmap) (ps : list entry) : res (heap * hbmap * out unit) :=
    match ps with
    | [] => Ok (h, m, Done tt)
    | (k, v) :: ps' =>
      '(h1, m1, o) <- hb_insert h m k v;;
      match o with
      | Unwound => Ok (h1, m1, Unwound)
      | Done _ => hb_extend h1 m1 ps'
      end
    end.
  (** btree.rs:1002-1012 [from_iter]: when it unwinds the new map is dropped. *)
  Definition hb_from_iter (h : heap) (ps : list entry) : res (heap * out hbmap) :=
    '(h1, m, o) <- hb_extend h hb_new ps;;
    match o with
    | Unwound => h2 <- hb_drop h1 m;; Ok (h2, Unwound)
    | Done _ => Ok (h1, Done m)
    end.
  (** lib.rs:277-303 [or_aux], [or_insert], and the write through the reference. *)
  Definition hb_or_insert (h : heap) (m : hbmap) (k : K) (v : V) (w : V -> V) : res (heap * hbmap * out V) :=
    b <- hb_read h m;;
    '(h1, m1, o1) <- (if negb (b_contains_key bor cmp b (bor k))
                      then '(h1, m1, o) <- hb_insert h m k v;;
                           Ok (h1, m1, match o with Done _ => Done tt | Unwound => Unwound end)
                      else Ok (h, m, Done tt));;
    match o1 with
    | Unwound => Ok (h1, m1, Unwound)
    | Done _ =>
      '(h2, m2, o2) <- hb_get_mut h1 m1 (bor k) w;;
      match o2 with
      | Unwound => Ok (h2, m2, Unwound)
      | Done x => y <- unwrap x;; Ok (h2, m2, Done y)
      end
    end.

  (** ** Owning iteration *)

  (** btree.rs:1507-1536 [ArcNodeIntoIter], [OwnedNodeIntoIter], [IntoNodeIter]. *)
  Inductive hwork :=
  | HArc (a : addr) (lb_elems ub_elems lb_kids ub_kids : nat) (lf rt : bool)
  | HOwned (elems : pay) (kids : list addr) (lf rt : bool).
  (** The pointers it owns. *)
  Definition w_ptrs (e : hwork) : list addr :=
    match e with HArc a _ _ _ _ _ _ => [a] | HOwned _ ks _ _ => ks end.
  (** btree.rs:1546-1568. *)
  Definition w_empty (e : hwork) : bool :=
    match e with
    | HArc _ le ue lk uk _ _ => (ue <=? le) && (uk <=? lk)
    | HOwned es ks _ _ => is_nil es && is_nil ks
    end.
  Definition w_lf (e : hwork) : bool := match e with HArc _ _ _ _ _ lf _ | HOwned _ _ lf _ => lf end.
  Definition w_rt (e : hwork) : bool := match e with HArc _ _ _ _ _ _ rt | HOwned _ _ _ rt => rt end.

  Definition node_at (h : heap) (a : addr) : res (pay * list addr) :=
    match get h a with Some (_, n) => Ok (nd_data n, olists (nd_kids n)) | None => Panic end.
  (** The clone of one entry out of a shared node. *)
  Definition clone_entry (h : heap) (e : entry) : heap * out entry :=
    (log h [e], if bomb (length (clones h)) then Unwound else Done e).

  (** btree.rs:1570-1612 [next_elem], [next_back_elem]. *)
  Definition w_next_elem (h : heap) (e : hwork) : res (heap * hwork * out (option entry)) :=
    match e with
    | HArc a le ue lk uk lf rt =>
      _ <- assert_ (negb lf);;
      let lf := lk <? uk in
      if le <? ue then
        '(es, _) <- node_at h a;;
        x <- unwrap (nth_error es (le + 1 - 1));;
        let '(h1, o) := clone_entry h x in
        Ok (h1, HArc a (le + 1) ue lk uk lf rt, match o with Done x => Done (Some x) | Unwound => Unwound end)
      else Ok (h, HArc a le ue lk uk lf rt, Done None)
    | HOwned es ks lf rt =>
      _ <- assert_ (negb lf);;
      Ok (h, HOwned (tl es) ks (negb (is_nil ks)) rt, Done (hd_error es))
    end.
  Definition w_next_back_elem (h : heap) (e : hwork) : res (heap * hwork * out (option entry)) :=
    match e with
    | HArc a le ue lk uk lf rt =>
      _ <- assert_ (negb rt);;
      let rt := lk <? uk in
      if le <? ue then
        ue <- usize_sub ue 1;;
        '(es, _) <- node_at h a;;
        x <- unwrap (nth_error es ue);;
        let '(h1, o) := clone_entry h x in
        Ok (h1, HArc a le ue lk uk lf rt, match o with Done x => Done (Some x) | Unwound => Unwound end)
      else Ok (h, HArc a le ue lk uk lf rt, Done None)
    | HOwned es ks lf rt =>
      _ <- assert_ (negb rt);;
      Ok (h, HOwned (removelast es) ks lf (negb (is_nil ks)), Done (hd_error (rev es)))
    end.

  (** btree.rs:1666-1698 [make_into_node_iter] of an [Arc] that is shared, and of the result of
      [Arc::try_unwrap]. *)
  Definition w_shared (h : heap) (a : addr) : res hwork :=
    '(es, ks) <- node_at h a;;
    let b := negb (is_nil ks) in Ok (HArc a 0 (length es) 0 (length ks) b b).
  Definition w_try_unwrap (h : heap) (a : addr) : res (heap * hwork) :=
    if unique h a then
      '(h1, n) <- take h a;;
      let ks := olists (nd_kids n) in
      let b := negb (is_nil ks) in Ok (h1, HOwned (nd_data n) ks b b)
    else w <- w_shared h a;; Ok (h, w).

  (** btree.rs:1614-1654 [next_kid], [next_back_kid], composed with [make_into_node_iter]. *)
  Definition w_next_kid (h : heap) (e : hwork) : res (heap * hwork * option hwork) :=
    match e with
    | HArc a le ue lk uk lf rt =>
      _ <- assert_ (lf || (lk =? uk));;
      if lk <? uk then
        '(_, ks) <- node_at h a;;
        c <- unwrap (nth_error ks (lk + 1 - 1));;
        h1 <- inc h (Some c);;
        w <- w_shared h1 c;;
        Ok (h1, HArc a le ue (lk + 1) uk false rt, Some w)
      else Ok (h, HArc a le ue lk uk false rt, None)
    | HOwned es ks lf rt =>
      _ <- assert_ (is_nil ks || lf);;
      match ks with
      | [] => Ok (h, HOwned es [] false rt, None)
      | c :: ks' => '(h1, w) <- w_try_unwrap h c;; Ok (h1, HOwned es ks' false rt, Some w)
      end
    end.
  Definition w_next_back_kid (h : heap) (e : hwork) : res (heap * hwork * option hwork) :=
    match e with
    | HArc a le ue lk uk lf rt =>
      _ <- assert_ (rt || (lk =? uk));;
      if lk <? uk then
        uk <- usize_sub uk 1;;
        '(_, ks) <- node_at h a;;
        c <- unwrap (nth_error ks uk);;
        h1 <- inc h (Some c);;
        w <- w_shared h1 c;;
        Ok (h1, HArc a le ue lk uk lf false, Some w)
      else Ok (h, HArc a le ue lk uk lf false, None)
    | HOwned es ks lf rt =>
      _ <- assert_ (is_nil ks || rt);;
      match vec_pop ks with
      | None => Ok (h, HOwned es [] lf false, None)
      | Some (c, ks') => '(h1, w) <- w_try_unwrap h c;; Ok (h1, HOwned es ks' lf false, Some w)
      end
    end.

  (** [work.pop_front()] of an exhausted node iterator drops it. *)
  Definition w_drop (h : heap) (e : hwork) : res heap := drops h (map Some (w_ptrs e)).

  (** btree.rs:1332-1336 [struct InnerIter]; :1656-1664 [IntoIter]. *)
  Record h_iter := HIter { hi_work : list hwork; hi_len : nat }.

  (** btree.rs:1346-1352, 1373-1379: the loops that descend. *)
  Fixpoint h_des_lf (fuel : nat) (h : heap) (w : list hwork) : res (heap * list hwork) :=
    match fuel, w with
    | S fuel', erg :: w' =>
      '(h1, erg1, kid) <- w_next_kid h erg;;
      match kid with
      | None => Ok (h1, erg1 :: w')
      | Some c =>
        if w_empty erg1 then h2 <- w_drop h1 erg1;; h_des_lf fuel' h2 (c :: w')
        else h_des_lf fuel' h1 (c :: erg1 :: w')
      end
    | _, _ => Panic
    end.
  Fixpoint h_des_rt (fuel : nat) (h : heap) (w : list hwork) : res (heap * list hwork) :=
    match fuel with
    | O => Panic
    | S fuel' =>
      '(erg, w') <- unwrap (vec_pop w);;
      '(h1, erg1, kid) <- w_next_back_kid h erg;;
      match kid with
      | None => Ok (h1, w' ++ [erg1])
      | Some c =>
        if w_empty erg1 then h2 <- w_drop h1 erg1;; h_des_rt fuel' h2 (w' ++ [c])
        else h_des_rt fuel' h1 (w' ++ [erg1; c])
      end
    end.

  (** btree.rs:1338-1393 [InnerIter::next], [next_back]. *)
  Definition h_next (h : heap) (it : h_iter) : res (heap * h_iter * out (option entry)) :=
    match hi_work it with
    | [] => Ok (h, it, Done None)
    | erg :: _ =>
      '(h1, w) <- (if w_lf erg then h_des_lf (S (depth h)) h (hi_work it) else Ok (h, hi_work it));;
      match w with
      | [] => Panic
      | erg :: w' =>
        '(h2, erg1, o) <- w_next_elem h1 erg;;
        match o with
        | Unwound => Ok (h2, HIter (erg1 :: w') (hi_len it), Unwound)
        | Done ret =>
          _ <- assert_ (match ret with Some _ => true | None => false end);;
          len <- usize_sub (hi_len it) 1;;
          if w_empty erg1 then h3 <- w_drop h2 erg1;; Ok (h3, HIter w' len, Done ret)
          else Ok (h2, HIter (erg1 :: w') len, Done ret)
        end
      end
    end.
  Definition h_next_back (h : heap) (it : h_iter) : res (heap * h_iter * out (option entry)) :=
    match vec_pop (hi_work it) with
    | None => Ok (h, it, Done None)
    | Some (erg, _) =>
      '(h1, w) <- (if w_rt erg then h_des_rt (S (depth h)) h (hi_work it) else Ok (h, hi_work it));;
      '(erg, w') <- unwrap (vec_pop w);;
      '(h2, erg1, o) <- w_next_back_elem h1 erg;;
      match o with
      | Unwound => Ok (h2, HIter (w' ++ [erg1]) (hi_len it), Unwound)
      | Done ret =>
        _ <- assert_ (match ret with Some _ => true | None => false end);;
        len <- usize_sub (hi_len it) 1;;
        if w_empty erg1 then h3 <- w_drop h2 erg1;; Ok (h3, HIter w' len, Done ret)
        else Ok (h2, HIter (w' ++ [erg1]) len, Done ret)
      end
    end.

  (** btree.rs:1700-1720 [IntoIter::new]; the drop of an [IntoIter]. *)
  Definition hb_into_iter (h : heap) (m : hbmap) : res (heap * h_iter) :=
    match hb_root m with
    | Some a => '(h1, w) <- w_try_unwrap h a;; Ok (h1, HIter [w] (hb_len m))
    | None => Ok (h, HIter [] 0)
    end.
  Definition hi_drop (h : heap) (it : h_iter) : res heap :=
    drops h (map Some (flat_map w_ptrs (hi_work it))).

  (** A sequence of calls on an owning iterator, each result with the [len()] after it; a call that
      unwinds ends it. *)
  Fixpoint h_run_ends (cs : list end_call) (h : heap) (it : h_iter)
    : res (heap * h_iter * out (list (option entry * nat))) :=
    match cs with
    | [] => Ok (h, it, Done [])
    | c :: cs' =>
      '(h1, it1, o) <- match c with Front => h_next h it | Back => h_next_back h it end;;
      match o with
      | Unwound => Ok (h1, it1, Unwound)
      | Done x =>
        '(h2, it2, o2) <- h_run_ends cs' h1 it1;;
        Ok (h2, it2, match o2 with Done l => Done ((x, hi_len it1) :: l) | Unwound => Unwound end)
      end
    end.
  (** [let mut it = m.into_iter()], the calls [cs], and the drop of [it]. *)
  Definition hb_into_calls (h : heap) (m : hbmap) (cs : list end_call)
    : res (heap * out (list (option entry * nat))) :=
    '(h1, it) <- hb_into_iter h m;;
    '(h2, it2, o) <- h_run_ends cs h1 it;;
    h3 <- hi_drop h2 it2;;
    Ok (h3, o).

  (** btree.rs:553-559 [append]: [self.extend(take(other))]. [fuel] bounds the number of items. When it
      unwinds, the iterator is dropped. *)
  Fixpoint h_extend_iter (fuel : nat) (h : heap) (m : hbmap) (it : h_iter) : res (heap * hbmap * out unit) :=
    match fuel with
    | O => Panic
    | S fuel' =>
      '(h1, it1, o) <- h_next h it;;
      match o with
      | Unwound => h2 <- hi_drop h1 it1;; Ok (h2, m, Unwound)
      | Done None => h2 <- hi_drop h1 it1;; Ok (h2, m, Done tt)
      | Done (Some (k, v)) =>
        '(h2, m2, o2) <- hb_insert h1 m k v;;
        match o2 with
        | Unwound => h3 <- hi_drop h2 it1;; Ok (h3, m2, Unwound)
        | Done _ => h_extend_iter fuel' h2 m2 it1
        end
      end
    end.
  Definition hb_append (h : heap) (m other : hbmap) : res (heap * hbmap * hbmap * out unit) :=
    '(h1, it) <- hb_into_iter h other;;
    '(h2, m2, o) <- h_extend_iter (S (hb_len other)) h1 m it;;
    Ok (h2, m2, hb_new, o).

  (** btree.rs:902-923 [retain]. The closure [f] is state-passing; [fbomb] tells when it panics. When
      anything unwinds, the iterator and the new map are dropped, and [self] is the empty map that [take] left. *)
  Section Retain.
    Context {S' : Type} (f : S' -> K -> V -> S' * V * bool) (fbomb : S' -> K -> V -> bool).
    Fixpoint h_retain_iter (fuel : nat) (h : heap) (m : hbmap) (it : h_iter) (s : S')
      : res (heap * out (hbmap * S')) :=
      match fuel with
      | O => Panic
      | S fuel' =>
        '(h1, it1, o) <- h_next h it;;
        let bail h m := (h1 <- hi_drop h it1;; h2 <- hb_drop h1 m;; Ok (h2, Unwound)) in
        match o with
        | Unwound => bail h1 m
        | Done None => h2 <- hi_drop h1 it1;; Ok (h2, Done (m, s))
        | Done (Some (k, v)) =>
          if fbomb s k v then bail h1 m
          else
            let '(s1, v1, keep) := f s k v in
            if (keep : bool) then
              '(h2, m2, o2) <- hb_insert h1 m k v1;;
              match o2 with
              | Unwound => bail h2 m2
              | Done _ => h_retain_iter fuel' h2 m2 it1 s1
              end
            else h_retain_iter fuel' h1 m it1 s1
        end
      end.
    Definition hb_retain (h : heap) (m : hbmap) (s : S') : res (heap * hbmap * out S') :=
      '(h1, it) <- hb_into_iter h m;;
      '(h2, o) <- h_retain_iter (S (hb_len m)) h1 hb_new it s;;
      match o with
      | Unwound => Ok (h2, hb_new, Unwound)
      | Done (m', s') => Ok (h2, m', Done s')
      end.
  End Retain.

  (** btree.rs:925-938 [split_off]: [Iterator::partition] extends one of two new maps by each item. *)
  Fixpoint h_partition_iter (fuel : nat) (h : heap) (m1 m2 : hbmap) (it : h_iter) (q : Q)
    : res (heap * out (hbmap * hbmap)) :=
    match fuel with
    | O => Panic
    | S fuel' =>
      '(h1, it1, o) <- h_next h it;;
      let bail h m1 m2 := (h1 <- hi_drop h it1;; h2 <- hb_drop h1 m1;; h3 <- hb_drop h2 m2;; Ok (h3, Unwound)) in
      match o with
      | Unwound => bail h1 m1 m2
      | Done None => h2 <- hi_drop h1 it1;; Ok (h2, Done (m1, m2))
      | Done (Some (k, v)) =>
        match cmp q (bor k) with
        | Gt =>
          '(h2, m1', o2) <- hb_insert h1 m1 k v;;
          match o2 with Unwound => bail h2 m1' m2 | Done _ => h_partition_iter fuel' h2 m1' m2 it1 q end
        | _ =>
          '(h2, m2', o2) <- hb_insert h1 m2 k v;;
          match o2 with Unwound => bail h2 m1 m2' | Done _ => h_partition_iter fuel' h2 m1 m2' it1 q end
        end
      end
    end.
  Definition hb_split_off (h : heap) (m : hbmap) (q : Q) : res (heap * hbmap * out hbmap) :=
    '(h1, it) <- hb_into_iter h m;;
    '(h2, o) <- h_partition_iter (S (hb_len m)) h1 hb_new hb_new it q;;
    match o with
    | Unwound => Ok (h2, hb_new, Unwound)
    | Done (m1, m2) => Ok (h2, m1, Done m2)
    end.
End BTreeHeap.
