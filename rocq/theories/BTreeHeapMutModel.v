(** [iter_mut] and [range_mut] of [/repo/src/btree.rs] on [BTreeMap]s that share nodes (the cells of [BTreeHeapModel]).

    A slice iterator ([SliceIterMut]) over [elems] or [kids] of a node is the address of the node and a range of indices.
    A [&mut (K, V)] is the address of a node and an index; a [&mut Arc<Node>] is likewise a slot. What happens through
    them is checked to happen on an unshared live cell ([HeapMut.excl]). *)
From Coq Require Import List PeanoNat Bool.
From Verif Require Import Base Spec Vec Heap HeapMut BTreeModel BTreeIterModel BTreeHeapModel MutSpec.
Import ListNotations.
Local Open Scope nat_scope.

Section BTreeHeapMut.
  Context {K V Q : Type} (bor : K -> Q) (cmp : Q -> Q -> comparison) (N : nat).
  Variable bomb : nat -> bool.
  Notation entry := (K * V)%type.
  Notation pay := (list (K * V)).
  Notation heap := (heap pay).

  (** btree.rs:1246-1251 [struct BorrowedNodeIter] with the slices [elems[le..ue]] and [kids[lk..uk]] of the node [at]. *)
  Record mwork := MW { mw_at : addr; mw_le : nat; mw_ue : nat; mw_lk : nat; mw_uk : nat; mw_lf : bool; mw_rt : bool }.
  Definition mref := (addr * nat)%type.
  (** [&mut Arc<Node>]: the root pointer of a map, or a pointer in a node. *)
  Inductive mslot := SRoot (a : addr) | SKid (a : addr) (j : nat).
  Definition slot_addr (h : heap) (s : mslot) : res addr :=
    match s with
    | SRoot a => Ok a
    | SKid a j => n <- excl h a;; p <- unwrap (nth_error (nd_kids n) j);; unwrap p
    end.
  (** [Arc::make_mut]; [None]: the user's [clone] panicked. *)
  Definition slot_mut (h : heap) (s : mslot) : res (heap * option addr) :=
    match s with
    | SRoot a => make_mut bomb h a
    | SKid a j => kid_mut bomb h a j
    end.

  (** btree.rs:1261-1263 [is_empty]. *)
  Definition mw_empty (e : mwork) : bool := (mw_ue e - mw_le e =? 0) && (mw_uk e - mw_lk e =? 0).
  (** btree.rs:1265-1273 [next_elem], :1275-1283 [next_back_elem]. *)
  Definition mw_next_elem (e : mwork) : res (option mref * mwork) :=
    let '(MW a le ue lk uk lf rt) := e in
    _ <- assert_ (negb lf);;
    let lf := negb (uk - lk =? 0) in
    if le <? ue then Ok (Some (a, le), MW a (le + 1) ue lk uk lf rt) else Ok (None, MW a le ue lk uk lf rt).
  Definition mw_next_back_elem (e : mwork) : res (option mref * mwork) :=
    let '(MW a le ue lk uk lf rt) := e in
    _ <- assert_ (negb rt);;
    let rt := negb (uk - lk =? 0) in
    if le <? ue then Ok (Some (a, ue - 1), MW a le (ue - 1) lk uk lf rt) else Ok (None, MW a le ue lk uk lf rt).
  (** btree.rs:1285-1292 [next_kid], :1294-1301 [next_back_kid]. *)
  Definition mw_next_kid (e : mwork) : res (option mslot * mwork) :=
    let '(MW a le ue lk uk lf rt) := e in
    _ <- assert_ ((uk - lk =? 0) || lf);;
    if lk <? uk then Ok (Some (SKid a lk), MW a le ue (lk + 1) uk false rt) else Ok (None, MW a le ue lk uk false rt).
  Definition mw_next_back_kid (e : mwork) : res (option mslot * mwork) :=
    let '(MW a le ue lk uk lf rt) := e in
    _ <- assert_ ((uk - lk =? 0) || rt);;
    if lk <? uk then Ok (Some (SKid a (uk - 1)), MW a le ue lk (uk - 1) lf false) else Ok (None, MW a le ue lk uk lf false).

  (** btree.rs:1455-1464 [make_node_iter_mut], :1312-1325 [BorrowedNodeIter::new]; also the address of the node. *)
  Definition mw_make (h : heap) (s : mslot) : res (heap * option mwork) :=
    '(h1, r) <- slot_mut h s;;
    match r with
    | None => Ok (h1, None)
    | Some a =>
      n <- excl h1 a;;
      let k := length (nd_kids n) in
      let d := negb (k =? 0) in
      Ok (h1, Some (MW a 0 (length (nd_data n)) 0 k d d))
    end.

  (** btree.rs:1332-1336 [struct InnerIter]. *)
  Record m_iter := MIter { mi_work : list mwork; mi_len : nat }.

  (** btree.rs:1346-1352, 1373-1379: the loops that descend. When [make_mut] unwinds, the child has been taken
      from its parent's iterator, and the parent's iterator is gone if that emptied it. *)
  Fixpoint hm_des_lf (fuel : nat) (h : heap) (w : list mwork) : res (heap * list mwork * out unit) :=
    match fuel, w with
    | S fuel', erg :: w' =>
      '(kid, erg1) <- mw_next_kid erg;;
      match kid with
      | None => Ok (h, erg1 :: w', Done tt)
      | Some s =>
        let w1 := if mw_empty erg1 then w' else erg1 :: w' in
        '(h1, e) <- mw_make h s;;
        match e with
        | None => Ok (h1, w1, Unwound)
        | Some e => hm_des_lf fuel' h1 (e :: w1)
        end
      end
    | _, _ => Panic
    end.
  Fixpoint hm_des_rt (fuel : nat) (h : heap) (w : list mwork) : res (heap * list mwork * out unit) :=
    match fuel with
    | O => Panic
    | S fuel' =>
      '(erg, w') <- unwrap (vec_pop w);;
      '(kid, erg1) <- mw_next_back_kid erg;;
      match kid with
      | None => Ok (h, w' ++ [erg1], Done tt)
      | Some s =>
        let w1 := if mw_empty erg1 then w' else w' ++ [erg1] in
        '(h1, e) <- mw_make h s;;
        match e with
        | None => Ok (h1, w1, Unwound)
        | Some e => hm_des_rt fuel' h1 (w1 ++ [e])
        end
      end
    end.

  (** btree.rs:1338-1393 [InnerIter::next], [next_back]. *)
  Definition hm_next (h : heap) (it : m_iter) : res (heap * m_iter * out (option mref)) :=
    match mi_work it with
    | [] => Ok (h, it, Done None)
    | erg :: _ =>
      '(h1, w, o) <- (if mw_lf erg then hm_des_lf (S (depth h)) h (mi_work it) else Ok (h, mi_work it, Done tt));;
      match o with
      | Unwound => Ok (h1, MIter w (mi_len it), Unwound)
      | Done _ =>
        match w with
        | [] => Panic
        | erg :: w' =>
          '(ret, erg1) <- mw_next_elem erg;;
          _ <- assert_ (match ret with Some _ => true | None => false end);;
          len <- usize_sub (mi_len it) 1;;
          Ok (h1, MIter (if mw_empty erg1 then w' else erg1 :: w') len, Done ret)
        end
      end
    end.
  Definition hm_next_back (h : heap) (it : m_iter) : res (heap * m_iter * out (option mref)) :=
    match vec_pop (mi_work it) with
    | None => Ok (h, it, Done None)
    | Some (erg, _) =>
      '(h1, w, o) <- (if mw_rt erg then hm_des_rt (S (depth h)) h (mi_work it) else Ok (h, mi_work it, Done tt));;
      match o with
      | Unwound => Ok (h1, MIter w (mi_len it), Unwound)
      | Done _ =>
        '(erg, w') <- unwrap (vec_pop w);;
        '(ret, erg1) <- mw_next_back_elem erg;;
        _ <- assert_ (match ret with Some _ => true | None => false end);;
        len <- usize_sub (mi_len it) 1;;
        Ok (h1, MIter (if mw_empty erg1 then w' else w' ++ [erg1]) len, Done ret)
      end
    end.

  (** btree.rs:762-784 [iter_mut]; [values_mut] (:949-958) maps it. *)
  Definition hb_iter_mut (h : heap) (m : hbmap) : res (heap * hbmap * out m_iter) :=
    match hb_root m with
    | None => Ok (h, m, Done (MIter [] 0))
    | Some a =>
      '(h1, e) <- mw_make h (SRoot a);;
      match e with
      | None => Ok (h1, m, Unwound)
      | Some e => Ok (h1, HB (hb_len m) (Some (mw_at e)), Done (MIter [e] (hb_len m)))
      end
    end.

  (** btree.rs:1940-1996 [make_mut_worklist]. Also the node that [make_mut] gave for the slot. *)
  Fixpoint hm_worklist (fuel : nat) (h : heap) (s : mslot) (lb ub : bound Q)
    : res (heap * option addr * out (list mwork)) :=
    match fuel with
    | O => Panic
    | S fuel' =>
      c <- slot_addr h s;;
      es <- peek h c;;
      let '((lb_elems, lb_kids, left_prune), (ub_elems, ub_kids, right_prune)) := find_range_edges bor cmp es lb ub in
      '(h1, r) <- slot_mut h s;;
      match r with
      | None => Ok (h1, None, Unwound)
      | Some a =>
        n <- excl h1 a;;
        _ <- slice lb_elems ub_elems (nd_data n);;
        let elems := ub_elems - lb_elems in
        let '(lk, uk) := match slice lb_kids ub_kids (nd_kids n) with Ok _ => (lb_kids, ub_kids) | Panic => (0, 0) end in
        '(h2, o1, lk, lb) <-
          (if left_prune then
             ub' <- (if (uk - lk =? 1) && right_prune then _ <- assert_ (elems =? 0);; Ok ub else Ok Unbounded);;
             if lk <? uk then
               '(h2, _, o) <- hm_worklist fuel' h1 (SKid a lk) lb ub';;
               Ok (h2, o, lk + 1, Unbounded)
             else Ok (h1, Done [], lk, Unbounded)
           else Ok (h1, Done [], lk, lb));;
        match o1 with
        | Unwound => Ok (h2, Some a, Unwound)
        | Done w1 =>
          let '(to_prune, uk) :=
            if right_prune && (lk <? uk) then (Some (SKid a (uk - 1)), uk - 1) else (None, uk) in
          let w2 := if (0 <? elems) || (0 <? uk - lk)
                    then [MW a lb_elems ub_elems lk uk (negb left_prune && (lb_elems =? lb_kids))
                                                       (negb right_prune && (ub_elems <? ub_kids))]
                    else [] in
          '(h3, o3) <- match to_prune with
                       | Some s => '(h3, _, o) <- hm_worklist fuel' h2 s lb ub;; Ok (h3, o)
                       | None => Ok (h2, Done [])
                       end;;
          Ok (h3, Some a, match o3 with Done w3 => Done (w1 ++ w2 ++ w3) | Unwound => Unwound end)
        end
      end
    end.

  (** btree.rs:2083-2117 [RangeMut::new], :864-874 [range_mut]. *)
  Definition hb_range_mut (h : heap) (m : hbmap) (lb ub : bound Q) : res (heap * hbmap * out m_iter) :=
    if bad_range cmp lb ub then Panic else
    match hb_root m with
    | None => Ok (h, m, Done (MIter [] (hb_len m)))
    | Some a =>
      '(h1, r, o) <- hm_worklist (depth h) h (SRoot a) lb ub;;
      Ok (h1, HB (hb_len m) (match r with Some a' => Some a' | None => Some a end),
          match o with Done w => Done (MIter w (hb_len m)) | Unwound => Unwound end)
    end.

  (** btree.rs:2141-2149 [RangeMut::size_hint]. The second component is also [IterMut::len] (:1465-1473). *)
  Definition mi_hint (it : m_iter) : nat * nat :=
    (fold_right (fun e s => ((mw_ue e - mw_le e) + N * (mw_uk e - mw_lk e)) + s) 0 (mi_work it), mi_len it).

  (** Reading and writing through a reference that the iterator handed out. *)
  Definition ref_read (h : heap) (r : mref) : res entry :=
    n <- excl h (fst r);; unwrap (nth_error (nd_data n) (snd r)).
  Definition ref_write (h : heap) (r : mref) (w : V -> V) : res heap :=
    _ <- ref_read h r;; data_mut h (fst r) (upd_nth (snd r) w).

  (** A client: calls of the iterator and uses of the references handed out so far ([refs]), in any order. Each
      result is an entry as it is at that moment and the [size_hint()]. A call that unwinds ends the sequence; the
      flag tells whether it went to the end. *)
  Fixpoint hm_run (cs : list (mcall V)) (h : heap) (it : m_iter) (refs : list mref)
    : res (heap * m_iter * list (option entry * (nat * nat)) * bool) :=
    match cs with
    | [] => Ok (h, it, [], true)
    | MWrite j w :: cs' =>
      match nth_error refs j with
      | None => '(h2, it2, outs, b) <- hm_run cs' h it refs;; Ok (h2, it2, (None, mi_hint it) :: outs, b)
      | Some r =>
        e <- ref_read h r;;
        h1 <- ref_write h r w;;
        '(h2, it2, outs, b) <- hm_run cs' h1 it refs;;
        Ok (h2, it2, (Some e, mi_hint it) :: outs, b)
      end
    | c :: cs' =>
      '(h1, it1, o) <- match c with MBack => hm_next_back h it | _ => hm_next h it end;;
      match o with
      | Unwound => Ok (h1, it1, [], false)
      | Done None =>
        '(h2, it2, outs, b) <- hm_run cs' h1 it1 refs;;
        Ok (h2, it2, (None, mi_hint it1) :: outs, b)
      | Done (Some r) =>
        e <- ref_read h1 r;;
        '(h2, it2, outs, b) <- hm_run cs' h1 it1 (refs ++ [r]);;
        Ok (h2, it2, (Some e, mi_hint it1) :: outs, b)
      end
    end.
  (** [let it = m.iter_mut()] or [let it = m.range_mut(..)], and the client. *)
  Definition hm_client (h1 : heap) (m1 : hbmap) (o : out m_iter) (cs : list (mcall V))
    : res (heap * hbmap * list (option entry * (nat * nat)) * bool) :=
    match o with
    | Unwound => Ok (h1, m1, [], false)
    | Done it => '(h2, _, outs, b) <- hm_run cs h1 it [];; Ok (h2, m1, outs, b)
    end.
  Definition hb_iter_mut_calls (h : heap) (m : hbmap) (cs : list (mcall V)) :=
    '(h1, m1, o) <- hb_iter_mut h m;; hm_client h1 m1 o cs.
  Definition hb_range_mut_calls (h : heap) (m : hbmap) (lb ub : bound Q) (cs : list (mcall V)) :=
    '(h1, m1, o) <- hb_range_mut h m lb ub;; hm_client h1 m1 o cs.
End BTreeHeapMut.
