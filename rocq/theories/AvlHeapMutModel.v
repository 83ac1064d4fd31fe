(** [iter_mut] and [range_mut] of [/repo/src/avl.rs] on [AvlMap]s that share nodes (the cells of [AvlHeapModel]).

    A [&mut Node] on the work list, and the [(&K, &mut V)] handed out for it, are the address of its cell. What happens
    through them is checked to happen on an unshared live cell ([HeapMut.excl]). *)
From Coq Require Import List PeanoNat Bool.
From Verif Require Import Base Spec Heap HeapMut AvlModel AvlIterModel AvlHeapModel MutSpec.
Import ListNotations.
Local Open Scope nat_scope.

Section AvlHeapMut.
  Context {K V Q : Type} (bor : K -> Q) (cmp : Q -> Q -> comparison).
  Variable bomb : nat -> bool.
  Notation pay := (pay K V).
  Notation heap := (heap pay).
  (** avl.rs:1915-1932 [IterAction], [InnerIter]. *)
  Notation work := (list (action addr addr)).
  Notation am_iter := (inner_iter addr addr).

  (** [n.left.as_mut().map(Arc::make_mut)] ([j = 0]), [n.right...] ([j = 1]). *)
  Definition am_kid (h : heap) (a : addr) (j : nat) : res (heap * out (option addr)) :=
    n <- excl h a;;
    p <- unwrap (nth_error (nd_kids n) j);;
    match p with
    | None => Ok (h, Done None)
    | Some _ =>
      '(h1, x) <- kid_mut bomb h a j;;
      Ok (h1, match x with Some c => Done (Some c) | None => Unwound end)
    end.

  (** avl.rs:2054-2063 [IterMutNode::destruct]. *)
  Definition am_destr (h : heap) (a : addr) : res (heap * out (option addr * addr * option addr)) :=
    '(h1, l) <- am_kid h a 0;;
    match l with
    | Unwound => Ok (h1, Unwound)
    | Done l =>
      '(h2, r) <- am_kid h1 a 1;;
      Ok (h2, match r with Done r => Done (l, a, r) | Unwound => Unwound end)
    end.

  (** avl.rs:1934-1965 [InnerIter::next]. When [destruct] unwinds the node is gone from the work list. *)
  Fixpoint am_next_fuel (fuel : nat) (h : heap) (w : work) (len : nat) : res (heap * am_iter * out (option addr)) :=
    match fuel with
    | O => Panic
    | S fuel' =>
      match w with
      | [] => Ok (h, InnerIter [] len, Done None)
      | Return x :: w' => n <- usize_sub len 1;; Ok (h, InnerIter w' n, Done (Some x))
      | Descend a :: w' =>
        '(h1, o) <- am_destr h a;;
        match o with
        | Unwound => Ok (h1, InnerIter w' len, Unwound)
        | Done (lf, item, rt) => am_next_fuel fuel' h1 (odesc lf ++ Return item :: odesc rt ++ w') len
        end
      end
    end.
  Definition am_next (h : heap) (it : am_iter) := am_next_fuel depth h (it_work it) (it_len it).

  (** avl.rs:1967-1996 [InnerIter::next_back]. *)
  Fixpoint am_next_back_fuel (fuel : nat) (h : heap) (w : work) (len : nat) : res (heap * am_iter * out (option addr)) :=
    match fuel with
    | O => Panic
    | S fuel' =>
      match rev w with
      | [] => Ok (h, InnerIter [] len, Done None)
      | Return x :: w' => n <- usize_sub len 1;; Ok (h, InnerIter (rev w') n, Done (Some x))
      | Descend a :: w' =>
        '(h1, o) <- am_destr h a;;
        match o with
        | Unwound => Ok (h1, InnerIter (rev w') len, Unwound)
        | Done (lf, item, rt) => am_next_back_fuel fuel' h1 (rev w' ++ odesc lf ++ Return item :: odesc rt) len
        end
      end
    end.
  Definition am_next_back (h : heap) (it : am_iter) := am_next_back_fuel depth h (it_work it) (it_len it).

  (** The start of both: avl.rs:1287-1290, 1635-1638. When [make_mut] unwinds the map is as before. *)
  Definition am_root (h : heap) (m : hmap) : res (heap * hmap * out work) :=
    match hm_root m with
    | None => Ok (h, m, Done [])
    | Some a =>
      '(h1, x) <- make_mut bomb h a;;
      match x with
      | None => Ok (h1, m, Unwound)
      | Some a' => Ok (h1, HMap (hm_len m) (Some a'), Done [Descend a'])
      end
    end.

  (** avl.rs:1281-1299 [iter_mut]; [values_mut] (:1843-1851) maps it. *)
  Definition hm_iter_mut (h : heap) (m : hmap) : res (heap * hmap * out am_iter) :=
    '(h1, m1, o) <- am_root h m;;
    Ok (h1, m1, match o with Done w => Done (InnerIter w (hm_len m)) | Unwound => Unwound end).

  Section Range.
    Variables lb ub : bound Q.
    (** avl.rs:1652-1657, 1688-1693 and :1663-1668, 1677-1682: a child unless it is pruned. *)
    Definition am_side (h : heap) (a : addr) (rt : bool) (q : Q) : res (heap * out (option addr)) :=
      if (if rt then prune_rt cmp ub q else prune_lf cmp lb q) then Ok (h, Done None)
      else am_kid h a (if rt then 1 else 0).

    (** avl.rs:1643-1669: the front loop. *)
    Fixpoint am_prune_front (fuel : nat) (h : heap) (w : work) : res (heap * out work) :=
      match fuel with
      | O => Panic
      | S fuel' =>
        match w with
        | Descend a :: w' =>
          n <- excl h a;;
          let q := bor (pk (nd_data n)) in
          '(h1, rt) <- am_side h a true q;;
          match rt with
          | Unwound => Ok (h1, Unwound)
          | Done rt =>
            '(h2, lf) <- am_side h1 a false q;;
            match lf with
            | Unwound => Ok (h2, Unwound)
            | Done lf =>
              am_prune_front fuel' h2 (odesc lf ++ (if contains cmp lb ub q then [Return a] else []) ++ odesc rt ++ w')
            end
          end
        | _ => Ok (h, Done w)
        end
      end.
    (** avl.rs:1671-1694: the back loop. *)
    Fixpoint am_prune_back (fuel : nat) (h : heap) (w : work) : res (heap * out work) :=
      match fuel with
      | O => Panic
      | S fuel' =>
        match rev w with
        | Descend a :: w' =>
          n <- excl h a;;
          let q := bor (pk (nd_data n)) in
          '(h1, lf) <- am_side h a false q;;
          match lf with
          | Unwound => Ok (h1, Unwound)
          | Done lf =>
            '(h2, rt) <- am_side h1 a true q;;
            match rt with
            | Unwound => Ok (h2, Unwound)
            | Done rt =>
              am_prune_back fuel' h2 (rev w' ++ odesc lf ++ (if contains cmp lb ub q then [Return a] else []) ++ odesc rt)
            end
          end
        | _ => Ok (h, Done w)
        end
      end.

    (** avl.rs:1616-1697 [range_mut]. *)
    Definition hm_range_mut (h : heap) (m : hmap) : res (heap * hmap * out am_iter) :=
      '(h1, m1, o) <- am_root h m;;
      match o with
      | Unwound => Ok (h1, m1, Unwound)
      | Done w =>
        '(h2, o2) <- am_prune_front depth h1 w;;
        match o2 with
        | Unwound => Ok (h2, m1, Unwound)
        | Done w2 =>
          '(h3, o3) <- am_prune_back depth h2 w2;;
          Ok (h3, m1, match o3 with Done w3 => Done (InnerIter w3 (hm_len m)) | Unwound => Unwound end)
        end
      end.
  End Range.

  (** Reading and writing through a reference that the iterator handed out. *)
  Definition am_read (h : heap) (r : addr) : res (K * V) := n <- excl h r;; Ok (pk (nd_data n), pv (nd_data n)).
  Definition am_write (h : heap) (r : addr) (w : V -> V) : res heap := data_mut h r (fun d => set_val d (w (pv d))).

  (** A client: calls of the iterator and uses of the references handed out so far ([refs]), in any order. Each
      result is an entry as it is at that moment and the [len()]. A call that unwinds ends the sequence; the
      flag tells whether it went to the end. *)
  Fixpoint am_run (cs : list (mcall V)) (h : heap) (it : am_iter) (refs : list addr)
    : res (heap * am_iter * list (option (K * V) * nat) * bool) :=
    match cs with
    | [] => Ok (h, it, [], true)
    | MWrite j w :: cs' =>
      match nth_error refs j with
      | None => '(h2, it2, outs, b) <- am_run cs' h it refs;; Ok (h2, it2, (None, it_len it) :: outs, b)
      | Some r =>
        e <- am_read h r;;
        h1 <- am_write h r w;;
        '(h2, it2, outs, b) <- am_run cs' h1 it refs;;
        Ok (h2, it2, (Some e, it_len it) :: outs, b)
      end
    | c :: cs' =>
      '(h1, it1, o) <- match c with MBack => am_next_back h it | _ => am_next h it end;;
      match o with
      | Unwound => Ok (h1, it1, [], false)
      | Done None =>
        '(h2, it2, outs, b) <- am_run cs' h1 it1 refs;;
        Ok (h2, it2, (None, it_len it1) :: outs, b)
      | Done (Some r) =>
        e <- am_read h1 r;;
        '(h2, it2, outs, b) <- am_run cs' h1 it1 (refs ++ [r]);;
        Ok (h2, it2, (Some e, it_len it1) :: outs, b)
      end
    end.
  (** [let it = m.iter_mut()] or [let it = m.range_mut(..)], and the client. *)
  Definition am_client (h1 : heap) (m1 : hmap) (o : out am_iter) (cs : list (mcall V))
    : res (heap * hmap * list (option (K * V) * nat) * bool) :=
    match o with
    | Unwound => Ok (h1, m1, [], false)
    | Done it => '(h2, _, outs, b) <- am_run cs h1 it [];; Ok (h2, m1, outs, b)
    end.
  Definition hm_iter_mut_calls (h : heap) (m : hmap) (cs : list (mcall V)) :=
    '(h1, m1, o) <- hm_iter_mut h m;; am_client h1 m1 o cs.
  Definition hm_range_mut_calls (h : heap) (m : hmap) (lb ub : bound Q) (cs : list (mcall V)) :=
    '(h1, m1, o) <- hm_range_mut lb ub h m;; am_client h1 m1 o cs.
End AvlHeapMut.
