(** [range_mut] of [/repo/src/avl.rs] on [AvlMap]s that share nodes, with comparisons that may panic: the definitions of
    [AvlHeapMutModel] with every question to the user's [Ord] in its place (see Ask.v), as in [AvlRangeAskModel].

    A loop takes a node off the work list in every round and a node is put there once, so [len()] rounds are enough whatever the
    answers are. A result [AvlHeapModel.Unwound] is a panic of the user's [clone]; [Ask.Unwound] is one of a comparison. *)
From Coq Require Import List PeanoNat Bool.
From Verif Require Import Base Spec Heap HeapMut AvlModel AvlIterModel AvlHeapModel MutSpec AvlHeapMutModel Ask AvlRangeAskModel.
Import ListNotations.
Local Open Scope nat_scope.

Section RangeMut.
  Context {K V Q : Type} (bor : K -> Q) (ask : nat -> Q -> Q -> option comparison).
  Variable bomb : nat -> bool.
  Notation heap := (heap (pay K V)).
  Notation work := (list (action addr addr)).
  Notation outcome := (trial heap (out work)).
  Variables lb ub : bound Q.

  (** Going on with what the call put on the work list. *)
  Definition then_t (t : outcome) (f : heap -> work -> nat -> outcome) : outcome :=
    match t with
    | Returned h (Done w) n => f h w n
    | Returned h AvlHeapModel.Unwound n => Returned h AvlHeapModel.Unwound n
    | Ask.Unwound h n => Ask.Unwound h n
    | Fault => Fault
    end.
  (** [Descend(Arc::make_mut(rt))]. *)
  Definition pull (h : heap) (a : addr) (j n : nat) : outcome :=
    match am_kid bomb h a j with
    | Ok (h1, Done c) => Returned h1 (Done (odesc c)) n
    | Ok (h1, AvlHeapModel.Unwound) => Returned h1 AvlHeapModel.Unwound n
    | Panic => Fault
    end.
  (** avl.rs:1652-1657, 1688-1693: the right child, unless [k <= n.key]. *)
  Definition am_right_t (h : heap) (a : addr) (n : nat) : outcome :=
    match excl h a with
    | Panic => Fault
    | Ok nd =>
      match nth_error (nd_kids nd) 1, ub with
      | Some (Some _), Included k | Some (Some _), Excluded k =>
        after (le_t ask n k (bor (pk (nd_data nd)))) (fun _ => h) (fun _ b n1 => if b then Returned h (Done []) n1 else pull h a 1 n1)
      | _, _ => pull h a 1 n
      end
    end.
  (** avl.rs:1663-1668, 1677-1682: the left child, unless [k >= n.key]. *)
  Definition am_left_t (h : heap) (a : addr) (n : nat) : outcome :=
    match excl h a with
    | Panic => Fault
    | Ok nd =>
      match nth_error (nd_kids nd) 0, lb with
      | Some (Some _), Included k | Some (Some _), Excluded k =>
        after (ge_t ask n k (bor (pk (nd_data nd)))) (fun _ => h) (fun _ b n1 => if b then Returned h (Done []) n1 else pull h a 0 n1)
      | _, _ => pull h a 0 n
      end
    end.
  (** avl.rs:1659-1661, 1684-1686. *)
  Definition am_item_t (h : heap) (a : addr) (n : nat) : outcome :=
    match excl h a with
    | Panic => Fault
    | Ok nd => after (contains_t ask lb ub (bor (pk (nd_data nd))) n) (fun _ => h) (fun _ b n1 => Returned h (Done (if b then [Return a] else [])) n1)
    end.

  (** avl.rs:1647-1669: the front loop. *)
  Fixpoint am_front_t (fuel : nat) (h : heap) (w : work) (n : nat) : outcome :=
    match fuel with
    | O => Fault
    | S fuel' =>
      match w with
      | Descend a :: w' =>
        then_t (am_right_t h a n) (fun h1 r n1 =>
        then_t (am_item_t h1 a n1) (fun h2 i n2 =>
        then_t (am_left_t h2 a n2) (fun h3 l n3 => am_front_t fuel' h3 ((l ++ i ++ r) ++ w') n3)))
      | _ => Returned h (Done w) n
      end
    end.
  (** avl.rs:1672-1694: the back loop. *)
  Fixpoint am_back_t (fuel : nat) (h : heap) (w : work) (n : nat) : outcome :=
    match fuel with
    | O => Fault
    | S fuel' =>
      match rev w with
      | Descend a :: w' =>
        then_t (am_left_t h a n) (fun h1 l n1 =>
        then_t (am_item_t h1 a n1) (fun h2 i n2 =>
        then_t (am_right_t h2 a n2) (fun h3 r n3 => am_back_t fuel' h3 (rev w' ++ l ++ i ++ r) n3)))
      | _ => Returned h (Done w) n
      end
    end.

  (** avl.rs:1616-1697 [range_mut]. *)
  Definition hm_range_mut_t (h : heap) (m : hmap) (n : nat) : trial (heap * hmap) (out (inner_iter addr addr)) :=
    match am_root bomb h m with
    | Panic => Fault
    | Ok (h1, m1, AvlHeapModel.Unwound) => Returned (h1, m1) AvlHeapModel.Unwound n
    | Ok (h1, m1, Done w) =>
      match then_t (am_front_t (S (hm_len m)) h1 w n) (am_back_t (S (hm_len m))) with
      | Returned h2 (Done w2) n2 => Returned (h2, m1) (Done (InnerIter w2 (hm_len m))) n2
      | Returned h2 AvlHeapModel.Unwound n2 => Returned (h2, m1) AvlHeapModel.Unwound n2
      | Ask.Unwound h2 n2 => Ask.Unwound (h2, m1) n2
      | Fault => Fault
      end
    end.
End RangeMut.
