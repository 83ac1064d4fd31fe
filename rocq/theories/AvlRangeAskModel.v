(** [range] and [range_mut] of [/repo/src/avl.rs] with comparisons that may panic (see Ask.v). As [AvlIterModel.range_iter],
    but every comparison is a question, and a comparison is made only if the code makes it: none for a child that is not
    there, and none with the upper bound for a key that is below the lower one.

    [<=], [<] and [>=] on keys are [PartialOrd] methods, which come down to one question each. A [partial_cmp] that gives
    [None] makes all of them false, as some answer does. *)
From Coq Require Import List PeanoNat Bool.
From Verif Require Import Base Spec AvlModel AvlIterModel Ask Heap AvlHeapModel.
Import ListNotations.
Local Open Scope nat_scope.

Section Inner.
  Context {N I : Type} (destr : N -> option N * I * option N) (nsize : N -> nat).
  Context {Q : Type} (ikey : I -> Q) (ask : nat -> Q -> Q -> option comparison) (lb ub : bound Q).
  Notation work := (list (action N I)).

  (** [a <= b], [a < b]. *)
  Definition le_t (n : nat) (a b : Q) : trial unit bool :=
    question ask n a b tt (fun c n1 => Returned tt (match c with Gt => false | _ => true end) n1).
  Definition lt_t (n : nat) (a b : Q) : trial unit bool :=
    question ask n a b tt (fun c n1 => Returned tt (match c with Lt => true | _ => false end) n1).
  Definition ge_t (n : nat) (a b : Q) : trial unit bool :=
    question ask n a b tt (fun c n1 => Returned tt (match c with Lt => false | _ => true end) n1).
  Definition back (u : unit) : unit := u.

  (** [RangeBounds::contains] (core): lower, then ([&&]) upper bound. *)
  Definition contains_t (q : Q) (n : nat) : trial unit bool :=
    after (match lb with
           | Unbounded => Returned tt true n
           | Included k => le_t n k q
           | Excluded k => lt_t n k q
           end) back (fun _ b n1 =>
    if b then match ub with
              | Unbounded => Returned tt true n1
              | Included k => le_t n1 q k
              | Excluded k => lt_t n1 q k
              end
    else Returned tt false n1).
  Definition item_t (i : I) (n : nat) : trial unit work :=
    after (contains_t (ikey i) n) back (fun _ b n1 => Returned tt (if b then [Return i] else []) n1).

  (** avl.rs:1563-1568, 1599-1604 (and 1652-1657, 1688-1693): the right child, unless [k <= n.key]. *)
  Definition right_t (o : option N) (q : Q) (n : nat) : trial unit work :=
    match o, ub with
    | Some _, Included k | Some _, Excluded k => after (le_t n k q) back (fun _ b n1 => Returned tt (if b then [] else odesc o) n1)
    | _, _ => Returned tt (odesc o) n
    end.
  (** avl.rs:1574-1579, 1588-1593 (and 1663-1668, 1677-1682): the left child, unless [k >= n.key]. *)
  Definition left_t (o : option N) (q : Q) (n : nat) : trial unit work :=
    match o, lb with
    | Some _, Included k | Some _, Excluded k => after (ge_t n k q) back (fun _ b n1 => Returned tt (if b then [] else odesc o) n1)
    | _, _ => Returned tt (odesc o) n
    end.

  (** One round of the front loop, avl.rs:1559-1579 (and 1648-1668): right, the entry, left. *)
  Definition front_t (x : N) (n : nat) : trial unit work :=
    let '(lf, item, rt) := destr x in
    after (right_t rt (ikey item) n) back (fun _ r n1 =>
    after (item_t item n1) back (fun _ i n2 =>
    after (left_t lf (ikey item) n2) back (fun _ l n3 => Returned tt (l ++ i ++ r) n3))).
  (** One round of the back loop, avl.rs:1584-1604 (and 1673-1693): left, the entry, right. *)
  Definition back_t (x : N) (n : nat) : trial unit work :=
    let '(lf, item, rt) := destr x in
    after (left_t lf (ikey item) n) back (fun _ l n1 =>
    after (item_t item n1) back (fun _ i n2 =>
    after (right_t rt (ikey item) n2) back (fun _ r n3 => Returned tt (l ++ i ++ r) n3))).

  (** avl.rs:1558-1580 (and 1647-1669). *)
  Fixpoint prune_front_t (fuel : nat) (w : work) (n : nat) : trial unit work :=
    match fuel with
    | O => Fault
    | S fuel' =>
      match w with
      | Descend x :: w' => after (front_t x n) back (fun _ e n1 => prune_front_t fuel' (e ++ w') n1)
      | _ => Returned tt w n
      end
    end.
  (** avl.rs:1583-1605 (and 1672-1694). *)
  Fixpoint prune_back_t (fuel : nat) (w : work) (n : nat) : trial unit work :=
    match fuel with
    | O => Fault
    | S fuel' =>
      match rev w with
      | Descend x :: w' => after (back_t x n) back (fun _ e n1 => prune_back_t fuel' (rev w' ++ e) n1)
      | _ => Returned tt w n
      end
    end.

  (** avl.rs:1534-1613 [range], :1616-1697 [range_mut]. *)
  Definition range_iter_t (root : option N) (len n : nat) : trial unit (inner_iter N I) :=
    let w0 := odesc root in
    after (prune_front_t (S (wsize nsize w0)) w0 n) back (fun _ w1 n1 =>
    after (prune_back_t (S (wsize nsize w1)) w1 n1) back (fun _ w2 n2 => Returned tt (InnerIter w2 len) n2)).
End Inner.

Section AvlRange.
  Context {K V Q : Type} (bor : K -> Q) (ask : nat -> Q -> Q -> option comparison).
  (** avl.rs:1534-1613. *)
  Definition avl_range_t (m : avl_map K V) (lb ub : bound Q) (n : nat) : trial unit (inner_iter nnode (K * V)) :=
    range_iter_t norm_destr norm_size (fun e => bor (fst e)) ask lb ub (mk_nnode (am_root m)) (avl_len m) n.
  (** avl.rs:1616-1697, on a map that shares no nodes. No value is changed: the argument stays. *)
  Definition avl_range_mut_t (m : avl_map K V) (lb ub : bound Q) (n : nat) : trial unit (inner_iter mnode mref) :=
    range_iter_t mut_destr mut_size (fun r => bor (snd r)) ask lb ub (mk_mnode [] (am_root m)) (avl_len m) n.
  (** [range] of a map on a heap of shared nodes: it only reads. *)
  Definition hm_range_t (h : heap (pay K V)) (m : hmap) (lb ub : bound Q) (n : nat) : trial unit (inner_iter nnode (K * V)) :=
    match hm_read h m with Ok a => avl_range_t a lb ub n | Panic => Fault end.
End AvlRange.
