(** Specification of ordered sets as strictly ascending lists of elements, and of a
    client that runs any sequence of set calls on any number of sets. This file
    mentions nothing of the modelled implementation. *)
From Coq Require Import List Bool Sorted ZArith.
From Verif Require Import Base Spec BTreeSpec.
Import ListNotations.

(** The results of [n] calls of [next] on an iterator that yields [l]. *)
Fixpoint s_nexts {A} (n : nat) (l : list A) : list (option A) :=
  match n with O => [] | S n' => hd_error l :: s_nexts n' (tl l) end.

Section SetSpec.
  (** Elements are compared through their borrowed form, as in [Spec]. *)
  Context {T Q : Type} (bor : T -> Q) (cmp : Q -> Q -> comparison).

  Definition x_lt (q : Q) (x : T) : bool := match cmp (bor x) q with Lt => true | _ => false end.
  Definition x_eq (q : Q) (x : T) : bool := match cmp (bor x) q with Eq => true | _ => false end.
  Definition x_gt (q : Q) (x : T) : bool := match cmp (bor x) q with Gt => true | _ => false end.

  Definition x_ascending (l : list T) : Prop :=
    StronglySorted (fun a b => cmp (bor a) (bor b) = Lt) l.

  (** The element equal to [q]; membership. *)
  Definition x_find (q : Q) (l : list T) : option T := find (x_eq q) l.
  Definition x_mem (q : Q) (l : list T) : bool := existsb (x_eq q) l.

  (** The new element takes the place of an equal one. *)
  Definition x_insert (x : T) (l : list T) : list T :=
    filter (x_lt (bor x)) l ++ x :: filter (x_gt (bor x)) l.
  Definition x_remove (q : Q) (l : list T) : list T := filter (fun x => negb (x_eq q x)) l.
  Definition x_extend (l xs : list T) : list T := fold_left (fun acc x => x_insert x acc) xs l.

  Definition x_above (lo : bound Q) (x : T) : bool :=
    match lo with Unbounded => true | Included q => negb (x_lt q x) | Excluded q => x_gt q x end.
  Definition x_below (hi : bound Q) (x : T) : bool :=
    match hi with Unbounded => true | Included q => negb (x_gt q x) | Excluded q => x_lt q x end.
  Definition x_range (lo hi : bound Q) (l : list T) : list T :=
    filter (fun x => x_above lo x && x_below hi x) l.

  (** Elements of [l] that are (not) in [r]; all elements, those of [r] where both
      have one; elements of exactly one of the two. *)
  Definition x_inter (l r : list T) : list T := filter (fun x => x_mem (bor x) r) l.
  Definition x_diff (l r : list T) : list T := filter (fun x => negb (x_mem (bor x) r)) l.
  Definition x_union (l r : list T) : list T := x_extend l r.
  Definition x_symdiff (l r : list T) : list T := x_extend (x_diff l r) (x_diff r l).

  Definition x_subset (l r : list T) : bool := forallb (fun x => x_mem (bor x) r) l.
  Definition x_disjoint (l r : list T) : bool := forallb (fun x => negb (x_mem (bor x) r)) l.

  (** The same with the left side strictly smaller; the intersection with the elements of
      the smaller list, of [r] if the lengths are equal. *)
  Definition x_strict_subset (l r : list T) : bool :=
    match l with [] => true | _ => Nat.ltb (length l) (length r) && x_subset l r end.
  Definition x_small_inter (l r : list T) : list T :=
    if Nat.ltb (length l) (length r) then x_inter l r else x_inter r l.

  (** What a state-passing predicate keeps, called on the elements in order. *)
  Fixpoint x_retain {S} (f : S -> T -> S * bool) (s : S) (l : list T) : list T * S :=
    match l with
    | [] => ([], s)
    | x :: l' => let '(s1, keep) := f s x in
                 let '(rest, s2) := x_retain f s1 l' in
                 ((if keep : bool then [x] else []) ++ rest, s2)
    end.

  (** Sequence equality and lexicographic order. *)
  Context (teq : T -> T -> bool) (tcmp : T -> T -> comparison).
  Fixpoint x_seq_eqb (l r : list T) : bool :=
    match l, r with
    | [], [] => true
    | x :: l', y :: r' => teq x y && x_seq_eqb l' r'
    | _, _ => false
    end.
  Fixpoint x_seq_cmp (l r : list T) : comparison :=
    match l, r with
    | [], [] => Eq
    | [], _ => Lt
    | _, [] => Gt
    | x :: l', y :: r' => match tcmp x y with Eq => x_seq_cmp l' r' | c => c end
    end.

  (** The calls; [h], [h1], [h2] number the sets in the order they came into being. *)
  Inductive xop :=
  | XNew
  | XClone (h : nat)
  | XFromIter (xs : list T)
  | XInsert (h : nat) (x : T)
  | XRemove (h : nat) (q : Q)
  | XTake (h : nat) (q : Q)
  | XReplace (h : nat) (x : T)
  | XGet (h : nat) (q : Q)
  | XContains (h : nat) (q : Q)
  | XFirst (h : nat)
  | XLast (h : nat)
  | XPopFirst (h : nat)
  | XPopLast (h : nat)
  | XLen (h : nat)
  | XIsEmpty (h : nat)
  | XClear (h : nat)
  | XExtend (h : nat) (xs : list T)
  | XRetain (h : nat) (g : T -> bool)
  | XSplitOff (h : nat) (q : Q)
  | XAppend (h1 h2 : nat)
  | XNewUnion (h1 h2 : nat)
  | XNewInter (h1 h2 : nat)
  | XNewDiff (h1 h2 : nat)
  | XNewSymDiff (h1 h2 : nat)
  | XUnion (h1 h2 n : nat)
  | XInter (h1 h2 n : nat)
  | XDiff (h1 h2 n : nat)
  | XSymDiff (h1 h2 n : nat)
  | XIsDisjoint (h1 h2 : nat)
  | XIsSubset (h1 h2 : nat)
  | XIsSuperset (h1 h2 : nat)
  | XIter (h n : nat)
  | XRange (h : nat) (lo hi : bound Q) (cs : list end_call)
  | XEq (h1 h2 : nat)
  | XCmp (h1 h2 : nat)
  | XCheck (h : nat).

  (** What a call returns. *)
  Inductive xobs :=
  | XUnit
  | XElem (o : option T)
  | XBool (b : bool)
  | XNum (n : nat)
  | XItems (l : list (option T))
  | XSeq (l : list (option T * nat))
  | XOrd (c : comparison).

  Definition x_set_nth {A} (i : nat) (x : A) (l : list A) : list A :=
    firstn i l ++ match skipn i l with [] => [] | _ :: r => x :: r end.

  (** The answer of [is_subset] and the result of [new_intersection] are
      parameters, because the two kinds of sets differ in them. *)
  Context (subset : list T -> list T -> bool) (new_inter : list T -> list T -> list T).

  Definition x_step (st : list (list T)) (o : xop) : list (list T) * xobs :=
    let on1 h f := match nth_error st h with Some m => f m | None => (st, XUnit) end in
    let on12 h1 h2 f := on1 h1 (fun a => on1 h2 (fun b => f a b)) in
    match o with
    | XNew => (st ++ [[]], XUnit)
    | XClone h => on1 h (fun m => (st ++ [m], XUnit))
    | XFromIter xs => (st ++ [x_extend [] xs], XUnit)
    | XInsert h x => on1 h (fun m =>
        (x_set_nth h (x_insert x m) st, XBool (negb (x_mem (bor x) m))))
    | XRemove h q => on1 h (fun m => (x_set_nth h (x_remove q m) st, XBool (x_mem q m)))
    | XTake h q => on1 h (fun m => (x_set_nth h (x_remove q m) st, XElem (x_find q m)))
    | XReplace h x => on1 h (fun m =>
        (x_set_nth h (x_insert x m) st, XElem (x_find (bor x) m)))
    | XGet h q => on1 h (fun m => (st, XElem (x_find q m)))
    | XContains h q => on1 h (fun m => (st, XBool (x_mem q m)))
    | XFirst h => on1 h (fun m => (st, XElem (hd_error m)))
    | XLast h => on1 h (fun m => (st, XElem (hd_error (rev m))))
    | XPopFirst h => on1 h (fun m => (x_set_nth h (tl m) st, XElem (hd_error m)))
    | XPopLast h => on1 h (fun m => (x_set_nth h (removelast m) st, XElem (hd_error (rev m))))
    | XLen h => on1 h (fun m => (st, XNum (length m)))
    | XIsEmpty h => on1 h (fun m => (st, XBool (match m with [] => true | _ => false end)))
    | XClear h => on1 h (fun m => (x_set_nth h [] st, XUnit))
    | XExtend h xs => on1 h (fun m => (x_set_nth h (x_extend m xs) st, XUnit))
    | XRetain h g => on1 h (fun m => (x_set_nth h (filter g m) st, XUnit))
    | XSplitOff h q => on1 h (fun m =>
        (x_set_nth h (filter (x_lt q) m) st ++ [filter (fun x => negb (x_lt q x)) m], XUnit))
    | XAppend h1 h2 => on12 h1 h2 (fun a b =>
        if Nat.eqb h1 h2 then (st, XUnit)
        else (x_set_nth h2 [] (x_set_nth h1 (x_union a b) st), XUnit))
    | XNewUnion h1 h2 => on12 h1 h2 (fun a b => (st ++ [x_union a b], XUnit))
    | XNewInter h1 h2 => on12 h1 h2 (fun a b => (st ++ [new_inter a b], XUnit))
    | XNewDiff h1 h2 => on12 h1 h2 (fun a b => (st ++ [x_diff a b], XUnit))
    | XNewSymDiff h1 h2 => on12 h1 h2 (fun a b => (st ++ [x_symdiff a b], XUnit))
    | XUnion h1 h2 n => on12 h1 h2 (fun a b => (st, XItems (s_nexts n (x_union a b))))
    (* the intersection shows the elements of the second set *)
    | XInter h1 h2 n => on12 h1 h2 (fun a b => (st, XItems (s_nexts n (x_inter b a))))
    | XDiff h1 h2 n => on12 h1 h2 (fun a b => (st, XItems (s_nexts n (x_diff a b))))
    | XSymDiff h1 h2 n => on12 h1 h2 (fun a b => (st, XItems (s_nexts n (x_symdiff a b))))
    | XIsDisjoint h1 h2 => on12 h1 h2 (fun a b => (st, XBool (x_disjoint a b)))
    | XIsSubset h1 h2 => on12 h1 h2 (fun a b => (st, XBool (subset a b)))
    | XIsSuperset h1 h2 => on12 h1 h2 (fun a b => (st, XBool (subset b a)))
    | XIter h n => on1 h (fun m => (st, XSeq (s_ends (repeat Front n) m)))
    | XRange h lo hi cs => on1 h (fun m =>
        (st, XItems (map fst (s_ends cs (x_range lo hi m)))))
    | XEq h1 h2 => on12 h1 h2 (fun a b => (st, XBool (x_seq_eqb a b)))
    | XCmp h1 h2 => on12 h1 h2 (fun a b => (st, XOrd (x_seq_cmp a b)))
    | XCheck h => on1 h (fun m => (st, XBool true))
    end.

  Fixpoint x_run (st : list (list T)) (os : list xop) : list (list T) * list xobs :=
    match os with
    | [] => (st, [])
    | o :: os' =>
      let '(st1, r) := x_step st o in
      let '(st2, rs) := x_run st1 os' in (st2, r :: rs)
    end.

  (** As in [MapSpec]: no set of the history has [2^63] elements or more. *)
  Definition x_small (l : list T) : Prop := (Z.of_nat (length l) < 2 ^ 63)%Z.
  Definition xop_small (o : xop) : Prop :=
    match o with XFromIter xs | XExtend _ xs => x_small xs | _ => True end.
  Fixpoint x_all_small (st : list (list T)) (os : list xop) : Prop :=
    Forall x_small st /\
    match os with
    | [] => True
    | o :: os' => xop_small o /\ x_all_small (fst (x_step st o)) os'
    end.
End SetSpec.
Arguments xop T Q : clear implicits.
Arguments xobs T : clear implicits.

Section Supported.
  Context {T Q : Type} (bor : T -> Q) (cmp : Q -> Q -> comparison).
  Context (teq : T -> T -> bool) (tcmp : T -> T -> comparison).
  Context (subset : list T -> list T -> bool) (new_inter : list T -> list T -> list T).
  (** The bounds for which [BTreeSet::range] is meant, as [bounds_fine]. *)
  Definition x_fine (lo hi : bound Q) (l : list T) : Prop :=
    ~ inverted cmp lo hi /\ forall q, pinched cmp lo hi q -> x_mem bor cmp q l = false.
  Definition x_supported (st : list (list T)) (o : xop T Q) : Prop :=
    match o with
    | XRange h lo hi _ => forall l, nth_error st h = Some l -> x_fine lo hi l
    | _ => True
    end.
  Fixpoint x_all_supported (st : list (list T)) (os : list (xop T Q)) : Prop :=
    match os with
    | [] => True
    | o :: os' => x_supported st o
                  /\ x_all_supported (fst (x_step bor cmp teq tcmp subset new_inter st o)) os'
    end.
End Supported.
