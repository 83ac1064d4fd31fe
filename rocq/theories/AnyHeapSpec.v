(** Maps that share nodes, when the user's [Ord] is no order: [cmp] is any function, and another one in every call. What
    a history of calls may do to the lists of entries; the user's [clone]s and predicates may panic as well. *)
From Coq Require Import List PeanoNat ZArith Bool Sorted Permutation.
From Verif Require Import Base Spec MapSpec AvlModel Heap AvlHeapModel AvlHeapHistModel AvlHeapSpec AnyOrdSpec.
Import ListNotations.
Local Open Scope nat_scope.

Section AnyHeap.
  Context {K V Q : Type} (bor : K -> Q).
  Context (keq : K -> K -> bool) (veq : V -> V -> bool).
  Context (kcmp : K -> K -> comparison) (vcmp : V -> V -> comparison).
  Notation entry := (K * V)%type.
  Notation op := (op K V Q).
  Notation obs := (obs K V).
  Notation ord := (Q -> Q -> comparison).
  Notation state := (list (list entry)).

  (** Following the pointers of [m] gives a map of the right shape with the entries [l]. *)
  Definition hany (h : heap (pay K V)) (m : hmap) (l : list entry) : Prop :=
    exists a, hm_read h m = Ok a /\ a_any a l.

  (** [range]: some of the entries, each at most once and in the order of [iter]; of the first and the last a comparison
      said that they are in the range. All of them if the comparisons, both ways round, say that every entry lies strictly
      between the bounds. *)
  Definition told_inside (cmp : ord) (lo hi : bound Q) (e : entry) : Prop :=
    match lo with Unbounded => True | Included q | Excluded q => cmp q (bor (fst e)) = Lt end /\
    match hi with Unbounded => True | Included q | Excluded q => cmp (bor (fst e)) q = Lt /\ cmp q (bor (fst e)) = Gt end.
  Definition told_range (cmp : ord) (lo hi : bound Q) (l l' : list entry) : Prop :=
    sub l' l /\ ((forall e, In e l -> told_inside cmp lo hi e) -> l' = l) /\ forall e, hd_error l' = Some e \/ hd_error (rev l') = Some e ->
      match lo with
      | Unbounded => True
      | Included q => cmp q (bor (fst e)) <> Gt
      | Excluded q => cmp q (bor (fst e)) = Lt
      end /\
      match hi with
      | Unbounded => True
      | Included q => cmp (bor (fst e)) q <> Gt
      | Excluded q => cmp (bor (fst e)) q = Lt
      end.

  (** The calls for which a comparison that is no order has no worse effects: [or_insert] may panic (C111) and
      [split_off] may get [len] wrong (C110). *)
  Definition tame (o : op) : Prop :=
    match o with
    | OOrInsert _ _ _ _ | OSplitOff _ _ => False
    | _ => True
    end.

  (** The maps [st] and the result [r] after a call on the maps [st] that returned. *)
  Definition any_did (cmp : ord) (st : state) (o : op) (r : obs) (st' : state) : Prop :=
    let at1 i (P : list entry -> Prop) := match nth_error st i with Some l => P l | None => r = RUnit /\ st' = st end in
    let at2 i j (P : list entry -> list entry -> Prop) := at1 i (fun a => at1 j (fun b => P a b)) in
    let put i (P : list entry -> Prop) := exists l', st' = set_nth i l' st /\ P l' in
    let add (P : list entry -> Prop) := r = RUnit /\ exists l', st' = st ++ [l'] /\ P l' in
    let pair a b (P : list entry -> list entry -> list (entry * entry) -> Prop) :=
      exists only_a only_b both, any_pairs bor cmp a b only_a only_b both /\ P only_a only_b both in
    match o with
    | ONew => add (fun l' => l' = [])
    | OClone i => at1 i (fun l => add (fun l' => l' = l))
    | OFromIter ps => add (fun l' => any_extend bor cmp ps [] l')
    | OInsert i k v => at1 i (fun l => put i (fun l' => exists x, r = RVal x /\ any_insert bor cmp k v l l' x))
    | ORemove i q => at1 i (fun l => put i (fun l' => exists x, r = RVal x /\ any_remove_val bor cmp q l l' x))
    | ORemoveEntry i q => at1 i (fun l => put i (fun l' => exists x, r = REntry x /\ any_remove bor cmp q l l' x))
    | OGet i q => at1 i (fun l => st' = st /\ exists x, r = RVal x /\ any_get bor cmp q l x)
    | OGetKeyValue i q => at1 i (fun l => st' = st /\ exists x, r = REntry x
                            /\ forall e, x = Some e -> In e l /\ told_eq bor cmp q e)
    | OContains i q => at1 i (fun l => st' = st /\ exists b, r = RBool b
                         /\ (b = true -> exists e, In e l /\ told_eq bor cmp q e))
    | OGetMut i q w => at1 i (fun l => put i (fun l' => exists x, r = RVal x /\ any_get_mut bor cmp q w l l' x))
    | OAndModify i k w => at1 i (fun l => r = RUnit /\ put i (fun l' => exists x, any_get_mut bor cmp (bor k) w l l' x))
    | OFirst i => at1 i (fun l => st' = st /\ r = REntry (s_first l))
    | OLast i => at1 i (fun l => st' = st /\ r = REntry (s_last l))
    | OPopFirst i => at1 i (fun l => st' = set_nth i (tl l) st /\ r = REntry (s_first l))
    | OPopLast i => at1 i (fun l => st' = set_nth i (removelast l) st /\ r = REntry (s_last l))
    | OLen i => at1 i (fun l => st' = st /\ r = RLen (length l))
    | OIsEmpty i => at1 i (fun l => st' = st /\ r = RBool (length l =? 0))
    | OClear i => at1 i (fun _ => st' = set_nth i [] st /\ r = RUnit)
    | OExtend i ps => at1 i (fun l => r = RUnit /\ put i (fun l' => any_extend bor cmp ps l l'))
    | ORetain i g => at1 i (fun l => r = RUnit /\ st' = set_nth i (s_retain g l) st)
    | OAppend i j => at2 i j (fun a b => r = RUnit /\
        if i =? j then st' = st
        else pair a b (fun only_a _ _ =>
               exists l, Permutation l (only_a ++ b) /\ st' = set_nth j [] (set_nth i l st)))
    | OUnion i j => at2 i j (fun a b => pair a b (fun only_a _ _ => add (fun l' => Permutation l' (only_a ++ b))))
    | OIntersect i j => at2 i j (fun a b => pair a b (fun _ _ both => add (fun l' => Permutation l' (map fst both))))
    | ODiff i j => at2 i j (fun a b => pair a b (fun only_a _ _ => add (fun l' => Permutation l' only_a)))
    | OSymDiff i j => at2 i j (fun a b => pair a b (fun only_a only_b _ =>
                        add (fun l' => Permutation l' (only_a ++ only_b))))
    | OIter i cs => at1 i (fun l => st' = st /\ r = RSeq (s_ends cs l))
    | OEq i j => at2 i j (fun a b => st' = st /\ r = RBool (seq_eqb keq veq a b))
    | OCmp i j => at2 i j (fun a b => st' = st /\ r = RCmp (seq_cmp kcmp vcmp a b))
    | OCheck i => at1 i (fun l => st' = st /\ exists b, r = RBool b
                    /\ (b = true -> Sorted (fun x y => cmp (bor (fst x)) (bor (fst y)) = Lt) l))
    | ORange i lo hi cs => at1 i (fun l => st' = st /\ exists l', told_range cmp lo hi l l'
                             /\ r = RItems (map fst (s_ends cs l')))
    | OOrInsert _ _ _ _ | OSplitOff _ _ => True
    end.

  (** The maps after a call that unwound, as in [AvlHeapHistSpec.s_unwound]. *)
  Definition any_unwound (cmp : ord) (st : state) (o : op) (st' : state) : Prop :=
    match o with
    | OFromIter _ | OUnion _ _ | OIntersect _ _ | ODiff _ _ | OSymDiff _ _
    | OInsert _ _ _ | OGetMut _ _ _ | OAndModify _ _ _ => st' = st
    | OExtend i ps => exists l done rest l', nth_error st i = Some l /\ ps = done ++ rest
                        /\ any_extend bor cmp done l l' /\ st' = set_nth i l' st
    | ORemove i _ | ORemoveEntry i _ | OPopFirst i | OPopLast i | ORetain i _ => st' = set_nth i [] st
    | OAppend i j => i <> j /\ st' = set_nth j [] (set_nth i [] st)
    | _ => False
    end.

  (** From the maps [st], the calls [os], each with its comparison, may return [rs] and leave [st']. *)
  Fixpoint any_follows (st : state) (os : list (ord * op)) (rs : list (out obs)) (st' : state) : Prop :=
    match os, rs with
    | [], [] => st' = st
    | (cmp, o) :: os', Done r :: rs' => exists st1, any_did cmp st o r st1 /\ any_follows st1 os' rs' st'
    | (cmp, o) :: os', Unwound :: rs' => exists st1, any_unwound cmp st o st1 /\ any_follows st1 os' rs' st'
    | _, _ => False
    end.

  (** The model's calls one after the other. *)
  Fixpoint h_calls (bomb : nat -> bool) (fbomb : K -> V -> bool) (w : world) (os : list (ord * op))
    : res (world * list (out obs)) :=
    match os with
    | [] => Ok (w, [])
    | (cmp, o) :: os' =>
      '(w1, r) <- h_step bor cmp keq veq kcmp vcmp bomb fbomb w o;;
      '(w2, rs) <- h_calls bomb fbomb w1 os';;
      Ok (w2, r :: rs)
    end.

  (** If no map has more than [b] entries before the calls, none has more than this during them. *)
  Definition grows1 (o : op) (b : Z) : Z :=
    match o with
    | OInsert _ _ _ => b + 1
    | OFromIter ps | OExtend _ ps => b + Z.of_nat (length ps)
    | OAppend _ _ | OUnion _ _ | OSymDiff _ _ => b + b
    | _ => b
    end%Z.
  Fixpoint grows (os : list (ord * op)) (b : Z) : Z :=
    match os with [] => b | (_, o) :: os' => grows os' (grows1 o b) end.
End AnyHeap.
