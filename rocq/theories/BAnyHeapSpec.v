(** B-tree maps that share nodes, when the user's [Ord] is no order: [cmp] is any function, and another one in every call.
    What a history of calls may do to the lists of entries; the user's [clone]s and predicates may panic as well. *)
From Coq Require Import List PeanoNat Bool Sorted.
From Verif Require Import Base Spec MapSpec Heap BTreeModel BTreeHeapModel BTreeHeapHistModel AnyOrdSpec AnyHeapSpec.
Import ListNotations.
Local Open Scope nat_scope.

Section BAnyHeap.
  Context {K V Q : Type} (bor : K -> Q) (N : nat).
  Context (keq : K -> K -> bool) (veq : V -> V -> bool).
  Context (kcmp : K -> K -> comparison) (vcmp : V -> V -> comparison).
  Notation entry := (K * V)%type.
  Notation op := (op K V Q).
  Notation obs := (obs K V).
  Notation ord := (Q -> Q -> comparison).
  Notation state := (list (list entry)).

  (** Following the pointers of [m] gives a map of the right shape with the entries [l]. *)
  Definition hbany (h : heap (list entry)) (m : hbmap) (l : list entry) : Prop :=
    exists b, hb_read h m = Ok b /\ b_any N b l.

  (** The entries of a tree from left to right, also if its shape is wrong. *)
  Fixpoint between (ls : list (list entry)) (es : list entry) : list entry :=
    match ls, es with
    | [], _ => es
    | l :: ls', [] => l ++ between ls' []
    | l :: ls', e :: es' => l ++ e :: between ls' es'
    end.
  Fixpoint in_order (t : bt K V) : list entry := match t with BN es ks => between (map in_order ks) es end.

  (** The calls that a [BTreeMap] has, but for [or_insert], which may panic (C111), and [range], which panics if its bounds
      are told to be the wrong way round. *)
  Definition b_tame (o : op) : Prop :=
    match o with
    | ORemoveEntry _ _ | OUnion _ _ | OIntersect _ _ | ODiff _ _ | OSymDiff _ _ | OOrInsert _ _ _ _ | ORange _ _ _ _ => False
    | _ => True
    end.

  (** The maps [st'] and the result [r] after a call on the maps [st] that returned. [retain], [split_off] and [append]
      insert entries one by one into a map; the other calls as for the AVL map. *)
  Definition bany_did (cmp : ord) (st : state) (o : op) (r : obs) (st' : state) : Prop :=
    let at1 i (P : list entry -> Prop) := match nth_error st i with Some l => P l | None => r = RUnit /\ st' = st end in
    match o with
    | ORetain i g => at1 i (fun l => r = RUnit /\ exists l', any_extend bor cmp (s_retain g l) [] l' /\ st' = set_nth i l' st)
    | OSplitOff i q => at1 i (fun l => r = RUnit /\ exists l1 l2,
        any_extend bor cmp (filter (fun e => match cmp q (bor (fst e)) with Gt => true | _ => false end) l) [] l1
        /\ any_extend bor cmp (filter (fun e => match cmp q (bor (fst e)) with Gt => false | _ => true end) l) [] l2
        /\ st' = set_nth i l1 st ++ [l2])
    | OAppend i j => at1 i (fun a => at1 j (fun b => r = RUnit /\
        if i =? j then st' = st
        else exists l', any_extend bor cmp b a l' /\ st' = set_nth j [] (set_nth i l' st)))
    | _ => any_did bor keq veq kcmp vcmp cmp st o r st'
    end.

  (** The maps after a call that unwound, as in [BTreeHeapHistSpec.b_unwound]. *)
  Definition bany_unwound (cmp : ord) (st : state) (o : op) (st' : state) : Prop :=
    match o with
    | OFromIter _ | OInsert _ _ _ | OGetMut _ _ _ | OAndModify _ _ _ => st' = st
    | OExtend i ps => exists l done rest l', nth_error st i = Some l /\ ps = done ++ rest
                        /\ any_extend bor cmp done l l' /\ st' = set_nth i l' st
    | OAppend i j => i <> j /\ exists a b done rest l', nth_error st i = Some a /\ nth_error st j = Some b /\ b = done ++ rest
                        /\ any_extend bor cmp done a l' /\ st' = set_nth j [] (set_nth i l' st)
    | ORemove i _ | OPopFirst i | OPopLast i | ORetain i _ | OSplitOff i _ => st' = set_nth i [] st
    | _ => False
    end.

  (** From the maps [st], the calls [os], each with its comparison, may return [rs] and leave [st']. *)
  Fixpoint bany_follows (st : state) (os : list (ord * op)) (rs : list (out obs)) (st' : state) : Prop :=
    match os, rs with
    | [], [] => st' = st
    | (cmp, o) :: os', Done r :: rs' => exists st1, bany_did cmp st o r st1 /\ bany_follows st1 os' rs' st'
    | (cmp, o) :: os', Unwound :: rs' => exists st1, bany_unwound cmp st o st1 /\ bany_follows st1 os' rs' st'
    | _, _ => False
    end.

  (** The model's calls one after the other. *)
  Fixpoint hb_calls (bomb : nat -> bool) (fbomb : K -> V -> bool) (w : hb_world) (os : list (ord * op))
    : res (hb_world * list (out obs)) :=
    match os with
    | [] => Ok (w, [])
    | (cmp, o) :: os' =>
      '(w1, r) <- hb_step bor cmp N keq veq kcmp vcmp bomb fbomb w o;;
      '(w2, rs) <- hb_calls bomb fbomb w1 os';;
      Ok (w2, r :: rs)
    end.
End BAnyHeap.
