(** Specification of histories of [BTreeMap]s in which the user's [clone]s and predicates may panic:
    every call either does what [MapSpec.s_step] says, or unwinds. *)
From Coq Require Import List Bool PeanoNat.
From Verif Require Import Base Spec MapSpec BTreeSpec Heap BTreeModel BTreeShows BTreeHeapModel.
Import ListNotations.

Section BTreeHeapHistSpec.
  Context {K V Q : Type} (bor : K -> Q) (cmp : Q -> Q -> comparison) (N : nat).
  Context (keq : K -> K -> bool) (veq : V -> V -> bool).
  Context (kcmp : K -> K -> comparison) (vcmp : V -> V -> comparison).
  Notation op := (op K V Q).
  Notation obs := (obs K V).
  Notation state := (list (list (K * V))).
  Notation s_step := (s_step bor cmp keq veq kcmp vcmp).

  (** What a client sees of a map: following the pointers, [check()] succeeds and [iter()]
      yields [l]. *)
  Definition hbshows (h : heap (list (K * V))) (m : hbmap) (l : list (K * V)) : Prop :=
    exists b, hb_read h m = Ok b /\ b_shows bor cmp N b l.
  (** The pointers that the maps hold. *)
  Definition broots (ms : list hbmap) : list addr := flat_map (fun m => olist (hb_root m)) ms.

  (** The maps that a call borrows mutably. *)
  Definition btargets (o : op) : list nat :=
    match o with
    | OInsert i _ _ | ORemove i _ | OGetMut i _ _ | OAndModify i _ _ | OOrInsert i _ _ _
    | OPopFirst i | OPopLast i | OClear i | OExtend i _ | ORetain i _ | OSplitOff i _ => [i]
    | OAppend i j => [i; j]
    | _ => []
    end.

  (** The maps after a call that unwound. Calls that only read, [new], [clone] and [clear]
      do not unwind. [insert], [get_mut] and [and_modify] that unwind change nothing; [extend] and
      [append] that unwind have inserted the first items, and [append] has emptied the other map;
      [retain] and [split_off] have emptied the map. A map that the client replaces after a failed
      removal is empty. *)
  Definition b_unwound (st : state) (o : op) (st' : state) : Prop :=
    let on1 i f := match nth_error st i with Some l => f l | None => False end in
    match o with
    | OFromIter _ | OInsert _ _ _ | OGetMut _ _ _ | OAndModify _ _ _ => st' = st
    | OOrInsert i k v _ => st' = st \/ on1 i (fun l => st' = set_nth i (s_insert bor cmp k v l) st)
    | OExtend i ps => on1 i (fun l => exists done rest, ps = done ++ rest
                                      /\ st' = set_nth i (s_extend bor cmp l done) st)
    | OAppend i j => i <> j /\ on1 i (fun l => on1 j (fun r => exists done rest, r = done ++ rest
                                      /\ st' = set_nth j [] (set_nth i (s_extend bor cmp l done) st)))
    | ORemove i _ | OPopFirst i | OPopLast i | ORetain i _ | OSplitOff i _ => st' = set_nth i [] st
    | _ => False
    end.

  (** [b_follows st os rs st']: from the maps [st], the calls [os] may return [rs] and leave [st']. *)
  Fixpoint b_follows (st : state) (os : list op) (rs : list (out obs)) (st' : state) : Prop :=
    match os, rs with
    | [], [] => st' = st
    | o :: os', Done r :: rs' => r = snd (s_step st o) /\ b_follows (fst (s_step st o)) os' rs' st'
    | o :: os', Unwound :: rs' => exists st1, b_unwound st o st1 /\ b_follows st1 os' rs' st'
    | _, _ => False
    end.

  (** As [BTreeSpec.all_supported], whichever calls unwind. *)
  Fixpoint always_supported (st : state) (os : list op) : Prop :=
    match os with
    | [] => True
    | o :: os' =>
      supported bor cmp st o /\ always_supported (fst (s_step st o)) os'
      /\ forall st1, b_unwound st o st1 -> always_supported st1 os'
    end.
End BTreeHeapHistSpec.
