(** Specification of histories in which the user's [clone]s and predicates may panic: every
    call either does what [MapSpec.s_step] says, or unwinds. *)
From Coq Require Import List ZArith Bool.
From Verif Require Import Base Spec MapSpec Heap AvlModel AvlShows AvlHeapModel.
Import ListNotations.

Section AvlHeapHistSpec.
  Context {K V Q : Type} (bor : K -> Q) (cmp : Q -> Q -> comparison).
  Context (keq : K -> K -> bool) (veq : V -> V -> bool).
  Context (kcmp : K -> K -> comparison) (vcmp : V -> V -> comparison).
  Notation op := (op K V Q).
  Notation obs := (obs K V).
  Notation state := (list (list (K * V))).
  Notation s_step := (s_step bor cmp keq veq kcmp vcmp).

  (** What a client sees of a map: following the pointers, [check()] succeeds and [iter()]
      yields [l]. *)
  Definition hshows (h : heap (pay K V)) (m : hmap) (l : list (K * V)) : Prop :=
    exists a, hm_read h m = Ok a /\ shows bor cmp a l.
  (** The pointers that the maps hold. *)
  Definition roots (ms : list hmap) : list addr := flat_map (fun m => olist (hm_root m)) ms.

  (** The maps that a call borrows mutably. *)
  Definition targets (o : op) : list nat :=
    match o with
    | OInsert i _ _ | ORemove i _ | ORemoveEntry i _ | OGetMut i _ _ | OAndModify i _ _ | OOrInsert i _ _ _
    | OPopFirst i | OPopLast i | OClear i | OExtend i _ | ORetain i _ | OSplitOff i _ => [i]
    | OAppend i j => [i; j]
    | _ => []
    end.

  (** The maps after a call that unwound. Calls that only read, [new], [clone] and [clear]
      do not unwind. Maps that the client replaces after a failed removal are empty. *)
  Definition s_unwound (st : state) (o : op) (st' : state) : Prop :=
    let on1 i f := match nth_error st i with Some l => f l | None => False end in
    match o with
    | OFromIter _ | OUnion _ _ | OIntersect _ _ | ODiff _ _ | OSymDiff _ _
    | OInsert _ _ _ | OGetMut _ _ _ | OAndModify _ _ _ => st' = st
    | OOrInsert i k v _ => st' = st \/ on1 i (fun l => st' = set_nth i (s_insert bor cmp k v l) st)
    | OExtend i ps => on1 i (fun l => exists done rest, ps = done ++ rest
                                      /\ st' = set_nth i (s_extend bor cmp l done) st)
    | ORemove i _ | ORemoveEntry i _ | OPopFirst i | OPopLast i | ORetain i _ | OSplitOff i _ =>
      st' = set_nth i [] st
    | OAppend i j => i <> j /\ st' = set_nth j [] (set_nth i [] st)
    | _ => False
    end.

  (** [follows st os rs st']: from the maps [st], the calls [os] may return [rs] and leave [st']. *)
  Fixpoint follows (st : state) (os : list op) (rs : list (out obs)) (st' : state) : Prop :=
    match os, rs with
    | [], [] => st' = st
    | o :: os', Done r :: rs' => r = snd (s_step st o) /\ follows (fst (s_step st o)) os' rs' st'
    | o :: os', Unwound :: rs' => exists st1, s_unwound st o st1 /\ follows st1 os' rs' st'
    | _, _ => False
    end.

  (** As [MapSpec.all_small], whichever calls unwind. *)
  Fixpoint always_small (st : state) (os : list op) : Prop :=
    Forall small st /\
    match os with
    | [] => True
    | o :: os' =>
      op_small o /\ always_small (fst (s_step st o)) os'
      /\ forall st1, s_unwound st o st1 -> always_small st1 os'
    end.
End AvlHeapHistSpec.
