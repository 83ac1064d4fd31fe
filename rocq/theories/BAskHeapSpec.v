(** B-tree maps that share nodes, with comparisons that may answer anything and may panic: which nodes a call may clone, and
    what a history of calls may do to the lists of entries. *)
From Coq Require Import List PeanoNat Bool.
From Verif Require Import Base Spec MapSpec Ask AskSpec AskAnySpec Heap BTreeModel BTreeHeapModel BTreeHeapSpec.
From Verif Require AskHeapSpec.
Import ListNotations.
Local Open Scope nat_scope.

Section BAskHeap.
  Context {K V Q : Type} (bor : K -> Q) (ask : nat -> Q -> Q -> option comparison).
  Notation bt := (bt K V).
  Notation pay := (list (K * V)).

  (** The walk over the keys of a node, from comparison number [n] on, up to a key that is not told to be below [q]: the
      number of keys before that, whether it is told to be equal, and the number of the next comparison. [None] if a
      comparison panics. *)
  Fixpoint walk (q : Q) (es : pay) (n : nat) : option (nat * bool * nat) :=
    match es with
    | [] => Some (0, false, n)
    | e :: es' =>
      match ask n q (bor (fst e)) with
      | Some Gt => match walk q es' (S n) with Some (i, b, n') => Some (S i, b, n') | None => None end
      | Some Eq => Some (0, true, S n)
      | Some Lt => Some (0, false, S n)
      | None => None
      end
    end.
  (** The nodes on the way that the answers choose, the deepest first: as [path]. *)
  Fixpoint path_t (q : Q) (t : bt) (n : nat) : list pay :=
    match t with
    | BN es ks =>
      match walk q es n with
      | Some (i, false, n') => match nth_error (map (path_t q) ks) i with Some f => f n' | None => [] end
      | _ => []
      end ++ [es]
    end.
  (** The nodes on the way of a removal of [q], and a sibling of each: as [near]. *)
  Fixpoint near_t (q : Q) (t : bt) (n : nat) : list pay :=
    match t with
    | BN es ks =>
      match walk q es n with
      | Some (i, hit, n') =>
        match nth_error (map (fun c => if hit then near_last c else near_t q c n') ks) i with
        | Some l => beside i ks ++ l
        | None => []
        end
      | None => []
      end ++ [es]
    end.
End BAskHeap.

Section BAskHist.
  Context {K V Q : Type} (bor : K -> Q) (ask : nat -> Q -> Q -> option comparison).
  Context (keq : K -> K -> bool) (veq : V -> V -> bool).
  Context (kcmp : K -> K -> comparison) (vcmp : V -> V -> comparison).
  Notation entry := (K * V)%type.
  Notation op := (op K V Q).
  Notation obs := (obs K V).
  Notation state := (list (list entry)).

  (** The calls that this history is about: those of a [BTreeMap], but for [or_insert] (which may panic even without
      panics of the user's, C111), [range] and the self-check. *)
  Definition b_calm (o : op) : Prop :=
    match o with
    | ORemoveEntry _ _ | OUnion _ _ | OIntersect _ _ | ODiff _ _ | OSymDiff _ _ | OOrInsert _ _ _ _ | ORange _ _ _ _ | OCheck _ => False
    | _ => True
    end.
  (** The maps [st'] and the result [r] after a call on the maps [st] that made the comparisons number [n], ..., [n' - 1] and
      returned. [retain], [split_off] and [append] insert entries one by one into a map; the other calls as for the AVL map. *)
  Definition bask_did (n n' : nat) (st : state) (o : op) (r : obs) (st' : state) : Prop :=
    let told := said bor ask n n' in
    let at1 i (P : list entry -> Prop) := match nth_error st i with Some l => P l | None => r = RUnit /\ st' = st end in
    match o with
    | ORetain i g => at1 i (fun l => r = RUnit /\ exists l', may_extend bor told (s_retain g l) [] l' /\ st' = set_nth i l' st)
    | OSplitOff i q => at1 i (fun l => r = RUnit /\ exists p1 p2 l1 l2, may_part bor ask n n' q l p1 p2
        /\ may_extend bor told p1 [] l1 /\ may_extend bor told p2 [] l2 /\ st' = set_nth i l1 st ++ [l2])
    | OAppend i j => at1 i (fun a => at1 j (fun b => r = RUnit /\
        if i =? j then st' = st
        else exists l', may_extend bor told b a l' /\ st' = set_nth j [] (set_nth i l' st)))
    | _ => AskHeapSpec.ask_did bor ask keq veq kcmp vcmp n n' st o r st'
    end.
  (** The maps after a call that unwound. An [extend] or [append] has inserted some of the entries, in their order. *)
  Definition bask_unwound (n n' : nat) (st : state) (o : op) (st' : state) : Prop :=
    match o with
    | OFromIter _ | OInsert _ _ _ | OGetMut _ _ _ | OAndModify _ _ _ | OGet _ _ | OGetKeyValue _ _ | OContains _ _ => st' = st
    | OExtend i ps => exists l done p rest l', nth_error st i = Some l /\ ps = done ++ p :: rest
                        /\ may_extend bor (said bor ask n n') done l l' /\ st' = set_nth i l' st
    | OAppend i j => i <> j /\ exists a b done p rest l', nth_error st i = Some a /\ nth_error st j = Some b /\ b = done ++ p :: rest
                        /\ may_extend bor (said bor ask n n') done a l' /\ st' = set_nth j [] (set_nth i l' st)
    | ORemove i _ | OPopFirst i | OPopLast i | ORetain i _ | OSplitOff i _ => st' = set_nth i [] st
    | _ => False
    end.
  (** From the maps [st], after [n] comparisons, the calls [os] may return [rs] and leave [st'], after [n'] comparisons. If
      a call unwinds, [faulty] says that a [clone] or a predicate panics somewhere, or the last comparison did. *)
  Fixpoint bask_follows (faulty : Prop) (n : nat) (st : state) (os : list op) (rs : list (out obs)) (n' : nat) (st' : state) : Prop :=
    match os, rs with
    | [], [] => n' = n /\ st' = st
    | o :: os', Done r :: rs' => exists n1 st1, n <= n1 /\ bask_did n n1 st o r st1 /\ bask_follows faulty n1 st1 os' rs' n' st'
    | o :: os', Unwound :: rs' => exists n1 st1, n <= n1 /\ (faulty \/ panicked ask n1) /\ bask_unwound n n1 st o st1
                                    /\ bask_follows faulty n1 st1 os' rs' n' st'
    | _, _ => False
    end.
End BAskHist.
