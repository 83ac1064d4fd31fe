(** Maps that share nodes, with comparisons that may answer anything and may panic: which nodes a call may clone, and what
    a history of calls may do to the lists of entries. *)
From Coq Require Import List ZArith Bool Permutation.
From Verif Require Import Base Spec MapSpec AvlModel Ask AskSpec AskAnySpec Heap AvlHeapModel AvlHeapHistModel AvlHeapSpec AnyOrdSpec AnyHeapSpec.
Import ListNotations.
Local Open Scope nat_scope.

Section AskHeap.
  Context {K V Q : Type} (bor : K -> Q) (ask : nat -> Q -> Q -> option comparison).
  Notation tree := (tree K V).
  Notation pay := (pay K V).

  (** The nodes on the way that the answers choose from comparison number [n] on, the deepest first: as [path]. *)
  Fixpoint path_t (n : nat) (t : tree) (q : Q) : list pay :=
    match t with
    | Leaf => []
    | Node k v lh rh l r =>
      match ask n q (bor k) with
      | Some Lt => path_t (S n) l q
      | Some Gt => path_t (S n) r q
      | _ => []
      end ++ [Pay k v lh rh]
    end.
  (** The nodes on the way of a removal of [q], and beside: as [near]. *)
  Fixpoint near_t (n : nat) (t : tree) (q : Q) : list pay :=
    match t with
    | Leaf => []
    | Node k v lh rh l r =>
      match ask n q (bor k) with
      | Some Lt => beside_l r ++ near_t (S n) l q
      | Some Eq => beside_r l ++ near_first r
      | Some Gt => beside_r l ++ near_t (S n) r q
      | None => []
      end ++ [Pay k v lh rh]
    end.
End AskHeap.

Section AskHist.
  Context {K V Q : Type} (bor : K -> Q) (ask : nat -> Q -> Q -> option comparison).
  Context (keq : K -> K -> bool) (veq : V -> V -> bool).
  Context (kcmp : K -> K -> comparison) (vcmp : V -> V -> comparison).
  Notation entry := (K * V)%type.
  Notation op := (op K V Q).
  Notation obs := (obs K V).
  Notation state := (list (list entry)).

  (** The calls that this history is about: all but [or_insert] and [split_off] (which are not [tame] even without
      panics), [range] and the self-check. *)
  Definition calm (o : op) : Prop :=
    match o with
    | OOrInsert _ _ _ _ | OSplitOff _ _ | ORange _ _ _ _ | OCheck _ => False
    | _ => True
    end.
  (** The maps [st'] and the result [r] after a call on the maps [st] that made the comparisons number [n], ..., [n' - 1] and
      returned: as [any_did], but what it was told is what it was told by these comparisons. *)
  Definition ask_did (n n' : nat) (st : state) (o : op) (r : obs) (st' : state) : Prop :=
    let told := said bor ask n n' in
    let at1 i (P : list entry -> Prop) := match nth_error st i with Some l => P l | None => r = RUnit /\ st' = st end in
    let at2 i j (P : list entry -> list entry -> Prop) := at1 i (fun a => at1 j (fun b => P a b)) in
    let put i (P : list entry -> Prop) := exists l', st' = set_nth i l' st /\ P l' in
    let add (P : list entry -> Prop) := r = RUnit /\ exists l', st' = st ++ [l'] /\ P l' in
    let pair a b (P : list entry -> list entry -> list (entry * entry) -> Prop) :=
      exists only_a only_b both, may_pair bor told a b only_a only_b both /\ P only_a only_b both in
    match o with
    | OFromIter ps => add (fun l' => may_extend bor told ps [] l')
    | OInsert i k v => at1 i (fun l => put i (fun l' => exists x, r = RVal x /\ may_insert bor told k v l l' x))
    | ORemove i q => at1 i (fun l => put i (fun l' => exists x, r = RVal x /\ may_remove_val told q l l' x))
    | ORemoveEntry i q => at1 i (fun l => put i (fun l' => exists x, r = REntry x /\ may_remove told q l l' x))
    | OGet i q => at1 i (fun l => st' = st /\ exists x, r = RVal x /\ may_get told q l x)
    | OGetKeyValue i q => at1 i (fun l => st' = st /\ exists x, r = REntry x /\ forall e, x = Some e -> In e l /\ told q e)
    | OContains i q => at1 i (fun l => st' = st /\ exists b, r = RBool b /\ (b = true -> exists e, In e l /\ told q e))
    | OGetMut i q w => at1 i (fun l => put i (fun l' => exists x, r = RVal x /\ may_get_mut told q w l l' x))
    | OAndModify i k w => at1 i (fun l => r = RUnit /\ put i (fun l' => exists x, may_get_mut told (bor k) w l l' x))
    | OExtend i ps => at1 i (fun l => r = RUnit /\ put i (fun l' => may_extend bor told ps l l'))
    | OAppend i j => at2 i j (fun a b => r = RUnit /\
        if i =? j then st' = st
        else pair a b (fun only_a _ _ =>
               exists l, Permutation l (only_a ++ b) /\ st' = set_nth j [] (set_nth i l st)))
    | OUnion i j => at2 i j (fun a b => pair a b (fun only_a _ _ => add (fun l' => Permutation l' (only_a ++ b))))
    | OIntersect i j => at2 i j (fun a b => pair a b (fun _ _ both => add (fun l' => Permutation l' (map fst both))))
    | ODiff i j => at2 i j (fun a b => pair a b (fun only_a _ _ => add (fun l' => Permutation l' only_a)))
    | OSymDiff i j => at2 i j (fun a b => pair a b (fun only_a only_b _ =>
                        add (fun l' => Permutation l' (only_a ++ only_b))))
    | _ => any_did bor keq veq kcmp vcmp (fun _ _ => Eq) st o r st'
    end.
  (** The maps after a call that unwound. *)
  Definition ask_unwound (n n' : nat) (st : state) (o : op) (st' : state) : Prop :=
    match o with
    | OFromIter _ | OUnion _ _ | OIntersect _ _ | ODiff _ _ | OSymDiff _ _ | OInsert _ _ _ | OGetMut _ _ _ | OAndModify _ _ _
    | OGet _ _ | OGetKeyValue _ _ | OContains _ _ => st' = st
    | OExtend i ps => exists l done p rest l', nth_error st i = Some l /\ ps = done ++ p :: rest
                        /\ may_extend bor (said bor ask n n') done l l' /\ st' = set_nth i l' st
    | ORemove i _ | ORemoveEntry i _ | OPopFirst i | OPopLast i | ORetain i _ => st' = set_nth i [] st
    | OAppend i j => i <> j /\ st' = set_nth j [] (set_nth i [] st)
    | _ => False
    end.
  (** From the maps [st], after [n] comparisons, the calls [os] may return [rs] and leave [st'], after [n'] comparisons. If
      a call unwinds, [faulty] says that a [clone] or a predicate panics somewhere, or the last comparison did. *)
  Fixpoint ask_follows (faulty : Prop) (n : nat) (st : state) (os : list op) (rs : list (out obs)) (n' : nat) (st' : state) : Prop :=
    match os, rs with
    | [], [] => n' = n /\ st' = st
    | o :: os', Done r :: rs' => exists n1 st1, n <= n1 /\ ask_did n n1 st o r st1 /\ ask_follows faulty n1 st1 os' rs' n' st'
    | o :: os', Unwound :: rs' => exists n1 st1, n <= n1 /\ (faulty \/ panicked ask n1) /\ ask_unwound n n1 st o st1
                                    /\ ask_follows faulty n1 st1 os' rs' n' st'
    | _, _ => False
    end.
  Fixpoint ask_grows (os : list op) (b : Z) : Z :=
    match os with [] => b | o :: os' => ask_grows os' (grows1 o b) end.
End AskHist.
