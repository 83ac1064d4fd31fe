(** Specification of a client that runs any sequence of map calls on any number of
    maps, where a map is a strictly ascending list of entries. *)
From Coq Require Import List ZArith Bool.
From Verif Require Import Base Spec.
Import ListNotations.

Section MapSpec.
  Context {K V Q : Type} (bor : K -> Q) (cmp : Q -> Q -> comparison).
  Context (keq : K -> K -> bool) (veq : V -> V -> bool).
  Context (kcmp : K -> K -> comparison) (vcmp : V -> V -> comparison).

  (** Pointwise equality of sequences; lexicographic order of sequences. *)
  Fixpoint seq_eqb (l r : list (K * V)) : bool :=
    match l, r with
    | [], [] => true
    | (k1, v1) :: l', (k2, v2) :: r' => keq k1 k2 && veq v1 v2 && seq_eqb l' r'
    | _, _ => false
    end.
  Fixpoint seq_cmp (l r : list (K * V)) : comparison :=
    match l, r with
    | [], [] => Eq
    | [], _ => Lt
    | _, [] => Gt
    | (k1, v1) :: l', (k2, v2) :: r' =>
      match kcmp k1 k2 with
      | Eq => match vcmp v1 v2 with Eq => seq_cmp l' r' | c => c end
      | c => c
      end
    end.

  (** All entries of both, those of [r] win; entries of exactly one of the two. *)
  Definition s_union (l r : list (K * V)) : list (K * V) := s_extend bor cmp l r.
  Definition s_symdiff (l r : list (K * V)) : list (K * V) :=
    s_extend bor cmp (s_diff bor cmp l r) (s_diff bor cmp r l).
  (** Keep the entries that [g] accepts, with the values it leaves. *)
  Definition s_retain (g : K -> V -> V * bool) (l : list (K * V)) : list (K * V) :=
    map (fun e => (fst e, fst (g (fst e) (snd e))))
        (filter (fun e => snd (g (fst e) (snd e))) l).

  (** The calls; [h], [h1], [h2] number the maps in the order they came into being. *)
  Inductive op :=
  | ONew
  | OClone (h : nat)
  | OFromIter (ps : list (K * V))
  | OInsert (h : nat) (k : K) (v : V)
  | ORemove (h : nat) (q : Q)
  | ORemoveEntry (h : nat) (q : Q)
  | OGet (h : nat) (q : Q)
  | OGetKeyValue (h : nat) (q : Q)
  | OContains (h : nat) (q : Q)
  | OGetMut (h : nat) (q : Q) (w : V -> V)
  | OAndModify (h : nat) (k : K) (w : V -> V)
  | OOrInsert (h : nat) (k : K) (v : V) (w : V -> V)
  | OFirst (h : nat)
  | OLast (h : nat)
  | OPopFirst (h : nat)
  | OPopLast (h : nat)
  | OLen (h : nat)
  | OIsEmpty (h : nat)
  | OClear (h : nat)
  | OExtend (h : nat) (ps : list (K * V))
  | ORetain (h : nat) (g : K -> V -> V * bool)
  | OSplitOff (h : nat) (q : Q)
  | OAppend (h1 h2 : nat)
  | OUnion (h1 h2 : nat)
  | OIntersect (h1 h2 : nat)
  | ODiff (h1 h2 : nat)
  | OSymDiff (h1 h2 : nat)
  | OIter (h : nat) (cs : list end_call)
  | ORange (h : nat) (lo hi : bound Q) (cs : list end_call)
  | OEq (h1 h2 : nat)
  | OCmp (h1 h2 : nat)
  | OCheck (h : nat).

  (** What a call returns. *)
  Inductive obs :=
  | RUnit
  | RVal (o : option V)
  | REntry (o : option (K * V))
  | RBool (b : bool)
  | RLen (n : nat)
  | RSeq (l : list (option (K * V) * nat))
  | RItems (l : list (option (K * V)))
  | RCmp (c : comparison).

  Definition set_nth {A} (i : nat) (x : A) (l : list A) : list A :=
    firstn i l ++ match skipn i l with [] => [] | _ :: r => x :: r end.

  (** One call on the specification. *)
  Definition s_step (st : list (list (K * V))) (o : op) : list (list (K * V)) * obs :=
    let on1 h f := match nth_error st h with Some m => f m | None => (st, RUnit) end in
    let on12 h1 h2 f := on1 h1 (fun a => on1 h2 (fun b => f a b)) in
    match o with
    | ONew => (st ++ [[]], RUnit)
    | OClone h => on1 h (fun m => (st ++ [m], RUnit))
    | OFromIter ps => (st ++ [s_extend bor cmp [] ps], RUnit)
    | OInsert h k v => on1 h (fun m =>
        (set_nth h (s_insert bor cmp k v m) st, RVal (s_get bor cmp (bor k) m)))
    | ORemove h q => on1 h (fun m => (set_nth h (s_remove bor cmp q m) st, RVal (s_get bor cmp q m)))
    | ORemoveEntry h q => on1 h (fun m =>
        (set_nth h (s_remove bor cmp q m) st, REntry (s_find bor cmp q m)))
    | OGet h q => on1 h (fun m => (st, RVal (s_get bor cmp q m)))
    | OGetKeyValue h q => on1 h (fun m => (st, REntry (s_find bor cmp q m)))
    | OContains h q => on1 h (fun m => (st, RBool (s_mem bor cmp q m)))
    | OGetMut h q w => on1 h (fun m =>
        (set_nth h (s_update bor cmp q w m) st, RVal (s_get bor cmp q m)))
    | OAndModify h k w => on1 h (fun m => (set_nth h (s_update bor cmp (bor k) w m) st, RUnit))
    | OOrInsert h k v w => on1 h (fun m =>
        match s_get bor cmp (bor k) m with
        | Some x => (set_nth h (s_update bor cmp (bor k) w m) st, RVal (Some x))
        | None => (set_nth h (s_insert bor cmp k (w v) m) st, RVal (Some v))
        end)
    | OFirst h => on1 h (fun m => (st, REntry (s_first m)))
    | OLast h => on1 h (fun m => (st, REntry (s_last m)))
    | OPopFirst h => on1 h (fun m => (set_nth h (tl m) st, REntry (s_first m)))
    | OPopLast h => on1 h (fun m => (set_nth h (removelast m) st, REntry (s_last m)))
    | OLen h => on1 h (fun m => (st, RLen (length m)))
    | OIsEmpty h => on1 h (fun m => (st, RBool (match m with [] => true | _ => false end)))
    | OClear h => on1 h (fun m => (set_nth h [] st, RUnit))
    | OExtend h ps => on1 h (fun m => (set_nth h (s_extend bor cmp m ps) st, RUnit))
    | ORetain h g => on1 h (fun m => (set_nth h (s_retain g m) st, RUnit))
    | OSplitOff h q => on1 h (fun m =>
        (set_nth h (filter (lt_q bor cmp q) m) st ++ [filter (fun e => negb (lt_q bor cmp q e)) m], RUnit))
    | OAppend h1 h2 => on12 h1 h2 (fun a b =>
        if Nat.eqb h1 h2 then (st, RUnit)
        else (set_nth h2 [] (set_nth h1 (s_union a b) st), RUnit))
    | OUnion h1 h2 => on12 h1 h2 (fun a b => (st ++ [s_union a b], RUnit))
    | OIntersect h1 h2 => on12 h1 h2 (fun a b => (st ++ [s_inter bor cmp a b], RUnit))
    | ODiff h1 h2 => on12 h1 h2 (fun a b => (st ++ [s_diff bor cmp a b], RUnit))
    | OSymDiff h1 h2 => on12 h1 h2 (fun a b => (st ++ [s_symdiff a b], RUnit))
    | OIter h cs => on1 h (fun m => (st, RSeq (s_ends cs m)))
    | ORange h lo hi cs => on1 h (fun m =>
        (st, RItems (map fst (s_ends cs (s_range bor cmp lo hi m)))))
    | OEq h1 h2 => on12 h1 h2 (fun a b => (st, RBool (seq_eqb a b)))
    | OCmp h1 h2 => on12 h1 h2 (fun a b => (st, RCmp (seq_cmp a b)))
    | OCheck h => on1 h (fun m => (st, RBool true))
    end.

  (** A history: the final maps and everything that was returned. *)
  Fixpoint s_run (st : list (list (K * V))) (os : list op) : list (list (K * V)) * list obs :=
    match os with
    | [] => (st, [])
    | o :: os' =>
      let '(st1, r) := s_step st o in
      let '(st2, rs) := s_run st1 os' in (st2, r :: rs)
    end.

  (** The maps that exist at any time during a history, and the sequences that the
      history feeds to [extend], stay below [2^63] entries: an entry takes more
      than one byte, so no address space holds more. *)
  Definition small (l : list (K * V)) : Prop := (Z.of_nat (length l) < 2 ^ 63)%Z.
  Definition op_small (o : op) : Prop :=
    match o with OFromIter ps | OExtend _ ps => small ps | _ => True end.
  Fixpoint all_small (st : list (list (K * V))) (os : list op) : Prop :=
    Forall small st /\
    match os with
    | [] => True
    | o :: os' => op_small o /\ all_small (fst (s_step st o)) os'
    end.
End MapSpec.
Arguments op K V Q : clear implicits.
Arguments obs K V : clear implicits.
