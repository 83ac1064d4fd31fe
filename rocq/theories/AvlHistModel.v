(** The [Entry] API over [AvlMap], and a client that runs any sequence of calls on
    any number of maps, once on the model and once on the specification. *)
From Coq Require Import List ZArith Bool.
From Verif Require Import Base Spec MapSpec AvlModel AvlIterModel.
Import ListNotations.

Section Entry.
  Context {K V Q : Type} (bor : K -> Q) (cmp : Q -> Q -> comparison).
  Notation amap := (avl_map K V).

  (** lib.rs:253-257 [struct Entry], avl.rs:1024-1029 [entry]: an entry is the key
      together with the (exclusively borrowed) map; the key here is passed along. *)

  (** lib.rs:260-271 [Entry::and_modify]. *)
  Definition entry_and_modify (m : amap) (k : K) (f : V -> V) : amap :=
    fst (avl_get_mut bor cmp m (bor k) f).

  (** lib.rs:277-287 [Entry::or_aux] and :316-329 [or_insert_with_key] (its closure
      also sees the key). The closure is state-passing, so that the state tells whether it
      ran. [w] is what the caller then does through the returned [&mut V]; the
      second result is the value that reference showed. *)
  Definition entry_or_insert_with {S} (m : amap) (k : K) (f : S -> S * V) (s : S) (w : V -> V)
    : res (amap * S * V) :=
    '(m1, s1) <- (if negb (avl_contains_key bor cmp m (bor k))
                  then let '(s1, v) := f s in
                       '(m1, _) <- avl_insert bor cmp m k v;; Ok (m1, s1)
                  else Ok (m, s));;
    let '(m2, o) := avl_get_mut bor cmp m1 (bor k) w in
    v <- unwrap o;;
    Ok (m2, s1, v).
  (** lib.rs:297-303 [or_insert]; [or_default] (:289-295) is [or_insert] of the default. *)
  Definition entry_or_insert (m : amap) (k : K) (v : V) (w : V -> V) : res (amap * V) :=
    '(m', _, x) <- entry_or_insert_with m k (fun s : unit => (s, v)) tt w;;
    Ok (m', x).

  (** avl.rs:1032-1039 [first_entry], :1320-1327 [last_entry]: the key of the entry. *)
  Definition first_entry (m : amap) : option K := option_map fst (avl_first_key_value m).
  Definition last_entry (m : amap) : option K := option_map fst (avl_last_key_value m).
End Entry.

Section Client.
  Context {K V Q : Type} (bor : K -> Q) (cmp : Q -> Q -> comparison).
  Context (keq : K -> K -> bool) (veq : V -> V -> bool).
  Context (kcmp : K -> K -> comparison) (vcmp : V -> V -> comparison).
  Notation amap := (avl_map K V).
  Notation op := (op K V Q).
  Notation obs := (obs K V).

  Section Step.
    Context {M : Type}.
    (** Calls with a handle that does not exist do nothing. *)
    Definition on (st : list M) (h : nat) (f : M -> res (list M * obs)) : res (list M * obs) :=
      match nth_error st h with Some m => f m | None => Ok (st, RUnit) end.
    Definition on2 (st : list M) (h1 h2 : nat) (f : M -> M -> res (list M * obs)) :=
      on st h1 (fun a => on st h2 (fun b => f a b)).
  End Step.

  (** One call on the model. *)
  Definition step (st : list amap) (o : op) : res (list amap * obs) :=
    match o with
    | ONew => Ok (st ++ [avl_new], RUnit)
    | OClone h => on st h (fun m => Ok (st ++ [m], RUnit))
    | OFromIter ps => m <- avl_from_iter bor cmp ps;; Ok (st ++ [m], RUnit)
    | OInsert h k v => on st h (fun m =>
        '(m', x) <- avl_insert bor cmp m k v;; Ok (set_nth h m' st, RVal x))
    | ORemove h q => on st h (fun m =>
        '(m', x) <- avl_remove bor cmp m q;; Ok (set_nth h m' st, RVal x))
    | ORemoveEntry h q => on st h (fun m =>
        '(m', x) <- avl_remove_entry bor cmp m q;; Ok (set_nth h m' st, REntry x))
    | OGet h q => on st h (fun m => Ok (st, RVal (avl_get bor cmp m q)))
    | OGetKeyValue h q => on st h (fun m => Ok (st, REntry (avl_get_key_value bor cmp m q)))
    | OContains h q => on st h (fun m => Ok (st, RBool (avl_contains_key bor cmp m q)))
    | OGetMut h q w => on st h (fun m =>
        let '(m', x) := avl_get_mut bor cmp m q w in Ok (set_nth h m' st, RVal x))
    | OAndModify h k w => on st h (fun m =>
        Ok (set_nth h (entry_and_modify bor cmp m k w) st, RUnit))
    | OOrInsert h k v w => on st h (fun m =>
        '(m', x) <- entry_or_insert bor cmp m k v w;; Ok (set_nth h m' st, RVal (Some x)))
    | OFirst h => on st h (fun m => Ok (st, REntry (avl_first_key_value m)))
    | OLast h => on st h (fun m => Ok (st, REntry (avl_last_key_value m)))
    | OPopFirst h => on st h (fun m =>
        '(m', x) <- avl_pop_first m;; Ok (set_nth h m' st, REntry x))
    | OPopLast h => on st h (fun m =>
        '(m', x) <- avl_pop_last m;; Ok (set_nth h m' st, REntry x))
    | OLen h => on st h (fun m => Ok (st, RLen (avl_len m)))
    | OIsEmpty h => on st h (fun m => Ok (st, RBool (avl_is_empty m)))
    | OClear h => on st h (fun m => Ok (set_nth h (avl_clear m) st, RUnit))
    | OExtend h ps => on st h (fun m =>
        m' <- avl_extend bor cmp m ps;; Ok (set_nth h m' st, RUnit))
    | ORetain h g => on st h (fun m =>
        '(m', _) <- avl_retain (fun s k v => (s, fst (g k v), snd (g k v))) m tt;;
        Ok (set_nth h m' st, RUnit))
    | OSplitOff h q => on st h (fun m =>
        '(m1, m2) <- avl_split_off bor cmp m q;; Ok (set_nth h m1 st ++ [m2], RUnit))
    | OAppend h1 h2 => on2 st h1 h2 (fun a b =>
        (* two [&mut] borrows: the maps are different *)
        if Nat.eqb h1 h2 then Ok (st, RUnit)
        else '(a', b') <- avl_append bor cmp a b;; Ok (set_nth h2 b' (set_nth h1 a' st), RUnit))
    | OUnion h1 h2 => on2 st h1 h2 (fun a b =>
        m <- avl_new_union bor cmp a b;; Ok (st ++ [m], RUnit))
    | OIntersect h1 h2 => on2 st h1 h2 (fun a b =>
        m <- avl_new_intersect bor cmp a b;; Ok (st ++ [m], RUnit))
    | ODiff h1 h2 => on2 st h1 h2 (fun a b =>
        m <- avl_new_diff bor cmp a b;; Ok (st ++ [m], RUnit))
    | OSymDiff h1 h2 => on2 st h1 h2 (fun a b =>
        m <- avl_new_sym_diff bor cmp a b;; Ok (st ++ [m], RUnit))
    | OIter h cs => on st h (fun m =>
        l <- run_ends norm_destr norm_size cs (avl_iter m);; Ok (st, RSeq l))
    | ORange h lo hi cs => on st h (fun m =>
        it <- avl_range bor cmp m lo hi;;
        l <- run_ends norm_destr norm_size cs it;; Ok (st, RItems (map fst l)))
    | OEq h1 h2 => on2 st h1 h2 (fun a b => r <- avl_eq keq veq a b;; Ok (st, RBool r))
    | OCmp h1 h2 => on2 st h1 h2 (fun a b => r <- avl_cmp kcmp vcmp a b;; Ok (st, RCmp r))
    | OCheck h => on st h (fun m =>
        r <- avl_chk bor cmp m;; Ok (st, RBool (match r with inl _ => true | inr _ => false end)))
    end.

  Fixpoint run (st : list amap) (os : list op) : res (list amap * list obs) :=
    match os with
    | [] => Ok (st, [])
    | o :: os' =>
      '(st1, r) <- step st o;;
      '(st2, rs) <- run st1 os';;
      Ok (st2, r :: rs)
    end.
End Client.
