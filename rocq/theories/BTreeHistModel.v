(** The [Entry] API over [BTreeMap], and a client that runs any sequence of calls on
    any number of maps. *)
From Coq Require Import List Bool PeanoNat.
From Verif Require Import Base Spec MapSpec Vec BTreeModel BTreeIterModel.
From Verif Require AvlHistModel.
Import ListNotations.

Section Entry.
  Context {K V Q : Type} (bor : K -> Q) (cmp : Q -> Q -> comparison) (N : nat).
  Notation bmap := (bt_map K V).

  (** lib.rs:253-257 [struct Entry], btree.rs:594-600 [entry]: the key together with
      the (exclusively borrowed) map; the key here is passed along. *)

  (** lib.rs:260-271 [Entry::and_modify]. *)
  Definition b_and_modify (m : bmap) (k : K) (f : V -> V) : bmap :=
    fst (b_get_mut bor cmp m (bor k) f).

  (** lib.rs:277-287 [Entry::or_aux] and :316-329 [or_insert_with_key]. The closure is
      state-passing, so that the state tells whether it ran. [w] is what the caller
      then does through the returned [&mut V]; the last result is the value
      that reference showed. *)
  Definition b_or_insert_with {S} (m : bmap) (k : K) (f : S -> S * V) (s : S) (w : V -> V)
    : res (bmap * S * V) :=
    '(m1, s1) <- (if negb (b_contains_key bor cmp m (bor k))
                  then let '(s1, v) := f s in
                       '(m1, _) <- b_insert bor cmp N m k v;; Ok (m1, s1)
                  else Ok (m, s));;
    let '(m2, o) := b_get_mut bor cmp m1 (bor k) w in
    v <- unwrap o;;
    Ok (m2, s1, v).
  (** lib.rs:297-303 [or_insert]; [or_default] (:289-295) is [or_insert] of the default. *)
  Definition b_or_insert (m : bmap) (k : K) (v : V) (w : V -> V) : res (bmap * V) :=
    '(m', _, x) <- b_or_insert_with m k (fun s : unit => (s, v)) tt w;;
    Ok (m', x).

  (** btree.rs:603-610 [first_entry], :794-801 [last_entry]: the key of the entry. *)
  Definition b_first_entry (m : bmap) : res (option K) :=
    o <- b_first_key_value m;; Ok (option_map fst o).
  Definition b_last_entry (m : bmap) : option K := option_map fst (b_last_key_value m).
End Entry.

Section Client.
  Context {K V Q : Type} (bor : K -> Q) (cmp : Q -> Q -> comparison) (N : nat).
  Context (keq : K -> K -> bool) (veq : V -> V -> bool).
  Context (kcmp : K -> K -> comparison) (vcmp : V -> V -> comparison).
  Notation bmap := (bt_map K V).
  Notation op := (op K V Q).
  Notation obs := (obs K V).
  Notation on := AvlHistModel.on.
  Notation on2 := AvlHistModel.on2.

  (** One call. [un] tells which nodes an owning iterator finds unshared. The calls
      that a [BTreeMap] does not have are a [Panic]. *)
  Definition b_step (un : bt K V -> bool) (st : list bmap) (o : op) : res (list bmap * obs) :=
    match o with
    | ONew => Ok (st ++ [b_new], RUnit)
    | OClone h => on st h (fun m => Ok (st ++ [m], RUnit))
    | OFromIter ps => m <- b_from_iter bor cmp N ps;; Ok (st ++ [m], RUnit)
    | OInsert h k v => on st h (fun m =>
        '(m', x) <- b_insert bor cmp N m k v;; Ok (set_nth h m' st, RVal x))
    | ORemove h q => on st h (fun m =>
        '(m', x) <- b_remove bor cmp N m q;; Ok (set_nth h m' st, RVal x))
    | OGet h q => on st h (fun m => Ok (st, RVal (b_get bor cmp m q)))
    | OGetKeyValue h q => on st h (fun m => Ok (st, REntry (b_get_key_value bor cmp m q)))
    | OContains h q => on st h (fun m => Ok (st, RBool (b_contains_key bor cmp m q)))
    | OGetMut h q w => on st h (fun m =>
        let '(m', x) := b_get_mut bor cmp m q w in Ok (set_nth h m' st, RVal x))
    | OAndModify h k w => on st h (fun m =>
        Ok (set_nth h (b_and_modify bor cmp m k w) st, RUnit))
    | OOrInsert h k v w => on st h (fun m =>
        '(m', x) <- b_or_insert bor cmp N m k v w;; Ok (set_nth h m' st, RVal (Some x)))
    | OFirst h => on st h (fun m => x <- b_first_key_value m;; Ok (st, REntry x))
    | OLast h => on st h (fun m => Ok (st, REntry (b_last_key_value m)))
    | OPopFirst h => on st h (fun m =>
        '(m', x) <- b_pop_first N m;; Ok (set_nth h m' st, REntry x))
    | OPopLast h => on st h (fun m =>
        '(m', x) <- b_pop_last N m;; Ok (set_nth h m' st, REntry x))
    | OLen h => on st h (fun m => Ok (st, RLen (b_len m)))
    | OIsEmpty h => on st h (fun m => Ok (st, RBool (b_is_empty m)))
    | OClear h => on st h (fun m => Ok (set_nth h (b_clear m) st, RUnit))
    | OExtend h ps => on st h (fun m =>
        m' <- b_extend bor cmp N m ps;; Ok (set_nth h m' st, RUnit))
    | ORetain h g => on st h (fun m =>
        '(m', _) <- b_retain bor cmp N un (fun s k v => (s, fst (g k v), snd (g k v))) m tt;;
        Ok (set_nth h m' st, RUnit))
    | OSplitOff h q => on st h (fun m =>
        '(m1, m2) <- b_split_off bor cmp N un m q;; Ok (set_nth h m1 st ++ [m2], RUnit))
    | OAppend h1 h2 => on2 st h1 h2 (fun a b =>
        (* two [&mut] borrows: the maps are different *)
        if Nat.eqb h1 h2 then Ok (st, RUnit)
        else '(a', b') <- b_append bor cmp N un a b;; Ok (set_nth h2 b' (set_nth h1 a' st), RUnit))
    | OIter h cs => on st h (fun m =>
        l <- b_run_ends borrowed cs (bt_iter m);; Ok (st, RSeq l))
    | ORange h lo hi cs => on st h (fun m =>
        it <- b_range bor cmp m lo hi;;
        l <- b_run_ends borrowed cs it;; Ok (st, RItems (map fst l)))
    | OEq h1 h2 => on2 st h1 h2 (fun a b => r <- b_eq keq veq a b;; Ok (st, RBool r))
    | OCmp h1 h2 => on2 st h1 h2 (fun a b => r <- b_cmp kcmp vcmp a b;; Ok (st, RCmp r))
    | OCheck h => on st h (fun m =>
        r <- b_chk bor cmp N m;; Ok (st, RBool (match r with inl _ => true | inr _ => false end)))
    | ORemoveEntry _ _ | OUnion _ _ | OIntersect _ _ | ODiff _ _ | OSymDiff _ _ => Panic
    end.

  (** A history; [un] may answer differently at every call. *)
  Fixpoint b_run (un : nat -> bt K V -> bool) (st : list bmap) (os : list op) : res (list bmap * list obs) :=
    match os with
    | [] => Ok (st, [])
    | o :: os' =>
      '(st1, r) <- b_step (un 0) st o;;
      '(st2, rs) <- b_run (fun n => un (S n)) st1 os';;
      Ok (st2, r :: rs)
    end.
End Client.
