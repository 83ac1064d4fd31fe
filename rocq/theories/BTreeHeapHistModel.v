(** The client of [BTreeHistModel] on the heap: any sequence of calls on any number of
    maps that share nodes. The user's [clone] and the predicate given to [retain] may panic; the
    client catches the panic ([Unwound]). A map that the panic of a removal may have left unusable
    is thrown away: replaced with a new one. *)
From Coq Require Import List Bool PeanoNat.
From Verif Require Import Base Spec MapSpec Heap BTreeModel BTreeIterModel BTreeHistModel BTreeHeapModel.
Import ListNotations.

Section HeapClient.
  Context {K V Q : Type} (bor : K -> Q) (cmp : Q -> Q -> comparison) (N : nat).
  Context (keq : K -> K -> bool) (veq : V -> V -> bool).
  Context (kcmp : K -> K -> comparison) (vcmp : V -> V -> comparison).
  Variable bomb : nat -> bool.
  Variable fbomb : K -> V -> bool.
  Notation heap := (heap (list (K * V))).
  Notation op := (op K V Q).
  Notation obs := (obs K V).

  Definition hb_world : Type := heap * list hbmap.

  (** One call. The calls that only read see the tree; those that a [BTreeMap] does not have are a
      [Panic]. *)
  Definition hb_step (w0 : hb_world) (o : op) : res (hb_world * out obs) :=
    let '(h, ms) := w0 in
    let on1 i (f : hbmap -> res (hb_world * out obs)) :=
      match nth_error ms i with Some m => f m | None => Ok ((h, ms), Done RUnit) end in
    let look i (f : bt_map K V -> res obs) :=
      on1 i (fun m => a <- hb_read h m;; r <- f a;; Ok ((h, ms), Done r)) in
    let look2 i j (f : bt_map K V -> bt_map K V -> res obs) :=
      on1 i (fun m => on1 j (fun m' =>
        a <- hb_read h m;; b <- hb_read h m';; r <- f a b;; Ok ((h, ms), Done r))) in
    (* a call that leaves the map usable when it unwinds *)
    let safe {A} i (f : hbmap -> res (heap * hbmap * out A)) (g : A -> obs) :=
      on1 i (fun m => '(h1, m1, x) <- f m;;
        match x with
        | Done a => Ok ((h1, set_nth i m1 ms), Done (g a))
        | Unwound => Ok ((h1, set_nth i m1 ms), Unwound)
        end) in
    (* a call after whose unwinding the map is replaced *)
    let unsafe {A} i (f : hbmap -> res (heap * hbmap * out A)) (g : A -> obs) :=
      on1 i (fun m => '(h1, m1, x) <- f m;;
        match x with
        | Done a => Ok ((h1, set_nth i m1 ms), Done (g a))
        | Unwound => '(h2, m2) <- hb_clear h1 m1;; Ok ((h2, set_nth i m2 ms), Unwound)
        end) in
    match o with
    | ONew => Ok ((h, ms ++ [hb_new]), Done RUnit)
    | OClone i => on1 i (fun m => '(h1, m1) <- hb_clone h m;; Ok ((h1, ms ++ [m1]), Done RUnit))
    | OFromIter ps =>
      '(h1, y) <- hb_from_iter bor cmp N bomb h ps;;
      match y with
      | Done m => Ok ((h1, ms ++ [m]), Done RUnit)
      | Unwound => Ok ((h1, ms), Unwound)
      end
    | OInsert i k v => safe i (fun m => hb_insert bor cmp N bomb h m k v) RVal
    | ORemove i q => unsafe i (fun m => hb_remove bor cmp N bomb h m q) RVal
    | OGet i q => look i (fun a => Ok (RVal (b_get bor cmp a q)))
    | OGetKeyValue i q => look i (fun a => Ok (REntry (b_get_key_value bor cmp a q)))
    | OContains i q => look i (fun a => Ok (RBool (b_contains_key bor cmp a q)))
    | OGetMut i q w => safe i (fun m => hb_get_mut bor cmp bomb h m q w) RVal
    | OAndModify i k w => safe i (fun m => hb_get_mut bor cmp bomb h m (bor k) w) (fun _ => RUnit)
    | OOrInsert i k v w => safe i (fun m => hb_or_insert bor cmp N bomb h m k v w) (fun x => RVal (Some x))
    | OFirst i => look i (fun a => x <- b_first_key_value a;; Ok (REntry x))
    | OLast i => look i (fun a => Ok (REntry (b_last_key_value a)))
    | OPopFirst i => unsafe i (fun m => hb_pop_first N bomb h m) REntry
    | OPopLast i => unsafe i (fun m => hb_pop_last N bomb h m) REntry
    | OLen i => look i (fun a => Ok (RLen (b_len a)))
    | OIsEmpty i => look i (fun a => Ok (RBool (b_is_empty a)))
    | OClear i => on1 i (fun m => '(h1, m1) <- hb_clear h m;; Ok ((h1, set_nth i m1 ms), Done RUnit))
    | OExtend i ps => safe i (fun m => hb_extend bor cmp N bomb h m ps) (fun _ => RUnit)
    | ORetain i g => safe i (fun m =>
        hb_retain bor cmp N bomb (fun s k v => (s, fst (g k v), snd (g k v))) (fun _ k v => fbomb k v) h m tt)
        (fun _ => RUnit)
    | OSplitOff i q => on1 i (fun m =>
        '(h1, m1, x) <- hb_split_off bor cmp N bomb h m q;;
        match x with
        | Done m2 => Ok ((h1, set_nth i m1 ms ++ [m2]), Done RUnit)
        | Unwound => Ok ((h1, set_nth i m1 ms), Unwound)
        end)
    | OAppend i j => on1 i (fun a => on1 j (fun b =>
        if Nat.eqb i j then Ok ((h, ms), Done RUnit)
        else
          '(h1, a1, b1, x) <- hb_append bor cmp N bomb h a b;;
          Ok ((h1, set_nth j b1 (set_nth i a1 ms)), match x with Done _ => Done RUnit | Unwound => Unwound end)))
    | OIter i cs => look i (fun a => l <- b_run_ends borrowed cs (bt_iter a);; Ok (RSeq l))
    | ORange i lo hi cs => look i (fun a =>
        it <- b_range bor cmp a lo hi;;
        l <- b_run_ends borrowed cs it;; Ok (RItems (map fst l)))
    | OEq i j => look2 i j (fun a b => r <- b_eq keq veq a b;; Ok (RBool r))
    | OCmp i j => look2 i j (fun a b => r <- b_cmp kcmp vcmp a b;; Ok (RCmp r))
    | OCheck i => look i (fun a =>
        r <- b_chk bor cmp N a;; Ok (RBool (match r with inl _ => true | inr _ => false end)))
    | ORemoveEntry _ _ | OUnion _ _ | OIntersect _ _ | ODiff _ _ | OSymDiff _ _ => Panic
    end.

  Fixpoint hb_run (w : hb_world) (os : list op) : res (hb_world * list (out obs)) :=
    match os with
    | [] => Ok (w, [])
    | o :: os' =>
      '(w1, r) <- hb_step w o;;
      '(w2, rs) <- hb_run w1 os';;
      Ok (w2, r :: rs)
    end.

  (** At the end of their scope the maps are dropped, in any order. *)
  Fixpoint hb_drop_all (h : heap) (ms : list hbmap) : res heap :=
    match ms with
    | [] => Ok h
    | m :: ms' => h1 <- hb_drop h m;; hb_drop_all h1 ms'
    end.
End HeapClient.
