(** The client of [AvlHistModel] on the heap: any sequence of calls on any number of
    maps that share nodes. The user's [clone] and the predicate given to [retain] may panic; the
    client catches the panic ([Unwound]) and throws away a map that the panic may have
    left unusable, by replacing it with a new one. *)
From Coq Require Import List ZArith Bool.
From Verif Require Import Base Spec MapSpec Heap AvlModel AvlIterModel AvlHistModel AvlHeapModel.
Import ListNotations.

Section HeapClient.
  Context {K V Q : Type} (bor : K -> Q) (cmp : Q -> Q -> comparison).
  Context (keq : K -> K -> bool) (veq : V -> V -> bool).
  Context (kcmp : K -> K -> comparison) (vcmp : V -> V -> comparison).
  Variable bomb : nat -> bool.
  Variable fbomb : K -> V -> bool.
  Notation heap := (heap (pay K V)).
  Notation op := (op K V Q).
  Notation obs := (obs K V).

  (** avl.rs:2286-2292 [extend]: stops where it unwinds. *)
  Fixpoint hm_extend (h : heap) (m : hmap) (ps : list (K * V)) : res (heap * hmap * out unit) :=
    match ps with
    | [] => Ok (h, m, Done tt)
    | (k, v) :: ps' =>
      '(h1, m1, o) <- hm_insert bor cmp bomb h m k v;;
      match o with
      | Unwound => Ok (h1, m1, Unwound)
      | Done _ => hm_extend h1 m1 ps'
      end
    end.
  (** avl.rs:2304-2309 [from_iter]: when it unwinds the new map is dropped. *)
  Definition hm_from_iter (h : heap) (ps : list (K * V)) : res (heap * out hmap) :=
    '(h1, m, o) <- hm_extend h hm_new ps;;
    match o with
    | Unwound => h2 <- hm_drop h1 m;; Ok (h2, Unwound)
    | Done _ => Ok (h1, Done m)
    end.
  (** lib.rs:277-303 [or_aux], [or_insert], and the write through the reference. *)
  Definition hm_or_insert (h : heap) (m : hmap) (k : K) (v : V) (w : V -> V)
    : res (heap * hmap * out V) :=
    a <- hm_read h m;;
    '(h1, m1, o1) <- (if negb (avl_contains_key bor cmp a (bor k))
                      then '(h1, m1, o) <- hm_insert bor cmp bomb h m k v;;
                           Ok (h1, m1, match o with Done _ => Done tt | Unwound => Unwound end)
                      else Ok (h, m, Done tt));;
    match o1 with
    | Unwound => Ok (h1, m1, Unwound)
    | Done _ =>
      '(h2, m2, o2) <- hm_get_mut bor cmp bomb h1 m1 (bor k) w;;
      match o2 with
      | Unwound => Ok (h2, m2, Unwound)
      | Done x => y <- unwrap x;; Ok (h2, m2, Done y)
      end
    end.

  Definition world : Type := heap * list hmap.

  (** One call. The calls that only read see the tree. The operands of [new_union] and so on
      are clones of the maps. *)
  Definition h_step (w0 : world) (o : op) : res (world * out obs) :=
    let '(h, ms) := w0 in
    let on1 i (f : hmap -> res (world * out obs)) :=
      match nth_error ms i with Some m => f m | None => Ok ((h, ms), Done RUnit) end in
    let look i (f : avl_map K V -> res obs) :=
      on1 i (fun m => a <- hm_read h m;; r <- f a;; Ok ((h, ms), Done r)) in
    let look2 i j (f : avl_map K V -> avl_map K V -> res obs) :=
      on1 i (fun m => on1 j (fun m' =>
        a <- hm_read h m;; b <- hm_read h m';; r <- f a b;; Ok ((h, ms), Done r))) in
    (* a call that leaves the map usable when it unwinds *)
    let safe {A} i (f : hmap -> res (heap * hmap * out A)) (g : A -> obs) :=
      on1 i (fun m => '(h1, m1, x) <- f m;;
        match x with
        | Done a => Ok ((h1, set_nth i m1 ms), Done (g a))
        | Unwound => Ok ((h1, set_nth i m1 ms), Unwound)
        end) in
    (* a call after whose unwinding the map is replaced *)
    let unsafe {A} i (f : hmap -> res (heap * hmap * out A)) (g : A -> obs) :=
      on1 i (fun m => '(h1, m1, x) <- f m;;
        match x with
        | Done a => Ok ((h1, set_nth i m1 ms), Done (g a))
        | Unwound => '(h2, m2) <- hm_clear h1 m1;; Ok ((h2, set_nth i m2 ms), Unwound)
        end) in
    let fresh (x : res (heap * out hmap)) :=
      '(h1, y) <- x;;
      match y with
      | Done m => Ok ((h1, ms ++ [m]), Done RUnit)
      | Unwound => Ok ((h1, ms), Unwound)
      end in
    let combine i j (f : heap -> hmap -> hmap -> res (heap * out hmap)) :=
      on1 i (fun m => on1 j (fun m' =>
        '(h1, a) <- hm_clone h m;; '(h2, b) <- hm_clone h1 m';; fresh (f h2 a b))) in
    match o with
    | ONew => Ok ((h, ms ++ [hm_new]), Done RUnit)
    | OClone i => on1 i (fun m => '(h1, m1) <- hm_clone h m;; Ok ((h1, ms ++ [m1]), Done RUnit))
    | OFromIter ps => fresh (hm_from_iter h ps)
    | OInsert i k v => safe i (fun m => hm_insert bor cmp bomb h m k v) RVal
    | ORemove i q => unsafe i (fun m => hm_remove_entry bor cmp bomb h m q) (fun x => RVal (option_map snd x))
    | ORemoveEntry i q => unsafe i (fun m => hm_remove_entry bor cmp bomb h m q) REntry
    | OGet i q => look i (fun a => Ok (RVal (avl_get bor cmp a q)))
    | OGetKeyValue i q => look i (fun a => Ok (REntry (avl_get_key_value bor cmp a q)))
    | OContains i q => look i (fun a => Ok (RBool (avl_contains_key bor cmp a q)))
    | OGetMut i q w => safe i (fun m => hm_get_mut bor cmp bomb h m q w) RVal
    | OAndModify i k w => safe i (fun m => hm_get_mut bor cmp bomb h m (bor k) w) (fun _ => RUnit)
    | OOrInsert i k v w => safe i (fun m => hm_or_insert h m k v w) (fun x => RVal (Some x))
    | OFirst i => look i (fun a => Ok (REntry (avl_first_key_value a)))
    | OLast i => look i (fun a => Ok (REntry (avl_last_key_value a)))
    | OPopFirst i => unsafe i (fun m => hm_pop_first bomb h m) REntry
    | OPopLast i => unsafe i (fun m => hm_pop_last bomb h m) REntry
    | OLen i => look i (fun a => Ok (RLen (avl_len a)))
    | OIsEmpty i => look i (fun a => Ok (RBool (avl_is_empty a)))
    | OClear i => on1 i (fun m => '(h1, m1) <- hm_clear h m;; Ok ((h1, set_nth i m1 ms), Done RUnit))
    | OExtend i ps => safe i (fun m => hm_extend h m ps) (fun _ => RUnit)
    | ORetain i g => unsafe i (fun m =>
        hm_retain bomb (fun s k v => (s, fst (g k v), snd (g k v))) (fun _ k v => fbomb k v) h m tt) (fun _ => RUnit)
    | OSplitOff i q => on1 i (fun m =>
        '(h1, m1, x) <- hm_split_off bor cmp bomb h m q;;
        match x with
        | Done m2 => Ok ((h1, set_nth i m1 ms ++ [m2]), Done RUnit)
        | Unwound => '(h2, m2) <- hm_clear h1 m1;; Ok ((h2, set_nth i m2 ms), Unwound)
        end)
    | OAppend i j => on1 i (fun a => on1 j (fun b =>
        if Nat.eqb i j then Ok ((h, ms), Done RUnit)
        else
          '(h1, a1, b1, x) <- hm_append bor cmp bomb h a b;;
          match x with
          | Done _ => Ok ((h1, set_nth j b1 (set_nth i a1 ms)), Done RUnit)
          | Unwound =>
            '(h2, a2) <- hm_clear h1 a1;; '(h3, b2) <- hm_clear h2 b1;;
            Ok ((h3, set_nth j b2 (set_nth i a2 ms)), Unwound)
          end))
    | OUnion i j => combine i j (hm_new_union bor cmp bomb)
    | OIntersect i j => combine i j (hm_new_intersect bor cmp bomb)
    | ODiff i j => combine i j (hm_new_diff bor cmp bomb)
    | OSymDiff i j => combine i j (hm_new_sym_diff bor cmp bomb)
    | OIter i cs => look i (fun a => l <- run_ends norm_destr norm_size cs (avl_iter a);; Ok (RSeq l))
    | ORange i lo hi cs => look i (fun a =>
        it <- avl_range bor cmp a lo hi;;
        l <- run_ends norm_destr norm_size cs it;; Ok (RItems (map fst l)))
    | OEq i j => look2 i j (fun a b => r <- avl_eq keq veq a b;; Ok (RBool r))
    | OCmp i j => look2 i j (fun a b => r <- avl_cmp kcmp vcmp a b;; Ok (RCmp r))
    | OCheck i => look i (fun a =>
        r <- avl_chk bor cmp a;; Ok (RBool (match r with inl _ => true | inr _ => false end)))
    end.

  Fixpoint h_run (w : world) (os : list op) : res (world * list (out obs)) :=
    match os with
    | [] => Ok (w, [])
    | o :: os' =>
      '(w1, r) <- h_step w o;;
      '(w2, rs) <- h_run w1 os';;
      Ok (w2, r :: rs)
    end.

  (** At the end of their scope the maps are dropped, in any order. *)
  Fixpoint h_drop_all (h : heap) (ms : list hmap) : res heap :=
    match ms with
    | [] => Ok h
    | m :: ms' => h1 <- hm_drop h m;; h_drop_all h1 ms'
    end.
End HeapClient.
