(** A client that uses several AVL maps that share nodes, whose comparisons, [clone]s and predicates may panic. It catches
    the panics and goes on, as the client of AvlHeapHistModel.v does: after a removal, [append] or [retain] that unwound it
    replaces the map by an empty one. *)
From Coq Require Import List ZArith Bool.
From Verif Require Import Base Spec MapSpec Heap AvlModel AvlIterModel Ask AvlAskModel AvlHeapModel AvlHeapAskModel AvlHeapHistModel.
Import ListNotations.
Local Open Scope nat_scope.

Section AskClient.
  Context {K V Q : Type} (bor : K -> Q) (ask : nat -> Q -> Q -> option comparison).
  Context (keq : K -> K -> bool) (veq : V -> V -> bool).
  Context (kcmp : K -> K -> comparison) (vcmp : V -> V -> comparison).
  Variable bomb : nat -> bool.
  Variable fbomb : K -> V -> bool.
  Notation heap := (heap (pay K V)).
  Notation op := (op K V Q).
  Notation obs := (obs K V).
  Notation world := (@world K V).

  (** One call, made after [n] comparisons. The calls that compare no keys with [Ord] are those of AvlHeapHistModel.v. *)
  Definition h_step_t (w0 : world) (n : nat) (o : op) : res (world * nat * out obs) :=
    let '(h, ms) := w0 in
    let on1 i (f : hmap -> res (world * nat * out obs)) :=
      match nth_error ms i with Some m => f m | None => Ok ((h, ms), n, Done RUnit) end in
    let look i q (g : option (K * V) -> obs) :=
      on1 i (fun m => '(n1, x) <- hm_get_key_value_t bor ask h m q n;;
        match x with
        | Done r => Ok ((h, ms), n1, Done (g r))
        | Unwound => Ok ((h, ms), n1, Unwound)
        end) in
    let safe {A} i (f : hmap -> res (heap * hmap * nat * out A)) (g : A -> obs) :=
      on1 i (fun m => '(h1, m1, n1, x) <- f m;;
        match x with
        | Done a => Ok ((h1, set_nth i m1 ms), n1, Done (g a))
        | Unwound => Ok ((h1, set_nth i m1 ms), n1, Unwound)
        end) in
    let unsafe {A} i (f : hmap -> res (heap * hmap * nat * out A)) (g : A -> obs) :=
      on1 i (fun m => '(h1, m1, n1, x) <- f m;;
        match x with
        | Done a => Ok ((h1, set_nth i m1 ms), n1, Done (g a))
        | Unwound => '(h2, m2) <- hm_clear h1 m1;; Ok ((h2, set_nth i m2 ms), n1, Unwound)
        end) in
    let combine i j (f : heap -> hmap -> hmap -> nat -> res (heap * nat * out hmap)) :=
      on1 i (fun m => on1 j (fun m' =>
        '(h1, a) <- hm_clone h m;; '(h2, b) <- hm_clone h1 m';;
        '(h3, n3, y) <- f h2 a b n;;
        match y with
        | Done m2 => Ok ((h3, ms ++ [m2]), n3, Done RUnit)
        | Unwound => Ok ((h3, ms), n3, Unwound)
        end)) in
    match o with
    | OFromIter ps =>
      '(h1, m1, n1, x) <- hm_extend_t bor ask bomb h hm_new ps n;;
      match x with
      | Done _ => Ok ((h1, ms ++ [m1]), n1, Done RUnit)
      | Unwound => h2 <- hm_drop h1 m1;; Ok ((h2, ms), n1, Unwound)
      end
    | OInsert i k v => safe i (fun m => hm_insert_t bor ask bomb h m k v n) RVal
    | ORemove i q => unsafe i (fun m => hm_remove_entry_t bor ask bomb h m q n) (fun x => RVal (option_map snd x))
    | ORemoveEntry i q => unsafe i (fun m => hm_remove_entry_t bor ask bomb h m q n) REntry
    | OGet i q => look i q (fun x => RVal (option_map snd x))
    | OGetKeyValue i q => look i q REntry
    | OContains i q => look i q (fun x => RBool (match x with Some _ => true | None => false end))
    | OGetMut i q w => safe i (fun m => hm_get_mut_t bor ask bomb h m q w n) RVal
    | OAndModify i k w => safe i (fun m => hm_get_mut_t bor ask bomb h m (bor k) w n) (fun _ => RUnit)
    | OExtend i ps => safe i (fun m => hm_extend_t bor ask bomb h m ps n) (fun _ => RUnit)
    | OAppend i j => on1 i (fun a => on1 j (fun b =>
        if Nat.eqb i j then Ok ((h, ms), n, Done RUnit)
        else
          '(h1, a1, b1, n1, x) <- hm_append_t bor ask bomb h a b n;;
          match x with
          | Done _ => Ok ((h1, set_nth j b1 (set_nth i a1 ms)), n1, Done RUnit)
          | Unwound =>
            '(h2, a2) <- hm_clear h1 a1;; '(h3, b2) <- hm_clear h2 b1;;
            Ok ((h3, set_nth j b2 (set_nth i a2 ms)), n1, Unwound)
          end))
    | OUnion i j => combine i j (hm_new_union_t bor ask bomb)
    | OIntersect i j => combine i j (hm_new_intersect_t bor ask bomb)
    | ODiff i j => combine i j (hm_new_diff_t bor ask bomb)
    | OSymDiff i j => combine i j (hm_new_sym_diff_t bor ask bomb)
    | _ => asked n (h_step bor (fun _ _ => Eq) keq veq kcmp vcmp bomb fbomb w0 o)
    end.

  Fixpoint h_run_t (w : world) (n : nat) (os : list op) : res (world * nat * list (out obs)) :=
    match os with
    | [] => Ok (w, n, [])
    | o :: os' =>
      '(w1, n1, r) <- h_step_t w n o;;
      '(w2, n2, rs) <- h_run_t w1 n1 os';;
      Ok (w2, n2, r :: rs)
    end.
End AskClient.
