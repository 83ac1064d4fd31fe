(** A client that uses several B-tree maps that share nodes, whose comparisons, [clone]s and predicates may panic. It catches
    the panics and goes on, as the client of BTreeHeapHistModel.v does: after a removal that unwound it replaces the map by
    an empty one. *)
From Coq Require Import List PeanoNat Bool.
From Verif Require Import Base Spec MapSpec Heap BTreeModel BTreeIterModel Ask BTreeAskModel BTreeHeapModel BTreeHeapAskModel BTreeHeapHistModel.
Import ListNotations.
Local Open Scope nat_scope.

Section AskClient.
  Context {K V Q : Type} (bor : K -> Q) (ask : nat -> Q -> Q -> option comparison) (N : nat).
  Context (keq : K -> K -> bool) (veq : V -> V -> bool).
  Context (kcmp : K -> K -> comparison) (vcmp : V -> V -> comparison).
  Variable bomb : nat -> bool.
  Variable fbomb : K -> V -> bool.
  Notation heap := (heap (list (K * V))).
  Notation op := (op K V Q).
  Notation obs := (obs K V).
  Notation hb_world := (@hb_world K V).

  (** One call, made after [n] comparisons. The calls that compare no keys with [Ord] are those of BTreeHeapHistModel.v. *)
  Definition hb_step_t (w0 : hb_world) (n : nat) (o : op) : res (hb_world * nat * out obs) :=
    let '(h, ms) := w0 in
    let on1 i (f : hbmap -> res (hb_world * nat * out obs)) :=
      match nth_error ms i with Some m => f m | None => Ok ((h, ms), n, Done RUnit) end in
    let look {A} i (f : hbmap -> res (nat * out A)) (g : A -> obs) :=
      on1 i (fun m => '(n1, x) <- f m;; Ok ((h, ms), n1, match x with Done r => Done (g r) | Unwound => Unwound end)) in
    let safe {A} i (f : hbmap -> res (heap * hbmap * nat * out A)) (g : A -> obs) :=
      on1 i (fun m => '(h1, m1, n1, x) <- f m;;
        Ok ((h1, set_nth i m1 ms), n1, match x with Done a => Done (g a) | Unwound => Unwound end)) in
    let unsafe {A} i (f : hbmap -> res (heap * hbmap * nat * out A)) (g : A -> obs) :=
      on1 i (fun m => '(h1, m1, n1, x) <- f m;;
        match x with
        | Done a => Ok ((h1, set_nth i m1 ms), n1, Done (g a))
        | Unwound => '(h2, m2) <- hb_clear h1 m1;; Ok ((h2, set_nth i m2 ms), n1, Unwound)
        end) in
    match o with
    | OFromIter ps =>
      '(h1, n1, y) <- hb_from_iter_t bor ask N bomb h ps n;;
      match y with
      | Done m => Ok ((h1, ms ++ [m]), n1, Done RUnit)
      | Unwound => Ok ((h1, ms), n1, Unwound)
      end
    | OInsert i k v => safe i (fun m => hb_insert_t bor ask N bomb h m k v n) RVal
    | ORemove i q => unsafe i (fun m => hb_remove_t bor ask N bomb h m q n) RVal
    | OGet i q => look i (fun m => hb_get_t bor ask h m q n) RVal
    | OGetKeyValue i q => look i (fun m => hb_get_key_value_t bor ask h m q n) REntry
    | OContains i q => look i (fun m => hb_contains_t bor ask h m q n) RBool
    | OGetMut i q w => safe i (fun m => hb_get_mut_t bor ask bomb h m q w n) RVal
    | OAndModify i k w => safe i (fun m => hb_get_mut_t bor ask bomb h m (bor k) w n) (fun _ => RUnit)
    | OExtend i ps => safe i (fun m => hb_extend_t bor ask N bomb h m ps n) (fun _ => RUnit)
    | ORetain i g => safe i (fun m =>
        hb_retain_t bor ask N bomb (fun s k v => (s, fst (g k v), snd (g k v))) (fun _ k v => fbomb k v) h m tt n)
        (fun _ => RUnit)
    | OSplitOff i q => on1 i (fun m =>
        '(h1, m1, n1, x) <- hb_split_off_t bor ask N bomb h m q n;;
        match x with
        | Done m2 => Ok ((h1, set_nth i m1 ms ++ [m2]), n1, Done RUnit)
        | Unwound => Ok ((h1, set_nth i m1 ms), n1, Unwound)
        end)
    | OAppend i j => on1 i (fun a => on1 j (fun b =>
        if Nat.eqb i j then Ok ((h, ms), n, Done RUnit)
        else
          '(h1, a1, b1, n1, x) <- hb_append_t bor ask N bomb h a b n;;
          Ok ((h1, set_nth j b1 (set_nth i a1 ms)), n1, match x with Done _ => Done RUnit | Unwound => Unwound end)))
    | _ => asked n (hb_step bor (fun _ _ => Eq) N keq veq kcmp vcmp bomb fbomb w0 o)
    end.

  Fixpoint hb_run_t (w : hb_world) (n : nat) (os : list op) : res (hb_world * nat * list (out obs)) :=
    match os with
    | [] => Ok (w, n, [])
    | o :: os' =>
      '(w1, n1, r) <- hb_step_t w n o;;
      '(w2, n2, rs) <- hb_run_t w1 n1 os';;
      Ok (w2, n2, r :: rs)
    end.
End AskClient.
