(** The entry API and [split_off] of AVL maps that share nodes, with comparisons that may panic (as in AvlHeapAskModel.v). *)
From Coq Require Import List ZArith Bool.
From Verif Require Import Base Spec Heap AvlModel Ask EntryAskModel AvlHeapModel AvlHeapAskModel.
Import ListNotations.

Section AvlEntryAsk.
  Context {K V Q : Type} (bor : K -> Q) (ask : nat -> Q -> Q -> option comparison).
  Variable bomb : nat -> bool.
  Notation heap := (heap (pay K V)).
  Definition came {A} (o : out A) : option A := match o with Done x => Some x | Unwound => None end.

  (** avl.rs:2349-2355 [contains_key_], with [contains_key] (:1015-1022). *)
  Definition hm_contains_ (h : heap) (m : hmap) (q : Q) (n : nat) : res (nat * option bool) :=
    '(n1, o) <- hm_get_key_value_t bor ask h m q n;;
    Ok (n1, option_map (fun r => match r with Some _ => true | None => false end) (came o)).
  (** avl.rs:2357-2364 [get_mut_]. *)
  Definition hm_get_mut_ (h : heap) (m : hmap) (q : Q) (w : V -> V) (n : nat) : res (heap * hmap * nat * option (option V)) :=
    '(h1, m1, n1, o) <- hm_get_mut_t bor ask bomb h m q w n;; Ok (h1, m1, n1, came o).
  (** avl.rs:2366-2372 [insert_]. *)
  Definition hm_insert_ (h : heap) (m : hmap) (k : K) (v : V) (n : nat) : res (heap * hmap * nat * option (option V)) :=
    '(h1, m1, n1, o) <- hm_insert_t bor ask bomb h m k v n;; Ok (h1, m1, n1, came o).

  (** avl.rs:1024-1031 [entry], and lib.rs:260-329. *)
  Definition hm_and_modify_t : heap -> hmap -> K -> (V -> V * bool) -> nat -> res (heap * hmap * nat * option unit) :=
    e_and_modify bor hm_get_mut_.
  Definition hm_or_insert_t : heap -> hmap -> K -> option V -> (V -> V) -> nat -> res (heap * hmap * nat * option V) :=
    e_or_insert bor hm_contains_ hm_get_mut_ hm_insert_.

  (** avl.rs:1784-1806 [split_off]. If [split] unwinds the root has been taken out; if [ins] does, [rhs] is dropped and
      [self] is the left part. *)
  Definition hm_split_off_t (h : heap) (m : hmap) (q : Q) (n : nat) : res (heap * hmap * nat * out hmap) :=
    '(h1, n1, o) <- h_split_t bor ask bomb depth h (hm_root m) q n;;
    match o with
    | Unwound => Ok (h1, HMap (hm_len m) None, n1, Unwound)
    | Done (lhs, kv, rhs) =>
      len_lhs <- h_len h1 lhs;;
      len_rhs <- usize_sub (hm_len m) len_lhs;;
      match kv with
      | None => Ok (h1, HMap len_lhs lhs, n1, Done (HMap len_rhs rhs))
      | Some (k, v) =>
        '(h2, rhs', n2, o2) <- h_ins_t bor ask bomb depth h1 rhs k v n1;;
        match o2 with
        | Unwound => h3 <- drop h2 rhs';; Ok (h3, HMap len_lhs lhs, n2, Unwound)
        | Done _ => Ok (h2, HMap len_lhs lhs, n2, Done (HMap len_rhs rhs'))
        end
      end
    end.
End AvlEntryAsk.
