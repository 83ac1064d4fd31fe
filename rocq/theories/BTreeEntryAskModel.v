(** The entry API of [BTreeMap]s that share nodes, with comparisons that may panic (as in BTreeHeapAskModel.v). *)
From Coq Require Import List PeanoNat Bool.
From Verif Require Import Base Spec Heap BTreeModel Ask EntryAskModel BTreeHeapModel BTreeHeapAskModel.
Import ListNotations.

Section BTreeEntryAsk.
  Context {K V Q : Type} (bor : K -> Q) (ask : nat -> Q -> Q -> option comparison) (N : nat).
  Variable bomb : nat -> bool.
  Notation heap := (heap (list (K * V))).
  Definition came {A} (o : out A) : option A := match o with Done x => Some x | Unwound => None end.

  (** btree.rs:1096-1102 [contains_key_]. *)
  Definition hb_contains_ (h : heap) (m : hbmap) (q : Q) (n : nat) : res (nat * option bool) :=
    '(n1, o) <- hb_contains_t bor ask h m q n;; Ok (n1, came o).
  (** btree.rs:1104-1111 [get_mut_]. *)
  Definition hb_get_mut_ (h : heap) (m : hbmap) (q : Q) (w : V -> V) (n : nat) : res (heap * hbmap * nat * option (option V)) :=
    '(h1, m1, n1, o) <- hb_get_mut_t bor ask bomb h m q w n;; Ok (h1, m1, n1, came o).
  (** btree.rs:1113-1119 [insert_]. *)
  Definition hb_insert_ (h : heap) (m : hbmap) (k : K) (v : V) (n : nat) : res (heap * hbmap * nat * option (option V)) :=
    '(h1, m1, n1, o) <- hb_insert_t bor ask N bomb h m k v n;; Ok (h1, m1, n1, came o).

  (** btree.rs:594-601 [entry], and lib.rs:260-329. *)
  Definition hb_and_modify_t : heap -> hbmap -> K -> (V -> V * bool) -> nat -> res (heap * hbmap * nat * option unit) :=
    e_and_modify bor hb_get_mut_.
  Definition hb_or_insert_t : heap -> hbmap -> K -> option V -> (V -> V) -> nat -> res (heap * hbmap * nat * option V) :=
    e_or_insert bor hb_contains_ hb_get_mut_ hb_insert_.
End BTreeEntryAsk.
