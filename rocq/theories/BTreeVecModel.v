(** Model of [Vec::from(map)] for a [BTreeMap] that may share nodes (btree.rs:2296-2306). *)
From Coq Require Import List PeanoNat.
From Verif Require Import Base Heap BTreeModel BTreeHeapModel.
Import ListNotations.

Section ToVec.
  Context {K V : Type}.
  Variable bomb : nat -> bool.
  Notation entry := (K * V)%type.
  Notation heap := (heap (list entry)).

  (** btree.rs:2301-2303: the loop [for (k, v) in value { res.push((k, v)) }]; [acc] is [res]. [fuel] bounds
      the number of items; [Panic] when it runs out. When [next] unwinds, the iterator is dropped. The
      entries in [acc] are plain values, so the drop of [acc] changes nothing in the heap. *)
  Fixpoint h_to_vec (fuel : nat) (h : heap) (it : h_iter) (acc : list entry) : res (heap * out (list entry)) :=
    match fuel with
    | O => Panic
    | S fuel' =>
      '(h1, it1, o) <- h_next bomb h it;;
      match o with
      | Unwound => h2 <- hi_drop h1 it1;; Ok (h2, Unwound)
      | Done None => h2 <- hi_drop h1 it1;; Ok (h2, Done acc)
      | Done (Some e) => h_to_vec fuel' h1 it1 (acc ++ [e])
      end
    end.
  (** btree.rs:2299-2305 [from]. *)
  Definition hb_to_vec (h : heap) (m : hbmap) : res (heap * out (list entry)) :=
    '(h1, it) <- hb_into_iter h m;;
    h_to_vec (S (hb_len m)) h1 it [].
End ToVec.
