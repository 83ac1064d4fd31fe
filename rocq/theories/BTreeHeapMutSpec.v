(** What the properties of [iter_mut] and [range_mut] on shared [BTreeMap]s talk about. *)
From Coq Require Import List PeanoNat.
From Verif Require Import Base Spec Heap HeapProofs BTreeModel BTreeHeapModel BTreeHeapSpec BTreeHeapHistSpec MutSpec.
Import ListNotations.
Local Open Scope nat_scope.

Section BTreeHeapMutSpec.
  Context {K V Q : Type} (bor : K -> Q) (cmp : Q -> Q -> comparison) (N : nat).
  Variable bomb : nat -> bool.
  Notation heap := (heap (list (K * V))).

  (** What a client sees that makes the calls [cs] on an iterator over the entries [i] to [k - 1] of a map that shows
      [l]: as many of the calls as returned gave the right results; the map has the values written; the pointers [O]
      of other maps stand for what they did. Calls fail to return only after a panic of the user's [clone]. *)
  Definition client_ok (O : list addr) (h : heap) (cs : list (mcall V)) (l : list (K * V)) (i k d : nat)
    (h' : heap) (m' : hbmap) (outs : list (option (K * V) * (nat * nat))) (b : bool) : Prop :=
    sound h' (olist (hb_root m') ++ O) /\ frame O h h'
    /\ hbshows bor cmp N h' m' (s_final (firstn (length outs) cs) l i k)
    /\ Forall2 (mut_out d) outs (s_outs (firstn (length outs) cs) l i k)
    /\ if b then length outs = length cs else exists n, bomb n = true.

  (** The node [c] is on the path to an entry that the calls [cs] take. *)
  Definition on_paths (cs : list (mcall V)) (l : list (K * V)) (i k : nat) (t : bt K V) (c : list (K * V)) : Prop :=
    exists x e, In x (s_taken cs l i k) /\ nth_error l x = Some e /\ In c (path bor cmp (bor (fst e)) t).
End BTreeHeapMutSpec.
