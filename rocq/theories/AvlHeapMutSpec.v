(** What the properties of [iter_mut] and [range_mut] on shared [AvlMap]s talk about. *)
From Coq Require Import List PeanoNat.
From Verif Require Import Base Spec Heap HeapProofs AvlModel AvlHeapModel AvlHeapSpec AvlHeapHistSpec MutSpec.
Import ListNotations.
Local Open Scope nat_scope.

Section AvlHeapMutSpec.
  Context {K V Q : Type} (bor : K -> Q) (cmp : Q -> Q -> comparison).
  Variable bomb : nat -> bool.
  Notation heap := (heap (pay K V)).

  (** What a client sees that makes the calls [cs] on an iterator over the entries [i] to [k - 1] of a map that shows
      [l]: as many of the calls as returned gave the right results, each with a [len()] that is the number of entries
      left plus [d]; the map has the values written; the pointers [O] of other maps stand for what they did. Calls
      fail to return only after a panic of the user's [clone]. *)
  Definition client_ok (O : list addr) (h : heap) (cs : list (mcall V)) (l : list (K * V)) (i k d : nat)
    (h' : heap) (m' : hmap) (outs : list (option (K * V) * nat)) (b : bool) : Prop :=
    sound h' (olist (hm_root m') ++ O) /\ frame O h h'
    /\ hshows bor cmp h' m' (s_final (firstn (length outs) cs) l i k)
    /\ outs = map (fun s => (fst s, snd s + d)) (s_outs (firstn (length outs) cs) l i k)
    /\ if b then length outs = length cs else exists n, bomb n = true.

  (** The children of the nodes on the path to [q]. *)
  Fixpoint around (q : Q) (t : tree K V) : list (pay K V) :=
    match t with
    | Leaf => []
    | Node k _ _ _ l r =>
      (root_pay l ++ root_pay r) ++ match cmp q (bor k) with Lt => around q l | Eq => [] | Gt => around q r end
    end.
  (** The node [c] is a child of a node on the path to an entry that the calls [cs] take. *)
  Definition on_paths (cs : list (mcall V)) (l : list (K * V)) (i k : nat) (t : tree K V) (c : pay K V) : Prop :=
    exists x e, In x (s_taken cs l i k) /\ nth_error l x = Some e /\ In c (around (bor (fst e)) t).
End AvlHeapMutSpec.
