(** What the properties of owning iteration over shared [AvlMap]s talk about. *)
From Coq Require Import List PeanoNat.
From Verif Require Import Base Spec Heap HeapProofs AvlModel AvlIterModel AvlHeapModel AvlHeapSpec AvlHeapIntoModel.
Import ListNotations.
Local Open Scope nat_scope.

Section AvlHeapIntoSpec.
  Context {K V I : Type} (mk : K * V -> I).
  Notation heap := (heap (pay K V)).
  Notation tree := (tree K V).

  (** What an item of the work list stands for: a tree (no higher than its [i8] heights allow), or an entry. *)
  Inductive stands (h : heap) : action (onode K V) I -> action tree (K * V) -> Prop :=
  | stands_ret e : stands h (Return (mk e)) (Return e)
  | stands_arc a t : den h (Some a) (tv t) -> levels t < depth -> stands h (Descend (OArc a)) (Descend t)
  | stands_own k v lh rh l r pl pr : den h pl (tv l) -> den h pr (tv r) -> levels (Node k v lh rh l r) < depth ->
      stands h (Descend (OOwn (Pay k v lh rh) pl pr)) (Descend (Node k v lh rh l r)).
  Definition entries (x : action tree (K * V)) : list (K * V) := match x with Descend t => elems t | Return e => [e] end.

  (** The iterator has the items [l] left to yield, and [len()] returns [d] more than their number. *)
  Definition oshows (h : heap) (it : inner_iter (onode K V) I) (l : list I) (d : nat) : Prop :=
    exists gs, Forall2 (stands h) (it_work it) gs /\ map mk (flat_map entries gs) = l /\ it_len it = length l + d.
  (** The pointers it holds. *)
  Definition oheld (it : inner_iter (onode K V) I) : list addr := olists (oi_ptrs it).
End AvlHeapIntoSpec.
