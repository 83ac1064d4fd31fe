(** What the properties of shared [AvlMap]s talk about. *)
From Coq Require Import List ZArith Bool.
From Verif Require Import Base Heap HeapProofs AvlModel AvlHeapModel.
Import ListNotations.
Local Open Scope nat_scope.

(** [sub l m]: [l] is [m] with some elements left out. *)
Inductive sub {A} : list A -> list A -> Prop :=
| sub_nil : sub [] []
| sub_skip x l m : sub l m -> sub l (x :: m)
| sub_keep x l m : sub l m -> sub (x :: l) (x :: m).

Section AvlHeapSpec.
  Context {K V Q : Type} (bor : K -> Q) (cmp : Q -> Q -> comparison).
  Notation tree := (tree K V).
  Notation pay := (pay K V).
  Notation heap := (heap pay).

  (** The tree of cells that represents a tree. *)
  Fixpoint tv (t : tree) : vt pay :=
    match t with
    | Leaf => VN
    | Node k v lh rh l r => VT (Pay k v lh rh) [tv l; tv r]
    end.

  Fixpoint levels (t : tree) : nat :=
    match t with Leaf => 0 | Node _ _ _ _ l r => S (Nat.max (levels l) (levels r)) end.

  (** The heap is sound when the pointers held outside are exactly [O]: each count is
      the number of pointers to the cell, and there are no cycles. *)
  Definition sound (h : heap) (O : list addr) : Prop := wf h O /\ acyclic h.

  (** The nodes on the way to [q], the deepest first. *)
  Fixpoint path (t : tree) (q : Q) : list pay :=
    match t with
    | Leaf => []
    | Node k v lh rh l r =>
      match cmp q (bor k) with
      | Lt => path l q
      | Eq => []
      | Gt => path r q
      end ++ [Pay k v lh rh]
    end.
  (** The nodes next to the way that a rotation may have to change: the child on the other side
      and its inner child. *)
  Definition root_pay (t : tree) : list pay :=
    match t with Leaf => [] | Node k v lh rh _ _ => [Pay k v lh rh] end.
  Definition beside_l (r : tree) : list pay :=
    match r with Leaf => [] | Node _ _ _ _ rl _ => root_pay rl end ++ root_pay r.
  Definition beside_r (l : tree) : list pay :=
    match l with Leaf => [] | Node _ _ _ _ _ lr => root_pay lr end ++ root_pay l.
  (** The nodes on the way to the first (last) entry and beside it. *)
  Fixpoint near_first (t : tree) : list pay :=
    match t with
    | Leaf => []
    | Node k v lh rh l r => beside_l r ++ near_first l ++ [Pay k v lh rh]
    end.
  Fixpoint near_last (t : tree) : list pay :=
    match t with
    | Leaf => []
    | Node k v lh rh l r => beside_r l ++ near_last r ++ [Pay k v lh rh]
    end.
  (** The nodes on the way of a removal of [q] (to [q] and on to its successor) and beside. *)
  Fixpoint near (t : tree) (q : Q) : list pay :=
    match t with
    | Leaf => []
    | Node k v lh rh l r =>
      match cmp q (bor k) with
      | Lt => beside_l r ++ near l q
      | Eq => beside_r l ++ near_first r
      | Gt => beside_r l ++ near r q
      end ++ [Pay k v lh rh]
    end.

  (** The cells that can be reached from [p]; none of them is shared. *)
  Inductive reach (h : heap) (p : ptr) : addr -> Prop :=
  | reach_root a : In a (olist p) -> reach h p a
  | reach_kid a c n b : reach h p a -> get h a = Some (c, n) -> In b (olists (nd_kids n)) -> reach h p b.
  Definition unshared (h : heap) (p : ptr) : Prop :=
    forall a c n, reach h p a -> get h a = Some (c, n) -> c = 1.

  (** [U] contains everything that can be reached from [p] and all addresses not yet used,
      and no live cell in it is shared. *)
  Definition alone (U : addr -> Prop) (h : heap) : Prop :=
    (forall a, length (cells h) <= a -> U a)
    /\ forall a c n, U a -> get h a = Some (c, n) -> c = 1 /\ forall b, In b (olists (nd_kids n)) -> U b.
End AvlHeapSpec.
