(** What the properties of shared [BTreeMap]s talk about. *)
From Coq Require Import List PeanoNat Bool.
From Verif Require Import Base Spec Heap HeapProofs BTreeModel BTreeHeapModel.
From Verif Require AvlHeapSpec.
Import ListNotations.
Local Open Scope nat_scope.

(** [sub l m]: [l] is [m] with some elements left out. *)
Notation sub := AvlHeapSpec.sub.

Section BTreeHeapSpec.
  Context {K V Q : Type} (bor : K -> Q) (cmp : Q -> Q -> comparison).
  Notation bt := (bt K V).
  Notation pay := (list (K * V)).
  Notation heap := (heap pay).

  (** The tree of cells that represents a node. *)
  Fixpoint tv (t : bt) : vt pay := match t with BN es ks => VT es (map tv ks) end.

  (** The heap is sound when the pointers held outside are exactly [O]: each count is
      the number of pointers to the cell, and there are no cycles. *)
  Definition sound (h : heap) (O : list addr) : Prop := wf h O /\ acyclic h.

  (** The number of keys below [q] at the start of a node, and whether [q] comes next. *)
  Fixpoint rank (q : Q) (es : pay) : nat :=
    match es with
    | [] => 0
    | e :: es' => match cmp q (bor (fst e)) with Gt => S (rank q es') | _ => 0 end
    end.
  Definition hit (q : Q) (es : pay) : bool :=
    match nth_error es (rank q es) with
    | Some e => match cmp q (bor (fst e)) with Eq => true | _ => false end
    | None => false
    end.

  (** The nodes on the way to [q], the deepest first. *)
  Fixpoint path (q : Q) (t : bt) : list pay :=
    match t with
    | BN es ks =>
      (if hit q es then [] else match nth_error (map (path q) ks) (rank q es) with Some l => l | None => [] end)
      ++ [es]
    end.
  (** The sibling that a child may have to merge with or to take from. *)
  Definition beside (i : nat) (ks : list bt) : list pay :=
    match nth_error ks (if 0 <? i then i - 1 else i + 1) with Some s => [elems_of s] | None => [] end.
  (** The nodes on the way to the first (last) entry, and a sibling of each. *)
  Fixpoint near_first (t : bt) : list pay :=
    match t with
    | BN es ks => match nth_error (map near_first ks) 0 with Some l => beside 0 ks ++ l | None => [] end ++ [es]
    end.
  Fixpoint near_last (t : bt) : list pay :=
    match t with
    | BN es ks =>
      match nth_error (map near_last ks) (length es) with Some l => beside (length es) ks ++ l | None => [] end ++ [es]
    end.
  (** The nodes on the way of a removal of [q] (to [q] and on to its predecessor), and a sibling of
      each. *)
  Fixpoint near (q : Q) (t : bt) : list pay :=
    match t with
    | BN es ks =>
      match nth_error (map (fun c => if hit q es then near_last c else near q c) ks) (rank q es) with
      | Some l => beside (rank q es) ks ++ l
      | None => []
      end ++ [es]
    end.

  (** The cells that can be reached from [p]; none of them is shared. *)
  Inductive reach (h : heap) (p : ptr) : addr -> Prop :=
  | reach_root a : In a (olist p) -> reach h p a
  | reach_kid a c n b : reach h p a -> get h a = Some (c, n) -> In b (olists (nd_kids n)) -> reach h p b.
  Definition unshared (h : heap) (p : ptr) : Prop :=
    forall a c n, reach h p a -> get h a = Some (c, n) -> c = 1.

  (** [U] contains everything that can be reached from [p] and all addresses not yet used,
      and no live cell in it is shared. *)
  Definition alone (U : addr -> Prop) (h : heap) : Prop :=
    (forall a, length (cells h) <= a -> U a)
    /\ forall a c n, U a -> get h a = Some (c, n) -> c = 1 /\ forall b, In b (olists (nd_kids n)) -> U b.
End BTreeHeapSpec.
