(** Exclusive references into the heap of [Heap], for the iterators that hand out [&mut].

    A [&mut] to a node is the address of its cell. Rust guarantees that nobody else can use the node while the
    reference lives; here it is checked instead: using a reference whose cell is dead or shared is a [Panic], which the
    theorems exclude. *)
From Coq Require Import List PeanoNat Bool.
From Verif Require Import Base Heap.
Import ListNotations.
Local Open Scope nat_scope.

Section HeapMut.
  Context {P : Type} (bomb : nat -> bool).
  Notation heap := (heap P).
  Notation node := (node P).
  Notation vt := (vt P).

  Definition excl (h : heap) (a : addr) : res node :=
    match get h a with Some (1, n) => Ok n | _ => Panic end.

  (** [Arc::make_mut] of the pointer number [j] in the node at [a]; [None]: the user's clone panicked. *)
  Definition kid_mut (h : heap) (a : addr) (j : nat) : res (heap * option addr) :=
    n <- excl h a;;
    p <- unwrap (nth_error (nd_kids n) j);;
    c <- unwrap p;;
    '(h1, r) <- make_mut bomb h c;;
    match r with
    | None => Ok (h1, None)
    | Some c' =>
      n1 <- excl h1 a;;
      Ok (put h1 a (Some (1, Nd (nd_data n1) (upd j (Some c') (nd_kids n1)))), Some c')
    end.

  (** A write to the data of the node at [a]. *)
  Definition data_mut (h : heap) (a : addr) (f : P -> P) : res heap :=
    n <- excl h a;;
    Ok (put h a (Some (1, Nd (f (nd_data n)) (nd_kids n)))).

  (** ** What the proofs talk about *)

  (** The node at [b] is reached from [a] by the child indices [p], and no cell on the way, nor the one at [b], is shared. *)
  Inductive held (h : heap) : addr -> list nat -> addr -> Prop :=
  | held_here a n : get h a = Some (1, n) -> held h a [] a
  | held_kid a n j c p b : get h a = Some (1, n) -> nth_error (nd_kids n) j = Some (Some c) -> held h c p b ->
                           held h a (j :: p) b.

  (** The node at a path of the tree that a pointer stands for; and a write there. *)
  Fixpoint v_at (t : vt) (p : list nat) : option vt :=
    match p with
    | [] => Some t
    | j :: p' => match t with
                 | VN => None
                 | VT _ ts => match nth_error ts j with Some c => v_at c p' | None => None end
                 end
    end.
  Fixpoint v_upd (f : P -> P) (t : vt) (p : list nat) : vt :=
    match t with
    | VN => VN
    | VT d ts =>
      match p with
      | [] => VT (f d) ts
      | j :: p' => match nth_error ts j with Some c => VT d (upd j (v_upd f c p') ts) | None => t end
      end
    end.
End HeapMut.
