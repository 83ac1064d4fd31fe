(** [range] and [range_mut] of the B-tree map with a key type whose [Ord] is no order: what may come out of them. *)
From Coq Require Import List.
From Verif Require Import Base Spec MapSpec AvlHeapSpec AnyOrdSpec.
Import ListNotations.

Section AnyRange.
  Context {K V Q : Type} (bor : K -> Q) (cmp : Q -> Q -> comparison).
  Notation entry := (K * V)%type.

  (** The comparisons with the bounds say that the entry lies strictly between them. *)
  Definition told_within (lo hi : bound Q) (e : entry) : Prop :=
    match lo with Unbounded => True | Included q | Excluded q => cmp q (bor (fst e)) = Lt end /\
    match hi with Unbounded => True | Included q | Excluded q => cmp q (bor (fst e)) = Gt end.

  (** The first entry was told to be above the lower bound, or it follows one that was told to equal an excluded bound. *)
  Definition told_first (lo : bound Q) (l : list entry) (e : entry) : Prop :=
    match lo with
    | Unbounded => True
    | Included q => cmp q (bor (fst e)) <> Gt
    | Excluded q => cmp q (bor (fst e)) = Lt \/ exists l1 x l2, l = l1 ++ x :: e :: l2 /\ cmp q (bor (fst x)) = Eq
    end.
  Definition told_last (hi : bound Q) (l : list entry) (e : entry) : Prop :=
    match hi with
    | Unbounded => True
    | Included q => cmp q (bor (fst e)) <> Lt
    | Excluded q => cmp q (bor (fst e)) = Gt \/ exists l1 x l2, l = l1 ++ e :: x :: l2 /\ cmp q (bor (fst x)) = Eq
    end.

  (** [l'] is what a range of a map with the entries [l] gives. *)
  Record told_part (lo hi : bound Q) (l l' : list entry) : Prop := {
    tp_sub : sub l' l;
    tp_prefix : lo = Unbounded -> exists r, l = l' ++ r;
    tp_suffix : hi = Unbounded -> exists r, l = r ++ l';
    tp_all : (forall e, In e l -> told_within lo hi e) -> l' = l;
    tp_first : forall e, hd_error l' = Some e -> told_first lo l e;
    tp_last : forall e, hd_error (rev l') = Some e -> told_last hi l e }.

  (** The comparison of the bounds says that they are the wrong way round. *)
  Definition told_crossed (lo hi : bound Q) : Prop :=
    match lo, hi with
    | (Included a | Excluded a), (Included b | Excluded b) => cmp b a = Lt
    | _, _ => False
    end.
  (** An entry was told to equal the excluded lower bound, and not to be below the upper one. *)
  Definition told_gap (lo hi : bound Q) (l : list entry) : Prop :=
    exists e, In e l /\
    match lo, hi with
    | Excluded a, Included b => cmp a (bor (fst e)) = Eq /\ cmp b (bor (fst e)) = Lt
    | Excluded a, Excluded b => cmp a (bor (fst e)) = Eq /\ cmp b (bor (fst e)) <> Gt
    | _, _ => False
    end.
End AnyRange.
