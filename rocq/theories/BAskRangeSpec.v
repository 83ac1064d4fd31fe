(** What [range] of the B-tree map may give if the user's [Ord] has a state and may panic: as [BAnyRangeSpec.told_part], but
    what was told was told by the call's own comparisons, those number [n], ..., [n' - 1]. *)
From Coq Require Import List PeanoNat.
From Verif Require Import Base Spec AvlHeapSpec.
Import ListNotations.
Local Open Scope nat_scope.

Section BAskRange.
  Context {K V Q : Type} (bor : K -> Q) (ask : nat -> Q -> Q -> option comparison).
  Notation entry := (K * V)%type.

  (** A comparison of the call told that [q] compares as [c] to the key of [e]. *)
  Definition asked (n n' : nat) (q : Q) (e : entry) (c : comparison) : Prop := exists j, n <= j < n' /\ ask j q (bor (fst e)) = Some c.
  (** Never told to be elsewhere than strictly between the bounds. *)
  Definition asked_within (n n' : nat) (lo hi : bound Q) (e : entry) : Prop :=
    match lo with Unbounded => True | Included q | Excluded q => forall c, asked n n' q e c -> c = Lt end /\
    match hi with Unbounded => True | Included q | Excluded q => forall c, asked n n' q e c -> c = Gt end.
  (** The first entry was told to be above the lower bound, or it follows one that was told to equal an excluded bound. *)
  Definition asked_first (n n' : nat) (lo : bound Q) (l : list entry) (e : entry) : Prop :=
    match lo with
    | Unbounded => True
    | Included q => asked n n' q e Lt \/ asked n n' q e Eq
    | Excluded q => asked n n' q e Lt \/ exists l1 x l2, l = l1 ++ x :: e :: l2 /\ asked n n' q x Eq
    end.
  Definition asked_last (n n' : nat) (hi : bound Q) (l : list entry) (e : entry) : Prop :=
    match hi with
    | Unbounded => True
    | Included q => asked n n' q e Gt \/ asked n n' q e Eq
    | Excluded q => asked n n' q e Gt \/ exists l1 x l2, l = l1 ++ e :: x :: l2 /\ asked n n' q x Eq
    end.

  (** [l'] is what a range of a map with the entries [l] gives. *)
  Record asked_part (n n' : nat) (lo hi : bound Q) (l l' : list entry) : Prop := {
    ap_sub : sub l' l;
    ap_prefix : lo = Unbounded -> exists r, l = l' ++ r;
    ap_suffix : hi = Unbounded -> exists r, l = r ++ l';
    ap_all : (forall e, In e l -> asked_within n n' lo hi e) -> l' = l;
    ap_first : forall e, hd_error l' = Some e -> asked_first n n' lo l e;
    ap_last : forall e, hd_error (rev l') = Some e -> asked_last n n' hi l e }.

  (** Comparison number [n] is that of the bounds; it says that they are the wrong way round. *)
  Definition asked_crossed (n : nat) (lo hi : bound Q) : Prop :=
    match lo, hi with
    | (Included a | Excluded a), (Included b | Excluded b) => ask n b a = Some Lt
    | _, _ => False
    end.
  (** An entry was told to equal the excluded lower bound, and not to be below the upper one. *)
  Definition asked_gap (n n' : nat) (lo hi : bound Q) (l : list entry) : Prop :=
    exists e, In e l /\
    match lo, hi with
    | Excluded a, Included b => asked n n' a e Eq /\ asked n n' b e Lt
    | Excluded a, Excluded b => asked n n' a e Eq /\ (asked n n' b e Lt \/ asked n n' b e Eq)
    | _, _ => False
    end.
End BAskRange.
