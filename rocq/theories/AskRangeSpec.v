(** What [range] may give if the user's [Ord] has a state and may panic: as [AnyHeapSpec.told_range], but what was told was
    told by the call's own comparisons, those number [n], ..., [n' - 1]. *)
From Coq Require Import List PeanoNat.
From Verif Require Import Base Spec AvlHeapSpec.
Import ListNotations.
Local Open Scope nat_scope.

Section AskRange.
  Context {I Q : Type} (key : I -> Q) (ask : nat -> Q -> Q -> option comparison) (lo hi : bound Q).

  (** Told to be in the range. *)
  Definition ask_in (n n' : nat) (i : I) : Prop :=
    match lo with
    | Unbounded => True
    | Included q => exists j c, n <= j < n' /\ ask j q (key i) = Some c /\ c <> Gt
    | Excluded q => exists j, n <= j < n' /\ ask j q (key i) = Some Lt
    end /\
    match hi with
    | Unbounded => True
    | Included q => exists j c, n <= j < n' /\ ask j (key i) q = Some c /\ c <> Gt
    | Excluded q => exists j, n <= j < n' /\ ask j (key i) q = Some Lt
    end.
  (** Never told to be elsewhere than strictly between the bounds. *)
  Definition ask_mid (n n' : nat) (i : I) : Prop :=
    forall j c, n <= j < n' ->
    match lo with
    | Unbounded => True
    | Included q | Excluded q => ask j q (key i) = Some c -> c = Lt
    end /\
    match hi with
    | Unbounded => True
    | Included q | Excluded q => (ask j (key i) q = Some c -> c = Lt) /\ (ask j q (key i) = Some c -> c = Gt)
    end.
  (** A part of the items in their order; both ends were told to be in the range; everything if all was told to be inside. *)
  Definition ask_range (n n' : nat) (l l' : list I) : Prop :=
    sub l' l /\ ((forall i, In i l -> ask_mid n n' i) -> l' = l)
    /\ forall i, hd_error l' = Some i \/ hd_error (rev l') = Some i -> ask_in n n' i.
End AskRange.
