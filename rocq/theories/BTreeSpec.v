(** Specification of when [BTreeMap::range] may be called, and of the histories
    that a [BTreeMap] supports. This file mentions nothing of the modelled
    implementation. *)
From Coq Require Import List Bool.
From Verif Require Import Base Spec MapSpec.
Import ListNotations.

Section BTreeSpec.
  Context {K V Q : Type} (bor : K -> Q) (cmp : Q -> Q -> comparison).
  Context (keq : K -> K -> bool) (veq : V -> V -> bool).
  Context (kcmp : K -> K -> comparison) (vcmp : V -> V -> comparison).

  Definition bound_key (b : bound Q) : option Q :=
    match b with Unbounded => None | Included q | Excluded q => Some q end.

  (** The start lies above the end. *)
  Definition inverted (lo hi : bound Q) : Prop :=
    exists a b, bound_key lo = Some a /\ bound_key hi = Some b /\ cmp b a = Lt.
  (** Both ends exclude the same key. *)
  Definition pinched (lo hi : bound Q) (q : Q) : Prop :=
    exists q', lo = Excluded q /\ hi = Excluded q' /\ cmp q q' = Eq.
  (** The bounds for which [range] is meant: not inverted; and if both ends exclude
      one key, that key is not in the map. *)
  Definition bounds_fine (lo hi : bound Q) (l : list (K * V)) : Prop :=
    ~ inverted lo hi /\ forall q, pinched lo hi q -> s_mem bor cmp q l = false.

  (** The calls that a [BTreeMap] offers, with bounds as above. *)
  Definition supported (st : list (list (K * V))) (o : op K V Q) : Prop :=
    match o with
    | ORemoveEntry _ _ | OUnion _ _ | OIntersect _ _ | ODiff _ _ | OSymDiff _ _ => False
    | ORange h lo hi _ => forall l, nth_error st h = Some l -> bounds_fine lo hi l
    | _ => True
    end.
  Fixpoint all_supported (st : list (list (K * V))) (os : list (op K V Q)) : Prop :=
    match os with
    | [] => True
    | o :: os' => supported st o
                  /\ all_supported (fst (s_step bor cmp keq veq kcmp vcmp st o)) os'
    end.
End BTreeSpec.
