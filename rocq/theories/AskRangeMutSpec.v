(** What a client of [range_mut] of an [AvlMap] sees if the user's [Ord] answers anything: as [BAskRangeMutSpec], with the [len()] of
    this iterator. *)
From Coq Require Import List PeanoNat.
From Verif Require Import Base Spec MapSpec MutSpec Heap HeapProofs AvlModel AvlHeapModel AvlHeapSpec AnyHeapSpec.
From Verif Require BAskRangeMutSpec.
Import ListNotations.
Local Open Scope nat_scope.

Section Picks.
  Context {K V : Type}.
  Notation heap := (heap (pay K V)).
  Notation s_picks := (@BAskRangeMutSpec.s_picks K V).
  (** The map [m] in [h'] shows [l], and the pointers [O] of other maps stand for what they did in [h]. *)
  Definition still (O : list addr) (h h' : heap) (m : hmap) (l : list (K * V)) : Prop :=
    sound h' (olist (hm_root m) ++ O) /\ frame O h h' /\ hany h' m l.
  (** After a client that makes the calls [cs], of which [length outs] returned: those gave the right results, each with a [len()]
      that is the number of entries left plus [d]; the map has the values written, the pointers [O] of other maps stand for what
      they did. Calls fail to return only after a panic of the user's [clone]. *)
  Definition picks_ok (bomb : nat -> bool) (O : list addr) (h : heap) (cs : list (mcall V)) (l : list (K * V)) (xs : list nat)
    (d : nat) (h' : heap) (m : hmap) (outs : list (option (K * V) * nat)) (b : bool) : Prop :=
    still O h h' m (snd (s_picks (firstn (length outs) cs) l xs []))
    /\ outs = map (fun s => (fst s, snd s + d)) (fst (s_picks (firstn (length outs) cs) l xs []))
    /\ if b then length outs = length cs else exists n, bomb n = true.
End Picks.
