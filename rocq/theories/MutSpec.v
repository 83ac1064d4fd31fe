(** Specification of mutable iteration: a client takes references to the entries of a map from either end and writes
    through the ones it has, in any order. Nothing of the implementation is mentioned here. *)
From Coq Require Import List PeanoNat.
From Verif Require Import Base Spec.
Import ListNotations.
Local Open Scope nat_scope.

(** [next()]; [next_back()]; reading and then changing the value by [w] through the [j]-th reference received. *)
Inductive mcall (V : Type) := MNext | MBack | MWrite (j : nat) (w : V -> V).
Arguments MNext {V}.
Arguments MBack {V}.
Arguments MWrite {V} j w.

Section MutSpec.
  Context {K V Q : Type} (bor : K -> Q) (cmp : Q -> Q -> comparison).

  (** The entries are [l]; those with the indices from [i] to [k - 1] have not been handed out; [rs] are the
      indices of those that have been, in order. Each result comes with the number of entries left. *)
  Fixpoint s_muts (cs : list (mcall V)) (l : list (K * V)) (i k : nat) (rs : list nat)
    : list (option (K * V) * nat) * list (K * V) * list nat :=
    match cs with
    | [] => ([], l, rs)
    | MNext :: cs' =>
      if i <? k then
        let '(outs, l', rs') := s_muts cs' l (i + 1) k (rs ++ [i]) in ((nth_error l i, k - (i + 1)) :: outs, l', rs')
      else let '(outs, l', rs') := s_muts cs' l i k rs in ((None, 0) :: outs, l', rs')
    | MBack :: cs' =>
      if i <? k then
        let '(outs, l', rs') := s_muts cs' l i (k - 1) (rs ++ [k - 1]) in
        ((nth_error l (k - 1), (k - 1) - i) :: outs, l', rs')
      else let '(outs, l', rs') := s_muts cs' l i k rs in ((None, 0) :: outs, l', rs')
    | MWrite j w :: cs' =>
      match nth_error rs j with
      | Some x =>
        let '(outs, l', rs') := s_muts cs' (upd_nth x w l) i k rs in ((nth_error l x, k - i) :: outs, l', rs')
      | None => let '(outs, l', rs') := s_muts cs' l i k rs in ((None, k - i) :: outs, l', rs')
      end
    end.
  Definition s_outs (cs : list (mcall V)) l i k := fst (fst (s_muts cs l i k [])).
  Definition s_final (cs : list (mcall V)) l i k := snd (fst (s_muts cs l i k [])).
  Definition s_taken (cs : list (mcall V)) l i k := snd (s_muts cs l i k []).

  (** The window of a range. *)
  Definition s_lo (lo : bound Q) (l : list (K * V)) : nat := length (filter (fun e => negb (above bor cmp lo e)) l).
  Definition s_hi (lo hi : bound Q) (l : list (K * V)) : nat := s_lo lo l + length (s_range bor cmp lo hi l).
End MutSpec.

(** What a result must be: the entry; and of the two parts of [size_hint()] the first is at most the number of entries left, the
    second is that number plus [d]. *)
Definition mut_out {K V} (d : nat) (o : option (K * V) * (nat * nat)) (s : option (K * V) * nat) : Prop :=
  fst o = fst s /\ fst (snd o) <= snd s /\ snd (snd o) = snd s + d.

(** The number of ends that a bound restricts. *)
Definition bd1 {Q} (b : bound Q) : nat := match b with Unbounded => 0 | _ => 1 end.
