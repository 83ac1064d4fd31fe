(** What the properties of [iter_mut] on shared fixed [BTreeMap]s talk about. *)
From Coq Require Import List PeanoNat.
From Verif Require Import Base Spec Heap BTreeHeapModel MutSpec.
Import ListNotations.
Local Open Scope nat_scope.

Section FixedHeapMutSpec.
  Context {K V : Type}.
  Variable bomb : nat -> bool.
  Notation entry := (K * V)%type.
  Notation results := (list (out (option entry) * nat)).

  (** A client makes the calls [cs] and gets the results [outs]. The entries are [l], and are [l'] in the end; [todo]:
      the indices of those that have not been handed out, in the order in which they will be; [rs]: of those that
      have been; [n]: the [len()] of the iterator. A call of [next()] or [next_back()] hands out the first entry of
      [todo]; or it unwinds, which only happens if the user's [clone] panics, and then some entries, this one among
      them, are lost to the iteration, and are still counted by [len()]. *)
  Fixpoint walks (cs : list (mcall V)) (outs : results) (l : list entry) (todo rs : list nat) (n : nat) (l' : list entry) : Prop :=
    match cs, outs with
    | [], [] => l' = l
    | MWrite j w :: cs', o :: outs' =>
      match nth_error rs j with
      | Some x => o = (Done (nth_error l x), n) /\ walks cs' outs' (upd_nth x w l) todo rs n l'
      | None => o = (Done None, n) /\ walks cs' outs' l todo rs n l'
      end
    | _ :: cs', (Done (Some e), k) :: outs' =>
      exists x todo', todo = x :: todo' /\ nth_error l x = Some e /\ n = S k /\ walks cs' outs' l todo' (rs ++ [x]) k l'
    | _ :: cs', (Done None, k) :: outs' => todo = [] /\ k = n /\ walks cs' outs' l [] rs n l'
    | _ :: cs', (Unwound, k) :: outs' =>
      (exists b, bomb b = true) /\ k = n
      /\ exists lost todo', todo = lost ++ todo' /\ lost <> [] /\ walks cs' outs' l todo' rs n l'
    | _, _ => False
    end.

  (** The calls are at one end only. *)
  Definition one_end (cs : list (mcall V)) : Prop := ~ In MBack cs \/ ~ In MNext cs.

  (** The keys of the entries that came out, and for a call that unwound some key of the map [l]. *)
  Definition tried (l : list entry) : results -> list (list K) -> Prop :=
    Forall2 (fun o ks => match fst o with
                         | Done (Some e) => ks = [fst e]
                         | Done None => ks = []
                         | Unwound => exists e, In e l /\ ks = [fst e]
                         end).
End FixedHeapMutSpec.
