(** The entry API with comparisons that may answer anything and may panic, and with closures that may panic. *)
From Coq Require Import List PeanoNat.
From Verif Require Import Base Spec Ask AskSpec AskAnySpec.
Import ListNotations.

Section EntryAsk.
  Context {K V Q : Type} (bor : K -> Q) (ask : nat -> Q -> Q -> option comparison).
  Notation entry := (K * V)%type.
  Section Told.
    Context (told : Q -> entry -> Prop).
    (** [and_modify]: nothing, or the closure [f] was called on the value of an entry that is there. [good] says whether it
        returned. *)
    Definition may_modify (k : K) (f : V -> V * bool) (l l' : list entry) (good : bool) : Prop :=
      exists r, may_get_mut told (bor k) (fun v => fst (f v)) l l' r
        /\ match r with Some v => snd (f v) = good | None => good = true end.
    (** [or_insert], and what the caller does through the reference. Either an entry was told to be there, or the value [f]
        was inserted; then the reference is one to the value of an entry. *)
    Definition may_or_insert (k : K) (f : option V) (w : V -> V) (l l' : list entry) (x : V) : Prop :=
      exists l1, (l1 = l /\ (exists e, In e l /\ told (bor k) e) \/ exists v r, f = Some v /\ may_insert bor told k v l l1 r)
        /\ may_get_mut told (bor k) w l1 l' (Some x).
  End Told.
  (** The answers contradict each other or the order in [l]: no total preorder gives them for which [l] ascends. *)
  Definition contrary (l : list entry) : Prop :=
    forall cmp, order_laws cmp -> answers cmp ask -> ~ ascending bor cmp l.
End EntryAsk.
