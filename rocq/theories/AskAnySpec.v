(** What the calls of a map may do if the user's [Ord] is no order, has a state and may panic: [ask] is any function. As in
    AnyOrdSpec.v, but what a call was told is what it was told by its own comparisons. *)
From Coq Require Import List PeanoNat Permutation.
From Verif Require Import Base Ask AskSpec.
Import ListNotations.
Local Open Scope nat_scope.

Section AskAny.
  Context {K V Q : Type} (bor : K -> Q) (ask : nat -> Q -> Q -> option comparison).
  Notation entry := (K * V)%type.

  (** One of the comparisons number [n], ..., [n' - 1] was of [q] with the key of [e], either way round, and gave [Equal]. *)
  Definition said (n n' : nat) (q : Q) (e : entry) : Prop :=
    exists i, n <= i < n' /\ (ask i q (bor (fst e)) = Some Eq \/ ask i (bor (fst e)) q = Some Eq).

  Section Told.
    Context (told : Q -> entry -> Prop).
    (** [get]: nothing, or an entry that is there. *)
    Definition may_get (q : Q) (l : list entry) (r : option V) : Prop :=
      match r with
      | None => True
      | Some v => exists e, In e l /\ told q e /\ v = snd e
      end.
    (** [get_mut], and what the caller does through the reference. *)
    Definition may_get_mut (q : Q) (w : V -> V) (l l' : list entry) (r : option V) : Prop :=
      match r with
      | None => l' = l
      | Some v => exists l1 e l2, l = l1 ++ e :: l2 /\ l' = l1 ++ (fst e, w (snd e)) :: l2 /\ told q e /\ v = snd e
      end.
    (** [insert]: the entry is added somewhere, or takes the place of another. *)
    Definition may_insert (k : K) (v : V) (l l' : list entry) (r : option V) : Prop :=
      match r with
      | None => exists l1 l2, l = l1 ++ l2 /\ l' = l1 ++ (k, v) :: l2
      | Some old => exists l1 e l2, l = l1 ++ e :: l2 /\ l' = l1 ++ (k, v) :: l2 /\ told (bor k) e /\ old = snd e
      end.
    (** [remove]: nothing is changed, or one entry is gone. *)
    Definition may_remove (q : Q) (l l' : list entry) (r : option entry) : Prop :=
      match r with
      | None => l' = l
      | Some e => exists l1 l2, l = l1 ++ e :: l2 /\ l' = l1 ++ l2 /\ told q e
      end.
    Definition may_remove_val (q : Q) (l l' : list entry) (r : option V) : Prop :=
      exists o, may_remove q l l' o /\ r = option_map snd o.
    (** [extend] by some of the pairs. *)
    Fixpoint may_extend (ps : list entry) (l l' : list entry) : Prop :=
      match ps with
      | [] => l' = l
      | (k, v) :: ps' => exists l1 r, may_insert k v l l1 r /\ may_extend ps' l1 l'
      end.
    (** Merging [a] with [b]: some entries of [a] are paired with some of [b], all of them told to be equal; [only_a] and
        [only_b] are the others. *)
    Definition may_pair (a b only_a only_b : list entry) (both : list (entry * entry)) : Prop :=
      Permutation a (only_a ++ map fst both) /\ Permutation b (only_b ++ map snd both)
      /\ Forall (fun p => told (bor (fst (fst p))) (snd p)) both.
  End Told.

  (** [split_off] as a loop over the entries [l]: each goes to [lo] or to [hi] as its comparison with [q], one of those
      number [n], ..., [n' - 1], told. *)
  Fixpoint may_part (n n' : nat) (q : Q) (l lo hi : list entry) : Prop :=
    match l with
    | [] => lo = [] /\ hi = []
    | e :: l' =>
      exists i c, n <= i < n' /\ ask i q (bor (fst e)) = Some c
      /\ match c with
         | Gt => exists lo', lo = e :: lo' /\ may_part n n' q l' lo' hi
         | _ => exists hi', hi = e :: hi' /\ may_part n n' q l' lo hi'
         end
    end.

  (** A call made after [n0] comparisons does not fault. If it returns, after [n] comparisons, [ok] holds; if it unwinds, a
      comparison did, and [un] holds of the argument. *)
  Definition copes {S R} (n0 : nat) (t : trial S R) (ok : S -> R -> nat -> Prop) (un : S -> Prop) : Prop :=
    match t with
    | Returned s r n => n0 <= n /\ ok s r n
    | Unwound s n => n0 < n /\ panicked ask n /\ un s
    | Fault => False
    end.
  (** The same if [un] also depends on the number of comparisons made. *)
  Definition copes_n {S R} (n0 : nat) (t : trial S R) (ok : S -> R -> nat -> Prop) (un : S -> nat -> Prop) : Prop :=
    match t with
    | Returned s r n => n0 <= n /\ ok s r n
    | Unwound s n => n0 < n /\ panicked ask n /\ un s n
    | Fault => False
    end.
End AskAny.
