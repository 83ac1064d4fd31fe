(** Abstract specification: ordered maps and sets as strictly ascending lists.
    This file mentions nothing of the modelled implementation. *)
From Coq Require Import List Bool Sorted ZArith.
From Verif Require Import Base.
Import ListNotations.

(** [std::ops::Bound]. *)
Inductive bound (Q : Type) : Type :=
| Unbounded
| Included (q : Q)
| Excluded (q : Q).
Arguments Unbounded {Q}.
Arguments Included {Q} q.
Arguments Excluded {Q} q.

(** Consuming a sequence from both ends: the item each call returns and how many
    items remain after it. *)
Inductive end_call := Front | Back.
Fixpoint s_ends {A} (cs : list end_call) (l : list A) : list (option A * nat) :=
  match cs with
  | [] => []
  | Front :: cs' => (hd_error l, length (tl l)) :: s_ends cs' (tl l)
  | Back :: cs' => (hd_error (rev l), length (removelast l)) :: s_ends cs' (removelast l)
  end.

(** Fibonacci numbers. *)
Fixpoint fib (n : nat) : Z :=
  match n with
  | O => 0
  | S m => match m with O => 1 | S p => fib m + fib p end
  end%Z.

Section Visit.
  Context {K V S : Type}.

  (** Calling a stateful predicate [f] on entries in the given order: per call the
      entry, the value the call left and the answer; and the final state. *)
  Fixpoint run_calls (f : S -> K -> V -> S * V * bool) (s : S) (es : list (K * V))
    : list ((K * V) * V * bool) * S :=
    match es with
    | [] => ([], s)
    | (k, v) :: es' =>
      let '(s1, v1, b) := f s k v in
      let '(outs, s2) := run_calls f s1 es' in
      (((k, v), v1, b) :: outs, s2)
    end.

  (** Updating the values of entries one after the other by a stateful visitor. *)
  Fixpoint map_state (g : S -> K -> V -> S * V) (es : list (K * V)) (s : S)
    : list (K * V) * S :=
    match es with
    | [] => ([], s)
    | (k, v) :: es' =>
      let '(s1, v') := g s k v in
      let '(es'', s2) := map_state g es' s1 in ((k, v') :: es'', s2)
    end.
End Visit.

(** The value of the [i]-th entry changed by [w]. *)
Fixpoint upd_nth {K V} (i : nat) (w : V -> V) (l : list (K * V)) : list (K * V) :=
  match l, i with
  | [], _ => []
  | (k, v) :: l', O => (k, w v) :: l'
  | e :: l', S i' => e :: upd_nth i' w l'
  end.

Section Spec.
  (** Keys [K] are compared through their borrowed form [Q] (the contract of
      [Borrow]: a key compares as its borrow does). *)
  Context {K V Q : Type} (bor : K -> Q) (cmp : Q -> Q -> comparison).

  Definition lt_q (q : Q) (e : K * V) : bool :=
    match cmp (bor (fst e)) q with Lt => true | _ => false end.
  Definition eq_q (q : Q) (e : K * V) : bool :=
    match cmp (bor (fst e)) q with Eq => true | _ => false end.
  Definition gt_q (q : Q) (e : K * V) : bool :=
    match cmp (bor (fst e)) q with Gt => true | _ => false end.

  (** Entries in strictly ascending key order. *)
  Definition ascending (l : list (K * V)) : Prop :=
    StronglySorted (fun a b => cmp (bor (fst a)) (bor (fst b)) = Lt) l.

  (** The entry stored under (a key equal to) [q]. *)
  Definition s_find (q : Q) (l : list (K * V)) : option (K * V) := find (eq_q q) l.
  Definition s_get (q : Q) (l : list (K * V)) : option V := option_map snd (s_find q l).
  Definition s_mem (q : Q) (l : list (K * V)) : bool := existsb (eq_q q) l.

  (** Insertion: [(k,v)] goes between the smaller and the greater keys; whatever
      entry had an equal key is gone. *)
  Definition s_insert (k : K) (v : V) (l : list (K * V)) : list (K * V) :=
    filter (lt_q (bor k)) l ++ (k, v) :: filter (gt_q (bor k)) l.

  Definition s_remove (q : Q) (l : list (K * V)) : list (K * V) :=
    filter (fun e => negb (eq_q q e)) l.

  (** Overwrite the value stored under [q] (the key stays). *)
  Definition s_update (q : Q) (f : V -> V) (l : list (K * V)) : list (K * V) :=
    map (fun e => if eq_q q e then (fst e, f (snd e)) else e) l.

  Definition above (lo : bound Q) (e : K * V) : bool :=
    match lo with
    | Unbounded => true
    | Included q => negb (lt_q q e)
    | Excluded q => gt_q q e
    end.
  Definition below (hi : bound Q) (e : K * V) : bool :=
    match hi with
    | Unbounded => true
    | Included q => negb (gt_q q e)
    | Excluded q => lt_q q e
    end.

  Definition s_range (lo hi : bound Q) (l : list (K * V)) : list (K * V) :=
    filter (fun e => above lo e && below hi e) l.

  Definition s_first (l : list (K * V)) : option (K * V) := hd_error l.
  Definition s_last (l : list (K * V)) : option (K * V) := hd_error (rev l).

  (** Insert a sequence of pairs, the last one for a key wins. *)
  Definition s_extend (l ps : list (K * V)) : list (K * V) :=
    fold_left (fun acc p => s_insert (fst p) (snd p) acc) ps l.

  (** Entries of [l] whose key is (not) a key of [r]. *)
  Definition s_inter (l r : list (K * V)) : list (K * V) :=
    filter (fun e => s_mem (bor (fst e)) r) l.
  Definition s_diff (l r : list (K * V)) : list (K * V) :=
    filter (fun e => negb (s_mem (bor (fst e)) r)) l.
End Spec.
