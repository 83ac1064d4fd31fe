(** Terms for properties of calls whose comparisons may panic. *)
From Coq Require Import List PeanoNat ZArith.
From Verif Require Import Base AvlModel AvlIterModel Ask.
Import ListNotations.
Local Open Scope nat_scope.

Section AskSpec.
  Context {Q : Type}.
  (** Whenever it answers at all, it answers as [cmp]. *)
  Definition answers (cmp : Q -> Q -> comparison) (ask : nat -> Q -> Q -> option comparison) : Prop :=
    forall n a b c, ask n a b = Some c -> c = cmp a b.
  (** The last of the first [n] questions panicked. *)
  Definition panicked (ask : nat -> Q -> Q -> option comparison) (n : nat) : Prop :=
    exists i a b, n = S i /\ ask i a b = None.

  (** A call made after [n0] questions does not fault; it asks at most [most]; if it returns, [ok] holds of the argument and
      the result; if it unwinds, a question did, and [un] holds of the argument. *)
  Definition fares {S R} (ask : nat -> Q -> Q -> option comparison) (n0 most : nat) (t : trial S R)
    (ok : S -> R -> Prop) (un : S -> Prop) : Prop :=
    match t with
    | Returned s r n => n0 <= n <= n0 + most /\ ok s r
    | Unwound s n => n0 < n <= n0 + most /\ panicked ask n /\ un s
    | Fault => False
    end.
  (** It does what [m] says if it returns. If it unwinds, the argument is [s0]. *)
  Definition tries {S R} (ask : nat -> Q -> Q -> option comparison) (n0 most : nat) (s0 : S) (m : res (S * R))
    (t : trial S R) : Prop :=
    match t with
    | Returned s r n => n0 <= n <= n0 + most /\ m = Ok (s, r)
    | Unwound s n => n0 < n <= n0 + most /\ panicked ask n /\ s = s0
    | Fault => m = Panic
    end.
End AskSpec.

(** [2 ^ most <= (len + 1) ^ 2]: at most twice the logarithm of the length. *)
Definition log_bound {A} (l : list A) (most : nat) : Prop := (2 ^ Z.of_nat most <= (Z.of_nat (length l) + 1) ^ 2)%Z.
(** [levels] nodes on the way down, if each has at least [per] children. *)
Definition level_bound {A} (l : list A) (per levels : nat) : Prop := per ^ levels <= length l + 1.
(** A node of the array-based map has up to 11 keys: they are searched one by one if they are small, else by halves. *)
Definition per_node (small_key : bool) : nat := if small_key then 11 else 4.
(** What is left of an AVL map whose root was taken: no entry, but the old [len]. *)
Definition emptied {K V} (m m' : avl_map K V) : Prop := avl_collect m' = Ok [] /\ avl_len m' = avl_len m.
(** A closure of [retain] that does not panic. *)
Definition quiet {K V S} (f : S -> K -> V -> S * V * option bool) : S -> K -> V -> S * V * bool :=
  fun s k v => let '(s1, v1, o) := f s k v in (s1, v1, match o with Some b => b | None => false end).
