(** Calls whose comparisons may panic. The user's [Ord::cmp] is asked many times in a call; the [n]-th question since the
    program started is answered by [ask n], which may depend on [n] (the implementation may have a state) and is [None] if
    the implementation panics. *)
From Coq Require Import List PeanoNat.
From Verif Require Import Base.
Import ListNotations.

(** What a call with a [&mut] argument does. [Returned s r n]: it returns [r], the argument is now [s], and [n] questions
    have been asked since the start. [Unwound s n]: the last question panicked (or a closure of the user's), and unwinding left the argument as [s].
    [Fault]: the code itself panicked (or did something undefined); then nothing is said about the argument. Calls with no
    such argument have [s : unit]. *)
Inductive trial (S R : Type) : Type :=
| Returned (s : S) (r : R) (n : nat)
| Unwound (s : S) (n : nat)
| Fault.
Arguments Returned {S R} s r n.
Arguments Unwound {S R} s n.
Arguments Fault {S R}.

(** A part that asks nothing. *)
Definition plain {S R} (m : res (S * R)) (n : nat) : trial S R :=
  match m with Ok (s, r) => Returned s r n | Panic => Fault end.
(** Call [t] and then [f]. [back] says what the caller's argument is if [t] unwinds. *)
Definition after {S R S' R'} (t : trial S R) (back : S -> S') (f : S -> R -> nat -> trial S' R') : trial S' R' :=
  match t with
  | Returned s r n => f s r n
  | Unwound s n => Unwound (back s) n
  | Fault => Fault
  end.
(** One question. [here] is what the argument is at that point. *)
Definition question {Q S R} (ask : nat -> Q -> Q -> option comparison) (n : nat) (a b : Q) (here : S)
  (f : comparison -> nat -> trial S R) : trial S R :=
  match ask n a b with
  | None => Unwound here (1 + n)
  | Some c => f c (1 + n)
  end.
