(** Model of the set-operation iterators of [/repo/src/lib.rs], over any iterator. *)
From Coq Require Import List Bool NArith.
From Verif Require Import Base.
Import ListNotations.

Section SetOp.
  (** The iterator [I]: its state and [next]; [left] bounds the items to come (for
      fuel only). [tcmp] is [T::cmp]. *)
  Context {I T : Type} (nxt : I -> res (option T * I)) (left : I -> nat).
  Context (tcmp : T -> T -> comparison).

  (** [std::iter::Peekable]: the iterator and a peeked result, if any. *)
  Record peekable := Peekable { pk_iter : I; pk_peeked : option (option T) }.
  Definition pk_new (i : I) : peekable := Peekable i None.
  Definition pk_peek (p : peekable) : res (option T * peekable) :=
    match pk_peeked p with
    | Some o => Ok (o, p)
    | None => '(o, i) <- nxt (pk_iter p);; Ok (o, Peekable i (Some o))
    end.
  Definition pk_next (p : peekable) : res (option T * peekable) :=
    match pk_peeked p with
    | Some o => Ok (o, Peekable (pk_iter p) None)
    | None => '(o, i) <- nxt (pk_iter p);; Ok (o, Peekable i None)
    end.
  Definition pk_left (p : peekable) : nat :=
    left (pk_iter p) + match pk_peeked p with Some (Some _) => 1 | _ => 0 end.

  (** lib.rs:78-90 [SortedMergeIter] and [new]. *)
  Definition merge_new (lhs rhs : I) : peekable * peekable := (pk_new lhs, pk_new rhs).

  (** lib.rs:92-111 [SortedMergeIter::next]. *)
  Definition merge_next (m : peekable * peekable)
    : res (option (option T * option T) * (peekable * peekable)) :=
    let '(lhs, rhs) := m in
    '(pl, lhs) <- pk_peek lhs;;
    '(pr, rhs) <- pk_peek rhs;;
    match pl, pr with
    | None, None => Ok (None, (lhs, rhs))
    | None, Some _ => '(b, rhs) <- pk_next rhs;; Ok (Some (None, b), (lhs, rhs))
    | Some _, None => '(a, lhs) <- pk_next lhs;; Ok (Some (a, None), (lhs, rhs))
    | Some x, Some y =>
      match tcmp x y with
      | Lt => '(a, lhs) <- pk_next lhs;; Ok (Some (a, None), (lhs, rhs))
      | Eq => '(a, lhs) <- pk_next lhs;; '(b, rhs) <- pk_next rhs;; Ok (Some (a, b), (lhs, rhs))
      | Gt => '(b, rhs) <- pk_next rhs;; Ok (Some (None, b), (lhs, rhs))
      end
    end.

  (** lib.rs:118-122 [KeepFlags]. *)
  Definition LeftSolo : N := 4%N.
  Definition Common : N := 2%N.
  Definition RightSolo : N := 1%N.
  Definition flag (policy f : N) : bool := negb (N.land policy f =? 0)%N.

  Definition is_some {A} (o : option A) : bool := match o with Some _ => true | None => false end.
  Definition is_none {A} (o : option A) : bool := negb (is_some o).

  (** lib.rs:132-153 [SetOpIter::next]; [fuel] bounds the rounds of the loop. *)
  Fixpoint setop_loop (fuel : nat) (policy : N) (m : peekable * peekable)
    : res (option T * (peekable * peekable)) :=
    match fuel with
    | O => Panic
    | S fuel' =>
      '(o, m) <- merge_next m;;
      match o with
      | None => Ok (None, m)
      | Some (a, b) =>
        if is_none a && flag policy RightSolo then Ok (b, m)
        else if is_none b && flag policy LeftSolo then Ok (a, m)
        else if is_some a && is_some b && flag policy Common then Ok (b, m)
        else setop_loop fuel' policy m
      end
    end.
  Definition setop_next (policy : N) (m : peekable * peekable) :=
    setop_loop (S (pk_left (fst m) + pk_left (snd m))) policy m.

  (** The results of [n] calls. *)
  Fixpoint setop_nexts (n : nat) (policy : N) (m : peekable * peekable) : res (list (option T)) :=
    match n with
    | O => Ok []
    | S n' =>
      '(o, m) <- setop_next policy m;;
      rest <- setop_nexts n' policy m;;
      Ok (o :: rest)
    end.
End SetOp.

(** avl_set.rs:453-456, btree_set.rs:384-387: the policies. *)
Definition p_difference : N := 4%N.
Definition p_intersection : N := 2%N.
Definition p_union : N := 7%N.
Definition p_symmetric_difference : N := 5%N.
