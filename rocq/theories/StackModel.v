(** [Stack<T>], /repo/src/stack.rs: a length and a list of [Rc] cells.

    A function of the crate takes the heap and the handle and returns the new heap and
    handle. There are two kinds of panics:
    - [out] says how the call ended for the caller: with a value, by the documented
      [panic!] of an index, or unwound because the user's [T::clone] panicked ([bomb]);
      in each case the heap and the handle are those that the caller is left with;
    - [Panic] of [res] is what must not happen at all: use after free, an
      [unwrap] of [None], subtraction below zero, a drop that recurses, a loop that
      does not end.

    Simplified: [len] is an unbounded natural number; [T]'s drop does not panic; the
    values written through [&mut T] are given as functions of the old value. *)
From Coq Require Import List Arith Bool.
From Verif Require Import Base Heap.
Import ListNotations.
Open Scope nat_scope.

Inductive out (A : Type) := Done (a : A) | IndexPanic | Unwound.
Arguments Done {A} a.
Arguments IndexPanic {A}.
Arguments Unwound {A}.

Record stk := Stk { slen : nat; selems : ptr }.

Section StackModel.
  Context {T : Type}.
  Variable bomb : nat -> bool.
  Notation heap := (heap T).

  (** [List { elem, rest }], stack.rs:8-12: the cell's payload is [elem], its only
      pointer is [rest]. *)
  Definition rest (n : node T) : ptr := hd None (nd_kids n).

  (** [new], stack.rs:120-125; [default], stack.rs:496-500. *)
  Definition s_new : stk := Stk 0 None.

  (** [derive(Clone)], stack.rs:43. *)
  Definition s_clone (h : heap) (s : stk) : res (heap * stk) :=
    h1 <- inc h (selems s);; Ok (h1, s).

  (** [push], stack.rs:206-212. *)
  Definition s_push (h : heap) (s : stk) (v : T) : heap * stk :=
    let '(h1, a) := alloc h (Nd v [selems s]) in (h1, Stk (slen s + 1) (Some a)).

  (** [top], stack.rs:227-229. *)
  Definition s_top (h : heap) (s : stk) : res (option T) :=
    match selems s with
    | None => Ok None
    | Some a => match get h a with Some (_, n) => Ok (Some (nd_data n)) | None => Panic end
    end.

  (** [top_mut], stack.rs:249-254, and a write [f] through the reference; the old
      value is returned. *)
  Definition s_top_mut (h : heap) (s : stk) (f : T -> T) : res (heap * stk * out (option T)) :=
    match selems s with
    | None => Ok (h, s, Done None)
    | Some a =>
      '(h1, r) <- make_mut bomb h a;;
      match r with
      | None => Ok (h1, s, Unwound)
      | Some a1 =>
        '(h2, n) <- take h1 a1;;
        Ok (give h2 a1 (Nd (f (nd_data n)) (nd_kids n)), Stk (slen s) (Some a1), Done (Some (nd_data n)))
      end
    end.

  (** The end of [pop] and of [remove]: [Rc::try_unwrap] on the pointer taken out of a
      link; the new link. In the [Err] case the element is cloned after the link is
      set, and the pointer is dropped last (also when unwinding).
      stack.rs:267-277, 391-402. *)
  Definition unlink (h : heap) (a : addr) : res (heap * ptr * out T) :=
    match get h a with
    | None => Panic
    | Some (1, _) =>
      '(h1, n) <- take h a;;
      Ok (h1, rest n, Done (nd_data n))
    | Some (_, n) =>
      h1 <- inc h (rest n);;
      h2 <- dec (log h1 (nd_data n)) a;;
      Ok (h2, rest n, if bomb (length (clones h1)) then Unwound else Done (nd_data n))
    end.

  (** [pop], stack.rs:257-280; [IntoIter::next], stack.rs:106-108. *)
  Definition s_pop (h : heap) (s : stk) : res (heap * stk * out (option T)) :=
    match selems s with
    | None => Ok (h, s, Done None)
    | Some a =>
      len1 <- usize_sub (slen s) 1;;
      '(h1, p, o) <- unlink h a;;
      Ok (h1, Stk len1 p, match o with Done v => Done (Some v) | IndexPanic => IndexPanic | Unwound => Unwound end)
    end.

  (** [len], stack.rs:291-293; [is_empty], stack.rs:344-346. *)
  Definition s_len (s : stk) : nat := slen s.
  Definition s_is_empty (s : stk) : bool := slen s =? 0.

  (** Drop of a pointer that must not reach a further cell. *)
  Definition drop_flat (h : heap) (p : ptr) : res heap :=
    match p with
    | None => Ok h
    | Some a =>
      match get h a with
      | Some (1, n) => match rest n with None => Ok (put h a None) | Some _ => Panic end
      | Some (S (S c), n) => Ok (put h a (Some (S c, n)))
      | _ => Panic
      end
    end.

  (** [clear], stack.rs:306-314; [Drop::drop], stack.rs:502-506. The loop runs at most
      [len] times; assigning to [hd] drops the previous pointer. *)
  Fixpoint clear_loop (fuel : nat) (h : heap) (hd : ptr) : res heap :=
    match fuel with
    | O => Panic
    | S fuel' =>
      match hd with
      | None => Ok h
      | Some a =>
        match get h a with
        | Some (1, n) =>
          (* hd = next.rest.take() *)
          let h1 := put h a (Some (1, Nd (nd_data n) [None])) in
          h2 <- drop_flat h1 (Some a);;
          clear_loop fuel' h2 (rest n)
        | _ => drop_flat h (Some a)
        end
      end
    end.
  Definition s_clear (h : heap) (s : stk) : res (heap * stk) :=
    h1 <- clear_loop (S (slen s)) h (selems s);; Ok (h1, Stk 0 None).
  Definition s_drop (h : heap) (s : stk) : res heap :=
    '(h1, _) <- s_clear h s;; Ok h1.

  (** [Iter::next], stack.rs:64-73; [n] calls. *)
  Definition it_next (h : heap) (p : ptr) : res (option T * ptr) :=
    match p with
    | None => Ok (None, None)
    | Some a => match get h a with Some (_, n) => Ok (Some (nd_data n), rest n) | None => Panic end
    end.
  Fixpoint it_run (n : nat) (h : heap) (p : ptr) : res (list (option T)) :=
    match n with
    | O => Ok []
    | S n' => '(x, p1) <- it_next h p;; xs <- it_run n' h p1;; Ok (x :: xs)
    end.
  (** [iter], stack.rs:157-159. *)
  Definition s_iter (h : heap) (s : stk) (n : nat) : res (list (option T)) := it_run n h (selems s).

  (** [iter_mut], stack.rs:189-193, and one call of [IterMut::next], stack.rs:90-96, for
      each of the writes [fs], through the reference that the call returns. The
      references do not overlap, so it does not matter when the writes happen. The
      items returned are the values before the writes. *)
  Fixpoint im_run (fs : list (T -> T)) (h : heap) (p : ptr) : res (heap * ptr * list (option T) * bool) :=
    match fs with
    | [] => Ok (h, p, [], true)
    | f :: fs' =>
      match p with
      | None => '(h1, p1, xs, ok) <- im_run fs' h None;; Ok (h1, p1, None :: xs, ok)
      | Some a =>
        '(h1, r) <- make_mut bomb h a;;
        match r with
        | None => Ok (h1, p, [], false)
        | Some a1 =>
          '(h2, n) <- take h1 a1;;
          '(h3, p3, xs, ok) <- im_run fs' h2 (rest n);;
          Ok (give h3 a1 (Nd (f (nd_data n)) [p3]), Some a1, Some (nd_data n) :: xs, ok)
        end
      end
    end.
  (** The flag is false when the run was cut short by a panic of [T::clone]. *)
  Definition s_iter_mut (h : heap) (s : stk) (fs : list (T -> T)) : res (heap * stk * list (option T) * bool) :=
    '(h1, p, xs, ok) <- im_run fs h (selems s);; Ok (h1, Stk (slen s) p, xs, ok).

  (** [remove], stack.rs:367-403. [rm_at] is the walk over the links and the final
      [match]; [NotYet]: unwound in the walk, before [len] is decremented. *)
  Inductive rm_out := Gone (o : out T) | NotYet.
  Fixpoint rm_at (at_ : nat) (h : heap) (p : ptr) : res (heap * ptr * rm_out) :=
    match p with
    | None => Panic
    | Some a =>
      match at_ with
      | O => '(h1, p1, o) <- unlink h a;; Ok (h1, p1, Gone o)
      | S at' =>
        '(h1, r) <- make_mut bomb h a;;
        match r with
        | None => Ok (h1, p, NotYet)
        | Some a1 =>
          '(h2, n) <- take h1 a1;;
          '(h3, p3, o) <- rm_at at' h2 (rest n);;
          Ok (give h3 a1 (Nd (nd_data n) [p3]), Some a1, o)
        end
      end
    end.
  Definition s_remove (h : heap) (s : stk) (at_ : nat) : res (heap * stk * out T) :=
    if slen s <=? at_ then Ok (h, s, IndexPanic)
    else
      at1 <- usize_sub (slen s) 1;;
      at2 <- usize_sub at1 at_;;
      '(h1, p, o) <- rm_at at2 h (selems s);;
      match o with
      | NotYet => Ok (h1, Stk (slen s) p, Unwound)
      | Gone o' => len1 <- usize_sub (slen s) 1;; Ok (h1, Stk len1 p, o')
      end.

  (** [split_off], stack.rs:426-473. [cut] is the walk to the link and the [take]; it
      returns the upper part and the severed lower part ([None] when unwound). *)
  Fixpoint cut (at_ : nat) (h : heap) (p : ptr) : res (heap * ptr * option ptr) :=
    match at_ with
    | O => Ok (h, None, Some p)
    | S at' =>
      match p with
      | None => Panic
      | Some a =>
        '(h1, r) <- make_mut bomb h a;;
        match r with
        | None => Ok (h1, p, None)
        | Some a1 =>
          '(h2, n) <- take h1 a1;;
          '(h3, p3, b) <- cut at' h2 (rest n);;
          Ok (give h3 a1 (Nd (nd_data n) [p3]), Some a1, b)
        end
      end
    end.
  Definition s_split_off (h : heap) (s : stk) (at_ : nat) : res (heap * stk * out stk) :=
    if slen s <? at_ then Ok (h, s, IndexPanic)
    else if at_ =? 0 then Ok (h, Stk 0 None, Done (Stk (slen s) (selems s)))
    else if at_ =? slen s then Ok (h, s, Done s_new)
    else
      at1 <- usize_sub (slen s) at_;;
      bot <- usize_sub (slen s) at1;;
      '(h1, top, b) <- cut at1 h (selems s);;
      match b with
      | None => Ok (h1, Stk (slen s) top, Unwound)
      | Some bp => Ok (h1, Stk bot bp, Done (Stk at1 top))
      end.

  (** [contains], stack.rs:326-331. *)
  Fixpoint it_any (fuel : nat) (h : heap) (p : ptr) (f : T -> bool) : res bool :=
    match fuel with
    | O => Panic
    | S fuel' =>
      '(x, p1) <- it_next h p;;
      match x with
      | None => Ok false
      | Some y => if f y then Ok true else it_any fuel' h p1 f
      end
    end.
  Definition s_contains (eqb : T -> T -> bool) (h : heap) (s : stk) (x : T) : res bool :=
    it_any (S (slen s)) h (selems s) (eqb x).

  (** [==], stack.rs:531-536: [zip] takes from the left first. *)
  Fixpoint zip_all (fuel : nat) (h : heap) (p q : ptr) (f : T -> T -> bool) : res bool :=
    match fuel with
    | O => Panic
    | S fuel' =>
      '(x, p1) <- it_next h p;;
      match x with
      | None => Ok true
      | Some a =>
        '(y, q1) <- it_next h q;;
        match y with
        | None => Ok true
        | Some b => if f a b then zip_all fuel' h p1 q1 f else Ok false
        end
      end
    end.
  Definition s_eq (eqb : T -> T -> bool) (h : heap) (s t : stk) : res bool :=
    if slen s =? slen t then zip_all (S (slen s)) h (selems s) (selems t) eqb else Ok false.

  (** [partial_cmp], stack.rs:540-570, for a [T] whose [partial_cmp] may be [None]. *)
  Fixpoint pc_loop (fuel : nat) (pc : T -> T -> option comparison) (h : heap) (p q : ptr)
    : res (option comparison) :=
    match fuel with
    | O => Panic
    | S fuel' =>
      '(x, p1) <- it_next h p;;
      '(y, q1) <- it_next h q;;
      match x, y with
      | Some a, Some b =>
        match pc a b with
        | Some Eq => pc_loop fuel' pc h p1 q1
        | r => Ok r
        end
      | None, Some _ => Ok (Some Lt)
      | Some _, None => Ok (Some Gt)
      | None, None => Ok (Some Eq)
      end
    end.
  Definition s_partial_cmp (pc : T -> T -> option comparison) (h : heap) (s t : stk) : res (option comparison) :=
    pc_loop (S (slen s)) pc h (selems s) (selems t).
  (** [cmp], stack.rs:573-577: the standard [Iterator::cmp], which asks the left
      iterator first. *)
  Fixpoint c_loop (fuel : nat) (c : T -> T -> comparison) (h : heap) (p q : ptr) : res comparison :=
    match fuel with
    | O => Panic
    | S fuel' =>
      '(x, p1) <- it_next h p;;
      match x with
      | None => '(y, _) <- it_next h q;; Ok (match y with None => Eq | Some _ => Lt end)
      | Some a =>
        '(y, q1) <- it_next h q;;
        match y with
        | None => Ok Gt
        | Some b => match c a b with Eq => c_loop fuel' c h p1 q1 | r => Ok r end
        end
      end
    end.
  Definition s_cmp (c : T -> T -> comparison) (h : heap) (s t : stk) : res comparison :=
    c_loop (S (slen s)) c h (selems s) (selems t).

  (** [extend], stack.rs:596-600; [from_iter] and [From<Vec>], stack.rs:603-615. *)
  Fixpoint s_extend (h : heap) (s : stk) (vs : list T) : heap * stk :=
    match vs with
    | [] => (h, s)
    | v :: vs' => let '(h1, s1) := s_push h s v in s_extend h1 s1 vs'
    end.
  Definition s_from_iter (h : heap) (vs : list T) : heap * stk := s_extend h s_new vs.

  (** [IntoIter]: [n] calls of [next] (stack.rs:99-109), then the iterator is dropped,
      and with it the rest of the stack. The flag is false when a clone panicked: the
      iterator is then dropped by the unwinding. *)
  Fixpoint into_run (n : nat) (h : heap) (s : stk) : res (heap * list (option T) * bool) :=
    match n with
    | O => h1 <- s_drop h s;; Ok (h1, [], true)
    | S n' =>
      '(h1, s1, o) <- s_pop h s;;
      match o with
      | Done x => '(h2, xs, ok) <- into_run n' h1 s1;; Ok (h2, x :: xs, ok)
      | _ => h2 <- s_drop h1 s1;; Ok (h2, [], false)
      end
    end.
End StackModel.
