(** Owning iteration over a [fixed::BTreeMap] whose nodes may be shared: [/repo/src/btree/core.rs] :1083-1333
    ([OwnedOrLeased], [NodeIntoIter], [InnerIter], [new_into_iter]) on the heap of [FixedHeapModel].

    A node that [Arc::try_unwrap] found unshared is held by value: its arrays are in the iterator
    ([XOwned]). What [assume_init_read] moves out of a slot is no longer there: the slot is set to [None],
    so that a second read of it, or its drop, is a [Panic]. *)
From Coq Require Import List PeanoNat Bool.
From Verif Require Import Base Spec Vec Heap BTreeHeapModel FixedModel FixedIterModel FixedHeapModel.
Import ListNotations.
Local Open Scope nat_scope.

Section FixedHeapInto.
  Context {K V : Type}.
  Variable bomb : nat -> bool.
  Notation elems := (elems K V).
  Notation okids := (option (kids addr)).
  Notation cell := (elems * okids)%type.
  Notation heap := (heap cell).
  Notation entry := (K * V)%type.

  (** core.rs:1083-1086 [enum OwnedOrLeased]. *)
  Inductive xnode := XOwned (e : elems) (d : okids) | XLeased (a : addr).

  (** core.rs:1088-1094 [struct NodeIntoIter]. *)
  Record xiter := XIter { x_n : xnode; x_elem : nat; x_end_elems : nat; x_kid : nat; x_end_kids : nat }.

  (** core.rs:1197-1211 [NodeIntoIter::new]. *)
  Definition x_new (h : heap) (n : xnode) : res xiter :=
    '(e, d) <- match n with
               | XOwned e d => Ok (e, d)
               | XLeased a => match get h a with Some (_, c) => Ok (nd_data c) | None => Panic end
               end;;
    kids <- match d with Some b => l <- live (kd_ptrs b) (kd_len b);; Ok (length l) | None => Ok 0 end;;
    Ok (XIter n 0 (el_len e) 0 kids).

  (** core.rs:1121-1124, 1328-1331 [Arc::try_unwrap]. *)
  Definition x_unwrap (h : heap) (a : addr) : res (heap * xnode) :=
    if unique h a then
      '(h1, n) <- take h a;; Ok (h1, XOwned (fst (nd_data n)) (snd (nd_data n)))
    else Ok (h, XLeased a).

  (** core.rs:1110-1116: the child is moved out of its slot, or its [Arc] is cloned. *)
  Definition x_kid_at (h : heap) (n : xnode) (x : nat) : res (heap * xnode * addr) :=
    match n with
    | XOwned e d =>
      b <- unwrap d;;
      c <- slot_read (kd_ptrs b) x;;
      Ok (h, XOwned e (Some (Kids (set_at x None (kd_ptrs b)) (kd_len b))), c)
    | XLeased a =>
      match get h a with
      | None => Panic
      | Some (_, m) =>
        o <- fchild (snd (nd_data m)) x;;
        c <- unwrap o;;
        h1 <- inc h (Some c);;
        Ok (h1, n, c)
      end
    end.
  (** core.rs:1126-1136: the entry is moved out of its slots, or it is cloned, which is logged and may panic
      (in the clone of the key, or in that of the value; then the new key is dropped). *)
  Definition x_elem_at (h : heap) (n : xnode) (x : nat) : res (heap * xnode * out entry) :=
    match n with
    | XOwned e d =>
      k <- slot_read (el_keys e) x;;
      v <- slot_read (el_vals e) x;;
      Ok (h, XOwned (Elems (set_at x None (el_keys e)) (set_at x None (el_vals e)) (el_len e)) d, Done (k, v))
    | XLeased a =>
      e <- fpeek h a;;
      kv <- el_get e x;;
      one <- el_push el_new kv;;
      let h1 := log h (one, None) in
      if bomb (length (clones h)) then Ok (h1, n, Unwound) else Ok (h1, n, Done kv)
    end.

  (** core.rs:1103-1143 [next]. *)
  Definition x_next (h : heap) (i : xiter) : res (heap * xiter * out (option (iter_action entry xnode))) :=
    if (x_kid i <? x_end_kids i) && (x_kid i <=? x_elem i) then
      '(h1, n1, c) <- x_kid_at h (x_n i) (x_kid i);;
      '(h2, n2) <- x_unwrap h1 c;;
      Ok (h2, XIter n1 (x_elem i) (x_end_elems i) (x_kid i + 1) (x_end_kids i), Done (Some (Descend n2)))
    else if x_elem i <? x_end_elems i then
      '(h1, n1, o) <- x_elem_at h (x_n i) (x_elem i);;
      match o with
      | Unwound => Ok (h1, XIter n1 (x_elem i) (x_end_elems i) (x_kid i) (x_end_kids i), Unwound)
      | Done kv =>
        Ok (h1, XIter n1 (x_elem i + 1) (x_end_elems i) (x_kid i) (x_end_kids i), Done (Some (Return kv)))
      end
    else Ok (h, i, Done None).

  (** core.rs:1216-1237 [drop], and the drop of the fields: of an owned node the entries and the children that
      are left are dropped in place (the entries are returned); the lengths are then 0, so that the arrays drop
      nothing more. A leased node is let go. *)
  Definition x_drop (h : heap) (i : xiter) : res (heap * list entry) :=
    match x_n i with
    | XLeased a => h1 <- drop h (Some a);; Ok (h1, [])
    | XOwned e d =>
      let cnt := x_end_elems i - x_elem i in
      ks <- read_range (el_keys e) (x_elem i) cnt;;
      vs <- read_range (el_vals e) (x_elem i) cnt;;
      cs <- match d with
            | None => Ok []
            | Some b => read_range (kd_ptrs b) (x_kid i) (x_end_kids i - x_kid i)
            end;;
      h1 <- drops h (map Some cs);;
      Ok (h1, combine ks vs)
    end.

  (** core.rs:1263-1281 [InnerIter::next]. [fuel] bounds the rounds of the loop. The last component: the entries
      that are dropped with the node iterators that are popped. *)
  Notation result := (res (heap * f_iter xiter * out (option entry) * list entry)).
  Fixpoint x_next_loop (fuel : nat) (h : heap) (w : list xiter) (len : nat) : result :=
    match w with
    | [] => Ok (h, FIter [] len, Done None, [])
    | i :: w' =>
      match fuel with
      | O => Panic
      | S fuel' =>
        '(h1, i', o) <- x_next h i;;
        match o with
        | Unwound => Ok (h1, FIter (i' :: w') len, Unwound, [])
        | Done (Some (Return kv)) => len' <- usize_sub len 1;; Ok (h1, FIter (i' :: w') len', Done (Some kv), [])
        | Done (Some (Descend n)) => j <- x_new h1 n;; x_next_loop fuel' h1 (j :: i' :: w') len
        | Done None =>
          '(h2, es) <- x_drop h1 i';;
          '(h3, it, r, es') <- x_next_loop fuel' h2 w' len;;
          Ok (h3, it, r, es ++ es')
        end
      end
    end.
  (** core.rs:1285-1303 [InnerIter::next_back]. *)
  Fixpoint x_back_loop (fuel : nat) (h : heap) (w : list xiter) (len : nat) : result :=
    match vec_pop w with
    | None => Ok (h, FIter [] len, Done None, [])
    | Some (i, w') =>
      match fuel with
      | O => Panic
      | S fuel' =>
        '(h1, i', o) <- x_next h i;;
        match o with
        | Unwound => Ok (h1, FIter (w' ++ [i']) len, Unwound, [])
        | Done (Some (Return kv)) => len' <- usize_sub len 1;; Ok (h1, FIter (w' ++ [i']) len', Done (Some kv), [])
        | Done (Some (Descend n)) => j <- x_new h1 n;; x_back_loop fuel' h1 ((w' ++ [i']) ++ [j]) len
        | Done None =>
          '(h2, es) <- x_drop h1 i';;
          '(h3, it, r, es') <- x_back_loop fuel' h2 w' len;;
          Ok (h3, it, r, es ++ es')
        end
      end
    end.
  Definition x_fuel (h : heap) (it : f_iter xiter) : nat := S (length (fi_work it) + length (cells h)).
  Definition xi_next (h : heap) (it : f_iter xiter) : result := x_next_loop (x_fuel h it) h (fi_work it) (fi_len it).
  Definition xi_next_back (h : heap) (it : f_iter xiter) : result := x_back_loop (x_fuel h it) h (fi_work it) (fi_len it).

  (** The drop of the iterator: of its node iterators, front first. *)
  Fixpoint x_drops (h : heap) (w : list xiter) : res (heap * list entry) :=
    match w with
    | [] => Ok (h, [])
    | i :: w' => '(h1, es) <- x_drop h i;; '(h2, es') <- x_drops h1 w';; Ok (h2, es ++ es')
    end.
  Definition xi_drop (h : heap) (it : f_iter xiter) : res (heap * list entry) := x_drops h (fi_work it).

  (** fixed.rs:148-155 [into_iter]; core.rs:1323-1333 [new_into_iter], :1246-1257 [InnerIter::new]. *)
  Definition fh_into_iter (h : heap) (m : fhmap) : res (heap * f_iter xiter) :=
    match fh_root m with
    | None => Ok (h, FIter [] (fh_len m))
    | Some a => '(h1, n) <- x_unwrap h a;; i <- x_new h1 n;; Ok (h1, FIter [i] (fh_len m))
    end.

  (** A client that calls [next] and [next_back] in any order, looks at [len] (core.rs:1306-1310) after each call,
      goes on if a call has unwound, and drops the iterator in the end. *)
  Fixpoint xi_calls (h : heap) (it : f_iter xiter) (cs : list end_call)
    : res (heap * f_iter xiter * list (out (option entry) * nat) * list entry) :=
    match cs with
    | [] => Ok (h, it, [], [])
    | c :: cs' =>
      '(h1, it1, o, es) <- match c with Front => xi_next h it | Back => xi_next_back h it end;;
      '(h2, it2, os, es') <- xi_calls h1 it1 cs';;
      Ok (h2, it2, (o, fi_len it1) :: os, es ++ es')
    end.
  Definition fh_into_calls (h : heap) (m : fhmap) (cs : list end_call)
    : res (heap * list (out (option entry) * nat) * list entry) :=
    '(h1, it) <- fh_into_iter h m;;
    '(h2, it2, os, es) <- xi_calls h1 it cs;;
    '(h3, es') <- xi_drop h2 it2;;
    Ok (h3, os, es ++ es').
End FixedHeapInto.
Arguments xnode K V : clear implicits.
Arguments xiter K V : clear implicits.
