(** [InlineVec::clone] of [/repo/src/btree/core.rs] when the user's [clone] may panic in the middle. [FixedModel] has
    the clone that succeeds ([cell_clone]); [FixedHeapModel] has the clone of a node as one action that succeeds
    or unwinds. Here: what becomes of the entries that had been cloned. *)
From Coq Require Import List PeanoNat Bool.
From Verif Require Import Base Spec Heap BTreeHeapModel FixedModel.
Import ListNotations.
Local Open Scope nat_scope.

Section Clone.
  Context {K V : Type}.
  (** [kb i], [vb i]: the clone of the key, of the value, number [i] panics. A clone is equal to what it was made of. *)
  Variables (kb vb : nat -> bool).

  (** core.rs:213-218, from index [i] on, [n] times; the second component: a clone panicked. *)
  Fixpoint clone_loop (n i : nat) (e ret : elems K V) : res (elems K V * bool) :=
    match n with
    | O => Ok (ret, false)
    | S n' =>
      k <- slot_read (el_keys e) i;;
      if kb i then Ok (ret, true)
      else
        ks <- slot_write (el_keys ret) i k;;
        let ret1 := Elems ks (el_vals ret) (el_len ret) in
        v <- slot_read (el_vals e) i;;
        if vb i then Ok (ret1, true)
        else
          vs <- slot_write (el_vals ret) i v;;
          clone_loop n' (S i) e (Elems ks vs (el_len ret))
    end.

  (** The values in an array of slots. *)
  Definition values {A} (s : list (option A)) : list A := flat_map (fun o => match o with Some x => [x] | None => [] end) s.
  (** What was written into the arrays and is not dropped by the drop of [e], which drops the first [len] slots. *)
  Definition forgotten (e : elems K V) : list K * list V :=
    (values (skipn (el_len e) (el_keys e)), values (skipn (el_len e) (el_vals e))).

  (** core.rs:206-223 [clone]; when it unwinds [ret] is dropped (:259-263). The second component: the clones that nobody
      owns any more. *)
  Definition el_clone (e : elems K V) : res (out (elems K V) * (list K * list V)) :=
    '(ret, panicked) <- clone_loop (el_len e) 0 e el_new;;
    if (panicked : bool) then
      _ <- el_clear ret;;
      Ok (Unwound, forgotten ret)
    else
      let ret := Elems (el_keys ret) (el_vals ret) (el_len e) in
      Ok (Done ret, forgotten ret).
End Clone.
