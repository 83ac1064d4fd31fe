(** A heap of reference-counted cells: the behaviour of [std::rc::Rc] and
    [std::sync::Arc] that the crate relies on ([new], [clone], [drop], [make_mut],
    [try_unwrap], [get_mut]; weak pointers are never made).

    Addresses are never reused, so the number of allocations is the number of
    cells ever made. A use after free is the error value [Panic], which theorems
    exclude. A cell holds a payload (the data fields) and the pointers to other cells.
    [clones] records every payload that was cloned. User [Clone]
    implementations return an equal value, or panic: [bomb n = true] says that the
    clone number [n] panics. *)
From Coq Require Import List Arith Bool Lia.
From Verif Require Import Base.
Import ListNotations.
Open Scope nat_scope.

Definition addr := nat.
Definition ptr := option addr.
Definition olist (p : ptr) : list addr := match p with Some a => [a] | None => [] end.
Definition olists (ps : list ptr) : list addr := flat_map olist ps.

Record node (P : Type) := Nd { nd_data : P; nd_kids : list ptr }.
Arguments Nd {P} nd_data nd_kids.
Arguments nd_data {P} n.
Arguments nd_kids {P} n.

Record heap (P : Type) := Heap { cells : list (option (nat * node P)); clones : list P }.
Arguments Heap {P} cells clones.
Arguments cells {P} h.
Arguments clones {P} h.

(** What a pointer stands for. *)
Inductive vt (P : Type) := VN | VT (d : P) (ks : list (vt P)).
Arguments VN {P}.
Arguments VT {P} d ks.

Section Heap.
  Context {P : Type}.
  Notation node := (node P).
  Notation heap := (heap P).
  Notation vt := (vt P).

  Definition empty_heap : heap := Heap [] [].

  Definition get (h : heap) (a : addr) : option (nat * node) :=
    match nth_error (cells h) a with Some (Some c) => Some c | _ => None end.

  Fixpoint upd {A} (i : nat) (x : A) (l : list A) : list A :=
    match l, i with
    | [], _ => []
    | _ :: l', O => x :: l'
    | y :: l', S i' => y :: upd i' x l'
    end.
  Definition put (h : heap) (a : addr) (c : option (nat * node)) : heap :=
    Heap (upd a c (cells h)) (clones h).
  Definition log (h : heap) (d : P) : heap := Heap (cells h) (d :: clones h).

  (** [Rc::new] / [Arc::new]. *)
  Definition alloc (h : heap) (n : node) : heap * addr :=
    (Heap (cells h ++ [Some (1, n)]) (clones h), length (cells h)).

  (** [Rc::clone]; of an [Option<Rc<_>>]; of several. *)
  Definition inc (h : heap) (p : ptr) : res heap :=
    match p with
    | None => Ok h
    | Some a => match get h a with
                | Some (c, n) => Ok (put h a (Some (S c, n)))
                | None => Panic
                end
    end.
  Fixpoint incs (h : heap) (ps : list ptr) : res heap :=
    match ps with
    | [] => Ok h
    | p :: ps' => h' <- inc h p;; incs h' ps'
    end.

  (** Drop of pointers: a cell whose count reaches zero is freed and its own pointers
      are dropped, before the remaining ones. *)
  Definition out_ptrs (c : option (nat * node)) : list addr :=
    match c with Some (_, n) => olists (nd_kids n) | None => [] end.
  Definition ptrs (h : heap) : list addr := flat_map out_ptrs (cells h).
  Definition kid_slots (c : option (nat * node)) : nat :=
    match c with Some (_, n) => length (nd_kids n) | None => 0 end.
  Definition slots (h : heap) : nat := fold_right (fun c s => kid_slots c + s) 0 (cells h).

  Fixpoint drops_fuel (fuel : nat) (h : heap) (ps : list ptr) : res heap :=
    match fuel with
    | O => Panic
    | S fuel' =>
      match ps with
      | [] => Ok h
      | None :: ps' => drops_fuel fuel' h ps'
      | Some a :: ps' =>
        match get h a with
        | Some (1, n) => drops_fuel fuel' (put h a None) (nd_kids n ++ ps')
        | Some (S (S c), n) => drops_fuel fuel' (put h a (Some (S c, n))) ps'
        | _ => Panic
        end
      end
    end.
  Definition drops (h : heap) (ps : list ptr) : res heap := drops_fuel (S (length ps + slots h)) h ps.
  Definition drop (h : heap) (p : ptr) : res heap := drops h [p].

  (** The decrement of a counter that must not reach zero (the other owner keeps
      the cell alive). *)
  Definition dec (h : heap) (a : addr) : res heap :=
    match get h a with
    | Some (S (S c), n) => Ok (put h a (Some (S c, n)))
    | _ => Panic
    end.

  (** Taking the contents out of a uniquely owned cell: [Rc::try_unwrap] in the
      [Ok] case, and the start of an in-place update. *)
  Definition take (h : heap) (a : addr) : res (heap * node) :=
    match get h a with
    | Some (1, n) => Ok (put h a None, n)
    | _ => Panic
    end.
  (** The end of an in-place update: the same cell with new contents. *)
  Definition give (h : heap) (a : addr) (n : node) : heap := put h a (Some (1, n)).

  Definition unique (h : heap) (a : addr) : bool :=
    match get h a with Some (1, _) => true | _ => false end.

  (** [make_mut]: a shared cell is replaced by a copy. [None]: the user's clone
      panicked, nothing else happened. *)
  Definition make_mut (bomb : nat -> bool) (h : heap) (a : addr) : res (heap * option addr) :=
    match get h a with
    | None => Panic
    | Some (1, _) => Ok (h, Some a)
    | Some (_, n) =>
      if bomb (length (clones h)) then Ok (log h (nd_data n), None)
      else
        h1 <- incs (log h (nd_data n)) (nd_kids n);;
        let '(h2, a') := alloc h1 n in
        h3 <- dec h2 a;;
        Ok (h3, Some a')
    end.

  (** ** Meaning of pointers *)
  Inductive den (h : heap) : ptr -> vt -> Prop :=
  | den_nil : den h None VN
  | den_node a c n ts : get h a = Some (c, n) -> dens h (nd_kids n) ts ->
                        den h (Some a) (VT (nd_data n) ts)
  with dens (h : heap) : list ptr -> list vt -> Prop :=
  | dens_nil : dens h [] []
  | dens_cons p ps t ts : den h p t -> dens h ps ts -> dens h (p :: ps) (t :: ts).

  Scheme den_mut := Minimality for den Sort Prop
    with dens_mut := Minimality for dens Sort Prop.
  Combined Scheme den_dens_ind from den_mut, dens_mut.

  (** ** Exact counts: [O] are the pointers held outside the heap. *)
  Definition cnt (a : addr) (l : list addr) : nat := count_occ Nat.eq_dec l a.
  Definition wf (h : heap) (O : list addr) : Prop :=
    forall a, match get h a with
              | Some (c, _) => c = cnt a (O ++ ptrs h) /\ 1 <= c
              | None => cnt a (O ++ ptrs h) = 0
              end.

  (** What an operation leaves alone: whatever the pointers in [O] stand for;
      addresses that are dead stay dead; allocation only grows. *)
  Definition frame (O : list addr) (h h' : heap) : Prop :=
    (forall q t, incl (olist q) O -> den h q t -> den h' q t)
    /\ (forall a, get h a = None -> a < length (cells h) -> get h' a = None)
    /\ length (cells h) <= length (cells h').
End Heap.
