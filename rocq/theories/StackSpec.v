(** What the properties of [Stack] talk about: the sequence of elements a handle shows, from
    top to bottom, and how much of it the handle does not share. *)
From Coq Require Import List Arith Bool.
From Verif Require Import Base Heap HeapProofs StackModel.
Import ListNotations.
Open Scope nat_scope.

Section StackSpec.
  Context {T : Type}.
  Notation heap := (heap T).

  Fixpoint chain (l : list T) : vt T :=
    match l with [] => VN | x :: l' => VT x [chain l'] end.

  (** The handle [s] shows the elements [l], the top first. *)
  Definition shows (h : heap) (s : stk) (l : list T) : Prop :=
    slen s = length l /\ den h (selems s) (chain l).

  (** The heap is sound when the pointers held outside are exactly [O]: each count is
      the number of pointers to the cell, and there are no cycles. *)
  Definition sound (h : heap) (O : list addr) : Prop := wf h O /\ acyclic h.

  (** The number of cells, among the first [n] from [p], before the first one that has
      a second owner. *)
  Fixpoint lead (n : nat) (h : heap) (p : ptr) : nat :=
    match n, p with
    | S n', Some a => match get h a with
                      | Some (1, nd) => S (lead n' h (rest nd))
                      | _ => 0
                      end
    | _, _ => 0
    end.

  (** Bottom-up view. *)
  Definition removed (l : list T) (i : nat) : list T :=
    let b := rev l in rev (firstn i b ++ skipn (S i) b).
  Definition bottom (l : list T) (i : nat) : list T := rev (firstn i (rev l)).
  Definition above (l : list T) (i : nat) : list T := rev (skipn i (rev l)).

  (** [write fs l]: the first elements of [l] with the functions [fs] applied. *)
  Fixpoint write (fs : list (T -> T)) (l : list T) : list T :=
    match fs, l with
    | f :: fs', x :: l' => f x :: write fs' l'
    | _, _ => l
    end.
  (** What [n] calls of [next] return. *)
  Fixpoint nexts (n : nat) (l : list T) : list (option T) :=
    match n with
    | O => []
    | S n' => match l with
              | [] => None :: nexts n' []
              | x :: l' => Some x :: nexts n' l'
              end
    end.

  (** ** Many handles: [w] lists what each live handle shows. *)
  Inductive sobs :=
  | VUnit | VOpt (x : option T) | VVal (x : T) | VNat (n : nat) | VBool (b : bool)
  | VCmp (c : comparison) | VItems (xs : list (option T)).

  Inductive sop :=
  | ONew | OFrom (vs : list T) | OClone (i : nat) | OPush (i : nat) (v : T) | OPop (i : nat)
  | OTop (i : nat) | OTopMut (i : nat) (f : T -> T) | OLen (i : nat) | OIsEmpty (i : nat)
  | OClear (i : nat) | ODrop (i : nat) | OIter (i n : nat) | OIterMut (i : nat) (fs : list (T -> T))
  | ORemove (i at_ : nat) | OSplitOff (i at_ : nat) | OContains (i : nat) (x : T)
  | OEq (i j : nat) | OCmp (i j : nat) | OExtend (i : nat) (vs : list T) | OInto (i n : nat).

  Definition world := list (option (list T)).
  Definition on (w : world) (i : nat) (r : out sobs) (w' : world) (f : list T -> Prop) : Prop :=
    match nth i w None with
    | None => r = Done VUnit /\ w' = w
    | Some l => f l
    end.

  Fixpoint leqb (eqb : T -> T -> bool) (l r : list T) : bool :=
    match l, r with
    | [], [] => true
    | x :: l', y :: r' => eqb x y && leqb eqb l' r'
    | _, _ => false
    end.
  Fixpoint lcmp (c : T -> T -> comparison) (l r : list T) : comparison :=
    match l, r with
    | [], [] => Eq
    | [], _ :: _ => Lt
    | _ :: _, [] => Gt
    | x :: l', y :: r' => match c x y with Eq => lcmp c l' r' | o => o end
    end.

  (** One call with outcome [r] takes [w] to [w']. When the user's [clone] panics
      ([Unwound]) the handle may have lost the element that was being taken out;
      nothing else changes. *)
  Definition sp (eqb : T -> T -> bool) (c : T -> T -> comparison) (o : sop) (w : world) (r : out sobs) (w' : world) : Prop :=
    match o with
    | ONew => r = Done VUnit /\ w' = w ++ [Some []]
    | OFrom vs => r = Done VUnit /\ w' = w ++ [Some (rev vs)]
    | OClone i => on w i r w' (fun l => r = Done VUnit /\ w' = w ++ [Some l])
    | OPush i v => on w i r w' (fun l => r = Done VUnit /\ w' = upd i (Some (v :: l)) w)
    | OPop i => on w i r w' (fun l =>
        (r = Done (VOpt (hd_error l)) \/ r = Unwound /\ l <> []) /\ w' = upd i (Some (tl l)) w)
    | OTop i => on w i r w' (fun l => r = Done (VOpt (hd_error l)) /\ w' = w)
    | OTopMut i f => on w i r w' (fun l =>
        r = Done (VOpt (hd_error l)) /\ w' = upd i (Some (write [f] l)) w \/ r = Unwound /\ w' = w)
    | OLen i => on w i r w' (fun l => r = Done (VNat (length l)) /\ w' = w)
    | OIsEmpty i => on w i r w' (fun l => r = Done (VBool (match l with [] => true | _ => false end)) /\ w' = w)
    | OClear i => on w i r w' (fun l => r = Done VUnit /\ w' = upd i (Some []) w)
    | ODrop i => on w i r w' (fun l => r = Done VUnit /\ w' = upd i None w)
    | OIter i n => on w i r w' (fun l => r = Done (VItems (nexts n l)) /\ w' = w)
    | OIterMut i fs => on w i r w' (fun l =>
        r = Done (VItems (nexts (length fs) l)) /\ w' = upd i (Some (write fs l)) w
        \/ exists n, r = Unwound /\ n < length fs /\ n < length l /\ w' = upd i (Some (write (firstn n fs) l)) w)
    | ORemove i at_ => on w i r w' (fun l =>
        match nth_error (rev l) at_ with
        | None => r = IndexPanic /\ w' = w
        | Some x => (r = Done (VVal x) \/ r = Unwound) /\ w' = upd i (Some (removed l at_)) w
                    \/ r = Unwound /\ w' = w
        end)
    | OSplitOff i at_ => on w i r w' (fun l =>
        if length l <? at_ then r = IndexPanic /\ w' = w
        else r = Done VUnit /\ w' = upd i (Some (bottom l at_)) w ++ [Some (above l at_)]
             \/ r = Unwound /\ w' = w)
    | OContains i x => on w i r w' (fun l => r = Done (VBool (existsb (eqb x) l)) /\ w' = w)
    | OEq i j => on w i r w' (fun l => on w j r w' (fun l2 => r = Done (VBool (leqb eqb l l2)) /\ w' = w))
    | OCmp i j => on w i r w' (fun l => on w j r w' (fun l2 => r = Done (VCmp (lcmp c l l2)) /\ w' = w))
    | OExtend i vs => on w i r w' (fun l => r = Done VUnit /\ w' = upd i (Some (rev vs ++ l)) w)
    | OInto i n => on w i r w' (fun l =>
        (r = Done (VItems (nexts n l)) \/ r = Unwound /\ l <> []) /\ w' = upd i None w)
    end.

  Inductive sps eqb c : list sop -> world -> list (out sobs) -> world -> Prop :=
  | sps_nil w : sps eqb c [] w [] w
  | sps_cons o os w r w1 rs w2 : sp eqb c o w r w1 -> sps eqb c os w1 rs w2 ->
                                 sps eqb c (o :: os) w (r :: rs) w2.
End StackSpec.

(** The same calls on the model: the handles are numbered in the order they were made; a
    call on a handle that does not exist (any more), which Rust's types exclude, does
    nothing. *)
Section StackRun.
  Context {T : Type} (bomb : nat -> bool) (eqb : T -> T -> bool) (c : T -> T -> comparison).
  Notation heap := (heap T).
  Notation sobs := (@sobs T).
  Notation sop := (@sop T).

  Definition st : Type := heap * list (option stk).
  Definition omap {A B} (f : A -> B) (o : out A) : out B :=
    match o with Done a => Done (f a) | IndexPanic => IndexPanic | Unwound => Unwound end.
  Definition at_handle (x : st) (i : nat) (f : stk -> res (st * out sobs)) : res (st * out sobs) :=
    match nth i (snd x) None with
    | None => Ok (x, Done VUnit)
    | Some s => f s
    end.

  Definition step (x : st) (o : sop) : res (st * out sobs) :=
    let '(h, hs) := x in
    match o with
    | ONew => Ok ((h, hs ++ [Some s_new]), Done VUnit)
    | OFrom vs => let '(h1, s1) := s_from_iter h vs in Ok ((h1, hs ++ [Some s1]), Done VUnit)
    | OClone i => at_handle x i (fun s =>
        '(h1, s1) <- s_clone h s;; Ok ((h1, hs ++ [Some s1]), Done VUnit))
    | OPush i v => at_handle x i (fun s =>
        let '(h1, s1) := s_push h s v in Ok ((h1, upd i (Some s1) hs), Done VUnit))
    | OPop i => at_handle x i (fun s =>
        '(h1, s1, o) <- s_pop bomb h s;; Ok ((h1, upd i (Some s1) hs), omap VOpt o))
    | OTop i => at_handle x i (fun s => v <- s_top h s;; Ok (x, Done (VOpt v)))
    | OTopMut i f => at_handle x i (fun s =>
        '(h1, s1, o) <- s_top_mut bomb h s f;; Ok ((h1, upd i (Some s1) hs), omap VOpt o))
    | OLen i => at_handle x i (fun s => Ok (x, Done (VNat (s_len s))))
    | OIsEmpty i => at_handle x i (fun s => Ok (x, Done (VBool (s_is_empty s))))
    | OClear i => at_handle x i (fun s =>
        '(h1, s1) <- s_clear h s;; Ok ((h1, upd i (Some s1) hs), Done VUnit))
    | ODrop i => at_handle x i (fun s => h1 <- s_drop h s;; Ok ((h1, upd i None hs), Done VUnit))
    | OIter i n => at_handle x i (fun s => xs <- s_iter h s n;; Ok (x, Done (VItems xs)))
    | OIterMut i fs => at_handle x i (fun s =>
        '(h1, s1, xs, ok) <- s_iter_mut bomb h s fs;;
        Ok ((h1, upd i (Some s1) hs), if ok then Done (VItems xs) else Unwound))
    | ORemove i at_ => at_handle x i (fun s =>
        '(h1, s1, o) <- s_remove bomb h s at_;; Ok ((h1, upd i (Some s1) hs), omap VVal o))
    | OSplitOff i at_ => at_handle x i (fun s =>
        '(h1, s1, o) <- s_split_off bomb h s at_;;
        match o with
        | Done t => Ok ((h1, upd i (Some s1) hs ++ [Some t]), Done VUnit)
        | IndexPanic => Ok ((h1, upd i (Some s1) hs), IndexPanic)
        | Unwound => Ok ((h1, upd i (Some s1) hs), Unwound)
        end)
    | OContains i v => at_handle x i (fun s => b <- s_contains eqb h s v;; Ok (x, Done (VBool b)))
    | OEq i j => at_handle x i (fun s => at_handle x j (fun t =>
        b <- s_eq eqb h s t;; Ok (x, Done (VBool b))))
    | OCmp i j => at_handle x i (fun s => at_handle x j (fun t =>
        r <- s_cmp c h s t;; Ok (x, Done (VCmp r))))
    | OExtend i vs => at_handle x i (fun s =>
        let '(h1, s1) := s_extend h s vs in Ok ((h1, upd i (Some s1) hs), Done VUnit))
    | OInto i n => at_handle x i (fun s =>
        '(h1, xs, ok) <- into_run bomb n h s;;
        Ok ((h1, upd i None hs), if ok then Done (VItems xs) else Unwound))
    end.

  Fixpoint run (x : st) (os : list sop) : res (st * list (out sobs)) :=
    match os with
    | [] => Ok (x, [])
    | o :: os' => '(x1, r) <- step x o;; '(x2, rs) <- run x1 os';; Ok (x2, r :: rs)
    end.

  (** The pointers of the live handles. *)
  Definition held (hs : list (option stk)) : list addr :=
    flat_map (fun o => match o with Some s => olist (selems s) | None => [] end) hs.
  (** The handles show the world [w]. *)
  Definition shown (h : heap) (hs : list (option stk)) (w : world) : Prop :=
    Forall2 (fun o l => match o, l with
                        | Some s, Some l => shows h s l
                        | None, None => True
                        | _, _ => False
                        end) hs w.
End StackRun.
