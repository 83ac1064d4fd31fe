(** Model of the iterators of [/repo/src/btree/core.rs]: the worklist iterator
    [InnerIter] over the node iterators [NodeIter] (borrowed) and [NodeIntoIter]
    (owning). *)
From Coq Require Import List PeanoNat Bool.
From Verif Require Import Base Spec Vec FixedModel.
Import ListNotations.

(** core.rs:962-965 [enum IterAction]. *)
Inductive iter_action (E C : Type) : Type := Return (e : E) | Descend (c : C).
Arguments Return {E C} e.
Arguments Descend {E C} c.

(** core.rs:967-971 [trait NodeIterator]: [new], [next], [next_back]. [na_fuel] bounds the
    rounds of the loops in [InnerIter] that can start at a node iterator; running
    out of fuel is a [Panic] that the theorems exclude. *)
Record node_ops (E C I : Type) := NodeOps {
  na_new : C -> res I;
  na_next : I -> res (option (iter_action E C) * I);
  na_next_back : I -> res (option (iter_action E C) * I);
  na_fuel : I -> nat }.
Arguments na_new {E C I}.
Arguments na_next {E C I}.
Arguments na_next_back {E C I}.
Arguments na_fuel {E C I}.

(** core.rs:1239-1243 [struct InnerIter]; the [VecDeque] is a list, front first. *)
Record f_iter (I : Type) := FIter { fi_work : list I; fi_len : nat }.
Arguments FIter {I} fi_work fi_len.
Arguments fi_work {I} f.
Arguments fi_len {I} f.

Section Inner.
  Context {E C I : Type} (ops : node_ops E C I).

  Definition fuel_of (w : list I) : nat := S (fold_right (fun i n => na_fuel ops i + n) 0 w).

  (** core.rs:1246-1257 [InnerIter::new]. *)
  Definition fi_new (root : option C) (len : nat) : res (f_iter I) :=
    match root with
    | Some c => i <- na_new ops c;; Ok (FIter [i] len)
    | None => Ok (FIter [] len)
    end.

  (** core.rs:1263-1281 [next]. *)
  Fixpoint next_loop (fuel : nat) (w : list I) (len : nat) : res (option E * f_iter I) :=
    match w with
    | [] => Ok (None, FIter [] len)
    | i :: w' =>
      match fuel with
      | O => Panic
      | S fuel' =>
        '(a, i') <- na_next ops i;;
        match a with
        | Some (Return e) => len' <- usize_sub len 1;; Ok (Some e, FIter (i' :: w') len')
        | Some (Descend c) => j <- na_new ops c;; next_loop fuel' (j :: i' :: w') len
        | None => next_loop fuel' w' len
        end
      end
    end.
  Definition fi_next (it : f_iter I) : res (option E * f_iter I) :=
    next_loop (fuel_of (fi_work it)) (fi_work it) (fi_len it).

  (** core.rs:1285-1303 [next_back]: it works at the back of the queue and calls the
      node iterator's [next]. *)
  Fixpoint next_back_loop (fuel : nat) (w : list I) (len : nat) : res (option E * f_iter I) :=
    match vec_pop w with
    | None => Ok (None, FIter [] len)
    | Some (i, w') =>
      match fuel with
      | O => Panic
      | S fuel' =>
        '(a, i') <- na_next ops i;;
        match a with
        | Some (Return e) => len' <- usize_sub len 1;; Ok (Some e, FIter (w' ++ [i']) len')
        | Some (Descend c) => j <- na_new ops c;; next_back_loop fuel' ((w' ++ [i']) ++ [j]) len
        | None => next_back_loop fuel' w' len
        end
      end
    end.
  Definition fi_next_back (it : f_iter I) : res (option E * f_iter I) :=
    next_back_loop (fuel_of (fi_work it)) (fi_work it) (fi_len it).

  (** A client that calls [next] and [next_back] in any order and looks at [len]
      (core.rs:1306-1310) after each call. *)
  Fixpoint fi_run (cs : list end_call) (it : f_iter I) : res (list (option E * nat) * f_iter I) :=
    match cs with
    | [] => Ok ([], it)
    | c :: cs' =>
      '(x, it1) <- match c with Front => fi_next it | Back => fi_next_back it end;;
      '(l, it2) <- fi_run cs' it1;;
      Ok ((x, fi_len it1) :: l, it2)
    end.
End Inner.

Section NodeIter.
  Context {K V : Type}.
  Notation fnode := (fnode K V).
  Notation fmap := (f_map K V).

  (** The nodes below and including a node. *)
  Fixpoint fn_size (n : fnode) : nat :=
    match n with
    | FNode _ d =>
      S (match d with
         | Some (Kids ps _) =>
           fold_right (fun o s => match o with Some c => fn_size c | None => 0 end + s) 0 ps
         | None => 0
         end)
    end.

  (** core.rs:973-980 [struct NodeIter]; the slice iterators are lists. *)
  Record node_iter := NodeIter {
    ni_keys : list K;
    ni_vals : list V;
    ni_kids : list fnode;
    ni_elem : bool;
    ni_back_elem : bool }.

  (** core.rs:1037-1052 [NodeIterRef::new]; :1061-1080 [NodeIterMut::new] is the same on
      mutable slices. *)
  Definition ni_new (n : fnode) : res node_iter :=
    match n with
    | FNode e d =>
      kids <- match d with Some b => live (kd_ptrs b) (kd_len b) | None => Ok [] end;;
      ks <- live (el_keys e) (el_len e);;
      vs <- live (el_vals e) (el_len e);;
      Ok (NodeIter ks vs kids (is_nil kids) (is_nil kids))
    end.

  (** core.rs:990-1000 [next]. *)
  Definition ni_next (i : node_iter) : res (option (iter_action (K * V) fnode) * node_iter) :=
    if ni_elem i then
      let el := is_nil (ni_kids i) in
      match ni_keys i, ni_vals i with
      | [], vs => Ok (None, NodeIter [] vs (ni_kids i) el (ni_back_elem i))
      | k :: ks, [] => Ok (None, NodeIter ks [] (ni_kids i) el (ni_back_elem i))
      | k :: ks, v :: vs => Ok (Some (Return (k, v)), NodeIter ks vs (ni_kids i) el (ni_back_elem i))
      end
    else
      match ni_kids i with
      | [] => Ok (None, NodeIter (ni_keys i) (ni_vals i) [] true (ni_back_elem i))
      | c :: cs => Ok (Some (Descend c), NodeIter (ni_keys i) (ni_vals i) cs true (ni_back_elem i))
      end.

  (** core.rs:1009-1019 [next_back]. *)
  Definition ni_next_back (i : node_iter) : res (option (iter_action (K * V) fnode) * node_iter) :=
    if ni_back_elem i then
      let el := is_nil (ni_kids i) in
      match vec_pop (ni_keys i), vec_pop (ni_vals i) with
      | None, _ => Ok (None, NodeIter [] (ni_vals i) (ni_kids i) (ni_elem i) el)
      | Some (k, ks), None => Ok (None, NodeIter ks [] (ni_kids i) (ni_elem i) el)
      | Some (k, ks), Some (v, vs) => Ok (Some (Return (k, v)), NodeIter ks vs (ni_kids i) (ni_elem i) el)
      end
    else
      match vec_pop (ni_kids i) with
      | None => Ok (None, NodeIter (ni_keys i) (ni_vals i) [] (ni_elem i) true)
      | Some (c, cs) => Ok (Some (Descend c), NodeIter (ni_keys i) (ni_vals i) cs (ni_elem i) true)
      end.

  Definition borrowed : node_ops (K * V) fnode node_iter :=
    NodeOps _ _ _ ni_new ni_next ni_next_back
      (fun i => S (fold_right (fun c s => 2 * fn_size c + s) 0 (ni_kids i))).

  (** fixed.rs:79-84 [iter]. *)
  Definition fixed_iter (m : fmap) : res (f_iter node_iter) := fi_new borrowed (fm_root m) (fm_len m).

  (** ** The owning iterator *)

  (** core.rs:1083-1086 [enum OwnedOrLeased]. *)
  Inductive owned_or_leased := Owned (n : fnode) | Leased (n : fnode).
  Definition ol_node (o : owned_or_leased) : fnode := match o with Owned n | Leased n => n end.

  (** core.rs:1088-1094 [struct NodeIntoIter]. *)
  Record node_into_iter := NodeIntoIter {
    no_n : owned_or_leased;
    no_elem_x : nat;
    no_end_elems : nat;
    no_kid_x : nat;
    no_end_kids : nat }.

  (** core.rs:1197-1211 [NodeIntoIter::new]. *)
  Definition no_new (o : owned_or_leased) : res node_into_iter :=
    match ol_node o with
    | FNode e d =>
      kids <- match d with Some b => l <- live (kd_ptrs b) (kd_len b);; Ok (length l) | None => Ok 0 end;;
      Ok (NodeIntoIter o 0 (el_len e) 0 kids)
    end.

  (** Which nodes [Arc::try_unwrap] finds unshared; a child that was cloned from a
      leased node never is. *)
  Context (un : fnode -> bool).
  Definition try_unwrap_kid (parent : owned_or_leased) (c : fnode) : owned_or_leased :=
    match parent with
    | Owned _ => if un c then Owned c else Leased c
    | Leased _ => Leased c
    end.

  (** core.rs:1110-1116, 1157-1163: the child is moved out of its slot or cloned. *)
  Definition no_kid (o : owned_or_leased) (x : nat) : res fnode :=
    match o with
    | Owned n => b <- unwrap (fn_kids n);; slot_read (kd_ptrs b) x
    | Leased n => c <- fchild (fn_kids n) x;; unwrap c
    end.
  (** core.rs:1126-1136, 1173-1183: the entry is moved out of its slot or cloned. *)
  Definition no_elem (o : owned_or_leased) (x : nat) : res (K * V) :=
    match o with
    | Owned n => k <- slot_read (el_keys (fn_elems n)) x;; v <- slot_read (el_vals (fn_elems n)) x;; Ok (k, v)
    | Leased n => el_get (fn_elems n) x
    end.

  (** core.rs:1103-1143 [next]. *)
  Definition no_next (i : node_into_iter)
    : res (option (iter_action (K * V) owned_or_leased) * node_into_iter) :=
    if (no_kid_x i <? no_end_kids i) && (no_kid_x i <=? no_elem_x i) then
      c <- no_kid (no_n i) (no_kid_x i);;
      Ok (Some (Descend (try_unwrap_kid (no_n i) c)),
          NodeIntoIter (no_n i) (no_elem_x i) (no_end_elems i) (no_kid_x i + 1) (no_end_kids i))
    else if no_elem_x i <? no_end_elems i then
      kv <- no_elem (no_n i) (no_elem_x i);;
      Ok (Some (Return kv),
          NodeIntoIter (no_n i) (no_elem_x i + 1) (no_end_elems i) (no_kid_x i) (no_end_kids i))
    else Ok (None, i).

  (** core.rs:1151-1189 [next_back]. It is not called from [InnerIter]. *)
  Definition no_next_back (i : node_into_iter)
    : res (option (iter_action (K * V) owned_or_leased) * node_into_iter) :=
    if (no_kid_x i <? no_end_kids i) && (no_end_elems i <? no_end_kids i) then
      c <- no_kid (no_n i) (no_end_kids i - 1);;
      Ok (Some (Descend (try_unwrap_kid (no_n i) c)),
          NodeIntoIter (no_n i) (no_elem_x i) (no_end_elems i) (no_kid_x i) (no_end_kids i - 1))
    else if no_elem_x i <? no_end_elems i then
      x <- usize_sub (no_elem_x i) 1;;
      kv <- no_elem (no_n i) (no_end_elems i);;
      Ok (Some (Return kv), NodeIntoIter (no_n i) x (no_end_elems i) (no_kid_x i) (no_end_kids i))
    else Ok (None, i).

  Definition no_fuel (i : node_into_iter) : nat :=
    S (match fn_kids (ol_node (no_n i)) with
       | Some (Kids ps _) =>
         fold_right (fun o s => match o with Some c => 2 * fn_size c | None => 0 end + s) 0
                    (skipn (no_kid_x i) ps)
       | None => 0
       end).
  Definition owning : node_ops (K * V) owned_or_leased node_into_iter :=
    NodeOps _ _ _ no_new no_next no_next_back no_fuel.

  (** core.rs:1323-1333 [new_into_iter]; fixed.rs:148-155 [into_iter]. *)
  Definition fixed_into_iter (m : fmap) : res (f_iter node_into_iter) :=
    fi_new owning
      (option_map (fun n => if un n then Owned n else Leased n) (fm_root m)) (fm_len m).

  (** core.rs:1216-1237 [drop] of a node iterator: the entries and the children that it
      drops in place. *)
  Fixpoint read_range {A} (s : list (option A)) (x cnt : nat) : res (list A) :=
    match cnt with
    | O => Ok []
    | S cnt' => a <- slot_read s x;; l <- read_range s (S x) cnt';; Ok (a :: l)
    end.
  Definition no_drop (i : node_into_iter) : res (list (K * V) * list fnode) :=
    match no_n i with
    | Leased _ => Ok ([], [])
    | Owned (FNode e d) =>
      let cnt := no_end_elems i - no_elem_x i in
      ks <- read_range (el_keys e) (no_elem_x i) cnt;;
      vs <- read_range (el_vals e) (no_elem_x i) cnt;;
      cs <- match d with
            | None => Ok []
            | Some b => read_range (kd_ptrs b) (no_kid_x i) (no_end_kids i - no_kid_x i)
            end;;
      Ok (combine ks vs, cs)
    end.
  (** The drop of an [InnerIter] drops the node iterators, front first. *)
  Fixpoint fi_drop (w : list node_into_iter) : res (list (K * V) * list fnode) :=
    match w with
    | [] => Ok ([], [])
    | i :: w' =>
      '(es, cs) <- no_drop i;;
      '(es', cs') <- fi_drop w';;
      Ok (es ++ es', cs ++ cs')
    end.
End NodeIter.
Arguments owned_or_leased K V : clear implicits.
Arguments node_iter K V : clear implicits.
Arguments node_into_iter K V : clear implicits.

(** ** Mutable iteration

    A [&mut V] into a map is the position of its entry: the child indices from the root, the
    slot in the node; and the key. [iter_mut] (fixed.rs:86-96) is the code of
    [iter] on mutable slices (the same generic [NodeIter] and [InnerIter]; core.rs:1054-1081, 1317-1318):
    here, the same iterators on the tree whose keys carry their positions. [Arc::make_mut] in
    [NodeIterMut::new] is transparent. *)
Section FixedMut.
  Context {K V : Type}.
  Definition fref := ((list nat * nat) * K)%type.

  Fixpoint slots_pos (p : list nat) (i : nat) (s : list (option K)) : list (option fref) :=
    match s with
    | [] => []
    | o :: s' => match o with Some k => Some ((p, i), k) | None => None end :: slots_pos p (S i) s'
    end.
  Fixpoint fn_pos (p : list nat) (n : fnode K V) {struct n} : fnode fref V :=
    match n with
    | FNode e d =>
      FNode (Elems (slots_pos p 0 (el_keys e)) (el_vals e) (el_len e))
            (match d with
             | Some (Kids ps len) =>
               Some (Kids ((fix go i ps := match ps with
                                           | [] => []
                                           | o :: ps' =>
                                             match o with Some c => Some (fn_pos (p ++ [i]) c) | None => None end
                                             :: go (S i) ps'
                                           end) 0 ps) len)
             | None => None
             end)
    end.
  Definition fm_pos (m : f_map K V) : f_map fref V := FMap (option_map (fn_pos []) (fm_root m)) (fm_len m).
  Definition fixed_iter_mut (m : f_map K V) : res (f_iter (node_iter fref V)) := fixed_iter (fm_pos m).

  (** Writing through a reference. *)
  Fixpoint fn_write (p : list nat) (i : nat) (w : V -> V) (n : fnode K V) {struct n} : fnode K V :=
    match n with
    | FNode e d =>
      match p with
      | [] => match nth_error (el_vals e) i with
              | Some (Some v) => FNode (Elems (el_keys e) (set_at i (Some (w v)) (el_vals e)) (el_len e)) d
              | _ => n
              end
      | j :: p' =>
        match fchild (on_kids (fn_write p' i w) d) j with
        | Ok (Some c) => FNode e (fput d j c)
        | _ => n
        end
      end
    end.
  Definition f_write (r : fref) (w : V -> V) (m : f_map K V) : f_map K V :=
    FMap (option_map (fn_write (fst (fst r)) (snd (fst r)) w) (fm_root m)) (fm_len m).
End FixedMut.
