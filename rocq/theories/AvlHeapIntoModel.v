(** [IntoIter] of [/repo/src/avl.rs] on shared nodes: [into_iter()], [next()], [next_back()], and the drop of the iterator.

    An item of the work list holds an [Arc] to a node ([OArc]) or a node that was taken out of its cell ([OOwn]), or an
    item to return. [mk] makes an item from an entry: [IntoKeyValue], [IntoKey] and [IntoValue] of avl.rs:2115-2160 are
    [fun e => e], [fst] and [snd]. [from_arc] clones what the item is made of, [from_own] moves it: a call of [from_arc]
    is one event of the clone log, which names the node. *)
From Coq Require Import List PeanoNat.
From Verif Require Import Base Spec Heap AvlModel AvlIterModel AvlHeapModel.
Import ListNotations.
Local Open Scope nat_scope.

(** avl.rs:2162-2167 [enum IntoIterNode]; [Marker] is never made. *)
Inductive onode (K V : Type) := OArc (a : addr) | OOwn (d : pay K V) (l r : ptr).
Arguments OArc {K V} a.
Arguments OOwn {K V} d l r.

Section AvlHeapInto.
  Context {K V I : Type} (mk : K * V -> I).
  Variable bomb : nat -> bool.
  Notation pay := (pay K V).
  Notation heap := (heap pay).
  Notation onode := (onode K V).
  Notation work := (list (action onode I)).
  Notation oiter := (inner_iter onode I).

  (** avl.rs:2169-2177 [opt_to_iter_node]. *)
  Definition oi_of (h : heap) (p : ptr) : res (heap * option onode) :=
    match p with
    | None => Ok (h, None)
    | Some a =>
      if unique h a then
        '(h1, n) <- take h a;;
        match nd_kids n with
        | [l; r] => Ok (h1, Some (OOwn (nd_data n) l r))
        | _ => Panic
        end
      else match get h a with Some _ => Ok (h, Some (OArc a)) | None => Panic end
    end.

  (** avl.rs:2185-2207 [destruct]. When [from_arc] unwinds, the clone of [left] and [arc] are dropped. *)
  Definition oi_destr (h : heap) (n : onode) : res (heap * out (option onode * I * option onode)) :=
    match n with
    | OArc a =>
      match get h a with
      | Some (_, Nd d [l; r]) =>
        h1 <- inc h l;;
        let h2 := log h1 d in
        if bomb (length (clones h1)) then h3 <- drops h2 [l; Some a];; Ok (h3, Unwound)
        else
          h3 <- inc h2 r;;
          h4 <- drop h3 (Some a);;
          Ok (h4, Done (option_map OArc l, mk (pk d, pv d), option_map OArc r))
      | _ => Panic
      end
    | OOwn d l r =>
      '(h1, lf) <- oi_of h l;;
      '(h2, rt) <- oi_of h1 r;;
      Ok (h2, Done (lf, mk (pk d, pv d), rt))
    end.

  (** avl.rs:1937-1962 [InnerIter::next], :1966-1991 [next_back]. The item is off the list when [destruct] unwinds. *)
  Fixpoint oi_next_fuel (fuel : nat) (h : heap) (w : work) (len : nat) : res (heap * oiter * out (option I)) :=
    match fuel with
    | O => Panic
    | S fuel' =>
      match w with
      | [] => Ok (h, InnerIter [] len, Done None)
      | Return x :: w' => n <- usize_sub len 1;; Ok (h, InnerIter w' n, Done (Some x))
      | Descend a :: w' =>
        '(h1, o) <- oi_destr h a;;
        match o with
        | Unwound => Ok (h1, InnerIter w' len, Unwound)
        | Done (lf, item, rt) => oi_next_fuel fuel' h1 (odesc lf ++ Return item :: odesc rt ++ w') len
        end
      end
    end.
  Definition oi_next (h : heap) (it : oiter) := oi_next_fuel depth h (it_work it) (it_len it).
  Fixpoint oi_next_back_fuel (fuel : nat) (h : heap) (w : work) (len : nat) : res (heap * oiter * out (option I)) :=
    match fuel with
    | O => Panic
    | S fuel' =>
      match rev w with
      | [] => Ok (h, InnerIter [] len, Done None)
      | Return x :: w' => n <- usize_sub len 1;; Ok (h, InnerIter (rev w') n, Done (Some x))
      | Descend a :: w' =>
        '(h1, o) <- oi_destr h a;;
        match o with
        | Unwound => Ok (h1, InnerIter (rev w') len, Unwound)
        | Done (lf, item, rt) => oi_next_back_fuel fuel' h1 (rev w' ++ odesc lf ++ Return item :: odesc rt) len
        end
      end
    end.
  Definition oi_next_back (h : heap) (it : oiter) := oi_next_back_fuel depth h (it_work it) (it_len it).

  (** avl.rs:2236-2256 [into_iter], :1166-1185 [into_keys], :1199-1218 [into_values]. *)
  Definition hm_into_iter (h : heap) (m : hmap) : res (heap * oiter) :=
    '(h1, n) <- oi_of h (hm_root m);;
    Ok (h1, InnerIter (odesc n) (hm_len m)).

  (** The pointers that the iterator holds, and its drop. *)
  Definition o_ptrs (n : onode) : list ptr := match n with OArc a => [Some a] | OOwn _ l r => [l; r] end.
  Definition a_ptrs (x : action onode I) : list ptr := match x with Descend n => o_ptrs n | Return _ => [] end.
  Definition oi_ptrs (it : oiter) : list ptr := flat_map a_ptrs (it_work it).
  Definition oi_drop (h : heap) (it : oiter) : res heap := drops h (oi_ptrs it).

  (** Calls on the iterator, each result with the [len()] after it; a call that unwinds ends the sequence. *)
  Fixpoint oi_run (cs : list end_call) (h : heap) (it : oiter) : res (heap * oiter * list (option I * nat) * bool) :=
    match cs with
    | [] => Ok (h, it, [], true)
    | c :: cs' =>
      '(h1, it1, o) <- match c with Front => oi_next h it | Back => oi_next_back h it end;;
      match o with
      | Unwound => Ok (h1, it1, [], false)
      | Done x =>
        '(h2, it2, outs, b) <- oi_run cs' h1 it1;;
        Ok (h2, it2, (x, it_len it1) :: outs, b)
      end
    end.
  (** [let mut it = m.into_iter()], the calls, and the drop of [it]. *)
  Definition hm_into_calls (h : heap) (m : hmap) (cs : list end_call) : res (heap * list (option I * nat) * bool) :=
    '(h1, it) <- hm_into_iter h m;;
    '(h2, it2, outs, b) <- oi_run cs h1 it;;
    h3 <- oi_drop h2 it2;;
    Ok (h3, outs, b).
End AvlHeapInto.
