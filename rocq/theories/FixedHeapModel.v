(** The functions of [/repo/src/btree/core.rs] and [/repo/src/btree/fixed.rs] that write, with the
    sharing of nodes: every [Arc<Node>] is a cell of the reference-counted heap of [Heap]. The payload of
    a cell is the two arrays of the node as they are in memory, slots out of use included; the pointers of
    the cell are those in the slots in use, and are read off the array whenever a cell is written
    ([f_node]). A stale slot is no owner.

    As in [BTreeHeapModel]: [&mut Node] into a uniquely owned cell is modelled by taking the contents out
    ([fopn]) and putting them back ([fcls]); [bomb n = true] says that the user's [clone] panics in the
    clone of a node that is number [n]; the call then ends with [Unwound]; [fuel] bounds the recursion
    depth. The arrays and the undefined behaviour they may show are those of [FixedModel]. *)
From Coq Require Import List PeanoNat Bool.
From Verif Require Import Base Spec Vec Heap BTreeHeapModel FixedModel.
Import ListNotations.
Local Open Scope nat_scope.

(** core.rs:807-811 [enum InsertResult]. *)
Inductive fh_res (K V : Type) :=
| FHAbsorbed
| FHReplaced (k : K) (v : V)
| FHSplit (c : option addr) (kv : K * V).
Arguments FHAbsorbed {K V}.
Arguments FHReplaced {K V} k v.
Arguments FHSplit {K V} c kv.

(** fixed.rs:6-10 [struct BTreeMap]. *)
Record fhmap := FH { fh_root : ptr; fh_len : nat }.

Section FixedHeap.
  Context {K V Q : Type} (bor : K -> Q) (cmp : Q -> Q -> comparison).
  Context (small_key : bool).
  Variable bomb : nat -> bool.
  Notation elems := (elems K V).
  Notation okids := (option (kids addr)).
  Notation cell := (elems * okids)%type.
  Notation heap := (heap cell).

  (** The pointers that an array of children owns: its slots in use. *)
  Definition kid_ptrs (d : okids) : res (list ptr) :=
    match d with
    | None => Ok []
    | Some b =>
      _ <- assert_ (kd_len b <=? length (kd_ptrs b));;
      l <- all_init (firstn (kd_len b) (kd_ptrs b));;
      Ok (map Some l)
    end.
  Definition f_node (e : elems) (d : okids) : res (node cell) := ps <- kid_ptrs d;; Ok (Nd (e, d) ps).

  (** [Arc::new]. *)
  Definition f_alloc (h : heap) (e : elems) (d : okids) : res (heap * addr) :=
    n <- f_node e d;; Ok (alloc h n).

  (** [Arc::make_mut], and the node it gives access to. core.rs:282 [derive(Clone)] clones the entries,
      which may panic, and then the array of [Arc]s. *)
  Definition f_make_mut (h : heap) (a : addr) : res (heap * option addr) :=
    match get h a with
    | None => Panic
    | Some (1, _) => Ok (h, Some a)
    | Some (_, n) =>
      let h0 := log h (nd_data n) in
      if bomb (length (clones h)) then Ok (h0, None)
      else
        '(e, d) <- cell_clone (fst (nd_data n)) (snd (nd_data n));;
        n' <- f_node e d;;
        h1 <- incs h0 (nd_kids n');;
        let '(h2, a') := alloc h1 n' in
        h3 <- dec h2 a;;
        Ok (h3, Some a')
    end.
  Definition fopn (h : heap) (a : addr) : res (heap * out (addr * elems * okids)) :=
    '(h1, r) <- f_make_mut h a;;
    match r with
    | None => Ok (h1, Unwound)
    | Some a' => '(h2, n) <- take h1 a';; Ok (h2, Done (a', fst (nd_data n), snd (nd_data n)))
    end.
  Definition fcls (h : heap) (a : addr) (e : elems) (d : okids) : res heap :=
    n <- f_node e d;; Ok (give h a n).

  (** [match Arc::try_unwrap(rc) { Ok(n) => n, Err(rc) => ( *rc).clone() }], and the drop of [rc]. *)
  Definition fown (h : heap) (a : addr) : res (heap * out (elems * okids)) :=
    match get h a with
    | None => Panic
    | Some (1, _) => '(h1, n) <- take h a;; Ok (h1, Done (nd_data n))
    | Some (_, n) =>
      let h0 := log h (nd_data n) in
      if bomb (length (clones h)) then h1 <- dec h0 a;; Ok (h1, Unwound)
      else
        '(e, d) <- cell_clone (fst (nd_data n)) (snd (nd_data n));;
        ps <- kid_ptrs d;;
        h1 <- incs h0 ps;;
        h2 <- dec h1 a;;
        Ok (h2, Done (e, d))
    end.

  (** Reading a node. *)
  Definition fpeek (h : heap) (a : addr) : res elems :=
    match get h a with Some (_, n) => Ok (fst (nd_data n)) | None => Panic end.

  Definition fdepth (h : heap) : nat := S (length (cells h)).

  (** What follows the pointers: the tree that a reader sees. Of the children only those in use are
      there. *)
  Fixpoint fh_read (fuel : nat) (h : heap) (p : ptr) : res (fnode K V) :=
    match fuel, p with
    | S fuel', Some a =>
      match get h a with
      | Some (_, n) =>
        cs <- map_res (fh_read fuel' h) (nd_kids n);;
        Ok (FNode (fst (nd_data n))
                  (match snd (nd_data n) with
                   | None => None
                   | Some b => Some (Kids (map Some cs ++ uninit (length (kd_ptrs b) - kd_len b)) (kd_len b))
                   end))
      | None => Panic
      end
    | _, _ => Panic
    end.
  Definition fh_view (h : heap) (m : fhmap) : res (f_map K V) :=
    match fh_root m with
    | None => Ok (FMap None (fh_len m))
    | p => n <- fh_read (fdepth h) h p;; Ok (FMap (Some n) (fh_len m))
    end.

  (** core.rs:379-389 [Node::get_mut]; [w] is what the caller does through the reference, the old value
      is returned. *)
  Fixpoint fh_get_mut (fuel : nat) (h : heap) (a : addr) (q : Q) (w : V -> V)
    : res (heap * addr * out (option V)) :=
    match fuel with
    | O => Panic
    | S fuel' =>
      '(h1, r) <- fopn h a;;
      match r with
      | Unwound => Ok (h1, a, Unwound)
      | Done (a', e, d) =>
        s <- search_keys bor cmp small_key q e;;
        match s with
        | inl i =>
          vs <- live (el_vals e) (el_len e);;
          v <- unwrap (nth_error vs i);;
          h2 <- fcls h1 a' (Elems (el_keys e) (set_at i (Some (w v)) (el_vals e)) (el_len e)) d;;
          Ok (h2, a', Done (Some v))
        | inr i =>
          c <- fchild d i;;
          match c with
          | Some c =>
            '(h2, c', o) <- fh_get_mut fuel' h1 c q w;;
            h3 <- fcls h2 a' e (fput d i c');;
            Ok (h3, a', o)
          | None => h2 <- fcls h1 a' e d;; Ok (h2, a', Done None)
          end
        end
      end
    end.

  (** core.rs:391-424 [Node::insert], with [ins_no_split] and [ins_split] on the arrays; the new lower
      node of a split, which [ins_split] allocates first, is allocated when it has been filled. *)
  Fixpoint fh_insert (fuel : nat) (h : heap) (a : addr) (kv : K * V) : res (heap * addr * out (fh_res K V)) :=
    match fuel with
    | O => Panic
    | S fuel' =>
      '(h1, r) <- fopn h a;;
      match r with
      | Unwound => Ok (h1, a, Unwound)
      | Done (a', e, d) =>
        s <- search_keys bor cmp small_key (bor (fst kv)) e;;
        match s with
        | inl ub =>
          '(old, e') <- el_replace e ub kv;;
          h2 <- fcls h1 a' e' d;;
          Ok (h2, a', Done (FHReplaced (fst old) (snd old)))
        | inr ub =>
          c <- fchild d ub;;
          '(h2, d1, r) <- match c with
                          | Some c => '(h2, c', o) <- fh_insert fuel' h1 c kv;; Ok (h2, fput d ub c', o)
                          | None => Ok (h1, d, Done (FHSplit None kv))
                          end;;
          match r with
          | Done (FHSplit kid kv1) =>
            if el_len e <? MAX_OCCUPANCY then
              '(e', d') <- cell_absorb e d1 ub kid kv1;;
              h3 <- fcls h2 a' e' d';;
              Ok (h3, a', Done FHAbsorbed)
            else
              '((he, hd), (le, ld), div) <- cell_split e d1 ub kid kv1;;
              h3 <- fcls h2 a' he hd;;
              '(h4, b) <- f_alloc h3 le ld;;
              Ok (h4, a', Done (FHSplit (Some b) div))
          | _ => h3 <- fcls h2 a' e d1;; Ok (h3, a', r)
          end
        end
      end
    end.

  (** core.rs:518-551 [rot_lf] of an opened node. When the clone of the left child panics, the old
      separator and [k1_to_k2] are dropped. *)
  Definition fh_rot_lf (h : heap) (e : elems) (d : okids) (idx : nat) : res (heap * elems * okids * out unit) :=
    _ <- assert_ (is_some d);;
    c <- fchild d (idx + 1);;
    r <- unwrap c;;
    re0 <- fpeek h r;;
    _ <- assert_ (MIN_OCCUPANCY <? el_len re0);;
    '(h1, o) <- fopn h r;;
    match o with
    | Unwound => Ok (h1, e, d, Unwound)
    | Done (r', re, rd) =>
      '(kv2, re') <- el_remove re 0;;
      '(k12, rd') <- match rd with
                     | Some b => '(x, b') <- kd_remove b 0;; Ok (Some x, Some b')
                     | None => Ok (None, None)
                     end;;
      h2 <- fcls h1 r' re' rd';;
      let d1 := fput d (idx + 1) r' in
      '(kv1, e1) <- el_replace e idx kv2;;
      c <- fchild d1 idx;;
      l <- unwrap c;;
      le0 <- fpeek h2 l;;
      _ <- assert_ (el_len le0 <? MIN_OCCUPANCY);;
      '(h3, o) <- fopn h2 l;;
      match o with
      | Unwound => h4 <- drop h3 k12;; Ok (h4, e1, d1, Unwound)
      | Done (l', le, ld) =>
        le' <- el_push le kv1;;
        ld' <- match k12 with
               | Some x => b <- unwrap ld;; b' <- kd_push b x;; Ok (Some b')
               | None => Ok ld
               end;;
        h4 <- fcls h3 l' le' ld';;
        Ok (h4, e1, fput d1 idx l', Done tt)
      end
    end.

  (** core.rs:553-583 [rot_rt]. *)
  Definition fh_rot_rt (h : heap) (e : elems) (d : okids) (idx : nat) : res (heap * elems * okids * out unit) :=
    _ <- assert_ (is_some d);;
    c <- fchild d idx;;
    l <- unwrap c;;
    le0 <- fpeek h l;;
    _ <- assert_ (MIN_OCCUPANCY <? el_len le0);;
    '(h1, o) <- fopn h l;;
    match o with
    | Unwound => Ok (h1, e, d, Unwound)
    | Done (l', le, ld) =>
      '(kv0, le') <- el_pop le;;
      '(k01, ld') <- match ld with
                     | Some b => '(x, b') <- kd_pop b;; Ok (Some x, Some b')
                     | None => Ok (None, None)
                     end;;
      h2 <- fcls h1 l' le' ld';;
      let d1 := fput d idx l' in
      '(kv1, e1) <- el_replace e idx kv0;;
      c <- fchild d1 (idx + 1);;
      r <- unwrap c;;
      '(h3, o) <- fopn h2 r;;
      match o with
      | Unwound => h4 <- drop h3 k01;; Ok (h4, e1, d1, Unwound)
      | Done (r', re, rd) =>
        re' <- el_insert re 0 kv1;;
        rd' <- match k01 with
               | Some x => b <- unwrap rd;; b' <- kd_insert b 0 x;; Ok (Some b')
               | None => Ok rd
               end;;
        h4 <- fcls h3 r' re' rd';;
        Ok (h4, e1, fput d1 (idx + 1) r', Done tt)
      end
    end.

  (** core.rs:586-641 [merge_kids]. When the clone of the right child panics, that child has already been
      taken out of the array of children, while the separator is still there; when the clone of the left
      child panics, the separator and the contents of the right child are dropped. *)
  Definition fh_merge_kids (h : heap) (e : elems) (d : okids) (at_ : nat) : res (heap * elems * okids * out unit) :=
    b <- unwrap d;;
    '(r, b1) <- kd_remove b (at_ + 1);;
    '(h1, o) <- fown h r;;
    match o with
    | Unwound => Ok (h1, e, Some b1, Unwound)
    | Done (re, rd) =>
      '(mid, e1) <- el_remove e at_;;
      ps <- live (kd_ptrs b1) (kd_len b1);;
      l <- unwrap (nth_error ps at_);;
      '(h2, o) <- fopn h1 l;;
      match o with
      | Unwound => ps <- kid_ptrs rd;; h3 <- drops h2 ps;; Ok (h3, e1, Some b1, Unwound)
      | Done (l', le, ld) =>
        le1 <- el_push le mid;;
        let lhs_len := el_len le1 in
        let rhs_len := el_len re in
        _ <- live (el_keys le1) lhs_len;;
        _ <- live (el_keys re) rhs_len;;
        ks <- slot_copy (el_keys re) 0 (el_keys le1) lhs_len rhs_len;;
        _ <- live (el_vals le1) lhs_len;;
        _ <- live (el_vals re) rhs_len;;
        vs <- slot_copy (el_vals re) 0 (el_vals le1) lhs_len rhs_len;;
        let le2 := Elems ks vs (lhs_len + rhs_len) in
        _ <- assert_ (el_len le2 <=? MAX_OCCUPANCY);;
        '(ld2, rd2) <- match ld with
                       | Some lk =>
                         rk <- unwrap rd;;
                         ps <- slot_copy (kd_ptrs rk) 0 (kd_ptrs lk) (kd_len lk) (kd_len rk);;
                         _ <- assert_ (kd_len lk + kd_len rk <=? MAX_KIDS);;
                         Ok (Some (Kids ps (kd_len lk + kd_len rk)), Some (Kids (kd_ptrs rk) 0))
                       | None => Ok (None, rd)
                       end;;
        h3 <- fcls h2 l' le2 ld2;;
        (* The drop of [rhs_n], whose lengths are 0 by now. What it held is in the left node: to drop an
           entry here would be undefined behaviour. *)
        '(es, _) <- el_clear (Elems (el_keys re) (el_vals re) 0);;
        _ <- assert_ (is_nil es);;
        ps <- kid_ptrs rd2;;
        h4 <- drops h3 ps;;
        Ok (h4, e1, fput (Some b1) at_ l', Done tt)
      end
    end.

  (** core.rs:644-672 [rebal]. *)
  Definition fh_rebal (h : heap) (e : elems) (d : okids) (at_ : nat) : res (heap * elems * okids * out bool) :=
    _ <- assert_ (is_some d);;
    c <- fchild d at_;;
    c <- unwrap c;;
    ce <- fpeek h c;;
    _ <- assert_ (el_len ce =? MIN_OCCUPANCY - 1);;
    let threshold := MAX_OCCUPANCY - MIN_OCCUPANCY in
    '(h1, e1, d1, o) <-
      (if 0 <? at_ then
         s <- fchild d (at_ - 1);;
         s <- unwrap s;;
         se <- fpeek h s;;
         if threshold <? el_len se then fh_rot_rt h e d (at_ - 1) else fh_merge_kids h e d (at_ - 1)
       else
         s <- fchild d (at_ + 1);;
         s <- unwrap s;;
         se <- fpeek h s;;
         if threshold <? el_len se then fh_rot_lf h e d at_ else fh_merge_kids h e d at_);;
    Ok (h1, e1, d1, match o with Done _ => Done (el_len e1 <? MIN_OCCUPANCY) | Unwound => Unwound end).

  (** A call of [rebal] as the last action, and the end of the borrow of the node. *)
  Definition fh_rebal_cls {B} (h : heap) (a : addr) (e : elems) (d : okids) (at_ : nat) (ret : bool -> B)
    : res (heap * addr * out B) :=
    '(h1, e1, d1, o) <- fh_rebal h e d at_;;
    h2 <- fcls h1 a e1 d1;;
    Ok (h2, a, match o with Done u => Done (ret u) | Unwound => Unwound end).

  (** core.rs:674-693 [pop_greatest]. *)
  Fixpoint fh_pop_greatest (fuel : nat) (h : heap) (a : addr) : res (heap * addr * out ((K * V) * bool)) :=
    match fuel with
    | O => Panic
    | S fuel' =>
      '(h1, r) <- fopn h a;;
      match r with
      | Unwound => Ok (h1, a, Unwound)
      | Done (a', e, d) =>
        c <- flast d;;
        match c with
        | Some c =>
          '(h2, c', o) <- fh_pop_greatest fuel' h1 c;;
          let d1 := fput d (match d with Some b => kd_len b - 1 | None => 0 end) c' in
          match o with
          | Done (kv, true) => fh_rebal_cls h2 a' e d1 (el_len e) (fun u => (kv, u))
          | _ => h3 <- fcls h2 a' e d1;; Ok (h3, a', o)
          end
        | None =>
          '(kv, e') <- el_pop e;;
          h2 <- fcls h1 a' e' d;;
          Ok (h2, a', Done (kv, el_len e' <? MIN_OCCUPANCY))
        end
      end
    end.

  (** core.rs:695-733 [Node::remove]. *)
  Fixpoint fh_remove_node (fuel : nat) (h : heap) (a : addr) (q : Q)
    : res (heap * addr * out (option ((K * V) * bool))) :=
    match fuel with
    | O => Panic
    | S fuel' =>
      '(h1, r) <- fopn h a;;
      match r with
      | Unwound => Ok (h1, a, Unwound)
      | Done (a', e, d) =>
        s <- search_keys bor cmp small_key q e;;
        match s with
        | inl i =>
          if is_some d then
            c <- fchild d i;;
            c <- unwrap c;;
            '(h2, c', o) <- fh_pop_greatest fuel' h1 c;;
            let d1 := fput d i c' in
            match o with
            | Unwound => h3 <- fcls h2 a' e d1;; Ok (h3, a', Unwound)
            | Done (kv, under) =>
              '(old, e1) <- el_replace e i kv;;
              if (under : bool) then fh_rebal_cls h2 a' e1 d1 i (fun u => Some (old, u))
              else h3 <- fcls h2 a' e1 d1;; Ok (h3, a', Done (Some (old, false)))
            end
          else
            '(kv, e') <- el_remove e i;;
            h2 <- fcls h1 a' e' d;;
            Ok (h2, a', Done (Some (kv, el_len e' <? MIN_OCCUPANCY)))
        | inr i =>
          c <- fchild d i;;
          match c with
          | None => h2 <- fcls h1 a' e d;; Ok (h2, a', Done None)
          | Some c =>
            '(h2, c', o) <- fh_remove_node fuel' h1 c q;;
            let d1 := fput d i c' in
            match o with
            | Done (Some (kv, true)) => fh_rebal_cls h2 a' e d1 i (fun u => Some (kv, u))
            | _ => h3 <- fcls h2 a' e d1;; Ok (h3, a', o)
            end
          end
        end
      end
    end.

  (** ** [BTreeMap] *)

  (** fixed.rs:13-15 [new]; :17-20 [clear]; the drop of a map; :6 [derive(Clone)]. *)
  Definition fh_new : fhmap := FH None 0.
  Definition fh_drop (h : heap) (m : fhmap) : res heap := drop h (fh_root m).
  Definition fh_clear (h : heap) (m : fhmap) : res (heap * fhmap) :=
    h1 <- drop h (fh_root m);; Ok (h1, FH None 0).
  Definition fh_clone (h : heap) (m : fhmap) : res (heap * fhmap) :=
    h1 <- inc h (fh_root m);; Ok (h1, m).

  (** fixed.rs:31-40 [get_mut]. *)
  Definition fh_get_mut_map (h : heap) (m : fhmap) (q : Q) (w : V -> V) : res (heap * fhmap * out (option V)) :=
    match fh_root m with
    | None => Ok (h, m, Done None)
    | Some a => '(h1, a1, o) <- fh_get_mut (fdepth h) h a q w;; Ok (h1, FH (Some a1) (fh_len m), o)
    end.

  (** fixed.rs:42-73 [insert]; core.rs:297-315 [new_leaf], [new_branch]. *)
  Definition fh_insert_map (h : heap) (m : fhmap) (k : K) (v : V) : res (heap * fhmap * out (option V)) :=
    match fh_root m with
    | Some a =>
      '(h1, a1, o) <- fh_insert (fdepth h) h a (k, v);;
      match o with
      | Unwound => Ok (h1, FH (Some a1) (fh_len m), Unwound)
      | Done FHAbsorbed => Ok (h1, FH (Some a1) (fh_len m + 1), Done None)
      | Done (FHReplaced _ v0) => Ok (h1, FH (Some a1) (fh_len m), Done (Some v0))
      | Done (FHSplit lt kv) =>
        l <- unwrap lt;;
        e <- el_push el_new kv;;
        d <- kd_push kd_new l;;
        d <- kd_push d a1;;
        '(h2, r) <- f_alloc h1 e (Some d);;
        Ok (h2, FH (Some r) (fh_len m + 1), Done None)
      end
    | None =>
      e <- el_push el_new (k, v);;
      '(h1, r) <- f_alloc h e None;;
      Ok (h1, FH (Some r) 1, Done None)
    end.

  (** fixed.rs:102-119 [rm_and_rebal], :121-133 [remove]. [self.root = n.pop_child()] takes the last child
      out of the root node (core.rs:335-337) and then drops that node. *)
  Definition fh_remove_entry (h : heap) (m : fhmap) (q : Q) : res (heap * fhmap * out (option (K * V))) :=
    match fh_root m with
    | None => Ok (h, m, Done None)
    | Some a =>
      '(h1, a1, o) <- fh_remove_node (fdepth h) h a q;;
      match o with
      | Unwound => Ok (h1, FH (Some a1) (fh_len m), Unwound)
      | Done None => Ok (h1, FH (Some a1) (fh_len m), Done None)
      | Done (Some (old, under)) =>
        len <- usize_sub (fh_len m) 1;;
        e1 <- fpeek h1 a1;;
        if under && (el_len e1 =? 0) then
          '(h2, n) <- take h1 a1;;
          '(root, d') <- match snd (nd_data n) with
                         | Some b => '(c, b') <- kd_pop b;; Ok (Some c, Some b')
                         | None => Ok (None, None)
                         end;;
          h3 <- fcls h2 a1 (fst (nd_data n)) d';;
          h4 <- drop h3 (Some a1);;
          Ok (h4, FH root len, Done (Some old))
        else Ok (h1, FH (Some a1) len, Done (Some old))
      end
    end.
  Definition fh_remove_map (h : heap) (m : fhmap) (q : Q) : res (heap * fhmap * out (option V)) :=
    '(h1, m1, o) <- fh_remove_entry h m q;;
    Ok (h1, m1, match o with Done e => Done (option_map snd e) | Unwound => Unwound end).

  (** fixed.rs:162-166 [extend] by a list: stops where it unwinds. *)
  Fixpoint fh_extend (h : heap) (m : fhmap) (ps : list (K * V)) : res (heap * fhmap * out unit) :=
    match ps with
    | [] => Ok (h, m, Done tt)
    | (k, v) :: ps' =>
      '(h1, m1, o) <- fh_insert_map h m k v;;
      match o with
      | Unwound => Ok (h1, m1, Unwound)
      | Done _ => fh_extend h1 m1 ps'
      end
    end.
  (** fixed.rs:174-178 [from_iter]: when it unwinds the new map is dropped. *)
  Definition fh_from_iter (h : heap) (ps : list (K * V)) : res (heap * out fhmap) :=
    '(h1, m, o) <- fh_extend h fh_new ps;;
    match o with
    | Unwound => h2 <- fh_drop h1 m;; Ok (h2, Unwound)
    | Done _ => Ok (h1, Done m)
    end.
End FixedHeap.
