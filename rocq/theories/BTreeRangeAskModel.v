(** [range] and [range_mut] of [/repo/src/btree.rs] with comparisons that may panic: the definitions of [BTreeIterModel] with
    every question to the user's [Ord] in its place (see Ask.v). The calls have no argument that changes. *)
From Coq Require Import List PeanoNat Bool.
From Verif Require Import Base Spec Vec BTreeModel BTreeIterModel Ask Heap BTreeHeapModel.
Import ListNotations.
Local Open Scope nat_scope.

Section Range.
  Context {K V Q : Type} (bor : K -> Q) (ask : nat -> Q -> Q -> option comparison).
  Notation entry := (K * V)%type.
  Notation bt := (bt K V).
  Notation erg := (erg K V).
  Notation back := (fun s : unit => s).

  (** btree.rs:1777-1792 [cmp_bd]. *)
  Definition cmp_bd_t (bd : bound Q) (k : Q) (n : nat) : trial unit bd_ord :=
    match bd with
    | Unbounded => Returned tt BUnbounded n
    | Excluded b => question ask n b k tt (fun c n1 => Returned tt (match c with Lt => BLess | Eq => BEqual false | Gt => BGreater end) n1)
    | Included b => question ask n b k tt (fun c n1 => Returned tt (match c with Lt => BLess | Eq => BEqual true | Gt => BGreater end) n1)
    end.
  (** btree.rs:1826-1853: the left edge. *)
  Fixpoint left_edge_t (lb : bound Q) (i : nat) (elems : list entry) (n : nat)
    : trial unit (option (nat * nat * bool) * (nat * list entry)) :=
    match elems with
    | [] => Returned tt (None, (i, [])) n
    | e :: elems' =>
      after (cmp_bd_t lb (bor (fst e)) n) back (fun _ o n1 =>
      match o with
      | BUnbounded => Returned tt (Some (0, 0, false), (i, elems)) n1
      | BLess => Returned tt (Some (i, i, true), (i, elems)) n1
      | BEqual is_in => Returned tt (Some (i + Nat.b2n (negb is_in), i + 1, false), (i, elems)) n1
      | BGreater => left_edge_t lb (S i) elems' n1
      end)
    end.
  (** btree.rs:1856-1879: the right edge; [len] is the number of all elements. *)
  Fixpoint right_edge_t (ub : bound Q) (len i : nat) (elems : list entry) (n : nat) : trial unit (option (nat * nat * bool)) :=
    match elems with
    | [] => Returned tt None n
    | e :: elems' =>
      after (cmp_bd_t ub (bor (fst e)) n) back (fun _ o n1 =>
      match o with
      | BUnbounded => Returned tt (Some (len, len + 1, false)) n1
      | BLess => Returned tt (Some (i, i + 1, true)) n1
      | BEqual is_in => Returned tt (Some (i + Nat.b2n is_in, i + 1, false)) n1
      | BGreater => right_edge_t ub len (S i) elems' n1
      end)
    end.
  (** btree.rs:1804-1882 [find_range_edges]. *)
  Definition find_range_edges_t (es : list entry) (lb ub : bound Q) (n : nat)
    : trial unit ((nat * nat * bool) * (nat * nat * bool)) :=
    let len := length es in
    after (left_edge_t lb 0 es n) back (fun _ '(l, (i, rest)) n1 =>
    after (right_edge_t ub len i rest n1) back (fun _ r n2 =>
    Returned tt (match l with Some x => x | None => (len, len, true) end,
                 match r with Some x => x | None => (len, len + 1, true) end) n2)).

  (** btree.rs:1919-1937, 1977-1995: from [to_prune] to the end, after [w1] was pushed. *)
  Definition work_right_t (lb ub : bound Q) (edges : (nat * nat * bool) * (nat * nat * bool)) (elems : list entry)
    (kids : list bt) (calls : list (bound Q -> bound Q -> nat -> trial unit (list erg))) (w1 : list erg) (n : nat)
    : trial unit (list erg) :=
    let '((lb_elems, lb_kids, left_prune), (ub_elems, ub_kids, right_prune)) := edges in
    let '(kids, to_prune) :=
      if right_prune then (removelast kids, last_opt calls) else (kids, None) in
    let w2 := if (0 <? length elems) || (0 <? length kids)
              then [Erg elems kids (negb left_prune && (lb_elems =? lb_kids))
                                   (negb right_prune && (ub_elems <? ub_kids))]
              else [] in
    after (match to_prune with Some c => c lb ub n | None => Returned tt [] n end) back (fun _ w3 n1 =>
    Returned tt (w1 ++ w2 ++ w3) n1).
  (** btree.rs:1884-1938 [make_worklist], :1940-1996 [make_mut_worklist]. *)
  Fixpoint make_worklist_t (t : bt) (lb ub : bound Q) (n : nat) {struct t} : trial unit (list erg) :=
    match t with
    | BN es ks =>
      after (find_range_edges_t es lb ub n) back (fun _ edges n1 =>
      let '((lb_elems, lb_kids, left_prune), (ub_elems, ub_kids, right_prune)) := edges in
      match slice lb_elems ub_elems es with
      | Panic => Fault
      | Ok elems =>
        let kids := slice_or_default lb_kids ub_kids ks in
        let calls := slice_or_default lb_kids ub_kids (map make_worklist_t ks) in
        if left_prune then
          match (if (length kids =? 1) && right_prune
                 then _ <- assert_ (length elems =? 0);; Ok ub
                 else Ok Unbounded) with
          | Panic => Fault
          | Ok ub' =>
            after (match calls with c :: _ => c lb ub' n1 | [] => Returned tt [] n1 end) back (fun _ w1 n2 =>
            work_right_t Unbounded ub edges elems (tl kids) (tl calls) w1 n2)
          end
        else work_right_t lb ub edges elems kids calls [] n1
      end)
    end.

  (** btree.rs:2010-2020: the guard [k2 < k1] is one question. *)
  Definition bad_range_t (lb ub : bound Q) (n : nat) : trial unit bool :=
    match lb, ub with
    | (Excluded k1 | Included k1), (Excluded k2 | Included k2) =>
      question ask n k2 k1 tt (fun c n1 => Returned tt (match c with Lt => true | _ => false end) n1)
    | _, _ => Returned tt false n
    end.
  (** btree.rs:2003-2038 [Range::new], :855-862 [range]. *)
  Definition b_range_t (m : bt_map K V) (lb ub : bound Q) (n : nat) : trial unit (b_iter erg) :=
    after (bad_range_t lb ub n) back (fun _ bad n1 =>
    if bad then Fault else
    after (match bm_root m with Some t => make_worklist_t t lb ub n1 | None => Returned tt [] n1 end) back (fun _ w n2 =>
    Returned tt (BIter w (b_len m)) n2)).
End Range.

Section Maps.
  Context {K V Q : Type} (bor : K -> Q) (ask : nat -> Q -> Q -> option comparison).
  (** btree.rs:2083-2117 [RangeMut::new], :864-874 [range_mut], on a map that shares no nodes: as [b_range_mut], with the positions
      of the entries for references. No value is changed: the argument stays. *)
  Definition b_range_mut_t (m : bt_map K V) (lb ub : bound Q) (n : nat) : trial unit (b_iter (erg bref V)) :=
    b_range_t (fun r => bor (snd r)) ask (map_pos m) lb ub n.
  (** [range] of a map on a heap of shared nodes: it only reads. *)
  Definition hb_range_t (h : heap (list (K * V))) (m : hbmap) (lb ub : bound Q) (n : nat) : trial unit (b_iter (erg K V)) :=
    match hb_read h m with Ok b => b_range_t bor ask b lb ub n | Panic => Fault end.
End Maps.
