(** [range_mut] of [/repo/src/btree.rs] on [BTreeMap]s that share nodes, with comparisons that may panic: the definitions of
    [BTreeHeapMutModel] with every question to the user's [Ord] in its place (see Ask.v). *)
From Coq Require Import List PeanoNat Bool.
From Verif Require Import Base Spec Vec Heap HeapMut BTreeModel BTreeIterModel BTreeHeapModel MutSpec BTreeHeapMutModel Ask BTreeRangeAskModel.
Import ListNotations.
Local Open Scope nat_scope.

(** How a call ends that is not unwound by a comparison: [Made], it returns; [Torn], the user's [clone] panicked; [Broke], the code
    itself panicked (a slice out of range, an assertion). Unlike with [Fault], the argument is known in all cases. *)
Inductive halt (R : Type) : Type := Made (r : R) | Torn | Broke.
Arguments Made {R} r.
Arguments Torn {R}.
Arguments Broke {R}.

Section RangeMut.
  Context {K V Q : Type} (bor : K -> Q) (ask : nat -> Q -> Q -> option comparison).
  Variable bomb : nat -> bool.
  Notation entry := (K * V)%type.
  Notation heap := (heap (list entry)).
  Notation outcome := (trial (heap * option addr) (halt (list mwork))).

  (** Going on in node [a] after the call for a child. *)
  Definition then_w (a : addr) (t : outcome) (f : heap -> list mwork -> nat -> outcome) : outcome :=
    match t with
    | Returned (h, _) (Made w) n => f h w n
    | Returned (h, _) Torn n => Returned (h, Some a) Torn n
    | Returned (h, _) Broke n => Returned (h, Some a) Broke n
    | Ask.Unwound (h, _) n => Ask.Unwound (h, Some a) n
    | Fault => Fault
    end.
  (** btree.rs:1977-1995: from [to_prune] to the end, after [w1] was pushed; [call] is the function itself. *)
  Definition hm_right_t (call : heap -> mslot -> bound Q -> bound Q -> nat -> outcome) (a : addr)
    (edges : (nat * nat * bool) * (nat * nat * bool)) (lk uk : nat) (lb ub : bound Q) (w1 : list mwork) (h : heap) (n : nat) : outcome :=
    let '((lb_elems, lb_kids, left_prune), (ub_elems, ub_kids, right_prune)) := edges in
    let '(to_prune, uk) := if right_prune && (lk <? uk) then (Some (SKid a (uk - 1)), uk - 1) else (None, uk) in
    let w2 := if (0 <? ub_elems - lb_elems) || (0 <? uk - lk)
              then [MW a lb_elems ub_elems lk uk (negb left_prune && (lb_elems =? lb_kids))
                                                 (negb right_prune && (ub_elems <? ub_kids))]
              else [] in
    match to_prune with
    | Some s => then_w a (call h s lb ub n) (fun h3 w3 n3 => Returned (h3, Some a) (Made (w1 ++ w2 ++ w3)) n3)
    | None => Returned (h, Some a) (Made (w1 ++ w2)) n
    end.
  (** btree.rs:1940-1996 [make_mut_worklist]. The argument is the heap; also the node that [make_mut] gave for the slot, if it
      was called. *)
  Fixpoint hm_worklist_t (fuel : nat) (h : heap) (s : mslot) (lb ub : bound Q) (n : nat) : outcome :=
    match fuel with
    | O => Fault
    | S fuel' =>
      match (c <- slot_addr h s;; peek h c) with
      | Panic => Fault
      | Ok es =>
        after (find_range_edges_t bor ask es lb ub n) (fun _ => (h, None)) (fun _ edges n1 =>
        let '((lb_elems, lb_kids, left_prune), (ub_elems, ub_kids, right_prune)) := edges in
        match slot_mut bomb h s with
        | Panic => Fault
        | Ok (h1, None) => Returned (h1, None) Torn n1
        | Ok (h1, Some a) =>
          match excl h1 a with
          | Panic => Fault
          | Ok nd =>
            match slice lb_elems ub_elems (nd_data nd) with
            | Panic => Returned (h1, Some a) Broke n1
            | Ok _ =>
              let '(lk, uk) := match slice lb_kids ub_kids (nd_kids nd) with Ok _ => (lb_kids, ub_kids) | Panic => (0, 0) end in
              if left_prune then
                match (if (uk - lk =? 1) && right_prune then _ <- assert_ (ub_elems - lb_elems =? 0);; Ok ub else Ok Unbounded) with
                | Panic => Returned (h1, Some a) Broke n1
                | Ok ub' =>
                  if lk <? uk then
                    then_w a (hm_worklist_t fuel' h1 (SKid a lk) lb ub' n1) (fun h2 w1 n2 =>
                    hm_right_t (hm_worklist_t fuel') a edges (lk + 1) uk Unbounded ub w1 h2 n2)
                  else hm_right_t (hm_worklist_t fuel') a edges lk uk Unbounded ub [] h1 n1
                end
              else hm_right_t (hm_worklist_t fuel') a edges lk uk lb ub [] h1 n1
            end
          end
        end)
      end
    end.

  (** btree.rs:2083-2117 [RangeMut::new], :864-874 [range_mut]. *)
  Definition hb_range_mut_t (h : heap) (m : hbmap) (lb ub : bound Q) (n : nat) : trial (heap * hbmap) (halt m_iter) :=
    after (bad_range_t ask lb ub n) (fun _ => (h, m)) (fun _ bad n1 =>
    if bad then Returned (h, m) Broke n1 else
    match hb_root m with
    | None => Returned (h, m) (Made (MIter [] (hb_len m))) n1
    | Some a =>
      let put (x : option addr) := HB (hb_len m) (match x with Some a' => Some a' | None => Some a end) in
      match hm_worklist_t (depth h) h (SRoot a) lb ub n1 with
      | Returned (h1, x) o n2 =>
        Returned (h1, put x) (match o with Made w => Made (MIter w (hb_len m)) | Torn => Torn | Broke => Broke end) n2
      | Ask.Unwound (h1, x) n2 => Ask.Unwound (h1, put x) n2
      | Fault => Fault
      end
    end).
End RangeMut.
