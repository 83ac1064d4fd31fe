(** [fixed::BTreeMap::iter_mut] on maps that share nodes: [/repo/src/btree/core.rs] :973-1001 ([NodeIter::next]), :1054-1081
    ([NodeIterMut::new]), :1239-1318 ([InnerIter], [IterMut]) and [/repo/src/btree/fixed.rs] :86-95, on the heap of
    [FixedHeapModel].

    A slice iterator over the keys, the values or the children of a node is the address of the node and a range of
    indices; the keys and the values have one range in common, since their slices are of the same length and are always
    advanced together. A [(&K, &mut V)] is the address of a node and an index; a [&mut Arc<Node>] is likewise a slot
    ([mslot]). What happens through them is checked to happen on an unshared live cell ([HeapMut.excl]). *)
From Coq Require Import List PeanoNat Bool.
From Verif Require Import Base Spec Vec Heap HeapMut BTreeHeapModel MutSpec BTreeHeapMutModel FixedModel FixedIterModel FixedHeapModel.
Import ListNotations.
Local Open Scope nat_scope.

Section FixedHeapMut.
  Context {K V : Type}.
  Variable bomb : nat -> bool.
  Notation elems := (elems K V).
  Notation okids := (option (kids addr)).
  Notation cell := (elems * okids)%type.
  Notation heap := (heap cell).
  Notation entry := (K * V)%type.

  (** core.rs:973-980 [struct NodeIter] over the entries [e..ue] and the children [k..uk] of the node [at];
      [is_next_back_elem] is only read by [NodeIter::next_back], which nobody calls. *)
  Record fwork := FW { fw_at : addr; fw_e : nat; fw_ue : nat; fw_k : nat; fw_uk : nat; fw_elem : bool }.

  (** core.rs:990-1000 [next]. *)
  Definition fw_next (i : fwork) : option (iter_action mref mslot) * fwork :=
    let '(FW a e ue k uk el) := i in
    if el then
      let el := uk - k =? 0 in
      if e <? ue then (Some (Return (a, e)), FW a (e + 1) ue k uk el) else (None, FW a e ue k uk el)
    else
      if k <? uk then (Some (Descend (SKid a k)), FW a e ue (k + 1) uk true) else (None, FW a e ue k uk true).

  (** core.rs:1061 [Arc::make_mut], on the root pointer of a map or on a slot of a node; [None]: the user's [clone]
      panicked. *)
  Definition f_kid_mut (h : heap) (a : addr) (j : nat) : res (heap * option addr) :=
    n <- excl h a;;
    b <- unwrap (snd (nd_data n));;
    c <- slot_read (kd_ptrs b) j;;
    '(h1, r) <- f_make_mut bomb h c;;
    match r with
    | None => Ok (h1, None)
    | Some c' =>
      n1 <- excl h1 a;;
      b1 <- unwrap (snd (nd_data n1));;
      n2 <- f_node (fst (nd_data n1)) (Some (Kids (set_at j (Some c') (kd_ptrs b1)) (kd_len b1)));;
      Ok (put h1 a (Some (1, n2)), Some c')
    end.
  Definition f_slot_mut (h : heap) (s : mslot) : res (heap * option addr) :=
    match s with
    | SRoot a => f_make_mut bomb h a
    | SKid a j => f_kid_mut h a j
    end.

  (** core.rs:1060-1080 [NodeIterMut::new]. *)
  Definition fw_new (h : heap) (s : mslot) : res (heap * option fwork) :=
    '(h1, r) <- f_slot_mut h s;;
    match r with
    | None => Ok (h1, None)
    | Some a =>
      n <- excl h1 a;;
      let '(e, d) := nd_data n in
      kids <- match d with Some b => l <- live (kd_ptrs b) (kd_len b);; Ok (length l) | None => Ok 0 end;;
      keys <- live (el_keys e) (el_len e);;
      vals <- live (el_vals e) (el_len e);;
      Ok (h1, Some (FW a 0 (length vals) 0 kids (kids =? 0)))
    end.

  (** core.rs:1263-1281 [InnerIter::next]. [fuel] bounds the rounds of the loop. When [NodeIterMut::new] unwinds, the
      child has been taken from its parent's iterator. *)
  Notation result := (res (heap * f_iter fwork * out (option mref))).
  Fixpoint fm_next_loop (fuel : nat) (h : heap) (w : list fwork) (len : nat) : result :=
    match w with
    | [] => Ok (h, FIter [] len, Done None)
    | i :: w' =>
      match fuel with
      | O => Panic
      | S fuel' =>
        let '(a, i') := fw_next i in
        match a with
        | Some (Return r) => len' <- usize_sub len 1;; Ok (h, FIter (i' :: w') len', Done (Some r))
        | Some (Descend s) =>
          '(h1, j) <- fw_new h s;;
          match j with
          | None => Ok (h1, FIter (i' :: w') len, Unwound)
          | Some j => fm_next_loop fuel' h1 (j :: i' :: w') len
          end
        | None => fm_next_loop fuel' h w' len
        end
      end
    end.
  (** core.rs:1285-1303 [InnerIter::next_back]: it works at the back of the queue and calls the node iterator's
      [next]. *)
  Fixpoint fm_back_loop (fuel : nat) (h : heap) (w : list fwork) (len : nat) : result :=
    match vec_pop w with
    | None => Ok (h, FIter [] len, Done None)
    | Some (i, w') =>
      match fuel with
      | O => Panic
      | S fuel' =>
        let '(a, i') := fw_next i in
        match a with
        | Some (Return r) => len' <- usize_sub len 1;; Ok (h, FIter (w' ++ [i']) len', Done (Some r))
        | Some (Descend s) =>
          '(h1, j) <- fw_new h s;;
          match j with
          | None => Ok (h1, FIter (w' ++ [i']) len, Unwound)
          | Some j => fm_back_loop fuel' h1 ((w' ++ [i']) ++ [j]) len
          end
        | None => fm_back_loop fuel' h w' len
        end
      end
    end.
  Definition fm_fuel (h : heap) (it : f_iter fwork) : nat := S (length (fi_work it) + length (cells h)).
  Definition fm_next (h : heap) (it : f_iter fwork) : result := fm_next_loop (fm_fuel h it) h (fi_work it) (fi_len it).
  Definition fm_next_back (h : heap) (it : f_iter fwork) : result := fm_back_loop (fm_fuel h it) h (fi_work it) (fi_len it).

  (** fixed.rs:86-95 [iter_mut], core.rs:1246-1257 [InnerIter::new]. *)
  Definition fh_iter_mut (h : heap) (m : fhmap) : res (heap * fhmap * out (f_iter fwork)) :=
    match fh_root m with
    | None => Ok (h, m, Done (FIter [] (fh_len m)))
    | Some a =>
      '(h1, i) <- fw_new h (SRoot a);;
      match i with
      | None => Ok (h1, m, Unwound)
      | Some i => Ok (h1, FH (Some (fw_at i)) (fh_len m), Done (FIter [i] (fh_len m)))
      end
    end.

  (** Reading and writing through a reference that the iterator handed out. *)
  Definition f_ref_read (h : heap) (r : mref) : res entry :=
    n <- excl h (fst r);;
    k <- slot_read (el_keys (fst (nd_data n))) (snd r);;
    v <- slot_read (el_vals (fst (nd_data n))) (snd r);;
    Ok (k, v).
  Definition f_ref_write (h : heap) (r : mref) (w : V -> V) : res heap :=
    n <- excl h (fst r);;
    let '(e, d) := nd_data n in
    v <- slot_read (el_vals e) (snd r);;
    n1 <- f_node (Elems (el_keys e) (set_at (snd r) (Some (w v)) (el_vals e)) (el_len e)) d;;
    Ok (put h (fst r) (Some (1, n1))).

  (** A client: calls of the iterator and uses of the references handed out so far ([refs]), in any order. Each result
      is an entry as it is at that moment, and the [len()] of the iterator (core.rs:1306-1310). The client catches the
      panics of the user's [clone] and goes on. *)
  Fixpoint fm_run (cs : list (mcall V)) (h : heap) (it : f_iter fwork) (refs : list mref)
    : res (heap * f_iter fwork * list (out (option entry) * nat)) :=
    match cs with
    | [] => Ok (h, it, [])
    | MWrite j w :: cs' =>
      '(h1, o) <- match nth_error refs j with
                  | None => Ok (h, None)
                  | Some r => e <- f_ref_read h r;; h1 <- f_ref_write h r w;; Ok (h1, Some e)
                  end;;
      '(h2, it2, outs) <- fm_run cs' h1 it refs;;
      Ok (h2, it2, (Done o, fi_len it) :: outs)
    | c :: cs' =>
      '(h1, it1, o) <- match c with MBack => fm_next_back h it | _ => fm_next h it end;;
      match o with
      | Unwound => '(h2, it2, outs) <- fm_run cs' h1 it1 refs;; Ok (h2, it2, (Unwound, fi_len it1) :: outs)
      | Done None => '(h2, it2, outs) <- fm_run cs' h1 it1 refs;; Ok (h2, it2, (Done None, fi_len it1) :: outs)
      | Done (Some r) =>
        e <- f_ref_read h1 r;;
        '(h2, it2, outs) <- fm_run cs' h1 it1 (refs ++ [r]);;
        Ok (h2, it2, (Done (Some e), fi_len it1) :: outs)
      end
    end.
  (** [let it = m.iter_mut()], and the client; [Unwound]: [iter_mut] itself unwound. *)
  Definition fh_iter_mut_calls (h : heap) (m : fhmap) (cs : list (mcall V))
    : res (heap * fhmap * out (list (out (option entry) * nat))) :=
    '(h1, m1, o) <- fh_iter_mut h m;;
    match o with
    | Unwound => Ok (h1, m1, Unwound)
    | Done it => '(h2, _, outs) <- fm_run cs h1 it [];; Ok (h2, m1, Done outs)
    end.
End FixedHeapMut.
