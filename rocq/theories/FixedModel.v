(** Model of the array-based B-tree map of [/repo/src/btree/core.rs] and
    [/repo/src/btree/fixed.rs]. [Arc] is transparent, as in [BTreeModel]. The arrays
    of [MaybeUninit] are lists of slots that are all present and may each hold a
    value or none. Undefined behaviour that depends on the slots is a [Panic]: raw
    copies and writes outside the array, reads of a slot that was never written.
    A copy or a read leaves its source slot as it was, as the machine does. *)
From Coq Require Import List PeanoNat Bool.
From Verif Require Import Base Spec Vec.
Import ListNotations.

(** core.rs:13-19. *)
Definition max_occupancy (min_occ : nat) : nat := 2 * min_occ + 1.
Definition MIN_OCCUPANCY : nat := 5.
Definition MAX_OCCUPANCY : nat := max_occupancy MIN_OCCUPANCY.
Definition MAX_KIDS : nat := MAX_OCCUPANCY + 1.

(** ** Slots *)
Section Slots.
  Context {A : Type}.
  Notation slots := (list (option A)).

  (** core.rs:60-61 [MaybeUninit::uninit]. *)
  Definition uninit (n : nat) : slots := repeat None n.

  (** [MaybeUninit::assume_init_read], [ptr::read] + [assume_init]. *)
  Definition slot_read (s : slots) (i : nat) : res A :=
    match nth_error s i with Some (Some x) => Ok x | _ => Panic end.
  (** [MaybeUninit::write], [ptr::write]. *)
  Definition slot_write (s : slots) (i : nat) (x : A) : res slots :=
    if i <? length s then Ok (set_at i (Some x) s) else Panic.
  (** [copy(src.add(i), dst.add(j), cnt)]; the ranges may overlap. *)
  Definition slot_copy (src : slots) (i : nat) (dst : slots) (j cnt : nat) : res slots :=
    if (i + cnt <=? length src) && (j + cnt <=? length dst)
    then Ok (firstn j dst ++ firstn cnt (skipn i src) ++ skipn (j + cnt) dst) else Panic.

  (** core.rs:115-120, 123-128, 131-142, 191-203: the slice of the first [len] slots.
      It is made from a reference to slot 0, which must hold a value even if
      [len] is 0. *)
  Fixpoint all_init (s : slots) : res (list A) :=
    match s with
    | [] => Ok []
    | None :: _ => Panic
    | Some x :: s' => l <- all_init s';; Ok (x :: l)
    end.
  Definition live (s : slots) (len : nat) : res (list A) :=
    _ <- slot_read s 0;;
    _ <- assert_ (len <=? length s);;
    all_init (firstn len s).
  (** Assignment through the mutable slice; an index out of range panics. *)
  Definition live_set (s : slots) (len i : nat) (x : A) : res slots :=
    l <- live s len;; _ <- assert_ (i <? length l);; Ok (set_at i (Some x) s).

  (** core.rs:99-112 [insert], for one of the two arrays. *)
  Definition slot_insert (s : slots) (len idx : nat) (x : A) : res slots :=
    s1 <- slot_copy s idx s (idx + 1) (len - idx);; slot_write s1 idx x.
  (** core.rs:165-189 [remove], for one of the two arrays. *)
  Definition slot_remove (s : slots) (len idx : nat) : res (A * slots) :=
    x <- slot_read s idx;; s1 <- slot_copy s (idx + 1) s idx (len - idx - 1);; Ok (x, s1).
End Slots.

(** core.rs:51-55 [struct InlineVec] as used for [Elems] (:267)... *)
Record elems (K V : Type) := Elems {
  el_keys : list (option K);
  el_vals : list (option V);
  el_len : nat }.
Arguments Elems {K V} el_keys el_vals el_len.
Arguments el_keys {K V} e.
Arguments el_vals {K V} e.
Arguments el_len {K V} e.

(** ... and for [Kids] (:272), whose [vals] are of type [()] and occupy no memory. *)
Record kids (A : Type) := Kids { kd_ptrs : list (option A); kd_len : nat }.
Arguments Kids {A} kd_ptrs kd_len.
Arguments kd_ptrs {A} k.
Arguments kd_len {A} k.

Section InlineVec.
  Context {K V A : Type}.
  Notation elems := (elems K V).
  Notation kids := (kids A).

  (** core.rs:58-64 [new]. *)
  Definition el_new : elems := Elems (uninit MAX_OCCUPANCY) (uninit MAX_OCCUPANCY) 0.
  Definition kd_new : kids := Kids (uninit MAX_KIDS) 0.

  (** core.rs:99-112 [insert]. *)
  Definition el_insert (e : elems) (idx : nat) (kv : K * V) : res elems :=
    _ <- assert_ (idx <=? el_len e);;
    _ <- assert_ (el_len e <? MAX_OCCUPANCY);;
    ks <- slot_insert (el_keys e) (el_len e) idx (fst kv);;
    vs <- slot_insert (el_vals e) (el_len e) idx (snd kv);;
    Ok (Elems ks vs (el_len e + 1)).
  Definition kd_insert (d : kids) (idx : nat) (x : A) : res kids :=
    _ <- assert_ (idx <=? kd_len d);;
    _ <- assert_ (kd_len d <? MAX_KIDS);;
    ps <- slot_insert (kd_ptrs d) (kd_len d) idx x;;
    Ok (Kids ps (kd_len d + 1)).

  (** core.rs:148-153 [push]. *)
  Definition el_push (e : elems) (kv : K * V) : res elems :=
    _ <- assert_ (el_len e <? MAX_OCCUPANCY);;
    ks <- slot_write (el_keys e) (el_len e) (fst kv);;
    vs <- slot_write (el_vals e) (el_len e) (snd kv);;
    Ok (Elems ks vs (el_len e + 1)).
  Definition kd_push (d : kids) (x : A) : res kids :=
    _ <- assert_ (kd_len d <? MAX_KIDS);;
    ps <- slot_write (kd_ptrs d) (kd_len d) x;;
    Ok (Kids ps (kd_len d + 1)).

  (** core.rs:155-162 [pop]. *)
  Definition el_pop (e : elems) : res ((K * V) * elems) :=
    _ <- assert_ (0 <? el_len e);;
    k <- slot_read (el_keys e) (el_len e - 1);;
    v <- slot_read (el_vals e) (el_len e - 1);;
    Ok ((k, v), Elems (el_keys e) (el_vals e) (el_len e - 1)).
  Definition kd_pop (d : kids) : res (A * kids) :=
    _ <- assert_ (0 <? kd_len d);;
    x <- slot_read (kd_ptrs d) (kd_len d - 1);;
    Ok (x, Kids (kd_ptrs d) (kd_len d - 1)).

  (** core.rs:165-189 [remove]. *)
  Definition el_remove (e : elems) (idx : nat) : res ((K * V) * elems) :=
    _ <- assert_ (idx <? el_len e);;
    '(k, ks) <- slot_remove (el_keys e) (el_len e) idx;;
    '(v, vs) <- slot_remove (el_vals e) (el_len e) idx;;
    Ok ((k, v), Elems ks vs (el_len e - 1)).
  Definition kd_remove (d : kids) (idx : nat) : res (A * kids) :=
    _ <- assert_ (idx <? kd_len d);;
    '(x, ps) <- slot_remove (kd_ptrs d) (kd_len d) idx;;
    Ok (x, Kids ps (kd_len d - 1)).

  (** core.rs:339-341 [key], :355-357 [val]. *)
  Definition el_get (e : elems) (i : nat) : res (K * V) :=
    ks <- live (el_keys e) (el_len e);;
    k <- unwrap (nth_error ks i);;
    vs <- live (el_vals e) (el_len e);;
    v <- unwrap (nth_error vs i);;
    Ok (k, v).
  (** [replace] through core.rs:343-345 [key_mut], :359-361 [val_mut]. *)
  Definition el_replace (e : elems) (i : nat) (kv : K * V) : res ((K * V) * elems) :=
    old <- el_get e i;;
    ks <- live_set (el_keys e) (el_len e) i (fst kv);;
    vs <- live_set (el_vals e) (el_len e) i (snd kv);;
    Ok (old, Elems ks vs (el_len e)).

  (** core.rs:89-97 [clear], :259-263 [drop]: the entries that are dropped in place. *)
  Definition el_clear (e : elems) : res (list (K * V) * elems) :=
    ks <- all_init (firstn (el_len e) (el_keys e));;
    vs <- all_init (firstn (el_len e) (el_vals e));;
    _ <- assert_ (el_len e <=? MAX_OCCUPANCY);;
    Ok (combine ks vs, Elems (el_keys e) (el_vals e) 0).
End InlineVec.

(** core.rs:283-287 [struct Node]. *)
Inductive fnode (K V : Type) : Type := FNode (e : elems K V) (d : option (kids (fnode K V))).
Arguments FNode {K V} e d.

Section Drop.
  Context {K V : Type}.
  (** The drop of a [Node]: first [elems], then [kids] (core.rs:259-263 for each array). A child is
      dropped with its [Arc] if that is the only one, which [un] tells. The result is the entries
      dropped, in order. *)
  Context (un : fnode K V -> bool).
  Fixpoint fn_drop (n : fnode K V) : res (list (K * V)) :=
    match n with
    | FNode e d =>
      '(es, _) <- el_clear e;;
      ds <- match d with
            | None => Ok []
            | Some (Kids ps len) =>
              (fix go ps cnt {struct ps} :=
                 match ps, cnt with
                 | _, O => Ok []
                 | Some c :: ps', S cnt' =>
                   a <- (if un c then fn_drop c else Ok []);; b <- go ps' cnt';; Ok (a ++ b)
                 | _, S _ => Panic
                 end) ps len
            end;;
      Ok (es ++ ds)
    end.
  Definition f_drop (m : option (fnode K V)) : res (list (K * V)) :=
    match m with Some n => if un n then fn_drop n else Ok [] | None => Ok [] end.

  (** core.rs:206-224 [clone] of the two arrays of a node (the user's [clone] gives an
      equal value; [Kids] clones the [Arc]s). *)
  Fixpoint clone_slots {A} (len : nat) (s : list (option A)) : res (list (option A)) :=
    match len, s with
    | O, _ => Ok (uninit (length s))
    | S len', Some x :: s' => r <- clone_slots len' s';; Ok (Some x :: r)
    | S _, _ => Panic
    end.
  Definition cell_clone {A} (e : elems K V) (d : option (kids A)) : res (elems K V * option (kids A)) :=
    ks <- clone_slots (el_len e) (el_keys e);;
    vs <- clone_slots (el_len e) (el_vals e);;
    d' <- match d with
          | None => Ok None
          | Some b => ps <- clone_slots (kd_len b) (kd_ptrs b);; Ok (Some (Kids ps (kd_len b)))
          end;;
    Ok (Elems ks vs (el_len e), d').
  Definition fn_clone (n : fnode K V) : res (fnode K V) :=
    match n with FNode e d => '(e', d') <- cell_clone e d;; Ok (FNode e' d') end.
End Drop.

(** fixed.rs:6-10 [struct BTreeMap]. *)
Record f_map (K V : Type) := FMap { fm_root : option (fnode K V); fm_len : nat }.
Arguments FMap {K V} fm_root fm_len.
Arguments fm_root {K V} f.
Arguments fm_len {K V} f.

(** core.rs:807-811 [enum InsertResult]. *)
Inductive f_res (K V : Type) : Type :=
| FAbsorbed
| FReplaced (k : K) (v : V)
| FSplit (c : option (fnode K V)) (kv : K * V).
Arguments FAbsorbed {K V}.
Arguments FReplaced {K V} k v.
Arguments FSplit {K V} c kv.

(** core.rs:813-829 [struct Splitter]. [sp_same] tells that the destination pointers
    have been made equal to the source pointers (:493-495); the [sp_d*] fields
    then are the left node's, out of reach of the splitter. [A] is the type of child pointers. *)
Record splitter (K V A : Type) := Splitter {
  sp_keys : list (option K);
  sp_vals : list (option V);
  sp_kids : option (list (option A));
  sp_idx : nat;
  sp_kids_idx : nat;
  sp_dkeys : list (option K);
  sp_dvals : list (option V);
  sp_dkids : option (list (option A));
  sp_didx : nat;
  sp_dkids_idx : nat;
  sp_same : bool }.
Arguments Splitter {K V A}.
Arguments sp_keys {K V A}.
Arguments sp_vals {K V A}.
Arguments sp_kids {K V A}.
Arguments sp_idx {K V A}.
Arguments sp_kids_idx {K V A}.
Arguments sp_dkeys {K V A}.
Arguments sp_dvals {K V A}.
Arguments sp_dkids {K V A}.
Arguments sp_didx {K V A}.
Arguments sp_dkids_idx {K V A}.
Arguments sp_same {K V A}.

Section Splitter.
  Context {K V A : Type}.
  Notation splitter := (splitter K V A).

  (** core.rs:832-850 [Splitter::new]. *)
  Definition sp_new (e : elems K V) (d : option (kids A)) (de : elems K V) (dd : option (kids A)) : splitter :=
    Splitter (el_keys e) (el_vals e) (option_map kd_ptrs d) 0 0
             (el_keys de) (el_vals de) (option_map kd_ptrs dd) 0 0 false.

  (** The arrays that the destination pointers point to, and a write to them. *)
  Definition dst_keys (p : splitter) := if sp_same p then sp_keys p else sp_dkeys p.
  Definition dst_vals (p : splitter) := if sp_same p then sp_vals p else sp_dvals p.
  Definition dst_kids (p : splitter) := if sp_same p then sp_kids p else sp_dkids p.
  Definition set_dst (p : splitter) ks vs ds : splitter :=
    if sp_same p
    then Splitter ks vs ds (sp_idx p) (sp_kids_idx p) (sp_dkeys p) (sp_dvals p) (sp_dkids p)
                  (sp_didx p) (sp_dkids_idx p) true
    else Splitter (sp_keys p) (sp_vals p) (sp_kids p) (sp_idx p) (sp_kids_idx p) ks vs ds
                  (sp_didx p) (sp_dkids_idx p) false.
  Definition set_idx (p : splitter) i ki di dki : splitter :=
    Splitter (sp_keys p) (sp_vals p) (sp_kids p) i ki (sp_dkeys p) (sp_dvals p) (sp_dkids p)
             di dki (sp_same p).

  (** core.rs:852-887 [xfer]. *)
  Definition sp_xfer (p : splitter) (cnt cnt_kids : nat) : res splitter :=
    _ <- assert_ (sp_idx p + cnt <=? MAX_OCCUPANCY);;
    _ <- assert_ (sp_didx p + cnt <=? MAX_OCCUPANCY);;
    _ <- assert_ (sp_kids_idx p + cnt_kids <=? MAX_KIDS);;
    _ <- assert_ (sp_dkids_idx p + cnt_kids <=? MAX_KIDS);;
    ks <- slot_copy (sp_keys p) (sp_idx p) (dst_keys p) (sp_didx p) cnt;;
    vs <- slot_copy (sp_vals p) (sp_idx p) (dst_vals p) (sp_didx p) cnt;;
    ds <- match sp_kids p with
          | Some sk =>
            dk <- unwrap (dst_kids p);;
            r <- slot_copy sk (sp_kids_idx p) dk (sp_dkids_idx p) cnt_kids;; Ok (Some r)
          | None => Ok (dst_kids p)
          end;;
    Ok (set_idx (set_dst p ks vs ds) (sp_idx p + cnt) (sp_kids_idx p + cnt_kids)
                (sp_didx p + cnt) (sp_dkids_idx p + cnt_kids)).

  (** core.rs:904-915 [push_back_kid_dst]. *)
  Definition sp_push_kid (p : splitter) (kid : option A) : res splitter :=
    _ <- assert_ (sp_didx p <? MAX_OCCUPANCY);;
    ds <- match kid with
          | Some c =>
            dk <- unwrap (dst_kids p);;
            r <- slot_write dk (sp_dkids_idx p) c;; Ok (Some r)
          | None => Ok (dst_kids p)
          end;;
    let p1 := set_dst p (dst_keys p) (dst_vals p) ds in
    Ok (set_idx p1 (sp_idx p1) (sp_kids_idx p1) (sp_didx p1) (sp_dkids_idx p1 + 1)).

  (** core.rs:889-902 [push_back_dst]. *)
  Definition sp_push (p : splitter) (kv : K * V) (kid : option A) : res splitter :=
    _ <- assert_ (sp_didx p <? MAX_OCCUPANCY);;
    ks <- slot_write (dst_keys p) (sp_didx p) (fst kv);;
    vs <- slot_write (dst_vals p) (sp_didx p) (snd kv);;
    let p1 := set_dst p ks vs (dst_kids p) in
    sp_push_kid (set_idx p1 (sp_idx p1) (sp_kids_idx p1) (sp_didx p1 + 1) (sp_dkids_idx p1)) kid.

  (** core.rs:917-927 [pop_front_src]. *)
  Definition sp_pop (p : splitter) : res ((K * V) * splitter) :=
    _ <- assert_ (sp_idx p <? MAX_OCCUPANCY);;
    k <- slot_read (sp_keys p) (sp_idx p);;
    v <- slot_read (sp_vals p) (sp_idx p);;
    Ok ((k, v), set_idx p (sp_idx p + 1) (sp_kids_idx p) (sp_didx p) (sp_dkids_idx p)).

  (** core.rs:929-955 [finalize_src]. *)
  Definition sp_finalize (p : splitter) : res splitter :=
    ks <- slot_copy (sp_keys p) (sp_idx p) (sp_keys p) 0 (MAX_OCCUPANCY - sp_idx p);;
    vs <- slot_copy (sp_vals p) (sp_idx p) (sp_vals p) 0 (MAX_OCCUPANCY - sp_idx p);;
    ds <- match sp_kids p with
          | Some sk =>
            r <- slot_copy sk (sp_kids_idx p) sk 0 (MAX_KIDS - sp_kids_idx p);; Ok (Some r)
          | None => Ok None
          end;;
    Ok (Splitter ks vs ds MAX_OCCUPANCY MAX_KIDS (sp_dkeys p) (sp_dvals p) (sp_dkids p)
                 (sp_didx p) (sp_dkids_idx p) (sp_same p)).

  (** core.rs:492-497. *)
  Definition sp_repurpose (p : splitter) : splitter :=
    Splitter (sp_keys p) (sp_vals p) (sp_kids p) (sp_idx p) (sp_kids_idx p)
             (sp_dkeys p) (sp_dvals p) (sp_dkids p) 0 0 true.
End Splitter.

Section Fixed.
  Context {K V Q : Type} (bor : K -> Q) (cmp : Q -> Q -> comparison).
  (** Whether [size_of::<K>() <= size_of::<usize>()]. *)
  Context (small_key : bool).
  Notation fnode := (fnode K V).
  Notation fmap := (f_map K V).

  (** core.rs:74-82: the linear search; [inl i] is [Ok(i)], [inr i] is [Err(i)]. *)
  Fixpoint lin_search (q : Q) (ks : list K) (i : nat) : nat + nat :=
    match ks with
    | [] => inr i
    | k :: ks' =>
      match cmp q (bor k) with
      | Lt => inr i
      | Eq => inl i
      | Gt => lin_search q ks' (S i)
      end
    end.
  (** [slice::binary_search_by]: the loop of the standard library, over the positions
      from [left] (inclusive) to [right] (exclusive). *)
  Fixpoint bin_search (fuel : nat) (q : Q) (ks : list K) (left right : nat) : res (nat + nat) :=
    if left <? right then
      match fuel with
      | O => Panic
      | S fuel' =>
        let mid := left + Nat.div2 (right - left) in
        k <- unwrap (nth_error ks mid);;
        match cmp (bor k) q with
        | Eq => Ok (inl mid)
        | Lt => bin_search fuel' q ks (mid + 1) right
        | Gt => bin_search fuel' q ks left mid
        end
      end
    else Ok (inr left).

  (** core.rs:66-87 [search_keys]. *)
  Definition search_keys (q : Q) (e : elems K V) : res (nat + nat) :=
    ks <- live (el_keys e) (el_len e);;
    if small_key then Ok (lin_search q ks 0)
    else bin_search (length ks) q ks 0 (length ks).

  (** core.rs:291-302 [new], [new_leaf], :304-315 [new_branch]. *)
  Definition fn_new : fnode := FNode el_new None.
  Definition fn_leaf (kv : K * V) : res fnode := e <- el_push el_new kv;; Ok (FNode e None).
  Definition fn_branch (lhs : fnode) (kv : K * V) (rhs : fnode) : res fnode :=
    e <- el_push el_new kv;;
    d <- kd_push kd_new lhs;;
    d <- kd_push d rhs;;
    Ok (FNode e (Some d)).

  (** core.rs:317-323 [child], [child_mut], :347-353 [kids], [kids_mut]. *)
  Definition fchild {A} (d : option (kids A)) (i : nat) : res (option A) :=
    match d with
    | Some d => l <- live (kd_ptrs d) (kd_len d);; Ok (nth_error l i)
    | None => Ok None
    end.
  (** core.rs:325-333 [last_child_mut]. *)
  Definition flast {A} (d : option (kids A)) : res (option A) :=
    match d with
    | Some d =>
      if 0 <? kd_len d then l <- live (kd_ptrs d) (kd_len d);; Ok (nth_error l (kd_len d - 1))
      else Ok None
    | None => Ok None
    end.
  (** Write the child back through the reference that [child_mut] gave. *)
  Definition fput {A} (d : option (kids A)) (i : nat) (c : A) : option (kids A) :=
    match d with
    | Some d => Some (Kids (set_at i (Some c) (kd_ptrs d)) (kd_len d))
    | None => None
    end.
  (** A function on the children: on every slot that holds one. *)
  Definition on_kids {A B} (f : A -> B) (d : option (kids A)) : option (kids B) :=
    match d with
    | Some (Kids ps n) => Some (Kids (map (fun o => match o with Some c => Some (f c) | None => None end) ps) n)
    | None => None
    end.
  Definition fn_elems (n : fnode) : elems K V := match n with FNode e _ => e end.
  Definition fn_kids (n : fnode) : option (kids fnode) := match n with FNode _ d => d end.
  Definition fn_len (n : fnode) : nat := el_len (fn_elems n).
  (** core.rs:363-365 [is_empty]. *)
  Definition fn_is_empty (n : fnode) : bool := fn_len n =? 0.
  Definition is_some {A} (o : option A) : bool := match o with Some _ => true | None => false end.

  (** core.rs:367-377 [Node::get]. *)
  Fixpoint fn_get (q : Q) (n : fnode) : res (option (K * V)) :=
    match n with
    | FNode e d =>
      r <- search_keys q e;;
      match r with
      | inl i => kv <- el_get e i;; Ok (Some kv)
      | inr i =>
        c <- fchild (on_kids (fn_get q) d) i;;
        match c with Some r => r | None => Ok None end
      end
    end.

  (** core.rs:379-389 [Node::get_mut]; [w] is what the caller does through the
      reference, the old value is returned. *)
  Fixpoint fn_get_mut (q : Q) (w : V -> V) (n : fnode) : res (fnode * option V) :=
    match n with
    | FNode e d =>
      r <- search_keys q e;;
      match r with
      | inl i =>
        vs <- live (el_vals e) (el_len e);;
        v <- unwrap (nth_error vs i);;
        Ok (FNode (Elems (el_keys e) (set_at i (Some (w v)) (el_vals e)) (el_len e)) d, Some v)
      | inr i =>
        c <- fchild (on_kids (fn_get_mut q w) d) i;;
        match c with
        | Some m => '(c', r) <- m;; Ok (FNode e (fput d i c'), r)
        | None => Ok (n, None)
        end
      end
    end.

  (** core.rs:426-442 [ins_no_split], on the two arrays of a node. *)
  Definition cell_absorb {A} (e : elems K V) (d : option (kids A)) (idx : nat) (kid : option A) (kv : K * V)
    : res (elems K V * option (kids A)) :=
    _ <- assert_ (el_len e <? MAX_OCCUPANCY);;
    _ <- assert_ (idx <=? el_len e);;
    _ <- assert_ (Bool.eqb (is_some d) (is_some kid));;
    e' <- el_insert e idx kv;;
    d' <- match kid with
          | Some c => d1 <- unwrap d;; d2 <- kd_insert d1 idx c;; Ok (Some d2)
          | None => Ok d
          end;;
    Ok (e', d').
  Definition ins_no_split (n : fnode) (idx : nat) (kid : option fnode) (kv : K * V)
    : res (fnode * f_res K V) :=
    match n with FNode e d => '(e', d') <- cell_absorb e d idx kid kv;; Ok (FNode e' d', FAbsorbed) end.

  (** core.rs:450-516 [ins_split], on the two arrays of a node: those of the node that stays (the upper
      part), those of the new lower node, and the dividing entry. *)
  Definition cell_split {A} (e : elems K V) (d : option (kids A)) (idx : nat) (kid : option A) (kv : K * V)
    : res ((elems K V * option (kids A)) * (elems K V * option (kids A)) * (K * V)) :=
    _ <- assert_ (el_len e =? MAX_OCCUPANCY);;
    _ <- assert_ (Bool.eqb (is_some d) (is_some kid));;
    let p := sp_new e d el_new (match d with Some _ => Some kd_new | None => None end) in
    '(div_kv, lhs_len, p) <-
      (if idx <? MIN_OCCUPANCY then
         p <- sp_xfer p idx idx;;
         p <- sp_push p kv kid;;
         p <- sp_xfer p (MIN_OCCUPANCY - idx - 1) (MIN_OCCUPANCY - idx);;
         '(div, p) <- sp_pop p;;
         let len := sp_didx p in
         p <- sp_finalize p;;
         Ok (div, len, p)
       else if (idx =? MIN_OCCUPANCY) || (idx =? MIN_OCCUPANCY + 1) then
         p <- sp_xfer p idx idx;;
         p <- sp_push_kid p kid;;
         let len := sp_didx p in
         p <- sp_finalize p;;
         Ok (kv, len, p)
       else
         p <- sp_xfer p (MIN_OCCUPANCY + 1) (MIN_OCCUPANCY + 2);;
         '(div, p) <- sp_pop p;;
         let len := sp_didx p in
         let p := sp_repurpose p in
         c <- usize_sub (idx - MIN_OCCUPANCY) 2;;
         p <- sp_xfer p c c;;
         p <- sp_push p kv kid;;
         c <- usize_sub MAX_OCCUPANCY idx;;
         ck <- usize_sub MAX_KIDS idx;;
         p <- sp_xfer p c ck;;
         Ok (div, len, p));;
    self_len <- usize_sub MAX_OCCUPANCY lhs_len;;
    let set_len (o : option (list (option A))) len :=
      match o with Some ps => Some (Kids ps (len + 1)) | None => None end in
    Ok ((Elems (sp_keys p) (sp_vals p) self_len, set_len (sp_kids p) self_len),
        (Elems (sp_dkeys p) (sp_dvals p) lhs_len, set_len (sp_dkids p) lhs_len), div_kv).
  Definition ins_split (n : fnode) (idx : nat) (kid : option fnode) (kv : K * V)
    : res (fnode * f_res K V) :=
    match n with
    | FNode e d =>
      '((he, hd), (le, ld), div) <- cell_split e d idx kid kv;;
      Ok (FNode he hd, FSplit (Some (FNode le ld)) div)
    end.

  (** core.rs:391-424 [Node::insert]. *)
  Fixpoint fn_insert (kv : K * V) (n : fnode) : res (fnode * f_res K V) :=
    match n with
    | FNode e d =>
      r <- search_keys (bor (fst kv)) e;;
      match r with
      | inl ub =>
        '(old, e') <- el_replace e ub kv;;
        Ok (FNode e' d, FReplaced (fst old) (snd old))
      | inr ub =>
        c <- fchild (on_kids (fn_insert kv) d) ub;;
        '(n1, r) <- match c with
                    | Some m => '(c', r) <- m;; Ok (FNode e (fput d ub c'), r)
                    | None => Ok (n, FSplit None kv)
                    end;;
        match r with
        | FSplit kid kv1 =>
          if fn_len n1 <? MAX_OCCUPANCY then ins_no_split n1 ub kid kv1
          else ins_split n1 ub kid kv1
        | _ => Ok (n1, r)
        end
      end
    end.

  (** core.rs:518-551 [rot_lf]. *)
  Definition f_rot_lf (n : fnode) (idx : nat) : res fnode :=
    match n with
    | FNode e d =>
      _ <- assert_ (is_some d);;
      c <- fchild d (idx + 1);;
      '(FNode re rd) <- unwrap c;;
      _ <- assert_ (MIN_OCCUPANCY <? el_len re);;
      '(kv2, re') <- el_remove re 0;;
      '(k12, rd') <- match rd with
                     | Some b => '(x, b') <- kd_remove b 0;; Ok (Some x, Some b')
                     | None => Ok (None, None)
                     end;;
      let d1 := fput d (idx + 1) (FNode re' rd') in
      '(kv1, e1) <- el_replace e idx kv2;;
      c <- fchild d1 idx;;
      '(FNode le ld) <- unwrap c;;
      _ <- assert_ (el_len le <? MIN_OCCUPANCY);;
      le' <- el_push le kv1;;
      ld' <- match k12 with
             | Some x => b <- unwrap ld;; b' <- kd_push b x;; Ok (Some b')
             | None => Ok ld
             end;;
      Ok (FNode e1 (fput d1 idx (FNode le' ld')))
    end.

  (** core.rs:553-583 [rot_rt]. *)
  Definition f_rot_rt (n : fnode) (idx : nat) : res fnode :=
    match n with
    | FNode e d =>
      _ <- assert_ (is_some d);;
      c <- fchild d idx;;
      '(FNode le ld) <- unwrap c;;
      _ <- assert_ (MIN_OCCUPANCY <? el_len le);;
      '(kv0, le') <- el_pop le;;
      '(k01, ld') <- match ld with
                     | Some b => '(x, b') <- kd_pop b;; Ok (Some x, Some b')
                     | None => Ok (None, None)
                     end;;
      let d1 := fput d idx (FNode le' ld') in
      '(kv1, e1) <- el_replace e idx kv0;;
      c <- fchild d1 (idx + 1);;
      '(FNode re rd) <- unwrap c;;
      re' <- el_insert re 0 kv1;;
      rd' <- match k01 with
             | Some x => b <- unwrap rd;; b' <- kd_insert b 0 x;; Ok (Some b')
             | None => Ok rd
             end;;
      Ok (FNode e1 (fput d1 (idx + 1) (FNode re' rd')))
    end.

  (** core.rs:586-641 [merge_kids]. *)
  Definition f_merge_kids (n : fnode) (at_ : nat) : res fnode :=
    match n with
    | FNode e d =>
      b <- unwrap d;;
      '(FNode re rd, b1) <- kd_remove b (at_ + 1);;
      '(mid, e1) <- el_remove e at_;;
      ps <- live (kd_ptrs b1) (kd_len b1);;
      '(FNode le ld) <- unwrap (nth_error ps at_);;
      le1 <- el_push le mid;;
      let lhs_len := el_len le1 in
      let rhs_len := el_len re in
      _ <- live (el_keys le1) lhs_len;;
      _ <- live (el_keys re) rhs_len;;
      ks <- slot_copy (el_keys re) 0 (el_keys le1) lhs_len rhs_len;;
      _ <- live (el_vals le1) lhs_len;;
      _ <- live (el_vals re) rhs_len;;
      vs <- slot_copy (el_vals re) 0 (el_vals le1) lhs_len rhs_len;;
      let le2 := Elems ks vs (lhs_len + rhs_len) in
      _ <- assert_ (el_len le2 <=? MAX_OCCUPANCY);;
      ld2 <- match ld with
             | Some lk =>
               rk <- unwrap rd;;
               ps <- slot_copy (kd_ptrs rk) 0 (kd_ptrs lk) (kd_len lk) (kd_len rk);;
               _ <- assert_ (kd_len lk + kd_len rk <=? MAX_KIDS);;
               Ok (Some (Kids ps (kd_len lk + kd_len rk)))
             | None => Ok None
             end;;
      (* The drop of [rhs_n], whose lengths are 0 by now. What it held is in the left
         node: to drop an entry here would be undefined behaviour. *)
      ds <- fn_drop (fun _ => true)
              (FNode (Elems (el_keys re) (el_vals re) 0)
                     (match ld, rd with Some _, Some rk => Some (Kids (kd_ptrs rk) 0) | _, _ => rd end));;
      _ <- assert_ (is_nil ds);;
      Ok (FNode e1 (fput (Some b1) at_ (FNode le2 ld2)))
    end.

  (** core.rs:592-599: the node that [merge_kids] leaves behind if the right child is shared and the user's
      [clone] panics. *)
  Definition merge_unwound (n : fnode) (at_ : nat) : res fnode :=
    match n with
    | FNode e d => b <- unwrap d;; '(_, b1) <- kd_remove b (at_ + 1);; Ok (FNode e (Some b1))
    end.

  (** core.rs:644-672 [rebal]; the flag is [IsUnderPop]. *)
  Definition f_rebal (n : fnode) (at_ : nat) : res (fnode * bool) :=
    _ <- assert_ (is_some (fn_kids n));;
    c <- fchild (fn_kids n) at_;;
    c <- unwrap c;;
    _ <- assert_ (fn_len c =? MIN_OCCUPANCY - 1);;
    let threshold := MAX_OCCUPANCY - MIN_OCCUPANCY in
    n' <- (if 0 <? at_ then
             s <- fchild (fn_kids n) (at_ - 1);;
             s <- unwrap s;;
             if threshold <? fn_len s then f_rot_rt n (at_ - 1) else f_merge_kids n (at_ - 1)
           else
             s <- fchild (fn_kids n) (at_ + 1);;
             s <- unwrap s;;
             if threshold <? fn_len s then f_rot_lf n at_ else f_merge_kids n at_);;
    Ok (n', fn_len n' <? MIN_OCCUPANCY).

  (** core.rs:674-693 [pop_greatest]. *)
  Fixpoint fn_pop_greatest (n : fnode) : res (fnode * ((K * V) * bool)) :=
    match n with
    | FNode e d =>
      c <- flast (on_kids fn_pop_greatest d);;
      match c with
      | Some m =>
        '(c', (kv, under)) <- m;;
        let n1 := FNode e (fput d (match d with Some b => kd_len b - 1 | None => 0 end) c') in
        if (under : bool) then '(n2, u) <- f_rebal n1 (el_len e);; Ok (n2, (kv, u))
        else Ok (n1, (kv, under))
      | None =>
        '(kv, e') <- el_pop e;;
        Ok (FNode e' d, (kv, el_len e' <? MIN_OCCUPANCY))
      end
    end.

  (** core.rs:695-732 [Node::remove]. *)
  Fixpoint fn_remove (q : Q) (n : fnode) : res (fnode * option ((K * V) * bool)) :=
    match n with
    | FNode e d =>
      r <- search_keys q e;;
      match r with
      | inl i =>
        match d with
        | None =>
          '(old, e') <- el_remove e i;;
          Ok (FNode e' None, Some (old, el_len e' <? MIN_OCCUPANCY))
        | Some _ =>
          c <- fchild (on_kids fn_pop_greatest d) i;;
          m <- unwrap c;;
          '(c', (kv, under)) <- m;;
          '(old, e') <- el_replace e i kv;;
          let n1 := FNode e' (fput d i c') in
          if (under : bool) then '(n2, u) <- f_rebal n1 i;; Ok (n2, Some (old, u))
          else Ok (n1, Some (old, false))
        end
      | inr i =>
        c <- fchild (on_kids (fn_remove q) d) i;;
        match c with
        | None => Ok (n, None)
        | Some m =>
          '(c', o) <- m;;
          let n1 := FNode e (fput d i c') in
          match o with
          | None => Ok (n1, None)
          | Some (kv, true) => '(n2, u) <- f_rebal n1 i;; Ok (n2, Some (kv, u))
          | Some (kv, false) => Ok (n1, Some (kv, false))
          end
        end
      end
    end.

  (** ** fixed.rs *)

  (** fixed.rs:13-20 [new], [clear], :75-77 [is_empty], :98-100 [len]. *)
  Definition f_new : fmap := FMap None 0.
  Definition f_clear (m : fmap) : fmap := FMap None 0.
  Definition f_is_empty (m : fmap) : bool := fm_len m =? 0.
  Definition f_len (m : fmap) : nat := fm_len m.

  (** fixed.rs:22-29 [get]. *)
  Definition f_get (m : fmap) (q : Q) : res (option V) :=
    match fm_root m with
    | None => Ok None
    | Some n => o <- fn_get q n;; Ok (option_map snd o)
    end.
  (** fixed.rs:31-40 [get_mut]. *)
  Definition f_get_mut (m : fmap) (q : Q) (w : V -> V) : res (fmap * option V) :=
    match fm_root m with
    | None => Ok (m, None)
    | Some n => '(n', o) <- fn_get_mut q w n;; Ok (FMap (Some n') (fm_len m), o)
    end.

  (** fixed.rs:42-73 [insert]. *)
  Definition f_insert (m : fmap) (k : K) (v : V) : res (fmap * option V) :=
    match fm_root m with
    | Some n =>
      '(n', r) <- fn_insert (k, v) n;;
      match r with
      | FAbsorbed => Ok (FMap (Some n') (fm_len m + 1), None)
      | FReplaced _ old => Ok (FMap (Some n') (fm_len m), Some old)
      | FSplit lt kv =>
        lt <- unwrap lt;;
        b <- fn_branch lt kv n';;
        Ok (FMap (Some b) (fm_len m + 1), None)
      end
    | None => n <- fn_leaf (k, v);; Ok (FMap (Some n) 1, None)
    end.

  (** fixed.rs:102-133 [rm_and_rebal], [remove]; core.rs:335-337 [pop_child]. *)
  Definition fn_pop_child (n : fnode) : res (option fnode) :=
    match fn_kids n with Some b => '(c, _) <- kd_pop b;; Ok (Some c) | None => Ok None end.
  Definition f_remove_entry (m : fmap) (q : Q) : res (fmap * option (K * V)) :=
    match fm_root m with
    | None => Ok (m, None)
    | Some n =>
      '(n', o) <- fn_remove q n;;
      match o with
      | None => Ok (FMap (Some n') (fm_len m), None)
      | Some (kv, under) =>
        len <- usize_sub (fm_len m) 1;;
        root <- (if under && fn_is_empty n' then fn_pop_child n' else Ok (Some n'));;
        Ok (FMap root len, Some kv)
      end
    end.
  Definition f_remove (m : fmap) (q : Q) : res (fmap * option V) :=
    '(m', o) <- f_remove_entry m q;; Ok (m', option_map snd o).

  (** fixed.rs:157-179 [extend], [from_iter]. *)
  Fixpoint f_extend (m : fmap) (ps : list (K * V)) : res fmap :=
    match ps with
    | [] => Ok m
    | (k, v) :: ps' => '(m', _) <- f_insert m k v;; f_extend m' ps'
    end.
  Definition f_from_iter (ps : list (K * V)) : res fmap := f_extend f_new ps.

  (** core.rs:734-784 [chk], [chk_aux]; fixed.rs:135-145 [chk]. *)
  Definition key_lt (a b : K) : bool := match cmp (bor a) (bor b) with Lt => true | _ => false end.
  Section Chk.
    (** [chk_aux] on the child with a given index. *)
    Context (kid : nat -> option K -> res (option (res (option K * nat * nat)))).
    Fixpoint f_chk_loop (i : nat) (ks : list K) (greatest : option K) (ht len : nat)
      : res (option K * nat) :=
      match ks with
      | [] => Ok (greatest, len)
      | k :: ks' =>
        _ <- assert_ (match greatest with Some g => key_lt g k | None => true end);;
        c <- kid (S i) (Some k);;
        match c with
        | Some r =>
          '(g, h, l) <- r;;
          _ <- assert_ (h =? ht);;
          f_chk_loop (S i) ks' g ht (len + 1 + l)
        | None => f_chk_loop (S i) ks' (Some k) ht (len + 1)
        end
      end.
  End Chk.
  Fixpoint fn_chk (min_len : nat) (n : fnode) (greatest : option K) {struct n}
    : res (option K * nat * nat) :=
    match n with
    | FNode e d =>
      let kid i g := fchild (on_kids (fun c => fn_chk MIN_OCCUPANCY c g) d) i in
      _ <- assert_ (min_len <=? el_len e);;
      _ <- assert_ (el_len e <=? MAX_OCCUPANCY);;
      _ <- assert_ (match d with None => true | Some b => kd_len b =? el_len e + 1 end);;
      c <- kid 0 greatest;;
      '(g, h, l) <- match c with Some r => r | None => Ok (greatest, 0, 0) end;;
      ks <- live (el_keys e) (el_len e);;
      '(g, l) <- f_chk_loop kid 0 ks g h l;;
      Ok (g, h + 1, l)
    end.
  Definition f_chk (m : fmap) : res unit :=
    match fm_root m with
    | Some n => '(_, _, l) <- fn_chk 1 n None;; assert_ (l =? fm_len m)
    | None => assert_ (fm_len m =? 0)
    end.
End Fixed.
