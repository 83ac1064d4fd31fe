(** What the properties of shared fixed [BTreeMap]s talk about, and a client that makes any calls on any
    number of them. *)
From Coq Require Import List PeanoNat Bool.
From Verif Require Import Base Spec MapSpec Heap HeapProofs BTreeModel BTreeHistModel BTreeHeapModel
  FixedModel FixedIterModel FixedSpec FixedHeapModel.
Import ListNotations.
Local Open Scope nat_scope.

Section FixedHeapSpec.
  Context {K V Q : Type} (bor : K -> Q) (cmp : Q -> Q -> comparison).
  Notation elems := (elems K V).
  Notation okids := (option (kids addr)).
  Notation cell := (elems * okids)%type.
  Notation heap := (heap cell).

  (** The arrays of a node hold [length]-many written entries and, in a branch, at least one child; the
      pointers that the heap counts are those children. *)
  Definition cell_ok (n : node cell) : Prop :=
    exists es ks, elems_at (fst (nd_data n)) es
      /\ match snd (nd_data n) with
         | None => ks = []
         | Some b => ks <> [] /\ begins 12 (kd_ptrs b) ks /\ kd_len b = length ks
         end
      /\ nd_kids n = map Some ks.
  (** The heap is sound when the pointers held outside are exactly [O]: each count is the number of
      pointers to the cell, there are no cycles, and the arrays are as above. *)
  Definition fsound (h : heap) (O : list addr) : Prop :=
    wf h O /\ acyclic h /\ forall a c n, get h a = Some (c, n) -> cell_ok n.
  Definition froots (ms : list fhmap) : list addr := flat_map (fun m => olist (fh_root m)) ms.

  (** Following the pointers of the map [m], a reader sees a well-formed map that holds [l]. *)
  Definition fh_shows (h : heap) (m : fhmap) (l : list (K * V)) : Prop :=
    exists b, fh_view h m = Ok b /\ f_shows bor cmp b l.
  (** The entries of a node (those that its drop would drop), and the tree of entries. *)
  Definition ents (e : elems) : list (K * V) := match el_clear e with Ok (es, _) => es | Panic => [] end.
  Fixpoint tree (n : fnode K V) : bt K V :=
    match n with
    | FNode e d =>
      BN (ents e)
         (match d with
          | None => []
          | Some (Kids ps k) => firstn k (flat_map (fun o => match o with Some c => [tree c] | None => [] end) ps)
          end)
    end.
  (** Following the pointer [a], a reader sees the tree [t]. *)
  Definition reads (h : heap) (a : addr) (t : bt K V) : Prop :=
    exists n, fh_read (fdepth h) h (Some a) = Ok n /\ tree n = t.
  (** The maps whose pointers are in [O] show in [h'] what they showed in [h], node for node. *)
  Definition fframe (O : list addr) (h h' : heap) : Prop :=
    (forall m l, incl (olist (fh_root m)) O -> fh_shows h m l -> fh_shows h' m l)
    /\ forall a t, In a O -> reads h a t -> reads h' a t.
  (** The nodes that have been cloned, the last first. *)
  Definition copies (h : heap) : list (list (K * V)) := map (fun c => ents (fst c)) (clones h).

  (** The cells that can be reached from [p]; none of them is shared. *)
  Inductive freach (h : heap) (p : ptr) : addr -> Prop :=
  | freach_root a : In a (olist p) -> freach h p a
  | freach_kid a c n b : freach h p a -> get h a = Some (c, n) -> In b (olists (nd_kids n)) -> freach h p b.
  Definition funshared (h : heap) (p : ptr) : Prop :=
    forall a c n, freach h p a -> get h a = Some (c, n) -> c = 1.

  (** The nodes of the map [m] that [f] selects from its tree. *)
  Definition of_tree (h : heap) (m : fhmap) (f : bt K V -> list (list (K * V))) : list (list (K * V)) :=
    match fh_view h m with
    | Ok (FMap (Some n) _) => f (tree n)
    | _ => []
    end.

  (** ** A client *)
  Variables (small_key : bool) (bomb : nat -> bool).
  Inductive fh_op :=
  | FhNew | FhFromIter (ps : list (K * V)) | FhClone (i : nat)
  | FhDo (i : nat) (o : f_op K V Q) | FhIter (i n : nat) | FhChk (i : nat).
  Inductive fh_obs := FhOut (o : f_out V) | FhSeq (l : list (option (K * V) * nat)).
  Definition fh_world : Type := heap * list fhmap.

  (** One call on the maps that share nodes. The calls that only read see the tree. A map that the panic of a
      removal may have left unusable is thrown away: replaced with a new one. *)
  Definition fh_step (w0 : fh_world) (o : fh_op) : res (fh_world * out fh_obs) :=
    let '(h, ms) := w0 in
    let on1 i (f : fhmap -> res (fh_world * out fh_obs)) :=
      match nth_error ms i with Some m => f m | None => Ok ((h, ms), Done (FhOut FrUnit)) end in
    let look i (f : f_map K V -> res fh_obs) :=
      on1 i (fun m => b <- fh_view h m;; r <- f b;; Ok ((h, ms), Done r)) in
    let write {A} i (f : fhmap -> res (heap * fhmap * out A)) (g : A -> f_out V) :=
      on1 i (fun m => '(h1, m1, x) <- f m;;
        match x with
        | Done a => Ok ((h1, set_nth i m1 ms), Done (FhOut (g a)))
        | Unwound => Ok ((h1, set_nth i m1 ms), Unwound)
        end) in
    match o with
    | FhNew => Ok ((h, ms ++ [fh_new]), Done (FhOut FrUnit))
    | FhFromIter ps =>
      '(h1, y) <- fh_from_iter bor cmp small_key bomb h ps;;
      match y with
      | Done m => Ok ((h1, ms ++ [m]), Done (FhOut FrUnit))
      | Unwound => Ok ((h1, ms), Unwound)
      end
    | FhClone i => on1 i (fun m => '(h1, m1) <- fh_clone h m;; Ok ((h1, ms ++ [m1]), Done (FhOut FrUnit)))
    | FhDo i (FoInsert k v) => write i (fun m => fh_insert_map bor cmp small_key bomb h m k v) FrVal
    | FhDo i (FoGetMut q w) => write i (fun m => fh_get_mut_map bor cmp small_key bomb h m q w) FrVal
    | FhDo i (FoExtend ps) => write i (fun m => fh_extend bor cmp small_key bomb h m ps) (fun _ => FrUnit)
    | FhDo i FoClear => on1 i (fun m => '(h1, m1) <- fh_clear h m;; Ok ((h1, set_nth i m1 ms), Done (FhOut FrUnit)))
    | FhDo i (FoRemove q) => on1 i (fun m =>
        '(h1, m1, x) <- fh_remove_map bor cmp small_key bomb h m q;;
        match x with
        | Done v => Ok ((h1, set_nth i m1 ms), Done (FhOut (FrVal v)))
        | Unwound => '(h2, m2) <- fh_clear h1 m1;; Ok ((h2, set_nth i m2 ms), Unwound)
        end)
    | FhDo i (FoGet q) => look i (fun b => r <- f_get bor cmp small_key b q;; Ok (FhOut (FrVal r)))
    | FhDo i FoLen => look i (fun b => Ok (FhOut (FrLen (f_len b))))
    | FhDo i FoIsEmpty => look i (fun b => Ok (FhOut (FrBool (f_is_empty b))))
    | FhIter i n => look i (fun b =>
        it <- fixed_iter b;; '(l, _) <- fi_run borrowed (repeat Front n) it;; Ok (FhSeq l))
    | FhChk i => look i (fun b => _ <- f_chk bor cmp b;; Ok (FhOut FrUnit))
    end.
  Fixpoint fh_run (w : fh_world) (os : list fh_op) : res (fh_world * list (out fh_obs)) :=
    match os with
    | [] => Ok (w, [])
    | o :: os' =>
      '(w1, r) <- fh_step w o;;
      '(w2, rs) <- fh_run w1 os';;
      Ok (w2, r :: rs)
    end.
  (** The drop of all maps. *)
  Fixpoint fh_drop_all (h : heap) (ms : list fhmap) : res heap :=
    match ms with
    | [] => Ok h
    | m :: ms' => h1 <- fh_drop h m;; fh_drop_all h1 ms'
    end.

  (** ** The same client with one list per map *)
  Notation state := (list (list (K * V))).
  Definition sh_step (st : state) (o : fh_op) : state * fh_obs :=
    let on1 i (f : list (K * V) -> state * fh_obs) :=
      match nth_error st i with Some l => f l | None => (st, FhOut FrUnit) end in
    match o with
    | FhNew => (st ++ [[]], FhOut FrUnit)
    | FhFromIter ps => (st ++ [s_extend bor cmp [] ps], FhOut FrUnit)
    | FhClone i => on1 i (fun l => (st ++ [l], FhOut FrUnit))
    | FhDo i o => on1 i (fun l => (set_nth i (fst (s_f_step bor cmp l o)) st, FhOut (snd (s_f_step bor cmp l o))))
    | FhIter i n => on1 i (fun l => (st, FhSeq (s_ends (repeat Front n) l)))
    | FhChk i => on1 i (fun _ => (st, FhOut FrUnit))
    end.
  Fixpoint sh_run (st : state) (os : list fh_op) : state * list fh_obs :=
    match os with
    | [] => (st, [])
    | o :: os' =>
      let '(st1, r) := sh_step st o in
      let '(st2, rs) := sh_run st1 os' in (st2, r :: rs)
    end.

  (** The lists after a call that unwound: [insert] and [get_mut] change nothing, [extend] has inserted the first
      items, a map whose removal failed has been replaced by an empty one; the other calls do not unwind. *)
  Definition sh_unwound (st : state) (o : fh_op) (st' : state) : Prop :=
    let on1 i f := match nth_error st i with Some l => f l | None => False end in
    match o with
    | FhFromIter _ | FhDo _ (FoInsert _ _) | FhDo _ (FoGetMut _ _) => st' = st
    | FhDo i (FoExtend ps) => on1 i (fun l => exists done rest, ps = done ++ rest
                                              /\ st' = set_nth i (s_extend bor cmp l done) st)
    | FhDo i (FoRemove _) => st' = set_nth i [] st
    | _ => False
    end.
  (** [sh_follows st os rs st']: from [st], the calls [os] may return [rs] and leave [st']. *)
  Fixpoint sh_follows (st : state) (os : list fh_op) (rs : list (out fh_obs)) (st' : state) : Prop :=
    match os, rs with
    | [], [] => st' = st
    | o :: os', Done r :: rs' => r = snd (sh_step st o) /\ sh_follows (fst (sh_step st o)) os' rs' st'
    | o :: os', Unwound :: rs' => exists st1, sh_unwound st o st1 /\ sh_follows st1 os' rs' st'
    | _, _ => False
    end.
  (** The map that a call borrows mutably. *)
  Definition ftargets (o : fh_op) : list nat :=
    match o with
    | FhDo i (FoInsert _ _) | FhDo i (FoGetMut _ _) | FhDo i (FoExtend _) | FhDo i FoClear | FhDo i (FoRemove _) => [i]
    | _ => []
    end.
End FixedHeapSpec.
Arguments fh_op K V Q : clear implicits.
Arguments fh_obs K V : clear implicits.
