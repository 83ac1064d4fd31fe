(** What it means for the array-based B-tree map to be well formed and to hold given
    entries. *)
From Coq Require Import List PeanoNat Bool.
From Verif Require Import Base Spec FixedModel FixedIterModel.
Import ListNotations.

Section Spec.
  Context {K V Q : Type} (bor : K -> Q) (cmp : Q -> Q -> comparison).
  Notation fnode := (fnode K V).

  (** An array of [n] slots of which the first ones have been written with [l]. *)
  Definition begins {A} (n : nat) (s : list (option A)) (l : list A) : Prop :=
    length s = n /\ firstn (length l) s = map Some l.

  (** The contents of the children and the entries between them, in order. *)
  Fixpoint interleave {A} (ls : list (list A)) (es : list A) : list A :=
    match ls, es with
    | l :: ls', e :: es' => l ++ e :: interleave ls' es'
    | l :: _, [] => l
    | [], _ => []
    end.

  (** The node has [h] levels below it and holds the entries [l] in order; it has at least [lo]
      entries itself, every node below at least 5, none more than 11. *)
  Inductive holds : nat -> nat -> fnode -> list (K * V) -> Prop :=
  | holds_leaf lo ks vs es : lo <= length es <= 11 ->
      begins 11 ks (map fst es) -> begins 11 vs (map snd es) ->
      holds lo 0 (FNode (Elems ks vs (length es)) None) es
  | holds_branch lo h ks vs ps es ns ls : lo <= length es <= 11 ->
      begins 11 ks (map fst es) -> begins 11 vs (map snd es) ->
      length ns = length es + 1 -> begins 12 ps ns -> Forall2 (holds 5 h) ns ls ->
      holds lo (S h) (FNode (Elems ks vs (length es)) (Some (Kids ps (length ns)))) (interleave ls es).

  (** A well-formed map that holds [l]. *)
  Definition f_shows (m : f_map K V) (l : list (K * V)) : Prop :=
    ascending bor cmp l /\ fm_len m = length l
    /\ match fm_root m with None => l = [] | Some n => exists h, holds 1 h n l end.

  (** What [chk] cannot see: the arrays have their lengths (their types say so), and
      the values in the slots in use have been written. *)
  Fixpoint fn_typed (n : fnode) : bool :=
    match n with
    | FNode e d =>
      (length (el_keys e) =? 11) && (length (el_vals e) =? 11)
      && forallb is_some (firstn (el_len e) (el_vals e))
      && match d with
         | None => true
         | Some (Kids ps k) =>
           (length ps =? 12)
           && forallb (fun b => b) (firstn k (map (fun o => match o with Some c => fn_typed c | None => true end) ps))
         end
    end.
  Definition f_typed (m : f_map K V) : bool :=
    match fm_root m with None => true | Some n => fn_typed n end.

  (** A client of the map that keeps one map and observes every result. *)
  Inductive f_op :=
  | FoInsert (k : K) (v : V) | FoRemove (q : Q) | FoGet (q : Q) | FoGetMut (q : Q) (w : V -> V)
  | FoLen | FoIsEmpty | FoClear | FoExtend (ps : list (K * V)).
  Inductive f_out := FrVal (o : option V) | FrLen (n : nat) | FrBool (b : bool) | FrUnit.

  (** On the map... *)
  Definition f_step (small_key : bool) (m : f_map K V) (o : f_op) : res (f_map K V * f_out) :=
    match o with
    | FoInsert k v => '(m', r) <- f_insert bor cmp small_key m k v;; Ok (m', FrVal r)
    | FoRemove q => '(m', r) <- f_remove bor cmp small_key m q;; Ok (m', FrVal r)
    | FoGet q => r <- f_get bor cmp small_key m q;; Ok (m, FrVal r)
    | FoGetMut q w => '(m', r) <- f_get_mut bor cmp small_key m q w;; Ok (m', FrVal r)
    | FoLen => Ok (m, FrLen (f_len m))
    | FoIsEmpty => Ok (m, FrBool (f_is_empty m))
    | FoClear => Ok (f_clear m, FrUnit)
    | FoExtend ps => m' <- f_extend bor cmp small_key m ps;; Ok (m', FrUnit)
    end.
  Fixpoint f_run (small_key : bool) (m : f_map K V) (os : list f_op) : res (f_map K V * list f_out) :=
    match os with
    | [] => Ok (m, [])
    | o :: os' =>
      '(m1, r) <- f_step small_key m o;;
      '(m2, rs) <- f_run small_key m1 os';;
      Ok (m2, r :: rs)
    end.
  (** ... and on a list of entries. *)
  Definition s_f_step (l : list (K * V)) (o : f_op) : list (K * V) * f_out :=
    match o with
    | FoInsert k v => (s_insert bor cmp k v l, FrVal (s_get bor cmp (bor k) l))
    | FoRemove q => (s_remove bor cmp q l, FrVal (s_get bor cmp q l))
    | FoGet q => (l, FrVal (s_get bor cmp q l))
    | FoGetMut q w => (s_update bor cmp q w l, FrVal (s_get bor cmp q l))
    | FoLen => (l, FrLen (length l))
    | FoIsEmpty => (l, FrBool (length l =? 0))
    | FoClear => ([], FrUnit)
    | FoExtend ps => (s_extend bor cmp l ps, FrUnit)
    end.
  Fixpoint s_f_run (l : list (K * V)) (os : list f_op) : list (K * V) * list f_out :=
    match os with
    | [] => (l, [])
    | o :: os' =>
      let '(l1, r) := s_f_step l o in
      let '(l2, rs) := s_f_run l1 os' in (l2, r :: rs)
    end.

  (** The entry arrays of one node hold [l]; its child array holds [ns]. *)
  Definition elems_at (e : elems K V) (l : list (K * V)) : Prop :=
    begins 11 (el_keys e) (map fst l) /\ begins 11 (el_vals e) (map snd l) /\ el_len e = length l.
  Definition kids_at (d : kids fnode) (ns : list fnode) : Prop :=
    begins 12 (kd_ptrs d) ns /\ kd_len d = length ns.

  (** The entries held by a list of nodes. *)
  Definition hold_all (ns : list fnode) (l : list (K * V)) : Prop :=
    exists ls, Forall2 (fun n l => exists lo h, holds lo h n l) ns ls /\ concat ls = l.

  (** A new iterator, called at its ends as [cs] says, answers [rs] (items with the remaining
      length). *)
  Definition runs {C I} (ops : node_ops (K * V) C I) (start : res (f_iter I)) cs rs : Prop :=
    exists it it', start = Ok it /\ fi_run ops cs it = Ok (rs, it').
  (** The items among the answers. *)
  Definition got {A} (rs : list (option A * nat)) : list A :=
    flat_map (fun r => match fst r with Some e => [e] | None => [] end) rs.

  (** The key and value that a reference of [iter_mut] shows; any number of writes through the
      references of one iteration, in any order. *)
  Definition f_shown (r : @fref K * V) : K * V := (snd (fst r), snd r).
  Definition f_writes (refs : list (@fref K * V)) (ws : list (nat * (V -> V))) (m : f_map K V) : f_map K V :=
    fold_left (fun m iw => match nth_error refs (fst iw) with
                           | Some r => f_write (fst r) (snd iw) m
                           | None => m
                           end) ws m.
End Spec.
Arguments f_op K V Q : clear implicits.
Arguments f_out V : clear implicits.
