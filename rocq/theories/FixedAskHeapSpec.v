(** Fixed [BTreeMap]s that share nodes, with comparisons that may answer anything and may panic: what a map is, which nodes a
    call may clone, and what a history of calls may do to the lists of entries. *)
From Coq Require Import List PeanoNat Bool.
From Verif Require Import Base Spec MapSpec Ask AskSpec AskAnySpec AnyOrdSpec Heap BTreeModel BTreeHeapModel BTreeHeapSpec
  FixedModel FixedIterModel FixedSpec FixedHeapModel FixedHeapSpec.
Import ListNotations.
Local Open Scope nat_scope.

Section FixedAskHeap.
  Context {K V Q : Type} (bor : K -> Q) (ask : nat -> Q -> Q -> option comparison).
  Notation entry := (K * V)%type.
  Notation bt := (bt K V).
  Notation pay := (list (K * V)).
  Notation heap := (Heap.heap (elems K V * option (kids addr))).

  (** Following the pointers of [m] a reader sees a tree of the right shape whose entries from left to right are [l], and
      [len] is their number. No order of the keys is asked for. *)
  Definition fh_any (h : heap) (m : fhmap) (l : list entry) : Prop := exists b, fh_view h m = Ok b /\ f_any b l.
  (** The maps that own some of [O] are in [h'] what they are in [h], and the trees at [O] are the same node for node. *)
  Definition f_kept (O : list addr) (h h' : heap) : Prop :=
    (forall m l, incl (olist (fh_root m)) O -> fh_any h m l -> fh_any h' m l)
    /\ forall a t, In a O -> reads h a t -> reads h' a t.
  (** The map [m'] is in [h'] what [m] is in [h], node for node. *)
  Definition f_same (h : heap) (m : fhmap) (h' : heap) (m' : fhmap) : Prop :=
    fh_len m' = fh_len m
    /\ match fh_root m, fh_root m' with
       | Some a, Some a' => forall t, reads h a t -> reads h' a' t
       | None, None => True
       | _, _ => False
       end.

  (** The nodes on a way down from the root, the deepest first. The way may end anywhere. *)
  Inductive branch : bt -> list pay -> Prop :=
  | branch_end es ts : branch (BN es ts) [es]
  | branch_down es ts t p : In t ts -> branch t p -> branch (BN es ts) (p ++ [es]).
  (** A way down, with a sibling of each node on it. *)
  Inductive branch_near : bt -> list pay -> Prop :=
  | near_end es ts : branch_near (BN es ts) [es]
  | near_down es ts i t p : nth_error ts i = Some t -> branch_near t p -> branch_near (BN es ts) ((beside i ts ++ p) ++ [es]).
  (** Between [h] and [h'] only nodes of the map [m] were cloned that are together on a way [B]. *)
  Definition cloned_on (B : bt -> list pay -> Prop) (h : heap) (m : fhmap) (h' : heap) : Prop :=
    exists cs, copies h' = cs ++ copies h
      /\ match fh_root m with None => cs = [] | Some a => exists t p, reads h a t /\ B t p /\ sub cs p end.

  (** ** Histories *)
  Notation fh_op := (fh_op K V Q).
  Notation fh_obs := (fh_obs K V).
  Notation state := (list (list entry)).
  (** The calls that this history is about: all but the self-check. *)
  Definition f_calm (o : fh_op) : Prop := match o with FhChk _ => False | _ => True end.
  (** The maps [st'] and the result [r] after a call on the maps [st] that made the comparisons number [n], ..., [n' - 1] and
      returned. *)
  Definition fask_did (n n' : nat) (st : state) (o : fh_op) (r : fh_obs) (st' : state) : Prop :=
    let told := said bor ask n n' in
    let at1 i (P : list entry -> Prop) := match nth_error st i with Some l => P l | None => r = FhOut FrUnit /\ st' = st end in
    let put i (P : list entry -> Prop) := exists l', st' = set_nth i l' st /\ P l' in
    match o with
    | FhNew => r = FhOut FrUnit /\ st' = st ++ [[]]
    | FhFromIter ps => r = FhOut FrUnit /\ exists l', st' = st ++ [l'] /\ may_extend bor told ps [] l'
    | FhClone i => at1 i (fun l => r = FhOut FrUnit /\ st' = st ++ [l])
    | FhDo i (FoInsert k v) => at1 i (fun l => put i (fun l' => exists x, r = FhOut (FrVal x) /\ may_insert bor told k v l l' x))
    | FhDo i (FoRemove q) => at1 i (fun l => put i (fun l' => exists x, r = FhOut (FrVal x) /\ may_remove_val told q l l' x))
    | FhDo i (FoGet q) => at1 i (fun l => st' = st /\ exists x, r = FhOut (FrVal x) /\ may_get told q l x)
    | FhDo i (FoGetMut q w) => at1 i (fun l => put i (fun l' => exists x, r = FhOut (FrVal x) /\ may_get_mut told q w l l' x))
    | FhDo i (FoExtend ps) => at1 i (fun l => r = FhOut FrUnit /\ put i (fun l' => may_extend bor told ps l l'))
    | FhDo i FoLen => at1 i (fun l => r = FhOut (FrLen (length l)) /\ st' = st)
    | FhDo i FoIsEmpty => at1 i (fun l => r = FhOut (FrBool (length l =? 0)) /\ st' = st)
    | FhDo i FoClear => at1 i (fun _ => r = FhOut FrUnit /\ st' = set_nth i [] st)
    | FhIter i k => at1 i (fun l => r = FhSeq (s_ends (repeat Front k) l) /\ st' = st)
    | FhChk _ => False
    end.
  (** The maps after a call that unwound. An [extend] has inserted the first entries; a map whose removal failed has been
      thrown away. *)
  Definition fask_unwound (n n' : nat) (st : state) (o : fh_op) (st' : state) : Prop :=
    match o with
    | FhFromIter _ | FhDo _ (FoInsert _ _) | FhDo _ (FoGetMut _ _) | FhDo _ (FoGet _) => st' = st
    | FhDo i (FoExtend ps) => exists l done p rest l', nth_error st i = Some l /\ ps = done ++ p :: rest
                                /\ may_extend bor (said bor ask n n') done l l' /\ st' = set_nth i l' st
    | FhDo i (FoRemove _) => st' = set_nth i [] st
    | _ => False
    end.
  (** From the maps [st], after [n] comparisons, the calls [os] may return [rs] and leave [st'], after [n'] comparisons. If
      a call unwinds, [faulty] says that a [clone] panics somewhere, or the last comparison of the call panicked. *)
  Fixpoint fask_follows (faulty : Prop) (n : nat) (st : state) (os : list fh_op) (rs : list (out fh_obs)) (n' : nat) (st' : state) : Prop :=
    match os, rs with
    | [], [] => n' = n /\ st' = st
    | o :: os', Done r :: rs' => exists n1 st1, n <= n1 /\ fask_did n n1 st o r st1 /\ fask_follows faulty n1 st1 os' rs' n' st'
    | o :: os', Unwound :: rs' => exists n1 st1, n <= n1 /\ (faulty \/ n < n1 /\ panicked ask n1) /\ fask_unwound n n1 st o st1
                                    /\ fask_follows faulty n1 st1 os' rs' n' st'
    | _, _ => False
    end.
End FixedAskHeap.
