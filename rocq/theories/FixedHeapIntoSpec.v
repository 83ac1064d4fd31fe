(** What the properties of owning iteration over shared fixed [BTreeMap]s talk about. *)
From Coq Require Import List PeanoNat Bool.
From Verif Require Import Base Spec Heap HeapProofs BTreeModel BTreeHeapModel FixedModel FixedIterModel FixedSpec
  FixedHeapModel FixedHeapSpec FixedHeapIntoModel.
Import ListNotations.
Local Open Scope nat_scope.

Section Mix.
  Context {A : Type}.
  (** The lists [ls] with the entries [es] between them; a list comes first. *)
  Fixpoint mix (ls : list (list A)) (es : list A) : list A :=
    match ls with
    | [] => es
    | l :: ls' => l ++ match es with [] => concat ls' | e :: es' => e :: mix ls' es' end
    end.
End Mix.

Section FixedHeapIntoSpec.
  Context {K V : Type}.
  Notation elems := (elems K V).
  Notation okids := (option (kids addr)).
  Notation cell := (elems * okids)%type.
  Notation heap := (heap cell).
  Notation entry := (K * V)%type.
  Notation bt := (bt K V).

  (** The slots from number [x] on hold [l]. *)
  Definition seg {A} (s : list (option A)) (x : nat) (l : list A) : Prop :=
    exists pre post, s = pre ++ map Some l ++ post /\ length pre = x.

  Fixpoint inorder (t : bt) : list entry := match t with BN es ts => mix (map inorder ts) es end.

  (** No node of the tree is without entries, and a branch has one child more than entries. *)
  Inductive bushy : bt -> Prop :=
  | bushy_node es ts : es <> [] -> (ts = [] \/ length ts = S (length es)) -> Forall bushy ts -> bushy (BN es ts).

  (** [left R n x xe y ye es ts]: between the indices [x] and [xe], the node has the entries [es]; between [y] and
      [ye], children that stand for the trees [ts]. [R a t] says that the pointer [a] stands for the tree [t]. *)
  Inductive left (R : addr -> bt -> Prop) : xnode K V -> nat -> nat -> nat -> nat -> list entry -> list bt -> Prop :=
  | left_owned e d x y es ks ts : seg (el_keys e) x (map fst es) -> seg (el_vals e) x (map snd es) ->
      match d with None => ks = [] | Some b => seg (kd_ptrs b) y ks end -> Forall2 R ks ts ->
      left R (XOwned e d) x (x + length es) y (y + length ks) es ts
  | left_leased a es0 es ts0 ts : R a (BN (es0 ++ es) (ts0 ++ ts)) ->
      left R (XLeased a) (length es0) (length (es0 ++ es)) (length ts0) (length (ts0 ++ ts)) es ts.

  (** The entries that a node iterator has left: if the next child is up, it comes first, and there is one child more
      than entries (or there are no children); else, there are as many children as entries. *)
  Definition stands (R : addr -> bt -> Prop) (i : xiter K V) (l : list entry) : Prop :=
    exists es ts, left R (x_n i) (x_elem i) (x_end_elems i) (x_kid i) (x_end_kids i) es ts /\ Forall bushy ts
      /\ (if x_kid i <=? x_elem i
          then (ts = [] \/ x_kid i = x_elem i /\ length ts = S (length es)) /\ l = mix (map inorder ts) es
          else x_kid i = S (x_elem i) /\ length ts = length es
               /\ l = match es with [] => [] | e :: es' => e :: mix (map inorder ts) es' end).

  (** The iterator has the entries [l] left in the order of [next], which are [r] in the order of [next_back] (that is
      not the reverse one), and [len()] is their number. *)
  Definition xshows (h : heap) (it : f_iter (xiter K V)) (l r : list entry) : Prop :=
    exists ls, Forall2 (stands (reads h)) (fi_work it) ls /\ l = concat ls /\ r = concat (rev ls) /\ fi_len it = length l.

  (** The pointers that it holds. *)
  Definition x_held (i : xiter K V) : list addr :=
    match x_n i with
    | XLeased a => [a]
    | XOwned _ None => []
    | XOwned _ (Some b) => olists (firstn (x_end_kids i - x_kid i) (skipn (x_kid i) (kd_ptrs b)))
    end.
  Definition xheld (it : f_iter (xiter K V)) : list addr := flat_map x_held (fi_work it).

  (** What a run of calls at the front of a list returns, with the lengths after each call, if no call unwinds. *)
  Definition fronts (n : nat) (l : list entry) : list (out (option entry) * nat) :=
    map (fun x => (Done (fst x), snd x)) (s_ends (repeat Front n) l).
  (** The lengths after each call: one less after each entry yielded. *)
  Fixpoint counts (n : nat) (os : list (out (option entry))) : list nat :=
    match os with
    | [] => []
    | Done (Some _) :: os' => (n - 1) :: counts (n - 1) os'
    | _ :: os' => n :: counts n os'
    end.
  (** The number of the calls that did not unwind. *)
  Definition returned (os : list (out (option entry) * nat)) : nat :=
    length (filter (fun x => match fst x with Done _ => true | Unwound => false end) os).
  (** The entries yielded. *)
  Definition yielded (os : list (out (option entry) * nat)) : list entry :=
    flat_map (fun x => match fst x with Done (Some e) => [e] | _ => [] end) os.
End FixedHeapIntoSpec.
