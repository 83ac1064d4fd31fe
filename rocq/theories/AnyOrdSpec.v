(** What the calls of a map may do if the user's [Ord] is no order: [cmp] is any function. The entries are a list; a
    call touches at most one of them, and only one of which a comparison said that it is equal. *)
From Coq Require Import List PeanoNat ZArith Permutation.
From Verif Require Import Base Spec AvlModel BTreeModel BTreeShows FixedModel FixedSpec.
Import ListNotations.
Local Open Scope nat_scope.

Section AnyOrd.
  Context {K V Q : Type} (bor : K -> Q) (cmp : Q -> Q -> comparison).
  Notation entry := (K * V)%type.

  (** A comparison of [q] with the key of [e], either way round, gave [Equal]. *)
  Definition told_eq (q : Q) (e : entry) : Prop := cmp q (bor (fst e)) = Eq \/ cmp (bor (fst e)) q = Eq.

  (** [get]: nothing, or an entry that is there. *)
  Definition any_get (q : Q) (l : list entry) (r : option V) : Prop :=
    match r with
    | None => True
    | Some v => exists e, In e l /\ told_eq q e /\ v = snd e
    end.
  (** [get_mut], and what the caller does through the reference. *)
  Definition any_get_mut (q : Q) (w : V -> V) (l l' : list entry) (r : option V) : Prop :=
    match r with
    | None => l' = l
    | Some v => exists l1 e l2, l = l1 ++ e :: l2 /\ l' = l1 ++ (fst e, w (snd e)) :: l2 /\ told_eq q e /\ v = snd e
    end.
  (** [insert]: the entry is added somewhere, or takes the place of another. *)
  Definition any_insert (k : K) (v : V) (l l' : list entry) (r : option V) : Prop :=
    match r with
    | None => exists l1 l2, l = l1 ++ l2 /\ l' = l1 ++ (k, v) :: l2
    | Some old => exists l1 e l2, l = l1 ++ e :: l2 /\ l' = l1 ++ (k, v) :: l2 /\ told_eq (bor k) e /\ old = snd e
    end.
  (** [remove]: nothing is changed, or one entry is gone. *)
  Definition any_remove (q : Q) (l l' : list entry) (r : option entry) : Prop :=
    match r with
    | None => l' = l
    | Some e => exists l1 l2, l = l1 ++ e :: l2 /\ l' = l1 ++ l2 /\ told_eq q e
    end.
  (** The same with the value only. *)
  Definition any_remove_val (q : Q) (l l' : list entry) (r : option V) : Prop :=
    exists o, any_remove q l l' o /\ r = option_map snd o.
  Fixpoint any_extend (ps : list entry) (l l' : list entry) : Prop :=
    match ps with
    | [] => l' = l
    | (k, v) :: ps' => exists l1 r, any_insert k v l l1 r /\ any_extend ps' l1 l'
    end.
  (** Merging [a] with [b]: some entries of [a] are paired with some of [b], all of them told to be equal; [only_a] and
      [only_b] are the others. *)
  Definition any_pairs (a b only_a only_b : list entry) (both : list (entry * entry)) : Prop :=
    Permutation a (only_a ++ map fst both) /\ Permutation b (only_b ++ map snd both)
    /\ Forall (fun p => told_eq (bor (fst (fst p))) (snd p)) both.
  (** What a run of [retain]'s closure keeps, with the values it left. *)
  Definition kept (outs : list (entry * V * bool)) : list entry :=
    flat_map (fun o : entry * V * bool => if snd o then [(fst (fst (fst o)), snd (fst o))] else []) outs.
End AnyOrd.

(** ** The maps, without regard to order: the shape is right, [len] is the number of entries, and these are [l]. *)
Section Shapes.
  Context {K V : Type}.
  Notation entry := (K * V)%type.

  (** A search tree of height [h] whose nodes are balanced and know the heights of their children. *)
  Inductive t_holds : Z -> tree K V -> list entry -> Prop :=
  | th_leaf : t_holds 0 Leaf []
  | th_node h1 h2 k v l r a b : t_holds h1 l a -> t_holds h2 r b -> (-1 <= h2 - h1 <= 1)%Z ->
      t_holds (1 + Z.max h1 h2) (Node k v h1 h2 l r) (a ++ (k, v) :: b).
  Definition a_any (m : avl_map K V) (l : list entry) : Prop :=
    am_len m = length l /\ exists h, t_holds h (am_root m) l.

  Definition b_any (N : nat) (m : bt_map K V) (l : list entry) : Prop :=
    bm_len m = length l /\ match bm_root m with None => l = [] | Some t => exists d, entries_of N 1 d t l end.

  Definition f_any (m : f_map K V) (l : list entry) : Prop :=
    fm_len m = length l /\ match fm_root m with None => l = [] | Some n => exists h, holds 1 h n l end.
End Shapes.

(** ** Histories of calls on the array-based map; every call may use another comparison. *)
Section History.
  Context {K V Q : Type} (bor : K -> Q) (small_key : bool).
  Notation entry := (K * V)%type.
  Notation call := ((Q -> Q -> comparison) * f_op K V Q)%type.

  Fixpoint f_calls (m : f_map K V) (os : list call) : res (f_map K V * list (f_out V)) :=
    match os with
    | [] => Ok (m, [])
    | (cmp, o) :: os' =>
      '(m1, r) <- f_step bor cmp small_key m o;;
      '(m2, rs) <- f_calls m1 os';;
      Ok (m2, r :: rs)
    end.
  Definition any_step (cmp : Q -> Q -> comparison) (o : f_op K V Q) (l l' : list entry) (r : f_out V) : Prop :=
    match o, r with
    | FoInsert k v, FrVal x => any_insert bor cmp k v l l' x
    | FoRemove q, FrVal x => any_remove_val bor cmp q l l' x
    | FoGet q, FrVal x => l' = l /\ any_get bor cmp q l x
    | FoGetMut q w, FrVal x => any_get_mut bor cmp q w l l' x
    | FoLen, FrLen n => l' = l /\ n = length l
    | FoIsEmpty, FrBool b => l' = l /\ b = (length l =? 0)
    | FoClear, FrUnit => l' = []
    | FoExtend ps, FrUnit => any_extend bor cmp ps l l'
    | _, _ => False
    end.
  Fixpoint any_calls (os : list call) (l l' : list entry) (rs : list (f_out V)) : Prop :=
    match os, rs with
    | [], [] => l' = l
    | (cmp, o) :: os', r :: rs' => exists l1, any_step cmp o l l1 r /\ any_calls os' l1 l' rs'
    | _, _ => False
    end.
End History.
