(** Theorems about [AvlSet] and [BTreeSet] (properties C24-C27, C39-C41, C62-C65).

    [as_shows bor cmp s l] and [bs_shows bor cmp N s l] (SetShows.v): the set [s] passes its
    own [check()] and [iter()] yields the list [l] (and no node of a [BTreeSet] has a
    surplus child). The specification functions [x_*] are in SetSpec.v; [x_ops_by_mem]
    says by membership what the set operations among them are. Elements are compared
    through their borrowed form; elements that compare equal need not be identical, so the
    theorems also say which of two equal elements is kept. [x_small] (AvlSet): fewer
    than [2^63] elements. *)
From Coq Require Import List ZArith Bool Sorted.
From Verif Require Import Base Spec BTreeSpec SetSpec SetOpModel AvlSetModel BTreeSetModel SetShows.
From Verif Require AvlModel BTreeModel.
Import ListNotations.
Open Scope Z_scope.

(** ** Sample data: elements are pairs compared by their first component only. *)
Definition elt : Type := (Z * Z)%type.
Definition ebor (x : elt) : Z := fst x.
Definition e0 (n : Z) : elt := (n, 0).
Definition aforce (r : res (@aset elt)) : @aset elt := match r with Ok s => s | Panic => as_new end.
Definition bsforce (r : res (@bset elt)) : @bset elt := match r with Ok s => s | Panic => bs_new end.
Definition x10 := map e0 [1; 2; 3; 4; 5; 6; 7; 8; 9; 10].
Definition x4 : list elt := [(0, 7); (2, 7); (3, 7); (11, 7)].
Definition xsub : list elt := [(2, 7); (5, 7); (9, 7)].
Definition a10 := Eval vm_compute in aforce (as_from_iter ebor Z.compare x10).
Definition a4 := Eval vm_compute in aforce (as_from_iter ebor Z.compare x4).
Definition asub := Eval vm_compute in aforce (as_from_iter ebor Z.compare xsub).
Definition t10 := Eval vm_compute in bsforce (bs_from_iter ebor Z.compare 1 x10).
Definition t4 := Eval vm_compute in bsforce (bs_from_iter ebor Z.compare 1 x4).
Definition tsub := Eval vm_compute in bsforce (bs_from_iter ebor Z.compare 1 xsub).
Example a10_shows : as_shows ebor Z.compare a10 x10. Proof. split; reflexivity. Qed.
Example a4_shows : as_shows ebor Z.compare a4 x4. Proof. split; reflexivity. Qed.
Example asub_shows : as_shows ebor Z.compare asub xsub. Proof. split; reflexivity. Qed.
Example t10_shows : bs_shows ebor Z.compare 1 t10 x10. Proof. repeat split. Qed.
Example t4_shows : bs_shows ebor Z.compare 1 t4 x4. Proof. repeat split. Qed.
Example tsub_shows : bs_shows ebor Z.compare 1 tsub xsub. Proof. repeat split. Qed.
Example x10_small : x_small x10. Proof. reflexivity. Qed.
Example x4_small : x_small x4. Proof. reflexivity. Qed.
Definition one1 : (1 <= 1)%nat := le_n 1.

(** ** What [as_shows], [bs_shows] and the specification functions mean *)
Theorem as_shows_ascending : forall T Q (bor : T -> Q) cmp, order_laws cmp ->
  forall (s : @aset T) l, as_shows bor cmp s l -> x_ascending bor cmp l /\ as_len s = length l.
Proof. exact @as_shows_asc. Qed.
Theorem bs_shows_ascending : forall T Q (bor : T -> Q) cmp N, order_laws cmp -> (1 <= N)%nat ->
  forall (s : @bset T) l, bs_shows bor cmp N s l -> x_ascending bor cmp l /\ bs_len s = length l.
Proof. exact @bs_shows_asc. Qed.
Theorem x_ops_by_mem : forall T Q (bor : T -> Q) cmp, order_laws cmp ->
  forall l r, x_ascending bor cmp l -> x_ascending bor cmp r ->
  let mem := x_mem bor cmp in
  (x_ascending bor cmp (x_union bor cmp l r) /\ forall q, mem q (x_union bor cmp l r) = mem q l || mem q r)
  /\ (x_ascending bor cmp (x_inter bor cmp l r) /\ forall q, mem q (x_inter bor cmp l r) = mem q l && mem q r)
  /\ (x_ascending bor cmp (x_diff bor cmp l r) /\ forall q, mem q (x_diff bor cmp l r) = mem q l && negb (mem q r))
  /\ (x_ascending bor cmp (x_symdiff bor cmp l r) /\ forall q, mem q (x_symdiff bor cmp l r) = xorb (mem q l) (mem q r)).
Proof. exact @x_ops_mem. Qed.
Theorem sets_start_empty : forall T Q (bor : T -> Q) cmp N,
  (as_shows bor cmp (@as_new T) [] /\ forall s, as_shows bor cmp (@as_clear T s) [])
  /\ (bs_shows bor cmp N (@bs_new T) [] /\ forall s, bs_shows bor cmp N (@bs_clear T s) []).
Proof. intros. split; [apply as_new_l|apply bs_new_l]. Qed.
Print Assumptions x_ops_by_mem.

(** ** C24: AvlSet *)
Theorem C24_insert : forall T Q (bor : T -> Q) cmp, order_laws cmp ->
  forall (s : @aset T) l x, as_shows bor cmp s l -> x_small l ->
  exists s', as_insert bor cmp s x = Ok (s', negb (x_mem bor cmp (bor x) l))
    /\ as_shows bor cmp s' (x_insert bor cmp x l).
Proof. exact @as_insert_l. Qed.
Theorem C24_remove : forall T Q (bor : T -> Q) cmp, order_laws cmp ->
  forall (s : @aset T) l q, as_shows bor cmp s l -> x_small l ->
  (exists s', as_remove bor cmp s q = Ok (s', x_mem bor cmp q l) /\ as_shows bor cmp s' (x_remove bor cmp q l))
  /\ (exists s', as_take bor cmp s q = Ok (s', x_find bor cmp q l) /\ as_shows bor cmp s' (x_remove bor cmp q l)).
Proof. exact @as_remove_l. Qed.
Theorem C24_replace : forall T Q (bor : T -> Q) cmp, order_laws cmp ->
  forall (s : @aset T) l x, as_shows bor cmp s l -> x_small l ->
  exists s', as_replace bor cmp s x = Ok (s', x_find bor cmp (bor x) l)
    /\ as_shows bor cmp s' (x_insert bor cmp x l).
Proof. exact @as_replace_l. Qed.
Theorem C24_lookup : forall T Q (bor : T -> Q) cmp, order_laws cmp ->
  forall (s : @aset T) l q, as_shows bor cmp s l ->
  as_contains bor cmp s q = x_mem bor cmp q l /\ as_get bor cmp s q = x_find bor cmp q l
  /\ as_first s = hd_error l /\ as_last s = hd_error (rev l)
  /\ as_len s = length l /\ as_is_empty s = match l with [] => true | _ => false end.
Proof. exact @as_lookup_l. Qed.
Theorem C24_pops : forall T Q (bor : T -> Q) cmp, order_laws cmp ->
  forall (s : @aset T) l, as_shows bor cmp s l -> x_small l ->
  (exists s', as_pop_first s = Ok (s', hd_error l) /\ as_shows bor cmp s' (tl l))
  /\ (exists s', as_pop_last s = Ok (s', hd_error (rev l)) /\ as_shows bor cmp s' (removelast l)).
Proof. exact @as_pops_l. Qed.
Theorem C24_split_off : forall T Q (bor : T -> Q) cmp, order_laws cmp ->
  forall (s : @aset T) l q, as_shows bor cmp s l -> x_small l ->
  exists s1 s2, as_split_off bor cmp s q = Ok (s1, s2)
    /\ as_shows bor cmp s1 (filter (x_lt bor cmp q) l)
    /\ as_shows bor cmp s2 (filter (fun x => negb (x_lt bor cmp q x)) l).
Proof. exact @as_split_off_l. Qed.
(** The predicate is called once per element, in ascending order. *)
Theorem C24_retain : forall T Q (bor : T -> Q) cmp, order_laws cmp ->
  forall A (f : A -> T -> A * bool) (s : @aset T) l a, as_shows bor cmp s l -> x_small l ->
  exists s', as_retain bor cmp f s a = Ok (s', snd (x_retain f a l))
    /\ as_shows bor cmp s' (fst (x_retain f a l)).
Proof. exact @as_retain_l. Qed.
Theorem C24_extend : forall T Q (bor : T -> Q) cmp, order_laws cmp ->
  (forall (s : @aset T) l xs, as_shows bor cmp s l -> x_small l -> x_small xs ->
   exists s', as_extend bor cmp s xs = Ok s' /\ as_shows bor cmp s' (x_extend bor cmp l xs))
  /\ (forall xs : list T, x_small xs ->
   exists s', as_from_iter bor cmp xs = Ok s' /\ as_shows bor cmp s' (x_extend bor cmp [] xs)).
Proof. intros. split; [now apply as_extend_l|now apply as_from_iter_l]. Qed.
Print Assumptions C24_insert.
Print Assumptions C24_remove.
Print Assumptions C24_replace.
Print Assumptions C24_lookup.
Print Assumptions C24_pops.
Print Assumptions C24_split_off.
Print Assumptions C24_retain.
Print Assumptions C24_extend.
(** Inserting an equal element answers [false], and the set now holds the new one. *)
Example C24_ex : exists s', as_insert ebor Z.compare a4 (3, 99) = Ok (s', false)
  /\ as_shows ebor Z.compare s' [(0, 7); (2, 7); (3, 99); (11, 7)].
Proof. exact (C24_insert _ _ ebor _ Zcmp_laws a4 x4 (3, 99) a4_shows x4_small). Qed.
Example C24_ex' : exists s', as_replace ebor Z.compare a4 (3, 99) = Ok (s', Some (3, 7))
  /\ as_shows ebor Z.compare s' [(0, 7); (2, 7); (3, 99); (11, 7)].
Proof. exact (C24_replace _ _ ebor _ Zcmp_laws a4 x4 (3, 99) a4_shows x4_small). Qed.
(** Keep every other element: the predicate counts its calls. *)
Example C24_ex'' : exists s', as_retain ebor Z.compare (fun n (_ : elt) => (n + 1, Z.even n)) a10 0 = Ok (s', 10)
  /\ as_shows ebor Z.compare s' (map e0 [1; 3; 5; 7; 9]).
Proof. exact (C24_retain _ _ ebor _ Zcmp_laws Z (fun n _ => (n + 1, Z.even n)) a10 x10 0 a10_shows x10_small). Qed.

(** ** C25: [same] is [Arc::ptr_eq]; all that is assumed of it is that nodes at one
    address are equal. It may answer [false] for equal nodes. *)
Theorem C25_subset : forall T Q (bor : T -> Q) cmp, order_laws cmp ->
  forall same (s1 s2 : @aset T) l1 l2, (forall a b, same a b = true -> a = b) ->
  as_shows bor cmp s1 l1 -> as_shows bor cmp s2 l2 ->
  as_is_subset bor cmp same s1 s2 = Ok (x_subset bor cmp l1 l2)
  /\ as_is_superset bor cmp same s1 s2 = Ok (x_subset bor cmp l2 l1).
Proof. exact @as_subset_l. Qed.
Print Assumptions C25_subset.
(** [same] really fires: structural equality of nodes. *)
Fixpoint node_eqb (a b : AvlModel.tree elt unit) : bool :=
  match a, b with
  | AvlModel.Leaf, AvlModel.Leaf => true
  | AvlModel.Node (k, v) _ lh rh l r, AvlModel.Node (k', v') _ lh' rh' l' r' =>
    (k =? k') && (v =? v') && (lh =? lh') && (rh =? rh') && node_eqb l l' && node_eqb r r'
  | _, _ => false
  end.
Lemma node_eqb_sound : forall a b, node_eqb a b = true -> a = b.
Proof.
  induction a as [|[k v] [] lh rh l IHl r IHr]; intros [|[k' v'] [] lh' rh' l' r'] H; cbn in H; try discriminate; auto.
  repeat rewrite andb_true_iff in H. destruct H as (((((H1 & H2) & H3) & H4) & H5) & H6).
  apply Z.eqb_eq in H1, H2, H3, H4. apply IHl in H5. apply IHr in H6. congruence.
Qed.
Example C25_ex : as_is_subset ebor Z.compare node_eqb asub a10 = Ok true
  /\ as_is_subset ebor Z.compare node_eqb a4 a10 = Ok false
  /\ as_is_subset ebor Z.compare node_eqb a10 a10 = Ok true.
Proof.
  split; [|split].
  - exact (proj1 (C25_subset _ _ ebor _ Zcmp_laws node_eqb asub a10 xsub x10 node_eqb_sound asub_shows a10_shows)).
  - exact (proj1 (C25_subset _ _ ebor _ Zcmp_laws node_eqb a4 a10 x4 x10 node_eqb_sound a4_shows a10_shows)).
  - exact (proj1 (C25_subset _ _ ebor _ Zcmp_laws node_eqb a10 a10 x10 x10 node_eqb_sound a10_shows a10_shows)).
Qed.

(** ** C26: [n] calls of [next()] on the four iterators. Of two equal elements the union
    and the intersection yield the right one's. *)
Theorem C26_avl : forall T Q (bor : T -> Q) cmp, order_laws cmp ->
  forall (a b : @aset T) la lb, as_shows bor cmp a la -> as_shows bor cmp b lb -> forall n,
  as_setop bor cmp p_union a b n = Ok (s_nexts n (x_union bor cmp la lb))
  /\ as_setop bor cmp p_intersection a b n = Ok (s_nexts n (x_inter bor cmp lb la))
  /\ as_setop bor cmp p_difference a b n = Ok (s_nexts n (x_diff bor cmp la lb))
  /\ as_setop bor cmp p_symmetric_difference a b n = Ok (s_nexts n (x_symdiff bor cmp la lb))
  /\ as_is_disjoint bor cmp a b = Ok (x_disjoint bor cmp la lb).
Proof. exact @as_setop_l. Qed.
Theorem C26_btree : forall T Q (bor : T -> Q) cmp N, order_laws cmp -> (1 <= N)%nat ->
  forall (a b : @bset T) la lb, bs_shows bor cmp N a la -> bs_shows bor cmp N b lb -> forall n,
  bs_setop bor cmp p_union a b n = Ok (s_nexts n (x_union bor cmp la lb))
  /\ bs_setop bor cmp p_intersection a b n = Ok (s_nexts n (x_inter bor cmp lb la))
  /\ bs_setop bor cmp p_difference a b n = Ok (s_nexts n (x_diff bor cmp la lb))
  /\ bs_setop bor cmp p_symmetric_difference a b n = Ok (s_nexts n (x_symdiff bor cmp la lb))
  /\ bs_is_disjoint bor cmp a b = Ok (x_disjoint bor cmp la lb).
Proof. exact @bs_setop_l. Qed.
Print Assumptions C26_avl.
Print Assumptions C26_btree.
Example C26_ex :
  as_setop ebor Z.compare p_intersection a10 a4 3 = Ok [Some (2, 7); Some (3, 7); None]
  /\ bs_setop ebor Z.compare p_symmetric_difference t4 t10 4 = Ok [Some (0, 7); Some (1, 0); Some (4, 0); Some (5, 0)].
Proof.
  split.
  - exact (proj1 (proj2 (C26_avl _ _ ebor _ Zcmp_laws a10 a4 x10 x4 a10_shows a4_shows 3))).
  - exact (proj1 (proj2 (proj2 (proj2 (C26_btree _ _ ebor _ 1%nat Zcmp_laws one1 t4 t10 x4 x10 t4_shows t10_shows 4))))).
Qed.

(** ** C27 *)
Theorem C27_algebra : forall T Q (bor : T -> Q) cmp, order_laws cmp ->
  forall (a b : @aset T) la lb, as_shows bor cmp a la -> as_shows bor cmp b lb -> x_small la -> x_small lb ->
  (exists s, as_new_union bor cmp a b = Ok s /\ as_shows bor cmp s (x_union bor cmp la lb))
  /\ (exists s, as_new_intersection bor cmp a b = Ok s /\ as_shows bor cmp s (x_inter bor cmp la lb))
  /\ (exists s, as_new_diff bor cmp a b = Ok s /\ as_shows bor cmp s (x_diff bor cmp la lb))
  /\ (exists s, as_new_sym_diff bor cmp a b = Ok s /\ as_shows bor cmp s (x_symdiff bor cmp la lb))
  /\ (exists a' b', as_append bor cmp a b = Ok (a', b') /\ as_shows bor cmp a' (x_union bor cmp la lb)
        /\ as_shows bor cmp b' []).
Proof. exact @as_algebra_l. Qed.
Print Assumptions C27_algebra.
Example C27_ex : exists s, as_new_union ebor Z.compare a10 a4 = Ok s
  /\ as_shows ebor Z.compare s ([(0, 7); (1, 0); (2, 7); (3, 7)] ++ map e0 [4; 5; 6; 7; 8; 9; 10] ++ [(11, 7)]).
Proof. exact (proj1 (C27_algebra _ _ ebor _ Zcmp_laws a10 a4 x10 x4 a10_shows a4_shows x10_small x4_small)). Qed.

(** ** C39: BTreeSet *)
Theorem C39_insert : forall T Q (bor : T -> Q) cmp N, order_laws cmp -> (1 <= N)%nat ->
  forall (s : @bset T) l x, bs_shows bor cmp N s l ->
  exists s', bs_insert bor cmp N s x = Ok (s', negb (x_mem bor cmp (bor x) l))
    /\ bs_shows bor cmp N s' (x_insert bor cmp x l).
Proof. exact @bs_insert_l. Qed.
Theorem C39_remove : forall T Q (bor : T -> Q) cmp N, order_laws cmp -> (1 <= N)%nat ->
  forall (s : @bset T) l q, bs_shows bor cmp N s l ->
  (exists s', bs_remove bor cmp N s q = Ok (s', x_mem bor cmp q l) /\ bs_shows bor cmp N s' (x_remove bor cmp q l))
  /\ (exists s', bs_take bor cmp N s q = Ok (s', x_find bor cmp q l) /\ bs_shows bor cmp N s' (x_remove bor cmp q l)).
Proof. exact @bs_remove_l. Qed.
Theorem C39_replace : forall T Q (bor : T -> Q) cmp N, order_laws cmp -> (1 <= N)%nat ->
  forall (s : @bset T) l x, bs_shows bor cmp N s l ->
  exists s', bs_replace bor cmp N s x = Ok (s', x_find bor cmp (bor x) l)
    /\ bs_shows bor cmp N s' (x_insert bor cmp x l).
Proof. exact @bs_replace_l. Qed.
Theorem C39_lookup : forall T Q (bor : T -> Q) cmp N, order_laws cmp -> (1 <= N)%nat ->
  forall (s : @bset T) l q, bs_shows bor cmp N s l ->
  bs_contains bor cmp s q = x_mem bor cmp q l /\ bs_get bor cmp s q = x_find bor cmp q l
  /\ bs_first s = Ok (hd_error l) /\ bs_last s = hd_error (rev l)
  /\ bs_len s = length l /\ bs_is_empty s = match l with [] => true | _ => false end.
Proof. exact @bs_lookup_l. Qed.
Theorem C39_pops : forall T Q (bor : T -> Q) cmp N, order_laws cmp -> (1 <= N)%nat ->
  forall (s : @bset T) l, bs_shows bor cmp N s l ->
  (exists s', bs_pop_first N s = Ok (s', hd_error l) /\ bs_shows bor cmp N s' (tl l))
  /\ (exists s', bs_pop_last N s = Ok (s', hd_error (rev l)) /\ bs_shows bor cmp N s' (removelast l)).
Proof. exact @bs_pops_l. Qed.
Theorem C39_split_off : forall T Q (bor : T -> Q) cmp N, order_laws cmp -> (1 <= N)%nat ->
  forall un (s : @bset T) l q, bs_shows bor cmp N s l ->
  exists s1 s2, bs_split_off bor cmp N un s q = Ok (s1, s2)
    /\ bs_shows bor cmp N s1 (filter (x_lt bor cmp q) l)
    /\ bs_shows bor cmp N s2 (filter (fun x => negb (x_lt bor cmp q x)) l).
Proof. exact @bs_split_off_l. Qed.
Theorem C39_retain : forall T Q (bor : T -> Q) cmp N, order_laws cmp -> (1 <= N)%nat ->
  forall A un (f : A -> T -> A * bool) (s : @bset T) l a, bs_shows bor cmp N s l ->
  exists s', bs_retain bor cmp N un f s a = Ok (s', snd (x_retain f a l))
    /\ bs_shows bor cmp N s' (fst (x_retain f a l)).
Proof. exact @bs_retain_l. Qed.
Theorem C39_extend : forall T Q (bor : T -> Q) cmp N, order_laws cmp -> (1 <= N)%nat ->
  (forall (s : @bset T) l xs, bs_shows bor cmp N s l ->
   exists s', bs_extend bor cmp N s xs = Ok s' /\ bs_shows bor cmp N s' (x_extend bor cmp l xs))
  /\ (forall xs : list T,
   exists s', bs_from_iter bor cmp N xs = Ok s' /\ bs_shows bor cmp N s' (x_extend bor cmp [] xs)).
Proof. intros. split; [now apply bs_extend_l|now apply bs_from_iter_l]. Qed.
Print Assumptions C39_insert.
Print Assumptions C39_remove.
Print Assumptions C39_replace.
Print Assumptions C39_lookup.
Print Assumptions C39_pops.
Print Assumptions C39_split_off.
Print Assumptions C39_retain.
Print Assumptions C39_extend.
Example C39_ex : exists s', bs_replace ebor Z.compare 1 t10 (7, 99) = Ok (s', Some (7, 0))
  /\ bs_shows ebor Z.compare 1 s' (map e0 [1; 2; 3; 4; 5; 6] ++ [(7, 99)] ++ map e0 [8; 9; 10]).
Proof. exact (C39_replace _ _ ebor _ 1%nat Zcmp_laws one1 t10 x10 (7, 99) t10_shows). Qed.
Example C39_ex' : exists s', bs_take ebor Z.compare 1 t10 4 = Ok (s', Some (4, 0))
  /\ bs_shows ebor Z.compare 1 s' (map e0 [1; 2; 3; 5; 6; 7; 8; 9; 10]).
Proof. exact (proj2 (C39_remove _ _ ebor _ 1%nat Zcmp_laws one1 t10 x10 4 t10_shows)). Qed.

(** ** C40, finding: [is_subset] and [is_superset] also demand that the subset be strictly
    smaller (or empty) ... *)
Theorem C40_subset : forall T Q (bor : T -> Q) cmp N, order_laws cmp -> (1 <= N)%nat ->
  forall (s1 s2 : @bset T) l1 l2, bs_shows bor cmp N s1 l1 -> bs_shows bor cmp N s2 l2 ->
  bs_is_subset bor cmp s1 s2 = Ok (x_strict_subset bor cmp l1 l2)
  /\ bs_is_superset bor cmp s1 s2 = Ok (x_strict_subset bor cmp l2 l1).
Proof. exact @bs_subset_l. Qed.
(** ... so that no nonempty set is a subset of itself: "[is_subset] is the subset test" is
    refuted. *)
Theorem C40_subset_test_refuted :
  exists (s1 s2 : @bset elt) l1 l2, bs_shows ebor Z.compare 1 s1 l1 /\ bs_shows ebor Z.compare 1 s2 l2
  /\ bs_is_subset ebor Z.compare s1 s2 <> Ok (x_subset ebor Z.compare l1 l2).
Proof. exists t4, t4, x4, x4. split; [apply t4_shows|]. split; [apply t4_shows|]. vm_compute. discriminate. Qed.
Theorem C40_never_of_itself : forall T Q (bor : T -> Q) cmp N, order_laws cmp -> (1 <= N)%nat ->
  forall (s : @bset T) x l, bs_shows bor cmp N s (x :: l) -> bs_is_subset bor cmp s s = Ok false.
Proof.
  intros T Q bor cmp N laws HN s x l H. rewrite (proj1 (C40_subset T Q bor cmp N laws HN s s _ _ H H)).
  unfold x_strict_subset. now rewrite Nat.ltb_irrefl.
Qed.
Print Assumptions C40_subset.
Print Assumptions C40_subset_test_refuted.
Print Assumptions C40_never_of_itself.
Example C40_ex : bs_is_subset ebor Z.compare tsub t10 = Ok true /\ bs_is_subset ebor Z.compare t10 t10 = Ok false.
Proof.
  split.
  - exact (proj1 (C40_subset _ _ ebor _ 1%nat Zcmp_laws one1 tsub t10 xsub x10 tsub_shows t10_shows)).
  - exact (C40_never_of_itself _ _ ebor _ 1%nat Zcmp_laws one1 t10 _ _ t10_shows).
Qed.

(** ** C41: whichever way the sizes make the four functions go. [new_intersection] keeps the
    elements of the smaller set, of the right one if the sizes are equal. *)
Theorem C41_algebra : forall T Q (bor : T -> Q) cmp N, order_laws cmp -> (1 <= N)%nat ->
  forall un (a b : @bset T) la lb, bs_shows bor cmp N a la -> bs_shows bor cmp N b lb ->
  (exists s, bs_new_union bor cmp N un a b = Ok s /\ bs_shows bor cmp N s (x_union bor cmp la lb))
  /\ (exists s, bs_new_intersection bor cmp N un a b = Ok s /\ bs_shows bor cmp N s (x_small_inter bor cmp la lb))
  /\ (exists s, bs_new_diff bor cmp N un a b = Ok s /\ bs_shows bor cmp N s (x_diff bor cmp la lb))
  /\ (exists s, bs_new_sym_diff bor cmp N un a b = Ok s /\ bs_shows bor cmp N s (x_symdiff bor cmp la lb))
  /\ (exists a' b', bs_append bor cmp N un a b = Ok (a', b') /\ bs_shows bor cmp N a' (x_union bor cmp la lb)
        /\ bs_shows bor cmp N b' []).
Proof. exact @bs_algebra_l. Qed.
Print Assumptions C41_algebra.
(** Both strategies of [new_diff]. *)
Definition t1 := Eval vm_compute in bsforce (bs_from_iter ebor Z.compare 1 [(3, 5); (77, 5)]).
Example t1_shows : bs_shows ebor Z.compare 1 t1 [(3, 5); (77, 5)]. Proof. repeat split. Qed.
Example C41_ex :
  (exists s, bs_new_diff ebor Z.compare 1 (fun t => Nat.even (BTreeModel.n_len t)) t1 t10 = Ok s
     /\ bs_shows ebor Z.compare 1 s [(77, 5)])
  /\ (exists s, bs_new_diff ebor Z.compare 1 (fun t => Nat.even (BTreeModel.n_len t)) t4 t10 = Ok s
     /\ bs_shows ebor Z.compare 1 s [(0, 7); (11, 7)]).
Proof.
  split.
  - exact (proj1 (proj2 (proj2 (C41_algebra _ _ ebor _ 1%nat Zcmp_laws one1 (fun t => Nat.even (BTreeModel.n_len t)) t1 t10 _ _ t1_shows t10_shows)))).
  - exact (proj1 (proj2 (proj2 (C41_algebra _ _ ebor _ 1%nat Zcmp_laws one1 (fun t => Nat.even (BTreeModel.n_len t)) t4 t10 _ _ t4_shows t10_shows)))).
Qed.

(** ** C62: iteration, [range], comparison and hashing of sets *)
Theorem C62_avl_iter : forall T Q (bor : T -> Q) cmp, order_laws cmp ->
  forall (s : @aset T) l, as_shows bor cmp s l ->
  (forall n, as_nexts n (as_iter s) = Ok (s_ends (repeat Front n) l))
  /\ (forall lo hi cs, as_range bor cmp s lo hi cs = Ok (map fst (s_ends cs (x_range bor cmp lo hi l)))).
Proof. exact @as_iter_l. Qed.
Theorem C62_btree_iter : forall T Q (bor : T -> Q) cmp N, order_laws cmp -> (1 <= N)%nat ->
  forall (s : @bset T) l, bs_shows bor cmp N s l ->
  (forall cs, bs_ends cs (bs_iter s) = Ok (s_ends cs l))
  /\ (forall un, bs_into_list un s = Ok l)
  /\ (forall lo hi cs, x_fine bor cmp lo hi l ->
      bs_range bor cmp s lo hi cs = Ok (map fst (s_ends cs (x_range bor cmp lo hi l)))).
Proof. exact @bs_iter_l. Qed.
Theorem C62_avl_compare : forall T Q (bor : T -> Q) cmp, order_laws cmp ->
  forall teq ocmp (a b : @aset T) la lb, as_shows bor cmp a la -> as_shows bor cmp b lb ->
  as_eq teq a b = Ok (x_seq_eqb teq la lb) /\ as_cmp ocmp a b = Ok (x_seq_cmp ocmp la lb)
  /\ forall H (hlen : H -> nat -> H) ht s, as_hash hlen ht a s = Ok (fold_left ht la (hlen s (length la))).
Proof. exact @as_compare_l. Qed.
Theorem C62_btree_compare : forall T Q (bor : T -> Q) cmp N, order_laws cmp -> (1 <= N)%nat ->
  forall teq ocmp (a b : @bset T) la lb, bs_shows bor cmp N a la -> bs_shows bor cmp N b lb ->
  bs_eq teq a b = Ok (x_seq_eqb teq la lb) /\ bs_cmp ocmp a b = Ok (x_seq_cmp ocmp la lb)
  /\ forall H (hlen : H -> nat -> H) ht s, bs_hash hlen ht a s = Ok (fold_left ht la (hlen s (length la))).
Proof. exact @bs_compare_l. Qed.
Print Assumptions C62_avl_iter.
Print Assumptions C62_btree_iter.
Print Assumptions C62_avl_compare.
Print Assumptions C62_btree_compare.
Example C62_ex :
  bs_range ebor Z.compare t10 (Excluded 3) (Included 7) [Back; Front; Front; Back; Back]
    = Ok [Some (7, 0); Some (4, 0); Some (5, 0); Some (6, 0); None]
  /\ as_hash (fun h n => [Z.of_nat n] ++ h) (fun h (x : elt) => fst x :: h) asub [] = Ok [9; 5; 2; 3].
Proof.
  split.
  - refine (proj2 (proj2 (C62_btree_iter _ _ ebor _ 1%nat Zcmp_laws one1 t10 x10 t10_shows)) (Excluded 3) (Included 7) _ _).
    split.
    + intros (a & b & [= <-] & [= <-] & E). discriminate.
    + intros q (q' & _ & E & _). discriminate.
  - exact (proj2 (proj2 (C62_avl_compare _ _ ebor _ Zcmp_laws (fun _ _ => true) (fun _ _ => Eq) asub a4 xsub x4 asub_shows a4_shows))
             (list Z) _ _ []).
Qed.

(** ** C63, C64: any history of calls on any number of sets, starting from none *)
Theorem C63_avl_history : forall T Q (bor : T -> Q) cmp, order_laws cmp ->
  forall teq ocmp same (os : list (xop T Q)), (forall n a b, same n a b = true -> a = b) ->
  x_all_small bor cmp teq ocmp (x_subset bor cmp) (x_inter bor cmp) [] os ->
  exists st, as_run bor cmp teq ocmp same [] os
             = Ok (st, snd (x_run bor cmp teq ocmp (x_subset bor cmp) (x_inter bor cmp) [] os))
    /\ Forall2 (as_shows bor cmp) st (fst (x_run bor cmp teq ocmp (x_subset bor cmp) (x_inter bor cmp) [] os)).
Proof. exact @as_history_l. Qed.
Theorem C64_btree_history : forall T Q (bor : T -> Q) cmp N, order_laws cmp -> (1 <= N)%nat ->
  forall teq ocmp un (os : list (xop T Q)),
  x_all_supported bor cmp teq ocmp (x_strict_subset bor cmp) (x_small_inter bor cmp) [] os ->
  exists st, bs_run bor cmp N teq ocmp un [] os
             = Ok (st, snd (x_run bor cmp teq ocmp (x_strict_subset bor cmp) (x_small_inter bor cmp) [] os))
    /\ Forall2 (bs_shows bor cmp N) st
         (fst (x_run bor cmp teq ocmp (x_strict_subset bor cmp) (x_small_inter bor cmp) [] os)).
Proof. exact @bs_history_l. Qed.
(** C65: if equal elements are identical, the two kinds of set return the same on every
    history without subset tests (see C40). *)
Theorem C65_interchangeable : forall T Q (bor : T -> Q) cmp, order_laws cmp ->
  forall teq ocmp, (forall x y, cmp (bor x) (bor y) = Eq -> x = y) ->
  forall N same un (os : list (xop T Q)), (1 <= N)%nat ->
  (forall n a b, same n a b = true -> a = b) -> Forall no_subset_test os ->
  x_all_small bor cmp teq ocmp (x_subset bor cmp) (x_inter bor cmp) [] os ->
  x_all_supported bor cmp teq ocmp (x_strict_subset bor cmp) (x_small_inter bor cmp) [] os ->
  exists st st' rs, as_run bor cmp teq ocmp same [] os = Ok (st, rs)
    /\ bs_run bor cmp N teq ocmp un [] os = Ok (st', rs).
Proof. exact @sets_interchange_l. Qed.
Print Assumptions C63_avl_history.
Print Assumptions C64_btree_history.
Print Assumptions C65_interchangeable.
Definition shist : list (xop elt Z) :=
  [XFromIter x10; XFromIter x4; XNewUnion 0 1; XNewInter 1 0; XClone 2; XTake 2 5; XReplace 4 (8, 8);
   XSymDiff 2 4 3; XIsSubset 3 2; XIsSubset 2 2; XSplitOff 2 6; XAppend 5 3; XLen 5; XCheck 5;
   XRange 4 (Included 7) Unbounded [Back; Front; Front]; XCmp 0 1].
Definition sz_eq (a b : elt) := fst a =? fst b.
Definition sz_cmp (a b : elt) := Z.compare (fst a) (fst b).
Example C63_ex : exists st, as_run ebor Z.compare sz_eq sz_cmp (fun _ => node_eqb) [] shist
  = Ok (st, [XUnit; XUnit; XUnit; XUnit; XUnit; XElem (Some (5, 0)); XElem (Some (8, 0));
             XItems [Some (5, 0); None; None]; XBool true; XBool true; XUnit; XUnit; XNum 8; XBool true;
             XItems [Some (11, 7); Some (7, 0); Some (8, 8)]; XOrd Gt]).
Proof.
  destruct (C63_avl_history _ _ ebor _ Zcmp_laws sz_eq sz_cmp (fun _ => node_eqb) shist (fun _ => node_eqb_sound))
    as (st & E & _).
  - repeat (split; [repeat constructor|]); repeat constructor.
  - exists st. exact E.
Qed.
Example C64_ex : exists st, bs_run ebor Z.compare 1 sz_eq sz_cmp (fun _ t => Nat.even (BTreeModel.n_len t)) [] shist
  = Ok (st, [XUnit; XUnit; XUnit; XUnit; XUnit; XElem (Some (5, 0)); XElem (Some (8, 0));
             XItems [Some (5, 0); None; None]; XBool true; XBool false; XUnit; XUnit; XNum 8; XBool true;
             XItems [Some (11, 7); Some (7, 0); Some (8, 8)]; XOrd Gt]).
Proof.
  destruct (C64_btree_history _ _ ebor _ 1%nat Zcmp_laws one1 sz_eq sz_cmp (fun _ t => Nat.even (BTreeModel.n_len t)) shist)
    as (st & E & _).
  - do 14 (split; [exact I|]). split; [|do 1 (split; [exact I|]); exact I].
    intros l _. split.
    + intros (a & b & _ & E & _). discriminate.
    + intros q (q' & E & _). discriminate.
  - exists st. exact E.
Qed.
Example C65_ex : exists st st' rs,
  as_run (fun z : Z => z) Z.compare Z.eqb Z.compare (fun _ _ _ => false) []
    [XFromIter [3; 1; 2]; XFromIter [2; 5; 3]; XNewInter 0 1; XUnion 2 1 4] = Ok (st, rs)
  /\ bs_run (fun z : Z => z) Z.compare 1 Z.eqb Z.compare (fun _ _ => false) []
    [XFromIter [3; 1; 2]; XFromIter [2; 5; 3]; XNewInter 0 1; XUnion 2 1 4] = Ok (st', rs).
Proof.
  apply (C65_interchangeable Z Z (fun z => z) Z.compare Zcmp_laws Z.eqb Z.compare).
  - intros x y. apply Z.compare_eq.
  - apply le_n.
  - discriminate.
  - repeat constructor.
  - repeat (split; [repeat constructor|]); repeat constructor.
  - repeat split.
Qed.
