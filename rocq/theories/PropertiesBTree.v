(** Theorems about [BTreeMap<K, V, N>] (properties C28-C37, C59-C61).

    [b_shows bor cmp N m l] (BTreeShows.v): the map [m] passes its own [check()], no node
    has a surplus child, and [iter()] yields the list [l]. Every theorem says what a call
    returns and what the map(s) show afterwards. [Ok] means: no panic. The
    specification functions [s_*] are in Spec.v and MapSpec.v, [bounds_fine],
    [inverted] and [pinched] in BTreeSpec.v. Keys are compared through their
    borrowed form; keys that compare equal need not be identical, and [Ord] may be any
    total preorder. [un] (owning iteration) tells which nodes are found unshared. *)
From Coq Require Import List ZArith Bool Sorted.
From Verif Require Import Base Spec MapSpec BTreeSpec Vec BTreeModel BTreeIterModel
  BTreeChkProofs BTreeMutProofs BTreeHistModel BTreeShows.
From Verif Require AvlHistModel.
Import ListNotations.
Open Scope Z_scope.

(** ** Sample data: keys are pairs compared by their first component only; [N = 1],
    so nodes hold one to three entries. *)
Definition bkey : Type := (Z * Z)%type.
Definition kbor (k : bkey) : Z := fst k.
Definition bkv (n : Z) : bkey * Z := ((n, 0), 10 * n).
Definition bforce (r : res (bt_map bkey Z)) : bt_map bkey Z :=
  match r with Ok m => m | Panic => b_new end.
(** Three levels, twelve entries. *)
Definition b12 := Eval vm_compute in
  bforce (b_from_iter kbor Z.compare 1 (map bkv [1; 2; 3; 4; 5; 6; 7; 8; 9; 10; 11; 12])).
Definition b3 := Eval vm_compute in
  bforce (b_from_iter kbor Z.compare 1 [((4, 7), 41); ((20, 7), 201); ((3, 7), 31)]).
Definition e12 := map bkv [1; 2; 3; 4; 5; 6; 7; 8; 9; 10; 11; 12].
Definition e3 : list (bkey * Z) := [((3, 7), 31); ((4, 7), 41); ((20, 7), 201)].
Definition one_one : (1 <= 1)%nat := le_n 1.
Example b12_shows : b_shows kbor Z.compare 1 b12 e12. Proof. repeat split. Qed.
Example b3_shows : b_shows kbor Z.compare 1 b3 e3. Proof. repeat split. Qed.
Definition odd_shared (t : bt bkey Z) : bool := Nat.even (n_len t).

Lemma Forall2_cons_r {A B} (R : A -> B -> Prop) l y r : Forall2 R l (y :: r) ->
  exists x l', l = x :: l' /\ R x y /\ Forall2 R l' r.
Proof. intros H. inversion H; subst. eauto. Qed.
Lemma Forall2_nil_r {A B} (R : A -> B -> Prop) l : Forall2 R l [] -> l = [].
Proof. now inversion 1. Qed.

(** ** What [b_shows] gives: strictly ascending keys and the right length. *)
Theorem b_shows_ascending : forall K V Q (bor : K -> Q) cmp N, order_laws cmp -> (1 <= N)%nat ->
  forall (m : bt_map K V) l, b_shows bor cmp N m l ->
  ascending bor cmp l /\ b_len m = length l.
Proof. exact @b_shows_asc. Qed.
Theorem b_shows_new : forall K V Q (bor : K -> Q) cmp N,
  b_shows bor cmp N (@b_new K V) [] /\ forall m : bt_map K V, b_shows bor cmp N (b_clear m) [].
Proof. exact @b_new_l. Qed.

(** ** C28 *)
Theorem C28_insert : forall K V Q (bor : K -> Q) cmp N, order_laws cmp -> (1 <= N)%nat ->
  forall (m : bt_map K V) l k v, b_shows bor cmp N m l ->
  exists m', b_insert bor cmp N m k v = Ok (m', s_get bor cmp (bor k) l)
    /\ b_shows bor cmp N m' (s_insert bor cmp k v l).
Proof. exact @b_insert_l. Qed.
Print Assumptions C28_insert.
(** The stored key is replaced by the new, equal one; a new key splits nodes. *)
Example C28_ex : exists m', b_insert kbor Z.compare 1 b3 (4, 99) 44 = Ok (m', Some 41)
  /\ b_shows kbor Z.compare 1 m' [((3, 7), 31); ((4, 99), 44); ((20, 7), 201)].
Proof. exact (C28_insert _ _ _ kbor _ 1%nat Zcmp_laws one_one b3 e3 (4, 99) 44 b3_shows). Qed.
Example C28_ex' : exists m', b_insert kbor Z.compare 1 b12 (13, 0) 130 = Ok (m', None)
  /\ b_shows kbor Z.compare 1 m' (e12 ++ [bkv 13]).
Proof. exact (C28_insert _ _ _ kbor _ 1%nat Zcmp_laws one_one b12 e12 (13, 0) 130 b12_shows). Qed.

(** ** C29 *)
Theorem C29_remove : forall K V Q (bor : K -> Q) cmp N, order_laws cmp -> (1 <= N)%nat ->
  forall (m : bt_map K V) l q, b_shows bor cmp N m l ->
  exists m', b_remove bor cmp N m q = Ok (m', s_get bor cmp q l)
    /\ b_shows bor cmp N m' (s_remove bor cmp q l).
Proof. exact @b_remove_l. Qed.
Print Assumptions C29_remove.
Example C29_ex : exists m', b_remove kbor Z.compare 1 b12 4 = Ok (m', Some 40)
  /\ b_shows kbor Z.compare 1 m' (map bkv [1; 2; 3; 5; 6; 7; 8; 9; 10; 11; 12]).
Proof. exact (C29_remove _ _ _ kbor _ 1%nat Zcmp_laws one_one b12 e12 4 b12_shows). Qed.

(** ** C30 *)
Theorem C30_lookup : forall K V Q (bor : K -> Q) cmp N, order_laws cmp -> (1 <= N)%nat ->
  forall (m : bt_map K V) l q, b_shows bor cmp N m l ->
  b_get_key_value bor cmp m q = s_find bor cmp q l
  /\ b_get bor cmp m q = s_get bor cmp q l
  /\ b_contains_key bor cmp m q = s_mem bor cmp q l.
Proof. exact @b_lookup_l. Qed.
Theorem C30_get_mut : forall K V Q (bor : K -> Q) cmp N, order_laws cmp -> (1 <= N)%nat ->
  forall (m : bt_map K V) l q w, b_shows bor cmp N m l ->
  exists m', b_get_mut bor cmp m q w = (m', s_get bor cmp q l)
    /\ b_shows bor cmp N m' (s_update bor cmp q w l).
Proof. exact @b_get_mut_l. Qed.
Theorem C30_ends : forall K V Q (bor : K -> Q) cmp N, order_laws cmp -> (1 <= N)%nat ->
  forall (m : bt_map K V) l, b_shows bor cmp N m l ->
  b_first_key_value m = Ok (s_first l) /\ b_last_key_value m = s_last l
  /\ b_first_entry m = Ok (option_map fst (s_first l)) /\ b_last_entry m = option_map fst (s_last l)
  /\ b_len m = length l /\ b_is_empty m = match l with [] => true | _ => false end.
Proof. exact @b_ends_l. Qed.
Print Assumptions C30_lookup.
Print Assumptions C30_get_mut.
Print Assumptions C30_ends.
Example C30_ex : b_get_key_value kbor Z.compare b12 7 = Some (bkv 7)
  /\ b_get kbor Z.compare b12 7 = Some 70 /\ b_contains_key kbor Z.compare b12 7 = true.
Proof. exact (C30_lookup _ _ _ kbor _ 1%nat Zcmp_laws one_one b12 e12 7 b12_shows). Qed.
Example C30_ex' : exists m', b_get_mut kbor Z.compare b3 4 Z.opp = (m', Some 41)
  /\ b_shows kbor Z.compare 1 m' [((3, 7), 31); ((4, 7), -41); ((20, 7), 201)].
Proof. exact (C30_get_mut _ _ _ kbor _ 1%nat Zcmp_laws one_one b3 e3 4 Z.opp b3_shows). Qed.
Example C30_ex'' : b_first_key_value b3 = Ok (Some ((3, 7), 31)) /\ b_last_key_value b3 = Some ((20, 7), 201)
  /\ b_first_entry b3 = Ok (Some (3, 7)) /\ b_last_entry b3 = Some (20, 7)
  /\ b_len b3 = 3%nat /\ b_is_empty b3 = false.
Proof. exact (C30_ends _ _ _ kbor _ 1%nat Zcmp_laws one_one b3 e3 b3_shows). Qed.

(** ** C31: occupancy, arity, equal leaf depth, logarithmic depth of every map that
    shows; [C37_history] says that every reachable map does. *)
Theorem C31_shape : forall K V Q (bor : K -> Q) cmp N, order_laws cmp -> (1 <= N)%nat ->
  forall (m : bt_map K V) l t, b_shows bor cmp N m l -> bm_root m = Some t ->
  (1 <= n_len t <= 2 * N + 1)%nat
  /\ (forall c, In c (nodes_below t) -> (N <= n_len c <= 2 * N + 1)%nat)
  /\ (forall c, In c (t :: nodes_below t) -> kids_of c = [] \/ length (kids_of c) = S (n_len c))
  /\ exists d, (forall x, In x (leaf_depths t) -> x = d)
       /\ (2 * (N + 1) ^ d <= length l + 1 <= (2 * N + 2) ^ (d + 1))%nat.
Proof. exact @b_shape_l. Qed.
Print Assumptions C31_shape.
Example C31_ex : exists t, bm_root b12 = Some t /\ length (nodes_below t) = 8%nat /\ leaf_depths t = [2; 2; 2; 2; 2; 2]%nat
  /\ (2 * 2 ^ 2 <= length e12 + 1 <= 4 ^ 3)%nat.
Proof.
  eexists. split; [reflexivity|]. split; [reflexivity|]. split; [reflexivity|].
  destruct (C31_shape _ _ _ kbor _ 1%nat Zcmp_laws one_one b12 e12 _ b12_shows eq_refl) as (_ & _ & _ & d & Hd & B).
  assert (d = 2%nat) by (symmetry; apply Hd; now left). subst d. exact B.
Qed.

(** ** C32, finding: with [N = 0], which the type admits, inserting 1 and 2 and
    removing 1 panics; and after inserting 1 and removing it, [check()] reports an error and
    [first_key_value()] panics. *)
Theorem C32_min_occ_zero_broken :
  (exists m1 m2, b_insert kbor Z.compare 0 b_new (1, 0) 10 = Ok (m1, None)
     /\ b_insert kbor Z.compare 0 m1 (2, 0) 20 = Ok (m2, None)
     /\ b_remove kbor Z.compare 0 m2 1 = Panic)
  /\ (exists m1 m2, b_insert kbor Z.compare 0 b_new (1, 0) 10 = Ok (m1, None)
     /\ b_remove kbor Z.compare 0 m1 1 = Ok (m2, Some 10)
     /\ b_chk kbor Z.compare 0 m2 = Ok (inr Underpopulated)
     /\ b_first_key_value m2 = Panic).
Proof. split; eexists _, _; repeat split; vm_compute; reflexivity. Qed.
Print Assumptions C32_min_occ_zero_broken.

(** ** C33 *)
Theorem C33_iter : forall K V Q (bor : K -> Q) cmp N, order_laws cmp -> (1 <= N)%nat ->
  forall (m : bt_map K V) l cs, b_shows bor cmp N m l ->
  b_run_ends borrowed cs (bt_iter m) = Ok (s_ends cs l).
Proof. exact @b_iter_l. Qed.
(** Whichever nodes are found shared. *)
Theorem C33_into_iter : forall K V Q (bor : K -> Q) cmp N, order_laws cmp -> (1 <= N)%nat ->
  forall un (m : bt_map K V) l cs, b_shows bor cmp N m l ->
  b_run_ends (owning un) cs (bt_into_iter un m) = Ok (s_ends cs l) /\ b_into_list un m = Ok l.
Proof. exact @b_into_l. Qed.
(** [iter_mut] hands out one reference per entry, in order from either end. Any number of
    writes through these references, in any order, changes the values of their
    entries and nothing else. *)
Theorem C33_iter_mut : forall K V Q (bor : K -> Q) cmp N, order_laws cmp -> (1 <= N)%nat ->
  forall (m : bt_map K V) l cs, b_shows bor cmp N m l ->
  exists refs, map shown refs = l
    /\ b_run_ends borrowed cs (bt_iter_mut m) = Ok (s_ends cs refs)
    /\ forall ws, b_shows bor cmp N (writes refs ws m)
                    (fold_left (fun l iw => upd_nth (fst iw) (snd iw) l) ws l).
Proof. exact @b_iter_mut_l. Qed.
Print Assumptions C33_iter.
Print Assumptions C33_into_iter.
Print Assumptions C33_iter_mut.
Example C33_ex : b_run_ends borrowed [Front; Back; Front; Back] (bt_iter b12)
  = Ok [(Some (bkv 1), 11%nat); (Some (bkv 12), 10%nat); (Some (bkv 2), 9%nat); (Some (bkv 11), 8%nat)].
Proof. exact (C33_iter _ _ _ kbor _ 1%nat Zcmp_laws one_one b12 e12 [Front; Back; Front; Back] b12_shows). Qed.
Example C33_ex' : b_run_ends (owning odd_shared) [Back; Front; Back; Back] (bt_into_iter odd_shared b3)
  = Ok [(Some ((20, 7), 201), 2%nat); (Some ((3, 7), 31), 1%nat); (Some ((4, 7), 41), 0%nat); (None, 0%nat)].
Proof. exact (proj1 (C33_into_iter _ _ _ kbor _ 1%nat Zcmp_laws one_one odd_shared b3 e3 [Back; Front; Back; Back] b3_shows)). Qed.
Example C33_ex'' : exists refs r, map shown refs = e12
  /\ b_run_ends borrowed [Back] (bt_iter_mut b12) = Ok [(Some r, 11%nat)] /\ shown r = bkv 12
  /\ b_shows kbor Z.compare 1 (writes refs [(11%nat, Z.opp); (0%nat, Z.succ); (11%nat, Z.succ)] b12)
       (((1, 0), 11) :: map bkv [2; 3; 4; 5; 6; 7; 8; 9; 10; 11] ++ [((12, 0), -119)]).
Proof.
  destruct (C33_iter_mut _ _ _ kbor _ 1%nat Zcmp_laws one_one b12 e12 [Back] b12_shows) as (refs & Hr & Hi & Hw).
  exists refs. rewrite Hi. specialize (Hw [(11%nat, Z.opp); (0%nat, Z.succ); (11%nat, Z.succ)]).
  do 13 (destruct refs as [|? refs]; try discriminate). eexists. repeat split; auto; try apply Hw.
  exact (f_equal (fun l => nth 11 l (bkv 0)) Hr).
Qed.

(** ** C34: [s_range] filters the entries. [size_hint] brackets the number of
    remaining items, initially and after every call. *)
Theorem C34_range : forall K V Q (bor : K -> Q) cmp N, order_laws cmp -> (1 <= N)%nat ->
  forall (m : bt_map K V) l lo hi cs, b_shows bor cmp N m l -> bounds_fine bor cmp lo hi l ->
  exists it outs, b_range bor cmp m lo hi = Ok it
    /\ (fst (b_range_hint N it) <= length (s_range bor cmp lo hi l) <= snd (b_range_hint N it))%nat
    /\ b_range_calls N cs it = Ok outs
    /\ Forall2 (fun o s => fst o = fst s /\ (fst (snd o) <= snd s <= snd (snd o))%nat) outs
               (s_ends cs (s_range bor cmp lo hi l)).
Proof. exact @b_range_l. Qed.
Theorem C34_range_mut : forall K V Q (bor : K -> Q) cmp N, order_laws cmp -> (1 <= N)%nat ->
  forall (m : bt_map K V) l lo hi cs, b_shows bor cmp N m l -> bounds_fine bor cmp lo hi l ->
  exists refs it outs, map shown refs = l
    /\ b_range_mut bor cmp m lo hi = Ok it
    /\ (fst (b_range_hint N it) <= length (s_range bor cmp lo hi l) <= snd (b_range_hint N it))%nat
    /\ b_range_calls N cs it = Ok outs
    /\ Forall2 (fun o s => fst o = fst s /\ (fst (snd o) <= snd s <= snd (snd o))%nat) outs
               (s_ends cs (filter (fun r => above bor cmp lo (shown r) && below bor cmp hi (shown r)) refs))
    /\ forall ws, b_shows bor cmp N (writes refs ws m)
                    (fold_left (fun l iw => upd_nth (fst iw) (snd iw) l) ws l).
Proof. exact @b_range_mut_l. Qed.
Print Assumptions C34_range.
Print Assumptions C34_range_mut.
Example C34_fine : bounds_fine kbor Z.compare (Included 3) (Excluded 7) e12.
Proof.
  split.
  - intros (a & b & [= <-] & [= <-] & E). discriminate.
  - intros q (q' & E & _). discriminate.
Qed.
Example C34_ex : exists it outs, b_range kbor Z.compare b12 (Included 3) (Excluded 7) = Ok it
  /\ b_range_calls 1 [Back; Front; Front; Front; Front] it = Ok outs
  /\ map fst outs = [Some (bkv 6); Some (bkv 3); Some (bkv 4); Some (bkv 5); None].
Proof.
  destruct (C34_range _ _ _ kbor _ 1%nat Zcmp_laws one_one b12 e12 (Included 3) (Excluded 7)
              [Back; Front; Front; Front; Front] b12_shows C34_fine) as (it & outs & E & _ & Eo & F).
  exists it, outs. split; [exact E|]. split; [exact Eo|].
  change (s_ends _ _) with [(Some (bkv 6), 3%nat); (Some (bkv 3), 2%nat); (Some (bkv 4), 1%nat); (Some (bkv 5), 0%nat); (@None (bkey * Z), 0%nat)] in F.
  repeat match goal with H : Forall2 _ _ (_ :: _) |- _ => apply Forall2_cons_r in H as (? & ? & -> & [? _] & H) end.
  apply Forall2_nil_r in F as ->. cbn [map]. rewrite H, H0, H1, H2, H3. reflexivity.
Qed.
(** Both ends exclude 0, which is absent: nothing is in range and there is no panic. *)
Example C34_ex' : exists it, b_range_mut kbor Z.compare b12 (Excluded 0) (Excluded 0) = Ok it
  /\ exists h, b_range_calls 1 [Front] it = Ok [(None, h)].
Proof. eexists. split; [vm_compute; reflexivity|]. eexists. vm_compute. reflexivity. Qed.

(** ** C35: inverted bounds panic on every map. Finding: bounds that both exclude [q]
    panic exactly when [q] is in the map (std's [BTreeMap] always panics). *)
Theorem C35_range_panics : forall K V Q (bor : K -> Q) cmp N, order_laws cmp -> (1 <= N)%nat ->
  forall (m : bt_map K V) l lo hi, b_shows bor cmp N m l ->
  (inverted cmp lo hi -> b_range bor cmp m lo hi = Panic /\ b_range_mut bor cmp m lo hi = Panic)
  /\ forall q, pinched cmp lo hi q ->
       (b_range bor cmp m lo hi = Panic <-> s_mem bor cmp q l = true)
       /\ (b_range_mut bor cmp m lo hi = Panic <-> s_mem bor cmp q l = true).
Proof. exact @b_range_bad_l. Qed.
Print Assumptions C35_range_panics.
Example C35_ex : b_range kbor Z.compare b12 (Included 7) (Excluded 3) = Panic.
Proof.
  apply (C35_range_panics _ _ _ kbor _ 1%nat Zcmp_laws one_one b12 e12 (Included 7) (Excluded 3) b12_shows).
  exists 7, 3. repeat split.
Qed.
Example C35_ex' : b_range kbor Z.compare b12 (Excluded 7) (Excluded 7) = Panic
  /\ b_range kbor Z.compare b3 (Excluded 7) (Excluded 7) <> Panic.
Proof.
  assert (P : pinched Z.compare (Excluded 7) (Excluded 7) 7) by (exists 7; repeat split).
  split.
  - apply (C35_range_panics _ _ _ kbor _ 1%nat Zcmp_laws one_one b12 e12 (Excluded 7) (Excluded 7) b12_shows) with (q := 7); auto.
  - intros E. apply (C35_range_panics _ _ _ kbor _ 1%nat Zcmp_laws one_one b3 e3 (Excluded 7) (Excluded 7) b3_shows) with (q := 7) in E; auto.
    discriminate.
Qed.

(** ** C36 *)
Theorem C36_pops : forall K V Q (bor : K -> Q) cmp N, order_laws cmp -> (1 <= N)%nat ->
  forall (m : bt_map K V) l, b_shows bor cmp N m l ->
  (exists m', b_pop_first N m = Ok (m', s_first l) /\ b_shows bor cmp N m' (tl l))
  /\ (exists m', b_pop_last N m = Ok (m', s_last l) /\ b_shows bor cmp N m' (removelast l)).
Proof. exact @b_pops_l. Qed.
Theorem C36_append : forall K V Q (bor : K -> Q) cmp N, order_laws cmp -> (1 <= N)%nat ->
  forall un (a b : bt_map K V) la lb, b_shows bor cmp N a la -> b_shows bor cmp N b lb ->
  exists a' b', b_append bor cmp N un a b = Ok (a', b')
    /\ b_shows bor cmp N a' (s_union bor cmp la lb) /\ b_shows bor cmp N b' [].
Proof. exact @b_append_l. Qed.
Theorem C36_split_off : forall K V Q (bor : K -> Q) cmp N, order_laws cmp -> (1 <= N)%nat ->
  forall un (m : bt_map K V) l q, b_shows bor cmp N m l ->
  exists a b, b_split_off bor cmp N un m q = Ok (a, b)
    /\ b_shows bor cmp N a (filter (lt_q bor cmp q) l)
    /\ b_shows bor cmp N b (filter (fun e => negb (lt_q bor cmp q e)) l).
Proof. exact @b_split_off_l. Qed.
(** The closure may keep state; it is called once on every entry, in ascending order
    ([run_calls f s l]), and the accepted entries stay with the values it left. *)
Theorem C36_retain : forall K V Q (bor : K -> Q) cmp N, order_laws cmp -> (1 <= N)%nat ->
  forall S un (f : S -> K -> V -> S * V * bool) (m : bt_map K V) l s, b_shows bor cmp N m l ->
  exists m', b_retain bor cmp N un f m s = Ok (m', snd (run_calls f s l))
    /\ b_shows bor cmp N m' (map (fun o => (fst (fst (fst o)), snd (fst o)))
                                 (filter (fun o => snd o) (fst (run_calls f s l)))).
Proof. exact @b_retain_l. Qed.
Theorem C36_extend : forall K V Q (bor : K -> Q) cmp N, order_laws cmp -> (1 <= N)%nat ->
  forall (m : bt_map K V) l ps, b_shows bor cmp N m l ->
  exists m', b_extend bor cmp N m ps = Ok m' /\ b_shows bor cmp N m' (s_extend bor cmp l ps).
Proof. exact @b_extend_l. Qed.
Print Assumptions C36_pops.
Print Assumptions C36_append.
Print Assumptions C36_split_off.
Print Assumptions C36_retain.
Print Assumptions C36_extend.
Example C36_ex : (exists m', b_pop_first 1 b12 = Ok (m', Some (bkv 1)) /\ b_shows kbor Z.compare 1 m' (tl e12))
  /\ (exists m', b_pop_last 1 b12 = Ok (m', Some (bkv 12)) /\ b_shows kbor Z.compare 1 m' (removelast e12)).
Proof. exact (C36_pops _ _ _ kbor _ 1%nat Zcmp_laws one_one b12 e12 b12_shows). Qed.
(** The right operand wins, key and value. *)
Example C36_ex' : exists a' b', b_append kbor Z.compare 1 odd_shared b12 b3 = Ok (a', b')
  /\ b_shows kbor Z.compare 1 a' (map bkv [1; 2] ++ [((3, 7), 31); ((4, 7), 41)]
                                  ++ map bkv [5; 6; 7; 8; 9; 10; 11; 12] ++ [((20, 7), 201)])
  /\ b_shows kbor Z.compare 1 b' [].
Proof. exact (C36_append _ _ _ kbor _ 1%nat Zcmp_laws one_one odd_shared b12 b3 e12 e3 b12_shows b3_shows). Qed.
Example C36_ex'' : exists a b, b_split_off kbor Z.compare 1 odd_shared b12 5 = Ok (a, b)
  /\ b_shows kbor Z.compare 1 a (map bkv [1; 2; 3; 4])
  /\ b_shows kbor Z.compare 1 b (map bkv [5; 6; 7; 8; 9; 10; 11; 12]).
Proof. exact (C36_split_off _ _ _ kbor _ 1%nat Zcmp_laws one_one odd_shared b12 e12 5 b12_shows). Qed.
(** Keep every entry whose position in the order of the visits is divisible by 3;
    write the position. *)
Example C36_ex''' : exists m',
  b_retain kbor Z.compare 1 odd_shared (fun n k v => (n + 1, n, n mod 3 =? 0)) b12 0 = Ok (m', 12)
  /\ b_shows kbor Z.compare 1 m' [((1, 0), 0); ((4, 0), 3); ((7, 0), 6); ((10, 0), 9)].
Proof.
  exact (C36_retain _ _ _ kbor _ 1%nat Zcmp_laws one_one Z odd_shared (fun n k v => (n + 1, n, n mod 3 =? 0)) b12 e12 0 b12_shows).
Qed.
Example C36_ex4 : exists m', b_extend kbor Z.compare 1 b3 [((4, 1), 1); ((2, 2), 2); ((4, 3), 3)] = Ok m'
  /\ b_shows kbor Z.compare 1 m' [((2, 2), 2); ((3, 7), 31); ((4, 3), 3); ((20, 7), 201)].
Proof. exact (C36_extend _ _ _ kbor _ 1%nat Zcmp_laws one_one b3 e3 [((4, 1), 1); ((2, 2), 2); ((4, 3), 3)] b3_shows). Qed.

(** ** C37: any history of calls on any number of maps, starting from none, returns
    what the specification returns, does not panic, and leaves maps that show what the
    specification holds. [un] may answer differently at every call. *)
Theorem C37_history : forall K V Q (bor : K -> Q) cmp N, order_laws cmp -> (1 <= N)%nat ->
  forall keq veq kcmp vcmp un (os : list (op K V Q)),
  all_supported bor cmp keq veq kcmp vcmp [] os ->
  exists st, b_run bor cmp N keq veq kcmp vcmp un [] os
             = Ok (st, snd (s_run bor cmp keq veq kcmp vcmp [] os))
    /\ Forall2 (b_shows bor cmp N) st (fst (s_run bor cmp keq veq kcmp vcmp [] os)).
Proof. exact @b_history_l. Qed.
(** [AvlMap] and [BTreeMap] return the same on every history that both support. *)
Theorem C37_interchangeable : forall K V Q (bor : K -> Q) cmp N, order_laws cmp -> (1 <= N)%nat ->
  forall keq veq kcmp vcmp un (os : list (op K V Q)),
  all_supported bor cmp keq veq kcmp vcmp [] os -> all_small bor cmp keq veq kcmp vcmp [] os ->
  exists st st' rs, b_run bor cmp N keq veq kcmp vcmp un [] os = Ok (st, rs)
    /\ AvlHistModel.run bor cmp keq veq kcmp vcmp [] os = Ok (st', rs).
Proof. exact @b_interchange_l. Qed.
Print Assumptions C37_history.
Print Assumptions C37_interchangeable.
Definition hist : list (op bkey Z Z) :=
  [ONew; OExtend 0 e12; OClone 0; ORemove 0 4; OOrInsert 1 (4, 9) 1 Z.opp; OSplitOff 1 6; OAppend 2 0;
   ORange 2 (Excluded 3) (Included 7) [Back; Front; Front]; OCheck 2; OLen 2; OFirst 1; OPopLast 2].
Example C37_supported : all_supported kbor Z.compare (fun a b => kbor a =? kbor b) Z.eqb
  (fun a b => Z.compare (kbor a) (kbor b)) Z.compare [] hist.
Proof.
  do 7 (split; [exact I|]). split; [|do 4 (split; [exact I|]); exact I].
  intros l _. split.
  - intros (a & b & [= <-] & [= <-] & E). discriminate.
  - intros q (q' & _ & E & _). discriminate.
Qed.
Example C37_ex : exists st, b_run kbor Z.compare 1 (fun a b => kbor a =? kbor b) Z.eqb
    (fun a b => Z.compare (kbor a) (kbor b)) Z.compare (fun _ => odd_shared) [] hist
  = Ok (st, [RUnit; RUnit; RUnit; RVal (Some 40); RVal (Some 40); RUnit; RUnit;
             RItems [Some (bkv 7); Some (bkv 5); Some (bkv 6)]; RBool true; RLen 11;
             REntry (Some (bkv 1)); REntry (Some (bkv 12))]).
Proof.
  destruct (C37_history _ _ _ kbor _ 1%nat Zcmp_laws one_one (fun a b => kbor a =? kbor b) Z.eqb
    (fun a b => Z.compare (kbor a) (kbor b)) Z.compare (fun _ => odd_shared) hist C37_supported) as (st & E & _).
  exists st. exact E.
Qed.

(** ** C59: [check()] is exact up to surplus children: a map whose nodes have the right
    number of children passes [check()] exactly if its occupancies, depths, key order and
    length are right ... *)
Theorem C59_check_exact : forall K V Q (bor : K -> Q) cmp N, order_laws cmp -> (1 <= N)%nat ->
  forall m : bt_map K V, map_kids_match m = true ->
  (b_chk bor cmp N m = Ok (inl tt) <-> exists l, well_formed bor cmp N m l).
Proof. exact @b_check_exact_l. Qed.
Print Assumptions C59_check_exact.
Example C59_ex : exists l, well_formed kbor Z.compare 1 b12 l.
Proof. exact (proj1 (C59_check_exact _ _ _ kbor _ 1%nat Zcmp_laws one_one b12 eq_refl) eq_refl). Qed.
(** ... but, a finding, [check()] accepts a node with a surplus child, with which
    iteration panics. *)
Theorem C59_check_misses_surplus_child :
  exists m : bt_map bkey Z, b_chk kbor Z.compare 1 m = Ok (inl tt) /\ b_collect m = Panic.
Proof.
  exists (BMap 3 (Some (BN [bkv 5] [BN [bkv 1] []; BN [bkv 99] []; BN [bkv 7] []]))).
  split; reflexivity.
Qed.
Print Assumptions C59_check_misses_surplus_child.

(** ** C60 *)
Theorem C60_eq_cmp : forall K V Q (bor : K -> Q) cmp N, order_laws cmp -> (1 <= N)%nat ->
  forall keq veq kcmp vcmp (a b : bt_map K V) la lb, b_shows bor cmp N a la -> b_shows bor cmp N b lb ->
  b_eq keq veq a b = Ok (seq_eqb keq veq la lb) /\ b_cmp kcmp vcmp a b = Ok (seq_cmp kcmp vcmp la lb).
Proof. exact @b_eq_cmp_l. Qed.
Print Assumptions C60_eq_cmp.
(** Maps of different shape with the same entries are equal. *)
Definition b12' := Eval vm_compute in
  bforce (b_from_iter kbor Z.compare 1 (map bkv [12; 11; 10; 9; 8; 7; 6; 5; 4; 3; 2; 1])).
Example C60_ex : bm_root b12 <> bm_root b12'
  /\ b_eq (fun a b => kbor a =? kbor b) Z.eqb b12 b12' = Ok true
  /\ b_cmp (fun a b => Z.compare (kbor a) (kbor b)) Z.compare b12 b3 = Ok Lt.
Proof.
  assert (S : b_shows kbor Z.compare 1 b12' e12) by (repeat split). split; [discriminate|]. split.
  - apply (C60_eq_cmp _ _ _ kbor _ 1%nat Zcmp_laws one_one (fun a b => kbor a =? kbor b) Z.eqb
             (fun a b => Z.compare (kbor a) (kbor b)) Z.compare b12 b12' e12 e12 b12_shows S).
  - apply (C60_eq_cmp _ _ _ kbor _ 1%nat Zcmp_laws one_one (fun a b => kbor a =? kbor b) Z.eqb
             (fun a b => Z.compare (kbor a) (kbor b)) Z.compare b12 b3 e12 e3 b12_shows b3_shows).
Qed.

(** ** C61: [or_insert_with] calls its (stateful) closure exactly when the key is
    absent; [w] is what the caller does through the returned reference. *)
Theorem C61_or_insert_with : forall K V Q (bor : K -> Q) cmp N, order_laws cmp -> (1 <= N)%nat ->
  forall S (m : bt_map K V) l k (f : S -> S * V) s w, b_shows bor cmp N m l ->
  exists m',
    b_or_insert_with bor cmp N m k f s w =
      Ok (match s_get bor cmp (bor k) l with
          | Some v => (m', s, v)
          | None => (m', fst (f s), snd (f s))
          end)
    /\ b_shows bor cmp N m' (match s_get bor cmp (bor k) l with
                             | Some _ => s_update bor cmp (bor k) w l
                             | None => s_insert bor cmp k (w (snd (f s))) l
                             end).
Proof. exact @b_or_insert_with_l. Qed.
Theorem C61_and_modify : forall K V Q (bor : K -> Q) cmp N, order_laws cmp -> (1 <= N)%nat ->
  forall (m : bt_map K V) l k f, b_shows bor cmp N m l ->
  b_shows bor cmp N (b_and_modify bor cmp m k f) (s_update bor cmp (bor k) f l).
Proof. exact @b_and_modify_l. Qed.
Print Assumptions C61_or_insert_with.
Print Assumptions C61_and_modify.
Example C61_ex : exists m', b_or_insert_with kbor Z.compare 1 b3 (6, 1) (fun n => (n + 1, 66)) 0 Z.opp = Ok (m', 1, 66)
  /\ b_shows kbor Z.compare 1 m' [((3, 7), 31); ((4, 7), 41); ((6, 1), -66); ((20, 7), 201)].
Proof. exact (C61_or_insert_with _ _ _ kbor _ 1%nat Zcmp_laws one_one Z b3 e3 (6, 1) (fun n => (n + 1, 66)) 0 Z.opp b3_shows). Qed.
(** An existing key stays as it was stored, and the closure is not called. *)
Example C61_ex' : exists m', b_or_insert_with kbor Z.compare 1 b3 (4, 1) (fun n => (n + 1, 66)) 0 Z.opp = Ok (m', 0, 41)
  /\ b_shows kbor Z.compare 1 m' [((3, 7), 31); ((4, 7), -41); ((20, 7), 201)].
Proof. exact (C61_or_insert_with _ _ _ kbor _ 1%nat Zcmp_laws one_one Z b3 e3 (4, 1) (fun n => (n + 1, 66)) 0 Z.opp b3_shows). Qed.
Example C61_ex'' : b_shows kbor Z.compare 1 (b_and_modify kbor Z.compare b3 (20, 5) Z.opp) [((3, 7), 31); ((4, 7), 41); ((20, 7), -201)].
Proof. exact (C61_and_modify _ _ _ kbor _ 1%nat Zcmp_laws one_one b3 e3 (20, 5) Z.opp b3_shows). Qed.
