(** Theorems about [AvlMap] (properties C01-C19, C57).

    [shows bor cmp m l] (AvlShows.v): the map [m] passes its own [check()] and
    [iter()] yields the list [l]. Every theorem says what a call returns and what the
    map(s) show afterwards. [Ok] means: no panic, no overflow. The specification
    functions [s_*] are in Spec.v and MapSpec.v. [small l]: fewer than [2^63]
    entries. Keys are compared through their borrowed form; keys that compare equal
    need not be identical, and [Ord] may be any total preorder. *)
From Coq Require Import List ZArith Bool Sorted Permutation.
From Verif Require Import Base Spec MapSpec AvlModel AvlIterModel AvlHistModel AvlShows.
Import ListNotations.
Open Scope Z_scope.

(** ** Sample data: keys are pairs compared by their first component only. *)
Definition zkey : Type := (Z * Z)%type.
Definition sbor (k : zkey) : Z := fst k.
Definition skv (n : Z) : zkey * Z := ((n, 0), 10 * n).
Definition force (r : res (avl_map zkey Z)) : avl_map zkey Z :=
  match r with Ok m => m | Panic => avl_new end.
Definition m5 := Eval vm_compute in force (avl_from_iter sbor Z.compare (map skv [5; 3; 8; 1; 4])).
Definition m3 := Eval vm_compute in force (avl_from_iter sbor Z.compare [((4, 7), 41); ((9, 7), 91); ((3, 7), 31)]).
Definition m1 := Eval vm_compute in force (avl_from_iter sbor Z.compare (map skv [11])).
Definition l5 := map skv [1; 3; 4; 5; 8].
Definition l3 : list (zkey * Z) := [((3, 7), 31); ((4, 7), 41); ((9, 7), 91)].
Definition l1 := map skv [11].
Example m5_shows : shows sbor Z.compare m5 l5. Proof. split; reflexivity. Qed.
Example m3_shows : shows sbor Z.compare m3 l3. Proof. split; reflexivity. Qed.
Example m1_shows : shows sbor Z.compare m1 l1. Proof. split; reflexivity. Qed.
Example l5_small : small l5. Proof. reflexivity. Qed.
Example l3_small : small l3. Proof. reflexivity. Qed.
Example l1_small : small l1. Proof. reflexivity. Qed.

(** ** What [shows] gives: strictly ascending keys and the right length. *)
Theorem shows_ascending : forall K V Q (bor : K -> Q) cmp, order_laws cmp ->
  forall (m : avl_map K V) l, shows bor cmp m l ->
  ascending bor cmp l /\ avl_len m = length l.
Proof. exact @shows_asc. Qed.

(** ** C01 *)
Theorem C01_insert : forall K V Q (bor : K -> Q) cmp, order_laws cmp ->
  forall (m : avl_map K V) l k v, shows bor cmp m l -> small l ->
  exists m', avl_insert bor cmp m k v = Ok (m', s_get bor cmp (bor k) l)
    /\ shows bor cmp m' (s_insert bor cmp k v l).
Proof. exact @insert_l. Qed.
Print Assumptions C01_insert.
(** The stored key is replaced by the new, equal one. *)
Example C01_ex : exists m', avl_insert sbor Z.compare m5 (4, 99) 44 = Ok (m', Some 40)
  /\ shows sbor Z.compare m' [skv 1; skv 3; ((4, 99), 44); skv 5; skv 8].
Proof. exact (C01_insert _ _ _ sbor _ Zcmp_laws m5 l5 (4, 99) 44 m5_shows l5_small). Qed.

(** ** C02 *)
Theorem C02_remove : forall K V Q (bor : K -> Q) cmp, order_laws cmp ->
  forall (m : avl_map K V) l q, shows bor cmp m l -> small l ->
  exists m', avl_remove bor cmp m q = Ok (m', s_get bor cmp q l)
    /\ shows bor cmp m' (s_remove bor cmp q l).
Proof. exact @remove_l. Qed.
Theorem C02_remove_entry : forall K V Q (bor : K -> Q) cmp, order_laws cmp ->
  forall (m : avl_map K V) l q, shows bor cmp m l -> small l ->
  exists m', avl_remove_entry bor cmp m q = Ok (m', s_find bor cmp q l)
    /\ shows bor cmp m' (s_remove bor cmp q l).
Proof. exact @remove_entry_l. Qed.
Print Assumptions C02_remove.
Print Assumptions C02_remove_entry.
Example C02_ex : exists m', avl_remove sbor Z.compare m5 5 = Ok (m', Some 50)
  /\ shows sbor Z.compare m' (map skv [1; 3; 4; 8]).
Proof. exact (C02_remove _ _ _ sbor _ Zcmp_laws m5 l5 5 m5_shows l5_small). Qed.
Example C02_ex_entry : exists m', avl_remove_entry sbor Z.compare m3 4 = Ok (m', Some ((4, 7), 41))
  /\ shows sbor Z.compare m' [((3, 7), 31); ((9, 7), 91)].
Proof. exact (C02_remove_entry _ _ _ sbor _ Zcmp_laws m3 l3 4 m3_shows l3_small). Qed.

(** ** C03 *)
Theorem C03_lookup : forall K V Q (bor : K -> Q) cmp, order_laws cmp ->
  forall (m : avl_map K V) l q, shows bor cmp m l ->
  avl_get_key_value bor cmp m q = s_find bor cmp q l
  /\ avl_get bor cmp m q = s_get bor cmp q l
  /\ avl_contains_key bor cmp m q = s_mem bor cmp q l
  /\ avl_index bor cmp m q = match s_get bor cmp q l with Some v => Ok v | None => Panic end.
Proof. exact @lookup_l. Qed.
Theorem C03_get_mut : forall K V Q (bor : K -> Q) cmp, order_laws cmp ->
  forall (m : avl_map K V) l q w, shows bor cmp m l -> small l ->
  exists m', avl_get_mut bor cmp m q w = (m', s_get bor cmp q l)
    /\ shows bor cmp m' (s_update bor cmp q w l).
Proof. exact @get_mut_l. Qed.
Print Assumptions C03_lookup.
Print Assumptions C03_get_mut.
Example C03_ex : avl_get_key_value sbor Z.compare m3 9 = Some ((9, 7), 91)
  /\ avl_get sbor Z.compare m3 9 = Some 91
  /\ avl_contains_key sbor Z.compare m3 9 = true
  /\ avl_index sbor Z.compare m3 9 = Ok 91.
Proof. exact (C03_lookup _ _ _ sbor _ Zcmp_laws m3 l3 9 m3_shows). Qed.
Example C03_ex_mut : exists m', avl_get_mut sbor Z.compare m3 3 (fun v => v + 1) = (m', Some 31)
  /\ shows sbor Z.compare m' [((3, 7), 32); ((4, 7), 41); ((9, 7), 91)].
Proof. exact (C03_get_mut _ _ _ sbor _ Zcmp_laws m3 l3 3 (fun v => v + 1) m3_shows l3_small). Qed.

(** ** C05: the depth of the tree, and the number of keys a lookup compares, is
    logarithmic. [C05_depth] holds for any map that passes [check()]; together with the
    no-panic parts of the other theorems it shows the [i8] heights never overflow. *)
Theorem C05_depth : forall K V Q (bor : K -> Q) cmp, order_laws cmp ->
  forall (m : avl_map K V) l, shows bor cmp m l ->
  fib (depth (am_root m) + 2) <= Z.of_nat (length l) + 1
  /\ 2 ^ Z.of_nat (depth (am_root m)) <= (Z.of_nat (length l) + 1) ^ 2
  /\ (Z.of_nat (length l) < 2 ^ 64 -> (depth (am_root m) <= 91)%nat).
Proof. exact @depth_l. Qed.
Theorem C05_lookup_cost : forall K V Q (bor : K -> Q) cmp, order_laws cmp ->
  forall (m : avl_map K V) l q, shows bor cmp m l ->
  2 ^ Z.of_nat (length (t_get_visits bor cmp (am_root m) q)) <= (Z.of_nat (length l) + 1) ^ 2.
Proof. exact @visits_l. Qed.
Print Assumptions C05_depth.
Print Assumptions C05_lookup_cost.
Example C05_ex : depth (am_root m5) = 3%nat /\ fib (3 + 2) <= 5 + 1 /\ 2 ^ 3 <= (5 + 1) ^ 2
  /\ length (t_get_visits sbor Z.compare (am_root m5) 4) = 3%nat.
Proof. repeat split; vm_compute; discriminate. Qed.

(** ** C06 *)
Theorem C06_ends : forall K V Q (bor : K -> Q) cmp, order_laws cmp ->
  forall (m : avl_map K V) l, shows bor cmp m l ->
  avl_first_key_value m = s_first l /\ avl_last_key_value m = s_last l
  /\ avl_len m = length l /\ avl_is_empty m = match l with [] => true | _ => false end.
Proof. exact @first_last_l. Qed.
Theorem C06_pop_first : forall K V Q (bor : K -> Q) cmp, order_laws cmp ->
  forall (m : avl_map K V) l, shows bor cmp m l -> small l ->
  exists m', avl_pop_first m = Ok (m', s_first l) /\ shows bor cmp m' (tl l).
Proof. exact @pop_first_l. Qed.
Theorem C06_pop_last : forall K V Q (bor : K -> Q) cmp, order_laws cmp ->
  forall (m : avl_map K V) l, shows bor cmp m l -> small l ->
  exists m', avl_pop_last m = Ok (m', s_last l) /\ shows bor cmp m' (removelast l).
Proof. exact @pop_last_l. Qed.
Print Assumptions C06_ends.
Print Assumptions C06_pop_first.
Print Assumptions C06_pop_last.
Example C06_ex : exists m', avl_pop_last m5 = Ok (m', Some (skv 8))
  /\ shows sbor Z.compare m' (map skv [1; 3; 4; 5]).
Proof. exact (C06_pop_last _ _ _ sbor _ Zcmp_laws m5 l5 m5_shows l5_small). Qed.
Example C06_ex' : exists m', avl_pop_first m5 = Ok (m', Some (skv 1))
  /\ shows sbor Z.compare m' (map skv [3; 4; 5; 8]).
Proof. exact (C06_pop_first _ _ _ sbor _ Zcmp_laws m5 l5 m5_shows l5_small). Qed.
Example C06_ex'' : avl_first_key_value m5 = Some (skv 1) /\ avl_last_key_value m5 = Some (skv 8)
  /\ avl_len m5 = 5%nat /\ avl_is_empty m5 = false.
Proof. exact (C06_ends _ _ _ sbor _ Zcmp_laws m5 l5 m5_shows). Qed.

(** ** C07: any interleaving of [next] and [next_back], with the [len()] after each
    call; also [into_iter()] (same work list), [keys()], [values()] (projections). *)
Theorem C07_iter : forall K V Q (bor : K -> Q) cmp, order_laws cmp ->
  forall (m : avl_map K V) l cs, shows bor cmp m l ->
  run_ends norm_destr norm_size cs (avl_iter m) = Ok (s_ends cs l).
Proof. exact @iter_l. Qed.
Print Assumptions C07_iter.
Example C07_ex : run_ends norm_destr norm_size [Back; Front; Front; Back; Back; Front; Back] (avl_iter m5)
  = Ok [(Some (skv 8), 4%nat); (Some (skv 1), 3%nat); (Some (skv 3), 2%nat); (Some (skv 5), 1%nat);
        (Some (skv 4), 0%nat); (None, 0%nat); (None, 0%nat)].
Proof. exact (C07_iter _ _ _ sbor _ Zcmp_laws m5 l5 _ m5_shows). Qed.

(** ** C08: any bounds (also inverted ones), any interleaving. [extra] is by how
    much the upper size hint exceeds the truth. *)
Theorem C08_range : forall K V Q (bor : K -> Q) cmp, order_laws cmp ->
  forall (m : avl_map K V) l lo hi cs, shows bor cmp m l ->
  exists it extra, avl_range bor cmp m lo hi = Ok it
    /\ run_ends norm_destr norm_size cs it
       = Ok (map (fun x => (fst x, (snd x + extra)%nat)) (s_ends cs (s_range bor cmp lo hi l)))
    /\ range_size_hint it = (0%nat, Some (length (s_range bor cmp lo hi l) + extra)%nat).
Proof. exact @range_l. Qed.
Print Assumptions C08_range.
Example C08_ex : exists it extra, avl_range sbor Z.compare m5 (Excluded 1) (Included 5) = Ok it
  /\ run_ends norm_destr norm_size [Back; Front] it
     = Ok [(Some (skv 5), (2 + extra)%nat); (Some (skv 3), (1 + extra)%nat)]
  /\ range_size_hint it = (0%nat, Some (3 + extra)%nat).
Proof. exact (C08_range _ _ _ sbor _ Zcmp_laws m5 l5 (Excluded 1) (Included 5) [Back; Front] m5_shows). Qed.

(** ** C09 *)
Theorem C09_union : forall K V Q (bor : K -> Q) cmp, order_laws cmp ->
  forall (a b : avl_map K V) la lb,
  shows bor cmp a la -> shows bor cmp b lb -> small la -> small lb ->
  exists m l, avl_new_union bor cmp a b = Ok m /\ shows bor cmp m l
    /\ forall q, s_find bor cmp q l
                 = match s_find bor cmp q lb with Some e => Some e | None => s_find bor cmp q la end.
Proof. exact @new_union_l. Qed.
Theorem C09_append : forall K V Q (bor : K -> Q) cmp, order_laws cmp ->
  forall (a b : avl_map K V) la lb,
  shows bor cmp a la -> shows bor cmp b lb -> small la -> small lb ->
  exists a' b' l, avl_append bor cmp a b = Ok (a', b') /\ shows bor cmp a' l /\ shows bor cmp b' []
    /\ forall q, s_find bor cmp q l
                 = match s_find bor cmp q lb with Some e => Some e | None => s_find bor cmp q la end.
Proof. exact @append_l. Qed.
Print Assumptions C09_union.
Print Assumptions C09_append.
Example C09_ex : exists a' b', avl_append sbor Z.compare m5 m3 = Ok (a', b')
  /\ shows sbor Z.compare a' [skv 1; ((3, 7), 31); ((4, 7), 41); skv 5; skv 8; ((9, 7), 91)]
  /\ shows sbor Z.compare b' [].
Proof. eexists _, _. split; [vm_compute; reflexivity|]. split; split; reflexivity. Qed.
Example C09_ex' : exists m l, avl_new_union sbor Z.compare m5 m3 = Ok m /\ shows sbor Z.compare m l
  /\ forall q, s_find sbor Z.compare q l
               = match s_find sbor Z.compare q l3 with Some e => Some e | None => s_find sbor Z.compare q l5 end.
Proof. exact (C09_union _ _ _ sbor _ Zcmp_laws m5 m3 l5 l3 m5_shows m3_shows l5_small l3_small). Qed.

(** ** C10 *)
Theorem C10_intersect : forall K V Q (bor : K -> Q) cmp, order_laws cmp ->
  forall (a b : avl_map K V) la lb,
  shows bor cmp a la -> shows bor cmp b lb -> small la -> small lb ->
  exists m, avl_new_intersect bor cmp a b = Ok m /\ shows bor cmp m (s_inter bor cmp la lb).
Proof. exact @new_intersect_l. Qed.
Theorem C10_diff : forall K V Q (bor : K -> Q) cmp, order_laws cmp ->
  forall (a b : avl_map K V) la lb,
  shows bor cmp a la -> shows bor cmp b lb -> small la -> small lb ->
  exists m, avl_new_diff bor cmp a b = Ok m /\ shows bor cmp m (s_diff bor cmp la lb).
Proof. exact @new_diff_l. Qed.
Theorem C10_sym_diff : forall K V Q (bor : K -> Q) cmp, order_laws cmp ->
  forall (a b : avl_map K V) la lb,
  shows bor cmp a la -> shows bor cmp b lb -> small la -> small lb ->
  exists m l, avl_new_sym_diff bor cmp a b = Ok m /\ shows bor cmp m l
    /\ forall q, s_find bor cmp q l = match s_find bor cmp q la, s_find bor cmp q lb with
                                      | Some e, None => Some e
                                      | None, Some e => Some e
                                      | _, _ => None
                                      end.
Proof. exact @new_sym_diff_l. Qed.
Print Assumptions C10_intersect.
Print Assumptions C10_diff.
Print Assumptions C10_sym_diff.
Example C10_ex : exists m, avl_new_intersect sbor Z.compare m5 m3 = Ok m
  /\ shows sbor Z.compare m (map skv [3; 4]).
Proof. exact (C10_intersect _ _ _ sbor _ Zcmp_laws m5 m3 l5 l3 m5_shows m3_shows l5_small l3_small). Qed.
Example C10_ex' : exists m, avl_new_diff sbor Z.compare m5 m3 = Ok m
  /\ shows sbor Z.compare m (map skv [1; 5; 8]).
Proof. exact (C10_diff _ _ _ sbor _ Zcmp_laws m5 m3 l5 l3 m5_shows m3_shows l5_small l3_small). Qed.
Example C10_ex'' : exists m, avl_new_sym_diff sbor Z.compare m5 m3 = Ok m
  /\ shows sbor Z.compare m [skv 1; skv 5; skv 8; ((9, 7), 91)].
Proof. eexists. split; [vm_compute; reflexivity|]. split; reflexivity. Qed.

(** ** C11 *)
Theorem C11_join : forall K V Q (bor : K -> Q) cmp, order_laws cmp ->
  forall (a : avl_map K V) k v b la lb,
  shows bor cmp a la -> shows bor cmp b lb -> small la -> small lb ->
  (forall e, In e la -> cmp (bor (fst e)) (bor k) = Lt) ->
  (forall e, In e lb -> cmp (bor k) (bor (fst e)) = Lt) ->
  exists m, avl_new_join bor cmp a k v b = Ok m /\ shows bor cmp m (la ++ (k, v) :: lb).
Proof. exact @new_join_l. Qed.
(** Out of order: rejected (by the debug assertions, which the model includes). *)
Theorem C11_join_rejects : forall K V Q (bor : K -> Q) cmp, order_laws cmp ->
  forall (a : avl_map K V) k v b la lb,
  shows bor cmp a la -> shows bor cmp b lb ->
  (exists e, In e la /\ cmp (bor (fst e)) (bor k) <> Lt)
    \/ (exists e, In e lb /\ cmp (bor k) (bor (fst e)) <> Lt) ->
  avl_new_join bor cmp a k v b = Panic.
Proof. exact @new_join_rejects_l. Qed.
Print Assumptions C11_join.
Print Assumptions C11_join_rejects.
Example C11_ex : exists m, avl_new_join sbor Z.compare m5 (9, 1) 0 m1 = Ok m
  /\ shows sbor Z.compare m (l5 ++ ((9, 1), 0) :: l1).
Proof.
  apply (C11_join _ _ _ sbor _ Zcmp_laws m5 (9, 1) 0 m1 l5 l1 m5_shows m1_shows l5_small l1_small).
  - intros e He. cbn in He. intuition (subst; reflexivity).
  - intros e He. cbn in He. intuition (subst; reflexivity).
Qed.
Example C11_ex' : avl_new_join sbor Z.compare m5 (8, 1) 0 m1 = Panic.
Proof.
  apply (C11_join_rejects _ _ _ sbor _ Zcmp_laws m5 (8, 1) 0 m1 l5 l1 m5_shows m1_shows).
  left. exists (skv 8). split; [cbn; tauto|discriminate].
Qed.

(** ** C12 *)
Theorem C12_split_off : forall K V Q (bor : K -> Q) cmp, order_laws cmp ->
  forall (m : avl_map K V) l q, shows bor cmp m l -> small l ->
  exists m1 m2, avl_split_off bor cmp m q = Ok (m1, m2)
    /\ shows bor cmp m1 (filter (lt_q bor cmp q) l)
    /\ shows bor cmp m2 (filter (fun e => negb (lt_q bor cmp q e)) l).
Proof. exact @split_off_l. Qed.
Print Assumptions C12_split_off.
Example C12_ex : exists m1 m2, avl_split_off sbor Z.compare m5 4 = Ok (m1, m2)
  /\ shows sbor Z.compare m1 (map skv [1; 3]) /\ shows sbor Z.compare m2 (map skv [4; 5; 8]).
Proof. exact (C12_split_off _ _ _ sbor _ Zcmp_laws m5 l5 4 m5_shows l5_small). Qed.

(** ** C13: the closure may keep state and change values. It is called exactly once
    on every entry, in some order; exactly the accepted entries stay, with the
    values the closure left. *)
Theorem C13_retain : forall K V Q (bor : K -> Q) cmp, order_laws cmp ->
  forall S (f : S -> K -> V -> S * V * bool) (m : avl_map K V) l s,
  shows bor cmp m l -> small l ->
  exists m' l' s' order outs,
    avl_retain f m s = Ok (m', s') /\ shows bor cmp m' l'
    /\ Permutation order l /\ run_calls f s order = (outs, s')
    /\ forall k v', In (k, v') l' <-> exists v, In ((k, v), v', true) outs.
Proof. exact @retain_l. Qed.
(** For a closure without state the result is a list function. *)
Theorem C13_retain_pure : forall K V Q (bor : K -> Q) cmp, order_laws cmp ->
  forall (g : K -> V -> V * bool) (m : avl_map K V) l, shows bor cmp m l -> small l ->
  exists m', avl_retain (fun (s : unit) k v => (s, fst (g k v), snd (g k v))) m tt = Ok (m', tt)
    /\ shows bor cmp m' (s_retain g l).
Proof. exact @retain_pure_l. Qed.
Print Assumptions C13_retain.
Print Assumptions C13_retain_pure.
Example C13_ex : exists m',
  avl_retain (fun (s : unit) k v => (s, v + 1, Z.odd (fst k))) m5 tt = Ok (m', tt)
  /\ shows sbor Z.compare m' [((1, 0), 11); ((3, 0), 31); ((5, 0), 51)].
Proof.
  exact (C13_retain_pure _ _ _ sbor _ Zcmp_laws (fun k v => (v + 1, Z.odd (fst k))) m5 l5 m5_shows l5_small).
Qed.
Example C13_ex' : exists m' l' s' order outs,
    avl_retain (fun n k v => (n + 1, v, n <? 3)) m5 0 = Ok (m', s') /\ shows sbor Z.compare m' l'
    /\ Permutation order l5 /\ run_calls (fun n k v => (n + 1, v, n <? 3)) 0 order = (outs, s')
    /\ forall k v', In (k, v') l' <-> exists v, In ((k, v), v', true) outs.
Proof.
  exact (C13_retain _ _ _ sbor _ Zcmp_laws Z (fun n k v => (n + 1, v, n <? 3)) m5 l5 0 m5_shows l5_small).
Qed.

(** ** C14, refuted: "[retain] visits the entries in ascending key order". A closure
    that records the entries it sees is called on 2 before 1, in the map built by
    inserting 1 and 2. *)
Theorem C14_retain_order_refuted :
  exists (m m' : avl_map zkey Z) l seen, shows sbor Z.compare m l /\ small l
    /\ avl_retain (fun seen k v => (seen ++ [(k, v)], v, true)) m [] = Ok (m', seen)
    /\ seen <> l /\ ~ ascending sbor Z.compare seen.
Proof.
  exists (force (avl_from_iter sbor Z.compare (map skv [1; 2]))). eexists. exists (map skv [1; 2]), (map skv [2; 1]).
  split; [split; reflexivity|]. split; [reflexivity|]. split; [vm_compute; reflexivity|].
  split; [discriminate|]. intros A. inversion A as [|? ? _ F]. inversion F. discriminate.
Qed.
Print Assumptions C14_retain_order_refuted.

(** ** C15 *)
Theorem C15_for_each_mut : forall K V Q (bor : K -> Q) cmp, order_laws cmp ->
  forall S (g : S -> K -> V -> S * V) (m : avl_map K V) l s, shows bor cmp m l -> small l ->
  exists m', avl_for_each_mut g m s = (m', snd (map_state g l s))
    /\ shows bor cmp m' (fst (map_state g l s)).
Proof. exact @for_each_mut_l. Qed.
(** [iter_mut] hands out one reference per entry, in order from either end; writing
    through the i-th changes the value of the i-th entry and nothing else, and
    leaves the other references good. *)
Theorem C15_iter_mut : forall K V Q (bor : K -> Q) cmp, order_laws cmp ->
  forall (m : avl_map K V) l cs, shows bor cmp m l ->
  exists refs, map snd refs = map fst l
    /\ run_ends mut_destr mut_size cs (avl_iter_mut m) = Ok (s_ends cs refs)
    /\ (small l -> forall i r w, nth_error refs i = Some r ->
          shows bor cmp (avl_write r w m) (upd_nth i w l)
          /\ run_ends mut_destr mut_size cs (avl_iter_mut (avl_write r w m)) = Ok (s_ends cs refs)).
Proof. exact @iter_mut_l. Qed.
Theorem C15_range_mut : forall K V Q (bor : K -> Q) cmp, order_laws cmp ->
  forall (m : avl_map K V) l lo hi cs, shows bor cmp m l ->
  exists refs it extra, map snd refs = map fst l
    /\ avl_range_mut bor cmp m lo hi = Ok it
    /\ run_ends mut_destr mut_size cs it
       = Ok (map (fun x => (fst x, (snd x + extra)%nat))
                 (s_ends cs (filter (fun r => above bor cmp lo (snd r, tt) && below bor cmp hi (snd r, tt)) refs)))
    /\ (small l -> forall i r w, nth_error refs i = Some r ->
          shows bor cmp (avl_write r w m) (upd_nth i w l)).
Proof. exact @range_mut_l. Qed.
Print Assumptions C15_for_each_mut.
Print Assumptions C15_iter_mut.
Print Assumptions C15_range_mut.
Example C15_ex : exists m', avl_for_each_mut (fun n k v => (n + 1, v + n)) m5 0 = (m', 5)
  /\ shows sbor Z.compare m' [((1, 0), 10); ((3, 0), 31); ((4, 0), 42); ((5, 0), 53); ((8, 0), 84)].
Proof. exact (C15_for_each_mut _ _ _ sbor _ Zcmp_laws Z (fun n k v => (n + 1, v + n)) m5 l5 0 m5_shows l5_small). Qed.
Example C15_ex' : exists r, avl_range_mut sbor Z.compare m5 (Included 4) (Excluded 8) = Ok r
  /\ exists x y, run_ends mut_destr mut_size [Front; Front; Front] r
     = Ok [(Some (x, (4, 0)), 4%nat); (Some (y, (5, 0)), 3%nat); (None, 3%nat)]
  /\ shows sbor Z.compare (avl_write (y, (5, 0)) (fun v => - v) m5)
       [skv 1; skv 3; skv 4; ((5, 0), -50); skv 8].
Proof. eexists. split; [vm_compute; reflexivity|]. eexists _, _. split; [vm_compute; reflexivity|]. split; reflexivity. Qed.

(** ** C16 *)
Theorem C16_eq_cmp : forall K V Q (bor : K -> Q) cmp, order_laws cmp ->
  forall keq veq kcmp vcmp (a b : avl_map K V) la lb,
  shows bor cmp a la -> shows bor cmp b lb ->
  avl_eq keq veq a b = Ok (seq_eqb keq veq la lb)
  /\ avl_cmp kcmp vcmp a b = Ok (seq_cmp kcmp vcmp la lb).
Proof. exact @eq_cmp_hash_l. Qed.
(** Equal maps hash equally, although their trees may differ. *)
Theorem C16_hash : forall K V Q (bor : K -> Q) cmp, order_laws cmp ->
  forall H (hlen : H -> nat -> H) hk hv keq veq (a b : avl_map K V) la lb s,
  (forall s k1 k2, keq k1 k2 = true -> hk s k1 = hk s k2) ->
  (forall s v1 v2, veq v1 v2 = true -> hv s v1 = hv s v2) ->
  shows bor cmp a la -> shows bor cmp b lb -> avl_eq keq veq a b = Ok true ->
  avl_hash hlen hk hv a s = avl_hash hlen hk hv b s.
Proof. exact @eq_hash_l. Qed.
Print Assumptions C16_eq_cmp.
Print Assumptions C16_hash.
Definition m5' := Eval vm_compute in force (avl_from_iter sbor Z.compare (map skv [1; 3; 4; 5; 8])).
Definition pair_eqb (a b : zkey) := (fst a =? fst b) && (snd a =? snd b).
Definition zh (s k : Z) : Z := s * 31 + k.
Example C16_ex : am_root m5 <> am_root m5' /\ avl_eq pair_eqb Z.eqb m5 m5' = Ok true
  /\ avl_hash (fun s n => zh s (Z.of_nat n)) (fun s k => zh (zh s (fst k)) (snd k)) zh m5 7
     = avl_hash (fun s n => zh s (Z.of_nat n)) (fun s k => zh (zh s (fst k)) (snd k)) zh m5' 7.
Proof.
  split; [discriminate|]. split; [reflexivity|].
  apply (C16_hash _ _ _ sbor _ Zcmp_laws _ _ _ _ pair_eqb Z.eqb m5 m5' l5 l5).
  - intros s [a b] [c d] E. apply andb_prop in E as [E1 E2]. apply Z.eqb_eq in E1, E2. cbn in *. now subst.
  - intros s a b E. apply Z.eqb_eq in E. now subst.
  - exact m5_shows.
  - split; reflexivity.
  - reflexivity.
Qed.
Example C16_ex' : avl_eq pair_eqb Z.eqb m5 m3 = Ok false
  /\ avl_cmp (fun a b => fst a ?= fst b) Z.compare m5 m3 = Ok Lt.
Proof. exact (C16_eq_cmp _ _ _ sbor _ Zcmp_laws pair_eqb Z.eqb (fun a b => fst a ?= fst b) Z.compare m5 m3 l5 l3 m5_shows m3_shows). Qed.

(** ** C17: [or_insert_with] calls its (stateful) closure exactly when the key is
    absent; [w] is what the caller does through the returned reference. *)
Theorem C17_or_insert_with : forall K V Q (bor : K -> Q) cmp, order_laws cmp ->
  forall S (m : avl_map K V) l k (f : S -> S * V) s w, shows bor cmp m l -> small l ->
  exists m',
    entry_or_insert_with bor cmp m k f s w =
      Ok (match s_get bor cmp (bor k) l with
          | Some v => (m', s, v)
          | None => (m', fst (f s), snd (f s))
          end)
    /\ shows bor cmp m' (match s_get bor cmp (bor k) l with
                         | Some _ => s_update bor cmp (bor k) w l
                         | None => s_insert bor cmp k (w (snd (f s))) l
                         end).
Proof. exact @or_insert_with_l. Qed.
Theorem C17_and_modify : forall K V Q (bor : K -> Q) cmp, order_laws cmp ->
  forall (m : avl_map K V) l k f, shows bor cmp m l -> small l ->
  shows bor cmp (entry_and_modify bor cmp m k f) (s_update bor cmp (bor k) f l).
Proof. exact @and_modify_l. Qed.
Theorem C17_end_entries : forall K V Q (bor : K -> Q) cmp, order_laws cmp ->
  forall (m : avl_map K V) l, shows bor cmp m l ->
  first_entry m = option_map fst (s_first l) /\ last_entry m = option_map fst (s_last l).
Proof. exact @end_entry_l. Qed.
Print Assumptions C17_or_insert_with.
Print Assumptions C17_and_modify.
Print Assumptions C17_end_entries.
Example C17_ex : exists m', entry_or_insert_with sbor Z.compare m5 (6, 1) (fun n => (n + 1, 66)) 0 Z.opp = Ok (m', 1, 66)
  /\ shows sbor Z.compare m' [skv 1; skv 3; skv 4; skv 5; ((6, 1), -66); skv 8].
Proof. exact (C17_or_insert_with _ _ _ sbor _ Zcmp_laws Z m5 l5 (6, 1) (fun n => (n + 1, 66)) 0 Z.opp m5_shows l5_small). Qed.
(** An existing key stays as it was stored, and the closure is not called. *)
Example C17_ex' : exists m', entry_or_insert_with sbor Z.compare m5 (5, 1) (fun n => (n + 1, 66)) 0 Z.opp = Ok (m', 0, 50)
  /\ shows sbor Z.compare m' [skv 1; skv 3; skv 4; ((5, 0), -50); skv 8].
Proof. exact (C17_or_insert_with _ _ _ sbor _ Zcmp_laws Z m5 l5 (5, 1) (fun n => (n + 1, 66)) 0 Z.opp m5_shows l5_small). Qed.
Example C17_ex'' : shows sbor Z.compare (entry_and_modify sbor Z.compare m3 (9, 5) Z.opp) [((3, 7), 31); ((4, 7), 41); ((9, 7), -91)].
Proof. exact (C17_and_modify _ _ _ sbor _ Zcmp_laws m3 l3 (9, 5) Z.opp m3_shows l3_small). Qed.
Example C17_ex''' : first_entry m3 = Some (3, 7) /\ last_entry m3 = Some (9, 7).
Proof. exact (C17_end_entries _ _ _ sbor _ Zcmp_laws m3 l3 m3_shows). Qed.

(** ** C18: inserting a sequence; the last pair for a key wins ([rev ps] is searched
    first to last). *)
Theorem C18_extend : forall K V Q (bor : K -> Q) cmp, order_laws cmp ->
  forall (m : avl_map K V) l ps, shows bor cmp m l -> small l -> small ps ->
  exists m', avl_extend bor cmp m ps = Ok m' /\ shows bor cmp m' (s_extend bor cmp l ps).
Proof. exact @extend_l. Qed.
Theorem C18_from_iter : forall K V Q (bor : K -> Q) cmp, order_laws cmp ->
  forall ps : list (K * V), small ps ->
  exists m', avl_from_iter bor cmp ps = Ok m' /\ shows bor cmp m' (s_extend bor cmp [] ps).
Proof. exact @from_iter_l. Qed.
Theorem C18_last_wins : forall K V Q (bor : K -> Q) cmp, order_laws cmp ->
  forall (ps l : list (K * V)) q, ascending bor cmp l ->
  s_find bor cmp q (s_extend bor cmp l ps)
  = match s_find bor cmp q (rev ps) with Some e => Some e | None => s_find bor cmp q l end.
Proof. exact @extend_find. Qed.
Print Assumptions C18_extend.
Print Assumptions C18_from_iter.
Print Assumptions C18_last_wins.
Example C18_ex : exists m', avl_extend sbor Z.compare m3 [((4, 1), 1); ((2, 2), 2); ((4, 3), 3)] = Ok m'
  /\ shows sbor Z.compare m' [((2, 2), 2); ((3, 7), 31); ((4, 3), 3); ((9, 7), 91)].
Proof. exact (C18_extend _ _ _ sbor _ Zcmp_laws m3 l3 [((4, 1), 1); ((2, 2), 2); ((4, 3), 3)] m3_shows l3_small eq_refl). Qed.
Example C18_ex' : exists m', avl_from_iter sbor Z.compare [((4, 1), 1); ((2, 2), 2); ((4, 3), 3)] = Ok m'
  /\ shows sbor Z.compare m' [((2, 2), 2); ((4, 3), 3)].
Proof. exact (C18_from_iter _ _ _ sbor _ Zcmp_laws [((4, 1), 1); ((2, 2), 2); ((4, 3), 3)] eq_refl). Qed.

(** ** C19, C04: any history of calls on any number of maps, clones included. All
    results are those of the specification, nothing panics, and at the end every map
    passes its [check()] and shows what the specification says. *)
Theorem C19_histories : forall K V Q (bor : K -> Q) cmp, order_laws cmp ->
  forall keq veq kcmp vcmp (os : list (op K V Q)),
  all_small bor cmp keq veq kcmp vcmp [] os ->
  exists st', run bor cmp keq veq kcmp vcmp [] os
              = Ok (st', snd (s_run bor cmp keq veq kcmp vcmp [] os))
    /\ Forall2 (shows bor cmp) st' (fst (s_run bor cmp keq veq kcmp vcmp [] os)).
Proof. exact @run_l. Qed.
Print Assumptions C19_histories.
Theorem C04_check : forall K V Q (bor : K -> Q) cmp, order_laws cmp ->
  forall keq veq kcmp vcmp (os : list (op K V Q)) st' rs,
  all_small bor cmp keq veq kcmp vcmp [] os ->
  run bor cmp keq veq kcmp vcmp [] os = Ok (st', rs) ->
  Forall (fun m => avl_chk bor cmp m = Ok (inl tt)) st'.
Proof. exact @run_check_l. Qed.
Print Assumptions C04_check.
Definition sample_history : list (op zkey Z Z) :=
  [ OFromIter (map skv [5; 3; 8; 1; 4]); OClone 0; OInsert 1 (4, 9) 44; ORemove 0 3; OGet 1 4; OGet 0 4;
    OUnion 0 1; OSplitOff 2 4; OAppend 0 3; ORetain 1 (fun k v => (v + 1, Z.odd v || (v =? 44)));
    OPopFirst 2; OIter 0 [Front; Back]; ORange 0 (Included 4) (Excluded 8) [Back; Front; Front];
    OEq 0 1; OCmp 0 1; OCheck 0; OLen 0 ].
Example C19_ex : all_small sbor Z.compare pair_eqb Z.eqb (fun a b => fst a ?= fst b) Z.compare [] sample_history.
Proof. cbn -[s_step]. repeat split; try (repeat constructor). Qed.
Example C19_ex' : snd (s_run sbor Z.compare pair_eqb Z.eqb (fun a b => fst a ?= fst b) Z.compare [] sample_history)
  = [ RUnit; RUnit; RVal (Some 40); RVal (Some 30); RVal (Some 44); RVal (Some 40); RUnit; RUnit; RUnit; RUnit;
      REntry (Some (skv 1)); RSeq [(Some (skv 1), 3%nat); (Some (skv 8), 2%nat)];
      RItems [Some (skv 5); Some ((4, 9), 44); None]; RBool false; RCmp Lt; RBool true; RLen 4 ].
Proof. reflexivity. Qed.

(** ** C57, refuted: the iterators claim an exact size ([ExactSizeIterator]), whose
    contract is that [size_hint] is [(len, Some len)]. They keep the default. *)
Theorem C57_exact_size_refuted :
  exists (m : avl_map zkey Z) l, shows sbor Z.compare m l
    /\ it_size_hint (avl_iter m) <> (length l, Some (length l)).
Proof. exists m5, l5. split; [exact m5_shows|discriminate]. Qed.
Print Assumptions C57_exact_size_refuted.
