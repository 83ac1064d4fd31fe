(** The maps with a key type whose [Ord] is no order (properties C107-C111). [cmp] is any function: no law is assumed
    of it anywhere in this file.

    [a_any m l], [b_any N m l], [f_any m l] (AnyOrdSpec.v): the map [m] has the shape that its type demands, its entries
    from left to right are [l], and [len] is their number. The usual views are these together with "[l] is ascending".
    The relations [any_get], [any_insert], ... say what a call may do to the list of entries: it touches at most one of
    them, one of which a comparison said that it is equal to the given key. *)
From Coq Require Import List ZArith Bool Permutation Lia.
From Verif Require Import Base Spec MapSpec AvlModel AvlIterModel AvlHistModel BTreeModel BTreeIterModel BTreeHistModel BTreeShows
  AvlProofs FixedModel FixedIterModel FixedSpec FixedShows AnyOrdSpec BTreeAnyProofs FixedAnyProofs AvlAnyProofs AnyOrdShows.
Import ListNotations.
Open Scope Z_scope.

(** ** Samples: comparisons that are no orders *)
Definition zid (k : Z) : Z := k.
Definition always (c : comparison) (_ _ : Z) : comparison := c.
(** Rock, paper, scissors: 0 < 1 < 2 < 0, modulo 3. *)
Definition cyclic (a b : Z) : comparison := match (a - b) mod 3 with 0 => Eq | 1 => Gt | _ => Lt end.
(** Everything up to [b] is equal to it. *)
Definition upto_eq (a b : Z) : comparison := if a <=? b then Eq else Gt.
Definition ent (n : Z) : Z * Z := (n, 10 * n).
Definition ents (n : nat) : list (Z * Z) := map (fun i => ent (Z.of_nat i)) (seq 1 n).

(** ** C107: the array-based map *)
Theorem C107_insert : forall K V Q (bor : K -> Q) cmp small_key (m : f_map K V) l k v, f_any m l ->
  exists m' r l', f_insert bor cmp small_key m k v = Ok (m', r) /\ f_any m' l' /\ any_insert bor cmp k v l l' r.
Proof. exact @f_insert_any. Qed.
Theorem C107_remove : forall K V Q (bor : K -> Q) cmp small_key (m : f_map K V) l q, f_any m l ->
  exists m' r l', f_remove bor cmp small_key m q = Ok (m', r) /\ f_any m' l' /\ any_remove_val bor cmp q l l' r.
Proof. exact @f_remove_any. Qed.
Theorem C107_get : forall K V Q (bor : K -> Q) cmp small_key (m : f_map K V) l q, f_any m l ->
  exists r, f_get bor cmp small_key m q = Ok r /\ any_get bor cmp q l r.
Proof. exact @f_get_any. Qed.
Theorem C107_get_mut : forall K V Q (bor : K -> Q) cmp small_key (m : f_map K V) l q w, f_any m l ->
  exists m' r l', f_get_mut bor cmp small_key m q w = Ok (m', r) /\ f_any m' l' /\ any_get_mut bor cmp q w l l' r.
Proof. exact @f_get_mut_any. Qed.
(** Any history; every call may even use another comparison. *)
Theorem C107_history : forall K V Q (bor : K -> Q) small_key (os : list ((Q -> Q -> comparison) * f_op K V Q)),
  exists m rs l, f_calls bor small_key f_new os = Ok (m, rs) /\ f_any m l /\ any_calls bor os [] l rs.
Proof. intros. exact (f_calls_any bor small_key os f_new [] (conj eq_refl eq_refl)). Qed.
(** Iteration, and dropping the map. *)
Theorem C107_iter : forall K V (m : f_map K V) l n, f_any m l ->
  runs FixedIterModel.borrowed (fixed_iter m) (repeat Front n) (s_ends (repeat Front n) l)
  /\ forall un, runs (FixedIterModel.owning un) (fixed_into_iter un m) (repeat Front n) (s_ends (repeat Front n) l).
Proof. exact @f_iter_any. Qed.
Theorem C107_drop : forall K V un (m : f_map K V) l, f_any m l ->
  exists ds left, f_drop un (fm_root m) = Ok ds /\ Permutation (ds ++ left) l /\ ((forall n, un n = true) -> left = []).
Proof. exact @f_drop_any. Qed.
(** With an order it is the usual view. *)
Theorem C107_shows : forall K V Q (bor : K -> Q) cmp (m : f_map K V) l,
  f_shows bor cmp m l <-> f_any m l /\ ascending bor cmp l.
Proof. exact @f_shows_any. Qed.
Print Assumptions C107_insert.
Print Assumptions C107_remove.
Print Assumptions C107_get.
Print Assumptions C107_get_mut.
Print Assumptions C107_history.
Print Assumptions C107_iter.
Print Assumptions C107_drop.
Print Assumptions C107_shows.
(** Forty entries, each told to be less than all: two levels, in reverse order of insertion. No call with that
    comparison finds one of them; other comparisons find some. *)
Definition fl40 := Eval vm_compute in match f_from_iter zid (always Lt) true (ents 40) with Ok m => m | Panic => f_new end.
Lemma fl40_any : f_any fl40 (rev (ents 40)).
Proof.
  destruct (f_from_iter_l Z.opp _ Zcmp_laws true (ents 40)) as (m & E & H).
  assert (E0 : f_from_iter Z.opp Z.compare true (ents 40) = Ok fl40) by (vm_compute; reflexivity).
  rewrite E0 in E. injection E as <-. apply C107_shows in H as [H _].
  assert (X : s_extend Z.opp Z.compare [] (ents 40) = rev (ents 40)) by (vm_compute; reflexivity). now rewrite X in H.
Qed.
Example C107_ex : f_any fl40 (rev (ents 40))
  /\ f_from_iter zid (always Lt) true (ents 40) = Ok fl40
  /\ f_get zid (always Lt) true fl40 7 = Ok None
  /\ (exists m, f_remove zid (always Eq) false fl40 7 = Ok (m, Some 210) /\ fm_len m = 39%nat)
  /\ f_get zid cyclic true fl40 7 = Ok (Some 400) /\ f_get zid cyclic true fl40 9 = Ok None.
Proof.
  split; [exact fl40_any|]. split; [vm_compute; reflexivity|]. split; [vm_compute; reflexivity|].
  split; [eexists; split; vm_compute; reflexivity|]. split; vm_compute; reflexivity.
Qed.
Example C107_iter_ex : runs FixedIterModel.borrowed (fixed_iter fl40) [Front; Front] [(Some (40, 400), 39%nat); (Some (39, 390), 38%nat)].
Proof. exact (proj1 (C107_iter _ _ fl40 _ 2 fl40_any)). Qed.
(** Three calls with three comparisons. *)
Example C107_history_ex : exists m,
  f_calls zid true f_new [(always Lt, FoInsert 1 10); (always Eq, FoInsert 2 20); (always Gt, FoInsert 3 30); (cyclic, FoGet 5); (always Eq, FoRemove 9)]
  = Ok (m, [FrVal None; FrVal (Some 10); FrVal None; FrVal (Some 20); FrVal (Some 20)]) /\ f_any m [(3, 30)].
Proof.
  destruct (C107_history Z Z Z zid true [(always Lt, FoInsert 1 10); (always Eq, FoInsert 2 20); (always Gt, FoInsert 3 30); (cyclic, FoGet 5); (always Eq, FoRemove 9)])
    as (m & rs & l & E & A & _).
  pose proof E as E0. vm_compute in E0. injection E0 as <- <-. eexists. split; [exact E|]. destruct A as (L & h & A). split; [reflexivity|]. exists 0%nat.
  apply (holds_leaf 1 _ _ [(3, 30)]); cbn; try lia; repeat split; auto.
Qed.

(** ** C108: the B-tree map, with any minimal occupancy [N] from 1 *)
Theorem C108_insert : forall K V Q (bor : K -> Q) cmp N, (1 <= N)%nat -> forall (m : bt_map K V) l k v, b_any N m l ->
  exists m' r l', b_insert bor cmp N m k v = Ok (m', r) /\ b_any N m' l' /\ any_insert bor cmp k v l l' r.
Proof. exact @b_insert_any. Qed.
Theorem C108_remove : forall K V Q (bor : K -> Q) cmp N, (1 <= N)%nat -> forall (m : bt_map K V) l q, b_any N m l ->
  exists m' r l', b_remove bor cmp N m q = Ok (m', r) /\ b_any N m' l' /\ any_remove_val bor cmp q l l' r.
Proof. exact @b_remove_any. Qed.
Theorem C108_get : forall K V Q (bor : K -> Q) cmp N, (1 <= N)%nat -> forall (m : bt_map K V) l q, b_any N m l ->
  any_get bor cmp q l (b_get bor cmp m q) /\ (b_contains_key bor cmp m q = true -> exists e, In e l /\ told_eq bor cmp q e).
Proof. intros * HN * H. exact (conj (b_get_any bor cmp N HN m l q H) (b_contains_any bor cmp N HN m l q H)). Qed.
Theorem C108_get_mut : forall K V Q (bor : K -> Q) cmp N, (1 <= N)%nat -> forall (m : bt_map K V) l q w, b_any N m l ->
  exists m' r l', b_get_mut bor cmp m q w = (m', r) /\ b_any N m' l' /\ any_get_mut bor cmp q w l l' r.
Proof. exact @b_get_mut_any. Qed.
Theorem C108_extend : forall K V Q (bor : K -> Q) cmp N, (1 <= N)%nat -> forall ps (m : bt_map K V) l, b_any N m l ->
  exists m' l', b_extend bor cmp N m ps = Ok m' /\ b_any N m' l' /\ any_extend bor cmp ps l l'.
Proof. exact @b_extend_any. Qed.
Theorem C108_pops : forall K V N, (1 <= N)%nat -> forall (m : bt_map K V) l, b_any N m l ->
  (exists m', b_pop_first N m = Ok (m', hd_error l) /\ b_any N m' (tl l))
  /\ (exists m', b_pop_last N m = Ok (m', hd_error (rev l)) /\ b_any N m' (removelast l)).
Proof. exact @b_pops_any. Qed.
Theorem C108_iter : forall K V N, (1 <= N)%nat -> forall un (m : bt_map K V) l cs, b_any N m l ->
  b_run_ends BTreeIterModel.borrowed cs (bt_iter m) = Ok (s_ends cs l)
  /\ b_run_ends (BTreeIterModel.owning un) cs (bt_into_iter un m) = Ok (s_ends cs l).
Proof. exact @b_iter_any. Qed.
(** The calls that take the map apart and build it again: entries told to be equal to one built in before replace it. *)
Theorem C108_append : forall K V Q (bor : K -> Q) cmp N, (1 <= N)%nat -> forall un (a b : bt_map K V) la lb, b_any N a la -> b_any N b lb ->
  exists a' l', b_append bor cmp N un a b = Ok (a', b_new) /\ b_any N a' l' /\ any_extend bor cmp lb la l'.
Proof. exact @b_append_any. Qed.
Theorem C108_retain : forall K V Q (bor : K -> Q) cmp N, (1 <= N)%nat -> forall un S (f : S -> K -> V -> S * V * bool) (m : bt_map K V) l s, b_any N m l ->
  exists m' l' s' outs, b_retain bor cmp N un f m s = Ok (m', s') /\ b_any N m' l'
    /\ run_calls f s l = (outs, s') /\ any_extend bor cmp (kept outs) [] l'.
Proof. exact @b_retain_any. Qed.
Theorem C108_split_off : forall K V Q (bor : K -> Q) cmp N, (1 <= N)%nat -> forall un (m : bt_map K V) l q, b_any N m l ->
  exists m1 m2 l1 l2, b_split_off bor cmp N un m q = Ok (m1, m2) /\ b_any N m1 l1 /\ b_any N m2 l2
    /\ any_extend bor cmp (filter (fun e => match cmp q (bor (fst e)) with Gt => true | _ => false end) l) [] l1
    /\ any_extend bor cmp (filter (fun e => match cmp q (bor (fst e)) with Gt => false | _ => true end) l) [] l2.
Proof. exact @b_split_off_any. Qed.
Theorem C108_shows : forall K V Q (bor : K -> Q) cmp N (m : bt_map K V) l,
  well_formed bor cmp N m l <-> b_any N m l /\ ascending bor cmp l.
Proof. exact @well_formed_any. Qed.
Print Assumptions C108_insert.
Print Assumptions C108_remove.
Print Assumptions C108_get.
Print Assumptions C108_get_mut.
Print Assumptions C108_extend.
Print Assumptions C108_pops.
Print Assumptions C108_iter.
Print Assumptions C108_append.
Print Assumptions C108_retain.
Print Assumptions C108_split_off.
Print Assumptions C108_shows.
Definition bl40 := Eval vm_compute in match b_from_iter zid (always Lt) 2 (ents 40) with Ok m => m | Panic => b_new end.
Lemma bl40_any : b_any 2 bl40 (rev (ents 40)).
Proof.
  destruct (C108_extend _ _ _ zid (always Lt) 2 ltac:(lia) (ents 40) b_new [] (conj eq_refl eq_refl)) as (m & l & E & H & _).
  assert (E0 : b_extend zid (always Lt) 2 b_new (ents 40) = Ok bl40) by (vm_compute; reflexivity).
  rewrite E0 in E. injection E as <-. pose proof (b_list_any 2 ltac:(lia) (fun _ => true) bl40 l H) as X.
  assert (Y : b_into_list (fun _ => true) bl40 = Ok (rev (ents 40))) by (vm_compute; reflexivity).
  rewrite Y in X. assert (Z0 : rev (ents 40) = l) by congruence. now rewrite Z0.
Qed.
Example C108_ex : b_any 2 bl40 (rev (ents 40))
  /\ b_get zid (always Lt) bl40 7 = None
  /\ (exists m, b_remove zid (always Eq) 2 bl40 7 = Ok (m, Some 160) /\ bm_len m = 39%nat)
  /\ b_get zid cyclic bl40 7 = Some 160 /\ b_get zid cyclic bl40 8 = None.
Proof.
  split; [exact bl40_any|]. split; [vm_compute; reflexivity|]. split; [eexists; split; vm_compute; reflexivity|]. split; vm_compute; reflexivity.
Qed.
Example C108_pops_ex : exists m, b_pop_last 2 bl40 = Ok (m, Some (1, 10)) /\ b_any 2 m (removelast (rev (ents 40))).
Proof. exact (proj2 (C108_pops _ _ 2%nat ltac:(lia) bl40 _ bl40_any)). Qed.
Example C108_iter_ex : b_run_ends BTreeIterModel.borrowed [Front; Back; Front] (bt_iter bl40)
  = Ok [(Some (40, 400), 39%nat); (Some (1, 10), 38%nat); (Some (39, 390), 37%nat)].
Proof. exact (proj1 (C108_iter _ _ 2%nat ltac:(lia) (fun _ => true) bl40 _ _ bl40_any)). Qed.
(** A closure that keeps everything: under a comparison that says "equal" only one entry is left, the last. *)
Example C108_retain_ex : exists m, b_retain zid (always Eq) 2 (fun _ => true) (fun (s : nat) k v => (S s, v + 1, true)) bl40 O = Ok (m, 40%nat)
  /\ b_any 2 m [(1, 11)].
Proof.
  destruct (C108_retain _ _ _ zid (always Eq) 2%nat ltac:(lia) (fun _ => true) nat (fun (s : nat) k v => (S s, v + 1, true)) bl40 _ O bl40_any)
    as (m & l & s & outs & E & H & _).
  pose proof E as E0. vm_compute in E0. injection E0 as <- <-. eexists. split; [exact E|]. split; [reflexivity|]. exists 0%nat.
  destruct H as [L [d D]]. apply eo_leaf. cbn. lia.
Qed.

(** ** C109: the AVL map, with fewer than 2^63 entries *)
Theorem C109_insert : forall K V Q (bor : K -> Q) cmp (m : avl_map K V) l k v, a_any m l -> small l ->
  exists m' r l', avl_insert bor cmp m k v = Ok (m', r) /\ a_any m' l' /\ any_insert bor cmp k v l l' r.
Proof. exact @a_insert_any. Qed.
Theorem C109_remove : forall K V Q (bor : K -> Q) cmp (m : avl_map K V) l q, a_any m l -> small l ->
  (exists m' r l', avl_remove_entry bor cmp m q = Ok (m', r) /\ a_any m' l' /\ any_remove bor cmp q l l' r)
  /\ (exists m' r l', avl_remove bor cmp m q = Ok (m', r) /\ a_any m' l' /\ any_remove_val bor cmp q l l' r).
Proof. intros * H S. exact (conj (a_remove_entry_any bor cmp m l q H S) (a_remove_any bor cmp m l q H S)). Qed.
Theorem C109_get : forall K V Q (bor : K -> Q) cmp (m : avl_map K V) l q, a_any m l -> any_get bor cmp q l (avl_get bor cmp m q).
Proof. exact @a_get_any. Qed.
Theorem C109_get_mut : forall K V Q (bor : K -> Q) cmp (m : avl_map K V) l q w, a_any m l ->
  exists m' r l', avl_get_mut bor cmp m q w = (m', r) /\ a_any m' l' /\ any_get_mut bor cmp q w l l' r.
Proof. exact @a_get_mut_any. Qed.
Theorem C109_extend : forall K V Q (bor : K -> Q) cmp ps (m : avl_map K V) l, a_any m l -> (Z.of_nat (length l + length ps) < 2 ^ 63) ->
  exists m' l', avl_extend bor cmp m ps = Ok m' /\ a_any m' l' /\ any_extend bor cmp ps l l'.
Proof. exact @a_extend_any. Qed.
Theorem C109_ends : forall K V (m : avl_map K V) l, a_any m l -> avl_first_key_value m = s_first l /\ avl_last_key_value m = s_last l.
Proof. exact @a_ends_any. Qed.
Theorem C109_pops : forall K V (m : avl_map K V) l, a_any m l -> small l ->
  (exists m', avl_pop_first m = Ok (m', s_first l) /\ a_any m' (tl l))
  /\ (exists m', avl_pop_last m = Ok (m', s_last l) /\ a_any m' (removelast l)).
Proof. exact @a_pops_any. Qed.
Theorem C109_iter : forall K V (m : avl_map K V) l cs, a_any m l -> run_ends norm_destr norm_size cs (avl_iter m) = Ok (s_ends cs l).
Proof. exact @a_iter_any. Qed.
(** Two maps: their entries are paired in some way, equals with equals; see [any_pairs]. *)
Theorem C109_union : forall K V Q (bor : K -> Q) cmp (a b : avl_map K V) la lb, a_any a la -> a_any b lb -> small la -> small lb ->
  exists m l only_a only_b both, avl_new_union bor cmp a b = Ok m /\ avl_append bor cmp a b = Ok (m, avl_new) /\ a_any m l
    /\ any_pairs bor cmp la lb only_a only_b both /\ Permutation l (only_a ++ lb).
Proof. exact @a_union_any. Qed.
Theorem C109_intersect : forall K V Q (bor : K -> Q) cmp (a b : avl_map K V) la lb, a_any a la -> a_any b lb -> small la -> small lb ->
  exists m l only_a only_b both, avl_new_intersect bor cmp a b = Ok m /\ a_any m l
    /\ any_pairs bor cmp la lb only_a only_b both /\ Permutation l (map fst both).
Proof. exact @a_intersect_any. Qed.
Theorem C109_diff : forall K V Q (bor : K -> Q) cmp (a b : avl_map K V) la lb, a_any a la -> a_any b lb -> small la -> small lb ->
  exists m only_a only_b both l, avl_new_diff bor cmp a b = Ok m /\ a_any m l
    /\ any_pairs bor cmp la lb only_a only_b both /\ Permutation l only_a.
Proof. exact @a_diff_any. Qed.
Theorem C109_sym_diff : forall K V Q (bor : K -> Q) cmp (a b : avl_map K V) la lb, a_any a la -> a_any b lb -> small la -> small lb ->
  exists m only_a only_b both l, avl_new_sym_diff bor cmp a b = Ok m /\ a_any m l
    /\ any_pairs bor cmp la lb only_a only_b both /\ Permutation l (only_a ++ only_b).
Proof. exact @a_sym_diff_any. Qed.
(** [retain] calls the closure once for every entry and keeps what it says; no comparison is made. *)
Theorem C109_retain : forall K V S (f : S -> K -> V -> S * V * bool) (m : avl_map K V) l s, a_any m l -> small l ->
  exists m' l' s' order outs, avl_retain f m s = Ok (m', s') /\ a_any m' l'
    /\ Permutation order l /\ run_calls f s order = (outs, s') /\ Permutation l' (kept outs).
Proof. exact @a_retain_any. Qed.
Print Assumptions C109_insert.
Print Assumptions C109_remove.
Print Assumptions C109_get.
Print Assumptions C109_get_mut.
Print Assumptions C109_extend.
Print Assumptions C109_ends.
Print Assumptions C109_pops.
Print Assumptions C109_iter.
Print Assumptions C109_union.
Print Assumptions C109_intersect.
Print Assumptions C109_diff.
Print Assumptions C109_sym_diff.
Print Assumptions C109_retain.
Definition al9 := Eval vm_compute in match avl_from_iter zid (always Lt) (ents 9) with Ok m => m | Panic => avl_new end.
Definition ag4 := Eval vm_compute in match avl_from_iter zid (always Gt) (ents 4) with Ok m => m | Panic => avl_new end.
Lemma a_built cmp ps (m : avl_map Z Z) l : Z.of_nat (length ps) < 2 ^ 63 -> avl_from_iter zid cmp ps = Ok m -> AvlModel.elems (am_root m) = l -> a_any m l.
Proof.
  intros B E <-. destruct (C109_extend _ _ _ zid cmp ps avl_new []) as (m' & l' & E' & H & _); auto.
  { split; [reflexivity|]. exists 0. constructor. }
  unfold avl_from_iter in E. rewrite E in E'. injection E' as <-. apply aany_iff in H as (A & X & L). apply aany_iff. rewrite X. auto.
Qed.
Lemma al9_any : a_any al9 (rev (ents 9)).
Proof. now apply (a_built (always Lt) (ents 9)). Qed.
Lemma ag4_any : a_any ag4 (ents 4).
Proof. now apply (a_built (always Gt) (ents 4)). Qed.
Example C109_ex : a_any al9 (rev (ents 9))
  /\ avl_get zid (always Lt) al9 7 = None
  /\ (exists m, avl_remove zid (always Eq) al9 7 = Ok (m, Some 40) /\ am_len m = 8%nat)
  /\ avl_get zid cyclic al9 7 = Some 40 /\ avl_get zid cyclic al9 9 = Some 60.
Proof.
  split; [exact al9_any|]. split; [vm_compute; reflexivity|]. split; [eexists; split; vm_compute; reflexivity|]. split; vm_compute; reflexivity.
Qed.
(** Under the cyclic comparison two keys of the second map are told to be equal to keys of the first. *)
Example C109_union_ex : exists m l only_a only_b both, avl_new_union zid cyclic al9 ag4 = Ok m /\ a_any m l
  /\ any_pairs zid cyclic (rev (ents 9)) (ents 4) only_a only_b both /\ Permutation l (only_a ++ ents 4) /\ am_len m = 10%nat.
Proof.
  destruct (C109_union _ _ _ zid cyclic al9 ag4 _ _ al9_any ag4_any) as (m & l & oa & ob & both & E & _ & A & P & X); [reflexivity|reflexivity|].
  exists m, l, oa, ob, both. repeat (split; auto). vm_compute in E. injection E as <-. reflexivity.
Qed.

(** ** C110: [split_off] of the AVL map puts the entry found in the middle back with [insert]. If the comparison says that
    this entry equals one of the second half, it replaces that one, but the length of the second map was computed before. *)
Theorem C110_split_off : forall K V Q (bor : K -> Q) cmp (m : avl_map K V) l q, a_any m l -> small l ->
  exists m1 m2 l1 mid l2, avl_split_off bor cmp m q = Ok (m1, m2)
    /\ l = l1 ++ match mid with Some e => [e] | None => [] end ++ l2 /\ a_any m1 l1
    /\ match mid with
       | None => a_any m2 l2
       | Some e => told_eq bor cmp q e /\ exists l2' r, any_insert bor cmp (fst e) (snd e) l2 l2' r
                   /\ (exists h, t_holds h (am_root m2) l2') /\ am_len m2 = S (length l2)
       end.
Proof. exact @a_split_off_any. Qed.
Definition m12 := Eval vm_compute in match avl_from_iter zid upto_eq [(1, 10); (2, 20)] with Ok m => m | Panic => avl_new end.
(** A map whose [len()] is 2 but that has one entry. *)
Theorem C110_split_off_len_refuted : exists (cmp : Z -> Z -> comparison) (m : avl_map Z Z) q m1 m2,
  a_any m [(1, 10); (2, 20)] /\ avl_split_off zid cmp m q = Ok (m1, m2)
  /\ avl_len m1 = 0%nat /\ avl_len m2 = 2%nat
  /\ run_ends norm_destr norm_size [Front; Front; Front] (avl_iter m2) = Ok [(Some (1, 10), 1%nat); (None, 1%nat); (None, 1%nat)]
  /\ ~ exists l, a_any m2 l.
Proof.
  exists upto_eq, m12, 1. do 2 eexists. split; [now apply (a_built upto_eq [(1, 10); (2, 20)])|].
  split; [vm_compute; reflexivity|]. split; [reflexivity|]. split; [reflexivity|]. split; [vm_compute; reflexivity|].
  intros (l & H). apply aany_iff in H as (_ & <- & L). discriminate L.
Qed.
Print Assumptions C110_split_off.
Print Assumptions C110_split_off_len_refuted.
Example C110_ex : exists m1 m2, avl_split_off zid cyclic al9 7 = Ok (m1, m2) /\ am_len m1 = 5%nat /\ am_len m2 = 4%nat.
Proof. do 2 eexists. split; [vm_compute; reflexivity|]. split; reflexivity. Qed.

(** ** C111: [entry(k).or_insert(v)] looks the key up, inserts it if it is not found, and unwraps a second lookup. With
    a comparison that does not find the new key again it panics. That is the only way in which it fails. *)
Theorem C111_avl_or_insert : forall K V Q (bor : K -> Q) cmp (m : avl_map K V) l k v w, a_any m l -> small l ->
  exists m1 l1, a_any m1 l1 /\ (l1 = l /\ m1 = m \/ exists r, avl_insert bor cmp m k v = Ok (m1, r) /\ any_insert bor cmp k v l l1 r)
    /\ match entry_or_insert bor cmp m k v w with
       | Ok (m', x) => exists l', a_any m' l' /\ any_get_mut bor cmp (bor k) w l1 l' (Some x)
       | Panic => snd (avl_get_mut bor cmp m1 (bor k) w) = None
       end.
Proof. exact @a_or_insert_any. Qed.
Theorem C111_btree_or_insert : forall K V Q (bor : K -> Q) cmp N, (1 <= N)%nat -> forall (m : bt_map K V) l k v w, b_any N m l ->
  exists m1 l1, b_any N m1 l1 /\ (l1 = l /\ m1 = m \/ exists r, b_insert bor cmp N m k v = Ok (m1, r) /\ any_insert bor cmp k v l l1 r)
    /\ match b_or_insert bor cmp N m k v w with
       | Ok (m', x) => exists l', b_any N m' l' /\ any_get_mut bor cmp (bor k) w l1 l' (Some x)
       | Panic => snd (b_get_mut bor cmp m1 (bor k) w) = None
       end.
Proof. exact @b_or_insert_any. Qed.
Theorem C111_or_insert_panics_refuted : exists (cmp : Z -> Z -> comparison) (a : avl_map Z Z) (b : bt_map Z Z) l,
  a_any a l /\ b_any 2 b l
  /\ entry_or_insert zid cmp a 5 50 (fun v => v) = Panic /\ b_or_insert zid cmp 2 b 5 50 (fun v => v) = Panic.
Proof.
  exists (always Lt), avl_new, b_new, []. split; [split; [reflexivity|]; exists 0; constructor|]. split; [split; reflexivity|]. split; vm_compute; reflexivity.
Qed.
Print Assumptions C111_avl_or_insert.
Print Assumptions C111_btree_or_insert.
Print Assumptions C111_or_insert_panics_refuted.
Example C111_ex : exists m, entry_or_insert zid cyclic al9 7 50 (fun v => v + 1) = Ok (m, 40) /\ avl_get zid cyclic m 7 = Some 41.
Proof. eexists. split; vm_compute; reflexivity. Qed.
