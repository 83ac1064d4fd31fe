(** Comparisons that panic (properties C112-C118).

    The user's [Ord] is [ask : nat -> Q -> Q -> option comparison] (Ask.v): what the comparison number [n] of two keys
    answers, or [None] if it panics. A call is a [trial]: it returns, or it unwinds and leaves its [&mut] argument in some
    state, or it faults (a panic of the library itself, or undefined behaviour). A call that owns its arguments has the
    state [tt].

    [answers cmp ask]: whenever a comparison does not panic it answers as [cmp]. [fares ask n most t ok un]: the call [t],
    made after [n] comparisons, does not fault and makes at most [most] comparisons; if it returns, [ok] holds; if it
    unwinds, its last comparison panicked, and [un] holds of what is left. *)
From Coq Require Import List PeanoNat ZArith Bool Lia.
From Verif Require Import Base Spec MapSpec SpecFacts AvlModel AvlIterModel AvlHistModel AvlProofs AvlShows BTreeModel BTreeIterModel BTreeHistModel BTreeShows
  FixedModel FixedSpec FixedShows Ask AskSpec AskProofs AvlAskModel BTreeAskModel FixedAskModel AvlAskProofs BTreeAskProofs FixedAskProofs AskShows.
Import ListNotations.
Local Open Scope nat_scope.

(** ** Samples *)
Definition zid (k : Z) : Z := k.
(** Comparison number [i] panics. *)
Definition bomb (i n : nat) (a b : Z) : option comparison := if n =? i then None else Some (Z.compare a b).
Lemma bomb_answers i : answers Z.compare (bomb i).
Proof. unfold bomb. intros n a b c H. destruct (n =? i); congruence. Qed.
Definition ents (n : nat) : list (Z * Z) := map (fun i => (Z.of_nat i, 10 * Z.of_nat i)%Z) (seq 1 n).
Definition av9 := Eval vm_compute in match avl_from_iter zid Z.compare (ents 9) with Ok m => m | Panic => avl_new end.
Lemma av9_shows : shows zid Z.compare av9 (ents 9).
Proof. split; vm_compute; reflexivity. Qed.
Definition bt40 := Eval vm_compute in match b_from_iter zid Z.compare 2 (ents 40) with Ok m => m | Panic => b_new end.
Lemma bt40_shows : b_shows zid Z.compare 2 bt40 (ents 40).
Proof. split; [|split]; vm_compute; reflexivity. Qed.
Definition fx40 := Eval vm_compute in match f_from_iter zid Z.compare true (ents 40) with Ok m => m | Panic => f_new end.
Lemma fx40_shows : f_shows zid Z.compare fx40 (ents 40).
Proof.
  destruct (f_from_iter_l zid _ Zcmp_laws true (ents 40)) as (m & E & H).
  assert (E0 : f_from_iter zid Z.compare true (ents 40) = Ok fx40) by (vm_compute; reflexivity).
  rewrite E0 in E. injection E as <-. assert (X : s_extend zid Z.compare [] (ents 40) = ents 40) by (vm_compute; reflexivity). now rewrite X in H.
Qed.

(** ** C112: [insert], [remove], [remove_entry], [get], [contains_key], [get_mut] of the AVL map either do what they should,
    or unwind and leave the map exactly as it was; and they compare at most [2 log2 (len + 1)] times. *)
Theorem C112_avl_insert : forall K V Q (bor : K -> Q) cmp ask, order_laws cmp -> answers cmp ask -> forall (m : avl_map K V) l k v n, shows bor cmp m l -> small l ->
  exists most, log_bound l most /\ fares ask n most (a_insert_t bor ask m k v n)
    (fun m' r => r = s_get bor cmp (bor k) l /\ shows bor cmp m' (s_insert bor cmp k v l)) (fun m' => m' = m).
Proof. exact @a_insert_ask. Qed.
Theorem C112_avl_remove_entry : forall K V Q (bor : K -> Q) cmp ask, order_laws cmp -> answers cmp ask -> forall (m : avl_map K V) l q n, shows bor cmp m l -> small l ->
  exists most, log_bound l most /\ fares ask n most (a_remove_entry_t bor ask m q n)
    (fun m' r => r = s_find bor cmp q l /\ shows bor cmp m' (s_remove bor cmp q l)) (fun m' => m' = m).
Proof. exact @a_remove_entry_ask. Qed.
Theorem C112_avl_remove : forall K V Q (bor : K -> Q) cmp ask, order_laws cmp -> answers cmp ask -> forall (m : avl_map K V) l q n, shows bor cmp m l -> small l ->
  exists most, log_bound l most /\ fares ask n most (a_remove_t bor ask m q n)
    (fun m' r => r = s_get bor cmp q l /\ shows bor cmp m' (s_remove bor cmp q l)) (fun m' => m' = m).
Proof. exact @a_remove_ask. Qed.
Theorem C112_avl_lookup : forall K V Q (bor : K -> Q) cmp ask, order_laws cmp -> answers cmp ask -> forall (m : avl_map K V) l q n, shows bor cmp m l ->
  exists most, log_bound l most
    /\ fares ask n most (a_get_t bor ask m q n) (fun _ r => r = s_get bor cmp q l) (fun _ => True)
    /\ fares ask n most (a_contains_t bor ask m q n) (fun _ r => r = s_mem bor cmp q l) (fun _ => True).
Proof. exact @a_lookup_ask. Qed.
Theorem C112_avl_get_mut : forall K V Q (bor : K -> Q) cmp ask, order_laws cmp -> answers cmp ask -> forall (m : avl_map K V) l q w n, shows bor cmp m l -> small l ->
  exists most, log_bound l most /\ fares ask n most (a_get_mut_t bor ask m q w n)
    (fun m' r => r = s_get bor cmp q l /\ shows bor cmp m' (s_update bor cmp q w l)) (fun m' => m' = m).
Proof. exact @a_get_mut_ask. Qed.
Print Assumptions C112_avl_insert.
Print Assumptions C112_avl_remove_entry.
Print Assumptions C112_avl_remove.
Print Assumptions C112_avl_lookup.
Print Assumptions C112_avl_get_mut.
(** Nine entries: a fourth comparison is made (and panics) for the key 10, none for the key 4. *)
Example C112_ex : shows zid Z.compare av9 (ents 9) /\ small (ents 9)
  /\ a_insert_t zid (bomb 3) av9 10%Z 0%Z 0 = Unwound av9 4
  /\ (exists m', a_insert_t zid (bomb 3) av9 4%Z 0%Z 0 = Returned m' (Some 40%Z) 1)
  /\ a_remove_t zid (bomb 1) av9 8%Z 0 = Unwound av9 2
  /\ a_get_t zid (bomb 7) av9 8%Z 0 = Returned tt (Some 80%Z) 3.
Proof. split; [exact av9_shows|]. split; [reflexivity|]. split; [vm_compute; reflexivity|]. split; [eexists; vm_compute; reflexivity|]. split; vm_compute; reflexivity. Qed.

(** ** C113: the same of the B-tree map with any capacity [N]; up to [2N+1] comparisons in each node on the way, and
    [remove] goes the way twice. *)
Theorem C113_btree_insert : forall K V Q (bor : K -> Q) cmp ask, order_laws cmp -> answers cmp ask -> forall N, 1 <= N -> forall (m : bt_map K V) l k v n, b_shows bor cmp N m l ->
  exists d, level_bound l (N + 1) d /\ fares ask n ((2 * N + 1) * (d + 1)) (b_insert_t bor ask N m k v n)
    (fun m' r => r = s_get bor cmp (bor k) l /\ b_shows bor cmp N m' (s_insert bor cmp k v l)) (fun m' => m' = m).
Proof. exact @b_insert_ask. Qed.
Theorem C113_btree_remove : forall K V Q (bor : K -> Q) cmp ask, order_laws cmp -> answers cmp ask -> forall N, 1 <= N -> forall (m : bt_map K V) l q n, b_shows bor cmp N m l ->
  exists d, level_bound l (N + 1) d /\ fares ask n (2 * ((2 * N + 1) * (d + 1))) (b_remove_t bor ask N m q n)
    (fun m' r => r = s_get bor cmp q l /\ b_shows bor cmp N m' (s_remove bor cmp q l)) (fun m' => m' = m).
Proof. exact @b_remove_ask. Qed.
Theorem C113_btree_lookup : forall K V Q (bor : K -> Q) cmp ask, order_laws cmp -> answers cmp ask -> forall N, 1 <= N -> forall (m : bt_map K V) l q n, b_shows bor cmp N m l ->
  exists d, level_bound l (N + 1) d
    /\ fares ask n ((2 * N + 1) * (d + 1)) (b_get_t bor ask m q n) (fun _ r => r = s_get bor cmp q l) (fun _ => True)
    /\ fares ask n ((2 * N + 1) * (d + 1)) (b_contains_t bor ask m q n) (fun _ r => r = s_mem bor cmp q l) (fun _ => True).
Proof. exact @b_lookup_ask. Qed.
Theorem C113_btree_get_mut : forall K V Q (bor : K -> Q) cmp ask, order_laws cmp -> answers cmp ask -> forall N, 1 <= N -> forall (m : bt_map K V) l q w n, b_shows bor cmp N m l ->
  exists d, level_bound l (N + 1) d /\ fares ask n ((2 * N + 1) * (d + 1)) (b_get_mut_t bor ask m q w n)
    (fun m' r => r = s_get bor cmp q l /\ b_shows bor cmp N m' (s_update bor cmp q w l)) (fun m' => m' = m).
Proof. exact @b_get_mut_ask. Qed.
Print Assumptions C113_btree_insert.
Print Assumptions C113_btree_remove.
Print Assumptions C113_btree_lookup.
Print Assumptions C113_btree_get_mut.
(** Forty entries on three levels; [remove] can unwind while it looks whether the key is there, or while it removes it. *)
Example C113_ex : b_shows zid Z.compare 2 bt40 (ents 40)
  /\ b_insert_t zid (bomb 4) 2 bt40 41%Z 0%Z 0 = Unwound bt40 5
  /\ b_remove_t zid (bomb 4) 2 bt40 40%Z 0 = Unwound bt40 5
  /\ b_remove_t zid (bomb 14) 2 bt40 40%Z 0 = Unwound bt40 15
  /\ (exists m', b_remove_t zid (bomb 100) 2 bt40 40%Z 0 = Returned m' (Some 400%Z) 20).
Proof. split; [exact bt40_shows|]. split; [vm_compute; reflexivity|]. split; [vm_compute; reflexivity|]. split; [vm_compute; reflexivity|]. eexists. vm_compute. reflexivity. Qed.

(** ** C114: the same of the array-based map, whose keys are searched one by one or by halves. *)
Theorem C114_fixed_insert : forall K V Q (bor : K -> Q) cmp ask, order_laws cmp -> answers cmp ask -> forall small_key (m : f_map K V) l k v n, f_shows bor cmp m l ->
  exists d, level_bound l 6 d /\ fares ask n (per_node small_key * (d + 1)) (f_insert_t bor ask small_key m k v n)
    (fun m' r => r = s_get bor cmp (bor k) l /\ f_shows bor cmp m' (s_insert bor cmp k v l)) (fun m' => m' = m).
Proof. exact @f_insert_ask. Qed.
Theorem C114_fixed_remove : forall K V Q (bor : K -> Q) cmp ask, order_laws cmp -> answers cmp ask -> forall small_key (m : f_map K V) l q n, f_shows bor cmp m l ->
  exists d, level_bound l 6 d /\ fares ask n (per_node small_key * (d + 1)) (f_remove_t bor ask small_key m q n)
    (fun m' r => r = s_get bor cmp q l /\ f_shows bor cmp m' (s_remove bor cmp q l)) (fun m' => m' = m).
Proof. exact @f_remove_ask. Qed.
Theorem C114_fixed_get : forall K V Q (bor : K -> Q) cmp ask, order_laws cmp -> answers cmp ask -> forall small_key (m : f_map K V) l q n, f_shows bor cmp m l ->
  exists d, level_bound l 6 d /\ fares ask n (per_node small_key * (d + 1)) (f_get_t bor ask small_key m q n)
    (fun _ r => r = s_get bor cmp q l) (fun _ => True).
Proof. exact @f_get_ask. Qed.
Theorem C114_fixed_get_mut : forall K V Q (bor : K -> Q) cmp ask, order_laws cmp -> answers cmp ask -> forall small_key (m : f_map K V) l q w n, f_shows bor cmp m l ->
  exists d, level_bound l 6 d /\ fares ask n (per_node small_key * (d + 1)) (f_get_mut_t bor ask small_key m q w n)
    (fun m' r => r = s_get bor cmp q l /\ f_shows bor cmp m' (s_update bor cmp q w l)) (fun m' => m' = m).
Proof. exact @f_get_mut_ask. Qed.
Print Assumptions C114_fixed_insert.
Print Assumptions C114_fixed_remove.
Print Assumptions C114_fixed_get.
Print Assumptions C114_fixed_get_mut.
Example C114_ex : f_shows zid Z.compare fx40 (ents 40)
  /\ f_insert_t zid (bomb 4) true fx40 41%Z 0%Z 0 = Unwound fx40 5
  /\ f_remove_t zid (bomb 2) false fx40 40%Z 0 = Unwound fx40 3
  /\ (exists m', f_remove_t zid (bomb 100) true fx40 40%Z 0 = Returned m' (Some 400%Z) 10)
  /\ (exists m', f_remove_t zid (bomb 100) false fx40 40%Z 0 = Returned m' (Some 400%Z) 4).
Proof. split; [exact fx40_shows|]. split; [vm_compute; reflexivity|]. split; [vm_compute; reflexivity|]. split; eexists; vm_compute; reflexivity. Qed.

(** ** C115: that a call which unwinds leaves the map as it was takes no assumption at all: not on the map, which may be
    damaged, and not on the answers, which may be no order and may change from one comparison to the next. *)
Theorem C115_avl : forall K V Q (bor : K -> Q) ask (m : avl_map K V) n m' n',
  (forall k v, a_insert_t bor ask m k v n = Unwound m' n' -> m' = m /\ panicked ask n')
  /\ (forall q, a_remove_entry_t bor ask m q n = Unwound m' n' -> m' = m /\ panicked ask n')
  /\ (forall q, a_remove_t bor ask m q n = Unwound m' n' -> m' = m /\ panicked ask n')
  /\ (forall q w, a_get_mut_t bor ask m q w n = Unwound m' n' -> m' = m /\ panicked ask n').
Proof.
  intros. split; [|split; [|split]].
  - intros k v. apply a_insert_keeps.
  - intros q. apply a_remove_entry_keeps.
  - intros q. apply a_remove_keeps.
  - intros q w. apply a_get_mut_keeps.
Qed.
Theorem C115_btree : forall K V Q (bor : K -> Q) ask N (m : bt_map K V) n m' n',
  (forall k v, b_insert_t bor ask N m k v n = Unwound m' n' -> m' = m /\ panicked ask n')
  /\ (forall q, b_remove_t bor ask N m q n = Unwound m' n' -> m' = m /\ panicked ask n')
  /\ (forall q w, b_get_mut_t bor ask m q w n = Unwound m' n' -> m' = m /\ panicked ask n').
Proof.
  intros. split; [|split].
  - intros k v. apply b_insert_keeps.
  - intros q. apply b_remove_keeps.
  - intros q w. apply b_get_mut_keeps.
Qed.
Theorem C115_fixed : forall K V Q (bor : K -> Q) ask small_key (m : f_map K V) n m' n',
  (forall k v, f_insert_t bor ask small_key m k v n = Unwound m' n' -> m' = m /\ panicked ask n')
  /\ (forall q, f_remove_t bor ask small_key m q n = Unwound m' n' -> m' = m /\ panicked ask n')
  /\ (forall q w, f_get_mut_t bor ask small_key m q w n = Unwound m' n' -> m' = m /\ panicked ask n').
Proof.
  intros. split; [|split].
  - intros k v. apply f_insert_keeps.
  - intros q. apply f_remove_keeps.
  - intros q w. apply f_get_mut_keeps.
Qed.
Print Assumptions C115_avl.
Print Assumptions C115_btree.
Print Assumptions C115_fixed.
(** Answers that alternate, whatever the keys; the sixth comparison panics. *)
Definition moody (n : nat) (_ _ : Z) : option comparison := if n =? 5 then None else Some (if Nat.even n then Gt else Lt).
Example C115_ex : a_insert_t zid moody av9 5%Z 0%Z 3 = Unwound av9 6
  /\ b_insert_t zid moody 2 bt40 5%Z 0%Z 1 = Unwound bt40 6
  /\ f_insert_t zid moody true fx40 5%Z 0%Z 3 = Unwound fx40 6.
Proof. split; [|split]; vm_compute; reflexivity. Qed.

(** ** C116: [append] and [split_off] of the AVL map take the root out of the map before they compare anything. If they
    unwind, the entries are gone (dropped), but [len()] still tells their number. *)
Theorem C116_append : forall K V Q (bor : K -> Q) cmp ask, order_laws cmp -> answers cmp ask -> forall (a b : avl_map K V) la lb n,
  shows bor cmp a la -> shows bor cmp b lb -> small la -> small lb ->
  match a_append_t bor ask a b n with
  | Returned (a', b') _ _ => exists l, shows bor cmp a' l /\ shows bor cmp b' []
      /\ forall q, s_find bor cmp q l = match s_find bor cmp q lb with Some e => Some e | None => s_find bor cmp q la end
  | Unwound (a', b') n' => panicked ask n' /\ emptied a a' /\ emptied b b'
  | Fault => False
  end.
Proof. exact @a_append_ask. Qed.
Theorem C116_split_off : forall K V Q (bor : K -> Q) cmp ask, order_laws cmp -> answers cmp ask -> forall (m : avl_map K V) l q n, shows bor cmp m l -> small l ->
  match a_split_off_t bor ask m q n with
  | Returned m' hi _ => shows bor cmp m' (filter (lt_q bor cmp q) l) /\ shows bor cmp hi (filter (fun e => negb (lt_q bor cmp q e)) l)
  | Unwound m' n' => panicked ask n' /\ (emptied m m' \/ s_mem bor cmp q l = true /\ shows bor cmp m' (filter (lt_q bor cmp q) l))
  | Fault => False
  end.
Proof. exact @a_split_off_ask. Qed.
(** So [len()] can be wrong after a panic that was caught. *)
Theorem C116_len_refuted : exists (ask : nat -> Z -> Z -> option comparison) (a b : avl_map Z Z) a' b' n' m' n'',
  answers Z.compare ask /\ shows zid Z.compare a (ents 9) /\ shows zid Z.compare b (ents 9)
  /\ a_append_t zid ask a b 0 = Unwound (a', b') n' /\ avl_collect a' = Ok [] /\ avl_len a' = 9 /\ avl_collect b' = Ok [] /\ avl_len b' = 9
  /\ a_split_off_t zid ask a 5%Z 0 = Unwound m' n'' /\ avl_collect m' = Ok [] /\ avl_len m' = 9
  /\ avl_chk zid Z.compare m' <> Ok (inl tt).
Proof.
  exists (bomb 1), av9, av9. do 5 eexists. split; [apply bomb_answers|]. split; [exact av9_shows|]. split; [exact av9_shows|].
  split; [vm_compute; reflexivity|]. split; [reflexivity|]. split; [reflexivity|]. split; [reflexivity|]. split; [reflexivity|].
  split; [vm_compute; reflexivity|]. split; [reflexivity|]. split; [reflexivity|]. vm_compute. discriminate.
Qed.
Theorem C116_union : forall K V Q (bor : K -> Q) cmp ask, order_laws cmp -> answers cmp ask -> forall (a b : avl_map K V) la lb n,
  shows bor cmp a la -> shows bor cmp b lb -> small la -> small lb ->
  exists most, fares ask n most (a_union_t bor ask a b n)
    (fun _ m => exists l, shows bor cmp m l /\ forall q, s_find bor cmp q l = match s_find bor cmp q lb with Some e => Some e | None => s_find bor cmp q la end)
    (fun _ => True).
Proof. exact @a_union_ask. Qed.
Theorem C116_intersect : forall K V Q (bor : K -> Q) cmp ask, order_laws cmp -> answers cmp ask -> forall (a b : avl_map K V) la lb n,
  shows bor cmp a la -> shows bor cmp b lb -> small la -> small lb ->
  exists most, fares ask n most (a_intersect_t bor ask a b n) (fun _ m => shows bor cmp m (s_inter bor cmp la lb)) (fun _ => True).
Proof. exact @a_intersect_ask. Qed.
Theorem C116_diff : forall K V Q (bor : K -> Q) cmp ask, order_laws cmp -> answers cmp ask -> forall (a b : avl_map K V) la lb n,
  shows bor cmp a la -> shows bor cmp b lb -> small la -> small lb ->
  exists most, fares ask n most (a_diff_t bor ask a b n) (fun _ m => shows bor cmp m (s_diff bor cmp la lb)) (fun _ => True).
Proof. exact @a_diff_ask. Qed.
Theorem C116_sym_diff : forall K V Q (bor : K -> Q) cmp ask, order_laws cmp -> answers cmp ask -> forall (a b : avl_map K V) la lb n,
  shows bor cmp a la -> shows bor cmp b lb -> small la -> small lb ->
  exists most, fares ask n most (a_sym_diff_t bor ask a b n)
    (fun _ m => exists l, shows bor cmp m l /\ forall q, s_find bor cmp q l = match s_find bor cmp q la, s_find bor cmp q lb with
                                                                         | Some e, None => Some e
                                                                         | None, Some e => Some e
                                                                         | _, _ => None
                                                                         end) (fun _ => True).
Proof. exact @a_sym_diff_ask. Qed.
Print Assumptions C116_append.
Print Assumptions C116_split_off.
Print Assumptions C116_len_refuted.
Print Assumptions C116_union.
Print Assumptions C116_intersect.
Print Assumptions C116_diff.
Print Assumptions C116_sym_diff.
(** [split_off] at a key that is there: the first comparison is that of [split], the later ones put the entry back. *)
Example C116_ex : (exists m', a_split_off_t zid (bomb 0) av9 4%Z 0 = Unwound m' 1 /\ emptied av9 m')
  /\ (exists m', a_split_off_t zid (bomb 1) av9 4%Z 0 = Unwound m' 2 /\ shows zid Z.compare m' (ents 3))
  /\ (exists m' hi, a_split_off_t zid (bomb 9) av9 4%Z 0 = Returned m' hi 3 /\ shows zid Z.compare m' (ents 3)).
Proof.
  split; [eexists; split; [vm_compute; reflexivity|split; reflexivity]|].
  split; [eexists; split; [vm_compute; reflexivity|split; vm_compute; reflexivity]|].
  do 2 eexists; split; [vm_compute; reflexivity|split; vm_compute; reflexivity].
Qed.

(** ** C117: [extend] of any of the maps stops between two of the pairs. [append], [retain] and [split_off] of the B-tree map
    take the map first, but leave a well-formed one: [append] what it inserted so far, the others the empty map. The closure
    of [retain] may panic as well. *)
Theorem C117_avl_extend : forall K V Q (bor : K -> Q) cmp ask, order_laws cmp -> answers cmp ask -> forall (m : avl_map K V) l ps n, shows bor cmp m l -> small l -> small ps ->
  match a_extend_t bor ask m ps n with
  | Returned m' _ _ => shows bor cmp m' (s_extend bor cmp l ps)
  | Unwound m' n' => panicked ask n' /\ exists ps1 p ps2, ps = ps1 ++ p :: ps2 /\ shows bor cmp m' (s_extend bor cmp l ps1)
  | Fault => False
  end.
Proof. exact @a_extend_ask. Qed.
Theorem C117_btree_extend : forall K V Q (bor : K -> Q) cmp ask, order_laws cmp -> answers cmp ask -> forall N, 1 <= N -> forall (m : bt_map K V) l ps n, b_shows bor cmp N m l ->
  match b_extend_t bor ask N m ps n with
  | Returned m' _ _ => b_shows bor cmp N m' (s_extend bor cmp l ps)
  | Unwound m' n' => panicked ask n' /\ exists ps1 p ps2, ps = ps1 ++ p :: ps2 /\ b_shows bor cmp N m' (s_extend bor cmp l ps1)
  | Fault => False
  end.
Proof. exact @b_extend_ask. Qed.
Theorem C117_fixed_extend : forall K V Q (bor : K -> Q) cmp ask, order_laws cmp -> answers cmp ask -> forall small_key (m : f_map K V) l ps n, f_shows bor cmp m l ->
  match f_extend_t bor ask small_key m ps n with
  | Returned m' _ _ => f_shows bor cmp m' (s_extend bor cmp l ps)
  | Unwound m' n' => panicked ask n' /\ exists ps1 p ps2, ps = ps1 ++ p :: ps2 /\ f_shows bor cmp m' (s_extend bor cmp l ps1)
  | Fault => False
  end.
Proof. exact @f_extend_ask. Qed.
Theorem C117_btree_append : forall K V Q (bor : K -> Q) cmp ask, order_laws cmp -> answers cmp ask -> forall N, 1 <= N -> forall un (a b : bt_map K V) la lb n, b_shows bor cmp N a la -> b_shows bor cmp N b lb ->
  match b_append_t bor ask N un a b n with
  | Returned (a', b') _ _ => b_shows bor cmp N a' (s_union bor cmp la lb) /\ b_shows bor cmp N b' []
  | Unwound (a', b') n' => panicked ask n' /\ b_shows bor cmp N b' [] /\ exists l1 e l2, lb = l1 ++ e :: l2 /\ b_shows bor cmp N a' (s_union bor cmp la l1)
  | Fault => False
  end.
Proof. exact @b_append_ask. Qed.
Theorem C117_btree_retain : forall K V Q (bor : K -> Q) cmp ask, order_laws cmp -> answers cmp ask -> forall N, 1 <= N -> forall S un (f : S -> K -> V -> S * V * option bool) (m : bt_map K V) l s n, b_shows bor cmp N m l ->
  match b_retain_t bor ask N un f m s n with
  | Returned m' s' _ => s' = snd (run_calls (quiet f) s l)
      /\ b_shows bor cmp N m' (map (fun o => (fst (fst (fst o)), snd (fst o))) (filter (fun o => snd o) (fst (run_calls (quiet f) s l))))
  | Unwound m' n' => b_shows bor cmp N m' [] /\ (panicked ask n' \/ exists s0 k v, In (k, v) l /\ snd (f s0 k v) = None)
  | Fault => False
  end.
Proof. exact @b_retain_ask. Qed.
Theorem C117_btree_split_off : forall K V Q (bor : K -> Q) cmp ask, order_laws cmp -> answers cmp ask -> forall N, 1 <= N -> forall un (m : bt_map K V) l q n, b_shows bor cmp N m l ->
  match b_split_off_t bor ask N un m q n with
  | Returned m' hi _ => b_shows bor cmp N m' (filter (lt_q bor cmp q) l) /\ b_shows bor cmp N hi (filter (fun e => negb (lt_q bor cmp q e)) l)
  | Unwound m' n' => panicked ask n' /\ b_shows bor cmp N m' []
  | Fault => False
  end.
Proof. exact @b_split_off_ask. Qed.
Print Assumptions C117_avl_extend.
Print Assumptions C117_btree_extend.
Print Assumptions C117_fixed_extend.
Print Assumptions C117_btree_append.
Print Assumptions C117_btree_retain.
Print Assumptions C117_btree_split_off.
Definition later : list (Z * Z) := [(41, 1); (42, 2); (43, 3)]%Z.
Definition bt3 := Eval vm_compute in match b_from_iter zid Z.compare 2 later with Ok m => m | Panic => b_new end.
(** The ten comparisons for the first pair pass, one of those for the second panics. *)
Example C117_ex :
  (exists m', a_extend_t zid (bomb 6) av9 later 0 = Unwound m' 7 /\ shows zid Z.compare m' (ents 9 ++ [(41, 1)]%Z))
  /\ (exists m', f_extend_t zid (bomb 12) true fx40 later 0 = Unwound m' 13 /\ fm_len m' = 41)
  /\ (exists a', b_append_t zid (bomb 12) 2 (fun _ => true) bt40 bt3 0 = Unwound (a', b_new) 13 /\ b_shows zid Z.compare 2 a' (ents 40 ++ [(41, 1)]%Z))
  /\ b_retain_t zid (bomb 99) 2 (fun _ => true) (fun s (k v : Z) => (S s, v, if s =? 3 then None else Some true)) bt40 0 0 = Unwound b_new 3
  /\ b_split_off_t zid (bomb 9) 2 (fun _ => true) bt40 4%Z 0 = Unwound b_new 10.
Proof.
  split; [eexists; split; [vm_compute; reflexivity|split; vm_compute; reflexivity]|].
  split; [eexists; split; vm_compute; reflexivity|].
  split; [eexists; split; [vm_compute; reflexivity|split; [|split]; vm_compute; reflexivity]|].
  split; vm_compute; reflexivity.
Qed.

(** ** C118: the entry API. [and_modify]: if the closure panics, what it did to the value stays. [or_insert_with]: if the
    closure panics nothing is changed; if a comparison panics, the map is as it was or has the new entry. *)
Theorem C118_avl_and_modify : forall K V Q (bor : K -> Q) cmp ask, order_laws cmp -> answers cmp ask -> forall (m : avl_map K V) l k (f : V -> V * bool) n, shows bor cmp m l -> small l ->
  match a_and_modify_t bor ask m k f n with
  | Returned m' _ _ => shows bor cmp m' (s_update bor cmp (bor k) (fun v => fst (f v)) l)
  | Unwound m' n' => panicked ask n' /\ m' = m
      \/ (exists v, s_get bor cmp (bor k) l = Some v /\ snd (f v) = false) /\ shows bor cmp m' (s_update bor cmp (bor k) (fun v => fst (f v)) l)
  | Fault => False
  end.
Proof. exact @a_and_modify_ask. Qed.
Theorem C118_btree_and_modify : forall K V Q (bor : K -> Q) cmp ask, order_laws cmp -> answers cmp ask -> forall N, 1 <= N -> forall (m : bt_map K V) l k (f : V -> V * bool) n, b_shows bor cmp N m l ->
  match b_and_modify_t bor ask m k f n with
  | Returned m' _ _ => b_shows bor cmp N m' (s_update bor cmp (bor k) (fun v => fst (f v)) l)
  | Unwound m' n' => panicked ask n' /\ m' = m
      \/ (exists v, s_get bor cmp (bor k) l = Some v /\ snd (f v) = false) /\ b_shows bor cmp N m' (s_update bor cmp (bor k) (fun v => fst (f v)) l)
  | Fault => False
  end.
Proof. exact @b_and_modify_ask. Qed.
Theorem C118_avl_or_insert : forall K V Q (bor : K -> Q) cmp ask, order_laws cmp -> answers cmp ask -> forall (m : avl_map K V) l k (f : option V) w n, shows bor cmp m l -> small l ->
  match a_or_insert_t bor ask m k f w n with
  | Returned m' x _ => match s_get bor cmp (bor k) l with
      | Some v => x = v /\ shows bor cmp m' (s_update bor cmp (bor k) w l)
      | None => f = Some x /\ shows bor cmp m' (s_insert bor cmp k (w x) l)
      end
  | Unwound m' n' => (m' = m /\ (panicked ask n' \/ f = None /\ s_get bor cmp (bor k) l = None))
      \/ (panicked ask n' /\ exists v, f = Some v /\ s_get bor cmp (bor k) l = None /\ shows bor cmp m' (s_insert bor cmp k v l))
  | Fault => False
  end.
Proof. exact @a_or_insert_ask. Qed.
Theorem C118_btree_or_insert : forall K V Q (bor : K -> Q) cmp ask, order_laws cmp -> answers cmp ask -> forall N, 1 <= N -> forall (m : bt_map K V) l k (f : option V) w n, b_shows bor cmp N m l ->
  match b_or_insert_t bor ask N m k f w n with
  | Returned m' x _ => match s_get bor cmp (bor k) l with
      | Some v => x = v /\ b_shows bor cmp N m' (s_update bor cmp (bor k) w l)
      | None => f = Some x /\ b_shows bor cmp N m' (s_insert bor cmp k (w x) l)
      end
  | Unwound m' n' => (m' = m /\ (panicked ask n' \/ f = None /\ s_get bor cmp (bor k) l = None))
      \/ (panicked ask n' /\ exists v, f = Some v /\ s_get bor cmp (bor k) l = None /\ b_shows bor cmp N m' (s_insert bor cmp k v l))
  | Fault => False
  end.
Proof. exact @b_or_insert_ask. Qed.
Print Assumptions C118_avl_and_modify.
Print Assumptions C118_btree_and_modify.
Print Assumptions C118_avl_or_insert.
Print Assumptions C118_btree_or_insert.
(** For the key 10: four comparisons to look for it, four to insert it, and up to four to find it again. *)
Example C118_ex : a_or_insert_t zid (bomb 99) av9 10%Z None (fun v => v) 0 = Unwound av9 4
  /\ a_or_insert_t zid (bomb 5) av9 10%Z (Some 7%Z) (fun v => v) 0 = Unwound av9 6
  /\ (exists m', a_or_insert_t zid (bomb 9) av9 10%Z (Some 7%Z) (fun v => v) 0 = Unwound m' 10 /\ shows zid Z.compare m' (ents 9 ++ [(10, 7)]%Z))
  /\ (exists m', a_and_modify_t zid (bomb 9) av9 8%Z (fun v => (v + 1, false)%Z) 0 = Unwound m' 3 /\ avl_get zid Z.compare m' 8%Z = Some 81%Z)
  /\ (exists m', b_or_insert_t zid (bomb 99) 2 bt40 8%Z None (fun v => v + 1)%Z 0 = Returned m' 80%Z 10 /\ b_get zid Z.compare m' 8%Z = Some 81%Z).
Proof.
  split; [vm_compute; reflexivity|]. split; [vm_compute; reflexivity|].
  split; [eexists; split; [vm_compute; reflexivity|split; vm_compute; reflexivity]|].
  split; [eexists; split; vm_compute; reflexivity|]. eexists; split; vm_compute; reflexivity.
Qed.
