(** Comparisons that may answer anything, and may panic (properties C119-C123).

    The user's [Ord] is any function [ask : nat -> Q -> Q -> option comparison]: what the comparison number [n] of two keys
    answers, or [None] if it panics. It need not be an order; two comparisons of the same keys may be answered differently.

    [copes ask n t ok un]: the call [t], made after [n] comparisons, does not fault (no panic of the library itself, nothing
    undefined); if it returns, after [n'] comparisons, [ok] holds of the map, the result and [n']; if it unwinds, its last
    comparison panicked, and [un] holds of what is left of the map ([copes_n]: and of [n']). [said bor ask n n' q e]: one of
    the comparisons from number [n] up to [n'] told that [q] and the key of [e] are equal. [a_any m l], [b_any N m l],
    [f_any m l]: the map is well-formed, and its entries are [l], in any order of the keys. *)
From Coq Require Import List PeanoNat ZArith Bool Lia Permutation.
From Verif Require Import Base Spec MapSpec SpecFacts AvlModel AvlIterModel AvlShows BTreeModel BTreeIterModel BTreeShows FixedModel FixedSpec FixedShows
  AnyOrdSpec AnyOrdShows AvlAnyProofs BTreeAnyProofs Ask AskSpec AskAnySpec AskRun AvlAskModel BTreeAskModel FixedAskModel AvlAskAnyProofs BTreeAskAnyProofs
  FixedAskAnyProofs AskRunProofs.
Import ListNotations.
Local Open Scope nat_scope.

(** ** Samples *)
Definition zid (k : Z) : Z := k.
(** Seven answers in turn, whatever the keys; comparison number [stop] panics. *)
Definition whim (stop n : nat) (_ _ : Z) : option comparison := if n =? stop then None else nth_error [Gt; Lt; Gt; Gt; Gt; Lt; Eq] (n mod 7).
Definition bomb (i n : nat) (a b : Z) : option comparison := if n =? i then None else Some (Z.compare a b).
Lemma bomb_answers i : answers Z.compare (bomb i).
Proof. unfold bomb. intros n a b c H. destruct (n =? i); congruence. Qed.
Definition ents (n : nat) : list (Z * Z) := map (fun i => (Z.of_nat i, 10 * Z.of_nat i)%Z) (seq 1 n).

(** ** C119: the AVL map. A call that unwinds leaves it as it was, except [append] and [split_off] (see C116). *)
Theorem C119_insert : forall K V Q (bor : K -> Q) ask (m : avl_map K V) l k v n, a_any m l -> small l ->
  copes ask n (a_insert_t bor ask m k v n) (fun m' r n' => exists l', a_any m' l' /\ may_insert bor (said bor ask n n') k v l l' r) (fun m' => m' = m).
Proof. exact @a_insert_copes. Qed.
Theorem C119_remove : forall K V Q (bor : K -> Q) ask (m : avl_map K V) l q n, a_any m l -> small l ->
  copes ask n (a_remove_t bor ask m q n) (fun m' r n' => exists l', a_any m' l' /\ may_remove_val (said bor ask n n') q l l' r) (fun m' => m' = m)
  /\ copes ask n (a_remove_entry_t bor ask m q n) (fun m' r n' => exists l', a_any m' l' /\ may_remove (said bor ask n n') q l l' r) (fun m' => m' = m).
Proof. intros. split; [now apply a_remove_copes|now apply a_remove_entry_copes]. Qed.
Theorem C119_lookup : forall K V Q (bor : K -> Q) ask (m : avl_map K V) l q w n, a_any m l ->
  copes ask n (a_get_t bor ask m q n) (fun _ r n' => may_get (said bor ask n n') q l r) (fun _ => True)
  /\ copes ask n (a_contains_t bor ask m q n) (fun _ r n' => r = true -> exists e, In e l /\ said bor ask n n' q e) (fun _ => True)
  /\ copes ask n (a_get_mut_t bor ask m q w n) (fun m' r n' => exists l', a_any m' l' /\ may_get_mut (said bor ask n n') q w l l' r) (fun m' => m' = m).
Proof. intros. split; [|split]; [now apply a_get_copes|now apply a_contains_copes|now apply a_get_mut_copes]. Qed.
Theorem C119_extend : forall K V Q (bor : K -> Q) ask ps (m : avl_map K V) l n, a_any m l -> (Z.of_nat (length l + length ps) < 2 ^ 63)%Z ->
  copes_n ask n (a_extend_t bor ask m ps n) (fun m' _ n' => exists l', a_any m' l' /\ may_extend bor (said bor ask n n') ps l l')
    (fun m' n' => exists ps1 p ps2 l', ps = ps1 ++ p :: ps2 /\ a_any m' l' /\ may_extend bor (said bor ask n n') ps1 l l').
Proof. exact @avl_extend_any. Qed.
Theorem C119_append : forall K V Q (bor : K -> Q) ask (a b : avl_map K V) la lb n, a_any a la -> a_any b lb -> small la -> small lb ->
  copes ask n (a_append_t bor ask a b n)
    (fun '(a', b') _ n' => a_any b' [] /\ exists only_a only_b both l, may_pair bor (said bor ask n n') la lb only_a only_b both
      /\ a_any a' l /\ Permutation l (only_a ++ lb))
    (fun '(a', b') => emptied a a' /\ emptied b b').
Proof. exact @a_append_copes. Qed.
Theorem C119_sets : forall K V Q (bor : K -> Q) ask (a b : avl_map K V) la lb n, a_any a la -> a_any b lb -> small la -> small lb ->
  let good t (f : list (K * V) -> list (K * V) -> list ((K * V) * (K * V)) -> list (K * V)) :=
    copes ask n t (fun _ m n' => exists only_a only_b both l, may_pair bor (said bor ask n n') la lb only_a only_b both
      /\ a_any m l /\ Permutation l (f only_a only_b both)) (fun _ : unit => True) in
  good (a_union_t bor ask a b n) (fun only_a _ _ => only_a ++ lb)
  /\ good (a_intersect_t bor ask a b n) (fun _ _ both => map fst both)
  /\ good (a_diff_t bor ask a b n) (fun only_a _ _ => only_a)
  /\ good (a_sym_diff_t bor ask a b n) (fun only_a only_b _ => only_a ++ only_b).
Proof. exact @a_sets_copes. Qed.
Theorem C119_split_off : forall K V Q (bor : K -> Q) ask (m : avl_map K V) l q n, a_any m l -> small l ->
  copes ask n (a_split_off_t bor ask m q n)
    (fun m1 m2 n' => exists l1 mid l2, l = l1 ++ match mid with Some e => [e] | None => [] end ++ l2 /\ a_any m1 l1
      /\ match mid with
         | None => a_any m2 l2
         | Some e => said bor ask n n' q e /\ exists l2' r, may_insert bor (said bor ask n n') (fst e) (snd e) l2 l2' r
                     /\ (exists h, t_holds h (am_root m2) l2') /\ am_len m2 = S (length l2)
         end)
    (fun m' => emptied m m' \/ exists l1 e l2, l = l1 ++ e :: l2 /\ a_any m' l1).
Proof. exact @a_split_off_copes. Qed.
Print Assumptions C119_insert.
Print Assumptions C119_remove.
Print Assumptions C119_lookup.
Print Assumptions C119_extend.
Print Assumptions C119_append.
Print Assumptions C119_sets.
Print Assumptions C119_split_off.
Definition wa := Eval vm_compute in match a_extend_t zid (whim 1000) avl_new (ents 12) 0 with Returned m _ _ => m | _ => avl_new end.
Definition wa_l := Eval vm_compute in match avl_collect wa with Ok l => l | Panic => [] end.
Lemma wa_any : a_any wa wa_l.
Proof.
  pose proof (C119_extend _ _ _ zid (whim 1000) (ents 12) avl_new [] 0 ltac:(apply aany_iff; cbn; auto) eq_refl) as T.
  assert (E : a_extend_t zid (whim 1000) avl_new (ents 12) 0 = Returned wa tt 25) by (vm_compute; reflexivity). rewrite E in T.
  destruct T as (_ & l' & H & _). pose proof H as H0. apply aany_iff in H0 as (_ & <- & _). exact H.
Qed.
(** Twelve pairs were inserted; three replaced an entry with another key, because of an [Equal]. Nothing is in order, but
    calls go on working, and unwind without harm. *)
Example C119_ex : a_any wa [(3, 30); (6, 60); (9, 90); (7, 70); (10, 100); (12, 120); (2, 20); (11, 110); (4, 40)]%Z /\ small wa_l
  /\ (exists m, a_remove_t zid (whim 1000) wa 5%Z 4 = Returned m (Some 100%Z) 7) /\ said zid (whim 1000) 4 7 5%Z (10, 100)%Z
  /\ a_insert_t zid (whim 5) wa 5%Z 50%Z 4 = Unwound wa 6
  /\ (exists m, a_insert_t zid (whim 5) wa 5%Z 50%Z 0 = Returned m None 4 /\ am_len m = 10)
  /\ a_get_t zid (whim 1000) wa 100%Z 6 = Returned tt (Some 90%Z) 7
  /\ (exists m' n', a_split_off_t zid (whim 5) wa 7%Z 4 = Unwound m' n' /\ am_len m' = 9)
  /\ (exists m n', a_union_t zid (whim 1000) wa wa 0 = Returned tt m n' /\ am_len m = 16).
Proof.
  split; [exact wa_any|]. split; [reflexivity|]. split; [eexists; vm_compute; reflexivity|]. split; [exists 6; cbn; auto with arith|].
  split; [vm_compute; reflexivity|]. split; [eexists; split; vm_compute; reflexivity|]. split; [vm_compute; reflexivity|].
  split; [do 2 eexists; split; vm_compute; reflexivity|]. do 2 eexists. split; vm_compute; reflexivity.
Qed.

Example C119_append_ex :
  (exists m, a_append_t zid (whim 1000) wa wa 0 = Returned (m, avl_new) tt 15 /\ am_len m = 16)
  /\ (exists a b, a_append_t zid (whim 7) wa wa 0 = Unwound (a, b) 8 /\ emptied wa a /\ avl_len b = 9).
Proof. split; [eexists; split; vm_compute; reflexivity|]. do 2 eexists. split; [vm_compute; reflexivity|]. repeat split. Qed.

(** ** C120: the B-tree map, with any minimal occupancy [N] from 1. [append], [retain] and [split_off] insert the entries one
    by one into a map; if they unwind they leave a well-formed map. *)
Theorem C120_insert : forall K V Q (bor : K -> Q) ask N, 1 <= N -> forall (m : bt_map K V) l k v n, b_any N m l ->
  copes ask n (b_insert_t bor ask N m k v n) (fun m' r n' => exists l', b_any N m' l' /\ may_insert bor (said bor ask n n') k v l l' r) (fun m' => m' = m).
Proof. exact @b_insert_copes. Qed.
Theorem C120_remove : forall K V Q (bor : K -> Q) ask N, 1 <= N -> forall (m : bt_map K V) l q n, b_any N m l ->
  copes ask n (b_remove_t bor ask N m q n) (fun m' r n' => exists l', b_any N m' l' /\ may_remove_val (said bor ask n n') q l l' r) (fun m' => m' = m).
Proof. exact @b_remove_copes. Qed.
Theorem C120_lookup : forall K V Q (bor : K -> Q) ask N, 1 <= N -> forall (m : bt_map K V) l q w n, b_any N m l ->
  copes ask n (b_get_t bor ask m q n) (fun _ r n' => may_get (said bor ask n n') q l r) (fun _ => True)
  /\ copes ask n (b_contains_t bor ask m q n) (fun _ r n' => r = true -> exists e, In e l /\ said bor ask n n' q e) (fun _ => True)
  /\ copes ask n (b_get_mut_t bor ask m q w n) (fun m' r n' => exists l', b_any N m' l' /\ may_get_mut (said bor ask n n') q w l l' r) (fun m' => m' = m).
Proof. intros. split; [|split]; [now apply (b_get_copes bor ask N)|now apply (b_contains_copes bor ask N)|now apply (b_get_mut_copes bor ask N)]. Qed.
Theorem C120_extend : forall K V Q (bor : K -> Q) ask N, 1 <= N -> forall ps (m : bt_map K V) l n, b_any N m l ->
  copes_n ask n (b_extend_t bor ask N m ps n) (fun m' _ n' => exists l', b_any N m' l' /\ may_extend bor (said bor ask n n') ps l l')
    (fun m' n' => exists ps1 p ps2 l', ps = ps1 ++ p :: ps2 /\ b_any N m' l' /\ may_extend bor (said bor ask n n') ps1 l l').
Proof. exact @btree_extend_any. Qed.
Theorem C120_append : forall K V Q (bor : K -> Q) ask N, 1 <= N -> forall un (a b : bt_map K V) la lb n, b_any N a la -> b_any N b lb ->
  copes_n ask n (b_append_t bor ask N un a b n)
    (fun '(a', b') _ n' => b' = b_new /\ exists l', b_any N a' l' /\ may_extend bor (said bor ask n n') lb la l')
    (fun '(a', b') n' => b' = b_new /\ exists ps1 p ps2 l', lb = ps1 ++ p :: ps2 /\ b_any N a' l' /\ may_extend bor (said bor ask n n') ps1 la l').
Proof. exact @btree_append_any. Qed.
Theorem C120_retain : forall K V Q (bor : K -> Q) ask N, 1 <= N -> forall S un (f : S -> K -> V -> S * V * option bool) (m : bt_map K V) l s n, b_any N m l ->
  match b_retain_t bor ask N un f m s n with
  | Returned m' s' n' => n <= n' /\ exists outs l', run_calls (quiet f) s l = (outs, s') /\ b_any N m' l' /\ may_extend bor (said bor ask n n') (kept outs) [] l'
  | Unwound m' n' => m' = b_new /\ (panicked ask n' \/ exists s0 k v, In (k, v) l /\ snd (f s0 k v) = None)
  | Fault => False
  end.
Proof. exact @b_retain_copes. Qed.
Theorem C120_split_off : forall K V Q (bor : K -> Q) ask N, 1 <= N -> forall un (m : bt_map K V) l q n, b_any N m l ->
  copes ask n (b_split_off_t bor ask N un m q n)
    (fun m1 m2 n' => exists p1 p2 l1 l2, may_part bor ask n n' q l p1 p2
      /\ b_any N m1 l1 /\ may_extend bor (said bor ask n n') p1 [] l1 /\ b_any N m2 l2 /\ may_extend bor (said bor ask n n') p2 [] l2)
    (fun m' => m' = b_new).
Proof. exact @b_split_off_copes. Qed.
Print Assumptions C120_insert.
Print Assumptions C120_remove.
Print Assumptions C120_lookup.
Print Assumptions C120_extend.
Print Assumptions C120_append.
Print Assumptions C120_retain.
Print Assumptions C120_split_off.
Definition wb := Eval vm_compute in match b_extend_t zid (whim 1000) 1 b_new (ents 12) 0 with Returned m _ _ => m | _ => b_new end.
Definition wb_l := Eval vm_compute in match b_into_list (fun _ => true) wb with Ok l => l | Panic => [] end.
Lemma wb_any : b_any 1 wb wb_l.
Proof.
  pose proof (C120_extend _ _ _ zid (whim 1000) 1 (le_n 1) (ents 12) b_new [] 0 (b_new_any 1)) as T.
  assert (E : b_extend_t zid (whim 1000) 1 b_new (ents 12) 0 = Returned wb tt 25) by (vm_compute; reflexivity). rewrite E in T.
  destruct T as (_ & l' & H & _). pose proof (b_list_any 1 (le_n 1) (fun _ => true) wb l' H) as X. vm_compute in X. injection X as <-. exact H.
Qed.
(** [remove] looks twice: here its first look finds something, and the second one does not. *)
Example C120_ex : b_any 1 wb [(5, 50); (11, 110); (6, 60); (9, 90); (12, 120); (2, 20); (10, 100); (7, 70); (4, 40)]%Z
  /\ (exists m, b_remove_t zid (whim 1000) 1 wb 5%Z 5 = Returned m None 12 /\ bm_len m = 9)
  /\ b_contains_t zid (whim 1000) wb 5%Z 6 = Returned tt true 7
  /\ b_insert_t zid (whim 5) 1 wb 5%Z 50%Z 4 = Unwound wb 6
  /\ b_split_off_t zid (whim 13) 1 (fun _ => true) wb 5%Z 0 = Unwound b_new 14
  /\ (exists m1 m2 n', b_split_off_t zid (whim 1000) 1 (fun _ => true) wb 5%Z 0 = Returned m1 m2 n' /\ bm_len m1 = 5 /\ bm_len m2 = 4).
Proof.
  split; [exact wb_any|]. split; [eexists; split; vm_compute; reflexivity|]. split; [vm_compute; reflexivity|]. split; [vm_compute; reflexivity|].
  split; [vm_compute; reflexivity|]. do 3 eexists. repeat split; vm_compute; reflexivity.
Qed.

(** [retain] keeps every second entry; its closure panics in its fourth call. [append] unwinds after the second entry. *)
Example C120_bulk_ex :
  (exists m, b_retain_t zid (whim 1000) 1 (fun _ => true) (fun s k v => (S s, (v + 1)%Z, Some (Nat.odd s))) wb 0 0 = Returned m 9 5
     /\ b_into_list (fun _ => true) m = Ok [(2, 21); (11, 111); (9, 91); (7, 71)]%Z)
  /\ b_retain_t zid (whim 1000) 1 (fun _ => true) (fun s k v => (S s, (v + 1)%Z, if s =? 3 then None else Some (Nat.odd s))) wb 0 0 = Unwound b_new 0
  /\ (exists m, b_append_t zid (whim 9) 1 (fun _ => true) wb wb 0 = Unwound (m, b_new) 10 /\ bm_len m = 10)
  /\ (exists m, b_append_t zid (whim 1000) 1 (fun _ => true) wb wb 0 = Returned (m, b_new) tt 32 /\ bm_len m = 14).
Proof.
  split; [eexists; split; vm_compute; reflexivity|]. split; [vm_compute; reflexivity|]. split; eexists; (split; vm_compute; reflexivity).
Qed.

(** ** C121: the array-based B-tree map, whose searches by halves compare the other way round *)
Theorem C121_insert : forall K V Q (bor : K -> Q) ask small_key (m : f_map K V) l k v n, f_any m l ->
  copes ask n (f_insert_t bor ask small_key m k v n) (fun m' r n' => exists l', f_any m' l' /\ may_insert bor (said bor ask n n') k v l l' r) (fun m' => m' = m).
Proof. exact @f_insert_copes. Qed.
Theorem C121_remove : forall K V Q (bor : K -> Q) ask small_key (m : f_map K V) l q n, f_any m l ->
  copes ask n (f_remove_t bor ask small_key m q n) (fun m' r n' => exists l', f_any m' l' /\ may_remove_val (said bor ask n n') q l l' r) (fun m' => m' = m).
Proof. exact @f_remove_copes. Qed.
Theorem C121_lookup : forall K V Q (bor : K -> Q) ask small_key (m : f_map K V) l q w n, f_any m l ->
  copes ask n (f_get_t bor ask small_key m q n) (fun _ r n' => may_get (said bor ask n n') q l r) (fun _ => True)
  /\ copes ask n (f_get_mut_t bor ask small_key m q w n) (fun m' r n' => exists l', f_any m' l' /\ may_get_mut (said bor ask n n') q w l l' r) (fun m' => m' = m).
Proof. intros. split; [now apply f_get_copes|now apply f_get_mut_copes]. Qed.
Theorem C121_extend : forall K V Q (bor : K -> Q) ask small_key ps (m : f_map K V) l n, f_any m l ->
  copes_n ask n (f_extend_t bor ask small_key m ps n) (fun m' _ n' => exists l', f_any m' l' /\ may_extend bor (said bor ask n n') ps l l')
    (fun m' n' => exists ps1 p ps2 l', ps = ps1 ++ p :: ps2 /\ f_any m' l' /\ may_extend bor (said bor ask n n') ps1 l l').
Proof. exact @fixed_extend_any. Qed.
Print Assumptions C121_insert.
Print Assumptions C121_remove.
Print Assumptions C121_lookup.
Print Assumptions C121_extend.
(** Sixteen of forty pairs replaced another. *)
Definition wf := Eval vm_compute in match f_extend_t zid (whim 1000) false f_new (ents 40) 0 with Returned m _ _ => m | _ => f_new end.
Example C121_ex : (exists l, f_any wf l /\ length l = fm_len wf)
  /\ fm_len wf = 24
  /\ (exists m, f_remove_t zid (whim 1000) false wf 5%Z 2 = Returned m (Some 140%Z) 7 /\ fm_len m = 23)
  /\ f_get_t zid (whim 1000) false wf 5%Z 3 = Returned tt (Some 260%Z) 7
  /\ f_insert_t zid (whim 5) false wf 5%Z 50%Z 4 = Unwound wf 6.
Proof.
  split.
  { pose proof (C121_extend _ _ _ zid (whim 1000) false (ents 40) f_new [] 0 (conj eq_refl eq_refl)) as T.
    destruct (f_extend_t zid (whim 1000) false f_new (ents 40) 0) as [m [] n|m n|] eqn:E; [| |destruct T].
    - assert (m = wf) as -> by (vm_compute in E; injection E as <- _; reflexivity). destruct T as (_ & l' & H & _). exists l'. split; auto. destruct H as (L & _). now rewrite L.
    - vm_compute in E. discriminate. }
  split; [reflexivity|]. split; [eexists; split; vm_compute; reflexivity|]. split; vm_compute; reflexivity.
Qed.

(** ** C122: programs that catch the panics and go on using the map. Any sequence of calls [cs] goes through; its outcomes are
    those the calls may have, one after the other, and the map stays well-formed. *)
Theorem C122_avl : forall K V Q (bor : K -> Q) ask cs (m : avl_map K V) l n, a_any m l -> (Z.of_nat (length l + all_adds cs) < 2 ^ 63)%Z ->
  exists m' os n' l', run (avl_calls bor ask) m cs n = Some (m', os, n') /\ a_any m' l' /\ allowed ask (may bor ask) n cs os l l' n'.
Proof. exact @avl_run_any. Qed.
Theorem C122_btree : forall K V Q (bor : K -> Q) ask N, 1 <= N -> forall cs (m : bt_map K V) l n, b_any N m l ->
  exists m' os n' l', run (btree_calls bor ask N) m cs n = Some (m', os, n') /\ b_any N m' l' /\ allowed ask (may bor ask) n cs os l l' n'.
Proof. exact @btree_run_any. Qed.
Theorem C122_fixed : forall K V Q (bor : K -> Q) ask small_key cs (m : f_map K V) l n, f_any m l ->
  exists m' os n' l', run (fixed_calls bor ask small_key) m cs n = Some (m', os, n') /\ f_any m' l' /\ allowed ask (may bor ask) n cs os l l' n'.
Proof. exact @fixed_run_any. Qed.
Print Assumptions C122_avl.
Print Assumptions C122_btree.
Print Assumptions C122_fixed.
Definition prog := [CInsert 1 10; CInsert 2 20; CInsert 3 30; CExtend [(4, 40); (5, 50); (6, 60); (7, 70)]; CRemove 9; CGetMut 3 (Z.add 1);
  CGet 7; CInsert 1 11; CRemove 2]%Z.
(** Comparison number 9 panics: the [extend] of the first two maps is caught, and the [remove] after it of the third. *)
Example C122_ex :
  (exists m, run (avl_calls zid (whim 9)) avl_new prog 0
     = Some (m, [Gave None; Gave None; Gave None; Caught; Gave None; Gave (Some 60%Z); Gave None; Gave None; Gave (Some 20%Z)], 21)
     /\ avl_collect m = Ok [(3, 30); (6, 61); (5, 50); (1, 11); (4, 40)]%Z)
  /\ (exists m, run (btree_calls zid (whim 9) 1) b_new prog 0
     = Some (m, [Gave None; Gave None; Gave None; Caught; Gave None; Gave (Some 10%Z); Gave None; Gave None; Gave None], 24)
     /\ b_into_list (fun _ => true) m = Ok [(5, 50); (1, 11); (6, 60); (2, 20); (1, 11); (4, 40)]%Z)
  /\ (exists m, run (fixed_calls zid (whim 9) true) f_new prog 0
     = Some (m, [Gave None; Gave None; Gave None; Gave None; Caught; Gave None; Gave (Some 60%Z); Gave None; Gave None], 20) /\ fm_len m = 7).
Proof. split; [|split]; eexists; (split; vm_compute; reflexivity). Qed.

(** ** C123: the same with the answers of an order: the calls that return do what they should, and those that unwind leave
    the map as it was ([extend]: extended by some of the pairs). *)
Theorem C123_avl : forall K V Q (bor : K -> Q) cmp ask, order_laws cmp -> answers cmp ask -> forall cs (m : avl_map K V) l n, shows bor cmp m l -> (Z.of_nat (length l + all_adds cs) < 2 ^ 63)%Z ->
  exists m' os n' l', run (avl_calls bor ask) m cs n = Some (m', os, n') /\ shows bor cmp m' l' /\ allowed ask (should bor cmp) n cs os l l' n'.
Proof. intros * laws A cs m l n. exact (avl_run_law bor ask cmp laws A cs m l n). Qed.
Theorem C123_btree : forall K V Q (bor : K -> Q) cmp ask, order_laws cmp -> answers cmp ask -> forall N, 1 <= N -> forall cs (m : bt_map K V) l n, b_shows bor cmp N m l ->
  exists m' os n' l', run (btree_calls bor ask N) m cs n = Some (m', os, n') /\ b_shows bor cmp N m' l' /\ allowed ask (should bor cmp) n cs os l l' n'.
Proof. intros * laws A N HN cs m l n. exact (btree_run_law bor ask cmp laws A N HN cs m l n). Qed.
Theorem C123_fixed : forall K V Q (bor : K -> Q) cmp ask, order_laws cmp -> answers cmp ask -> forall small_key cs (m : f_map K V) l n, f_shows bor cmp m l ->
  exists m' os n' l', run (fixed_calls bor ask small_key) m cs n = Some (m', os, n') /\ f_shows bor cmp m' l' /\ allowed ask (should bor cmp) n cs os l l' n'.
Proof. intros * laws A sk cs m l n. exact (fixed_run_law bor ask cmp laws A sk cs m l n). Qed.
Print Assumptions C123_avl.
Print Assumptions C123_btree.
Print Assumptions C123_fixed.
(** The [extend] unwinds at its third pair; what follows finds a map in order. *)
Example C123_ex : answers Z.compare (bomb 9)
  /\ (exists m, run (avl_calls zid (bomb 9)) avl_new prog 0
     = Some (m, [Gave None; Gave None; Gave None; Caught; Gave None; Gave (Some 30%Z); Gave None; Gave (Some 10%Z); Gave (Some 20%Z)], 22)
     /\ avl_collect m = Ok [(1, 11); (3, 31); (4, 40); (5, 50)]%Z)
  /\ (exists m, run (btree_calls zid (bomb 9) 1) b_new prog 0
     = Some (m, [Gave None; Gave None; Gave None; Caught; Gave None; Gave (Some 30%Z); Gave None; Gave (Some 10%Z); Gave (Some 20%Z)], 24)
     /\ b_into_list (fun _ => true) m = Ok [(1, 11); (3, 31); (4, 40); (5, 50)]%Z)
  /\ (exists m, run (fixed_calls zid (bomb 9) true) f_new prog 0
     = Some (m, [Gave None; Gave None; Gave None; Caught; Gave None; Gave (Some 30%Z); Gave None; Gave (Some 10%Z); Gave (Some 20%Z)], 24) /\ fm_len m = 3).
Proof. split; [apply bomb_answers|]. split; [|split]; eexists; (split; vm_compute; reflexivity). Qed.

