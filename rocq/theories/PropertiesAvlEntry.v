(** AVL maps that share nodes, with comparisons that may panic: the entry API and [split_off] with comparisons that may answer
    anything (properties C136-C137), and all calls with the comparisons of an order (property C138).

    As in PropertiesAskHeap.v: [ask n] is comparison number [n], [None] if it panics; clone number [i] of an entry panics if
    [bomb i]; [hany h m l]: [m] is a balanced tree in the heap [h] with the entries [l]; [O] are the nodes that other maps
    own. The entry API returns [None] if it unwinds. *)
From Coq Require Import List ZArith Bool Permutation Lia.
From Verif Require Import Base Spec MapSpec AvlModel AvlIterModel Ask AskSpec AskAnySpec EntryAskSpec Heap HeapProofs AvlHeapModel AvlHeapAskModel AvlEntryAskModel
  AvlHeapHistModel AvlHeapHistSpec AvlHeapSpec AvlHeapAskHistModel AnyOrdSpec AnyHeapSpec AskHeapSpec AvlAnyProofs AvlHeapAskProofs5 AvlEntryAskProofs.
Import ListNotations.
Open Scope Z_scope.

(** ** C136: [entry(k).and_modify(f)] and [entry(k).or_insert(v)] *)
(** The closure [f] writes [fst (f v)]; it panics after that if [snd (f v)] is false. *)
Theorem C136_avl_and_modify : forall K V Q (bor : K -> Q) ask bomb (h : heap (pay K V)) m l k f n O,
  sound h (olist (hm_root m) ++ O) -> hany h m l -> small l ->
  exists h' m' n' o l', hm_and_modify_t bor ask bomb h m k f n = Ok (h', m', n', o) /\ (n <= n')%nat
    /\ sound h' (olist (hm_root m') ++ O) /\ frame O h h' /\ hany h' m' l'
    /\ match o with
       | Some _ => may_modify bor (said bor ask n n') k f l l' true
       | None => (l' = l /\ ((exists i, bomb i = true) \/ panicked ask n')) \/ may_modify bor (said bor ask n n') k f l l' false
       end.
Proof. exact @and_modify_lazy. Qed.
Print Assumptions C136_avl_and_modify.
(** [f] is the value, or [None] if the closure or the clone of the key panics. A call that unwinds has done nothing or has
    inserted the value. It does not unwind without a reason: if nothing panics, the answers contradict each other or the
    order of the map. *)
Theorem C136_avl_or_insert : forall K V Q (bor : K -> Q) ask bomb (h : heap (pay K V)) m l k f w n O,
  sound h (olist (hm_root m) ++ O) -> hany h m l -> Z.of_nat (length l) + 1 < 2 ^ 63 ->
  exists h' m' n' o l', hm_or_insert_t bor ask bomb h m k f w n = Ok (h', m', n', o) /\ (n <= n')%nat
    /\ sound h' (olist (hm_root m') ++ O) /\ frame O h h' /\ hany h' m' l'
    /\ match o with
       | Some x => may_or_insert bor (said bor ask n n') k f w l l' x
       | None => (l' = l \/ exists v r, f = Some v /\ may_insert bor (said bor ask n n') k v l l' r)
           /\ ((exists i, bomb i = true) \/ panicked ask n' \/ (f = None /\ l' = l) \/ contrary bor ask l)
       end.
Proof. exact @or_insert_lazy. Qed.
Print Assumptions C136_avl_or_insert.

(** ** C137: [split_off] *)
(** The entries are cut in two. The entry told to be equal, if any, is inserted into the upper part: it replaces one there if
    the answers say so, and then [len] of the upper part is one too many. If the call unwinds, [self] has no nodes and its
    old [len], or it is the lower part. *)
Theorem C137_split_off : forall K V Q (bor : K -> Q) ask bomb (h : heap (pay K V)) m l q n O,
  sound h (olist (hm_root m) ++ O) -> hany h m l -> small l ->
  exists h' m' n' o, hm_split_off_t bor ask bomb h m q n = Ok (h', m', n', o) /\ (n <= n')%nat /\ frame O h h'
    /\ match o with
       | Done m2 => sound h' (olist (hm_root m') ++ olist (hm_root m2) ++ O)
           /\ exists l1 mid l2, l = l1 ++ match mid with Some e => [e] | None => [] end ++ l2 /\ hany h' m' l1
              /\ match mid with
                 | None => hany h' m2 l2
                 | Some e => said bor ask n n' q e /\ exists l2' r t d, may_insert bor (said bor ask n n') (fst e) (snd e) l2 l2' r
                     /\ hm_read h' m2 = Ok (AvlMap (1 + length l2) t) /\ t_holds d t l2'
                 end
       | Unwound => sound h' (olist (hm_root m') ++ O)
           /\ (m' = HMap (length l) None \/ exists l1 e l2, l = l1 ++ e :: l2 /\ said bor ask n n' q e /\ hany h' m' l1)
           /\ ((exists i, bomb i = true) \/ panicked ask n')
       end.
Proof. exact @split_off_t_lazy. Qed.
Print Assumptions C137_split_off.

(** ** C138: an order whose comparisons may panic *)
(** [answers cmp ask]: a comparison that does not panic answers as the order [cmp]. A call that returns has done what it
    should; one that unwinds has left the map as it was (exceptions below), and there was a panic. *)
Theorem C138_avl_insert : forall K V Q (bor : K -> Q) ask bomb cmp, order_laws cmp -> answers cmp ask ->
  forall (h : heap (pay K V)) m l k v n O, sound h (olist (hm_root m) ++ O) -> hany h m l -> ascending bor cmp l -> small l ->
  exists h' m' n' o, hm_insert_t bor ask bomb h m k v n = Ok (h', m', n', o) /\ sound h' (olist (hm_root m') ++ O) /\ frame O h h'
    /\ match o with
       | Done r => r = s_get bor cmp (bor k) l /\ hany h' m' (s_insert bor cmp k v l)
       | Unwound => hany h' m' l /\ ((exists i, bomb i = true) \/ panicked ask n')
       end.
Proof. exact @insert_t_order. Qed.
Theorem C138_avl_get_mut : forall K V Q (bor : K -> Q) ask bomb cmp, order_laws cmp -> answers cmp ask ->
  forall (h : heap (pay K V)) m l q w n O, sound h (olist (hm_root m) ++ O) -> hany h m l -> ascending bor cmp l -> small l ->
  exists h' m' n' o, hm_get_mut_t bor ask bomb h m q w n = Ok (h', m', n', o) /\ sound h' (olist (hm_root m') ++ O) /\ frame O h h'
    /\ match o with
       | Done r => r = s_get bor cmp q l /\ hany h' m' (s_update bor cmp q w l)
       | Unwound => hany h' m' l /\ ((exists i, bomb i = true) \/ panicked ask n')
       end.
Proof. exact @get_mut_t_order. Qed.
Theorem C138_avl_get : forall K V Q (bor : K -> Q) ask cmp, order_laws cmp -> answers cmp ask ->
  forall (h : heap (pay K V)) m l q n, hany h m l -> ascending bor cmp l -> small l ->
  exists n' o, hm_get_key_value_t bor ask h m q n = Ok (n', o) /\ match o with Done r => r = s_find bor cmp q l | Unwound => panicked ask n' end.
Proof. exact @get_t_order. Qed.
(** A removal that unwinds in a clone may lose entries. *)
Theorem C138_avl_remove : forall K V Q (bor : K -> Q) ask bomb cmp, order_laws cmp -> answers cmp ask ->
  forall (h : heap (pay K V)) m l q n O, sound h (olist (hm_root m) ++ O) -> hany h m l -> ascending bor cmp l -> small l ->
  exists h' m' n' o, hm_remove_entry_t bor ask bomb h m q n = Ok (h', m', n', o) /\ sound h' (olist (hm_root m') ++ O) /\ frame O h h'
    /\ match o with
       | Done r => r = s_find bor cmp q l /\ hany h' m' (s_remove bor cmp q l)
       | Unwound => (hany h' m' l /\ panicked ask n')
           \/ ((exists i, bomb i = true) /\ hm_len m' = length l /\ exists t, den h' (hm_root m') (tv t) /\ sub (elems t) l)
       end.
Proof. exact @remove_t_order. Qed.
Theorem C138_avl_and_modify : forall K V Q (bor : K -> Q) ask bomb cmp, order_laws cmp -> answers cmp ask ->
  forall (h : heap (pay K V)) m l k f n O, sound h (olist (hm_root m) ++ O) -> hany h m l -> ascending bor cmp l -> small l ->
  exists h' m' n' o, hm_and_modify_t bor ask bomb h m k f n = Ok (h', m', n', o) /\ sound h' (olist (hm_root m') ++ O) /\ frame O h h'
    /\ match o with
       | Some _ => hany h' m' (s_update bor cmp (bor k) (fun v => fst (f v)) l)
       | None => (hany h' m' l /\ ((exists i, bomb i = true) \/ panicked ask n'))
           \/ exists v, s_get bor cmp (bor k) l = Some v /\ snd (f v) = false /\ hany h' m' (s_update bor cmp (bor k) (fun v => fst (f v)) l)
       end.
Proof. exact @and_modify_order. Qed.
(** An [or_insert] that unwinds may have inserted the value: the reference is looked up after that. *)
Theorem C138_avl_or_insert : forall K V Q (bor : K -> Q) ask bomb cmp, order_laws cmp -> answers cmp ask ->
  forall (h : heap (pay K V)) m l k f w n O, sound h (olist (hm_root m) ++ O) -> hany h m l -> ascending bor cmp l -> Z.of_nat (length l) + 1 < 2 ^ 63 ->
  exists h' m' n' o, hm_or_insert_t bor ask bomb h m k f w n = Ok (h', m', n', o) /\ sound h' (olist (hm_root m') ++ O) /\ frame O h h'
    /\ match o with
       | Some x => match s_get bor cmp (bor k) l with
           | Some v => x = v /\ hany h' m' (s_update bor cmp (bor k) w l)
           | None => f = Some x /\ hany h' m' (s_insert bor cmp k (w x) l)
           end
       | None => (hany h' m' l \/ exists v, f = Some v /\ s_get bor cmp (bor k) l = None /\ hany h' m' (s_insert bor cmp k v l))
           /\ ((exists i, bomb i = true) \/ panicked ask n' \/ (f = None /\ s_get bor cmp (bor k) l = None))
       end.
Proof. exact @or_insert_order. Qed.
(** An [extend] that unwinds has inserted some of the pairs. *)
Theorem C138_avl_extend : forall K V Q (bor : K -> Q) ask bomb cmp, order_laws cmp -> answers cmp ask ->
  forall ps (h : heap (pay K V)) m l n O, sound h (olist (hm_root m) ++ O) -> hany h m l -> ascending bor cmp l -> Z.of_nat (length l + length ps) < 2 ^ 63 ->
  exists h' m' n' o, hm_extend_t bor ask bomb h m ps n = Ok (h', m', n', o) /\ sound h' (olist (hm_root m') ++ O) /\ frame O h h'
    /\ match o with
       | Done _ => hany h' m' (s_extend bor cmp l ps)
       | Unwound => (exists ps1 p ps2, ps = ps1 ++ p :: ps2 /\ hany h' m' (s_extend bor cmp l ps1)) /\ ((exists i, bomb i = true) \/ panicked ask n')
       end.
Proof. exact @extend_t_order. Qed.
Theorem C138_avl_split_off : forall K V Q (bor : K -> Q) ask bomb cmp, order_laws cmp -> answers cmp ask ->
  forall (h : heap (pay K V)) m l q n O, sound h (olist (hm_root m) ++ O) -> hany h m l -> ascending bor cmp l -> small l ->
  exists h' m' n' o, hm_split_off_t bor ask bomb h m q n = Ok (h', m', n', o) /\ frame O h h'
    /\ match o with
       | Done m2 => sound h' (olist (hm_root m') ++ olist (hm_root m2) ++ O)
           /\ hany h' m' (filter (lt_q bor cmp q) l) /\ hany h' m2 (filter (fun e => negb (lt_q bor cmp q e)) l)
       | Unwound => sound h' (olist (hm_root m') ++ O)
           /\ (m' = HMap (length l) None \/ exists l1 e l2, l = l1 ++ e :: l2 /\ said bor ask n n' q e /\ hany h' m' l1)
           /\ ((exists i, bomb i = true) \/ panicked ask n')
       end.
Proof. exact @split_off_t_order. Qed.
Theorem C138_avl_append : forall K V Q (bor : K -> Q) ask bomb cmp, order_laws cmp -> answers cmp ask ->
  forall (h : heap (pay K V)) m1 m2 l1 l2 n O, sound h (olist (hm_root m1) ++ olist (hm_root m2) ++ O) ->
  hany h m1 l1 -> hany h m2 l2 -> ascending bor cmp l1 -> ascending bor cmp l2 -> small l1 -> small l2 -> Z.of_nat (length l1 + length l2) <= 2 ^ 63 ->
  exists h' m1' m2' n' o, hm_append_t bor ask bomb h m1 m2 n = Ok (h', m1', m2', n', o)
    /\ sound h' (olist (hm_root m1') ++ olist (hm_root m2') ++ O) /\ frame O h h'
    /\ match o with
       | Done _ => m2' = hm_new /\ exists l, hany h' m1' l
           /\ forall q, s_find bor cmp q l = match s_find bor cmp q l2 with Some e => Some e | None => s_find bor cmp q l1 end
       | Unwound => m1' = HMap (length l1) None /\ m2' = HMap (length l2) None /\ ((exists i, bomb i = true) \/ panicked ask n')
       end.
Proof. exact @append_t_order. Qed.
(** The four set operations, which consume both maps: no node is leaked if they unwind. *)
Definition makes {K V Q} (ask : nat -> Q -> Q -> option comparison) bomb O (h : heap (pay K V)) x (P : list (K * V) -> Prop) : Prop :=
  exists h' n' o, x = Ok (h', n', o) /\ frame O h h'
    /\ match o with
       | Done m => sound h' (olist (hm_root m) ++ O) /\ exists l, hany h' m l /\ P l
       | Unwound => sound h' O /\ ((exists i : nat, bomb i = true) \/ panicked ask n')
       end.
Theorem C138_avl_sets : forall K V Q (bor : K -> Q) ask bomb cmp, order_laws cmp -> answers cmp ask ->
  forall (h : heap (pay K V)) m1 m2 l1 l2 n O, sound h (olist (hm_root m1) ++ olist (hm_root m2) ++ O) ->
  hany h m1 l1 -> hany h m2 l2 -> ascending bor cmp l1 -> ascending bor cmp l2 -> small l1 -> small l2 -> Z.of_nat (length l1 + length l2) <= 2 ^ 63 ->
  makes ask bomb O h (hm_new_union_t bor ask bomb h m1 m2 n)
    (fun l => forall q, s_find bor cmp q l = match s_find bor cmp q l2 with Some e => Some e | None => s_find bor cmp q l1 end)
  /\ makes ask bomb O h (hm_new_intersect_t bor ask bomb h m1 m2 n) (fun l => l = s_inter bor cmp l1 l2)
  /\ makes ask bomb O h (hm_new_diff_t bor ask bomb h m1 m2 n) (fun l => l = s_diff bor cmp l1 l2)
  /\ makes ask bomb O h (hm_new_sym_diff_t bor ask bomb h m1 m2 n)
       (fun l => forall q, s_find bor cmp q l = match s_find bor cmp q l1, s_find bor cmp q l2 with
                                                | Some e, None => Some e
                                                | None, Some e => Some e
                                                | _, _ => None
                                                end).
Proof. exact @sets_order. Qed.
Print Assumptions C138_avl_insert.
Print Assumptions C138_avl_get_mut.
Print Assumptions C138_avl_get.
Print Assumptions C138_avl_remove.
Print Assumptions C138_avl_and_modify.
Print Assumptions C138_avl_or_insert.
Print Assumptions C138_avl_extend.
Print Assumptions C138_avl_split_off.
Print Assumptions C138_avl_append.
Print Assumptions C138_avl_sets.

(** *** Samples *)
Definition zid (k : Z) : Z := k.
(** The order of the integers; the comparisons in [stops] panic. *)
Definition frail (stops : list nat) (n : nat) (a b : Z) : option comparison :=
  if existsb (Nat.eqb n) stops then None else Some (a ?= b).
(** Seven answers in turn, whatever the keys. *)
Definition whim (stops : list nat) (n : nat) (_ _ : Z) : option comparison :=
  if existsb (Nat.eqb n) stops then None else nth_error [Gt; Lt; Gt; Gt; Gt; Lt; Eq] (Nat.modulo n 7).
Definition ent (n : Z) : Z * Z := (n, 10 * n).
Definition zops : list (op Z Z Z) := [OFromIter (map ent [2; 4; 6; 8; 10; 12; 14]); OClone 0; OInsert 1 9 90].
Definition never (_ : nat) := false.
Definition zw := Eval vm_compute in
  match h_run_t zid (frail []) Z.eqb Z.eqb Z.compare Z.compare never (fun _ _ => false) (empty_heap, []) 0 zops with
  | Ok (w, _, _) => w | Panic => (empty_heap, []) end.
Definition zh := fst zw.
Definition z0 := Eval vm_compute in nth 0 (snd zw) (HMap 0 None).
Definition z1 := Eval vm_compute in nth 1 (snd zw) (HMap 0 None).
Definition zl := map ent [2; 4; 6; 8; 10; 12; 14].
Definition zl1 := map ent [2; 4; 6; 8; 9; 10; 12; 14].
Definition keys (h : heap (pay Z Z)) m : option (list Z) :=
  match hm_read h m with Ok a => Some (map fst (elems (am_root a))) | Panic => None end.

Lemma hany_elems (h : heap (pay Z Z)) m l a : hany h m l -> hm_read h m = Ok a -> l = elems (am_root a).
Proof. intros (b & E & A) E'. rewrite E in E'. injection E' as ->. apply aany_iff in A as (_ & A & _). congruence. Qed.
Lemma frail_order stops : answers Z.compare (frail stops).
Proof. intros n a b c. unfold frail. destruct (existsb (Nat.eqb n) stops); congruence. Qed.
(** Two maps that share nodes meet the hypotheses. *)
Example C136_ex : sound zh (olist (hm_root z0) ++ olist (hm_root z1)) /\ hany zh z0 zl /\ hany zh z1 zl1 /\ small zl /\ small zl1
  /\ Z.of_nat (length zl) + 1 < 2 ^ 63 /\ order_laws Z.compare /\ (forall stops, answers Z.compare (frail stops))
  /\ ascending zid Z.compare zl /\ ascending zid Z.compare zl1 /\ Z.of_nat (length zl + length zl1) <= 2 ^ 63.
Proof.
  destruct (history_t zid (frail []) Z.eqb Z.eqb Z.compare Z.compare never (fun _ _ => false) zops)
    as (h & ms & n & rs & ls & E & _ & S & A & _); [repeat constructor|vm_compute; reflexivity|].
  apply (f_equal (fun r => match r with Ok (w, _, _) => w | Panic => zw end)) in E. cbv beta iota in E.
  assert (X : (h, ms) = zw) by (rewrite <- E; vm_compute; reflexivity). clear E.
  assert (Y : zw = (zh, [z0; z1])) by (vm_compute; reflexivity). rewrite Y in X. injection X as -> ->.
  inversion A as [|x a xs l H A']; subst. inversion A' as [|y b ys l2 H' A'']; subst. inversion A''; subst.
  assert (E0 : exists x, hm_read zh z0 = Ok x /\ elems (am_root x) = zl) by (eexists; split; vm_compute; reflexivity).
  assert (E1 : exists x, hm_read zh z1 = Ok x /\ elems (am_root x) = zl1) by (eexists; split; vm_compute; reflexivity).
  destruct E0 as (x & E0 & X0), E1 as (y & E1 & X1).
  assert (Ha : a = zl) by (rewrite (hany_elems _ _ _ _ H E0); exact X0).
  assert (Hb : b = zl1) by (rewrite (hany_elems _ _ _ _ H' E1); exact X1). subst a b.
  split; [exact S|]. split; [exact H|]. split; [exact H'|]. split; [vm_compute; reflexivity|]. split; [vm_compute; reflexivity|].
  split; [vm_compute; reflexivity|]. split; [exact Zcmp_laws|]. split; [exact frail_order|].
  split; [repeat constructor|]. split; [repeat constructor|]. vm_compute. discriminate.
Qed.
(** [or_insert] at [z0], keys of both maps: with the order; with answers that change, in an insertion whose entry then is not
    found, so that the call unwinds although nothing panics; with the order and a panic before and after the insertion. *)
Definition or_insert_keys ask n k :=
  match hm_or_insert_t zid ask never zh z0 k (Some 70) (fun v => v + 1) n with
  | Ok (h, m, _, o) => Some (o, keys h m, keys h z1) | Panic => None end.
Example C136_ex' :
  or_insert_keys (frail []) 0 7 = Some (Some 70, Some [2; 4; 6; 7; 8; 10; 12; 14], Some [2; 4; 6; 8; 9; 10; 12; 14])
  /\ or_insert_keys (frail []) 0 8 = Some (Some 80, Some [2; 4; 6; 8; 10; 12; 14], Some [2; 4; 6; 8; 9; 10; 12; 14])
  /\ or_insert_keys (whim []) 1 7 = Some (None, Some [2; 4; 6; 8; 7; 12; 14], Some [2; 4; 6; 8; 9; 10; 12; 14])
  /\ (forall n a b, whim [] n a b <> None)
  /\ or_insert_keys (frail [5%nat]) 0 7 = Some (None, Some [2; 4; 6; 8; 10; 12; 14], Some [2; 4; 6; 8; 9; 10; 12; 14])
  /\ or_insert_keys (frail [6%nat]) 0 7 = Some (None, Some [2; 4; 6; 7; 8; 10; 12; 14], Some [2; 4; 6; 8; 9; 10; 12; 14]).
Proof.
  split; [vm_compute; reflexivity|]. split; [vm_compute; reflexivity|]. split; [vm_compute; reflexivity|].
  split; [|split; vm_compute; reflexivity].
  intros n a b. unfold whim. cbn [existsb]. pose proof (Nat.mod_upper_bound n 7 ltac:(discriminate)) as B. intros E.
  apply nth_error_None in E. cbn [length] in E. lia.
Qed.
(** [and_modify] with a closure that writes and then panics. *)
Example C136_ex'' :
  match hm_and_modify_t zid (frail []) never zh z0 4 (fun v => (v + 1, false)) 0 with
  | Ok (h, m, _, None) => hm_get_key_value_t zid (frail []) h m 4 0 = Ok (2%nat, Done (Some (4, 41)))
      /\ hm_get_key_value_t zid (frail []) h z1 4 0 = Ok (2%nat, Done (Some (4, 40)))
  | _ => False end.
Proof. vm_compute. split; reflexivity. Qed.
(** [split_off] at [z0], [len] and keys of the lower and of the upper part: with the order; the order and a panic at once and
    after the cut; if all keys are told to be equal, 8 replaces 12 and [len] is wrong. *)
Definition split_keys ask q :=
  match hm_split_off_t zid ask never zh z0 q 0 with
  | Ok (h, m, _, o) => Some (hm_len m, keys h m, match o with Done m2 => Some (hm_len m2, keys h m2) | Unwound => None end, keys h z1)
  | Panic => None end.
Example C137_ex :
  split_keys (frail []) 4 = Some (1%nat, Some [2], Some (6%nat, Some [4; 6; 8; 10; 12; 14]), Some [2; 4; 6; 8; 9; 10; 12; 14])
  /\ split_keys (frail []) 7 = Some (3%nat, Some [2; 4; 6], Some (4%nat, Some [8; 10; 12; 14]), Some [2; 4; 6; 8; 9; 10; 12; 14])
  /\ split_keys (frail [0%nat]) 4 = Some (7%nat, Some [], None, Some [2; 4; 6; 8; 9; 10; 12; 14])
  /\ split_keys (frail [3%nat]) 4 = Some (1%nat, Some [2], None, Some [2; 4; 6; 8; 9; 10; 12; 14])
  /\ split_keys (fun _ _ _ => Some Eq) 4 = Some (3%nat, Some [2; 4; 6], Some (4%nat, Some [10; 8; 14]), Some [2; 4; 6; 8; 9; 10; 12; 14]).
Proof. repeat split; vm_compute; reflexivity. Qed.
(** Calls with the order, with no panic and with one. *)
Example C138_ex :
  match hm_insert_t zid (frail []) never zh z0 5 50 0 with Ok (h, m, _, Done None) => keys h m = Some [2; 4; 5; 6; 8; 10; 12; 14] | _ => False end
  /\ match hm_insert_t zid (frail [2%nat]) never zh z0 5 50 0 with Ok (h, m, _, Unwound) => keys h m = Some [2; 4; 6; 8; 10; 12; 14] | _ => False end
  /\ match hm_new_sym_diff_t zid (frail []) never zh z0 z1 0 with Ok (h, _, Done m) => keys h m = Some [9] | _ => False end
  /\ match hm_new_sym_diff_t zid (frail [4%nat]) never zh z0 z1 0 with Ok (_, n, Unwound) => n = 5%nat | _ => False end.
Proof. vm_compute. repeat split; reflexivity. Qed.
