(** [BTreeMap]s that share nodes, with comparisons that may panic: the entry API with comparisons that may answer anything
    (property C136), and calls with the comparisons of an order (property C138). The notation is that of PropertiesBAskHeap.v;
    the AVL half of both properties is in PropertiesAvlEntry.v. *)
From Coq Require Import List PeanoNat Bool Lia.
From Verif Require Import Base Spec MapSpec Heap BTreeModel Ask AskSpec AskAnySpec EntryAskSpec BTreeHeapModel BTreeHeapAskModel BTreeEntryAskModel BTreeHeapSpec
  BTreeHeapHistModel BTreeHeapHistSpec BTreeHeapAskHistModel AnyOrdSpec BAnyHeapSpec BAskHeapSpec AvlHeapSpec BTreeHeapAnyProofs2 BTreeHeapSpec BTreeHeapModel
  BTreeHeapAskProofs5 BTreeEntryAskProofs.
Import ListNotations.
Open Scope nat_scope.

(** ** C136: [entry(k).and_modify(f)] and [entry(k).or_insert(v)] *)
Theorem C136_btree_and_modify : forall K V Q (bor : K -> Q) ask N, 1 <= N -> forall bomb (h : heap (list (K * V))) m l k f n O,
  sound h (olist (hb_root m) ++ O) -> hbany N h m l ->
  exists h' m' n' o l', hb_and_modify_t bor ask bomb h m k f n = Ok (h', m', n', o) /\ n <= n'
    /\ sound h' (olist (hb_root m') ++ O) /\ frame O h h' /\ hbany N h' m' l'
    /\ match o with
       | Some _ => may_modify bor (said bor ask n n') k f l l' true
       | None => (l' = l /\ ((exists i, bomb i = true) \/ panicked ask n')) \/ may_modify bor (said bor ask n n') k f l l' false
       end.
Proof. exact @and_modify_lazy. Qed.
Print Assumptions C136_btree_and_modify.
Theorem C136_btree_or_insert : forall K V Q (bor : K -> Q) ask N, 1 <= N -> forall bomb (h : heap (list (K * V))) m l k f w n O,
  sound h (olist (hb_root m) ++ O) -> hbany N h m l ->
  exists h' m' n' o l', hb_or_insert_t bor ask N bomb h m k f w n = Ok (h', m', n', o) /\ n <= n'
    /\ sound h' (olist (hb_root m') ++ O) /\ frame O h h' /\ hbany N h' m' l'
    /\ match o with
       | Some x => may_or_insert bor (said bor ask n n') k f w l l' x
       | None => (l' = l \/ exists v r, f = Some v /\ may_insert bor (said bor ask n n') k v l l' r)
           /\ ((exists i, bomb i = true) \/ panicked ask n' \/ (f = None /\ l' = l) \/ contrary bor ask l)
       end.
Proof. exact @or_insert_lazy. Qed.
Print Assumptions C136_btree_or_insert.

(** ** C138: an order whose comparisons may panic *)
Theorem C138_btree_insert : forall K V Q (bor : K -> Q) ask N, 1 <= N -> forall bomb cmp, order_laws cmp -> answers cmp ask ->
  forall (h : heap (list (K * V))) m l k v n O, sound h (olist (hb_root m) ++ O) -> hbany N h m l -> ascending bor cmp l ->
  exists h' m' n' o, hb_insert_t bor ask N bomb h m k v n = Ok (h', m', n', o) /\ sound h' (olist (hb_root m') ++ O) /\ frame O h h'
    /\ match o with
       | Done r => r = s_get bor cmp (bor k) l /\ hbany N h' m' (s_insert bor cmp k v l)
       | Unwound => hbany N h' m' l /\ ((exists i, bomb i = true) \/ panicked ask n')
       end.
Proof. exact @insert_t_order. Qed.
Theorem C138_btree_get_mut : forall K V Q (bor : K -> Q) ask N, 1 <= N -> forall bomb cmp, order_laws cmp -> answers cmp ask ->
  forall (h : heap (list (K * V))) m l q w n O, sound h (olist (hb_root m) ++ O) -> hbany N h m l -> ascending bor cmp l ->
  exists h' m' n' o, hb_get_mut_t bor ask bomb h m q w n = Ok (h', m', n', o) /\ sound h' (olist (hb_root m') ++ O) /\ frame O h h'
    /\ match o with
       | Done r => r = s_get bor cmp q l /\ hbany N h' m' (s_update bor cmp q w l)
       | Unwound => hbany N h' m' l /\ ((exists i, bomb i = true) \/ panicked ask n')
       end.
Proof. exact @get_mut_t_order. Qed.
Theorem C138_btree_get : forall K V Q (bor : K -> Q) ask N, 1 <= N -> forall cmp, order_laws cmp -> answers cmp ask ->
  forall (h : heap (list (K * V))) m l q n, hbany N h m l -> ascending bor cmp l ->
  exists n' o, hb_get_t bor ask h m q n = Ok (n', o) /\ match o with Done r => r = s_get bor cmp q l | Unwound => panicked ask n' end.
Proof. exact @get_t_order. Qed.
Theorem C138_btree_contains : forall K V Q (bor : K -> Q) ask N, 1 <= N -> forall cmp, order_laws cmp -> answers cmp ask ->
  forall (h : heap (list (K * V))) m l q n, hbany N h m l -> ascending bor cmp l ->
  exists n' o, hb_contains_t bor ask h m q n = Ok (n', o) /\ match o with Done r => r = s_mem bor cmp q l | Unwound => panicked ask n' end.
Proof. exact @contains_t_order. Qed.
(** A removal that unwinds in a clone may lose entries. *)
Theorem C138_btree_remove : forall K V Q (bor : K -> Q) ask N, 1 <= N -> forall bomb cmp, order_laws cmp -> answers cmp ask ->
  forall (h : heap (list (K * V))) m l q n O, sound h (olist (hb_root m) ++ O) -> hbany N h m l -> ascending bor cmp l ->
  exists h' m' n' o, hb_remove_t bor ask N bomb h m q n = Ok (h', m', n', o) /\ sound h' (olist (hb_root m') ++ O) /\ frame O h h'
    /\ match o with
       | Done r => r = s_get bor cmp q l /\ hbany N h' m' (s_remove bor cmp q l)
       | Unwound => (hbany N h' m' l /\ panicked ask n')
           \/ ((exists i, bomb i = true) /\ exists t, hb_read h' m' = Ok (BMap (length l) (Some t)) /\ sub (in_order t) l)
       end.
Proof. exact @remove_t_order. Qed.
Theorem C138_btree_and_modify : forall K V Q (bor : K -> Q) ask N, 1 <= N -> forall bomb cmp, order_laws cmp -> answers cmp ask ->
  forall (h : heap (list (K * V))) m l k f n O, sound h (olist (hb_root m) ++ O) -> hbany N h m l -> ascending bor cmp l ->
  exists h' m' n' o, hb_and_modify_t bor ask bomb h m k f n = Ok (h', m', n', o) /\ sound h' (olist (hb_root m') ++ O) /\ frame O h h'
    /\ match o with
       | Some _ => hbany N h' m' (s_update bor cmp (bor k) (fun v => fst (f v)) l)
       | None => (hbany N h' m' l /\ ((exists i, bomb i = true) \/ panicked ask n'))
           \/ exists v, s_get bor cmp (bor k) l = Some v /\ snd (f v) = false /\ hbany N h' m' (s_update bor cmp (bor k) (fun v => fst (f v)) l)
       end.
Proof. exact @and_modify_order. Qed.
Theorem C138_btree_or_insert : forall K V Q (bor : K -> Q) ask N, 1 <= N -> forall bomb cmp, order_laws cmp -> answers cmp ask ->
  forall (h : heap (list (K * V))) m l k f w n O, sound h (olist (hb_root m) ++ O) -> hbany N h m l -> ascending bor cmp l ->
  exists h' m' n' o, hb_or_insert_t bor ask N bomb h m k f w n = Ok (h', m', n', o) /\ sound h' (olist (hb_root m') ++ O) /\ frame O h h'
    /\ match o with
       | Some x => match s_get bor cmp (bor k) l with
           | Some v => x = v /\ hbany N h' m' (s_update bor cmp (bor k) w l)
           | None => f = Some x /\ hbany N h' m' (s_insert bor cmp k (w x) l)
           end
       | None => (hbany N h' m' l \/ exists v, f = Some v /\ s_get bor cmp (bor k) l = None /\ hbany N h' m' (s_insert bor cmp k v l))
           /\ ((exists i, bomb i = true) \/ panicked ask n' \/ (f = None /\ s_get bor cmp (bor k) l = None))
       end.
Proof. exact @or_insert_order. Qed.
Theorem C138_btree_extend : forall K V Q (bor : K -> Q) ask N, 1 <= N -> forall bomb cmp, order_laws cmp -> answers cmp ask ->
  forall ps (h : heap (list (K * V))) m l n O, sound h (olist (hb_root m) ++ O) -> hbany N h m l -> ascending bor cmp l ->
  exists h' m' n' o, hb_extend_t bor ask N bomb h m ps n = Ok (h', m', n', o) /\ sound h' (olist (hb_root m') ++ O) /\ frame O h h'
    /\ match o with
       | Done _ => hbany N h' m' (s_extend bor cmp l ps)
       | Unwound => (exists ps1 p ps2, ps = ps1 ++ p :: ps2 /\ hbany N h' m' (s_extend bor cmp l ps1)) /\ ((exists i, bomb i = true) \/ panicked ask n')
       end.
Proof. exact @extend_t_order. Qed.
Print Assumptions C138_btree_insert.
Print Assumptions C138_btree_get_mut.
Print Assumptions C138_btree_get.
Print Assumptions C138_btree_contains.
Print Assumptions C138_btree_remove.
Print Assumptions C138_btree_and_modify.
Print Assumptions C138_btree_or_insert.
Print Assumptions C138_btree_extend.

(** *** Samples *)
Lemma Ncmp_laws : order_laws Nat.compare.
Proof.
  constructor.
  - intros a b. apply Nat.compare_antisym.
  - intros a b c H1 H2. apply Nat.compare_lt_iff in H1, H2. apply Nat.compare_lt_iff. lia.
  - intros a b c H1. apply Nat.compare_eq_iff in H1. now subst.
Qed.
Definition nid (k : nat) : nat := k.
(** The order of the numbers; the comparisons in [stops] panic. *)
Definition frail (stops : list nat) (n : nat) (a b : nat) : option comparison :=
  if existsb (Nat.eqb n) stops then None else Some (a ?= b).
(** Five answers in turn, whatever the keys. *)
Definition whim (n : nat) (_ _ : nat) : option comparison := nth_error [Gt; Lt; Gt; Gt; Eq] (n mod 5).
Definition ent (n : nat) : nat * nat := (n, 10 * n).
Definition never (_ : nat) := false.
Definition nops : list (op nat nat nat) := [OFromIter (map ent [2; 4; 6; 8; 10; 12; 14]); OClone 0; OInsert 1 9 90].
Definition nw := Eval vm_compute in
  match hb_run_t nid (frail []) 1 Nat.eqb Nat.eqb Nat.compare Nat.compare never (fun _ _ => false) (empty_heap, []) 0 nops with
  | Ok (w, _, _) => w | Panic => (empty_heap, []) end.
Definition nh := fst nw.
Definition n0 := Eval vm_compute in nth 0 (snd nw) hb_new.
Definition n1 := Eval vm_compute in nth 1 (snd nw) hb_new.
Definition nl0 := map ent [2; 4; 6; 8; 10; 12; 14].
Definition nl1 := map ent [2; 4; 6; 8; 9; 10; 12; 14].
Definition keys (h : heap (list (nat * nat))) m : option (list nat) :=
  match hb_read h m with Ok (BMap _ (Some t)) => Some (map fst (in_order t)) | Ok _ => Some [] | Panic => None end.
Lemma hbany_entries (h : heap (list (nat * nat))) m l b t : hbany 1 h m l -> hb_read h m = Ok b -> bm_root b = Some t -> l = in_order t.
Proof. intros (b' & E & A) E' R. rewrite E in E'. injection E' as ->. now apply any_in_order with (2 := R) in A. Qed.
Lemma frail_order stops : answers Nat.compare (frail stops).
Proof. intros n a b c. unfold frail. destruct (existsb (Nat.eqb n) stops); congruence. Qed.
(** Two maps that share nodes meet the hypotheses. *)
Example C136_btree_ex : sound nh (olist (hb_root n0) ++ olist (hb_root n1)) /\ hbany 1 nh n0 nl0 /\ hbany 1 nh n1 nl1
  /\ order_laws Nat.compare /\ (forall stops, answers Nat.compare (frail stops))
  /\ ascending nid Nat.compare nl0 /\ ascending nid Nat.compare nl1.
Proof.
  destruct (history_t nid (frail []) 1 (le_n 1) Nat.eqb Nat.eqb Nat.compare Nat.compare never (fun _ _ => false) nops)
    as (h & ms & n & rs & st & E & _ & S & A & _); [repeat constructor|].
  apply (f_equal (fun r => match r with Ok (w, _, _) => w | Panic => nw end)) in E. cbv beta iota in E.
  assert (X : (h, ms) = nw) by (rewrite <- E; vm_compute; reflexivity). clear E.
  assert (Y : nw = (nh, [n0; n1])) by (vm_compute; reflexivity). rewrite Y in X. injection X as -> ->.
  inversion A as [|x a xs l H A']; subst. inversion A' as [|y b ys l2 H' A'']; subst. inversion A''; subst.
  assert (E0 : exists x t, hb_read nh n0 = Ok x /\ bm_root x = Some t /\ in_order t = nl0)
    by (eexists _, _; split; [vm_compute; reflexivity|split; [reflexivity|vm_compute; reflexivity]]).
  assert (E1 : exists x t, hb_read nh n1 = Ok x /\ bm_root x = Some t /\ in_order t = nl1)
    by (eexists _, _; split; [vm_compute; reflexivity|split; [reflexivity|vm_compute; reflexivity]]).
  destruct E0 as (x & t & E0 & R & X). assert (Ha : a = nl0) by (rewrite (hbany_entries _ _ _ _ _ H E0 R); exact X).
  destruct E1 as (x1 & t1 & E1 & R1 & X1). assert (Hb : b = nl1) by (rewrite (hbany_entries _ _ _ _ _ H' E1 R1); exact X1). subst a b.
  split; [unfold broots in S; cbn [flat_map] in S; rewrite app_nil_r in S; exact S|]. split; [exact H|]. split; [exact H'|].
  split; [exact Ncmp_laws|]. split; [exact frail_order|]. split; repeat constructor.
Qed.
(** [or_insert] at [n0], keys of both maps: with the order; with answers that change, in an insertion that replaces 8 and whose
    entry then is not found, so that the call unwinds although nothing panics; with the order and a panic before and after
    the insertion. *)
Definition or_insert_keys ask n k :=
  match hb_or_insert_t nid ask 1 never nh n0 k (Some 70) (fun v => v + 1) n with
  | Ok (h, m, _, o) => Some (o, keys h m, keys h n1) | Panic => None end.
Example C136_btree_ex' :
  or_insert_keys (frail []) 0 7 = Some (Some 70, Some [2; 4; 6; 7; 8; 10; 12; 14], Some [2; 4; 6; 8; 9; 10; 12; 14])
  /\ or_insert_keys (frail []) 0 8 = Some (Some 80, Some [2; 4; 6; 8; 10; 12; 14], Some [2; 4; 6; 8; 9; 10; 12; 14])
  /\ or_insert_keys whim 0 7 = Some (None, Some [2; 4; 6; 7; 10; 12; 14], Some [2; 4; 6; 8; 9; 10; 12; 14])
  /\ (forall n a b, whim n a b <> None)
  /\ or_insert_keys (frail [5]) 0 7 = Some (None, Some [2; 4; 6; 8; 10; 12; 14], Some [2; 4; 6; 8; 9; 10; 12; 14])
  /\ or_insert_keys (frail [6]) 0 7 = Some (None, Some [2; 4; 6; 7; 8; 10; 12; 14], Some [2; 4; 6; 8; 9; 10; 12; 14]).
Proof.
  split; [vm_compute; reflexivity|]. split; [vm_compute; reflexivity|]. split; [vm_compute; reflexivity|].
  split; [|split; vm_compute; reflexivity].
  intros n a b. unfold whim. pose proof (Nat.mod_upper_bound n 5 ltac:(discriminate)) as B. intros E.
  apply nth_error_None in E. cbn [length] in E. lia.
Qed.
(** [and_modify] with a closure that writes and then panics. *)
Example C136_btree_ex'' :
  match hb_and_modify_t nid (frail []) never nh n0 4 (fun v => (v + 1, false)) 0 with
  | Ok (h, m, _, None) => hb_get_t nid (frail []) h m 4 0 = Ok (1, Done (Some 41)) /\ hb_get_t nid (frail []) h n1 4 0 = Ok (1, Done (Some 40))
  | _ => False end.
Proof. vm_compute. split; reflexivity. Qed.
(** Calls with the order, with no panic and with one. *)
Example C138_btree_ex :
  match hb_insert_t nid (frail []) 1 never nh n0 5 50 0 with Ok (h, m, _, Done None) => keys h m = Some [2; 4; 5; 6; 8; 10; 12; 14] | _ => False end
  /\ match hb_insert_t nid (frail [1]) 1 never nh n0 5 50 0 with Ok (h, m, _, Unwound) => keys h m = Some [2; 4; 6; 8; 10; 12; 14] | _ => False end
  /\ match hb_remove_t nid (frail []) 1 never nh n0 8 0 with Ok (h, m, _, Done (Some 80)) => keys h m = Some [2; 4; 6; 10; 12; 14] | _ => False end
  /\ match hb_remove_t nid (frail [1]) 1 never nh n0 8 0 with Ok (h, m, _, Unwound) => keys h m = Some [2; 4; 6; 8; 10; 12; 14] | _ => False end
  /\ match hb_extend_t nid (frail [5]) 1 never nh n0 (map ent [5; 7]) 0 with
     | Ok (h, m, _, Unwound) => keys h m = Some [2; 4; 5; 6; 8; 10; 12; 14] | _ => False end.
Proof. vm_compute. repeat split; reflexivity. Qed.
