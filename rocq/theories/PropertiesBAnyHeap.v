(** [BTreeMap]s that share nodes, with a key type whose [Ord] is no order (properties C127, C128). [cmp] is any function: no
    law is assumed of it anywhere in this file, and every call of a history may use another one.

    [hbany N h m l] (BAnyHeapSpec.v): following the pointers of [m] in the heap [h] gives a B-tree of the right shape (all
    leaves equally deep, nodes neither too empty nor too full) whose entries from left to right are [l], and [len] is their
    number. [bany_did cmp st o r st'] says what the call [o] may have returned and made of the maps' entries [st];
    [bany_unwound] what it may have made of them if a [clone] or a predicate panicked. *)
From Coq Require Import List PeanoNat Bool ZArith Lia.
From Verif Require Import Base Spec MapSpec Heap BTreeModel BTreeHeapModel BTreeHeapSpec BTreeHeapHistModel BTreeHeapHistSpec
  AnyOrdSpec AnyHeapSpec BAnyHeapSpec BTreeHeapAnyProofs2.
Import ListNotations.
Open Scope nat_scope.

(** ** C127: any history of calls on any number of maps *)
Theorem C127_history : forall K V Q (bor : K -> Q) N, 1 <= N ->
  forall keq veq kcmp vcmp bomb fbomb (os : list ((Q -> Q -> comparison) * op K V Q)),
  (forall cmp o, In (cmp, o) os -> b_tame o) ->
  exists h ms rs st, hb_calls bor N keq veq kcmp vcmp bomb fbomb (empty_heap, []) os = Ok ((h, ms), rs)
    /\ bany_follows bor keq veq kcmp vcmp [] os rs st
    /\ sound h (broots ms) /\ Forall2 (hbany N h) ms st
    /\ (In Unwound rs -> (exists n, bomb n = true) \/ exists k v, fbomb k v = true)
    /\ exists h', hb_drop_all h ms = Ok h' /\ forall a, get h' a = None.
Proof. exact @calls_any. Qed.
Print Assumptions C127_history.
(** One call, on any heap that the maps own exactly. *)
Theorem C127_call : forall K V Q (bor : K -> Q) N, 1 <= N ->
  forall keq veq kcmp vcmp bomb fbomb cmp (h : heap (list (K * V))) ms ls (o : op K V Q),
  sound h (broots ms) -> Forall2 (hbany N h) ms ls -> b_tame o ->
  exists h' ms' r, hb_step bor cmp N keq veq kcmp vcmp bomb fbomb (h, ms) o = Ok ((h', ms'), r) /\ sound h' (broots ms')
    /\ match r with
       | Done ob => exists ls', bany_did bor keq veq kcmp vcmp cmp ls o ob ls' /\ Forall2 (hbany N h') ms' ls'
       | Unwound => exists ls', bany_unwound bor cmp ls o ls' /\ Forall2 (hbany N h') ms' ls'
                    /\ ((exists n, bomb n = true) \/ exists k v, fbomb k v = true)
       end.
Proof. exact @call_any. Qed.
Print Assumptions C127_call.

(** *** Samples: keys are numbers, with comparisons that are no orders *)
Definition nid (k : nat) : nat := k.
Definition always (c : comparison) (_ _ : nat) : comparison := c.
(** Rock, paper, scissors: 0 < 1 < 2 < 0, modulo 3. *)
Definition cyclic (a b : nat) : comparison := match (a + 2 * b) mod 3 with 0 => Eq | 1 => Gt | _ => Lt end.
Definition ent (n : nat) : nat * nat := (n, 10 * n).
Definition nops : list ((nat -> nat -> comparison) * op nat nat nat) :=
  [(always Gt, OFromIter (map ent [1; 2; 3; 4; 5; 6])); (always Eq, OClone 0); (cyclic, OInsert 1 7 70); (always Gt, OInsert 1 8 80);
   (cyclic, ORemove 1 1); (always Eq, OGet 0 9); (always Lt, OGet 0 1); (cyclic, OClone 0); (always Gt, OAppend 0 1);
   (always Lt, ORetain 0 (fun k v => (v + 1, negb (k =? 4)))); (cyclic, OSplitOff 2 5); (Nat.compare, OCheck 0);
   (always Eq, OPopFirst 0); (always Eq, OIter 0 [Front; Back])].
Definition nrun bomb := hb_calls nid 1 Nat.eqb Nat.eqb Nat.compare Nat.compare bomb (fun _ _ => false) (empty_heap, []) nops.
Definition shown (w : res (hb_world (K := nat) (V := nat) * list (out (obs nat nat)))) : list (option (list (nat * nat))) :=
  match w with
  | Ok ((h, ms), _) => map (fun m => match hb_read h m with Ok b => Some (match bm_root b with Some t => in_order t | None => [] end) | Panic => None end) ms
  | Panic => []
  end.
Example C127_ex : forall cmp o, In (cmp, o) nops -> b_tame o.
Proof. intros cmp o H. repeat (destruct H as [H|H]; [injection H as _ <-; exact I|]). destruct H. Qed.
(** The calls return, some of them nonsense (the fifth removes 7, and the last map kept several entries twice), ... *)
Example C127_ex' : match nrun (fun _ => false) with Ok (_, rs) =>
    rs = [Done RUnit; Done RUnit; Done (RVal (Some 10)); Done (RVal None); Done (RVal (Some 70)); Done (RVal (Some 20)); Done (RVal None);
          Done RUnit; Done RUnit; Done RUnit; Done RUnit; Done (RBool false); Done (REntry (Some (8, 81)));
          Done (RSeq [(Some (6, 61), 8); (Some (1, 11), 7)])]
  | Panic => False end
  /\ shown (nrun (fun _ => false)) =
     [Some (map (fun k => (k, 10 * k + 1)) [6; 5; 3; 2; 6; 5; 3; 2; 1]); Some []; Some (map ent [4]); Some (map ent [5; 6])].
Proof. vm_compute. split; reflexivity. Qed.
(** ... and also when the third [clone] panics, in the second insertion, which then has no effect. *)
Example C127_ex'' : match nrun (fun n => n =? 2) with Ok (_, rs) => nth_error rs 3 = Some Unwound | Panic => False end
  /\ shown (nrun (fun n => n =? 2)) =
     [Some (map (fun k => (k, 10 * k + 1)) [5; 3; 2; 6; 5; 3; 2; 1]); Some []; Some (map ent [4]); Some (map ent [5; 6])].
Proof. vm_compute. split; reflexivity. Qed.

(** ** C128: a call writes to one map, and clones few nodes *)
(** The counts stay exact; every other map [O] owns what it owned before ([frame]); at most the nodes on the path that the
    comparisons choose are cloned, and for removals one sibling of each. A call that unwinds changes no entry (a removal
    may lose some). *)
Theorem C128_insert : forall K V Q (bor : K -> Q) N, 1 <= N -> forall bomb cmp (h : heap (list (K * V))) m b l k v O,
  sound h (olist (hb_root m) ++ O) -> hb_read h m = Ok b -> b_any N b l ->
  exists h' m' o cs, hb_insert bor cmp N bomb h m k v = Ok (h', m', o) /\ sound h' (olist (hb_root m') ++ O) /\ frame O h h'
    /\ clones h' = cs ++ clones h /\ sub cs (match bm_root b with Some t => path bor cmp (bor k) t | None => [] end)
    /\ match o with
       | Done x => exists l', any_insert bor cmp k v l l' x /\ hbany N h' m' l'
       | Unwound => hbany N h' m' l /\ exists n, bomb n = true
       end.
Proof. exact @insert_lazy. Qed.
Print Assumptions C128_insert.
Theorem C128_get_mut : forall K V Q (bor : K -> Q) N, 1 <= N -> forall bomb cmp (h : heap (list (K * V))) m b l q w O,
  sound h (olist (hb_root m) ++ O) -> hb_read h m = Ok b -> b_any N b l ->
  exists h' m' o cs, hb_get_mut bor cmp bomb h m q w = Ok (h', m', o) /\ sound h' (olist (hb_root m') ++ O) /\ frame O h h'
    /\ clones h' = cs ++ clones h /\ sub cs (match bm_root b with Some t => path bor cmp q t | None => [] end)
    /\ match o with
       | Done x => exists l', any_get_mut bor cmp q w l l' x /\ hbany N h' m' l'
       | Unwound => hbany N h' m' l /\ exists n, bomb n = true
       end.
Proof. exact @get_mut_lazy. Qed.
Print Assumptions C128_get_mut.
(** Nothing is cloned for a key that [contains_key] does not find. *)
Theorem C128_remove : forall K V Q (bor : K -> Q) N, 1 <= N -> forall bomb cmp (h : heap (list (K * V))) m b l q O,
  sound h (olist (hb_root m) ++ O) -> hb_read h m = Ok b -> b_any N b l ->
  exists h' m' o cs, hb_remove bor cmp N bomb h m q = Ok (h', m', o) /\ sound h' (olist (hb_root m') ++ O) /\ frame O h h'
    /\ clones h' = cs ++ clones h
    /\ sub cs (if b_contains_key bor cmp b q then match bm_root b with Some t => near bor cmp q t | None => [] end else [])
    /\ match o with
       | Done x => exists l', any_remove_val bor cmp q l l' x /\ hbany N h' m' l'
       | Unwound => (exists t, hb_read h' m' = Ok (BMap (length l) (Some t)) /\ sub (in_order t) l) /\ exists n, bomb n = true
       end.
Proof. exact @remove_lazy. Qed.
Print Assumptions C128_remove.
Theorem C128_pops : forall K V N, 1 <= N -> forall bomb (h : heap (list (K * V))) m b l O,
  sound h (olist (hb_root m) ++ O) -> hb_read h m = Ok b -> b_any N b l ->
  (exists h' m' o cs, hb_pop_first N bomb h m = Ok (h', m', o) /\ sound h' (olist (hb_root m') ++ O) /\ frame O h h'
    /\ clones h' = cs ++ clones h /\ sub cs (match bm_root b with Some t => near_first t | None => [] end)
    /\ match o with
       | Done x => x = s_first l /\ hbany N h' m' (tl l)
       | Unwound => (exists t, hb_read h' m' = Ok (BMap (length l) (Some t)) /\ sub (in_order t) l) /\ exists n, bomb n = true
       end)
  /\ exists h' m' o cs, hb_pop_last N bomb h m = Ok (h', m', o) /\ sound h' (olist (hb_root m') ++ O) /\ frame O h h'
    /\ clones h' = cs ++ clones h /\ sub cs (match bm_root b with Some t => near_last t | None => [] end)
    /\ match o with
       | Done x => x = s_last l /\ hbany N h' m' (removelast l)
       | Unwound => (exists t, hb_read h' m' = Ok (BMap (length l) (Some t)) /\ sub (in_order t) l) /\ exists n, bomb n = true
       end.
Proof. exact @pops_lazy. Qed.
Print Assumptions C128_pops.
(** These are few nodes, whatever the comparison says. *)
Theorem C128_few : forall K V Q (bor : K -> Q) N cmp (b : bt_map K V) l t q, b_any N b l -> bm_root b = Some t ->
  exists d, 2 * (N + 1) ^ d <= length l + 1
    /\ length (path bor cmp q t) <= d + 1
    /\ length (near bor cmp q t) <= 2 * d + 1
    /\ length (near_first t) <= 2 * d + 1
    /\ length (near_last t) <= 2 * d + 1.
Proof. exact @few_any. Qed.
Print Assumptions C128_few.
(** [frame] keeps the entries of the other maps. *)
Theorem C128_frame : forall K V N O (h h' : heap (list (K * V))) m l,
  frame O h h' -> incl (olist (hb_root m)) O -> hbany N h m l -> hbany N h' m l.
Proof. exact @frame_any. Qed.
Print Assumptions C128_frame.

(** Two maps that share all their nodes but the ones on a path. *)
Definition nops3 := firstn 3 nops.
Definition nw := Eval vm_compute in
  match hb_calls nid 1 Nat.eqb Nat.eqb Nat.compare Nat.compare (fun _ => false) (fun _ _ => false) (empty_heap, []) nops3 with
  | Ok (w, _) => w | Panic => (empty_heap, []) end.
Definition nh := fst nw.
Definition n0 := Eval vm_compute in nth 0 (snd nw) hb_new.
Definition n1 := Eval vm_compute in nth 1 (snd nw) hb_new.
Definition nb0 := Eval vm_compute in match hb_read nh n0 with Ok b => b | Panic => b_new end.
Lemma nw_hist : sound nh (olist (hb_root n0) ++ olist (hb_root n1)) /\ exists a b, hbany 1 nh n0 a /\ hbany 1 nh n1 b.
Proof.
  destruct (C127_history _ _ _ nid 1 (le_n 1) Nat.eqb Nat.eqb Nat.compare Nat.compare (fun _ => false) (fun _ _ => false) nops3)
    as (h & ms & rs & st & E & _ & S & A & _).
  { intros cmp o H. apply (C127_ex cmp). unfold nops3 in H. rewrite <- (firstn_skipn 3 nops). apply in_or_app. now left. }
  apply (f_equal (fun r => match r with Ok (w, _) => w | Panic => nw end)) in E. cbv beta iota in E.
  assert (X : (h, ms) = nw) by (rewrite <- E; vm_compute; reflexivity). clear E.
  assert (Y : nw = (nh, [n0; n1])) by (vm_compute; reflexivity). rewrite Y in X. injection X as -> ->.
  split; [unfold broots in S; cbn [flat_map] in S; rewrite app_nil_r in S; exact S|].
  inversion A as [|x a xs l H A']; subst. inversion A' as [|y b ys l2 H' _]; subst. eauto.
Qed.
Lemma hbany_entries (h : heap (list (nat * nat))) m l b t : hbany 1 h m l -> hb_read h m = Ok b -> bm_root b = Some t -> l = in_order t.
Proof. intros (b' & E & A) E' R. rewrite E in E'. injection E' as ->. now apply any_in_order with (2 := R) in A. Qed.
Example C128_ex : sound nh (olist (hb_root n0) ++ olist (hb_root n1)) /\ hb_read nh n0 = Ok nb0
  /\ b_any 1 nb0 (map ent [1; 2; 3; 4; 5; 6]) /\ hbany 1 nh n1 (map ent [7; 2; 3; 4; 5; 6]).
Proof.
  destruct nw_hist as (S & a & b & A & B).
  assert (E0 : hb_read nh n0 = Ok nb0) by (vm_compute; reflexivity).
  assert (Ha : a = map ent [1; 2; 3; 4; 5; 6]) by (rewrite (hbany_entries _ _ _ _ _ A E0 eq_refl); vm_compute; reflexivity).
  assert (E1 : exists x t, hb_read nh n1 = Ok x /\ bm_root x = Some t /\ in_order t = map ent [7; 2; 3; 4; 5; 6])
    by (eexists _, _; split; [vm_compute; reflexivity|split; [reflexivity|vm_compute; reflexivity]]).
  destruct E1 as (x & t & E1 & R & X). rewrite (hbany_entries _ _ _ _ _ B E1 R), X in B.
  split; [exact S|]. split; [exact E0|]. split; [|exact B].
  destruct A as (y & E & A). rewrite E0 in E. injection E as <-. now subst a.
Qed.
(** Removing 4 from the first map removes 1, which is told to be equal; the node of 3 is merged and cloned for that, though
    4 is elsewhere; the second map, which shares that node, keeps its entries. *)
Example C128_ex' : match hb_remove nid cyclic 1 (fun _ => false) nh n0 4 with
  | Ok (h', m', Done x) => x = Some 10 /\ clones h' = [[(3, 30)]] ++ clones nh /\ hbany 1 h' n1 (map ent [7; 2; 3; 4; 5; 6])
  | _ => False end.
Proof.
  destruct C128_ex as (S & E & A & B).
  destruct (C128_remove _ _ _ nid 1 (le_n 1) (fun _ => false) cyclic nh n0 nb0 _ 4 _ S E A) as (h' & m' & o & cs & Ei & _ & F & _).
  assert (H : hbany 1 h' n1 (map ent [7; 2; 3; 4; 5; 6])) by (eapply C128_frame; eauto using incl_refl).
  rewrite Ei. vm_compute in Ei. injection Ei as Eh _ <-. split; [reflexivity|]. split; [|exact H]. rewrite <- Eh. reflexivity.
Qed.
