(** AVL maps that share nodes, with comparisons that may answer anything and may panic (properties C130-C131).

    The user's [Ord] is any function [ask : nat -> Q -> Q -> option comparison], as in PropertiesAskAny.v: what comparison
    number [n] of two keys answers, or [None] if it panics. Clone number [i] of an entry panics if [bomb i]. [hany h m l]:
    following the pointers of [m] in the heap [h] gives a balanced tree whose entries from left to right are [l], and [len]
    is their number. [said bor ask n n' q e]: one of the comparisons from number [n] up to [n'] told that [q] and the key of
    [e] are equal. *)
From Coq Require Import List ZArith Bool Permutation Lia.
From Verif Require Import Base Spec MapSpec AvlModel AvlIterModel Ask AskSpec AskAnySpec Heap HeapProofs AvlHeapModel AvlHeapAskModel AvlHeapHistModel
  AvlHeapHistSpec AvlHeapSpec AvlHeapAskHistModel AnyOrdSpec AnyHeapSpec AskHeapSpec AvlAnyProofs AvlHeapAskProofs5.
Import ListNotations.
Open Scope Z_scope.

(** ** C130: one call on a map that shares nodes with others *)
(** The counts stay exact; every other map [O] owns what it owned before ([frame]); at most the nodes on the path that the
    answers choose are cloned, and not those after the comparison that panics. If it unwinds, the map is as it was. *)
Theorem C130_insert : forall K V Q (bor : K -> Q) ask bomb (h : heap (pay K V)) m a l k v n O,
  sound h (olist (hm_root m) ++ O) -> hm_read h m = Ok a -> a_any a l -> small l ->
  exists h' m' n' o cs, hm_insert_t bor ask bomb h m k v n = Ok (h', m', n', o) /\ (n <= n')%nat
    /\ sound h' (olist (hm_root m') ++ O) /\ frame O h h'
    /\ clones h' = cs ++ clones h /\ sub cs (path_t bor ask n (am_root a) (bor k))
    /\ match o with
       | Done x => exists l', hany h' m' l' /\ may_insert bor (said bor ask n n') k v l l' x
       | Unwound => hm_read h' m' = Ok a /\ ((exists i, bomb i = true) \/ panicked ask n')
       end.
Proof. exact @insert_t_lazy. Qed.
Print Assumptions C130_insert.
Theorem C130_get_mut : forall K V Q (bor : K -> Q) ask bomb (h : heap (pay K V)) m a l q w n O,
  sound h (olist (hm_root m) ++ O) -> hm_read h m = Ok a -> a_any a l -> small l ->
  exists h' m' n' o cs, hm_get_mut_t bor ask bomb h m q w n = Ok (h', m', n', o) /\ (n <= n')%nat
    /\ sound h' (olist (hm_root m') ++ O) /\ frame O h h'
    /\ clones h' = cs ++ clones h /\ sub cs (path_t bor ask n (am_root a) q)
    /\ match o with
       | Done x => exists l', hany h' m' l' /\ may_get_mut (said bor ask n n') q w l l' x
       | Unwound => hm_read h' m' = Ok a /\ ((exists i, bomb i = true) \/ panicked ask n')
       end.
Proof. exact @get_mut_t_lazy. Qed.
Print Assumptions C130_get_mut.
(** A removal that unwinds because of a comparison leaves the map as it was; because of a clone, it may lose entries
    (as with an order). *)
Theorem C130_remove : forall K V Q (bor : K -> Q) ask bomb (h : heap (pay K V)) m a l q n O,
  sound h (olist (hm_root m) ++ O) -> hm_read h m = Ok a -> a_any a l -> small l ->
  exists h' m' n' o cs, hm_remove_entry_t bor ask bomb h m q n = Ok (h', m', n', o) /\ (n <= n')%nat
    /\ sound h' (olist (hm_root m') ++ O) /\ frame O h h'
    /\ clones h' = cs ++ clones h /\ sub cs (near_t bor ask n (am_root a) q)
    /\ match o with
       | Done x => exists l', hany h' m' l' /\ may_remove (said bor ask n n') q l l' x
       | Unwound => (hm_read h' m' = Ok a /\ panicked ask n')
           \/ ((exists i, bomb i = true) /\ hm_len m' = length l /\ exists t, den h' (hm_root m') (tv t) /\ sub (elems t) l)
       end.
Proof. exact @remove_t_lazy. Qed.
Print Assumptions C130_remove.
Theorem C130_get : forall K V Q (bor : K -> Q) ask (h : heap (pay K V)) m l q n, hany h m l -> small l ->
  exists n' r, hm_get_key_value_t bor ask h m q n = Ok (n', r) /\ (n <= n')%nat
    /\ match r with Done x => forall e, x = Some e -> In e l /\ said bor ask n n' q e | Unwound => panicked ask n' end.
Proof. exact @get_t_lazy. Qed.
Print Assumptions C130_get.
(** An [append] that unwinds leaves two maps without nodes whose [len] is as before; no node is leaked. *)
Theorem C130_append : forall K V Q (bor : K -> Q) ask bomb (h : heap (pay K V)) m1 m2 l1 l2 n O,
  sound h (olist (hm_root m1) ++ olist (hm_root m2) ++ O) ->
  hany h m1 l1 -> hany h m2 l2 -> Z.of_nat (length l1 + length l2) <= 2 ^ 63 -> small l1 -> small l2 ->
  exists h' m1' m2' n' r, hm_append_t bor ask bomb h m1 m2 n = Ok (h', m1', m2', n', r) /\ (n <= n')%nat
    /\ sound h' (olist (hm_root m1') ++ olist (hm_root m2') ++ O) /\ frame O h h'
    /\ match r with
       | Done _ => m2' = hm_new /\ exists only_a only_b both l, may_pair bor (said bor ask n n') l1 l2 only_a only_b both
           /\ hany h' m1' l /\ Permutation l (only_a ++ l2)
       | Unwound => m1' = HMap (length l1) None /\ m2' = HMap (length l2) None /\ ((exists i, bomb i = true) \/ panicked ask n')
       end.
Proof. exact @append_t_lazy. Qed.
Print Assumptions C130_append.

(** ** C131: any history of calls on any number of maps *)
(** Comparisons, clones and predicates panic when they please; the client catches the panics and goes on. *)
Theorem C131_history : forall K V Q (bor : K -> Q) ask keq veq kcmp vcmp bomb fbomb (os : list (op K V Q)),
  Forall calm os -> ask_grows os 0 < 2 ^ 63 ->
  exists h ms n rs ls, h_run_t bor ask keq veq kcmp vcmp bomb fbomb (empty_heap, []) 0 os = Ok ((h, ms), n, rs)
    /\ ask_follows bor ask keq veq kcmp vcmp ((exists i, bomb i = true) \/ exists k v, fbomb k v = true) 0 [] os rs n ls
    /\ sound h (roots ms) /\ Forall2 (hany h) ms ls
    /\ exists h', h_drop_all h ms = Ok h' /\ forall a, get h' a = None.
Proof. exact @history_t. Qed.
Print Assumptions C131_history.
(** One call, on any heap that the maps own exactly. *)
Theorem C131_call : forall K V Q (bor : K -> Q) ask keq veq kcmp vcmp bomb fbomb (h : heap (pay K V)) ms ls (o : op K V Q) n,
  sound h (roots ms) -> Forall2 (hany h) ms ls -> calm o ->
  (forall l, In l ls -> Z.of_nat (length l) <= 2 ^ 61) ->
  match o with OFromIter ps | OExtend _ ps => Z.of_nat (length ps) <= 2 ^ 61 | _ => True end ->
  exists h' ms' n' r ls', h_step_t bor ask keq veq kcmp vcmp bomb fbomb (h, ms) n o = Ok ((h', ms'), n', r) /\ (n <= n')%nat
    /\ sound h' (roots ms') /\ Forall2 (hany h') ms' ls'
    /\ match r with
       | Done ob => ask_did bor ask keq veq kcmp vcmp n n' ls o ob ls'
       | Unwound => (((exists i, bomb i = true) \/ exists k v, fbomb k v = true) \/ panicked ask n') /\ ask_unwound bor ask n n' ls o ls'
       end.
Proof. exact @call_t. Qed.
Print Assumptions C131_call.

(** *** Samples *)
Definition zid (k : Z) : Z := k.
(** Seven answers in turn, whatever the keys; the comparisons in [stops] panic. *)
Definition whim (stops : list nat) (n : nat) (_ _ : Z) : option comparison :=
  if existsb (Nat.eqb n) stops then None else nth_error [Gt; Lt; Gt; Gt; Gt; Lt; Eq] (Nat.modulo n 7).
Definition ent (n : Z) : Z * Z := (n, 10 * n).
Definition zops : list (op Z Z Z) :=
  [OFromIter (map ent [1; 2; 3; 4; 5; 6; 7; 8]); OClone 0; OInsert 1 9 90; OInsert 1 10 100; OGet 0 5; ORemove 1 3; OUnion 0 1;
   OPopFirst 1; OExtend 0 (map ent [11; 12; 13]); OAppend 0 1].
Definition zrun stops bomb := h_run_t zid (whim stops) Z.eqb Z.eqb Z.compare Z.compare bomb (fun _ _ => false) (empty_heap, []) 0 zops.
Definition show (x : res (@world Z Z * nat * list (out (obs Z Z)))) :=
  match x with
  | Ok ((h, ms), n, rs) => Some (n, rs, map (fun m => match hm_read h m with Ok a => Some (map fst (elems (am_root a))) | Panic => None end) ms)
  | Panic => None
  end.
Example C131_ex : Forall calm zops /\ ask_grows zops 0 < 2 ^ 63.
Proof. split; [|vm_compute; reflexivity]. repeat constructor. Qed.
(** 56 comparisons answered at random, ... *)
Example C131_ex' : show (zrun [] (fun _ => false)) = Some (56%nat,
  [Done RUnit; Done RUnit; Done (RVal (Some 50)); Done (RVal None); Done (RVal (Some 80)); Done (RVal None); Done RUnit;
   Done (REntry (Some (3, 30))); Done RUnit; Done RUnit],
  [Some [6; 9; 7; 3; 6; 10; 2; 8; 7; 11; 13; 2; 12; 4]; Some []; Some [3; 6; 3; 6; 9; 7; 10; 2; 8; 4; 2; 8; 4]]).
Proof. vm_compute. reflexivity. Qed.
(** ... and with panics in [insert], [get], [union], [extend] and [append] ... *)
Example C131_ex'' : show (zrun [16; 20; 24; 28; 33]%nat (fun _ => false)) = Some (34%nat,
  [Done RUnit; Done RUnit; Done (RVal (Some 50)); Unwound; Unwound; Done (RVal None); Unwound; Done (REntry (Some (3, 30)));
   Unwound; Unwound], [Some []; Some []]).
Proof. vm_compute. reflexivity. Qed.
(** ... and a panic of the second clone, in the removal. *)
Example C131_ex''' : show (zrun [16; 20; 24; 28; 33]%nat (fun i => Nat.eqb i 1)) = Some (25%nat,
  [Done RUnit; Done RUnit; Done (RVal (Some 50)); Unwound; Unwound; Unwound; Done RUnit; Done (REntry None); Unwound; Done RUnit],
  [Some [3; 6; 5; 7; 11; 2; 8; 4]; Some []; Some [3; 6; 5; 7; 2; 8; 4]]).
Proof. vm_compute. reflexivity. Qed.

(** Two maps that share all their nodes but the ones on a path, for C130 and [C131_call]. *)
Definition zw := Eval vm_compute in
  match h_run_t zid (whim []) Z.eqb Z.eqb Z.compare Z.compare (fun _ => false) (fun _ _ => false) (empty_heap, []) 0 (firstn 3 zops) with
  | Ok (w, _, _) => w | Panic => (empty_heap, []) end.
Definition zh := fst zw.
Definition z0 := Eval vm_compute in nth 0 (snd zw) (HMap 0 None).
Definition z1 := Eval vm_compute in nth 1 (snd zw) (HMap 0 None).
Definition za := Eval vm_compute in match hm_read zh z0 with Ok a => a | Panic => AvlMap 0 Leaf end.
Definition zl := Eval vm_compute in elems (am_root za).
Definition zl1 := Eval vm_compute in match hm_read zh z1 with Ok a => elems (am_root a) | Panic => [] end.
Lemma hany_elems (h : heap (pay Z Z)) m l a : hany h m l -> hm_read h m = Ok a -> l = elems (am_root a).
Proof. intros (b & E & A) E'. rewrite E in E'. injection E' as ->. apply aany_iff in A as (_ & A & _). congruence. Qed.
Example C130_ex : sound zh (olist (hm_root z0) ++ olist (hm_root z1)) /\ hm_read zh z0 = Ok za
  /\ a_any za zl /\ small zl /\ hany zh z0 zl /\ hany zh z1 zl1 /\ small zl1 /\ Z.of_nat (length zl + length zl1) <= 2 ^ 63
  /\ sound zh (roots [z0; z1]) /\ Forall2 (hany zh) [z0; z1] [zl; zl1].
Proof.
  destruct (C131_history _ _ _ zid (whim []) Z.eqb Z.eqb Z.compare Z.compare (fun _ => false) (fun _ _ => false) (firstn 3 zops))
    as (h & ms & n & rs & ls & E & _ & S & A & _); [repeat constructor|vm_compute; reflexivity|].
  apply (f_equal (fun r => match r with Ok (w, _, _) => w | Panic => zw end)) in E. cbv beta iota in E.
  assert (X : (h, ms) = zw) by (rewrite <- E; vm_compute; reflexivity). clear E.
  assert (Y : zw = (zh, [z0; z1])) by (vm_compute; reflexivity). rewrite Y in X. injection X as -> ->.
  inversion A as [|x a xs l H A']; subst. inversion A' as [|y b ys l2 H' A'']; subst. inversion A''; subst.
  assert (E0 : hm_read zh z0 = Ok za) by (vm_compute; reflexivity).
  assert (E1 : exists x, hm_read zh z1 = Ok x /\ elems (am_root x) = zl1) by (eexists; split; vm_compute; reflexivity).
  destruct E1 as (x & E1 & X).
  assert (Ha : a = zl) by (rewrite (hany_elems _ _ _ _ H E0); vm_compute; reflexivity).
  assert (Hb : b = zl1) by (rewrite (hany_elems _ _ _ _ H' E1); exact X). subst a b.
  split; [exact S|]. split; [exact E0|].
  split; [destruct H as (y & E & H); rewrite E0 in E; injection E as <-; exact H|]. split; [vm_compute; reflexivity|].
  split; [exact H|]. split; [exact H'|]. split; [vm_compute; reflexivity|]. split; [vm_compute; discriminate|]. split; [exact S|exact A].
Qed.
(** An [insert] whose second comparison panics has cloned nodes, and both maps are as before. *)
Example C130_ex' : zl = map ent [3; 6; 5; 7; 2; 8; 4] /\ zl1 = map ent [3; 6; 9; 7; 2; 8; 4]
  /\ match hm_insert_t zid (whim [19%nat]) (fun _ => false) zh z0 20 200 17 with
     | Ok (h', m', n', Unwound) => n' = 20%nat /\ (length (clones zh) < length (clones h'))%nat /\ hm_read h' m' = Ok za
         /\ match hm_read h' z1 with Ok b => elems (am_root b) = zl1 | Panic => False end
     | _ => False end
  /\ match hm_append_t zid (whim [19%nat]) (fun _ => false) zh z0 z1 17 with
     | Ok (h', m1', m2', n', Unwound) => m1' = HMap 7 None /\ m2' = HMap 7 None /\ forall a, get h' a = None
     | _ => False end.
Proof.
  split; [reflexivity|]. split; [reflexivity|]. split.
  - vm_compute. repeat split. lia.
  - destruct C130_ex as (S & E & A & Sm & H0 & H1 & Sm1 & Ft & _ & _).
    destruct (C130_append _ _ _ zid (whim [19%nat]) (fun _ => false) zh z0 z1 zl zl1 17 [] ltac:(rewrite app_nil_r; exact S) H0 H1 Ft Sm Sm1)
      as (h' & m1' & m2' & n' & r & Ea & _ & So & _ & R).
    rewrite Ea. assert (r = Unwound) as -> by (apply (f_equal (fun x => match x with Ok (_, _, _, _, r) => r | Panic => Unwound end)) in Ea;
      cbv beta iota in Ea; rewrite <- Ea; vm_compute; reflexivity).
    destruct R as (-> & -> & _). split; [reflexivity|]. split; [reflexivity|].
    destruct So as [W Ac]. now apply no_leak.
Qed.
