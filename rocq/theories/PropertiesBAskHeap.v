(** [BTreeMap]s that share nodes, with comparisons that may answer anything and may panic (properties C132-C133).

    The user's [Ord] is any function [ask : nat -> Q -> Q -> option comparison], as in PropertiesAskAny.v: what comparison
    number [n] of two keys answers, or [None] if it panics. Clone number [i] of a node's entries panics if [bomb i].
    [hbany N h m l]: following the pointers of [m] in the heap [h] gives a B-tree of the right shape whose entries from left
    to right are [l], and [len] is their number. [said bor ask n n' q e]: one of the comparisons from number [n] up to [n']
    told that [q] and the key of [e] are equal. *)
From Coq Require Import List PeanoNat Bool Lia.
From Verif Require Import Base Spec MapSpec Heap BTreeModel Ask AskSpec AskAnySpec BTreeHeapModel BTreeHeapAskModel BTreeHeapSpec BTreeHeapHistModel
  BTreeHeapHistSpec BTreeHeapAskHistModel AnyOrdSpec BAnyHeapSpec BAskHeapSpec BTreeHeapAnyProofs2 BTreeHeapAskProofs5.
Import ListNotations.
Open Scope nat_scope.

(** ** C132: one call on a map that shares nodes with others *)
(** The counts stay exact; every other map [O] owns what it owned before ([frame]); at most the nodes on the path that the
    answers choose are cloned, and not those after the comparison that panics. If it unwinds, the map is as it was. *)
Theorem C132_insert : forall K V Q (bor : K -> Q) ask N, 1 <= N -> forall bomb (h : heap (list (K * V))) m b l k v n O,
  sound h (olist (hb_root m) ++ O) -> hb_read h m = Ok b -> b_any N b l ->
  exists h' m' n' o cs, hb_insert_t bor ask N bomb h m k v n = Ok (h', m', n', o) /\ n <= n'
    /\ sound h' (olist (hb_root m') ++ O) /\ frame O h h'
    /\ clones h' = cs ++ clones h /\ sub cs (match bm_root b with Some t => path_t bor ask (bor k) t n | None => [] end)
    /\ match o with
       | Done x => exists l', may_insert bor (said bor ask n n') k v l l' x /\ hbany N h' m' l'
       | Unwound => hb_read h' m' = Ok b /\ ((exists i, bomb i = true) \/ panicked ask n')
       end.
Proof. exact @insert_t_lazy. Qed.
Print Assumptions C132_insert.
Theorem C132_get_mut : forall K V Q (bor : K -> Q) ask N, 1 <= N -> forall bomb (h : heap (list (K * V))) m b l q w n O,
  sound h (olist (hb_root m) ++ O) -> hb_read h m = Ok b -> b_any N b l ->
  exists h' m' n' o cs, hb_get_mut_t bor ask bomb h m q w n = Ok (h', m', n', o) /\ n <= n'
    /\ sound h' (olist (hb_root m') ++ O) /\ frame O h h'
    /\ clones h' = cs ++ clones h /\ sub cs (match bm_root b with Some t => path_t bor ask q t n | None => [] end)
    /\ match o with
       | Done x => exists l', may_get_mut (said bor ask n n') q w l l' x /\ hbany N h' m' l'
       | Unwound => hb_read h' m' = Ok b /\ ((exists i, bomb i = true) \/ panicked ask n')
       end.
Proof. exact @get_mut_t_lazy. Qed.
Print Assumptions C132_get_mut.
(** [remove] first looks whether the key is there, which ends at comparison [n1], and then descends anew. One that unwinds
    because of a comparison leaves the map as it was; because of a clone, it may lose entries (as with an order). *)
Theorem C132_remove : forall K V Q (bor : K -> Q) ask N, 1 <= N -> forall bomb (h : heap (list (K * V))) m b l q n O,
  sound h (olist (hb_root m) ++ O) -> hb_read h m = Ok b -> b_any N b l ->
  exists h' m' n1 n' o cs, hb_remove_t bor ask N bomb h m q n = Ok (h', m', n', o) /\ n <= n1 <= n'
    /\ sound h' (olist (hb_root m') ++ O) /\ frame O h h'
    /\ clones h' = cs ++ clones h /\ sub cs (match bm_root b with Some t => near_t bor ask q t n1 | None => [] end)
    /\ match o with
       | Done x => exists l', may_remove_val (said bor ask n n') q l l' x /\ hbany N h' m' l'
       | Unwound => (hb_read h' m' = Ok b /\ panicked ask n')
           \/ ((exists i, bomb i = true) /\ exists t, hb_read h' m' = Ok (BMap (length l) (Some t)) /\ sub (in_order t) l)
       end.
Proof. exact @remove_t_lazy. Qed.
Print Assumptions C132_remove.
Theorem C132_get : forall K V Q (bor : K -> Q) ask N, 1 <= N -> forall (h : heap (list (K * V))) m l q n, hbany N h m l ->
  exists n' o, hb_get_t bor ask h m q n = Ok (n', o) /\ n <= n'
    /\ match o with Done r => may_get (said bor ask n n') q l r | Unwound => panicked ask n' end.
Proof. exact @get_t_lazy. Qed.
Print Assumptions C132_get.
(** An [append] that unwinds has moved the entries before some entry, and dropped the others. *)
Theorem C132_append : forall K V Q (bor : K -> Q) ask N, 1 <= N -> forall bomb (h : heap (list (K * V))) m1 m2 l1 l2 n O,
  sound h (olist (hb_root m1) ++ olist (hb_root m2) ++ O) -> hbany N h m1 l1 -> hbany N h m2 l2 ->
  exists h' m' n' o, hb_append_t bor ask N bomb h m1 m2 n = Ok (h', m', hb_new, n', o) /\ n <= n'
    /\ sound h' (olist (hb_root m') ++ O) /\ frame O h h'
    /\ match o with
       | Done _ => exists l', may_extend bor (said bor ask n n') l2 l1 l' /\ hbany N h' m' l'
       | Unwound => (exists done p rest l', l2 = done ++ p :: rest /\ may_extend bor (said bor ask n n') done l1 l' /\ hbany N h' m' l')
           /\ ((exists i, bomb i = true) \/ panicked ask n')
       end.
Proof. exact @append_t_lazy. Qed.
Print Assumptions C132_append.
(** [retain] and [split_off] rebuild the map by insertions, which compare. One that unwinds leaves an empty map. *)
Theorem C132_retain : forall K V Q (bor : K -> Q) ask N, 1 <= N -> forall bomb (g : K -> V -> V * bool) fbomb (h : heap (list (K * V))) m l n O,
  sound h (olist (hb_root m) ++ O) -> hbany N h m l ->
  exists h' m' n' o, hb_retain_t bor ask N bomb (fun s k v => (s, fst (g k v), snd (g k v))) (fun _ k v => fbomb k v) h m tt n = Ok (h', m', n', o)
    /\ n <= n' /\ sound h' (olist (hb_root m') ++ O) /\ frame O h h'
    /\ match o with
       | Done _ => exists l', may_extend bor (said bor ask n n') (s_retain g l) [] l' /\ hbany N h' m' l'
       | Unwound => hbany N h' m' [] /\ (((exists i, bomb i = true) \/ panicked ask n') \/ exists k v, fbomb k v = true)
       end.
Proof. exact @retain_t_lazy. Qed.
Print Assumptions C132_retain.
Theorem C132_split_off : forall K V Q (bor : K -> Q) ask N, 1 <= N -> forall bomb (h : heap (list (K * V))) m l q n O,
  sound h (olist (hb_root m) ++ O) -> hbany N h m l ->
  exists h' m' n' o, hb_split_off_t bor ask N bomb h m q n = Ok (h', m', n', o) /\ n <= n' /\ frame O h h'
    /\ match o with
       | Done m2 => sound h' (olist (hb_root m') ++ olist (hb_root m2) ++ O)
           /\ exists p1 p2 l1 l2, may_part bor ask n n' q l p1 p2
              /\ may_extend bor (said bor ask n n') p1 [] l1 /\ may_extend bor (said bor ask n n') p2 [] l2
              /\ hbany N h' m' l1 /\ hbany N h' m2 l2
       | Unwound => sound h' (olist (hb_root m') ++ O) /\ hbany N h' m' [] /\ ((exists i, bomb i = true) \/ panicked ask n')
       end.
Proof. exact @split_off_t_lazy. Qed.
Print Assumptions C132_split_off.
(** The nodes that may be cloned are few, whatever the comparisons answer. *)
Theorem C132_few : forall K V Q (bor : K -> Q) ask N, 1 <= N -> forall (b : bt_map K V) l t q n, b_any N b l -> bm_root b = Some t ->
  exists d, 2 * (N + 1) ^ d <= length l + 1
    /\ length (path_t bor ask q t n) <= d + 1 /\ length (near_t bor ask q t n) <= 2 * d + 1.
Proof. exact @few_t. Qed.
Print Assumptions C132_few.

(** ** C133: any history of calls on any number of maps *)
(** Comparisons, clones and predicates panic when they please; the client catches the panics and goes on. *)
Theorem C133_history : forall K V Q (bor : K -> Q) ask N, 1 <= N ->
  forall keq veq kcmp vcmp bomb fbomb (os : list (op K V Q)), Forall b_calm os ->
  exists h ms n rs ls, hb_run_t bor ask N keq veq kcmp vcmp bomb fbomb (empty_heap, []) 0 os = Ok ((h, ms), n, rs)
    /\ bask_follows bor ask keq veq kcmp vcmp ((exists i, bomb i = true) \/ exists k v, fbomb k v = true) 0 [] os rs n ls
    /\ sound h (broots ms) /\ Forall2 (hbany N h) ms ls
    /\ exists h', hb_drop_all h ms = Ok h' /\ forall a, get h' a = None.
Proof. exact @history_t. Qed.
Print Assumptions C133_history.
(** One call, on any heap that the maps own exactly. *)
Theorem C133_call : forall K V Q (bor : K -> Q) ask N, 1 <= N ->
  forall keq veq kcmp vcmp bomb fbomb (h : heap (list (K * V))) ms ls (o : op K V Q) n,
  sound h (broots ms) -> Forall2 (hbany N h) ms ls -> b_calm o ->
  exists h' ms' n' r ls', hb_step_t bor ask N keq veq kcmp vcmp bomb fbomb (h, ms) n o = Ok ((h', ms'), n', r) /\ n <= n'
    /\ sound h' (broots ms') /\ Forall2 (hbany N h') ms' ls'
    /\ match r with
       | Done ob => bask_did bor ask keq veq kcmp vcmp n n' ls o ob ls'
       | Unwound => (((exists i, bomb i = true) \/ exists k v, fbomb k v = true) \/ panicked ask n') /\ bask_unwound bor ask n n' ls o ls'
       end.
Proof. exact @call_t. Qed.
Print Assumptions C133_call.

(** *** Samples *)
Definition nid (k : nat) : nat := k.
(** Seven answers in turn, whatever the keys; the comparisons in [stops] panic. *)
Definition whim (stops : list nat) (n : nat) (_ _ : nat) : option comparison :=
  if existsb (Nat.eqb n) stops then None else nth_error [Gt; Lt; Gt; Gt; Gt; Lt; Eq] (Nat.modulo n 7).
Definition ent (n : nat) : nat * nat := (n, 10 * n).
Definition nops : list (op nat nat nat) :=
  [OFromIter (map ent [1; 2; 3; 4; 5; 6; 7; 8]); OClone 0; OInsert 1 9 90; OInsert 1 10 100; OGet 0 5; ORemove 1 3; OClone 1;
   OExtend 0 (map ent [11; 12; 13]); OAppend 0 1; ORetain 2 (fun k v => (v + 1, negb (k =? 2))); OSplitOff 0 3; OPopFirst 0].
Definition nrun stops bomb := hb_run_t nid (whim stops) 1 Nat.eqb Nat.eqb Nat.compare Nat.compare bomb (fun _ _ => false) (empty_heap, []) 0 nops.
Definition keys (h : heap (list (nat * nat))) m : option (list nat) :=
  match hb_read h m with Ok b => Some (map fst (match bm_root b with Some t => in_order t | None => [] end)) | Panic => None end.
Definition show (x : res (hb_world (K := nat) (V := nat) * nat * list (out (obs nat nat)))) :=
  match x with Ok ((h, ms), n, rs) => Some (n, rs, map (keys h) ms) | Panic => None end.
Example C133_ex : Forall b_calm nops.
Proof. repeat constructor. Qed.
(** A hundred comparisons answered at random, ... *)
Example C133_ex' : show (nrun [] (fun _ => false)) = Some (100,
  [Done RUnit; Done RUnit; Done (RVal None); Done (RVal None); Done (RVal (Some 80)); Done (RVal None); Done RUnit; Done RUnit; Done RUnit;
   Done RUnit; Done RUnit; Done (REntry (Some (7, 70)))],
  [Some [10; 2; 7; 2; 6]; Some []; Some [4; 10; 5; 8; 7]; Some [5; 9; 4; 13; 4; 12]]).
Proof. vm_compute. reflexivity. Qed.
(** ... with panics in [insert], [extend] and [append], which has moved some entries, ... *)
Example C133_ex'' : show (nrun [19; 30; 41] (fun _ => false)) = Some (72,
  [Done RUnit; Done RUnit; Done (RVal None); Unwound; Done (RVal (Some 80)); Done (RVal None); Done RUnit; Unwound; Unwound;
   Done RUnit; Done RUnit; Done (REntry (Some (9, 90)))],
  [Some [5; 7; 8]; Some []; Some [7; 5; 4; 8; 9]; Some [11; 5; 4; 6; 2]]).
Proof. vm_compute. reflexivity. Qed.
(** ... in [remove], [extend] and [split_off], ... *)
Example C133_ex3 : show (nrun [19; 22; 30; 42; 60] (fun _ => false)) = Some (43,
  [Done RUnit; Done RUnit; Done (RVal None); Unwound; Done (RVal (Some 80)); Unwound; Done RUnit; Unwound; Done RUnit; Done RUnit; Unwound;
   Done (REntry None)], [Some []; Some []; Some []]).
Proof. vm_compute. reflexivity. Qed.
(** ... and with a panic of the second clone, in the first [insert]. *)
Example C133_ex4 : show (nrun [] (fun i => i =? 1)) = Some (90,
  [Done RUnit; Done RUnit; Unwound; Done (RVal None); Done (RVal (Some 80)); Done (RVal None); Done RUnit; Done RUnit; Done RUnit; Done RUnit;
   Done RUnit; Done (REntry (Some (5, 50)))],
  [Some [7; 13; 4; 11; 4]; Some []; Some [7; 10; 5; 8; 4]; Some [2; 7; 10; 2]]).
Proof. vm_compute. reflexivity. Qed.

(** Two maps that share all their nodes but the ones on a path, for C132 and [C133_call]. *)
Definition nw := Eval vm_compute in
  match hb_run_t nid (whim []) 1 Nat.eqb Nat.eqb Nat.compare Nat.compare (fun _ => false) (fun _ _ => false) (empty_heap, []) 0 (firstn 3 nops) with
  | Ok (w, _, _) => w | Panic => (empty_heap, []) end.
Definition nh := fst nw.
Definition n0 := Eval vm_compute in nth 0 (snd nw) hb_new.
Definition n1 := Eval vm_compute in nth 1 (snd nw) hb_new.
Definition nb0 := Eval vm_compute in match hb_read nh n0 with Ok b => b | Panic => b_new end.
Definition nl0 := map ent [5; 8; 6; 2; 7; 4].
Definition nl1 := map ent [5; 8; 6; 9; 2; 7; 4].
Lemma hbany_entries (h : heap (list (nat * nat))) m l b t : hbany 1 h m l -> hb_read h m = Ok b -> bm_root b = Some t -> l = in_order t.
Proof. intros (b' & E & A) E' R. rewrite E in E'. injection E' as ->. now apply any_in_order with (2 := R) in A. Qed.
Example C132_ex : sound nh (olist (hb_root n0) ++ olist (hb_root n1)) /\ hb_read nh n0 = Ok nb0 /\ b_any 1 nb0 nl0
  /\ hbany 1 nh n0 nl0 /\ hbany 1 nh n1 nl1 /\ sound nh (broots [n0; n1]) /\ Forall2 (hbany 1 nh) [n0; n1] [nl0; nl1].
Proof.
  destruct (C133_history _ _ _ nid (whim []) 1 (le_n 1) Nat.eqb Nat.eqb Nat.compare Nat.compare (fun _ => false) (fun _ _ => false) (firstn 3 nops))
    as (h & ms & n & rs & st & E & _ & S & A & _); [repeat constructor|].
  apply (f_equal (fun r => match r with Ok (w, _, _) => w | Panic => nw end)) in E. cbv beta iota in E.
  assert (X : (h, ms) = nw) by (rewrite <- E; vm_compute; reflexivity). clear E.
  assert (Y : nw = (nh, [n0; n1])) by (vm_compute; reflexivity). rewrite Y in X. injection X as -> ->.
  inversion A as [|x a xs l H A']; subst. inversion A' as [|y b ys l2 H' A'']; subst. inversion A''; subst.
  assert (E0 : hb_read nh n0 = Ok nb0) by (vm_compute; reflexivity).
  assert (Ha : a = nl0) by (rewrite (hbany_entries _ _ _ _ _ H E0 eq_refl); vm_compute; reflexivity).
  assert (E1 : exists x t, hb_read nh n1 = Ok x /\ bm_root x = Some t /\ in_order t = nl1)
    by (eexists _, _; split; [vm_compute; reflexivity|split; [reflexivity|vm_compute; reflexivity]]).
  destruct E1 as (x & t & E1 & R & X). assert (Hb : b = nl1) by (rewrite (hbany_entries _ _ _ _ _ H' E1 R); exact X). subst a b.
  split; [unfold broots in S; cbn [flat_map] in S; rewrite app_nil_r in S; exact S|]. split; [exact E0|].
  split; [destruct H as (y & E & H); rewrite E0 in E; injection E as <-; exact H|]. split; [exact H|]. split; [exact H'|]. split; [exact S|exact A].
Qed.
(** An [insert] whose third comparison panics has cloned a shared node, and both maps are as before. An [append] that
    unwinds has moved some of the entries. *)
Example C132_ex' :
  match hb_insert_t nid (whim [19]) 1 (fun _ => false) nh n0 20 200 17 with
  | Ok (h', m', n', Unwound) => n' = 20 /\ clones h' = [[(7, 70); (4, 40)]] ++ clones nh /\ hb_read h' m' = Ok nb0 /\ hbany 1 h' n1 nl1
  | _ => False end
  /\ match hb_append_t nid (whim [24]) 1 (fun _ => false) nh n0 n1 17 with
     | Ok (h', m1', m2', n', Unwound) => m2' = hb_new /\ n' = 25 /\ keys h' m1' = Some [5; 8; 6; 6; 2; 5; 7; 4] /\ exists l', hbany 1 h' m1' l'
     | _ => False end.
Proof.
  destruct C132_ex as (S & E & A & H0 & H1 & _). split.
  - destruct (C132_insert _ _ _ nid (whim [19]) 1 (le_n 1) (fun _ => false) nh n0 nb0 _ 20 200 17 _ S E A) as (h' & m' & n' & o & cs & Ei & _ & _ & F & _ & _ & P).
    assert (H : hbany 1 h' n1 nl1) by (eapply frame_any; eauto using incl_refl).
    rewrite Ei. vm_compute in Ei. injection Ei as Eh _ <- <-. destruct P as [P _]. split; [reflexivity|]. split; [rewrite <- Eh; reflexivity|]. auto.
  - destruct (C132_append _ _ _ nid (whim [24]) 1 (le_n 1) (fun _ => false) nh n0 n1 _ _ 17 [] ltac:(rewrite app_nil_r; exact S) H0 H1) as (h' & m' & n' & o & Ei & _ & _ & _ & P).
    rewrite Ei. vm_compute in Ei. injection Ei as Eh Em <- <-. destruct P as [(dn & p & rest & l' & _ & _ & P) _]. split; [reflexivity|]. split; [reflexivity|].
    split; [rewrite <- Eh, <- Em; vm_compute; reflexivity|eauto].
Qed.
