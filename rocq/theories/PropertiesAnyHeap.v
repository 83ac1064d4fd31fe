(** Maps that share nodes, with a key type whose [Ord] is no order (properties C124-C126). [cmp] is any function: no
    law is assumed of it anywhere in this file, and every call of a history may use another one.

    [hany h m l] (AnyHeapSpec.v): following the pointers of [m] in the heap [h] gives a balanced tree whose entries from
    left to right are [l], and [len] is their number. [any_did cmp st o r st'] says what the call [o] may have returned
    and made of the maps' entries [st]; [any_unwound] what it may have made of them if a [clone] or a predicate panicked. *)
From Coq Require Import List ZArith Bool Permutation Lia.
From Verif Require Import Base Spec MapSpec AvlModel AvlIterModel Heap HeapProofs AvlHeapModel AvlHeapHistModel AvlHeapHistSpec AvlHeapSpec
  AnyOrdSpec AnyHeapSpec AvlAnyProofs AvlAnyRange AvlHeapAnyProofs2.
Import ListNotations.
Open Scope Z_scope.

(** ** C124: any history of calls on any number of maps *)
Theorem C124_history : forall K V Q (bor : K -> Q) keq veq kcmp vcmp bomb fbomb (os : list ((Q -> Q -> comparison) * op K V Q)),
  Forall (fun c => tame (snd c)) os -> grows os 0 < 2 ^ 63 ->
  exists h ms rs ls, h_calls bor keq veq kcmp vcmp bomb fbomb (empty_heap, []) os = Ok ((h, ms), rs)
    /\ any_follows bor keq veq kcmp vcmp [] os rs ls
    /\ sound h (roots ms) /\ Forall2 (hany h) ms ls
    /\ (In Unwound rs -> (exists n, bomb n = true) \/ exists k v, fbomb k v = true)
    /\ exists h', h_drop_all h ms = Ok h' /\ forall a, get h' a = None.
Proof. exact @history_any. Qed.
Print Assumptions C124_history.
(** One call, on any heap that the maps own exactly. *)
Theorem C124_call : forall K V Q (bor : K -> Q) keq veq kcmp vcmp bomb fbomb cmp (h : heap (pay K V)) ms ls (o : op K V Q),
  sound h (roots ms) -> Forall2 (hany h) ms ls -> tame o ->
  (forall l, In l ls -> Z.of_nat (length l) <= 2 ^ 61) ->
  match o with OFromIter ps | OExtend _ ps => Z.of_nat (length ps) <= 2 ^ 61 | _ => True end ->
  exists h' ms' r, h_step bor cmp keq veq kcmp vcmp bomb fbomb (h, ms) o = Ok ((h', ms'), r) /\ sound h' (roots ms')
    /\ match r with
       | Done ob => exists ls', any_did bor keq veq kcmp vcmp cmp ls o ob ls' /\ Forall2 (hany h') ms' ls'
       | Unwound => exists ls', any_unwound bor cmp ls o ls' /\ Forall2 (hany h') ms' ls'
                    /\ ((exists n, bomb n = true) \/ exists k v, fbomb k v = true)
       end.
Proof. exact @call_any. Qed.
Print Assumptions C124_call.

(** *** Samples *)
Definition zid (k : Z) : Z := k.
Definition always (c : comparison) (_ _ : Z) : comparison := c.
(** Rock, paper, scissors: 0 < 1 < 2 < 0, modulo 3. *)
Definition cyclic (a b : Z) : comparison := match (a - b) mod 3 with 0 => Eq | 1 => Gt | _ => Lt end.
Definition ent (n : Z) : Z * Z := (n, 10 * n).
Definition zops : list ((Z -> Z -> comparison) * op Z Z Z) :=
  [(always Lt, OFromIter (map ent [1; 2; 3; 4; 5])); (always Eq, OClone 0); (cyclic, OInsert 1 6 60); (always Gt, OInsert 1 7 70);
   (cyclic, ORemove 1 1); (always Eq, OGet 0 9); (always Gt, OGet 0 1); (cyclic, OUnion 0 1); (cyclic, OAppend 0 1);
   (cyclic, ORange 0 (Included 1) (Excluded 3) [Front; Back; Front; Front]); (Z.compare, OCheck 0); (always Eq, OIter 1 [Front])].
Definition zrun bomb := h_calls zid Z.eqb Z.eqb Z.compare Z.compare bomb (fun _ _ => false) (empty_heap, []) zops.
Example C124_ex : Forall (fun c => tame (snd c)) zops /\ grows zops 0 < 2 ^ 63.
Proof. split; [|vm_compute; reflexivity]. repeat constructor. Qed.
(** The calls return, some of them nonsense (the third replaces nothing, though 6 and 3 "are equal"), ... *)
Example C124_ex' : match zrun (fun _ => false) with Ok ((h, ms), rs) =>
  rs = [Done RUnit; Done RUnit; Done (RVal None); Done (RVal None); Done (RVal (Some 40)); Done (RVal (Some 20)); Done (RVal None);
        Done RUnit; Done RUnit; Done (RItems [Some (2, 20); None; None; None]); Done (RBool false); Done (RSeq [(None, 0%nat)])]
  /\ map (fun m => match hm_read h m with Ok a => Some (elems (am_root a)) | Panic => None end) ms =
     [Some (map ent [5; 3; 4; 3; 2; 6; 1; 7]); Some []; Some (map ent [5; 3; 4; 3; 2; 6; 1; 7])]
  | Panic => False end.
Proof. vm_compute. split; reflexivity. Qed.
(** ... and also when the third [clone] panics, in the removal; the client then clears that map. *)
Example C124_ex'' : match zrun (fun n => Nat.eqb n 2) with Ok ((h, ms), rs) =>
  nth_error rs 4 = Some Unwound
  /\ map (fun m => match hm_read h m with Ok a => Some (elems (am_root a)) | Panic => None end) ms =
     [Some (map ent [5; 4; 3; 2; 1]); Some []; Some (map ent [5; 4; 3; 2; 1])]
  | Panic => False end.
Proof. vm_compute. split; reflexivity. Qed.

(** ** C125: a call writes to one map, and clones few nodes *)
(** The counts stay exact; every other map [O] owns what it owned before ([frame]); at most the nodes on one path of the
    tree are cloned, the path that the comparisons choose. A call that unwinds changes no entry (a removal may lose
    some). *)
Theorem C125_insert : forall K V Q (bor : K -> Q) cmp bomb (h : heap (pay K V)) m a l k v O,
  sound h (olist (hm_root m) ++ O) -> hm_read h m = Ok a -> a_any a l -> small l ->
  exists h' m' o cs, hm_insert bor cmp bomb h m k v = Ok (h', m', o) /\ sound h' (olist (hm_root m') ++ O) /\ frame O h h'
    /\ clones h' = cs ++ clones h /\ sub cs (path bor cmp (am_root a) (bor k))
    /\ match o with
       | Done x => exists l', hany h' m' l' /\ any_insert bor cmp k v l l' x
       | Unwound => hany h' m' l /\ exists n, bomb n = true
       end.
Proof. exact @insert_lazy. Qed.
Print Assumptions C125_insert.
Theorem C125_get_mut : forall K V Q (bor : K -> Q) cmp bomb (h : heap (pay K V)) m a l q w O,
  sound h (olist (hm_root m) ++ O) -> hm_read h m = Ok a -> a_any a l -> small l ->
  exists h' m' o cs, hm_get_mut bor cmp bomb h m q w = Ok (h', m', o) /\ sound h' (olist (hm_root m') ++ O) /\ frame O h h'
    /\ clones h' = cs ++ clones h /\ sub cs (path bor cmp (am_root a) q)
    /\ match o with
       | Done x => exists l', hany h' m' l' /\ any_get_mut bor cmp q w l l' x
       | Unwound => hany h' m' l /\ exists n, bomb n = true
       end.
Proof. exact @get_mut_lazy. Qed.
Print Assumptions C125_get_mut.
Theorem C125_remove : forall K V Q (bor : K -> Q) cmp bomb (h : heap (pay K V)) m a l q O,
  sound h (olist (hm_root m) ++ O) -> hm_read h m = Ok a -> a_any a l -> small l ->
  exists h' m' o cs, hm_remove_entry bor cmp bomb h m q = Ok (h', m', o) /\ sound h' (olist (hm_root m') ++ O) /\ frame O h h'
    /\ clones h' = cs ++ clones h /\ sub cs (near bor cmp (am_root a) q)
    /\ match o with
       | Done x => exists l', hany h' m' l' /\ any_remove bor cmp q l l' x
       | Unwound => (hm_len m' = length l /\ exists t, den h' (hm_root m') (tv t) /\ sub (elems t) l) /\ exists n, bomb n = true
       end.
Proof. exact @remove_lazy. Qed.
Print Assumptions C125_remove.
(** [frame] keeps the entries of the other maps. *)
Theorem C125_frame : forall K V (h h' : heap (pay K V)) O m l,
  frame O h h' -> incl (olist (hm_root m)) O -> small l -> hany h m l -> hany h' m l.
Proof. intros K V h h' O m l. exact (frame_hany O h h' m l). Qed.
Print Assumptions C125_frame.

(** Two maps that share all their nodes but the ones on a path. *)
Definition zops3 := firstn 3 zops.
Definition zw := Eval vm_compute in
  match h_calls zid Z.eqb Z.eqb Z.compare Z.compare (fun _ => false) (fun _ _ => false) (empty_heap, []) zops3 with
  | Ok (w, _) => w | Panic => (empty_heap, []) end.
Definition zh := fst zw.
Definition z0 := Eval vm_compute in nth 0 (snd zw) (HMap 0 None).
Definition z1 := Eval vm_compute in nth 1 (snd zw) (HMap 0 None).
Definition za := Eval vm_compute in match hm_read zh z0 with Ok a => a | Panic => AvlMap 0 Leaf end.
Lemma zw_hist : sound zh (olist (hm_root z0) ++ olist (hm_root z1)) /\ exists a b, hany zh z0 a /\ hany zh z1 b.
Proof.
  destruct (C124_history _ _ _ zid Z.eqb Z.eqb Z.compare Z.compare (fun _ => false) (fun _ _ => false) zops3)
    as (h & ms & rs & ls & E & _ & S & A & _); [repeat constructor|vm_compute; reflexivity|].
  apply (f_equal (fun r => match r with Ok (w, _) => w | Panic => zw end)) in E. cbv beta iota in E.
  assert (X : (h, ms) = zw) by (rewrite <- E; vm_compute; reflexivity). clear E.
  assert (Y : zw = (zh, [z0; z1])) by (vm_compute; reflexivity). rewrite Y in X. injection X as -> ->.
  split; [exact S|]. inversion A as [|x a xs l H A']; subst. inversion A' as [|y b ys l2 H' _]; subst. eauto.
Qed.
Lemma hany_elems (h : heap (pay Z Z)) m l a : hany h m l -> hm_read h m = Ok a -> l = elems (am_root a).
Proof. intros (b & E & A) E'. rewrite E in E'. injection E' as ->. apply aany_iff in A as (_ & A & _). congruence. Qed.
Example C125_ex : sound zh (olist (hm_root z0) ++ olist (hm_root z1)) /\ hm_read zh z0 = Ok za
  /\ a_any za (map ent [5; 4; 3; 2; 1]) /\ small (map ent [5; 4; 3; 2; 1]) /\ hany zh z1 (map ent [5; 4; 3; 2; 6; 1])
  /\ small (map ent [5; 4; 3; 2; 6; 1]).
Proof.
  destruct zw_hist as (S & a & b & A & B).
  assert (E0 : hm_read zh z0 = Ok za) by (vm_compute; reflexivity).
  assert (Ha : a = map ent [5; 4; 3; 2; 1]) by (rewrite (hany_elems _ _ _ _ A E0); vm_compute; reflexivity).
  assert (E1 : exists x, hm_read zh z1 = Ok x /\ elems (am_root x) = map ent [5; 4; 3; 2; 6; 1]) by (eexists; split; vm_compute; reflexivity).
  destruct E1 as (x & E1 & X). rewrite (hany_elems _ _ _ _ B E1), X in B.
  split; [exact S|]. split; [exact E0|]. split; [|split; [vm_compute; reflexivity|split; [exact B|vm_compute; reflexivity]]].
  destruct A as (y & E & A). rewrite E0 in E. injection E as <-. now subst a.
Qed.
(** Inserting a key that "equals" an entry of the first map clones a part of the tree, and the second map keeps its entries. *)
Example C125_ex' : match hm_insert zid cyclic (fun _ => false) zh z0 7 70 with
  | Ok (h', m', Done x) => x = Some 40 /\ length (clones h') = S (length (clones zh)) /\ hany h' z1 (map ent [5; 4; 3; 2; 6; 1])
  | _ => False end.
Proof.
  destruct C125_ex as (S & E & A & Sm & B & Sm').
  destruct (C125_insert _ _ _ zid cyclic (fun _ => false) zh z0 za _ 7 70 _ S E A Sm) as (h' & m' & o & cs & Ei & _ & F & _).
  assert (H : hany h' z1 (map ent [5; 4; 3; 2; 6; 1])) by (eapply C125_frame; eauto using incl_refl).
  rewrite Ei. vm_compute in Ei. injection Ei as Eh _ <-. split; [reflexivity|]. split; [|exact H]. rewrite <- Eh. reflexivity.
Qed.

(** ** C126: [range] and [range_mut] of the AVL map *)
(** They never panic (the bounds may be the wrong way round); the entries they give are a part of the map's, in its order;
    the first and the last were told to be in the range ([told_range]). [size_hint] is too large by a constant. *)
Theorem C126_range : forall K V Q (bor : K -> Q) cmp (m : avl_map K V) l lo hi, a_any m l ->
  exists it l', avl_range bor cmp m lo hi = Ok it /\ told_range bor cmp lo hi l l'
    /\ forall cs, exists extra, run_ends norm_destr norm_size cs it = Ok (map (fun x => (fst x, (snd x + extra)%nat)) (s_ends cs l')).
Proof. exact @a_range_any. Qed.
Print Assumptions C126_range.
(** The references of [range_mut] are to different entries, and a write through one of them changes that value only. *)
Theorem C126_range_mut : forall K V Q (bor : K -> Q) cmp (m : avl_map K V) l lo hi, a_any m l ->
  exists all it refs, map snd all = map fst l /\ NoDup (map fst all)
    /\ avl_range_mut bor cmp m lo hi = Ok it /\ sub refs all
    /\ told_range bor cmp lo hi (map (fun r => (snd r, tt)) all) (map (fun r => (snd r, tt)) refs)
    /\ (forall cs, exists extra, run_ends mut_destr mut_size cs it = Ok (map (fun x => (fst x, (snd x + extra)%nat)) (s_ends cs refs)))
    /\ forall i r w, nth_error all i = Some r -> a_any (avl_write r w m) (upd_nth i w l).
Proof. exact @a_range_mut_any. Qed.
Print Assumptions C126_range_mut.
(** The range from 1 to 2 of the entries 5, 4, 3, 2, 1 under the cyclic comparison: 4 and 2 are told to be in it; 3, which
    would be told not to be, comes along; 5 and 1 are missing though a comparison would say that they are in the range. *)
Example C126_ex : a_any za (map ent [5; 4; 3; 2; 1])
  /\ match avl_range zid cyclic za (Included 1) (Included 2) with
     | Ok it => run_ends norm_destr norm_size [Front; Front; Front; Front] it =
         Ok [(Some (4, 40), 4%nat); (Some (3, 30), 3%nat); (Some (2, 20), 2%nat); (None, 2%nat)]
     | Panic => False end.
Proof. split; [apply C125_ex|]. vm_compute. reflexivity. Qed.
