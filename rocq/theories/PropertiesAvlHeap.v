(** Theorems about [AvlMap]s that share nodes (properties C20-C23, C66-C69).

    [hshows bor cmp h m l] (AvlHeapHistSpec.v): following the pointers of the map [m] in the
    heap [h], its [check()] succeeds and [iter()] yields [l]. [sound h O] (AvlHeapSpec.v): the
    count of each cell is the number of pointers to it from other cells and from the
    list [O] of pointers held outside the heap, and there are no cycles. [frame O h h']:
    whatever the pointers [O] stand for in [h] they stand for in [h'].

    [bomb n = true]: call number [n] of the user's [K::clone]/[V::clone] panics.
    [fbomb]: the predicate given to [retain] panics. A call whose panic is caught ends with
    [Unwound]; [Panic] is any panic of the library itself (failed [unwrap], failed
    [try_unwrap], arithmetic overflow, access to a freed node). *)
From Coq Require Import List ZArith Bool Lia Permutation.
From Verif Require Import Base Spec MapSpec Heap HeapProofs AvlModel AvlIterModel AvlHistModel AvlShows
  AvlHeapModel AvlHeapSpec AvlHeapHistModel AvlHeapHistSpec AvlHeapProofs AvlHeapProofs5 AvlHeapProofs6 AvlRetainClones SmallFacts.
Import ListNotations.
Open Scope nat_scope.

(** ** Sample: maps 0 and 1 are clones; 1 was changed after the clone; 2 is another map. *)
Definition never (_ : nat) : bool := false.
Definition fnever (_ _ : nat) : bool := false.
Definition just (n i : nat) : bool := Nat.eqb n i.
Definition nb (k : nat) : nat := k.
Notation nrun bomb fbomb := (h_run nb Nat.compare Nat.eqb Nat.eqb Nat.compare Nat.compare bomb fbomb).
Notation nsrun := (s_run nb Nat.compare Nat.eqb Nat.eqb Nat.compare Nat.compare).
Notation nsmall := (all_small nb Nat.compare Nat.eqb Nat.eqb Nat.compare Nat.compare).
Notation nalways := (always_small nb Nat.compare Nat.eqb Nat.eqb Nat.compare Nat.compare).
Definition kv (n : nat) : nat * nat := (n, 10 * n).
Definition demo_ops : list (op nat nat nat) :=
  [OFromIter (map kv [2; 1; 3; 4]); OClone 0; OInsert 1 5 50; OFromIter (map kv [7; 4])].
Definition world0 : world (K := nat) (V := nat) :=
  Eval vm_compute in match nrun never fnever (empty_heap, []) demo_ops with
                     | Ok (w, _) => w | Panic => (empty_heap, []) end.
Definition dh := fst world0.
Definition dms := snd world0.
Definition d0 := HMap 4 (Some 0).
Definition d1 := HMap 5 (Some 4).
Definition d2 := HMap 2 (Some 8).
Definition l0 := map kv [1; 2; 3; 4].
Definition l1 := map kv [1; 2; 3; 4; 5].
Definition l2 := map kv [4; 7].
Example demo_maps : dms = [d0; d1; d2].
Proof. reflexivity. Qed.
Example demo_small : nsmall [] demo_ops.
Proof. now apply (grow_all_small nb _ _ _ _ _ _ _ 0). Qed.
Lemma Ncmp_laws : order_laws Nat.compare.
Proof.
  constructor.
  - intros a b. apply Nat.compare_antisym.
  - intros a b c H1 H2. apply Nat.compare_lt_iff in H1, H2. apply Nat.compare_lt_iff. lia.
  - intros a b c H1. apply Nat.compare_eq_iff in H1. now subst.
Qed.
Lemma no_faults : faults never fnever -> False.
Proof. intros [[n H]|(k & v & H)]; discriminate. Qed.
Example demo_sound : sound dh (roots dms).
Proof.
  destruct (run_done_h nb Nat.compare Ncmp_laws Nat.eqb Nat.eqb Nat.compare Nat.compare never fnever
              demo_ops no_faults demo_small) as (h & ms & E & S & _).
  assert (E' : nrun never fnever (empty_heap, []) demo_ops = Ok (world0, map Done (snd (nsrun [] demo_ops)))) by (vm_compute; reflexivity).
  rewrite E' in E. apply (f_equal (fun r => match r with Ok (w, _) => w | Panic => world0 end)) in E. cbv iota beta in E.
  unfold dh, dms. rewrite E. exact S.
Qed.
Example demo_shows0 : hshows nb Nat.compare dh d0 l0.
Proof. eexists. split; [vm_compute; reflexivity|split; vm_compute; reflexivity]. Qed.
Example demo_shows1 : hshows nb Nat.compare dh d1 l1.
Proof. eexists. split; [vm_compute; reflexivity|split; vm_compute; reflexivity]. Qed.
Example demo_shows2 : hshows nb Nat.compare dh d2 l2.
Proof. eexists. split; [vm_compute; reflexivity|split; vm_compute; reflexivity]. Qed.
Example demo_shows : Forall2 (hshows nb Nat.compare dh) dms [l0; l1; l2].
Proof. repeat constructor; [exact demo_shows0|exact demo_shows1|exact demo_shows2]. Qed.
Example l1_small : small l1. Proof. reflexivity. Qed.
(** The maps 0 and 1 share two nodes. *)
Example demo_shared : get dh 1 = Some (2, Nd (Pay 1 10 0 0) [None; None]) /\ unique dh 0 = true.
Proof. split; reflexivity. Qed.

(** ** C20: clones are independent. Any history of calls on any number of maps that share
    nodes in any way gives the results of plain lists, one per map, and at the end each
    map shows its list. *)
Theorem C20_histories : forall K V Q (bor : K -> Q) cmp, order_laws cmp ->
  forall keq veq kcmp vcmp bomb fbomb (os : list (op K V Q)),
  (forall n, bomb n = false) -> (forall k v, fbomb k v = false) ->
  all_small bor cmp keq veq kcmp vcmp [] os ->
  exists h ms, h_run bor cmp keq veq kcmp vcmp bomb fbomb (empty_heap, []) os
               = Ok ((h, ms), map Done (snd (s_run bor cmp keq veq kcmp vcmp [] os)))
    /\ sound h (roots ms)
    /\ Forall2 (hshows bor cmp h) ms (fst (s_run bor cmp keq veq kcmp vcmp [] os)).
Proof.
  intros K V Q bor cmp laws keq veq kcmp vcmp bomb fbomb os Hb Hf.
  apply (run_done_h bor cmp laws). intros [[n H]|(k & v & H)]; congruence.
Qed.
Print Assumptions C20_histories.
Definition demo2 : list (op nat nat nat) :=
  demo_ops ++ [ORemove 0 1; OGet 1 1; OGet 0 1; OClone 1; OGetMut 3 2 S; OGet 1 2; OGet 3 2; OAppend 1 2; OLen 1; OLen 3;
               ORetain 3 (fun k v => (v, Nat.even k)); OSplitOff 1 3; OIter 1 [Front; Front; Front]; OIter 4 [Back];
               OIter 3 [Front; Front; Front]; OClear 0; OCheck 4; OUnion 3 4; OIter 5 [Front; Back]].
Example C20_histories_ex : nsmall [] demo2.
Proof. now apply (grow_all_small nb _ _ _ _ _ _ _ 0). Qed.
Example C20_histories_ex' :
  match nrun never fnever (empty_heap, []) demo2 with
  | Ok (_, rs) => skipn 4 rs = map Done
      [RVal (Some 10); RVal (Some 10); RVal None; RUnit; RVal (Some 20); RVal (Some 20); RVal (Some 21); RUnit; RLen 6; RLen 5;
       RUnit; RUnit; RSeq [(Some (1, 10), 1); (Some (2, 20), 0); (None, 0)]; RSeq [(Some (7, 70), 3)];
       RSeq [(Some (2, 21), 1); (Some (4, 40), 0); (None, 0)]; RUnit; RBool true; RUnit; RSeq [(Some (2, 21), 4); (Some (7, 70), 3)]]
  | Panic => False
  end.
Proof. vm_compute. reflexivity. Qed.

(** One call, whatever maps exist and whether it returns or unwinds: the maps that it does not borrow
    mutably are still there and show what they showed. *)
Theorem C20_independent : forall K V Q (bor : K -> Q) cmp, order_laws cmp ->
  forall keq veq kcmp vcmp bomb fbomb (h : heap (pay K V)) ms sst (o : op K V Q),
  sound h (roots ms) -> Forall2 (hshows bor cmp h) ms sst -> Forall small sst -> op_small o ->
  exists h' ms' r, h_step bor cmp keq veq kcmp vcmp bomb fbomb (h, ms) o = Ok ((h', ms'), r)
    /\ forall j l, ~ In j (targets o) -> nth_error sst j = Some l ->
         exists m', nth_error ms' j = Some m' /\ hshows bor cmp h' m' l.
Proof. exact @step_other_h. Qed.
Print Assumptions C20_independent.
Example C20_independent_ex : exists h' ms' r,
  h_step nb Nat.compare Nat.eqb Nat.eqb Nat.compare Nat.compare (just 5) fnever (dh, dms) (ORemove 1 1) = Ok ((h', ms'), r)
  /\ forall j l, ~ In j [1] -> nth_error [l0; l1; l2] j = Some l ->
         exists m', nth_error ms' j = Some m' /\ hshows nb Nat.compare h' m' l.
Proof.
  apply (C20_independent _ _ _ nb _ Ncmp_laws Nat.eqb Nat.eqb Nat.compare Nat.compare _ _ dh dms [l0; l1; l2] (ORemove 1 1)
           demo_sound demo_shows); [repeat constructor|exact I].
Qed.

(** The single calls. *)
Theorem C20_insert : forall K V Q (bor : K -> Q) cmp, order_laws cmp ->
  forall bomb (h : heap (pay K V)) m l k v O, sound h (olist (hm_root m) ++ O) -> hshows bor cmp h m l -> small l ->
  (forall n, bomb n = false) ->
  exists h' m', hm_insert bor cmp bomb h m k v = Ok (h', m', Done (s_get bor cmp (bor k) l))
    /\ sound h' (olist (hm_root m') ++ O) /\ frame O h h' /\ hshows bor cmp h' m' (s_insert bor cmp k v l).
Proof.
  intros K V Q bor cmp laws bomb h m l k v O So H Sm B.
  destruct (insert_c bor cmp laws bomb h m l k v O So H Sm) as (h' & m' & o & E & So' & F & R).
  exists h', m'. destruct o as [x|]; [destruct R as [-> R]; auto|destruct R as [_ [n Hn]]; rewrite B in Hn; discriminate].
Qed.
Print Assumptions C20_insert.
Theorem C20_remove : forall K V Q (bor : K -> Q) cmp, order_laws cmp ->
  forall bomb (h : heap (pay K V)) m l q O, sound h (olist (hm_root m) ++ O) -> hshows bor cmp h m l -> small l ->
  (forall n, bomb n = false) ->
  exists h' m', hm_remove_entry bor cmp bomb h m q = Ok (h', m', Done (s_find bor cmp q l))
    /\ sound h' (olist (hm_root m') ++ O) /\ frame O h h' /\ hshows bor cmp h' m' (s_remove bor cmp q l).
Proof.
  intros K V Q bor cmp laws bomb h m l q O So H Sm B.
  destruct (remove_c bor cmp laws bomb h m l q O So H Sm) as (h' & m' & o & E & So' & F & R).
  exists h', m'. destruct o as [x|]; [destruct R as [-> R]; auto|destruct R as [_ [n Hn]]; rewrite B in Hn; discriminate].
Qed.
Print Assumptions C20_remove.
(** What [frame] is good for: another map keeps what it shows. *)
Theorem C20_frame : forall K V Q (bor : K -> Q) cmp, order_laws cmp ->
  forall O (h h' : heap (pay K V)) m l, frame O h h' -> incl (olist (hm_root m)) O -> small l ->
  hshows bor cmp h m l -> hshows bor cmp h' m l.
Proof.
  intros K V Q bor cmp laws O h h' m l F I Sm. apply (frame_hshows bor cmp laws O); auto.
  now apply AvlHistProofs.small_fits.
Qed.
Print Assumptions C20_frame.
Example C20_remove_ex : exists h' m', hm_remove_entry nb Nat.compare never dh d1 1 = Ok (h', m', Done (Some (1, 10)))
  /\ hshows nb Nat.compare h' m' (map kv [2; 3; 4; 5]) /\ hshows nb Nat.compare h' d0 l0.
Proof.
  assert (So : sound dh (olist (hm_root d1) ++ [0; 8])).
  { destruct demo_sound as [W A]. split; auto. eapply wf_equiv; [|exact W]. intros a.
    change (roots dms) with [0; 4; 8]. cbn [olist hm_root d1 app].
    rewrite !(cnt_cons a). lia. }
  destruct (C20_remove _ _ _ nb _ Ncmp_laws never dh d1 l1 1 [0; 8] So demo_shows1 l1_small (fun _ => eq_refl))
    as (h' & m' & E & So' & F & H).
  exists h', m'. split; [exact E|]. split; [exact H|].
  apply (C20_frame _ _ _ nb _ Ncmp_laws _ _ _ d0 l0 F); [intros x [<-|[]]; now left|reflexivity|exact demo_shows0].
Qed.

(** [for_each_mut]: the state that the closure carries and every new value are those of a walk of the
    list; when a [clone] panics on the way, all keys are still there. *)
Theorem C20_for_each_mut : forall K V Q (bor : K -> Q) cmp, order_laws cmp ->
  forall bomb S (g : S -> K -> V -> S * V) (h : heap (pay K V)) m l s O,
  sound h (olist (hm_root m) ++ O) -> hshows bor cmp h m l -> small l ->
  exists h' m' o, hm_for_each_mut bomb g h m s = Ok (h', m', o)
    /\ sound h' (olist (hm_root m') ++ O) /\ frame O h h'
    /\ match o with
       | Done s' => s' = snd (map_state g l s) /\ hshows bor cmp h' m' (fst (map_state g l s))
       | Unwound => hm_len m' = length l
                    /\ (exists t, den h' (hm_root m') (tv t) /\ map fst (elems t) = map fst l)
                    /\ exists n, bomb n = true
       end.
Proof. intros K V Q bor cmp laws bomb S g h m l s O. apply for_each_mut_c. exact laws. Qed.
Print Assumptions C20_for_each_mut.
Example C20_for_each_mut_ex : exists h' m',
  hm_for_each_mut never (fun (s : nat) k v => (s + v, v + s)) dh d1 0 = Ok (h', m', Done 150)
  /\ hshows nb Nat.compare h' m' [(1, 10); (2, 30); (3, 60); (4, 100); (5, 150)] /\ hshows nb Nat.compare h' d0 l0.
Proof.
  eexists _, _. split; [vm_compute; reflexivity|].
  split; (eexists; split; [vm_compute; reflexivity|split; vm_compute; reflexivity]).
Qed.

(** ** C21: whatever nodes are shared, and whichever [clone] calls or predicates
    panic, the library itself never panics: every call returns or unwinds because of the user's
    panic, and in both cases the maps are as specified ([follows], AvlHeapHistSpec.v). *)
Theorem C21_histories : forall K V Q (bor : K -> Q) cmp, order_laws cmp ->
  forall keq veq kcmp vcmp bomb fbomb (os : list (op K V Q)),
  always_small bor cmp keq veq kcmp vcmp [] os ->
  exists h ms rs sst, h_run bor cmp keq veq kcmp vcmp bomb fbomb (empty_heap, []) os = Ok ((h, ms), rs)
    /\ follows bor cmp keq veq kcmp vcmp [] os rs sst
    /\ sound h (roots ms) /\ Forall2 (hshows bor cmp h) ms sst
    /\ (In Unwound rs -> (exists n, bomb n = true) \/ exists k v, fbomb k v = true).
Proof.
  intros K V Q bor cmp laws keq veq kcmp vcmp bomb fbomb os Sm.
  exact (run_h bor cmp laws keq veq kcmp vcmp bomb fbomb os Sm).
Qed.
Print Assumptions C21_histories.
Definition demo3 : list (op nat nat nat) :=
  [OFromIter (map kv [2; 1; 3; 4]); OClone 0; OInsert 1 5 50; ORemove 1 1; OGet 1 3; OGet 0 3; OCheck 0].
Example C21_histories_ex : nalways [] demo3.
Proof. now apply (grow_always_small nb _ _ _ _ _ _ _ 0). Qed.
(** The clone of node 2 made by the insertion succeeds, that of node 3 panics: the map is as
    before. In the removal the clone of the rotation neighbour 3 panics. *)
Example C21_histories_ex' :
  match nrun (fun n => (n =? 1) || (n =? 3)) fnever (empty_heap, []) demo3 with
  | Ok (_, rs) => rs = [Done RUnit; Done RUnit; Unwound; Unwound; Done (RVal None); Done (RVal (Some 30)); Done (RBool true)]
  | Panic => False
  end.
Proof. vm_compute. reflexivity. Qed.

(** ** C22: exact counts, and no leaks, also after calls that unwound. *)
Theorem C22_counts : forall K V Q (bor : K -> Q) cmp, order_laws cmp ->
  forall keq veq kcmp vcmp bomb fbomb (os : list (op K V Q)) h ms rs,
  always_small bor cmp keq veq kcmp vcmp [] os ->
  h_run bor cmp keq veq kcmp vcmp bomb fbomb (empty_heap, []) os = Ok ((h, ms), rs) ->
  forall a, match get h a with
            | Some (c, _) => c = count_occ Nat.eq_dec (flat_map (fun m => olist (hm_root m)) ms ++ ptrs h) a /\ 1 <= c
            | None => ~ In a (flat_map (fun m => olist (hm_root m)) ms ++ ptrs h)
            end.
Proof.
  intros K V Q bor cmp laws keq veq kcmp vcmp bomb fbomb os h ms rs Sm E.
  destruct (run_h bor cmp laws keq veq kcmp vcmp bomb fbomb os Sm) as (h' & ms' & rs' & sst & E' & _ & [W _] & _).
  rewrite E in E'. injection E' as <- <- <-. intros a. specialize (W a). destruct (get h a) as [[n nd]|]; auto.
  now apply cnt_notin.
Qed.
Print Assumptions C22_counts.
Theorem C22_no_leak : forall K V Q (bor : K -> Q) cmp, order_laws cmp ->
  forall keq veq kcmp vcmp bomb fbomb (os : list (op K V Q)) h ms rs,
  always_small bor cmp keq veq kcmp vcmp [] os ->
  h_run bor cmp keq veq kcmp vcmp bomb fbomb (empty_heap, []) os = Ok ((h, ms), rs) ->
  exists h', h_drop_all h ms = Ok h' /\ forall a, get h' a = None.
Proof.
  intros K V Q bor cmp laws keq veq kcmp vcmp bomb fbomb os h ms rs Sm E.
  destruct (run_h bor cmp laws keq veq kcmp vcmp bomb fbomb os Sm) as (h' & ms' & rs' & sst & E' & _ & S & _).
  rewrite E in E'. injection E' as <- <- <-. now apply drop_all_none.
Qed.
Print Assumptions C22_no_leak.
(** The unwound calls of [demo3] left cells 4-6 free; nothing is alive after dropping both maps. *)
Example C22_ex :
  match nrun (fun n => (n =? 1) || (n =? 3)) fnever (empty_heap, []) demo3 with
  | Ok ((h, ms), _) => 4 < length (cells h) /\ length (filter (fun a => negb (match get h a with None => true | _ => false end)) (seq 0 9)) = 4
      /\ match h_drop_all h ms with Ok h' => forallb (fun a => match get h' a with None => true | _ => false end) (seq 0 9) = true | Panic => False end
  | Panic => False
  end.
Proof. vm_compute. repeat split. repeat constructor. Qed.

(** ** C23: laziness. *)
Theorem C23_clone : forall K V (h : heap (pay K V)) m O, sound h O -> incl (olist (hm_root m)) O ->
  exists h', hm_clone h m = Ok (h', m) /\ sound h' (olist (hm_root m) ++ O) /\ frame O h h'
    /\ clones h' = clones h /\ length (cells h') = length (cells h).
Proof.
  intros K V h m O So I. destruct (AvlHeapProofs4.clone_h h m O So I) as (h' & E & So' & F & C & L & _).
  exists h'. auto.
Qed.
Print Assumptions C23_clone.
Example C23_clone_ex : exists h', hm_clone dh d1 = Ok (h', d1) /\ clones h' = clones dh /\ length (cells h') = length (cells dh).
Proof.
  destruct (C23_clone _ _ dh d1 _ demo_sound) as (h' & E & _ & _ & C & L); [|eauto].
  intros x [<-|[]]. right. now left.
Qed.
(** An insertion, or a write through [get_mut], clones at most the nodes on the path to the key, each once. *)
Theorem C23_insert_path : forall K V Q (bor : K -> Q) cmp, order_laws cmp ->
  forall bomb (h : heap (pay K V)) m l a k v O,
  sound h (olist (hm_root m) ++ O) -> hshows bor cmp h m l -> small l -> hm_read h m = Ok a ->
  exists h' m' o cs, hm_insert bor cmp bomb h m k v = Ok (h', m', o) /\ clones h' = cs ++ clones h
    /\ sub cs (path bor cmp (am_root a) (bor k)).
Proof. exact @insert_clones. Qed.
Print Assumptions C23_insert_path.
Theorem C23_get_mut_path : forall K V Q (bor : K -> Q) cmp, order_laws cmp ->
  forall bomb (h : heap (pay K V)) m l a q w O,
  sound h (olist (hm_root m) ++ O) -> hshows bor cmp h m l -> small l -> hm_read h m = Ok a ->
  exists h' m' o cs, hm_get_mut bor cmp bomb h m q w = Ok (h', m', o) /\ clones h' = cs ++ clones h
    /\ sub cs (path bor cmp (am_root a) q).
Proof. exact @get_mut_clones. Qed.
Print Assumptions C23_get_mut_path.
(** A removal clones at most the nodes on its path and, beside each, the two that a rotation changes. *)
Theorem C23_remove_path : forall K V Q (bor : K -> Q) cmp, order_laws cmp ->
  forall bomb (h : heap (pay K V)) m l a q O,
  sound h (olist (hm_root m) ++ O) -> hshows bor cmp h m l -> small l -> hm_read h m = Ok a ->
  clones_in (hm_remove_entry bor cmp bomb h m q) h (near bor cmp (am_root a) q)
  /\ clones_in (hm_pop_first bomb h m) h (near_first (am_root a))
  /\ clones_in (hm_pop_last bomb h m) h (near_last (am_root a)).
Proof. exact @remove_clones. Qed.
Print Assumptions C23_remove_path.
(** These are few nodes: at most one (three) for each level of the tree. *)
Theorem C23_path_length : forall K V Q (bor : K -> Q) cmp (t : tree K V) q,
  length (path bor cmp t q) <= levels t /\ length (near bor cmp t q) <= 3 * levels t
  /\ length (near_first t) <= 3 * levels t /\ length (near_last t) <= 3 * levels t.
Proof.
  intros. split; [apply path_len|]. split; [apply near_len|]. apply near_first_len.
Qed.
Print Assumptions C23_path_length.
(** Removing 1 from map 1: nodes 1, 2 are on the path and 3, 4 beside it; only 1 is shared with map 0, and only 1 is
    cloned. *)
Example C23_path_ex :
  match hm_remove_entry nb Nat.compare never dh d1 1, hm_read dh d1 with
  | Ok (h', _, _), Ok a =>
    firstn (length (clones h') - length (clones dh)) (clones h') = [Pay 1 10 0 0]
    /\ near nb Nat.compare (am_root a) 1 = [Pay 3 30 0 0; Pay 4 40 1 1; Pay 1 10 0 0; Pay 2 20 1 2]
  | _, _ => False
  end.
Proof. vm_compute. split; reflexivity. Qed.
(** If no node of the map is shared then nothing is cloned, the call does not unwind, and
    still no node is shared. *)
Theorem C23_unshared : forall K V Q (bor : K -> Q) cmp bomb (h : heap (pay K V)) m k v q w,
  unshared h (hm_root m) ->
  in_place h (hm_insert bor cmp bomb h m k v)
  /\ in_place h (hm_get_mut bor cmp bomb h m q w)
  /\ in_place h (hm_remove_entry bor cmp bomb h m q)
  /\ in_place h (hm_pop_first bomb h m)
  /\ in_place h (hm_pop_last bomb h m).
Proof. exact @in_place_h. Qed.
Print Assumptions C23_unshared.
Theorem C23_unshared_for_each_mut : forall K V bomb S (g : S -> K -> V -> S * V) (h : heap (pay K V)) m s,
  unshared h (hm_root m) -> in_place h (hm_for_each_mut bomb g h m s).
Proof. exact @for_each_mut_in_place. Qed.
Print Assumptions C23_unshared_for_each_mut.
Theorem C23_unshared_split_append : forall K V Q (bor : K -> Q) cmp bomb (h : heap (pay K V)) m m2 q,
  unshared h (hm_root m) -> unshared h (hm_root m2) ->
  in_place2 h (hm_split_off bor cmp bomb h m q) /\ in_place3 h (hm_append bor cmp bomb h m m2).
Proof. intros. split; [now apply split_off_in_place|now apply append_in_place]. Qed.
Print Assumptions C23_unshared_split_append.
Lemma reach8 a : reach dh (Some 8) a -> a = 8 \/ a = 9.
Proof.
  induction 1 as [a [<-|[]]|a c n b _ [-> | ->] G Hb]; auto; injection G as <- <-; cbn in Hb; intuition.
Qed.
Example C23_unshared_ex : unshared dh (hm_root d2).
Proof. intros a c n [-> | ->]%reach8 G; now injection G as <- <-. Qed.
Example C23_unshared_ex' : exists h' m', hm_insert nb Nat.compare (fun _ => true) dh d2 5 50 = Ok (h', m', Done None)
  /\ clones h' = clones dh /\ hshows nb Nat.compare h' m' (map kv [4; 5; 7]).
Proof. eexists _, _. split; [vm_compute; reflexivity|]. split; [reflexivity|]. eexists. split; [vm_compute; reflexivity|split; vm_compute; reflexivity]. Qed.

(** ** C66: [insert], [get_mut] (so [entry]) have the strong guarantee: if a [clone] panics,
    the map shows what it showed. *)
Theorem C66_insert_unwound : forall K V Q (bor : K -> Q) cmp, order_laws cmp ->
  forall bomb (h : heap (pay K V)) m l k v O, sound h (olist (hm_root m) ++ O) -> hshows bor cmp h m l -> small l ->
  exists h' m' o, hm_insert bor cmp bomb h m k v = Ok (h', m', o)
    /\ sound h' (olist (hm_root m') ++ O) /\ frame O h h'
    /\ match o with
       | Done old => old = s_get bor cmp (bor k) l /\ hshows bor cmp h' m' (s_insert bor cmp k v l)
       | Unwound => hshows bor cmp h' m' l /\ exists n, bomb n = true
       end.
Proof. exact @insert_c. Qed.
Print Assumptions C66_insert_unwound.
Theorem C66_get_mut_unwound : forall K V Q (bor : K -> Q) cmp, order_laws cmp ->
  forall bomb (h : heap (pay K V)) m l q w O, sound h (olist (hm_root m) ++ O) -> hshows bor cmp h m l -> small l ->
  exists h' m' o, hm_get_mut bor cmp bomb h m q w = Ok (h', m', o)
    /\ sound h' (olist (hm_root m') ++ O) /\ frame O h h'
    /\ match o with
       | Done old => old = s_get bor cmp q l /\ hshows bor cmp h' m' (s_update bor cmp q w l)
       | Unwound => hshows bor cmp h' m' l /\ exists n, bomb n = true
       end.
Proof. exact @get_mut_c. Qed.
Print Assumptions C66_get_mut_unwound.
(** The map 0 of [clone_world] has all nodes shared; the insertion of 5 clones 2, 3, 4 in turn. *)
Definition clone_world : world (K := nat) (V := nat) :=
  Eval vm_compute in match nrun never fnever (empty_heap, []) [OFromIter (map kv [2; 1; 3; 4]); OClone 0] with
                     | Ok (w, _) => w | Panic => (empty_heap, []) end.
Definition ch := fst clone_world.
Example ch_shows : hshows nb Nat.compare ch d0 l0.
Proof. eexists. split; [vm_compute; reflexivity|split; vm_compute; reflexivity]. Qed.
Example ch_sound : sound ch [0; 0].
Proof.
  assert (Sm : nsmall [] [OFromIter (map kv [2; 1; 3; 4]); OClone 0]).
  { now apply (grow_all_small nb _ _ _ _ _ _ _ 0). }
  destruct (run_done_h nb Nat.compare Ncmp_laws Nat.eqb Nat.eqb Nat.compare Nat.compare never fnever
              _ no_faults Sm) as (h & ms & E & S & _).
  match type of E with ?x = _ => assert (E' : x = Ok (clone_world, [Done RUnit; Done RUnit])) by (vm_compute; reflexivity) end.
  rewrite E' in E. apply (f_equal (fun r => match r with Ok (w, _) => w | Panic => clone_world end)) in E. cbv iota beta in E.
  assert (E2 : ms = snd clone_world) by (now rewrite E). subst ms. unfold ch. rewrite E. exact S.
Qed.
Example C66_ex : exists h' m', hm_insert nb Nat.compare (just 2) ch d0 5 50 = Ok (h', m', Unwound)
  /\ hshows nb Nat.compare h' m' l0 /\ hshows nb Nat.compare h' d0 l0.
Proof.
  eexists _, _. split; [vm_compute; reflexivity|].
  split; (eexists; split; [vm_compute; reflexivity|split; vm_compute; reflexivity]).
Qed.

(** ** C67: removals do not have it. What is left is part of what was there, in order, and
    all other maps are unharmed; but entries that were not to be removed may be lost, and [len()] keeps the
    old value. *)
Theorem C67_remove_unwound : forall K V Q (bor : K -> Q) cmp, order_laws cmp ->
  forall bomb (h : heap (pay K V)) m l q O, sound h (olist (hm_root m) ++ O) -> hshows bor cmp h m l -> small l ->
  exists h' m' o, hm_remove_entry bor cmp bomb h m q = Ok (h', m', o)
    /\ sound h' (olist (hm_root m') ++ O) /\ frame O h h'
    /\ match o with
       | Done e => e = s_find bor cmp q l /\ hshows bor cmp h' m' (s_remove bor cmp q l)
       | Unwound => (hm_len m' = length l /\ exists t, den h' (hm_root m') (tv t) /\ sub (elems t) l)
                    /\ exists n, bomb n = true
       end.
Proof. exact @remove_c. Qed.
Print Assumptions C67_remove_unwound.
Theorem C67_pops_unwound : forall K V Q (bor : K -> Q) cmp, order_laws cmp ->
  forall bomb (h : heap (pay K V)) m l O, sound h (olist (hm_root m) ++ O) -> hshows bor cmp h m l -> small l ->
  (exists h' m' o, hm_pop_first bomb h m = Ok (h', m', o)
    /\ sound h' (olist (hm_root m') ++ O) /\ frame O h h'
    /\ match o with
       | Done e => e = s_first l /\ hshows bor cmp h' m' (tl l)
       | Unwound => (hm_len m' = length l /\ exists t, den h' (hm_root m') (tv t) /\ sub (elems t) l)
                    /\ exists n, bomb n = true
       end)
  /\ (exists h' m' o, hm_pop_last bomb h m = Ok (h', m', o)
    /\ sound h' (olist (hm_root m') ++ O) /\ frame O h h'
    /\ match o with
       | Done e => e = s_last l /\ hshows bor cmp h' m' (removelast l)
       | Unwound => (hm_len m' = length l /\ exists t, den h' (hm_root m') (tv t) /\ sub (elems t) l)
                    /\ exists n, bomb n = true
       end).
Proof.
  intros K V Q bor cmp laws bomb h m l O So H Sm. split.
  - exact (pop_first_c bor cmp laws bomb h m l O So H Sm).
  - exact (pop_last_c bor cmp laws bomb h m l O So H Sm).
Qed.
Print Assumptions C67_pops_unwound.
(** Refuted: "if a removal unwinds, the other entries of the map are still there". *)
Theorem C67_remove_strong_refuted :
  exists bomb (h : heap (pay nat nat)) m l q O h' m',
    sound h (olist (hm_root m) ++ O) /\ hshows nb Nat.compare h m l
    /\ hm_remove_entry nb Nat.compare bomb h m q = Ok (h', m', Unwound)
    /\ s_remove nb Nat.compare q l <> [] /\ hm_read h' m' = Ok (AvlMap (length l) Leaf).
Proof.
  exists (just 2), ch, d0, l0, 1, [0]. eexists _, _. split; [exact ch_sound|]. split; [exact ch_shows|].
  split; [vm_compute; reflexivity|]. split; [discriminate|vm_compute; reflexivity].
Qed.
Print Assumptions C67_remove_strong_refuted.

(** ** C68: [retain], [append], [split_off] take the root out first. If they unwind, the
    map (maps) has lost all entries, and [len()] still is the old number. For [split_off]
    it may also be that only the part that was split off is lost. *)
Theorem C68_retain_unwound : forall K V Q (bor : K -> Q) cmp, order_laws cmp ->
  forall bomb S (f : S -> K -> V -> S * V * bool) fbomb (h : heap (pay K V)) m l s O,
  sound h (olist (hm_root m) ++ O) -> hshows bor cmp h m l -> small l ->
  exists h' m' o, hm_retain bomb f fbomb h m s = Ok (h', m', o)
    /\ sound h' (olist (hm_root m') ++ O) /\ frame O h h'
    /\ match o with
       | Done s' => exists l' order outs, hshows bor cmp h' m' l' /\ Permutation order l /\ run_calls f s order = (outs, s')
           /\ forall k v', In (k, v') l' <-> exists v, In ((k, v), v', true) outs
       | Unwound => m' = HMap (length l) None
                    /\ ((exists n, bomb n = true) \/ exists s k v, fbomb s k v = true)
       end.
Proof. exact @retain_c. Qed.
Print Assumptions C68_retain_unwound.
Theorem C68_append_unwound : forall K V Q (bor : K -> Q) cmp, order_laws cmp ->
  forall bomb (h : heap (pay K V)) m1 m2 l1 l2 O, sound h (olist (hm_root m1) ++ olist (hm_root m2) ++ O) ->
  hshows bor cmp h m1 l1 -> hshows bor cmp h m2 l2 -> small l1 -> small l2 ->
  exists h' m1' m2' o, hm_append bor cmp bomb h m1 m2 = Ok (h', m1', m2', o)
    /\ sound h' (olist (hm_root m1') ++ olist (hm_root m2') ++ O) /\ frame O h h'
    /\ match o with
       | Done _ => hshows bor cmp h' m2' [] /\ exists l, hshows bor cmp h' m1' l
          /\ forall q, s_find bor cmp q l = match s_find bor cmp q l2 with Some e => Some e | None => s_find bor cmp q l1 end
       | Unwound => m1' = HMap (length l1) None /\ m2' = HMap (length l2) None /\ exists n, bomb n = true
       end.
Proof. exact @append_c. Qed.
Print Assumptions C68_append_unwound.
Theorem C68_split_off_unwound : forall K V Q (bor : K -> Q) cmp, order_laws cmp ->
  forall bomb (h : heap (pay K V)) m l q O, sound h (olist (hm_root m) ++ O) -> hshows bor cmp h m l -> small l ->
  exists h' m' o, hm_split_off bor cmp bomb h m q = Ok (h', m', o) /\ frame O h h'
    /\ match o with
       | Done m2 => sound h' (olist (hm_root m') ++ olist (hm_root m2) ++ O)
          /\ hshows bor cmp h' m' (filter (lt_q bor cmp q) l)
          /\ hshows bor cmp h' m2 (filter (fun e => negb (lt_q bor cmp q e)) l)
       | Unwound => sound h' (olist (hm_root m') ++ O) /\ (exists n, bomb n = true)
          /\ (m' = HMap (length l) None \/ hshows bor cmp h' m' (filter (lt_q bor cmp q) l))
       end.
Proof. exact @split_off_c. Qed.
Print Assumptions C68_split_off_unwound.
(** Refuted: "after a panic in the predicate of [retain], [len()] is the number of entries of the
    map". Neither map is shared and no [clone] panics. *)
Theorem C68_len_refuted :
  exists fbomb (h : heap (pay nat nat)) m l h' m',
    sound h (olist (hm_root m) ++ []) /\ unshared h (hm_root m) /\ hshows nb Nat.compare h m l
    /\ hm_retain never (fun (s : unit) k v => (s, v, true)) fbomb h m tt = Ok (h', m', Unwound)
    /\ exists a, hm_read h' m' = Ok a /\ avl_collect a = Ok [] /\ avl_len a = 1.
Proof.
  set (h := fst (alloc (empty_heap (P := pay nat nat)) (Nd (Pay 4 40 0 0) [None; None]))).
  exists (fun _ _ _ => true), h, (HMap 1 (Some 0)), [(4, 40)]. eexists _, _.
  split; [|split; [|split; [|split]]].
  - split.
    + intros a. destruct a as [|[|a]]; vm_compute; auto.
    + intros a c n G. destruct a as [|[|a]]; try discriminate. injection G as <- <-.
      eexists. econstructor; [reflexivity|repeat constructor].
  - intros a c n R G. destruct a as [|[|a]]; try discriminate. injection G as <- <-. reflexivity.
  - eexists. split; [vm_compute; reflexivity|split; vm_compute; reflexivity].
  - vm_compute. reflexivity.
  - eexists. split; [vm_compute; reflexivity|split; vm_compute; reflexivity].
Qed.
Print Assumptions C68_len_refuted.
Example C68_ex : exists h' m', hm_split_off nb Nat.compare (just 2) ch d0 3 = Ok (h', m', Unwound)
  /\ hshows nb Nat.compare h' m' (map kv [1; 2]).
Proof. eexists _, _. split; [vm_compute; reflexivity|]. eexists. split; [vm_compute; reflexivity|split; vm_compute; reflexivity]. Qed.

(** ** C69: a [retain] that returns calls [V::clone] once per entry and [K::clone] once per entry kept,
    however many nodes are shared; no node of the map is shared afterwards. *)
Theorem C69_retain_clones : forall K V Q (bor : K -> Q) cmp, order_laws cmp ->
  forall bomb S (f : S -> K -> V -> S * V * bool) fbomb (h : heap (pay K V)) m l s O h' m' s',
  sound h (olist (hm_root m) ++ O) -> hshows bor cmp h m l -> small l ->
  hm_retain bomb f fbomb h m s = Ok (h', m', Done s') ->
  exists l', hshows bor cmp h' m' l' /\ length (clones h') = length (clones h) + length l + length l'
    /\ unshared h' (hm_root m').
Proof. exact @retain_clones. Qed.
Print Assumptions C69_retain_clones.
(** Map 1 shares nodes with map 0; three of its five entries are kept. *)
Example C69_ex : exists O h' m', Permutation (olist (hm_root d1) ++ O) (roots dms)
  /\ hm_retain never (fun (s : nat) k v => (s + 1, v + 1, Nat.odd k)) (fun _ _ _ => false) dh d1 0 = Ok (h', m', Done 5)
  /\ hshows nb Nat.compare h' m' [(1, 11); (3, 31); (5, 51)] /\ length (clones h') = length (clones dh) + 5 + 3.
Proof.
  exists [0; 8]. eexists _, _. split; [apply perm_swap|]. split; [vm_compute; reflexivity|]. split; [|reflexivity].
  eexists. split; [vm_compute; reflexivity|split; vm_compute; reflexivity].
Qed.
(** Refuted: "a call clones nothing if no node of the map is shared" is not true of [retain]. *)
Theorem C69_retain_clones_refuted :
  exists (h : heap (pay nat nat)) m l h' m',
    unshared h (hm_root m) /\ hshows nb Nat.compare h m l
    /\ hm_retain never (fun (s : unit) k v => (s, v, true)) (fun _ _ _ => false) h m tt = Ok (h', m', Done tt)
    /\ hshows nb Nat.compare h' m' l /\ length (clones h') = 2 * length l + length (clones h).
Proof.
  exists dh, d2, l2. eexists _, _. split; [exact C23_unshared_ex|]. split; [exact demo_shows2|].
  split; [vm_compute; reflexivity|]. split; [|reflexivity].
  eexists. split; [vm_compute; reflexivity|split; vm_compute; reflexivity].
Qed.
Print Assumptions C69_retain_clones_refuted.
