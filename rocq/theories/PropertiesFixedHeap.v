(** Theorems about [btree::fixed::BTreeMap]s that share nodes (properties C93-C100).

    [fh_shows bor cmp h m l] (FixedHeapSpec.v): following the pointers of the map [m] in the heap [h], a
    reader sees arrays that hold exactly the entries [l] in the shape of a B-tree ([f_shows], FixedSpec.v).
    [fsound h O]: the count of each cell is the number of pointers to it from the slots in use of other
    cells and from the list [O] of pointers held outside the heap, there are no cycles, and the arrays of
    the cells are filled up to their lengths. [fframe O h h']: the maps whose pointers are in [O] show in
    [h'] what they showed in [h], and the pointers in [O] lead to the same trees, node for node. [copies h]: the entries of each node that was cloned, the last first.

    [bomb n = true]: the user's [K::clone] or [V::clone] panics in the clone of a node that is number [n].
    A call whose panic is caught ends with [Unwound]; [Panic] is any panic of the library itself, and any
    undefined behaviour. *)
From Coq Require Import List PeanoNat Bool Lia.
From Verif Require Import Base Spec MapSpec Heap HeapProofs AvlHeapSpec BTreeModel BTreeHistModel BTreeHeapModel BTreeHeapSpec
  FixedModel FixedIterModel FixedSpec FixedHeapModel FixedHeapSpec FixedHeapProofs7 FixedHeapProofs8 FixedHeapProofs9 FixedHeapLazy
  FixedCloneModel FixedCloneProofs.
Import ListNotations.
Open Scope nat_scope.

(** ** Sample: maps 0 and 1 are clones of a root with two leaves of five entries. *)
Definition never (_ : nat) : bool := false.
Definition just (n i : nat) : bool := Nat.eqb n i.
Definition nb (k : nat) : nat := k.
Definition kv (n : nat) : nat * nat := (n, 10 * n).
Notation nrun bomb := (fh_run nb Nat.compare true bomb).
Notation nshows := (fh_shows nb Nat.compare).
Lemma Ncmp_laws : order_laws Nat.compare.
Proof.
  constructor.
  - intros a b. apply Nat.compare_antisym.
  - intros a b c H1 H2. apply Nat.compare_lt_iff in H1, H2. apply Nat.compare_lt_iff. lia.
  - intros a b c H1. apply Nat.compare_eq_iff in H1. now subst.
Qed.
Lemma head2 {A B} (R : A -> B -> Prop) x xs y ys : Forall2 R (x :: xs) (y :: ys) -> R x y.
Proof. inversion 1; auto. Qed.
Definition demo_ops : list (fh_op nat nat nat) :=
  [FhFromIter (map kv (seq 1 12)); FhDo 0 (FoRemove 1); FhClone 0; FhFromIter (map kv [20; 21])].
Definition world0 : fh_world (K := nat) (V := nat) :=
  Eval vm_compute in match nrun never (empty_heap, []) demo_ops with Ok (w, _) => w | Panic => (empty_heap, []) end.
Definition dh := fst world0.
Definition d0 := FH (Some 2) 11.
Definition d2 := FH (Some 3) 2.
Definition l0 := map kv (seq 2 11).
Definition l2 := map kv [20; 21].
Example demo_maps : snd world0 = [d0; d0; d2].
Proof. reflexivity. Qed.
Example demo_reached : fsound dh [2; 2; 3] /\ Forall2 (nshows dh) [d0; d0; d2] [l0; l0; l2].
Proof.
  destruct (frun_done_b nb Nat.compare Ncmp_laws true never demo_ops (fun _ => eq_refl)) as (h & ms & E & S & F).
  assert (E0 : nrun never (empty_heap, []) demo_ops = Ok (world0, map Done (snd (sh_run nb Nat.compare [] demo_ops)))) by (vm_compute; reflexivity).
  rewrite E0 in E. assert (E1 : world0 = (h, ms)) by congruence. apply (f_equal fst) in E1 as Eh. apply (f_equal snd) in E1.
  cbn [fst snd] in Eh, E1. subst h ms. exact (conj S F).
Qed.
Example demo_sound : fsound dh [2; 2; 3].
Proof. exact (proj1 demo_reached). Qed.
Example demo_shows0 : nshows dh d0 l0.
Proof. pose proof (proj2 demo_reached) as F. now inversion F. Qed.
Example demo_shows2 : nshows dh d2 l2.
Proof. pose proof (proj2 demo_reached) as F. inversion F. inversion H4. now inversion H10. Qed.
Example demo_shared : unique dh 2 = false /\ unique dh 3 = true.
Proof. split; reflexivity. Qed.

(** ** C93: clones are independent. Any history of calls on any number of maps that share nodes in any
    way gives the results of plain lists, one per map, and at the end each map shows its list. *)
Theorem C93_histories : forall K V Q (bor : K -> Q) cmp, order_laws cmp ->
  forall small_key bomb (os : list (fh_op K V Q)), (forall n, bomb n = false) ->
  exists h ms, fh_run bor cmp small_key bomb (empty_heap, []) os = Ok ((h, ms), map Done (snd (sh_run bor cmp [] os)))
    /\ fsound h (froots ms) /\ Forall2 (fh_shows bor cmp h) ms (fst (sh_run bor cmp [] os)).
Proof. exact @frun_done_b. Qed.
Print Assumptions C93_histories.
Definition demo2 : list (fh_op nat nat nat) :=
  demo_ops ++ [FhDo 1 (FoRemove 2); FhDo 0 (FoGet 2); FhDo 1 (FoGet 2); FhClone 1; FhDo 3 (FoGetMut 3 S); FhDo 1 (FoGet 3); FhDo 3 (FoGet 3);
               FhDo 0 (FoExtend (map kv (seq 13 40))); FhDo 0 FoLen; FhDo 1 FoLen; FhClone 0; FhDo 0 FoClear; FhDo 0 FoIsEmpty; FhChk 4;
               FhDo 4 (FoInsert 30 1); FhIter 3 2; FhNew; FhDo 5 (FoRemove 1); FhChk 1].
Example C93_histories_ex :
  match nrun never (empty_heap, []) demo2 with
  | Ok (_, rs) => skipn 4 rs = map Done
      [FhOut (FrVal (Some 20)); FhOut (FrVal (Some 20)); FhOut (FrVal None); FhOut FrUnit; FhOut (FrVal (Some 30)); FhOut (FrVal (Some 30));
       FhOut (FrVal (Some 31)); FhOut FrUnit; FhOut (FrLen 51); FhOut (FrLen 10); FhOut FrUnit; FhOut FrUnit; FhOut (FrBool true); FhOut FrUnit;
       FhOut (FrVal (Some 300)); FhSeq [(Some (3, 31), 9); (Some (4, 40), 8)]; FhOut FrUnit; FhOut (FrVal None); FhOut FrUnit]
  | Panic => False
  end.
Proof. vm_compute. reflexivity. Qed.

(** One call, whatever maps exist and whether it returns or unwinds: the maps that it does not borrow
    mutably are still there and show what they showed. *)
Theorem C93_independent : forall K V Q (bor : K -> Q) cmp, order_laws cmp ->
  forall small_key bomb (h : heap (elems K V * option (kids addr))) ms sst (o : fh_op K V Q),
  fsound h (froots ms) -> Forall2 (fh_shows bor cmp h) ms sst ->
  exists h' ms' r, fh_step bor cmp small_key bomb (h, ms) o = Ok ((h', ms'), r) /\ fsound h' (froots ms')
    /\ forall j l, ~ In j (ftargets o) -> nth_error sst j = Some l ->
         exists m', nth_error ms' j = Some m' /\ fh_shows bor cmp h' m' l.
Proof. exact @fstep_other. Qed.
Print Assumptions C93_independent.
(** The removal of 2 from map 1 clones the root, its leaf, then the other leaf to merge it: this panics. *)
Example C93_independent_ex : exists h' ms' r,
  fh_step nb Nat.compare true (just 2) (dh, [d0; d0; d2]) (FhDo 1 (FoRemove 2)) = Ok ((h', ms'), r) /\ fsound h' (froots ms')
  /\ forall j l, ~ In j [1] -> nth_error [l0; l0; l2] j = Some l -> exists m', nth_error ms' j = Some m' /\ nshows h' m' l.
Proof.
  exact (C93_independent _ _ _ nb _ Ncmp_laws true (just 2) dh [d0; d0; d2] [l0; l0; l2] (FhDo 1 (FoRemove 2)) demo_sound (proj2 demo_reached)).
Qed.
Example C93_independent_ex' :
  match fh_step nb Nat.compare true (just 2) (dh, [d0; d0; d2]) (FhDo 1 (FoRemove 2)) with Ok (_, Unwound) => True | _ => False end.
Proof. vm_compute. exact Logic.I. Qed.

(** The single calls; [O] stands for all the other pointers into the heap. *)
Theorem C93_insert : forall K V Q (bor : K -> Q) cmp, order_laws cmp ->
  forall small_key bomb (h : heap (elems K V * option (kids addr))) m l k v O,
  fsound h (olist (fh_root m) ++ O) -> fh_shows bor cmp h m l -> (forall n, bomb n = false) ->
  exists h' m', fh_insert_map bor cmp small_key bomb h m k v = Ok (h', m', Done (s_get bor cmp (bor k) l))
    /\ fsound h' (olist (fh_root m') ++ O) /\ fframe bor cmp O h h' /\ fh_shows bor cmp h' m' (s_insert bor cmp k v l).
Proof.
  intros K V Q bor cmp laws small_key bomb h m l k v O S H B.
  destruct (insert_s bor cmp laws small_key bomb h m l k v O S H) as (h' & m' & o & E & S' & F & R). exists h', m'.
  destruct o as [x|]; [destruct R as [-> R]; auto|destruct R as [_ [n Hn]]; rewrite B in Hn; discriminate].
Qed.
Print Assumptions C93_insert.
Theorem C93_get_mut : forall K V Q (bor : K -> Q) cmp, order_laws cmp ->
  forall small_key bomb (h : heap (elems K V * option (kids addr))) m l q w O,
  fsound h (olist (fh_root m) ++ O) -> fh_shows bor cmp h m l -> (forall n, bomb n = false) ->
  exists h' m', fh_get_mut_map bor cmp small_key bomb h m q w = Ok (h', m', Done (s_get bor cmp q l))
    /\ fsound h' (olist (fh_root m') ++ O) /\ fframe bor cmp O h h' /\ fh_shows bor cmp h' m' (s_update bor cmp q w l).
Proof.
  intros K V Q bor cmp laws small_key bomb h m l q w O S H B.
  destruct (get_mut_s bor cmp laws small_key bomb h m l q w O S H) as (h' & m' & o & E & S' & F & R). exists h', m'.
  destruct o as [x|]; [destruct R as [-> R]; auto|destruct R as [_ [n Hn]]; rewrite B in Hn; discriminate].
Qed.
Print Assumptions C93_get_mut.
Theorem C93_remove : forall K V Q (bor : K -> Q) cmp, order_laws cmp ->
  forall small_key bomb (h : heap (elems K V * option (kids addr))) m l q O,
  fsound h (olist (fh_root m) ++ O) -> fh_shows bor cmp h m l -> (forall n, bomb n = false) ->
  exists h' m', fh_remove_map bor cmp small_key bomb h m q = Ok (h', m', Done (s_get bor cmp q l))
    /\ fsound h' (olist (fh_root m') ++ O) /\ fframe bor cmp O h h' /\ fh_shows bor cmp h' m' (s_remove bor cmp q l).
Proof.
  intros K V Q bor cmp laws small_key bomb h m l q O S H B.
  destruct (remove_s bor cmp laws small_key bomb h m l q O S H) as (h' & m' & o & E & S' & F & R). exists h', m'.
  destruct o as [x|]; [destruct R as [-> R]; auto|destruct R as [_ [n Hn]]; rewrite B in Hn; discriminate].
Qed.
Print Assumptions C93_remove.
Theorem C93_clear_drop : forall K V Q (bor : K -> Q) cmp (h : heap (elems K V * option (kids addr))) m O,
  fsound h (olist (fh_root m) ++ O) ->
  (exists h', fh_clear h m = Ok (h', fh_new) /\ fsound h' O /\ fframe bor cmp O h h' /\ fh_shows bor cmp h' fh_new [] /\ copies h' = copies h)
  /\ exists h', fh_drop h m = Ok h' /\ fsound h' O /\ fframe bor cmp O h h' /\ copies h' = copies h.
Proof. intros K V Q bor cmp h m O S. split; [now apply clear_s|now apply drop_s]. Qed.
Print Assumptions C93_clear_drop.
Example C93_remove_ex : exists h' m', fh_remove_map nb Nat.compare true never dh d0 2 = Ok (h', m', Done (Some 20))
  /\ nshows h' m' (map kv (seq 3 10)) /\ nshows h' d0 l0.
Proof.
  destruct (C93_remove _ _ _ nb _ Ncmp_laws true never dh d0 l0 2 [2; 3] demo_sound demo_shows0 (fun _ => eq_refl)) as (h' & m' & E & _ & F & H).
  exists h', m'. split; [exact E|]. split; [exact H|]. apply F; [|exact demo_shows0]. intros x [<-|[]]. now left.
Qed.

(** ** C94: panics of the user's [clone]. Whichever clones panic, the library itself does not panic and does not reach
    undefined behaviour as long as maps whose removal unwound are not used any more (they are dropped): every call returns or
    unwinds because of the user's panic, and in both cases the maps are as specified ([sh_follows], FixedHeapSpec.v). *)
Theorem C94_panics : forall K V Q (bor : K -> Q) cmp, order_laws cmp ->
  forall small_key bomb (os : list (fh_op K V Q)),
  exists h ms rs sst, fh_run bor cmp small_key bomb (empty_heap, []) os = Ok ((h, ms), rs)
    /\ sh_follows bor cmp [] os rs sst
    /\ fsound h (froots ms) /\ Forall2 (fh_shows bor cmp h) ms sst
    /\ (In Unwound rs -> exists n, bomb n = true).
Proof. exact @frun_b. Qed.
Print Assumptions C94_panics.
(** The second clone made by the insertion panics: the map is as before. The third clone of the removal panics: the
    client drops the map. The fifth call of [insert] made by [extend] panics after four insertions: it replaces
    a value in the other leaf, the first clone of which panics. *)
Definition demo3 : list (fh_op nat nat nat) :=
  demo_ops ++ [FhDo 1 (FoInsert 2 7); FhDo 1 (FoGet 2); FhDo 1 FoLen; FhDo 1 (FoRemove 2); FhDo 1 FoLen; FhDo 0 FoLen; FhChk 0; FhClone 0;
               FhDo 3 (FoExtend [kv 13; kv 14; kv 15; kv 16; (2, 5); kv 17]); FhDo 3 FoLen; FhDo 3 (FoGet 2); FhDo 3 (FoGet 16); FhDo 0 FoLen].
Example C94_panics_ex :
  match nrun (fun n => (n =? 1) || (n =? 3) || (n =? 6)) (empty_heap, []) demo3 with
  | Ok (_, rs) => skipn 4 rs = [Unwound; Done (FhOut (FrVal (Some 20))); Done (FhOut (FrLen 11)); Unwound; Done (FhOut (FrLen 0)); Done (FhOut (FrLen 11)); Done (FhOut FrUnit);
                        Done (FhOut FrUnit); Unwound; Done (FhOut (FrLen 15)); Done (FhOut (FrVal (Some 20))); Done (FhOut (FrVal (Some 160)));
                        Done (FhOut (FrLen 11))]
  | Panic => False
  end.
Proof. vm_compute. reflexivity. Qed.

(** [insert] and [get_mut] have the strong guarantee; [extend] (and so [from_iter]) stops between two items. *)
Theorem C94_insert_unwound : forall K V Q (bor : K -> Q) cmp, order_laws cmp ->
  forall small_key bomb (h : heap (elems K V * option (kids addr))) m l k v O,
  fsound h (olist (fh_root m) ++ O) -> fh_shows bor cmp h m l ->
  exists h' m' o, fh_insert_map bor cmp small_key bomb h m k v = Ok (h', m', o)
    /\ fsound h' (olist (fh_root m') ++ O) /\ fframe bor cmp O h h'
    /\ match o with
       | Done x => x = s_get bor cmp (bor k) l /\ fh_shows bor cmp h' m' (s_insert bor cmp k v l)
       | Unwound => fh_shows bor cmp h' m' l /\ exists n, bomb n = true
       end.
Proof. exact @insert_s. Qed.
Print Assumptions C94_insert_unwound.
Theorem C94_get_mut_unwound : forall K V Q (bor : K -> Q) cmp, order_laws cmp ->
  forall small_key bomb (h : heap (elems K V * option (kids addr))) m l q w O,
  fsound h (olist (fh_root m) ++ O) -> fh_shows bor cmp h m l ->
  exists h' m' o, fh_get_mut_map bor cmp small_key bomb h m q w = Ok (h', m', o)
    /\ fsound h' (olist (fh_root m') ++ O) /\ fframe bor cmp O h h'
    /\ match o with
       | Done x => x = s_get bor cmp q l /\ fh_shows bor cmp h' m' (s_update bor cmp q w l)
       | Unwound => fh_shows bor cmp h' m' l /\ exists n, bomb n = true
       end.
Proof. exact @get_mut_s. Qed.
Print Assumptions C94_get_mut_unwound.
Theorem C94_extend_unwound : forall K V Q (bor : K -> Q) cmp, order_laws cmp ->
  forall small_key bomb (h : heap (elems K V * option (kids addr))) m l ps O,
  fsound h (olist (fh_root m) ++ O) -> fh_shows bor cmp h m l ->
  exists h' m' o, fh_extend bor cmp small_key bomb h m ps = Ok (h', m', o)
    /\ fsound h' (olist (fh_root m') ++ O) /\ fframe bor cmp O h h'
    /\ match o with
       | Done _ => fh_shows bor cmp h' m' (s_extend bor cmp l ps)
       | Unwound => (exists done rest, ps = done ++ rest /\ fh_shows bor cmp h' m' (s_extend bor cmp l done))
                    /\ exists n, bomb n = true
       end.
Proof. exact @extend_s. Qed.
Print Assumptions C94_extend_unwound.
Example C94_insert_ex : exists h' m', fh_insert_map nb Nat.compare true (just 1) dh d0 7 70 = Ok (h', m', Done (Some 70))
  /\ exists h'' m'', fh_insert_map nb Nat.compare true (just 1) dh d0 8 1 = Ok (h'', m'', Unwound) /\ m'' <> d0
       /\ nshows h'' m'' l0 /\ nshows h'' d0 l0.
Proof.
  eexists _, _. split; [vm_compute; reflexivity|].
  destruct (C94_insert_unwound _ _ _ nb _ Ncmp_laws true (just 1) dh d0 l0 8 1 [2; 3] demo_sound demo_shows0) as (h & m & o & E & _ & F & P).
  assert (X : match fh_insert_map nb Nat.compare true (just 1) dh d0 8 1 with Ok (_, m, Unwound) => m <> d0 | _ => False end) by (vm_compute; discriminate).
  rewrite E in X. destruct o; [contradiction|]. exists h, m. split; auto. split; auto. split; [apply P|]. apply F; [|exact demo_shows0]. intros x [<-|[]]. now left.
Qed.

(** ** C95: exact counts, and no node leaks, also after calls that unwound. *)
Theorem C95_counts : forall K V Q (bor : K -> Q) cmp, order_laws cmp ->
  forall small_key bomb (os : list (fh_op K V Q)) h ms rs,
  fh_run bor cmp small_key bomb (empty_heap, []) os = Ok ((h, ms), rs) ->
  forall a, match get h a with
            | Some (c, _) => c = count_occ Nat.eq_dec (flat_map (fun m => olist (fh_root m)) ms ++ ptrs h) a /\ 1 <= c
            | None => ~ In a (flat_map (fun m => olist (fh_root m)) ms ++ ptrs h)
            end.
Proof.
  intros K V Q bor cmp laws small_key bomb os h ms rs E.
  destruct (frun_b bor cmp laws small_key bomb os) as (h' & ms' & rs' & sst & E' & _ & [W _] & _).
  rewrite E in E'. injection E' as <- <- <-. intros a. specialize (W a). destruct (get h a) as [[n nd]|]; auto.
  now apply cnt_notin.
Qed.
Print Assumptions C95_counts.
Theorem C95_no_leak : forall K V Q (bor : K -> Q) cmp, order_laws cmp ->
  forall small_key bomb (os : list (fh_op K V Q)) h ms rs,
  fh_run bor cmp small_key bomb (empty_heap, []) os = Ok ((h, ms), rs) ->
  exists h', fh_drop_all h ms = Ok h' /\ forall a, get h' a = None.
Proof.
  intros K V Q bor cmp laws small_key bomb os h ms rs E.
  destruct (frun_b bor cmp laws small_key bomb os) as (h' & ms' & rs' & sst & E' & _ & S & _).
  rewrite E in E'. injection E' as <- <- <-. now apply (fdrop_all_none bor cmp).
Qed.
Print Assumptions C95_no_leak.
Example C95_no_leak_ex :
  match nrun (fun n => (n =? 1) || (n =? 3) || (n =? 6)) (empty_heap, []) demo3 with
  | Ok ((h, ms), _) => 4 < length (cells h)
      /\ match fh_drop_all h ms with Ok h' => forallb (fun a => match get h' a with None => true | _ => false end) (seq 0 20) = true | Panic => False end
  | Panic => False
  end.
Proof. vm_compute. split; [repeat constructor|reflexivity]. Qed.

(** ** C96: laziness. [clone()] copies no node. *)
Theorem C96_clone : forall K V Q (bor : K -> Q) cmp (h : heap (elems K V * option (kids addr))) m l O,
  fsound h (olist (fh_root m) ++ O) -> fh_shows bor cmp h m l ->
  exists h', fh_clone h m = Ok (h', m) /\ fsound h' (olist (fh_root m) ++ olist (fh_root m) ++ O)
    /\ fframe bor cmp (olist (fh_root m) ++ O) h h' /\ fh_shows bor cmp h' m l /\ clones h' = clones h.
Proof. exact @clone_s. Qed.
Print Assumptions C96_clone.
(** An insertion, or a write through [get_mut], clones at most the nodes on the path to the key, each once. A
    removal clones at most the nodes on its way and one sibling of each. *)
Theorem C96_insert_path : forall K V Q (bor : K -> Q) cmp, order_laws cmp ->
  forall small_key bomb (h : heap (elems K V * option (kids addr))) m l k v O,
  fsound h (olist (fh_root m) ++ O) -> fh_shows bor cmp h m l ->
  exists h' m' o, fh_insert_map bor cmp small_key bomb h m k v = Ok (h', m', o)
    /\ exists cs, copies h' = cs ++ copies h /\ sub cs (of_tree h m (path bor cmp (bor k))).
Proof. exact @insert_copies. Qed.
Print Assumptions C96_insert_path.
Theorem C96_get_mut_path : forall K V Q (bor : K -> Q) cmp, order_laws cmp ->
  forall small_key bomb (h : heap (elems K V * option (kids addr))) m l q w O,
  fsound h (olist (fh_root m) ++ O) -> fh_shows bor cmp h m l ->
  exists h' m' o, fh_get_mut_map bor cmp small_key bomb h m q w = Ok (h', m', o)
    /\ exists cs, copies h' = cs ++ copies h /\ sub cs (of_tree h m (path bor cmp q)).
Proof. exact @get_mut_copies. Qed.
Print Assumptions C96_get_mut_path.
Theorem C96_remove_path : forall K V Q (bor : K -> Q) cmp, order_laws cmp ->
  forall small_key bomb (h : heap (elems K V * option (kids addr))) m l q O,
  fsound h (olist (fh_root m) ++ O) -> fh_shows bor cmp h m l ->
  exists h' m' o, fh_remove_map bor cmp small_key bomb h m q = Ok (h', m', o)
    /\ exists cs, copies h' = cs ++ copies h /\ sub cs (of_tree h m (near bor cmp q)).
Proof. exact @remove_copies. Qed.
Print Assumptions C96_remove_path.
(** These are few nodes: with [d] levels below the root there are [2 * 6^d] entries or more (less one), [d + 1] nodes on a
    path, and [2 d + 1] nodes on the way of a removal and beside it. *)
Theorem C96_path_length : forall K V Q (bor : K -> Q) cmp (h : heap (elems K V * option (kids addr))) m l q O,
  fsound h (olist (fh_root m) ++ O) -> fh_shows bor cmp h m l ->
  l = [] /\ of_tree h m (path bor cmp q) = [] /\ of_tree h m (near bor cmp q) = []
  \/ exists d, 2 * 6 ^ d <= length l + 1
       /\ length (of_tree h m (path bor cmp q)) <= d + 1 /\ length (of_tree h m (near bor cmp q)) <= 2 * d + 1.
Proof. intros K V Q bor cmp h m l q O S. apply few. now apply fsound_iff in S. Qed.
Print Assumptions C96_path_length.
Example C96_path_ex :
  match fh_insert_map nb Nat.compare true never dh d0 9 1, fh_remove_map nb Nat.compare true never dh d0 2 with
  | Ok (h', _, _), Ok (h'', _, _) =>
    copies h' = [map kv (seq 8 5); [kv 7]] ++ copies dh
    /\ of_tree dh d0 (path nb Nat.compare 9) = [map kv (seq 8 5); [kv 7]]
    /\ copies h'' = [map kv (seq 8 5); map kv (seq 2 5); [kv 7]] ++ copies dh
    /\ of_tree dh d0 (near nb Nat.compare 2) = [map kv (seq 8 5); map kv (seq 2 5); [kv 7]]
  | _, _ => False
  end.
Proof. vm_compute. repeat split. Qed.

(** A map that shares no node is changed in place, whatever else there is in the heap: no node is cloned, so that no
    clone can panic either ([bomb] is arbitrary), and the map shares no node afterwards. *)
Theorem C96_unshared : forall K V Q (bor : K -> Q) cmp, order_laws cmp ->
  forall small_key bomb (h : heap (elems K V * option (kids addr))) m l k v q w ps O,
  fsound h (olist (fh_root m) ++ O) -> fh_shows bor cmp h m l -> funshared h (fh_root m) ->
  (exists h' m' x, fh_insert_map bor cmp small_key bomb h m k v = Ok (h', m', Done x)
     /\ copies h' = copies h /\ funshared h' (fh_root m'))
  /\ (exists h' m' x, fh_get_mut_map bor cmp small_key bomb h m q w = Ok (h', m', Done x)
     /\ copies h' = copies h /\ funshared h' (fh_root m'))
  /\ (exists h' m' x, fh_remove_map bor cmp small_key bomb h m q = Ok (h', m', Done x)
     /\ copies h' = copies h /\ funshared h' (fh_root m'))
  /\ (exists h' m' x, fh_extend bor cmp small_key bomb h m ps = Ok (h', m', Done x)
     /\ copies h' = copies h /\ funshared h' (fh_root m')).
Proof.
  intros K V Q bor cmp laws sk bomb h m l k v q w ps O S H Un.
  exact (conj (insert_placed bor cmp laws sk bomb h m l k v O S H Un) (conj (get_mut_placed bor cmp laws sk bomb h m l q w O S H Un)
    (conj (remove_placed bor cmp laws sk bomb h m l q O S H Un) (extend_placed bor cmp laws sk bomb ps O h m l S H Un)))).
Qed.
Print Assumptions C96_unshared.
Theorem C96_from_iter : forall K V Q (bor : K -> Q) cmp, order_laws cmp ->
  forall small_key bomb (h : heap (elems K V * option (kids addr))) ps O, fsound h O ->
  exists h' m, fh_from_iter bor cmp small_key bomb h ps = Ok (h', Done m) /\ copies h' = copies h /\ funshared h' (fh_root m).
Proof. exact @from_iter_placed. Qed.
Print Assumptions C96_from_iter.
Example C96_unshared_ex :
  match fh_from_iter nb Nat.compare true (fun _ => true) dh (map kv (seq 1 12)) with
  | Ok (h1, Done m) =>
    match fh_remove_map nb Nat.compare true (fun _ => true) h1 m 1 with
    | Ok (h2, m2, Done r) => r = Some 10 /\ copies h2 = copies dh /\ unique h2 5 = true /\ fh_root m2 = Some 6
    | _ => False
    end
  | _ => False
  end
  /\ unique dh 2 = false
  /\ match fh_insert_map nb Nat.compare true (fun _ => true) dh d0 9 1 with Ok (_, _, Unwound) => True | _ => False end.
Proof. vm_compute. repeat split. Qed.

(** ** C97, refuted: "removing an absent key copies nothing". The node version clones the whole path before it knows
    whether the key is there ([BTreeMap::remove] looks first, C78_remove_path). *)
Theorem C97_remove_absent_copies_refuted :
  exists (h : heap (elems nat nat * option (kids addr))) m l q O h' m',
    fsound h (olist (fh_root m) ++ O) /\ nshows h m l /\ s_mem nb Nat.compare q l = false
    /\ fh_remove_map nb Nat.compare true never h m q = Ok (h', m', Done None)
    /\ copies h' = [map kv (seq 8 5); [kv 7]] ++ copies h.
Proof.
  exists dh, d0, l0, 30, [2; 3]. eexists _, _. split; [exact demo_sound|]. split; [exact demo_shows0|]. split; [reflexivity|].
  split; [vm_compute; reflexivity|vm_compute; reflexivity].
Qed.
Print Assumptions C97_remove_absent_copies_refuted.

(** ** C98: a removal that unwinds harms no other map, and its own map can still be dropped or cleared without a leak or
    a double free (C93_clear_drop), and [len()] keeps the old value. *)
Theorem C98_remove_unwound : forall K V Q (bor : K -> Q) cmp, order_laws cmp ->
  forall small_key bomb (h : heap (elems K V * option (kids addr))) m l q O,
  fsound h (olist (fh_root m) ++ O) -> fh_shows bor cmp h m l ->
  exists h' m' o, fh_remove_map bor cmp small_key bomb h m q = Ok (h', m', o)
    /\ fsound h' (olist (fh_root m') ++ O) /\ fframe bor cmp O h h'
    /\ match o with
       | Done x => x = s_get bor cmp q l /\ fh_shows bor cmp h' m' (s_remove bor cmp q l)
       | Unwound => fh_len m' = fh_len m /\ exists n, bomb n = true
       end.
Proof. exact @remove_s. Qed.
Print Assumptions C98_remove_unwound.
Example C98_remove_unwound_ex : exists h' m' h'', fh_remove_map nb Nat.compare true (just 2) dh d0 2 = Ok (h', m', Unwound)
  /\ fh_drop h' m' = Ok h'' /\ fsound h'' [2; 3] /\ nshows h'' d0 l0 /\ nshows h'' d2 l2.
Proof.
  destruct (C98_remove_unwound _ _ _ nb _ Ncmp_laws true (just 2) dh d0 l0 2 [2; 3] demo_sound demo_shows0) as (h & m & o & E & S & F & P).
  assert (X : match fh_remove_map nb Nat.compare true (just 2) dh d0 2 with Ok (_, _, Unwound) => True | _ => False end) by (vm_compute; exact Logic.I).
  rewrite E in X. destruct o; [contradiction|]. destruct (C93_clear_drop _ _ _ nb Nat.compare h m [2; 3] S) as [_ (h2 & E2 & S2 & F2 & _)].
  exists h, m, h2. split; auto. split; auto. split; auto.
  split; (apply F2; [|apply F; [|exact demo_shows0 || exact demo_shows2]]); intros x [<-|[]]; cbn; auto.
Qed.
(** Refuted: "after a panic of the user's [clone] in [remove] has been caught, the map can be used". [check] fails; [len()]
    is 11, but [iter()] yields five entries; an [insert], and a [remove] of a key that is there, panic in the library. *)
Theorem C98_usable_after_remove_refuted :
  exists bomb (h : heap (elems nat nat * option (kids addr))) m l q O h' m' b,
    fsound h (olist (fh_root m) ++ O) /\ nshows h m l
    /\ fh_remove_map nb Nat.compare true bomb h m q = Ok (h', m', Unwound)
    /\ fh_view h' m' = Ok b /\ f_len b = 11 /\ f_chk nb Nat.compare b = Panic
    /\ (it <- fixed_iter b;; '(l', _) <- fi_run borrowed (repeat Front 6) it;; Ok (map fst l')) = Ok (map (fun n => Some (kv n)) (seq 3 5) ++ [None])
    /\ fh_insert_map nb Nat.compare true never h' m' 100 0 = Panic
    /\ f_get nb Nat.compare true b 3 = Ok (Some 30) /\ fh_remove_map nb Nat.compare true never h' m' 3 = Panic.
Proof.
  exists (just 2), dh, d0, l0, 2, [2; 3]. do 3 eexists. split; [exact demo_sound|]. split; [exact demo_shows0|].
  split; [vm_compute; reflexivity|]. split; [vm_compute; reflexivity|]. repeat split; vm_compute; reflexivity.
Qed.
Print Assumptions C98_usable_after_remove_refuted.

(** ** C99, refuted: "after such a panic, whatever [iter()] yields is in order and is found by [get]". [merge_kids] takes the right
    child out of the array of children, whose other slots move down, but the separator stays: the children behind it are then looked for
    one place too far to the right. With three leaves, all entries of the third are still there, but none of them is found. *)
Definition three_ops : list (fh_op nat nat nat) :=
  [FhFromIter (map kv (seq 1 19)); FhDo 0 (FoRemove 1); FhDo 0 (FoRemove 8); FhClone 0].
Definition world3 : fh_world (K := nat) (V := nat) :=
  Eval vm_compute in match nrun never (empty_heap, []) three_ops with Ok (w, _) => w | Panic => (empty_heap, []) end.
Definition d3 := FH (Some 2) 17.
Definition l3 := map kv (seq 2 6 ++ seq 9 11).
Example three_reached : fsound (fst world3) [2; 2] /\ nshows (fst world3) d3 l3.
Proof.
  destruct (frun_done_b nb Nat.compare Ncmp_laws true never three_ops (fun _ => eq_refl)) as (h & ms & E & S & F).
  assert (E0 : nrun never (empty_heap, []) three_ops = Ok (world3, map Done (snd (sh_run nb Nat.compare [] three_ops)))) by (vm_compute; reflexivity).
  rewrite E0 in E. assert (E1 : world3 = (h, ms)) by congruence. apply (f_equal fst) in E1 as Eh. apply (f_equal snd) in E1.
  cbn [fst snd] in Eh, E1. subst h ms. split; [exact S|].
  assert (El : fst (sh_run nb Nat.compare [] three_ops) = [l3; l3]) by (vm_compute; reflexivity). rewrite El in F.
  exact (head2 _ _ _ _ _ F).
Qed.
Theorem C99_found_after_remove_refuted :
  exists bomb (h : heap (elems nat nat * option (kids addr))) m l q O h' m' b,
    fsound h (olist (fh_root m) ++ O) /\ nshows h m l
    /\ fh_remove_map nb Nat.compare true bomb h m q = Ok (h', m', Unwound) /\ fh_view h' m' = Ok b
    /\ (it <- fixed_iter b;; '(l', _) <- fi_run borrowed (repeat Front 12) it;; Ok (map fst l'))
       = Ok (map (fun n => Some (kv n)) [3; 4; 5; 6; 7; 15; 16; 17; 18; 19; 14] ++ [None])
    /\ forall n, In n [15; 16; 17; 18; 19] -> f_get nb Nat.compare true b n = Ok None.
Proof.
  exists (just 2), (fst world3), d3, l3, 2, [2]. do 3 eexists. destruct three_reached as [S H]. split; [exact S|]. split; [exact H|].
  split; [vm_compute; reflexivity|]. split; [vm_compute; reflexivity|]. split; [vm_compute; reflexivity|].
  intros n Hn. repeat (destruct Hn as [<-|Hn]; [vm_compute; reflexivity|]). contradiction.
Qed.
Print Assumptions C99_found_after_remove_refuted.

(** ** C100: the clone of the entries of a node ([el_clone], FixedCloneModel.v). If no clone panics it holds the same entries, as
    in [cell_clone], the clone that the other models use. If the clone of a key or a value panics, the clones made before are neither owned nor
    dropped: exactly those keys and values leak. Nothing is dropped that was not written (the result is not [Panic]). *)
Theorem C100_clone : forall K V kb vb (e : elems K V) es, elems_at e es ->
  (forall i, i < length es -> kb i = false /\ vb i = false) ->
  exists e', el_clone kb vb e = Ok (Done e', ([], [])) /\ elems_at e' es
    /\ forall (d : option (kids addr)) d' e'', cell_clone e d = Ok (e'', d') -> e'' = e'.
Proof.
  intros K V kb vb e es H A. destruct (clone_done kb vb e es H A) as (e' & E & H'). exists e'. split; auto. split; auto.
  intros d d' e'' Ed. pose proof (clone_same kb vb e es d e'' d' H Ed A). congruence.
Qed.
Print Assumptions C100_clone.
Theorem C100_clone_unwound : forall K V kb vb (e : elems K V) es i, elems_at e es -> i < length es ->
  (forall j, j < i -> kb j = false /\ vb j = false) -> kb i || vb i = true ->
  el_clone kb vb e = Ok (Unwound, (firstn (if kb i then i else S i) (map fst es), firstn i (map snd es))).
Proof. exact @clone_unwound. Qed.
Print Assumptions C100_clone_unwound.
(** Refuted: "if a clone panics nothing leaks". *)
Theorem C100_clone_leaks_refuted : exists (e : elems nat nat) es kb vb ks vs,
  elems_at e es /\ el_clone kb vb e = Ok (Unwound, (ks, vs)) /\ ks = [1; 2; 3] /\ vs = [10; 20].
Proof.
  exists (Elems (map Some [1; 2; 3; 4] ++ uninit 7) (map Some [10; 20; 30; 40] ++ uninit 7) 4), (map kv [1; 2; 3; 4]), never, (just 2).
  do 2 eexists. split; [repeat split|]. split; [vm_compute; reflexivity|]. split; reflexivity.
Qed.
Print Assumptions C100_clone_leaks_refuted.
Example C100_clone_ex : exists e', el_clone never never (Elems (map Some [1; 2] ++ uninit 9) (map Some [10; 20] ++ [Some 99] ++ uninit 8) 2) = Ok (Done e', ([], []))
  /\ elems_at e' (map kv [1; 2]).
Proof. eexists. split; [vm_compute; reflexivity|repeat split]. Qed.
