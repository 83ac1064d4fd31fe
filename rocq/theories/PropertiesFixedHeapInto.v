(** Theorems about owning iteration over [btree::fixed::BTreeMap]s that share nodes (properties C101-C103).

    [xshows h it l r] (FixedHeapIntoSpec.v): following what the iterator [it] holds in the heap [h], a reader sees the
    entries [l] in the order in which [next] takes them, [r] in the order in which [next_back] takes them, and its [len()]
    is their number; [xheld it]: the pointers it holds. [fh_shows], [fsound], [fframe], [copies], [bomb]: as in
    PropertiesFixedHeap.v; an entry that is cloned is logged as a clone of a node with this entry alone. The last
    component of the result of a call: the entries dropped in place with the node iterators that it popped. *)
From Coq Require Import List PeanoNat Bool Lia Permutation.
From Verif Require Import Base Spec MapSpec Heap HeapProofs AvlHeapSpec BTreeModel BTreeHistModel BTreeHeapModel BTreeHeapSpec
  FixedModel FixedIterModel FixedSpec FixedHeapModel FixedHeapSpec FixedHeapIntoModel FixedHeapIntoSpec FixedHeapIntoProofs3 PropertiesFixedHeap.
Import ListNotations.
Open Scope nat_scope.

(** ** C101: an owning iterator, call by call, beside other maps and iterators ([O] stands for their pointers).
    [into_iter()] clones nothing, and both ends begin with the first entry; a call of [next] or [next_back] returns the
    entry that is up and leaves the others. It clones this entry or nothing and allocates nothing. *)
Theorem C101_into_iter : forall K V Q (bor : K -> Q) cmp (h : heap (elems K V * option (kids addr))) m l O,
  fsound h (olist (fh_root m) ++ O) -> fh_shows bor cmp h m l ->
  exists h' it, fh_into_iter h m = Ok (h', it) /\ fsound h' (xheld it ++ O) /\ fframe bor cmp O h h' /\ xshows h' it l l
    /\ clones h' = clones h /\ length (cells h') = length (cells h).
Proof. exact @into_iter_x. Qed.
Print Assumptions C101_into_iter.
Theorem C101_next : forall K V Q (bor : K -> Q) cmp bomb (h : heap (elems K V * option (kids addr))) it l r O,
  fsound h (xheld it ++ O) -> xshows h it l r ->
  exists h' it' o, xi_next bomb h it = Ok (h', it', o, []) /\ fsound h' (xheld it' ++ O) /\ fframe bor cmp O h h'
    /\ length (cells h') = length (cells h) /\
    match o with
    | Done x => x = hd_error l /\ (exists r', xshows h' it' (tl l) r')
                /\ (copies h' = copies h \/ exists e, x = Some e /\ copies h' = [e] :: copies h)
    | Unwound => bomb (length (clones h)) = true /\ (exists r', xshows h' it' l r')
                 /\ (exists e, hd_error l = Some e /\ copies h' = [e] :: copies h)
    end.
Proof. exact @next_x. Qed.
Print Assumptions C101_next.
Theorem C101_next_back : forall K V Q (bor : K -> Q) cmp bomb (h : heap (elems K V * option (kids addr))) it l r O,
  fsound h (xheld it ++ O) -> xshows h it l r ->
  exists h' it' o, xi_next_back bomb h it = Ok (h', it', o, []) /\ fsound h' (xheld it' ++ O) /\ fframe bor cmp O h h'
    /\ length (cells h') = length (cells h) /\
    match o with
    | Done x => x = hd_error r /\ (exists l', xshows h' it' l' (tl r))
                /\ (copies h' = copies h \/ exists e, x = Some e /\ copies h' = [e] :: copies h)
    | Unwound => bomb (length (clones h)) = true /\ (exists l', xshows h' it' l' r)
                 /\ (exists e, hd_error r = Some e /\ copies h' = [e] :: copies h)
    end.
Proof. exact @next_back_x. Qed.
Print Assumptions C101_next_back.
(** The two orders are of the same entries. *)
Theorem C101_orders : forall K V (h : heap (elems K V * option (kids addr))) it l r, xshows h it l r -> Permutation l r.
Proof. exact @orders_x. Qed.
Print Assumptions C101_orders.
(** Dropping it lets go of what it holds. The entries that were left are dropped in place, but for those in the nodes that its pointers
    lead to. *)
Theorem C101_drop : forall K V Q (bor : K -> Q) cmp (h : heap (elems K V * option (kids addr))) it l r O,
  fsound h (xheld it ++ O) -> xshows h it l r ->
  exists h' es rest, xi_drop h it = Ok (h', es) /\ fsound h' O /\ fframe bor cmp O h h' /\ clones h' = clones h
    /\ length (cells h') = length (cells h) /\ Permutation l (es ++ rest)
    /\ exists ts, Forall2 (reads h) (xheld it) ts /\ incl rest (concat (map inorder ts)).
Proof. exact @drop_x. Qed.
Print Assumptions C101_drop.
(** Whatever leaves its pointers alone leaves its entries alone. *)
Theorem C101_frame : forall K V Q (bor : K -> Q) cmp (h h' : heap (elems K V * option (kids addr))) it l r O,
  fframe bor cmp O h h' -> incl (xheld it) O -> xshows h it l r -> xshows h' it l r.
Proof. exact @frame_x. Qed.
Print Assumptions C101_frame.

(** All of map 0 is shared with its clone. The iterator of the clone yields 2; then 3 is removed from map 0 (its leaves are
    merged) and 4 gets another value; the iterator goes on with what the clone had. *)
Example C101_ex : exists h1 it1 h2 it2 h3 m3 h4 m4 h5 it5 h6 it6 h7,
  fh_into_iter dh d0 = Ok (h1, it1) /\ xi_next never h1 it1 = Ok (h2, it2, Done (Some (2, 20)), [])
  /\ fh_remove_map nb Nat.compare true never h2 d0 3 = Ok (h3, m3, Done (Some 30))
  /\ fh_insert_map nb Nat.compare true never h3 m3 4 77 = Ok (h4, m4, Done (Some 40))
  /\ xi_next never h4 it2 = Ok (h5, it5, Done (Some (3, 30)), [])
  /\ xi_next never h5 it5 = Ok (h6, it6, Done (Some (4, 40)), []) /\ fi_len it6 = 8
  /\ copies h6 = [[(4, 40)]; [(3, 30)]; map kv (seq 8 5); map kv (seq 2 5); [(7, 70)]; [(2, 20)]]
  /\ xi_drop h6 it6 = Ok (h7, []) /\ match fh_view h7 m4 with Ok b => f_get nb Nat.compare true b 4 = Ok (Some 77) /\ fm_len b = 10 | Panic => False end.
Proof. do 13 eexists. do 9 (split; [vm_compute; reflexivity|]). vm_compute. auto. Qed.
Example C101_hyp_ex : exists h' it, fh_into_iter dh d0 = Ok (h', it) /\ fsound h' (xheld it ++ [2; 3]) /\ xshows h' it l0 l0.
Proof.
  destruct (C101_into_iter _ _ _ nb Nat.compare dh d0 l0 [2; 3] demo_sound demo_shows0) as (h' & it & E & S & _ & H & _). exists h', it. auto.
Qed.

(** ** C102: a panic of the user's [clone] in [next] that is caught loses no entry (unlike [avl::AvlMap], C92): the iterator still has
    all that it had, and the next call that returns yields the entry that was up. *)
Theorem C102_retry : forall K V Q (bor : K -> Q) cmp bomb bomb' (h : heap (elems K V * option (kids addr))) it l r O h1 it1 es,
  fsound h (xheld it ++ O) -> xshows h it l r -> xi_next bomb h it = Ok (h1, it1, Unwound, es) -> (forall n, bomb' n = false) ->
  exists h2 it2 r', xi_next bomb' h1 it1 = Ok (h2, it2, Done (hd_error l), []) /\ fsound h2 (xheld it2 ++ O) /\ fframe bor cmp O h h2
    /\ xshows h2 it2 (tl l) r' /\ es = [].
Proof. exact @retry_x. Qed.
Print Assumptions C102_retry.
(** In a run of [next] in which any number of the clones panic, the entries come in order and none is left out: the calls that return
    yield the first entries of the map, as many as there are such calls. *)
Theorem C102_fronts : forall K V Q (bor : K -> Q) cmp bomb (h : heap (elems K V * option (kids addr))) m l n O,
  fsound h (olist (fh_root m) ++ O) -> fh_shows bor cmp h m l ->
  exists h' os es, fh_into_calls bomb h m (repeat Front n) = Ok (h', os, es) /\ length os = n
    /\ yielded os = firstn (returned os) l.
Proof. exact @fronts_x. Qed.
Print Assumptions C102_fronts.
(** The second clone panics: 3 is yielded by the call after. *)
Example C102_ex : exists h', fh_into_calls (just 1) dh d0 [Front; Front; Front; Front]
    = Ok (h', [(Done (Some (2, 20)), 10); (Unwound, 10); (Done (Some (3, 30)), 9); (Done (Some (4, 40)), 8)], [])
  /\ copies h' = [[(4, 40)]; [(3, 30)]; [(3, 30)]; [(2, 20)]].
Proof. eexists. split; vm_compute; reflexivity. Qed.
Example C102_retry_ex : exists h1 it1 h2 it2 h3 it3, fh_into_iter dh d0 = Ok (h1, it1)
  /\ xi_next (just 0) h1 it1 = Ok (h2, it2, Unwound, []) /\ fi_len it2 = 11 /\ xi_next never h2 it2 = Ok (h3, it3, Done (Some (2, 20)), []).
Proof. do 6 eexists. repeat split; vm_compute; reflexivity. Qed.

(** ** C103: any calls of [next] and [next_back] on an owning iterator, and its drop. The entries yielded, those dropped in place and others make up
    the map: none is yielded twice, or yielded and dropped. [len()] counts them down, [None] is returned only when it is 0. At most one entry is cloned per
    call; if no call unwinds, the entries cloned are among those yielded, none twice. No node is allocated; all other maps show what they did. *)
Theorem C103_into_calls : forall K V Q (bor : K -> Q) cmp bomb (h : heap (elems K V * option (kids addr))) m l cs O,
  fsound h (olist (fh_root m) ++ O) -> fh_shows bor cmp h m l ->
  exists h' os es rest new, fh_into_calls bomb h m cs = Ok (h', os, es) /\ fsound h' O /\ fframe bor cmp O h h' /\ length (cells h') = length (cells h)
    /\ length os = length cs /\ Permutation l (yielded os ++ es ++ rest)
    /\ map snd os = counts (length l) (map fst os) /\ (forall n, In (Done None, n) os -> n = 0)
    /\ (In Unwound (map fst os) -> exists n, bomb n = true)
    /\ copies h' = map (fun e => [e]) new ++ copies h /\ incl new l /\ length new <= length cs
    /\ (~ In Unwound (map fst os) -> sub new (rev (yielded os))).
Proof. exact @into_calls_s. Qed.
Print Assumptions C103_into_calls.
(** [next] alone, and no panic: what a plain list gives. *)
Theorem C103_fronts : forall K V Q (bor : K -> Q) cmp bomb (h : heap (elems K V * option (kids addr))) m l n O,
  fsound h (olist (fh_root m) ++ O) -> fh_shows bor cmp h m l -> (forall n, bomb n = false) ->
  exists h' es, fh_into_calls bomb h m (repeat Front n) = Ok (h', fronts n l, es).
Proof. exact @fronts_done_x. Qed.
Print Assumptions C103_fronts.
(** A map that shares no node is taken apart: no clone, and so no panic of [clone]. *)
Theorem C103_unshared : forall K V Q (bor : K -> Q) cmp bomb (h : heap (elems K V * option (kids addr))) m l cs O,
  fsound h (olist (fh_root m) ++ O) -> fh_shows bor cmp h m l -> funshared h (fh_root m) ->
  exists h' os es, fh_into_calls bomb h m cs = Ok (h', os, es) /\ copies h' = copies h /\ ~ In Unwound (map fst os).
Proof. exact @unshared_x. Qed.
Print Assumptions C103_unshared.
(** Map 1 gets another value for 2, so that its root and left leaf are its own; the right leaf is shared, and only its entries are cloned. *)
Definition world1 : fh_world (K := nat) (V := nat) :=
  Eval vm_compute in match nrun never world0 [FhDo 1 (FoGetMut 2 S)] with Ok (w, _) => w | Panic => (empty_heap, []) end.
Definition m1 := nth 1 (snd world1) d0.
Example C103_ex : exists h', fh_into_calls never (fst world1) m1 (repeat Front 8)
    = Ok (h', [(Done (Some (2, 21)), 10); (Done (Some (3, 30)), 9); (Done (Some (4, 40)), 8); (Done (Some (5, 50)), 7); (Done (Some (6, 60)), 6);
               (Done (Some (7, 70)), 5); (Done (Some (8, 80)), 4); (Done (Some (9, 90)), 3)], [])
  /\ copies h' = [[(9, 90)]; [(8, 80)]] ++ copies (fst world1).
Proof. eexists. split; vm_compute; reflexivity. Qed.
(** [next_back] after [next] has begun the left leaf: it goes on behind this leaf. *)
Example C103_ex' : exists h', fh_into_calls never dh d0 [Front; Back; Back; Front]
    = Ok (h', [(Done (Some (2, 20)), 10); (Done (Some (7, 70)), 9); (Done (Some (8, 80)), 8); (Done (Some (3, 30)), 7)], [])
  /\ copies h' = [[(3, 30)]; [(8, 80)]; [(7, 70)]; [(2, 20)]].
Proof. eexists. split; vm_compute; reflexivity. Qed.
Example C103_unshared_ex : funshared dh (fh_root d2) /\ exists h', fh_into_calls (fun _ => true) dh d2 [Front] = Ok (h', [(Done (Some (20, 200)), 1)], [(21, 210)])
  /\ copies h' = [].
Proof.
  split; [|eexists; split; vm_compute; reflexivity]. intros a c n R E.
  assert (X : a = 3).
  { clear E. induction R as [a Ha|x c' n' b Hx IH E Hb]; [destruct Ha as [<-|[]]; reflexivity|]. subst x. vm_compute in E. injection E as <- <-. destruct Hb. }
  subst a. vm_compute in E. now injection E as <- _.
Qed.
