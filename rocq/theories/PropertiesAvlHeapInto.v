(** Theorems about owning iteration over [AvlMap]s that share nodes (properties C90-C92).

    [mk] makes an item from an entry: [fun e => e] for [into_iter()], [fst] for [into_keys()], [snd] for [into_values()].
    [oshows h it l d]: the iterator has the items [l] left, and its [len()] is [d] more than their number; [oheld it]: the
    pointers it holds (AvlHeapIntoSpec.v). [hshows], [sound], [frame], [bomb], [small]: as in PropertiesAvlHeap.v. *)
From Coq Require Import List ZArith Bool Lia.
From Verif Require Import Base Spec MapSpec Heap HeapProofs AvlModel AvlIterModel AvlHistModel
  AvlHeapModel AvlHeapSpec AvlHeapHistModel AvlHeapHistSpec AvlHeapIntoModel AvlHeapIntoSpec AvlHeapIntoProofs2 PropertiesAvlHeap PropertiesAvlHeapMut.
Import ListNotations.
Open Scope nat_scope.

(** ** C90: an owning iterator, call by call, beside other maps and iterators. [into_iter()] clones nothing; a call of [next] or
    [next_back] returns the item at its end and leaves the others. If the user's [clone] panics in a call, the items [l1] at
    that end are lost, one or more, while [len()] still counts them; the others can still be taken. Whatever else is alive
    ([O]) stands for what it did, and counts stay exact. *)
Theorem C90_into_iter : forall K V Q (bor : K -> Q) cmp, order_laws cmp ->
  forall I (mk : K * V -> I) (h : heap (pay K V)) m l O, sound h (olist (hm_root m) ++ O) -> hshows bor cmp h m l -> small l ->
  exists h' it, hm_into_iter h m = Ok (h', it) /\ sound h' (oheld it ++ O) /\ frame O h h' /\ oshows mk h' it (map mk l) 0 /\ clones h' = clones h.
Proof. exact @into_iter_h. Qed.
Print Assumptions C90_into_iter.
Theorem C90_next : forall K V I (mk : K * V -> I) bomb (h : heap (pay K V)) it l d O,
  sound h (oheld it ++ O) -> oshows mk h it l d ->
  exists h' it' o, oi_next mk bomb h it = Ok (h', it', o) /\ sound h' (oheld it' ++ O) /\ frame O h h' /\
    match o with
    | Done x => x = hd_error l /\ oshows mk h' it' (tl l) d
    | Unwound => (exists n, bomb n = true) /\ exists l1 l2, l1 <> [] /\ l = l1 ++ l2 /\ oshows mk h' it' l2 (d + length l1)
    end.
Proof. exact @next_h. Qed.
Print Assumptions C90_next.
Theorem C90_next_back : forall K V I (mk : K * V -> I) bomb (h : heap (pay K V)) it l d O,
  sound h (oheld it ++ O) -> oshows mk h it l d ->
  exists h' it' o, oi_next_back mk bomb h it = Ok (h', it', o) /\ sound h' (oheld it' ++ O) /\ frame O h h' /\
    match o with
    | Done x => x = hd_error (rev l) /\ oshows mk h' it' (removelast l) d
    | Unwound => (exists n, bomb n = true) /\ exists l1 l2, l1 <> [] /\ l = l2 ++ l1 /\ oshows mk h' it' l2 (d + length l1)
    end.
Proof. exact @next_back_h. Qed.
Print Assumptions C90_next_back.
(** Dropping it lets go of what it holds. *)
Theorem C90_drop : forall K V I (h : heap (pay K V)) (it : inner_iter (onode K V) I) O, sound h (oheld it ++ O) ->
  exists h', oi_drop h it = Ok h' /\ sound h' O /\ frame O h h' /\ clones h' = clones h.
Proof. exact @drop_h. Qed.
Print Assumptions C90_drop.
(** Whatever leaves its pointers alone leaves its items alone. *)
Theorem C90_frame : forall K V I (mk : K * V -> I) (h h' : heap (pay K V)) it l d O,
  frame O h h' -> incl (oheld it) O -> oshows mk h it l d -> oshows mk h' it l d.
Proof. exact @frame_h. Qed.
Print Assumptions C90_frame.

(** All of map 0 is shared with its clone. The iterator of the clone yields 1; then 3 and 4 are removed from map 0 and 2 gets another value;
    the iterator goes on with what the clone had. *)
Example C90_ex : exists h1 it1 h2 it2 h3 m3 h4 m4 h5 it5 h6 it6 h7,
  hm_into_iter ch d0 = Ok (h1, it1) /\ oi_next (fun e => e) never h1 it1 = Ok (h2, it2, Done (Some (1, 10)))
  /\ hm_remove_entry nb Nat.compare never h2 d0 4 = Ok (h3, m3, Done (Some (4, 40)))
  /\ hm_insert nb Nat.compare never h3 m3 2 77 = Ok (h4, m4, Done (Some 20))
  /\ oi_next_back (fun e => e) never h4 it2 = Ok (h5, it5, Done (Some (4, 40)))
  /\ oi_next (fun e => e) never h5 it5 = Ok (h6, it6, Done (Some (2, 20))) /\ it_len it6 = 1
  /\ oi_drop h6 it6 = Ok h7 /\ hshows nb Nat.compare h7 m4 [(1, 10); (2, 77); (3, 30)].
Proof.
  do 13 eexists. do 8 (split; [vm_compute; reflexivity|]). shows.
Qed.
Example C90_hyp_ex : exists h' it, hm_into_iter ch d0 = Ok (h', it) /\ sound h' (oheld it ++ [0]) /\ oshows fst h' it [1; 2; 3; 4] 0.
Proof.
  destruct (C90_into_iter _ _ _ nb _ Ncmp_laws _ fst ch d0 l0 [0] ch_sound ch_shows eq_refl) as (h' & it & E & S & _ & H & _). exists h', it. auto.
Qed.

(** ** C91: any calls on an owning iterator, and its drop. The results are those for a plain list, with the right [len()] after each, up to a
    panic of the user's [clone]. Clones are made only of nodes on the paths to the entries yielded (if [clone] panics: or to the entry that was to be
    yielded), no node twice. Afterwards all counts are exact again. *)
Theorem C91_into_calls : forall K V Q (bor : K -> Q) cmp, order_laws cmp ->
  forall I (mk : K * V -> I) bomb (h : heap (pay K V)) m l cs O, sound h (olist (hm_root m) ++ O) -> hshows bor cmp h m l -> small l ->
  exists a h' outs b new, hm_read h m = Ok a /\ hm_into_calls mk bomb h m cs = Ok (h', outs, b) /\ sound h' O /\ frame O h h'
    /\ outs = firstn (length outs) (s_ends cs (map mk l))
    /\ (if b : bool then length outs = length cs else exists n, bomb n = true)
    /\ clones h' = new ++ clones h /\ NoDup new
    /\ Forall (fun c => exists e n, In (Some e, n) (firstn (S (length outs)) (s_ends cs l))
                                    /\ In c (path bor cmp (AvlModel.am_root a) (bor (fst e)))) new.
Proof. exact @into_calls_h. Qed.
Print Assumptions C91_into_calls.
(** A map none of whose nodes is shared is taken apart: no clone, so no panic of [clone], and no allocation. *)
Theorem C91_unshared : forall K V Q (bor : K -> Q) cmp, order_laws cmp ->
  forall I (mk : K * V -> I) bomb (h : heap (pay K V)) m l cs O, sound h (olist (hm_root m) ++ O) -> hshows bor cmp h m l -> small l ->
  unshared h (hm_root m) ->
  exists h', hm_into_calls mk bomb h m cs = Ok (h', s_ends cs (map mk l), true) /\ clones h' = clones h /\ length (cells h') = length (cells h).
Proof. exact @into_unshared. Qed.
Print Assumptions C91_unshared.
(** Of the clone of map 0 (2 at the root, 1 and 3 below it, 4 below 3) one item from the front needs the entries of 2 and 1. Of map 1, whose
    node 1 is shared, only this one is cloned. The sample map 2 shares nothing. *)
Example C91_ex : exists h', hm_into_calls snd never ch d0 [Front] = Ok (h', [(Some 10, 3)], true)
  /\ clones h' = Pay 1 10 0 0 :: Pay 2 20 1 2 :: clones ch /\ hshows nb Nat.compare h' d0 l0.
Proof. eexists. split; [vm_compute; reflexivity|]. split; [reflexivity|shows]. Qed.
Example C91_ex' : exists h', hm_into_calls fst never dh d1 [Front; Back; Front; Front; Back; Back]
    = Ok (h', [(Some 1, 4); (Some 5, 3); (Some 2, 2); (Some 3, 1); (Some 4, 0); (None, 0)], true)
  /\ clones h' = Pay 1 10 0 0 :: clones dh /\ hshows nb Nat.compare h' d0 l0.
Proof. eexists. split; [vm_compute; reflexivity|]. split; [reflexivity|shows]. Qed.
Example C91_unshared_ex : unshared dh (hm_root d2) /\ exists h', hm_into_calls (fun e => e) (fun _ => true) dh d2 [Back; Front; Front]
    = Ok (h', [(Some (7, 70), 1); (Some (4, 40), 0); (None, 0)], true) /\ clones h' = clones dh.
Proof. split; [exact C23_unshared_ex|]. eexists. split; [vm_compute; reflexivity|reflexivity]. Qed.

(** ** C92, refuted: "after a panic of the user's [clone] in [IntoIter::next] has been caught, the iterator still yields as many
    entries as its [len()] says". The clone of map 0 loses all four, and [len()] stays 4. *)
Theorem C92_next_after_panic_refuted :
  exists bomb (h : heap (pay nat nat)) m l O h1 it h2 it2,
    sound h (olist (hm_root m) ++ O) /\ hshows nb Nat.compare h m l
    /\ hm_into_iter h m = Ok (h1, it) /\ oi_next (fun e => e) bomb h1 it = Ok (h2, it2, Unwound)
    /\ it_len it2 = length l /\ l <> [] /\ oi_next (fun e => e) never h2 it2 = Ok (h2, it2, Done None).
Proof.
  exists (just 0), ch, d0, l0, [0]. do 4 eexists. split; [exact ch_sound|]. split; [exact ch_shows|].
  split; [vm_compute; reflexivity|]. split; [vm_compute; reflexivity|]. split; [reflexivity|]. split; [discriminate|]. vm_compute. reflexivity.
Qed.
Print Assumptions C92_next_after_panic_refuted.
