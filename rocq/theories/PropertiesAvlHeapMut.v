(** Theorems about [iter_mut] and [range_mut] on [AvlMap]s that share nodes (properties C87-C89).

    A client makes any calls of [next()] and [next_back()], keeps the references it gets, and reads and writes through
    them in any order ([mcall], MutSpec.v). [s_outs], [s_final], [s_taken] say what must come out, on plain lists.
    [hshows], [sound], [frame], [bomb], [small]: as in PropertiesAvlHeap.v. [client_ok], [on_paths]: AvlHeapMutSpec.v. *)
From Coq Require Import List ZArith Bool Lia.
From Verif Require Import Base Spec MapSpec Heap HeapProofs HeapMut AvlModel AvlIterModel AvlHistModel
  AvlHeapModel AvlHeapSpec AvlHeapHistModel AvlHeapHistSpec MutSpec AvlHeapMutModel AvlHeapMutSpec AvlHeapMutProofs4 PropertiesAvlHeap.
Import ListNotations.
Open Scope nat_scope.

(** ** C87: mutable iterators of shared maps are correct, and what they write is invisible to other maps. If the user's
    [clone] panics, this holds of the calls that returned. A range may have any bounds; [len()] of its iterator exceeds
    the number of entries left by the number of entries of the map outside the range. *)
Theorem C87_iter_mut : forall K V Q (bor : K -> Q) cmp, order_laws cmp ->
  forall bomb (h : heap (pay K V)) m l cs O, sound h (olist (hm_root m) ++ O) -> hshows bor cmp h m l -> small l ->
  exists h' m' outs f, hm_iter_mut_calls bomb h m cs = Ok (h', m', outs, f)
    /\ client_ok bor cmp bomb O h cs l 0 (length l) 0 h' m' outs f.
Proof. exact @iter_calls. Qed.
Print Assumptions C87_iter_mut.
Theorem C87_range_mut : forall K V Q (bor : K -> Q) cmp, order_laws cmp ->
  forall bomb (h : heap (pay K V)) m l lo hi cs O, sound h (olist (hm_root m) ++ O) -> hshows bor cmp h m l -> small l ->
  exists h' m' outs f, hm_range_mut_calls bor cmp bomb h m lo hi cs = Ok (h', m', outs, f)
    /\ client_ok bor cmp bomb O h cs l (s_lo bor cmp lo l) (s_hi bor cmp lo hi l)
         (length l - length (s_range bor cmp lo hi l)) h' m' outs f.
Proof. exact @range_calls. Qed.
Print Assumptions C87_range_mut.

(** Map 1 shares the node of 1 with map 0. The client holds three references and writes through the first
    and the last, to 1 and 3, and reads what it wrote; map 0 keeps its values. *)
Definition mcalls : list (mcall nat) :=
  [MNext; MBack; MNext; MNext; MWrite 0 S; MWrite 3 (Nat.add 5); MWrite 0 S; MBack; MWrite 9 S; MNext].
Example demo_sound1 : sound dh (olist (hm_root d1) ++ [0; 8]).
Proof.
  destruct demo_sound as [W A]. split; auto. eapply wf_equiv; [|exact W]. intros a.
  change (roots dms) with [0; 4; 8]. cbn [olist hm_root d1 app]. rewrite !(cnt_cons a). lia.
Qed.
Example C87_iter_mut_ex : exists h' m' outs,
  hm_iter_mut_calls never dh d1 mcalls = Ok (h', m', outs, true)
  /\ outs = [(Some (1, 10), 4); (Some (5, 50), 3); (Some (2, 20), 2); (Some (3, 30), 1); (Some (1, 10), 1); (Some (3, 30), 1);
             (Some (1, 11), 1); (Some (4, 40), 0); (None, 0); (None, 0)]
  /\ hshows nb Nat.compare h' m' [(1, 12); (2, 20); (3, 35); (4, 40); (5, 50)] /\ hshows nb Nat.compare h' d0 l0.
Proof.
  destruct (C87_iter_mut _ _ _ nb _ Ncmp_laws never dh d1 l1 mcalls [0; 8] demo_sound1 demo_shows1 l1_small) as (h' & m' & outs & f & E & S & F & H & R & L).
  destruct f; [|destruct L as [n L]; discriminate]. rewrite L in H, R. exists h', m', outs. split; [exact E|].
  split; [rewrite R; reflexivity|]. split; [exact H|].
  apply (C20_frame _ _ _ nb _ Ncmp_laws _ _ _ d0 l0 F); [intros x [<-|[]]; now left|reflexivity|exact demo_shows0].
Qed.
Example C87_range_mut_ex : exists h' m' outs,
  hm_range_mut_calls nb Nat.compare never dh d1 (Excluded 1) (Excluded 5) [MBack; MNext; MWrite 0 S; MNext; MWrite 2 S; MNext] = Ok (h', m', outs, true)
  /\ outs = [(Some (4, 40), 4); (Some (2, 20), 3); (Some (4, 40), 3); (Some (3, 30), 2); (Some (3, 30), 2); (None, 2)]
  /\ hshows nb Nat.compare h' m' [(1, 10); (2, 20); (3, 31); (4, 41); (5, 50)] /\ hshows nb Nat.compare h' d0 l0.
Proof.
  destruct (C87_range_mut _ _ _ nb _ Ncmp_laws never dh d1 l1 (Excluded 1) (Excluded 5)
    [MBack; MNext; MWrite 0 S; MNext; MWrite 2 S; MNext] [0; 8] demo_sound1 demo_shows1 l1_small) as (h' & m' & outs & f & E & S & F & H & R & L).
  destruct f; [|destruct L as [n L]; discriminate]. rewrite L in H, R. exists h', m', outs. split; [exact E|].
  split; [rewrite R; reflexivity|]. split; [exact H|].
  apply (C20_frame _ _ _ nb _ Ncmp_laws _ _ _ d0 l0 F); [intros x [<-|[]]; now left|reflexivity|exact demo_shows0].
Qed.

(** ** C88: mutable iteration is lazy. [iter_mut()] clones at most the root; after that only children of the nodes on the paths to the
    entries taken are cloned (if [clone] panics: or to the entry that was being taken), no node twice. *)
Theorem C88_iter_mut_lazy : forall K V Q (bor : K -> Q) cmp, order_laws cmp ->
  forall bomb (h : heap (pay K V)) m l a cs O,
  sound h (olist (hm_root m) ++ O) -> hshows bor cmp h m l -> small l -> hm_read h m = Ok a ->
  exists h' m' outs f c2 c1, hm_iter_mut_calls bomb h m cs = Ok (h', m', outs, f) /\ clones h' = c2 ++ c1 ++ clones h
    /\ NoDup (c2 ++ c1) /\ (c1 = [] \/ c1 = root_pay (AvlModel.am_root a))
    /\ Forall (on_paths bor cmp (firstn (S (length outs)) cs) l 0 (length l) (AvlModel.am_root a)) c2.
Proof. exact @iter_lazy. Qed.
Print Assumptions C88_iter_mut_lazy.
(** [range_mut()] itself clones at most the root and, for either end, two nodes per level below it. *)
Theorem C88_range_mut_lazy : forall K V Q (bor : K -> Q) cmp, order_laws cmp ->
  forall bomb (h : heap (pay K V)) m l a lo hi cs O,
  sound h (olist (hm_root m) ++ O) -> hshows bor cmp h m l -> small l -> hm_read h m = Ok a ->
  exists h' m' outs f c2 c1, hm_range_mut_calls bor cmp bomb h m lo hi cs = Ok (h', m', outs, f) /\ clones h' = c2 ++ c1 ++ clones h
    /\ NoDup (c2 ++ c1) /\ length c1 <= 1 + 4 * (levels (AvlModel.am_root a) - 1)
    /\ Forall (on_paths bor cmp (firstn (S (length outs)) cs) l (s_lo bor cmp lo l) (s_hi bor cmp lo hi l) (AvlModel.am_root a)) c2.
Proof. exact @range_lazy. Qed.
Print Assumptions C88_range_mut_lazy.
(** There are at most two nodes per level around a path. *)
Theorem C88_around_length : forall K V Q (bor : K -> Q) cmp (t : tree K V) q, length (around bor cmp q t) <= 2 * levels t.
Proof. exact @around_len. Qed.
Print Assumptions C88_around_length.
(** A map none of whose nodes is shared: no clone at all, so no panic of [clone]; and no node becomes shared. *)
Theorem C88_unshared : forall K V Q (bor : K -> Q) cmp, order_laws cmp ->
  forall bomb (h : heap (pay K V)) m l cs O,
  sound h (olist (hm_root m) ++ O) -> hshows bor cmp h m l -> small l -> unshared h (hm_root m) ->
  (exists h' m' outs, hm_iter_mut_calls bomb h m cs = Ok (h', m', outs, true) /\ clones h' = clones h /\ unshared h' (hm_root m'))
  /\ forall lo hi, exists h' m' outs, hm_range_mut_calls bor cmp bomb h m lo hi cs = Ok (h', m', outs, true)
       /\ clones h' = clones h /\ unshared h' (hm_root m').
Proof. exact @muts_unshared. Qed.
Print Assumptions C88_unshared.

Ltac shows := eexists; split; [vm_compute; reflexivity|split; vm_compute; reflexivity].
(** All of the map is shared: 2 is the root, 1 and 3 its children, 4 is below 3. One step from the back clones 2, then 1 and 3,
    then 4. A range above 3 clones 2, 3 and 4, but not 1. *)
Example C88_ex :
  match hm_iter_mut_calls never ch d0 [MBack; MWrite 0 S] with
  | Ok (h', m', outs, f) => clones h' = Pay 4 40 0 0 :: Pay 3 30 0 1 :: Pay 1 10 0 0 :: Pay 2 20 1 2 :: clones ch /\ f = true
      /\ hshows nb Nat.compare h' m' [(1, 10); (2, 20); (3, 30); (4, 41)] /\ hshows nb Nat.compare h' d0 l0
  | Panic => False
  end
  /\ match hm_range_mut_calls nb Nat.compare never ch d0 (Excluded 3) Unbounded [MBack; MWrite 0 S] with
     | Ok (h', m', outs, f) => clones h' = Pay 4 40 0 0 :: Pay 3 30 0 1 :: Pay 2 20 1 2 :: clones ch /\ f = true
         /\ hshows nb Nat.compare h' m' [(1, 10); (2, 20); (3, 30); (4, 41)] /\ hshows nb Nat.compare h' d0 l0
     | Panic => False
     end.
Proof. split; vm_compute; (split; [reflexivity|]; split; [reflexivity|]; split; shows). Qed.
(** The third step panics (call 3 of [clone]): the results before stand, and so does what was written. *)
Example C88_panic_ex : exists h' m' outs, hm_iter_mut_calls (just 3) ch d0 [MNext; MWrite 0 S; MNext; MNext] = Ok (h', m', outs, false)
  /\ length outs = 3 /\ hshows nb Nat.compare h' m' [(1, 11); (2, 20); (3, 30); (4, 40)] /\ hshows nb Nat.compare h' d0 l0.
Proof. do 3 eexists. split; [vm_compute; reflexivity|]. split; [reflexivity|]. split; shows. Qed.
Example C88_unshared_ex : exists h' m' outs, hm_iter_mut_calls (fun _ => true) dh d2 [MBack; MWrite 0 S; MNext] = Ok (h', m', outs, true)
  /\ clones h' = clones dh /\ unshared h' (hm_root m').
Proof.
  apply (C88_unshared _ _ _ nb _ Ncmp_laws (fun _ => true) dh d2 l2 _ [0; 4]); [|exact demo_shows2|reflexivity|exact C23_unshared_ex].
  destruct demo_sound as [W A]. split; auto. eapply wf_equiv; [|exact W]. intros a.
  change (roots dms) with [0; 4; 8]. cbn [olist hm_root d2 app]. rewrite !(cnt_cons a). lia.
Qed.

(** ** C89, refuted: "after a panic of the user's [clone] in [IterMut::next] has been caught, the iterator returns the
    remaining entries, as many as [len()] says". The subtree that was being opened is lost: here it is the whole map, and
    [len()] still promises all of its entries. *)
Theorem C89_next_after_panic_refuted :
  exists bomb (h : heap (pay nat nat)) m l O h1 m1 it h2 it2 h3 it3 outs,
    sound h (olist (hm_root m) ++ O) /\ hshows nb Nat.compare h m l
    /\ hm_iter_mut bomb h m = Ok (h1, m1, Done it) /\ am_next bomb h1 it = Ok (h2, it2, Unwound)
    /\ it_len it2 = length l /\ length l = 4
    /\ am_run never (repeat MNext (length l)) h2 it2 [] = Ok (h3, it3, outs, true)
    /\ outs = repeat (None, length l) (length l).
Proof.
  exists (just 1), ch, d0, l0, [0]. do 8 eexists. split; [exact ch_sound|]. split; [exact ch_shows|].
  split; [vm_compute; reflexivity|]. split; [vm_compute; reflexivity|]. split; [reflexivity|]. split; [reflexivity|].
  split; vm_compute; reflexivity.
Qed.
Print Assumptions C89_next_after_panic_refuted.
