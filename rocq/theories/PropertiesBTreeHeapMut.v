(** Theorems about [iter_mut] and [range_mut] on [BTreeMap]s that share nodes (properties C84-C86).

    A client makes any calls of [next()] and [next_back()], keeps the references it gets, and reads and writes through
    them in any order ([mcall], MutSpec.v). [s_outs], [s_final], [s_taken] say what must come out, on plain lists.
    [hbshows], [sound], [frame], [bomb]: as in PropertiesBTreeHeap.v. [client_ok], [on_paths]: BTreeHeapMutSpec.v. *)
From Coq Require Import List PeanoNat Bool Lia.
From Verif Require Import Base Spec MapSpec BTreeSpec Heap HeapProofs HeapMut BTreeModel BTreeIterModel BTreeHistModel
  BTreeHeapModel BTreeHeapSpec BTreeHeapHistModel BTreeHeapHistSpec MutSpec BTreeHeapMutModel BTreeHeapMutSpec BTreeHeapMutProofs4
  PropertiesBTreeHeap.
Import ListNotations.
Open Scope nat_scope.

(** ** C84: mutable iterators of shared maps are correct, and what they write is invisible to other maps. If the user's
    [clone] panics, this holds of the calls that returned. *)
Theorem C84_iter_mut : forall K V Q (bor : K -> Q) cmp, order_laws cmp -> forall N, 1 <= N ->
  forall bomb (h : heap (list (K * V))) m l cs O, sound h (olist (hb_root m) ++ O) -> hbshows bor cmp N h m l ->
  exists h' m' outs f, hb_iter_mut_calls N bomb h m cs = Ok (h', m', outs, f)
    /\ client_ok bor cmp N bomb O h cs l 0 (length l) 0 h' m' outs f.
Proof. exact @iter_calls. Qed.
Print Assumptions C84_iter_mut.
Theorem C84_range_mut : forall K V Q (bor : K -> Q) cmp, order_laws cmp -> forall N, 1 <= N ->
  forall bomb (h : heap (list (K * V))) m l lo hi cs O, sound h (olist (hb_root m) ++ O) -> hbshows bor cmp N h m l ->
  bounds_fine bor cmp lo hi l ->
  exists h' m' outs f, hb_range_mut_calls bor cmp N bomb h m lo hi cs = Ok (h', m', outs, f)
    /\ client_ok bor cmp N bomb O h cs l (s_lo bor cmp lo l) (s_hi bor cmp lo hi l)
         (length l - length (s_range bor cmp lo hi l)) h' m' outs f.
Proof. exact @range_calls. Qed.
Print Assumptions C84_range_mut.

(** Map 1 shares the leaves of 1 and 3 with map 0. The client holds three references and writes through the first
    and the last, to 1 and 3, and reads what it wrote; map 0 keeps its values. *)
Definition mcalls : list (mcall nat) :=
  [MNext; MBack; MNext; MNext; MWrite 0 S; MWrite 3 (Nat.add 5); MWrite 0 S; MBack; MWrite 9 S].
Example C84_iter_mut_ex : exists h' m' outs,
  hb_iter_mut_calls 1 never dh d1 mcalls = Ok (h', m', outs, true)
  /\ map fst outs = [Some (1, 10); Some (7, 70); Some (2, 20); Some (3, 30); Some (1, 10); Some (3, 30); Some (1, 11); Some (6, 60); None]
  /\ map (fun o => snd (snd o)) outs = [6; 5; 4; 3; 3; 3; 3; 2; 2]
  /\ nshows h' m' [(1, 12); (2, 20); (3, 35); (4, 40); (5, 50); (6, 60); (7, 70)] /\ nshows h' d0 l0.
Proof.
  destruct (C84_iter_mut _ _ _ nb _ Ncmp_laws 1 (le_n 1) never dh d1 l1 mcalls [2; 6] demo_sound1 demo_shows1) as (h' & m' & outs & f & E & S & F & H & R & L).
  destruct f; [|destruct L as [n L]; discriminate]. rewrite L in H, R. exists h', m', outs. split; [exact E|].
  assert (Eo : outs = match hb_iter_mut_calls 1 never dh d1 mcalls with Ok (_, _, o, _) => o | Panic => [] end) by now rewrite E.
  split; [rewrite Eo; reflexivity|]. split; [rewrite Eo; reflexivity|]. split; [exact H|].
  apply (C38_frame _ _ _ nb _ Ncmp_laws 1 (le_n 1) _ _ _ d0 l0 F); [intros x [<-|[]]; now left|exact demo_shows0].
Qed.
(** A range. The upper bound of its [size_hint()] exceeds the number of entries left by 3, the number of entries outside. *)
Example C84_range_mut_ex : exists h' m' outs,
  hb_range_mut_calls nb Nat.compare 1 never dh d1 (Excluded 1) (Excluded 6) [MBack; MNext; MWrite 0 S; MNext; MWrite 2 S; MNext; MNext] = Ok (h', m', outs, true)
  /\ map fst outs = [Some (5, 50); Some (2, 20); Some (5, 50); Some (3, 30); Some (3, 30); Some (4, 40); None]
  /\ map (fun o => snd (snd o)) outs = [6; 5; 5; 4; 4; 3; 3]
  /\ nshows h' m' [(1, 10); (2, 20); (3, 31); (4, 40); (5, 51); (6, 60); (7, 70)] /\ nshows h' d0 l0.
Proof.
  destruct (C84_range_mut _ _ _ nb _ Ncmp_laws 1 (le_n 1) never dh d1 l1 (Excluded 1) (Excluded 6)
    [MBack; MNext; MWrite 0 S; MNext; MWrite 2 S; MNext; MNext] [2; 6] demo_sound1 demo_shows1) as (h' & m' & outs & f & E & S & F & H & R & L).
  { split; [|intros q (q' & [= <-] & [= <-] & Hq); discriminate]. intros (a & b & [= <-] & [= <-] & Hq). discriminate. }
  destruct f; [|destruct L as [n L]; discriminate]. rewrite L in H, R. exists h', m', outs. split; [exact E|].
  match type of E with ?x = _ => assert (Eo : outs = match x with Ok (_, _, o, _) => o | Panic => [] end) by now rewrite E end.
  split; [rewrite Eo; reflexivity|]. split; [rewrite Eo; reflexivity|]. split; [exact H|].
  apply (C38_frame _ _ _ nb _ Ncmp_laws 1 (le_n 1) _ _ _ d0 l0 F); [intros x [<-|[]]; now left|exact demo_shows0].
Qed.

(** ** C85: mutable iteration is lazy. [iter_mut()] clones at most the root; after that only the nodes on the paths to the
    entries taken are cloned (if [clone] panics: or to the entry that was being taken), no node twice. *)
Theorem C85_iter_mut_lazy : forall K V Q (bor : K -> Q) cmp, order_laws cmp -> forall N, 1 <= N ->
  forall bomb (h : heap (list (K * V))) m l b cs O,
  sound h (olist (hb_root m) ++ O) -> hbshows bor cmp N h m l -> hb_read h m = Ok b ->
  exists h' m' outs f c2 c1, hb_iter_mut_calls N bomb h m cs = Ok (h', m', outs, f) /\ clones h' = c2 ++ c1 ++ clones h
    /\ NoDup (c2 ++ c1)
    /\ match bm_root b with
       | None => c1 = [] /\ c2 = []
       | Some t => (c1 = [] \/ c1 = [elems_of t])
         /\ Forall (on_paths bor cmp (firstn (S (length outs)) cs) l 0 (length l) t) c2
       end.
Proof. exact @iter_lazy. Qed.
Print Assumptions C85_iter_mut_lazy.
(** [range_mut()] itself clones at most the root and one node per level for each end that is bounded ([d], the number
    of levels below the root, is at most logarithmic in [len()]). *)
Theorem C85_range_mut_lazy : forall K V Q (bor : K -> Q) cmp, order_laws cmp -> forall N, 1 <= N ->
  forall bomb (h : heap (list (K * V))) m l b lo hi cs O,
  sound h (olist (hb_root m) ++ O) -> hbshows bor cmp N h m l -> hb_read h m = Ok b -> bounds_fine bor cmp lo hi l ->
  exists h' m' outs f c2 c1 d, hb_range_mut_calls bor cmp N bomb h m lo hi cs = Ok (h', m', outs, f)
    /\ clones h' = c2 ++ c1 ++ clones h
    /\ NoDup (c2 ++ c1)
    /\ match bm_root b with
       | None => c1 = [] /\ c2 = []
       | Some t => 2 * (N + 1) ^ d <= length l + 1 /\ length c1 <= 1 + (bd1 lo + bd1 hi) * d
         /\ Forall (on_paths bor cmp (firstn (S (length outs)) cs) l (s_lo bor cmp lo l) (s_hi bor cmp lo hi l) t) c2
       end.
Proof. exact @range_lazy. Qed.
Print Assumptions C85_range_mut_lazy.
(** A map none of whose nodes is shared: no clone at all, so no panic of [clone]; and no node becomes shared. *)
Theorem C85_unshared : forall K V Q (bor : K -> Q) cmp, order_laws cmp -> forall N, 1 <= N ->
  forall bomb (h : heap (list (K * V))) m l cs O,
  sound h (olist (hb_root m) ++ O) -> hbshows bor cmp N h m l -> unshared h (hb_root m) ->
  (exists h' m' outs, hb_iter_mut_calls N bomb h m cs = Ok (h', m', outs, true) /\ clones h' = clones h /\ unshared h' (hb_root m'))
  /\ forall lo hi, bounds_fine bor cmp lo hi l ->
     exists h' m' outs, hb_range_mut_calls bor cmp N bomb h m lo hi cs = Ok (h', m', outs, true)
       /\ clones h' = clones h /\ unshared h' (hb_root m').
Proof. exact @muts_unshared. Qed.
Print Assumptions C85_unshared.

(** All of the map is shared. Two steps clone the root and the leaf of 1; a range that ends above 5 clones the
    root, and the leaf that the end is in. *)
Example C85_ex :
  match hb_iter_mut_calls 1 never ch d0 [MNext; MNext; MWrite 1 S] with
  | Ok (h', m', outs, f) => clones h' = [(1, 10)] :: [(2, 20); (4, 40)] :: clones ch /\ f = true
      /\ nshows h' m' [(1, 10); (2, 21); (3, 30); (4, 40); (5, 50); (6, 60)] /\ nshows h' d0 l0
  | Panic => False
  end
  /\ match hb_range_mut_calls nb Nat.compare 1 never ch d0 Unbounded (Included 5) [MBack; MWrite 0 S] with
     | Ok (h', m', outs, f) => clones h' = [(5, 50); (6, 60)] :: [(2, 20); (4, 40)] :: clones ch /\ f = true
         /\ nshows h' m' [(1, 10); (2, 20); (3, 30); (4, 40); (5, 51); (6, 60)] /\ nshows h' d0 l0
     | Panic => False
     end.
Proof. split; vm_compute; (split; [reflexivity|]; split; [reflexivity|]; split; shows). Qed.
(** The third step panics (call 2 of [clone]): the results before stand, and so does what was written. *)
Example C85_panic_ex : exists h' m' outs, hb_iter_mut_calls 1 (just 2) ch d0 [MNext; MWrite 0 S; MNext; MNext] = Ok (h', m', outs, false)
  /\ length outs = 3 /\ nshows h' m' [(1, 11); (2, 20); (3, 30); (4, 40); (5, 50); (6, 60)] /\ nshows h' d0 l0.
Proof. do 3 eexists. split; [vm_compute; reflexivity|]. split; [reflexivity|]. split; shows. Qed.
Example C85_unshared_ex : exists h' m' outs, hb_iter_mut_calls 1 (fun _ => true) dh d2 [MBack; MWrite 0 S; MNext] = Ok (h', m', outs, true)
  /\ clones h' = clones dh /\ unshared h' (hb_root m').
Proof.
  apply (C85_unshared _ _ _ nb _ Ncmp_laws 1 (le_n 1) (fun _ => true) dh d2 l2 _ [2; 4]); [|exact demo_shows2|exact C78_unshared_ex].
  destruct demo_sound as [W A]. split; auto. eapply wf_equiv; [|exact W]. intros a.
  change (broots dms) with [2; 4; 6]. cbn [olist hb_root d2 app]. rewrite !(cnt_cons a). lia.
Qed.

(** ** C86, refuted: "after a panic of the user's [clone] in [IterMut::next] has been caught, the iterator returns the
    remaining entries, as many as [len()] says". It skips entries (here the first), and [len()] stays too large. *)
Theorem C86_next_after_panic_refuted :
  exists bomb (h : heap (list (nat * nat))) m l O h1 m1 it h2 it2 h3 it3 outs,
    sound h (olist (hb_root m) ++ O) /\ nshows h m l
    /\ hb_iter_mut bomb h m = Ok (h1, m1, Done it) /\ hm_next bomb h1 it = Ok (h2, it2, Unwound)
    /\ mi_len it2 = length l
    /\ hm_run 1 never (repeat MNext (length l)) h2 it2 [] = Ok (h3, it3, outs, true)
    /\ map fst outs = map Some (tl l) ++ [None] /\ mi_len it3 = 1.
Proof.
  exists (just 1), ch, d0, l0, [2]. do 8 eexists. split; [exact ch_sound|]. split; [exact ch_shows|].
  split; [vm_compute; reflexivity|]. split; [vm_compute; reflexivity|]. split; [reflexivity|].
  split; [vm_compute; reflexivity|]. split; reflexivity.
Qed.
Print Assumptions C86_next_after_panic_refuted.
