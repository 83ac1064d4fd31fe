(** [Vec::from(map)] for [BTreeMap]s that share nodes (property C143). [hbany] (BAnyHeapSpec.v), [hbshows]
    (BTreeHeapHistSpec.v): the map has the entries [l]; the former says nothing about their order. *)
From Coq Require Import List PeanoNat Bool Lia.
From Verif Require BTreeShows.
From Verif Require Import Base Spec MapSpec BTreeSpec SpecFacts Heap HeapProofs BTreeModel BTreeHeapModel BTreeHeapSpec BTreeHeapHistModel
  BTreeHeapHistSpec BTreeHeapProofs7 BAnyHeapSpec BTreeVecModel BTreeVecProofs PropertiesBTreeHeap.
Import ListNotations.
Open Scope nat_scope.

(** ** C143 *)
(** Whatever the user's [Ord] told when the map was built, and wherever a [clone] panics: the map's own references are given
    back, other maps keep their entries, and each entry is cloned at most once, alone, and in the order of [iter]. If the call
    returns, the vector has the entries in the order of [iter]. It unwinds only if a [clone] panics. *)
Theorem C143_to_vec : forall K V N, 1 <= N -> forall bomb (h : heap (list (K * V))) m l O,
  sound h (olist (hb_root m) ++ O) -> hbany N h m l ->
  exists h' o es, hb_to_vec bomb h m = Ok (h', o) /\ sound h' O /\ frame O h h'
    /\ clones h' = rev (map (fun e => [e]) es) ++ clones h /\ sub es l
    /\ match o with Done v => v = l | Unwound => exists n, bomb n = true end.
Proof. intros K V N HN bomb h m l O S H. exact (hb_to_vec_a N HN bomb h m l O S H). Qed.
Print Assumptions C143_to_vec.

(** Round trip: a map collected from the vector, also with another fan-out, shows the same entries. *)
Theorem C143_round_trip : forall K V Q (bor : K -> Q) cmp, order_laws cmp -> forall N M, 1 <= N -> 1 <= M ->
  forall bomb (h : heap (list (K * V))) m l O, sound h (olist (hb_root m) ++ O) -> hbshows bor cmp N h m l ->
  (forall n, bomb n = false) ->
  exists h1 v h2 m', hb_to_vec bomb h m = Ok (h1, Done v) /\ hb_from_iter bor cmp M bomb h1 v = Ok (h2, Done m')
    /\ sound h2 (olist (hb_root m') ++ O) /\ frame O h h2 /\ hbshows bor cmp M h2 m' l.
Proof.
  intros K V Q bor cmp laws N M HN HM bomb h m l O S H B.
  exact (round_trip_s bor cmp laws N HN M HM bomb h m l O S H B).
Qed.
Print Assumptions C143_round_trip.

(** A map that shares all its nodes with another one. *)
Example C143_ex : sound ch (olist (hb_root d0) ++ [2]) /\ hbany 1 ch d0 l0 /\ nshows ch d0 l0.
Proof.
  split; [exact ch_sound|]. split; [|exact ch_shows].
  eexists. split; [vm_compute; reflexivity|]. split; [reflexivity|]. exists 1.
  change l0 with ([(1, 10)] ++ (2, 20) :: ([(3, 30)] ++ (4, 40) :: [(5, 50); (6, 60)])). unfold bm_root. apply BTreeShows.eo_branch; [cbn; lia|].
  apply BTreeShows.il_cons; [apply BTreeShows.eo_leaf; cbn; lia|]. apply BTreeShows.il_cons; [apply BTreeShows.eo_leaf; cbn; lia|]. apply BTreeShows.il_last, BTreeShows.eo_leaf; cbn; lia.
Qed.
(** All six entries are cloned; or the fourth [clone] panics. The other map, [d0] too, can be read afterwards. *)
Definition vec_run bomb :=
  match hb_to_vec bomb ch d0 with
  | Ok (h, o) => Some (o, length (clones h) - length (clones ch), match hb_read h d0 with Ok b => match BTreeIterModel.b_into_list (fun _ => false) b with Ok l => l | Panic => [] end | Panic => [] end)
  | Panic => None
  end.
Example C143_ex' : vec_run never = Some (Done l0, 6, l0) /\ vec_run (just (3 + length (clones ch))) = Some (Unwound, 4, l0).
Proof. split; vm_compute; reflexivity. Qed.
