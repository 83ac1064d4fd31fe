(** Theorems about [BTreeMap]s that share nodes (properties C38, C77-C83).

    [hbshows bor cmp N h m l] (BTreeHeapHistSpec.v): following the pointers of the map [m] in the
    heap [h], its [check()] succeeds and [iter()] yields [l]. [sound h O] (BTreeHeapSpec.v): the
    count of each cell is the number of pointers to it from other cells and from the
    list [O] of pointers held outside the heap, and there are no cycles. [frame O h h']:
    whatever the pointers [O] stand for in [h] they stand for in [h'].

    [bomb n = true]: call number [n] of the user's [K::clone]/[V::clone] (of a node, or of one entry by an
    owning iterator) panics. [fbomb]: the predicate given to [retain] panics. A call whose panic
    is caught ends with [Unwound]; [Panic] is any panic of the library itself. *)
From Coq Require Import List PeanoNat Bool Lia.
From Verif Require Import Base Spec MapSpec BTreeSpec Heap HeapProofs BTreeModel BTreeIterModel BTreeHistModel BTreeShows
  BTreeHeapModel BTreeHeapSpec BTreeHeapHistModel BTreeHeapHistSpec BTreeHeapProofs BTreeHeapProofs5 BTreeHeapProofs7
  BTreeHeapProofs8 BTreeHeapProofs9.
Import ListNotations.
Open Scope nat_scope.

(** ** Sample with [N = 1]: maps 0 and 1 are clones; 1 was changed after the clone; 2 is another map. *)
Definition never (_ : nat) : bool := false.
Definition fnever (_ _ : nat) : bool := false.
Definition just (n i : nat) : bool := Nat.eqb n i.
Definition nb (k : nat) : nat := k.
Notation nrun bomb fbomb := (hb_run nb Nat.compare 1 Nat.eqb Nat.eqb Nat.compare Nat.compare bomb fbomb).
Notation nsrun := (s_run nb Nat.compare Nat.eqb Nat.eqb Nat.compare Nat.compare).
Notation nsupported := (all_supported nb Nat.compare Nat.eqb Nat.eqb Nat.compare Nat.compare).
Notation nalways := (always_supported nb Nat.compare Nat.eqb Nat.eqb Nat.compare Nat.compare).
Notation nshows := (hbshows nb Nat.compare 1).
Definition kv (n : nat) : nat * nat := (n, 10 * n).
Definition demo_ops : list (op nat nat nat) :=
  [OFromIter (map kv [2; 1; 4; 3; 5; 6]); OClone 0; OInsert 1 7 70; OFromIter (map kv [20; 21])].
Definition world0 : hb_world (K := nat) (V := nat) :=
  Eval vm_compute in match nrun never fnever (empty_heap, []) demo_ops with
                     | Ok (w, _) => w | Panic => (empty_heap, []) end.
Definition dh := fst world0.
Definition dms := snd world0.
Definition d0 := HB 6 (Some 2).
Definition d1 := HB 7 (Some 4).
Definition d2 := HB 2 (Some 6).
Definition l0 := map kv [1; 2; 3; 4; 5; 6].
Definition l1 := map kv [1; 2; 3; 4; 5; 6; 7].
Definition l2 := map kv [20; 21].
Example demo_maps : dms = [d0; d1; d2].
Proof. reflexivity. Qed.
(** Operations for which [supported] has no condition. *)
Definition plain {K V Q} (o : op K V Q) : bool :=
  match o with
  | ORemoveEntry _ _ | OUnion _ _ | OIntersect _ _ | ODiff _ _ | OSymDiff _ _ | ORange _ _ _ _ => false
  | _ => true
  end.
Lemma plain_all os : forall st, forallb plain os = true -> nsupported st os.
Proof.
  induction os as [|o os IH]; intros st H; cbn [all_supported forallb] in *; auto.
  apply andb_prop in H as [H1 H2]. split; [destruct o; try discriminate; exact I|auto].
Qed.
Lemma plain_always os : forall st, forallb plain os = true -> nalways st os.
Proof.
  induction os as [|o os IH]; intros st H; cbn [always_supported forallb] in *; auto.
  apply andb_prop in H as [H1 H2]. split; [destruct o; try discriminate; exact I|auto].
Qed.
Lemma Ncmp_laws : order_laws Nat.compare.
Proof.
  constructor.
  - intros a b. apply Nat.compare_antisym.
  - intros a b c H1 H2. apply Nat.compare_lt_iff in H1, H2. apply Nat.compare_lt_iff. lia.
  - intros a b c H1. apply Nat.compare_eq_iff in H1. now subst.
Qed.
Lemma no_faults : faults never fnever -> False.
Proof. intros [[n H]|(k & v & H)]; discriminate. Qed.
(** The worlds that histories without panics reach are sound. *)
Lemma reached N os w rs : 1 <= N -> forallb plain os = true ->
  hb_run nb Nat.compare N Nat.eqb Nat.eqb Nat.compare Nat.compare never fnever (empty_heap, []) os = Ok (w, rs) ->
  sound (fst w) (broots (snd w))
  /\ Forall2 (hbshows nb Nat.compare N (fst w)) (snd w) (fst (nsrun [] os)).
Proof.
  intros HN P E. destruct (run_done_b nb Nat.compare Ncmp_laws N HN Nat.eqb Nat.eqb Nat.compare Nat.compare never fnever
                             os no_faults (plain_all os [] P)) as (h & ms & E' & S & F).
  rewrite E in E'. injection E' as -> _. auto.
Qed.
Example demo_sound : sound dh (broots dms).
Proof. eapply (reached 1 demo_ops world0); [lia|reflexivity|vm_compute; reflexivity]. Qed.
Ltac shows := eexists; split; [vm_compute; reflexivity|split; [|split]; vm_compute; reflexivity].
Example demo_shows0 : nshows dh d0 l0. Proof. shows. Qed.
Example demo_shows1 : nshows dh d1 l1. Proof. shows. Qed.
Example demo_shows2 : nshows dh d2 l2. Proof. shows. Qed.
Example demo_shows : Forall2 (nshows dh) dms [l0; l1; l2].
Proof. repeat constructor; [exact demo_shows0|exact demo_shows1|exact demo_shows2]. Qed.
(** The maps 0 and 1 share two leaves. *)
Example demo_shared : get dh 1 = Some (2, Nd [(1, 10)] []) /\ get dh 3 = Some (2, Nd [(3, 30)] []) /\ unique dh 4 = true.
Proof. repeat split; reflexivity. Qed.
Lemma demo_sound1 : sound dh (olist (hb_root d1) ++ [2; 6]).
Proof.
  destruct demo_sound as [W A]. split; auto. eapply wf_equiv; [|exact W]. intros a.
  change (broots dms) with [2; 4; 6]. cbn [olist hb_root d1 app].
  rewrite !(cnt_cons a). lia.
Qed.

(** ** C38: clones are independent. Any history of calls on any number of maps that share
    nodes in any way gives the results of plain lists, one per map, and at the end each
    map shows its list. *)
Theorem C38_histories : forall K V Q (bor : K -> Q) cmp, order_laws cmp -> forall N, 1 <= N ->
  forall keq veq kcmp vcmp bomb fbomb (os : list (op K V Q)),
  (forall n, bomb n = false) -> (forall k v, fbomb k v = false) ->
  all_supported bor cmp keq veq kcmp vcmp [] os ->
  exists h ms, hb_run bor cmp N keq veq kcmp vcmp bomb fbomb (empty_heap, []) os
               = Ok ((h, ms), map Done (snd (s_run bor cmp keq veq kcmp vcmp [] os)))
    /\ sound h (broots ms)
    /\ Forall2 (hbshows bor cmp N h) ms (fst (s_run bor cmp keq veq kcmp vcmp [] os)).
Proof.
  intros K V Q bor cmp laws N HN keq veq kcmp vcmp bomb fbomb os Hb Hf.
  apply (run_done_b bor cmp laws N HN). intros [[n H]|(k & v & H)]; congruence.
Qed.
Print Assumptions C38_histories.
Definition demo2 : list (op nat nat nat) :=
  demo_ops ++ [ORemove 0 1; OGet 1 1; OGet 0 1; OClone 1; OGetMut 3 2 S; OGet 1 2; OGet 3 2; OAppend 1 2; OLen 1; OLen 3; OLen 2;
               ORetain 3 (fun k v => (v, Nat.even k)); OSplitOff 1 4; OIter 1 [Front; Front; Front; Front]; OIter 4 [Back];
               OIter 3 [Front; Front; Front; Front]; OClear 0; OCheck 4; OPopFirst 4; OClone 4; OPopLast 4; OIter 5 [Back]].
Example C38_histories_ex : nsupported [] demo2.
Proof. now apply plain_all. Qed.
Example C38_histories_ex' :
  match nrun never fnever (empty_heap, []) demo2 with
  | Ok (_, rs) => skipn 4 rs = map Done
      [RVal (Some 10); RVal (Some 10); RVal None; RUnit; RVal (Some 20); RVal (Some 20); RVal (Some 21); RUnit; RLen 9; RLen 7; RLen 0;
       RUnit; RUnit; RSeq [(Some (1, 10), 2); (Some (2, 20), 1); (Some (3, 30), 0); (None, 0)]; RSeq [(Some (21, 210), 5)];
       RSeq [(Some (2, 21), 2); (Some (4, 40), 1); (Some (6, 60), 0); (None, 0)]; RUnit; RBool true; REntry (Some (4, 40)); RUnit;
       REntry (Some (21, 210)); RSeq [(Some (21, 210), 4)]]
  | Panic => False
  end.
Proof. vm_compute. reflexivity. Qed.

(** One call, whatever maps exist and whether it returns or unwinds: the maps that it does not borrow
    mutably are still there and show what they showed. *)
Theorem C38_independent : forall K V Q (bor : K -> Q) cmp, order_laws cmp -> forall N, 1 <= N ->
  forall keq veq kcmp vcmp bomb fbomb (h : heap (list (K * V))) ms sst (o : op K V Q),
  sound h (broots ms) -> Forall2 (hbshows bor cmp N h) ms sst -> supported bor cmp sst o ->
  exists h' ms' r, hb_step bor cmp N keq veq kcmp vcmp bomb fbomb (h, ms) o = Ok ((h', ms'), r)
    /\ forall j l, ~ In j (btargets o) -> nth_error sst j = Some l ->
         exists m', nth_error ms' j = Some m' /\ hbshows bor cmp N h' m' l.
Proof. exact @step_other_b. Qed.
Print Assumptions C38_independent.
(** The removal of 1 from map 1 clones the leaf of 1 (call 2), then the leaf of 3 to merge it: this
    call panics. *)
Example C38_independent_ex : exists h' ms' r,
  hb_step nb Nat.compare 1 Nat.eqb Nat.eqb Nat.compare Nat.compare (just 3) fnever (dh, dms) (ORemove 1 1) = Ok ((h', ms'), r)
  /\ forall j l, ~ In j [1] -> nth_error [l0; l1; l2] j = Some l ->
         exists m', nth_error ms' j = Some m' /\ nshows h' m' l.
Proof.
  exact (C38_independent _ _ _ nb _ Ncmp_laws 1 (le_n 1) Nat.eqb Nat.eqb Nat.compare Nat.compare _ _ dh dms [l0; l1; l2] (ORemove 1 1)
           demo_sound demo_shows I).
Qed.
Example C38_independent_ex' :
  match hb_step nb Nat.compare 1 Nat.eqb Nat.eqb Nat.compare Nat.compare (just 3) fnever (dh, dms) (ORemove 1 1) with
  | Ok (_, Unwound) => True | _ => False end.
Proof. vm_compute. exact I. Qed.

(** The single calls. *)
Theorem C38_insert : forall K V Q (bor : K -> Q) cmp, order_laws cmp -> forall N, 1 <= N ->
  forall bomb (h : heap (list (K * V))) m l k v O, sound h (olist (hb_root m) ++ O) -> hbshows bor cmp N h m l ->
  (forall n, bomb n = false) ->
  exists h' m', hb_insert bor cmp N bomb h m k v = Ok (h', m', Done (s_get bor cmp (bor k) l))
    /\ sound h' (olist (hb_root m') ++ O) /\ frame O h h' /\ hbshows bor cmp N h' m' (s_insert bor cmp k v l).
Proof.
  intros K V Q bor cmp laws N HN bomb h m l k v O So H B.
  destruct (insert_s bor cmp laws N HN bomb h m l k v O So H) as (h' & m' & o & E & So' & F & R).
  exists h', m'. destruct o as [x|]; [destruct R as [-> R]; auto|destruct R as [_ [n Hn]]; rewrite B in Hn; discriminate].
Qed.
Print Assumptions C38_insert.
Theorem C38_get_mut : forall K V Q (bor : K -> Q) cmp, order_laws cmp -> forall N, 1 <= N ->
  forall bomb (h : heap (list (K * V))) m l q w O, sound h (olist (hb_root m) ++ O) -> hbshows bor cmp N h m l ->
  (forall n, bomb n = false) ->
  exists h' m', hb_get_mut bor cmp bomb h m q w = Ok (h', m', Done (s_get bor cmp q l))
    /\ sound h' (olist (hb_root m') ++ O) /\ frame O h h' /\ hbshows bor cmp N h' m' (s_update bor cmp q w l).
Proof.
  intros K V Q bor cmp laws N HN bomb h m l q w O So H B.
  destruct (get_mut_s bor cmp laws N HN bomb h m l q w O So H) as (h' & m' & o & E & So' & F & R).
  exists h', m'. destruct o as [x|]; [destruct R as [-> R]; auto|destruct R as [_ [n Hn]]; rewrite B in Hn; discriminate].
Qed.
Print Assumptions C38_get_mut.
Theorem C38_remove : forall K V Q (bor : K -> Q) cmp, order_laws cmp -> forall N, 1 <= N ->
  forall bomb (h : heap (list (K * V))) m l q O, sound h (olist (hb_root m) ++ O) -> hbshows bor cmp N h m l ->
  (forall n, bomb n = false) ->
  exists h' m', hb_remove bor cmp N bomb h m q = Ok (h', m', Done (s_get bor cmp q l))
    /\ sound h' (olist (hb_root m') ++ O) /\ frame O h h' /\ hbshows bor cmp N h' m' (s_remove bor cmp q l).
Proof.
  intros K V Q bor cmp laws N HN bomb h m l q O So H B.
  destruct (remove_s bor cmp laws N HN bomb h m l q O So H) as (h' & m' & o & E & So' & F & R).
  exists h', m'. destruct o as [x|]; [destruct R as [-> R]; auto|destruct R as [_ [n Hn]]; rewrite B in Hn; discriminate].
Qed.
Print Assumptions C38_remove.
(** What [frame] is good for: another map keeps what it shows. *)
Theorem C38_frame : forall K V Q (bor : K -> Q) cmp, order_laws cmp -> forall N, 1 <= N ->
  forall O (h h' : heap (list (K * V))) m l, frame O h h' -> incl (olist (hb_root m)) O ->
  hbshows bor cmp N h m l -> hbshows bor cmp N h' m l.
Proof.
  intros K V Q bor cmp laws N HN O h h' m l F I. apply (hbshows_keep bor cmp laws N HN O); auto. now apply frame_keep.
Qed.
Print Assumptions C38_frame.
Example C38_remove_ex : exists h' m', hb_remove nb Nat.compare 1 never dh d1 1 = Ok (h', m', Done (Some 10))
  /\ nshows h' m' (map kv [2; 3; 4; 5; 6; 7]) /\ nshows h' d0 l0.
Proof.
  destruct (C38_remove _ _ _ nb _ Ncmp_laws 1 (le_n 1) never dh d1 l1 1 [2; 6] demo_sound1 demo_shows1 (fun _ => eq_refl))
    as (h' & m' & E & So' & F & H).
  exists h', m'. split; [exact E|]. split; [exact H|].
  apply (C38_frame _ _ _ nb _ Ncmp_laws 1 (le_n 1) _ _ _ d0 l0 F); [intros x [<-|[]]; now left|exact demo_shows0].
Qed.

(** Whatever nodes are shared, and whichever [clone] calls or predicates panic, the library itself does not
    panic as long as maps whose removal unwound are not used any more: every call returns or unwinds because
    of the user's panic, and in both cases the maps are as specified ([b_follows], BTreeHeapHistSpec.v). *)
Theorem C38_panics : forall K V Q (bor : K -> Q) cmp, order_laws cmp -> forall N, 1 <= N ->
  forall keq veq kcmp vcmp bomb fbomb (os : list (op K V Q)),
  always_supported bor cmp keq veq kcmp vcmp [] os ->
  exists h ms rs sst, hb_run bor cmp N keq veq kcmp vcmp bomb fbomb (empty_heap, []) os = Ok ((h, ms), rs)
    /\ b_follows bor cmp keq veq kcmp vcmp [] os rs sst
    /\ sound h (broots ms) /\ Forall2 (hbshows bor cmp N h) ms sst
    /\ (In Unwound rs -> (exists n, bomb n = true) \/ exists k v, fbomb k v = true).
Proof.
  intros K V Q bor cmp laws N HN keq veq kcmp vcmp bomb fbomb os Sm.
  exact (run_b bor cmp laws N HN keq veq kcmp vcmp bomb fbomb os Sm).
Qed.
Print Assumptions C38_panics.
Definition demo3 : list (op nat nat nat) :=
  [OFromIter (map kv [2; 1; 4; 3; 5; 6]); OClone 0; OClone 0; OInsert 1 7 70; OGet 1 7; OLen 1; ORemove 2 1; OGet 0 3; OCheck 0;
   OLen 2; OAppend 2 1; OLen 2; OLen 1; OIter 2 [Front; Front; Front]].
Example C38_panics_ex : nalways [] demo3.
Proof. now apply plain_always. Qed.
(** The second clone made by the insertion panics: the map is as before. The second clone of the
    removal panics: the client throws the map away. The third clone made by [append] (of an
    entry in a shared leaf) panics: four entries have been moved. *)
Example C38_panics_ex' :
  match nrun (fun n => (n =? 1) || (n =? 3) || (n =? 6)) fnever (empty_heap, []) demo3 with
  | Ok (_, rs) => rs = [Done RUnit; Done RUnit; Done RUnit; Unwound; Done (RVal None); Done (RLen 6); Unwound; Done (RVal (Some 30)); Done (RBool true);
                        Done (RLen 0); Unwound; Done (RLen 4); Done (RLen 0); Done (RSeq [(Some (1, 10), 3); (Some (2, 20), 2); (Some (3, 30), 1)])]
  | Panic => False
  end.
Proof. vm_compute. reflexivity. Qed.

(** Exact counts, and no leaks, also after calls that unwound. *)
Theorem C38_counts : forall K V Q (bor : K -> Q) cmp, order_laws cmp -> forall N, 1 <= N ->
  forall keq veq kcmp vcmp bomb fbomb (os : list (op K V Q)) h ms rs,
  always_supported bor cmp keq veq kcmp vcmp [] os ->
  hb_run bor cmp N keq veq kcmp vcmp bomb fbomb (empty_heap, []) os = Ok ((h, ms), rs) ->
  forall a, match get h a with
            | Some (c, _) => c = count_occ Nat.eq_dec (flat_map (fun m => olist (hb_root m)) ms ++ ptrs h) a /\ 1 <= c
            | None => ~ In a (flat_map (fun m => olist (hb_root m)) ms ++ ptrs h)
            end.
Proof.
  intros K V Q bor cmp laws N HN keq veq kcmp vcmp bomb fbomb os h ms rs Sm E.
  destruct (run_b bor cmp laws N HN keq veq kcmp vcmp bomb fbomb os Sm) as (h' & ms' & rs' & sst & E' & _ & [W _] & _).
  rewrite E in E'. injection E' as <- <- <-. intros a. specialize (W a). destruct (get h a) as [[n nd]|]; auto.
  now apply cnt_notin.
Qed.
Print Assumptions C38_counts.
Theorem C38_no_leak : forall K V Q (bor : K -> Q) cmp, order_laws cmp -> forall N, 1 <= N ->
  forall keq veq kcmp vcmp bomb fbomb (os : list (op K V Q)) h ms rs,
  always_supported bor cmp keq veq kcmp vcmp [] os ->
  hb_run bor cmp N keq veq kcmp vcmp bomb fbomb (empty_heap, []) os = Ok ((h, ms), rs) ->
  exists h', hb_drop_all h ms = Ok h' /\ forall a, get h' a = None.
Proof.
  intros K V Q bor cmp laws N HN keq veq kcmp vcmp bomb fbomb os h ms rs Sm E.
  destruct (run_b bor cmp laws N HN keq veq kcmp vcmp bomb fbomb os Sm) as (h' & ms' & rs' & sst & E' & _ & S & _).
  rewrite E in E'. injection E' as <- <- <-. now apply drop_all_none.
Qed.
Print Assumptions C38_no_leak.
Example C38_no_leak_ex :
  match nrun (fun n => (n =? 1) || (n =? 3) || (n =? 6)) fnever (empty_heap, []) demo3 with
  | Ok ((h, ms), _) => 4 < length (cells h)
      /\ match hb_drop_all h ms with Ok h' => forallb (fun a => match get h' a with None => true | _ => false end) (seq 0 20) = true | Panic => False end
  | Panic => False
  end.
Proof. vm_compute. split; [repeat constructor|reflexivity]. Qed.

(** ** C77, refuted: "after a panic of the user's [clone] in [remove] has been caught, the map can be used".
    A key that was not to be removed is still found; removing it panics in the library ([rebal] indexes
    [kids] out of bounds). *)
Definition broken N (bomb : nat -> bool) (h : heap (list (nat * nat))) m l q q2 : Prop :=
  (exists O, sound h (olist (hb_root m) ++ O)) /\ hbshows nb Nat.compare N h m l
  /\ s_mem nb Nat.compare q2 l = true
  /\ exists h' m', hb_remove nb Nat.compare N bomb h m q = Ok (h', m', Unwound)
       /\ (exists b, hb_read h' m' = Ok b /\ b_get nb Nat.compare b q2 <> None)
       /\ hb_remove nb Nat.compare N never h' m' q2 = Panic.
Lemma witness N os w m l q q2 n O' : 1 <= N -> forallb plain os = true ->
  match hb_run nb Nat.compare N Nat.eqb Nat.eqb Nat.compare Nat.compare never fnever (empty_heap, []) os with
  | Ok (w', _) => w' = w | Panic => False end ->
  (forall x, cnt x (broots (snd w)) = cnt x (olist (hb_root m) ++ O')) ->
  match nth_error (snd w) 0, nth_error (fst (nsrun [] os)) 0 with Some m', Some l' => m' = m /\ l' = l | _, _ => False end ->
  s_mem nb Nat.compare q2 l = true ->
  match hb_remove nb Nat.compare N (just n) (fst w) m q with
  | Ok (h', m', Unwound) =>
    match hb_read h' m', hb_remove nb Nat.compare N never h' m' q2 with
    | Ok b, Panic => match b_get nb Nat.compare b q2 with Some _ => true | None => false end
    | _, _ => false
    end
  | _ => false
  end = true ->
  broken N (just n) (fst w) m l q q2.
Proof.
  intros HN P E Hc Hm Hq H.
  destruct (hb_run _ _ _ _ _ _ _ _ _ _ _) as [[w' rs]|] eqn:Er; [|contradiction]. subst w'.
  destruct (reached N os w rs HN P Er) as [[W A] F].
  split; [|split; [|split; auto]].
  - exists O'. split; auto. eapply wf_equiv; eauto.
  - destruct F as [|m0 l0 ms ls F0 F]; cbn [nth_error] in Hm; [contradiction|]. destruct Hm as [-> ->]. exact F0.
  - destruct (hb_remove _ _ _ _ _ _ _) as [[[h' m'] [o|]]|] eqn:E1; try discriminate. exists h', m'. split; auto.
    destruct (hb_read h' m') as [b|] eqn:E2; [|discriminate].
    destruct (hb_remove nb Nat.compare N never h' m' q2) as [x|] eqn:E3; [discriminate|]. split; auto. exists b. split; auto.
    intros E4. rewrite E4 in H. discriminate.
Qed.
(** The smallest [N], and the default [N = 5]. *)
Definition broken_ops n : list (op nat nat nat) := [OFromIter (map kv (seq 1 n)); ORemove 0 n; OClone 0].
Definition broken_world N n : hb_world (K := nat) (V := nat) :=
  match hb_run nb Nat.compare N Nat.eqb Nat.eqb Nat.compare Nat.compare never fnever (empty_heap, []) (broken_ops n) with
  | Ok (w, _) => w | Panic => (empty_heap, []) end.
Theorem C77_usable_after_remove_refuted :
  (exists bomb h m l q q2, broken 1 bomb h m l q q2) /\ (exists bomb h m l q q2, broken 5 bomb h m l q q2).
Proof.
  split.
  - exists (just 2), (fst (broken_world 1 4)), (HB 3 (Some 2)), (map kv (seq 1 3)), 1, 3.
    apply (witness 1 (broken_ops 4) (broken_world 1 4)) with (O' := [2]);
      [lia|reflexivity|vm_compute; reflexivity|intros x; reflexivity|vm_compute; split; reflexivity|reflexivity|vm_compute; reflexivity].
  - exists (just 2), (fst (broken_world 5 12)), (HB 11 (Some 2)), (map kv (seq 1 11)), 1, 11.
    apply (witness 5 (broken_ops 12) (broken_world 5 12)) with (O' := [2]);
      [lia|reflexivity|vm_compute; reflexivity|intros x; reflexivity|vm_compute; split; reflexivity|reflexivity|vm_compute; reflexivity].
Qed.
Print Assumptions C77_usable_after_remove_refuted.

(** ** C78: laziness. [clone()] copies no node. *)
Theorem C78_clone : forall K V Q (bor : K -> Q) cmp, order_laws cmp -> forall N, 1 <= N ->
  forall (h : heap (list (K * V))) m l O, sound h (olist (hb_root m) ++ O) -> hbshows bor cmp N h m l ->
  exists h', hb_clone h m = Ok (h', m) /\ sound h' (olist (hb_root m) ++ olist (hb_root m) ++ O)
    /\ frame (olist (hb_root m) ++ O) h h' /\ hbshows bor cmp N h' m l /\ clones h' = clones h.
Proof. exact @clone_s. Qed.
Print Assumptions C78_clone.
Example C78_clone_ex : exists h', hb_clone dh d1 = Ok (h', d1) /\ clones h' = clones dh /\ nshows h' d1 l1.
Proof.
  destruct (C78_clone _ _ _ nb _ Ncmp_laws 1 (le_n 1) dh d1 l1 [2; 6] demo_sound1 demo_shows1) as (h' & E & _ & _ & S & C). eauto.
Qed.
(** An insertion, or a write through [get_mut], clones at most the nodes on the path to the key, each once. A
    removal clones at most the nodes on its way and one sibling of each, and nothing if the key is absent. *)
Theorem C78_insert_path : forall K V Q (bor : K -> Q) cmp, order_laws cmp -> forall N, 1 <= N ->
  forall bomb (h : heap (list (K * V))) m l b k v O,
  sound h (olist (hb_root m) ++ O) -> hbshows bor cmp N h m l -> hb_read h m = Ok b ->
  exists h' m' o cs, hb_insert bor cmp N bomb h m k v = Ok (h', m', o) /\ clones h' = cs ++ clones h
    /\ sub cs (match bm_root b with Some t => path bor cmp (bor k) t | None => [] end).
Proof. exact @insert_clones. Qed.
Print Assumptions C78_insert_path.
Theorem C78_get_mut_path : forall K V Q (bor : K -> Q) cmp, order_laws cmp -> forall N, 1 <= N ->
  forall bomb (h : heap (list (K * V))) m l b q w O,
  sound h (olist (hb_root m) ++ O) -> hbshows bor cmp N h m l -> hb_read h m = Ok b ->
  exists h' m' o cs, hb_get_mut bor cmp bomb h m q w = Ok (h', m', o) /\ clones h' = cs ++ clones h
    /\ sub cs (match bm_root b with Some t => path bor cmp q t | None => [] end).
Proof. exact @get_mut_clones. Qed.
Print Assumptions C78_get_mut_path.
Theorem C78_remove_path : forall K V Q (bor : K -> Q) cmp, order_laws cmp -> forall N, 1 <= N ->
  forall bomb (h : heap (list (K * V))) m l b q O,
  sound h (olist (hb_root m) ++ O) -> hbshows bor cmp N h m l -> hb_read h m = Ok b ->
  exists h' m' o cs, hb_remove bor cmp N bomb h m q = Ok (h', m', o) /\ clones h' = cs ++ clones h
    /\ sub cs (if s_mem bor cmp q l then match bm_root b with Some t => near bor cmp q t | None => [] end else []).
Proof. exact @remove_clones. Qed.
Print Assumptions C78_remove_path.
Theorem C78_pops_path : forall K V Q (bor : K -> Q) cmp, order_laws cmp -> forall N, 1 <= N ->
  forall bomb (h : heap (list (K * V))) m l b O,
  sound h (olist (hb_root m) ++ O) -> hbshows bor cmp N h m l -> hb_read h m = Ok b ->
  (exists h' m' o cs, hb_pop_first N bomb h m = Ok (h', m', o) /\ clones h' = cs ++ clones h
    /\ sub cs (match bm_root b with Some t => near_first t | None => [] end))
  /\ exists h' m' o cs, hb_pop_last N bomb h m = Ok (h', m', o) /\ clones h' = cs ++ clones h
    /\ sub cs (match bm_root b with Some t => near_last t | None => [] end).
Proof. exact @pops_clones. Qed.
Print Assumptions C78_pops_path.
(** These are few nodes: with [d] levels below the root, which is at most logarithmic in [len()], there are [d + 1]
    nodes on a path, and [2 d + 1] nodes on the way of a removal and beside it. *)
Theorem C78_path_length : forall K V Q (bor : K -> Q) cmp, order_laws cmp -> forall N, 1 <= N ->
  forall (h : heap (list (K * V))) m l b t q, hbshows bor cmp N h m l -> hb_read h m = Ok b -> bm_root b = Some t ->
  exists d, 2 * (N + 1) ^ d <= length l + 1
    /\ length (path bor cmp q t) <= d + 1
    /\ length (near bor cmp q t) <= 2 * d + 1
    /\ length (near_first t) <= 2 * d + 1
    /\ length (near_last t) <= 2 * d + 1.
Proof. exact @few_path. Qed.
Print Assumptions C78_path_length.
(** Removing 1 from map 1: the root and the first leaf are on the way, the second leaf beside it. The leaves are
    shared with map 0 and cloned; the root is not. *)
Example C78_path_ex :
  match hb_remove nb Nat.compare 1 never dh d1 1, hb_read dh d1 with
  | Ok (h', _, _), Ok b =>
    firstn (length (clones h') - length (clones dh)) (clones h') = [[(3, 30)]; [(1, 10)]]
    /\ option_map (near nb Nat.compare 1) (bm_root b) = Some [[(3, 30)]; [(1, 10)]; [(2, 20); (4, 40)]]
  | _, _ => False
  end.
Proof. vm_compute. split; reflexivity. Qed.
(** If no node of the map is shared then nothing is cloned, the call does not unwind, and
    still no node is shared. *)
Theorem C78_unshared : forall K V Q (bor : K -> Q) cmp N bomb (h : heap (list (K * V))) m k v q w,
  unshared h (hb_root m) ->
  in_place h (hb_insert bor cmp N bomb h m k v)
  /\ in_place h (hb_get_mut bor cmp bomb h m q w)
  /\ in_place h (hb_or_insert bor cmp N bomb h m k v w)
  /\ in_place h (hb_remove bor cmp N bomb h m q)
  /\ in_place h (hb_pop_first N bomb h m)
  /\ in_place h (hb_pop_last N bomb h m).
Proof. exact @in_place_b. Qed.
Print Assumptions C78_unshared.
Theorem C78_unshared_many : forall K V Q (bor : K -> Q) cmp N bomb (h : heap (list (K * V))) m,
  unshared h (hb_root m) ->
  (forall ps, in_place h (hb_extend bor cmp N bomb h m ps))
  /\ (forall S (f : S -> K -> V -> S * V * bool) s, in_place h (hb_retain bor cmp N bomb f (fun _ _ _ => false) h m s))
  /\ (forall q h' m' o, hb_split_off bor cmp N bomb h m q = Ok (h', m', o) ->
       clones h' = clones h /\ unshared h' (hb_root m') /\ exists m2, o = Done m2 /\ unshared h' (hb_root m2))
  /\ (forall m2 h' m' m2' o, unshared h (hb_root m2) -> hb_append bor cmp N bomb h m m2 = Ok (h', m', m2', o) ->
       clones h' = clones h /\ o <> Unwound /\ unshared h' (hb_root m') /\ m2' = hb_new)
  /\ (forall cs h' o, hb_into_calls bomb h m cs = Ok (h', o) -> clones h' = clones h /\ o <> Unwound).
Proof.
  intros K V Q bor cmp N bomb h m U. split; [|split; [|split; [|split]]].
  - intros. now apply extend_in_place.
  - intros. now apply retain_in_place.
  - intros. eapply split_off_in_place; eauto.
  - intros m2 h' m' m2' o U2 E. exact (append_in_place bor cmp N bomb h m m2 h' m' m2' o U U2 E).
  - intros. eapply into_calls_in_place; eauto.
Qed.
Print Assumptions C78_unshared_many.
Lemma reach6 a : reach dh (Some 6) a -> a = 6.
Proof.
  induction 1 as [a [<-|[]]|a c n b _ -> G Hb]; auto. injection G as <- <-. cbn in Hb. contradiction.
Qed.
Example C78_unshared_ex : unshared dh (hb_root d2).
Proof. intros a c n ->%reach6 G. now injection G as <- <-. Qed.
Example C78_unshared_ex' : exists h' m', hb_extend nb Nat.compare 1 (fun _ => true) dh d2 (map kv [22; 23; 1]) = Ok (h', m', Done tt)
  /\ clones h' = clones dh /\ nshows h' m' (map kv [1; 20; 21; 22; 23]).
Proof. eexists _, _. split; [vm_compute; reflexivity|]. split; [reflexivity|]. shows. Qed.

(** ** C79: [insert] and [get_mut] have the strong guarantee: if a [clone] panics, the map shows what it
    showed. [extend] (and so [from_iter]) stops between two items. *)
Theorem C79_insert_unwound : forall K V Q (bor : K -> Q) cmp, order_laws cmp -> forall N, 1 <= N ->
  forall bomb (h : heap (list (K * V))) m l k v O, sound h (olist (hb_root m) ++ O) -> hbshows bor cmp N h m l ->
  exists h' m' o, hb_insert bor cmp N bomb h m k v = Ok (h', m', o)
    /\ sound h' (olist (hb_root m') ++ O) /\ frame O h h'
    /\ match o with
       | Done old => old = s_get bor cmp (bor k) l /\ hbshows bor cmp N h' m' (s_insert bor cmp k v l)
       | Unwound => hbshows bor cmp N h' m' l /\ exists n, bomb n = true
       end.
Proof. exact @insert_s. Qed.
Print Assumptions C79_insert_unwound.
Theorem C79_get_mut_unwound : forall K V Q (bor : K -> Q) cmp, order_laws cmp -> forall N, 1 <= N ->
  forall bomb (h : heap (list (K * V))) m l q w O, sound h (olist (hb_root m) ++ O) -> hbshows bor cmp N h m l ->
  exists h' m' o, hb_get_mut bor cmp bomb h m q w = Ok (h', m', o)
    /\ sound h' (olist (hb_root m') ++ O) /\ frame O h h'
    /\ match o with
       | Done old => old = s_get bor cmp q l /\ hbshows bor cmp N h' m' (s_update bor cmp q w l)
       | Unwound => hbshows bor cmp N h' m' l /\ exists n, bomb n = true
       end.
Proof. exact @get_mut_s. Qed.
Print Assumptions C79_get_mut_unwound.
Theorem C79_extend_unwound : forall K V Q (bor : K -> Q) cmp, order_laws cmp -> forall N, 1 <= N ->
  forall bomb ps (h : heap (list (K * V))) m l O, sound h (olist (hb_root m) ++ O) -> hbshows bor cmp N h m l ->
  exists h' m' o, hb_extend bor cmp N bomb h m ps = Ok (h', m', o)
    /\ sound h' (olist (hb_root m') ++ O) /\ frame O h h'
    /\ match o with
       | Done _ => hbshows bor cmp N h' m' (s_extend bor cmp l ps)
       | Unwound => (exists done rest, ps = done ++ rest /\ hbshows bor cmp N h' m' (s_extend bor cmp l done))
                    /\ exists n, bomb n = true
       end.
Proof. exact @extend_s. Qed.
Print Assumptions C79_extend_unwound.
(** In [clone_world] all nodes are shared; the insertion of 7 clones the root, then the last leaf. *)
Definition clone_ops : list (op nat nat nat) := [OFromIter (map kv [2; 1; 4; 3; 5; 6]); OClone 0].
Definition clone_world : hb_world (K := nat) (V := nat) :=
  Eval vm_compute in match nrun never fnever (empty_heap, []) clone_ops with
                     | Ok (w, _) => w | Panic => (empty_heap, []) end.
Definition ch := fst clone_world.
Example ch_shows : nshows ch d0 l0. Proof. shows. Qed.
Example ch_sound : sound ch [2; 2].
Proof. eapply (reached 1 clone_ops clone_world); [lia|reflexivity|vm_compute; reflexivity]. Qed.
Example C79_ex : exists h' m', hb_insert nb Nat.compare 1 (just 1) ch d0 7 70 = Ok (h', m', Unwound)
  /\ m' <> d0 /\ nshows h' m' l0 /\ nshows h' d0 l0.
Proof.
  eexists _, _. split; [vm_compute; reflexivity|]. split; [discriminate|]. split; shows.
Qed.

(** ** C80: removals do not have it (C77). What is left is part of what was there, in order, lookups find exactly
    that, and all other maps are unharmed; but entries may be lost, and [len()] keeps the old value. *)
Theorem C80_remove_unwound : forall K V Q (bor : K -> Q) cmp, order_laws cmp -> forall N, 1 <= N ->
  forall bomb (h : heap (list (K * V))) m l q O, sound h (olist (hb_root m) ++ O) -> hbshows bor cmp N h m l ->
  exists h' m' o, hb_remove bor cmp N bomb h m q = Ok (h', m', o)
    /\ sound h' (olist (hb_root m') ++ O) /\ frame O h h'
    /\ match o with
       | Done v => v = s_get bor cmp q l /\ hbshows bor cmp N h' m' (s_remove bor cmp q l)
       | Unwound => (exists n, bomb n = true)
           /\ exists b l', hb_read h' m' = Ok b /\ b_len b = length l /\ sub l' l
                /\ forall x, b_get bor cmp b x = s_get bor cmp x l' /\ b_get_key_value bor cmp b x = s_find bor cmp x l'
       end.
Proof.
  intros K V Q bor cmp laws N HN bomb h m l q O So H.
  destruct (remove_s bor cmp laws N HN bomb h m l q O So H) as (h' & m' & o & E & So' & F & R).
  exists h', m', o. split; auto. split; auto. split; auto. destruct o; auto. destruct R as [R B]. split; auto.
  destruct (hbshows_asc bor cmp laws N HN _ _ _ H) as [A _].
  destruct (spoilt_get bor cmp laws h' m' l A R) as (b & l' & E' & L & _ & P). eauto.
Qed.
Print Assumptions C80_remove_unwound.
Theorem C80_pops_unwound : forall K V Q (bor : K -> Q) cmp, order_laws cmp -> forall N, 1 <= N ->
  forall bomb (h : heap (list (K * V))) m l O, sound h (olist (hb_root m) ++ O) -> hbshows bor cmp N h m l ->
  (exists h' m' o, hb_pop_first N bomb h m = Ok (h', m', o)
    /\ sound h' (olist (hb_root m') ++ O) /\ frame O h h'
    /\ match o with
       | Done e => e = s_first l /\ hbshows bor cmp N h' m' (tl l)
       | Unwound => (exists n, bomb n = true)
           /\ exists b l', hb_read h' m' = Ok b /\ b_len b = length l /\ sub l' l
                /\ forall x, b_get bor cmp b x = s_get bor cmp x l' /\ b_get_key_value bor cmp b x = s_find bor cmp x l'
       end)
  /\ exists h' m' o, hb_pop_last N bomb h m = Ok (h', m', o)
    /\ sound h' (olist (hb_root m') ++ O) /\ frame O h h'
    /\ match o with
       | Done e => e = s_last l /\ hbshows bor cmp N h' m' (removelast l)
       | Unwound => (exists n, bomb n = true)
           /\ exists b l', hb_read h' m' = Ok b /\ b_len b = length l /\ sub l' l
                /\ forall x, b_get bor cmp b x = s_get bor cmp x l' /\ b_get_key_value bor cmp b x = s_find bor cmp x l'
       end.
Proof.
  intros K V Q bor cmp laws N HN bomb h m l O So H. destruct (hbshows_asc bor cmp laws N HN _ _ _ H) as [A _]. split.
  - destruct (pop_first_s bor cmp laws N HN bomb h m l O So H) as (h' & m' & o & E & So' & F & R).
    exists h', m', o. split; auto. split; auto. split; auto. destruct o; auto. destruct R as [R B]. split; auto.
    destruct (spoilt_get bor cmp laws h' m' l A R) as (b & l' & E' & L & _ & P). eauto.
  - destruct (pop_last_s bor cmp laws N HN bomb h m l O So H) as (h' & m' & o & E & So' & F & R).
    exists h', m', o. split; auto. split; auto. split; auto. destruct o; auto. destruct R as [R B]. split; auto.
    destruct (spoilt_get bor cmp laws h' m' l A R) as (b & l' & E' & L & _ & P). eauto.
Qed.
Print Assumptions C80_pops_unwound.
(** Removing 1 clones the root, the leaf of 1, and the leaf of 3, to merge it: the third call panics. The entries 1 and
    2 are gone. *)
Example C80_ex : exists h' m', hb_remove nb Nat.compare 1 (just 2) ch d0 1 = Ok (h', m', Unwound)
  /\ (exists b, hb_read h' m' = Ok b /\ b_len b = 6 /\ map (b_get nb Nat.compare b) [1; 2; 3; 4; 5; 6] = [None; None; Some 30; Some 40; Some 50; Some 60])
  /\ nshows h' d0 l0.
Proof.
  eexists _, _. split; [vm_compute; reflexivity|]. split; [|shows].
  eexists. split; [vm_compute; reflexivity|]. split; vm_compute; reflexivity.
Qed.

(** ** C81: [retain], [append], [split_off] move the entries out first. If [retain] or [split_off] unwinds, the
    map is empty, and [len()] says so; [append] has moved some first entries of the other map, and emptied it. *)
Theorem C81_retain_unwound : forall K V Q (bor : K -> Q) cmp, order_laws cmp -> forall N, 1 <= N ->
  forall bomb S (f : S -> K -> V -> S * V * bool) fbomb (h : heap (list (K * V))) m l s O,
  sound h (olist (hb_root m) ++ O) -> hbshows bor cmp N h m l ->
  exists h' m' o, hb_retain bor cmp N bomb f fbomb h m s = Ok (h', m', o)
    /\ sound h' (olist (hb_root m') ++ O) /\ frame O h h'
    /\ match o with
       | Done s' =>
         let '(outs, s1) := run_calls f s l in
         s' = s1 /\ hbshows bor cmp N h' m' (map (fun o => (fst (fst (fst o)), snd (fst o))) (filter (fun o => snd o) outs))
       | Unwound => hbshows bor cmp N h' m' []
                    /\ ((exists n, bomb n = true) \/ exists s k v, fbomb s k v = true)
       end.
Proof.
  intros K V Q bor cmp laws N HN bomb S f fbomb h m l s O So H.
  destruct (retain_s bor cmp laws N HN bomb f fbomb h m l s O So H) as (h' & m' & o & E & So' & F & R).
  exists h', m', o. split; auto. split; auto. split; auto. destruct o; auto. unfold kept in R.
  destruct (run_calls f s l) as [outs s1]. destruct R. auto.
Qed.
Print Assumptions C81_retain_unwound.
Theorem C81_append_unwound : forall K V Q (bor : K -> Q) cmp, order_laws cmp -> forall N, 1 <= N ->
  forall bomb (h : heap (list (K * V))) a b la lb O, sound h (olist (hb_root a) ++ olist (hb_root b) ++ O) ->
  hbshows bor cmp N h a la -> hbshows bor cmp N h b lb ->
  exists h' a' o, hb_append bor cmp N bomb h a b = Ok (h', a', hb_new, o)
    /\ sound h' (olist (hb_root a') ++ O) /\ frame O h h'
    /\ match o with
       | Done _ => hbshows bor cmp N h' a' (s_extend bor cmp la lb)
       | Unwound => (exists done rest, lb = done ++ rest /\ hbshows bor cmp N h' a' (s_extend bor cmp la done))
                    /\ exists n, bomb n = true
       end.
Proof. exact @append_s. Qed.
Print Assumptions C81_append_unwound.
Theorem C81_split_off_unwound : forall K V Q (bor : K -> Q) cmp, order_laws cmp -> forall N, 1 <= N ->
  forall bomb (h : heap (list (K * V))) m l q O, sound h (olist (hb_root m) ++ O) -> hbshows bor cmp N h m l ->
  exists h' m' o, hb_split_off bor cmp N bomb h m q = Ok (h', m', o) /\ frame O h h'
    /\ match o with
       | Done m2 => sound h' (olist (hb_root m') ++ olist (hb_root m2) ++ O)
          /\ hbshows bor cmp N h' m' (filter (lt_q bor cmp q) l)
          /\ hbshows bor cmp N h' m2 (filter (fun e => negb (lt_q bor cmp q e)) l)
       | Unwound => sound h' (olist (hb_root m') ++ O) /\ hbshows bor cmp N h' m' [] /\ exists n, bomb n = true
       end.
Proof. exact @split_off_s. Qed.
Print Assumptions C81_split_off_unwound.
Example C81_ex : exists h' m', hb_retain nb Nat.compare 1 never (fun s k v => (s + k, v + s, Nat.even k)) (fun s k v => Nat.ltb 12 s) ch d0 0 = Ok (h', m', Unwound)
  /\ nshows h' m' [] /\ nshows h' d0 l0.
Proof. eexists _, _. split; [vm_compute; reflexivity|]. split; shows. Qed.
Example C81_ex' : exists h' m', hb_retain nb Nat.compare 1 never (fun s k v => (s + k, v + s, Nat.even k)) (fun s k v => Nat.ltb 15 s) ch d0 0 = Ok (h', m', Done 21)
  /\ nshows h' m' [(2, 21); (4, 46); (6, 75)] /\ nshows h' d0 l0.
Proof. eexists _, _. split; [vm_compute; reflexivity|]. split; shows. Qed.

(** ** C82: [into_iter()] of a map that shares nodes. Any calls of [next]/[next_back] yield what they yield for a plain list,
    with the right [len()] after each; the only clones are of single entries that are yielded; when the iterator has been dropped, all other
    maps are as they were, and the counts are exact, also if a clone panicked. *)
Theorem C82_into_iter : forall K V Q (bor : K -> Q) cmp, order_laws cmp -> forall N, 1 <= N ->
  forall bomb (h : heap (list (K * V))) m l cs O, sound h (olist (hb_root m) ++ O) -> hbshows bor cmp N h m l ->
  exists h' o es, hb_into_calls bomb h m cs = Ok (h', o) /\ sound h' O /\ frame O h h'
    /\ clones h' = rev (map (fun e => [e]) es) ++ clones h
    /\ sub es (flat_map (fun r => match fst r with Some e => [e] | None => [] end) (s_ends cs l))
    /\ match o with Done rs => rs = s_ends cs l | Unwound => exists n, bomb n = true end.
Proof. exact @into_calls_s. Qed.
Print Assumptions C82_into_iter.
(** Map 1 of the sample shares the leaves of 1 and 3 only. *)
Example C82_ex : exists h', hb_into_calls never dh d1 [Front; Back; Front; Front; Back]
    = Ok (h', Done [(Some (1, 10), 6); (Some (7, 70), 5); (Some (2, 20), 4); (Some (3, 30), 3); (Some (6, 60), 2)])
  /\ clones h' = [(3, 30)] :: [(1, 10)] :: clones dh /\ nshows h' d0 l0.
Proof. eexists. split; [vm_compute; reflexivity|]. split; [reflexivity|shows]. Qed.

(** ** C83, refuted: "after a panic of the user's [clone] in [IntoIter::next] has been caught, [next] returns the
    remaining entries, as many as [len()] says". It panics in the library instead. *)
Theorem C83_next_after_panic_refuted :
  exists bomb (h : heap (list (nat * nat))) m l O h1 it h2 it2,
    sound h (olist (hb_root m) ++ O) /\ nshows h m l
    /\ hb_into_iter h m = Ok (h1, it) /\ h_next bomb h1 it = Ok (h2, it2, Unwound)
    /\ hi_len it2 = length l /\ h_next never h2 it2 = Panic.
Proof.
  exists (just 0), ch, d0, l0, [2]. do 4 eexists. split; [exact ch_sound|]. split; [exact ch_shows|].
  split; [vm_compute; reflexivity|]. split; [vm_compute; reflexivity|]. split; vm_compute; reflexivity.
Qed.
Print Assumptions C83_next_after_panic_refuted.
