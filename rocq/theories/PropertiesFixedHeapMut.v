(** Theorems about mutable iteration over [btree::fixed::BTreeMap]s that share nodes (properties C104-C106).

    A client takes references from [iter_mut()] and reads and writes through the ones it has, in any order (the calls
    [mcall], MutSpec.v); it catches the panics of the user's [clone] and goes on. [walks] (FixedHeapMutSpec.v) says what its results may be.
    [s_outs] and [s_final] (MutSpec.v): what a plain list gives. [fh_shows], [fsound], [fframe], [copies], [bomb], [of_tree], [path]: as in
    PropertiesFixedHeap.v. *)
From Coq Require Import List PeanoNat Bool Lia Permutation.
From Verif Require Import Base Spec MapSpec Heap HeapProofs HeapMut AvlHeapSpec BTreeModel BTreeHistModel BTreeHeapModel BTreeHeapSpec MutSpec BTreeHeapMutModel
  FixedModel FixedIterModel FixedSpec FixedHeapModel FixedHeapSpec FixedHeapMutModel FixedHeapMutSpec FixedHeapMutProofs4 PropertiesFixedHeap.
Import ListNotations.
Open Scope nat_scope.

(** ** C104: mutable iterators write only to their own map. No reference is ever to a node that is shared (this would be a
    [Panic] of the model); every entry is handed out at most once, with the value last written, and [len()] counts them down; the map ends
    with the values written, and all other maps ([O] stands for their pointers) show what they did. If calls are made at
    one end only the entries come in order (in ascending order, whichever end it is). *)
Theorem C104_iter_mut : forall K V Q (bor : K -> Q) cmp bomb (h : heap (elems K V * option (kids addr))) m l cs O,
  fsound h (olist (fh_root m) ++ O) -> fh_shows bor cmp h m l ->
  exists h' m' o, fh_iter_mut_calls bomb h m cs = Ok (h', m', o) /\ fsound h' (olist (fh_root m') ++ O) /\ fframe bor cmp O h h'
    /\ match o with
       | Unwound => fh_shows bor cmp h' m' l /\ m' = m /\ exists n, bomb n = true
       | Done outs => exists p l', Permutation p (seq 0 (length l)) /\ (one_end cs -> p = seq 0 (length l))
                        /\ walks bomb cs outs l p [] (length l) l' /\ fh_shows bor cmp h' m' l'
       end.
Proof. exact @mut_calls. Qed.
Print Assumptions C104_iter_mut.
(** [next] alone, and no panic: what a plain list gives. *)
Theorem C104_fronts : forall K V Q (bor : K -> Q) cmp bomb (h : heap (elems K V * option (kids addr))) m l cs O,
  fsound h (olist (fh_root m) ++ O) -> fh_shows bor cmp h m l -> (forall n, bomb n = false) -> ~ In MBack cs ->
  exists h' m', fh_iter_mut_calls bomb h m cs = Ok (h', m', Done (map (fun s => (Done (fst s), snd s)) (s_outs cs l 0 (length l))))
    /\ fsound h' (olist (fh_root m') ++ O) /\ fframe bor cmp O h h' /\ fh_shows bor cmp h' m' (s_final cs l 0 (length l)).
Proof. exact @mut_fronts. Qed.
Print Assumptions C104_fronts.

(** All of map 0 is shared with its clone. *)
Definition cs1 : list (mcall nat) := [MNext; MNext; MWrite 1 S; MNext; MWrite 0 S; MWrite 1 S; MNext].
Definition l1 := [(2, 21); (3, 32)] ++ map kv (seq 4 9).
Example C104_ex : exists h' m',
  fh_iter_mut_calls never dh d0 cs1
    = Ok (h', m', Done [(Done (Some (2, 20)), 10); (Done (Some (3, 30)), 9); (Done (Some (3, 30)), 9); (Done (Some (4, 40)), 8);
                        (Done (Some (2, 20)), 8); (Done (Some (3, 31)), 8); (Done (Some (5, 50)), 7)])
  /\ fsound h' (olist (fh_root m') ++ [2; 3]) /\ nshows h' m' l1 /\ nshows h' d0 l0.
Proof.
  destruct (C104_fronts _ _ _ nb Nat.compare never dh d0 l0 cs1 [2; 3] demo_sound demo_shows0 (fun _ => eq_refl)) as (h' & m' & E & S & F & H).
  { cbn. intros X. repeat (destruct X as [X|X]; [discriminate|]). exact X. }
  exists h', m'. split; [rewrite E; reflexivity|]. split; auto. split; [exact H|]. apply F; [|exact demo_shows0]. intros a [<-|[]]. now left.
Qed.
(** Calls at both ends: every entry comes, not in any order that a caller would expect (C106). *)
Example C104_ends_ex : exists h' m' outs,
  fh_iter_mut_calls never dh d0 ([MBack; MBack; MNext; MNext; MWrite 3 S] ++ repeat MBack 8) = Ok (h', m', Done outs)
  /\ map fst outs = map (fun k => Done (Some (kv k))) [2; 3; 7; 8; 8; 4; 5; 6; 9; 10; 11; 12] ++ [Done None].
Proof. do 3 eexists. split; vm_compute; reflexivity. Qed.
(** The clone of the left leaf panics: the call unwinds, [iter_mut] itself having cloned the root; the value of 8 is written all the same. *)
Example C104_panic_ex : exists h' m' outs,
  fh_iter_mut_calls (just 1) dh d0 [MNext; MNext; MNext; MWrite 1 S] = Ok (h', m', Done outs)
  /\ outs = [(Unwound, 11); (Done (Some (7, 70)), 10); (Done (Some (8, 80)), 9); (Done (Some (8, 80)), 9)]
  /\ match fh_view h' m' with Ok b => f_get nb Nat.compare true b 8 = Ok (Some 81) /\ f_get nb Nat.compare true b 3 = Ok (Some 30) | Panic => False end.
Proof. do 3 eexists. split; [vm_compute; reflexivity|]. split; [reflexivity|]. vm_compute. auto. Qed.
(** The clone of the root panics. *)
Example C104_unwound_ex : exists h', fh_iter_mut_calls (just 0) dh d0 cs1 = Ok (h', d0, Unwound).
Proof. eexists. vm_compute. reflexivity. Qed.

(** ** C105: mutable iteration is lazy. [iter_mut()] clones at most the root; after that only nodes on the paths to the
    entries taken are cloned (and to the entry that was being taken, if the last call unwinds), no node twice. *)
Theorem C105_iter_mut_lazy : forall K V Q (bor : K -> Q) cmp, order_laws cmp ->
  forall bomb (h : heap (elems K V * option (kids addr))) m l cs O,
  fsound h (olist (fh_root m) ++ O) -> fh_shows bor cmp h m l ->
  exists h' m' o, fh_iter_mut_calls bomb h m cs = Ok (h', m', o)
    /\ (match o with Done outs => ~ In Unwound (map fst (removelast outs)) | Unwound => True end ->
        exists c2 c1, copies h' = c2 ++ c1 ++ copies h /\ NoDup (c2 ++ c1) /\ (c1 = [] \/ c1 = of_tree h m (fun t => [elems_of t]))
          /\ match o with
             | Unwound => c2 = []
             | Done outs => exists kss, tried l outs kss
                 /\ Forall (fun c => exists k, In k (concat kss) /\ In c (of_tree h m (path bor cmp (bor k)))) c2
             end).
Proof. exact @mut_lazy. Qed.
Print Assumptions C105_iter_mut_lazy.
(** A map that shares no node is changed in place: no clone at all, so no panic of [clone]; and no node becomes shared. *)
Theorem C105_unshared : forall K V Q (bor : K -> Q) cmp bomb (h : heap (elems K V * option (kids addr))) m l cs O,
  fsound h (olist (fh_root m) ++ O) -> fh_shows bor cmp h m l -> funshared h (fh_root m) ->
  exists h' outs, fh_iter_mut_calls bomb h m cs = Ok (h', m, Done outs) /\ ~ In Unwound (map fst outs) /\ copies h' = copies h
    /\ funshared h' (fh_root m).
Proof. exact @mut_unshared. Qed.
Print Assumptions C105_unshared.
(** Six entries: the right leaf is left alone. *)
Example C105_ex : exists h' m' outs, fh_iter_mut_calls never dh d0 (repeat MNext 6 ++ [MWrite 5 S]) = Ok (h', m', Done outs)
  /\ copies h' = [map kv (seq 2 5); [(7, 70)]] ++ copies dh
  /\ path nb Nat.compare 2 (BN [(7, 70)] [BN (map kv (seq 2 5)) []; BN (map kv (seq 8 5)) []]) = [map kv (seq 2 5); [(7, 70)]].
Proof. do 3 eexists. split; [vm_compute; reflexivity|]. split; vm_compute; reflexivity. Qed.
(** Map 2 shares nothing. *)
Example C105_unshared_ex : exists h', fh_iter_mut_calls (fun _ => true) dh d2 [MBack; MWrite 0 S; MNext; MNext]
    = Ok (h', d2, Done [(Done (Some (20, 200)), 1); (Done (Some (20, 200)), 1); (Done (Some (21, 210)), 0); (Done None, 0)])
  /\ copies h' = copies dh /\ unique dh 3 = true.
Proof. eexists. split; [vm_compute; reflexivity|]. split; vm_compute; reflexivity. Qed.

(** ** C106, refuted: "after a panic of the user's [clone] in [IterMut::next] has been caught, the iterator returns the
    remaining entries, as many as [len()] says". It skips entries (here the first five), and [len()] stays too large. *)
Theorem C106_next_after_panic_refuted :
  exists bomb (h : heap (elems nat nat * option (kids addr))) m l O h' m' outs,
    fsound h (olist (fh_root m) ++ O) /\ nshows h m l
    /\ fh_iter_mut_calls bomb h m (repeat MNext (S (length l))) = Ok (h', m', Done outs)
    /\ map fst outs = Unwound :: map (fun e => Done (Some e)) (skipn 5 l) ++ repeat (Done None) 5
    /\ nth_error (map snd outs) 0 = Some (length l) /\ last (map snd outs) 0 = 5.
Proof.
  exists (just 1), dh, d0, l0, [2; 3]. do 3 eexists. split; [exact demo_sound|]. split; [exact demo_shows0|].
  split; [vm_compute; reflexivity|]. split; [reflexivity|]. split; reflexivity.
Qed.
Print Assumptions C106_next_after_panic_refuted.
(** Refuted as well: "[next_back()] hands out the last of the entries that are left". *)
Theorem C106_next_back_refuted :
  exists (h : heap (elems nat nat * option (kids addr))) m l O h' m' e n,
    fsound h (olist (fh_root m) ++ O) /\ nshows h m l
    /\ fh_iter_mut_calls never h m [MBack] = Ok (h', m', Done [(Done (Some e), n)])
    /\ hd_error l = Some e /\ hd_error (rev l) <> Some e.
Proof.
  exists dh, d0, l0, [2; 3]. do 4 eexists. split; [exact demo_sound|]. split; [exact demo_shows0|].
  split; [vm_compute; reflexivity|]. split; [reflexivity|]. discriminate.
Qed.
Print Assumptions C106_next_back_refuted.
