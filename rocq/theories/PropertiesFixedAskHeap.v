(** Fixed [BTreeMap]s that share nodes, with comparisons that may answer anything and may panic (properties C134-C135).

    The nodes are the arrays of FixedModel.v, in the cells of a heap with reference counts (FixedHeapModel.v). The user's
    [Ord] is any function [ask : nat -> Q -> Q -> option comparison]: what comparison number [n] of two keys answers, or
    [None] if it panics. Clone number [i] of a node's entries panics if [bomb i]. [small_key]: linear or binary search.
    [fh_any h m l]: following the pointers of [m] in the heap [h] gives a B-tree of the right shape whose entries from left
    to right are [l], and [len] is their number. [fsound h O]: every count is the number of pointers to the cell, counting
    the owners [O]; there is no cycle; in every array exactly the first [len] slots are written. *)
From Coq Require Import List PeanoNat Bool Lia.
From Verif Require Import Base Spec MapSpec Heap BTreeModel Ask AskSpec AskAnySpec BTreeHeapModel BTreeHeapSpec FixedModel FixedIterModel FixedSpec
  FixedHeapModel FixedHeapSpec FixedHeapAskModel FixedAskHeapSpec FixedHeapAskProofs4.
From Verif Require BAnyHeapSpec.
Import ListNotations.
Open Scope nat_scope.
Notation fheap K V := (Heap.heap (elems K V * option (kids addr))).

(** ** C134: one call on a map that shares nodes with others *)
(** The counts stay exact; every other map is what it was; only nodes on one way down from the root are cloned, whatever the
    comparisons answer. If it unwinds, the map is as it was, and a clone or the last comparison panicked. *)
Theorem C134_insert : forall K V Q (bor : K -> Q) ask small_key bomb (h : fheap K V) m l k v n O,
  fsound h (olist (fh_root m) ++ O) -> fh_any h m l ->
  exists h' m' n' o, fh_insert_map_t bor ask small_key bomb h m k v n = Ok (h', m', n', o) /\ n <= n'
    /\ fsound h' (olist (fh_root m') ++ O) /\ f_kept O h h' /\ cloned_on branch h m h'
    /\ match o with
       | Done x => exists l', may_insert bor (said bor ask n n') k v l l' x /\ fh_any h' m' l'
       | Unwound => f_same h m h' m' /\ fh_any h' m' l /\ ((exists i, bomb i = true) \/ n < n' /\ panicked ask n')
       end.
Proof. exact @insert_t_see. Qed.
Print Assumptions C134_insert.
Theorem C134_get_mut : forall K V Q (bor : K -> Q) ask small_key bomb (h : fheap K V) m l q w n O,
  fsound h (olist (fh_root m) ++ O) -> fh_any h m l ->
  exists h' m' n' o, fh_get_mut_map_t bor ask small_key bomb h m q w n = Ok (h', m', n', o) /\ n <= n'
    /\ fsound h' (olist (fh_root m') ++ O) /\ f_kept O h h' /\ cloned_on branch h m h'
    /\ match o with
       | Done x => exists l', may_get_mut (said bor ask n n') q w l l' x /\ fh_any h' m' l'
       | Unwound => f_same h m h' m' /\ fh_any h' m' l /\ ((exists i, bomb i = true) \/ n < n' /\ panicked ask n')
       end.
Proof. exact @get_mut_t_see. Qed.
Print Assumptions C134_get_mut.
(** [remove] also clones siblings. One that unwinds because of a comparison leaves the map as it was; because of a clone, it
    leaves a readable tree, with the old [len] (as with an order). *)
Theorem C134_remove : forall K V Q (bor : K -> Q) ask small_key bomb (h : fheap K V) m l q n O,
  fsound h (olist (fh_root m) ++ O) -> fh_any h m l ->
  exists h' m' n' o, fh_remove_map_t bor ask small_key bomb h m q n = Ok (h', m', n', o) /\ n <= n'
    /\ fsound h' (olist (fh_root m') ++ O) /\ f_kept O h h' /\ cloned_on branch_near h m h'
    /\ match o with
       | Done x => exists l', may_remove_val (said bor ask n n') q l l' x /\ fh_any h' m' l'
       | Unwound => f_same h m h' m' /\ fh_any h' m' l /\ n < n' /\ panicked ask n'
           \/ (exists i, bomb i = true) /\ fh_len m' = fh_len m /\ exists a t, fh_root m' = Some a /\ reads h' a t
       end.
Proof. exact @remove_t_see. Qed.
Print Assumptions C134_remove.
Theorem C134_get : forall K V Q (bor : K -> Q) ask small_key (h : fheap K V) m l q n O, fsound h O -> fh_any h m l ->
  exists n' o, fh_get_t bor ask small_key h m q n = Ok (n', o) /\ n <= n'
    /\ match o with Done x => may_get (said bor ask n n') q l x | Unwound => n < n' /\ panicked ask n' end.
Proof. exact @get_t_see. Qed.
Print Assumptions C134_get.
(** An [extend] that unwinds has inserted the entries before some entry. *)
Theorem C134_extend : forall K V Q (bor : K -> Q) ask small_key bomb (h : fheap K V) m l ps n O,
  fsound h (olist (fh_root m) ++ O) -> fh_any h m l ->
  exists h' m' n' o, fh_extend_t bor ask small_key bomb h m ps n = Ok (h', m', n', o) /\ n <= n'
    /\ fsound h' (olist (fh_root m') ++ O) /\ f_kept O h h'
    /\ match o with
       | Done _ => exists l', may_extend bor (said bor ask n n') ps l l' /\ fh_any h' m' l'
       | Unwound => (exists done p rest l', ps = done ++ p :: rest /\ may_extend bor (said bor ask n n') done l l' /\ fh_any h' m' l')
           /\ ((exists i, bomb i = true) \/ n < n' /\ panicked ask n')
       end.
Proof. exact @extend_t_see. Qed.
Print Assumptions C134_extend.
(** The nodes that may be cloned are few. *)
Theorem C134_few : forall K V (h : fheap K V) m l a t O, fsound h O -> fh_any h m l -> fh_root m = Some a -> reads h a t ->
  exists d, 2 * 6 ^ d <= length l + 1 /\ (forall p, branch t p -> length p <= d + 1) /\ (forall p, branch_near t p -> length p <= 2 * d + 1).
Proof. exact @few_see. Qed.
Print Assumptions C134_few.

(** ** C135: any history of calls on any number of maps *)
(** Comparisons and clones panic when they please; the client catches the panics and goes on. In the end no cell is left. *)
Theorem C135_history : forall K V Q (bor : K -> Q) ask small_key bomb (os : list (fh_op K V Q)), Forall f_calm os ->
  exists (h : fheap K V) ms n rs ls, fh_run_t bor ask small_key bomb (empty_heap, []) 0 os = Ok ((h, ms), n, rs)
    /\ fask_follows bor ask (exists i, bomb i = true) 0 [] os rs n ls
    /\ fsound h (froots ms) /\ Forall2 (fh_any h) ms ls
    /\ exists h', fh_drop_all h ms = Ok h' /\ forall a, get h' a = None.
Proof. exact @run_t_see. Qed.
Print Assumptions C135_history.
(** One call, on any heap that the maps own exactly. *)
Theorem C135_call : forall K V Q (bor : K -> Q) ask small_key bomb (h : fheap K V) ms ls n (o : fh_op K V Q),
  fsound h (froots ms) -> Forall2 (fh_any h) ms ls -> f_calm o ->
  exists h' ms' n' r ls', fh_step_t bor ask small_key bomb (h, ms) n o = Ok ((h', ms'), n', r) /\ n <= n'
    /\ fsound h' (froots ms') /\ Forall2 (fh_any h') ms' ls'
    /\ match r with
       | Done x => fask_did bor ask n n' ls o x ls'
       | Unwound => ((exists i, bomb i = true) \/ n < n' /\ panicked ask n') /\ fask_unwound bor ask n n' ls o ls'
       end.
Proof. exact @step_t_see. Qed.
Print Assumptions C135_call.

(** *** Samples *)
Definition nid (k : nat) : nat := k.
(** Seven answers in turn, whatever the keys; the comparisons in [stops] panic. *)
Definition whim (stops : list nat) (n : nat) (_ _ : nat) : option comparison :=
  if existsb (Nat.eqb n) stops then None else nth_error [Gt; Lt; Gt; Gt; Gt; Lt; Eq] (Nat.modulo n 7).
Definition ent (n : nat) : nat * nat := (n, 10 * n).
Definition nops : list (fh_op nat nat nat) :=
  [FhFromIter (map ent (seq 1 20)); FhClone 0; FhDo 1 (FoInsert 30 300); FhDo 1 (FoInsert 31 310); FhDo 0 (FoGet 5); FhDo 1 (FoRemove 3); FhClone 1;
   FhDo 0 (FoExtend (map ent [41; 42; 43])); FhDo 2 (FoGetMut 4 (fun v => v + 1)); FhDo 0 (FoRemove 7); FhIter 1 2; FhDo 1 FoLen; FhDo 2 FoClear].
Definition nrun small stops bomb := fh_run_t nid (whim stops) small bomb (empty_heap, []) 0 nops.
Definition keys (h : fheap nat nat) m : option (list nat) :=
  match fh_view h m with Ok b => Some (map fst (match fm_root b with Some t => BAnyHeapSpec.in_order (tree t) | None => [] end)) | Panic => None end.
Definition show (x : res ((fheap nat nat * list fhmap) * nat * list (out (fh_obs nat nat)))) :=
  match x with Ok ((h, ms), n, rs) => Some (n, rs, map (keys h) ms) | Panic => None end.
Example C135_ex : Forall f_calm nops.
Proof. repeat constructor. Qed.
(** Seventy-seven comparisons answered at random, with binary search, ... *)
Example C135_ex' : show (nrun false [] (fun _ => false)) = Some (77,
  [Done (FhOut FrUnit); Done (FhOut FrUnit); Done (FhOut (FrVal (Some 160))); Done (FhOut (FrVal None)); Done (FhOut (FrVal (Some 160)));
   Done (FhOut (FrVal None)); Done (FhOut FrUnit); Done (FhOut FrUnit); Done (FhOut (FrVal None)); Done (FhOut (FrVal (Some 430)));
   Done (FhSeq [(Some (8, 80), 14); (Some (4, 40), 13)]); Done (FhOut (FrLen 15)); Done (FhOut FrUnit)],
  [Some [8; 4; 14; 18; 42; 20; 19; 13; 15; 12; 7; 6; 9; 3]; Some [8; 4; 14; 18; 31; 20; 30; 19; 13; 15; 12; 7; 6; 9; 3]; Some []]).
Proof. vm_compute. reflexivity. Qed.
(** ... with panics in [get], [extend] and [get_mut], ... *)
Example C135_ex'' : show (nrun false [53; 57; 61] (fun _ => false)) = Some (63,
  [Done (FhOut FrUnit); Done (FhOut FrUnit); Done (FhOut (FrVal (Some 160))); Done (FhOut (FrVal None)); Unwound; Done (FhOut (FrVal (Some 60)));
   Done (FhOut FrUnit); Unwound; Unwound; Done (FhOut (FrVal (Some 130)));
   Done (FhSeq [(Some (8, 80), 13); (Some (4, 40), 12)]); Done (FhOut (FrLen 14)); Done (FhOut FrUnit)],
  [Some [8; 4; 14; 18; 20; 16; 19; 15; 12; 7; 6; 9; 3]; Some [8; 4; 14; 18; 31; 20; 30; 19; 13; 15; 12; 7; 9; 3]; Some []]).
Proof. vm_compute. reflexivity. Qed.
(** ... with linear search and panics in two removals too, ... *)
Example C135_ex3 : show (nrun true [45; 47; 49; 51] (fun _ => false)) = Some (52,
  [Done (FhOut FrUnit); Done (FhOut FrUnit); Done (FhOut (FrVal (Some 180))); Done (FhOut (FrVal None)); Unwound; Unwound; Done (FhOut FrUnit); Unwound;
   Done (FhOut (FrVal None)); Unwound; Done (FhSeq [(None, 0); (None, 0)]); Done (FhOut (FrLen 0)); Done (FhOut FrUnit)], [Some []; Some []; Some []]).
Proof. vm_compute. reflexivity. Qed.
(** ... and with a panic of the second clone, in the first [insert]. *)
Example C135_ex4 : show (nrun false [] (fun i => i =? 1)) = Some (75,
  [Done (FhOut FrUnit); Done (FhOut FrUnit); Unwound; Done (FhOut (FrVal (Some 60))); Done (FhOut (FrVal None)); Done (FhOut (FrVal (Some 160)));
   Done (FhOut FrUnit); Done (FhOut FrUnit); Done (FhOut (FrVal (Some 190))); Done (FhOut (FrVal None));
   Done (FhSeq [(Some (8, 80), 12); (Some (4, 40), 11)]); Done (FhOut (FrLen 13)); Done (FhOut FrUnit)],
  [Some [8; 4; 14; 18; 41; 43; 20; 42; 19; 13; 15; 12; 7; 6; 9; 3]; Some [8; 4; 14; 18; 20; 19; 13; 15; 12; 7; 31; 9; 3]; Some []]).
Proof. vm_compute. reflexivity. Qed.

(** Two maps that share all their nodes but the ones on a path, for C134 and [C135_call]. *)
Definition nw := Eval vm_compute in
  match fh_run_t nid (whim []) false (fun _ => false) (empty_heap, []) 0 (firstn 3 nops) with
  | Ok (w, _, _) => w | Panic => (empty_heap, []) end.
Definition nh := fst nw.
Definition n0 := Eval vm_compute in nth 0 (snd nw) fh_new.
Definition n1 := Eval vm_compute in nth 1 (snd nw) fh_new.
Definition nl0 := map ent [8; 4; 14; 18; 20; 16; 19; 13; 15; 12; 7; 6; 9; 3].
Definition nl1 := map (fun e => if fst e =? 16 then ent 30 else e) nl0.
Definition nt0 := BN [ent 13] [BN (map ent [8; 4; 14; 18; 20; 16; 19]) []; BN (map ent [15; 12; 7; 6; 9; 3]) []].
Example C134_ex : fsound nh (olist (fh_root n0) ++ olist (fh_root n1)) /\ fh_any nh n0 nl0 /\ fh_any nh n1 nl1
  /\ fsound nh (froots [n0; n1]) /\ Forall2 (fh_any nh) [n0; n1] [nl0; nl1] /\ fh_root n0 = Some 2 /\ reads nh 2 nt0.
Proof.
  destruct (C135_history _ _ _ nid (whim []) false (fun _ => false) (firstn 3 nops))
    as (h & ms & n & rs & st & E & _ & S & A & _); [repeat constructor|].
  apply (f_equal (fun r => match r with Ok (w, _, _) => w | Panic => nw end)) in E. cbv beta iota in E.
  assert (X : (h, ms) = nw) by (rewrite <- E; vm_compute; reflexivity). clear E.
  assert (Y : nw = (nh, [n0; n1])) by (vm_compute; reflexivity). rewrite Y in X. injection X as -> ->.
  inversion A as [|x a xs l H A']; subst. inversion A' as [|y b ys l2 H' A'']; subst. inversion A''; subst.
  assert (R0 : reads nh 2 nt0) by (eexists; split; vm_compute; reflexivity).
  assert (Ha : a = nl0) by (rewrite (any_entries _ _ _ 2 _ _ S H eq_refl R0); vm_compute; reflexivity).
  assert (R1 : exists t, reads nh 3 t /\ BTreeProofs.flat t = nl1)
    by (eexists; split; [eexists; split; vm_compute; reflexivity|vm_compute; reflexivity]).
  destruct R1 as (t & R1 & X). assert (Hb : b = nl1) by (rewrite (any_entries _ _ _ 3 _ _ S H' eq_refl R1); exact X). subst a b.
  split; [unfold froots in S; cbn [flat_map] in S; rewrite app_nil_r in S; exact S|]. split; [exact H|]. split; [exact H'|]. split; [exact S|]. split; [exact A|].
  split; [reflexivity|exact R0].
Qed.
(** An [insert] whose third comparison panics has cloned a shared leaf, and both maps are as before; a clone of that leaf
    that panics (the attempt is counted) leaves them as before too. *)
Example C134_ex' :
  match fh_insert_map_t nid (whim [52]) false (fun _ => false) nh n0 60 600 50 with
  | Ok (h', m', n', Unwound) => n' = 53 /\ copies h' = [map ent [15; 12; 7; 6; 9; 3]] ++ copies nh /\ fh_any h' m' nl0 /\ fh_any h' n1 nl1
  | _ => False end
  /\ match fh_insert_map_t nid (whim []) false (fun _ => true) nh n0 60 600 50 with
     | Ok (h', m', n', Unwound) => n' = 51 /\ copies h' = [map ent [15; 12; 7; 6; 9; 3]] ++ copies nh /\ fh_any h' m' nl0 /\ fh_any h' n1 nl1
     | _ => False end.
Proof.
  destruct C134_ex as (S & H0 & H1 & _). split.
  - destruct (C134_insert _ _ _ nid (whim [52]) false (fun _ => false) nh n0 _ 60 600 50 _ S H0) as (h' & m' & n' & o & Ei & _ & _ & [F _] & _ & P).
    assert (H : fh_any h' n1 nl1) by (apply F; [apply incl_refl|exact H1]).
    rewrite Ei. vm_compute in Ei. injection Ei as Eh _ <- <-. destruct P as (_ & P & _). split; [reflexivity|]. split; [rewrite <- Eh; vm_compute; reflexivity|]. auto.
  - destruct (C134_insert _ _ _ nid (whim []) false (fun _ => true) nh n0 _ 60 600 50 _ S H0) as (h' & m' & n' & o & Ei & _ & _ & [F _] & _ & P).
    assert (H : fh_any h' n1 nl1) by (apply F; [apply incl_refl|exact H1]).
    rewrite Ei. vm_compute in Ei. injection Ei as Eh _ <- <-. destruct P as (_ & P & _). split; [reflexivity|]. split; [rewrite <- Eh; vm_compute; reflexivity|]. auto.
Qed.
