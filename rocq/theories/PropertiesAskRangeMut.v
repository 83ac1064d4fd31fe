(** [range_mut] on [AvlMap]s that share nodes, with comparisons that may answer anything, have a state and may panic (property
    C142). [ask]: see Ask.v; [ask_range]: AskRangeSpec.v; [still], [picks_ok]: AskRangeMutSpec.v; [sound], [hany], [hshows],
    [bomb], [small]: as in PropertiesAnyHeap.v and PropertiesAvlHeap.v. A client makes any calls of [next()] and [next_back()],
    and reads and writes through the references it got in any order ([mcall], MutSpec.v). *)
From Coq Require Import List PeanoNat Bool Lia Sorted.
From Verif Require AvlMapProofs AvlEntryAskProofs.
From Verif Require Import Base Spec MapSpec Heap HeapProofs HeapMut AvlModel AvlIterModel AvlHistModel
  AvlHeapModel AvlHeapSpec AvlHeapHistModel AvlHeapHistSpec MutSpec AvlHeapMutModel AvlHeapMutSpec AnyOrdSpec AnyHeapSpec
  Ask AskSpec AskRangeSpec AskRangeMutSpec AvlHeapRangeAskModel AvlHeapRangeAskProofs2 PropertiesAvlHeap.
Import ListNotations.
Open Scope nat_scope.

(** ** C142 *)
(** Whatever the comparisons answer, and wherever one or a [clone] panics: the map keeps its entries, other maps keep theirs, and
    the reference counts stay exact. At most four comparisons are made per entry. If the call returns, a part of the entries is
    given as in C139, number [xs] in the order of [iter], each at most once; what is written through the references changes the
    values of these entries of this map and nothing else, no matter which nodes were shared. *)
Theorem C142_range_mut : forall K V Q (bor : K -> Q) ask bomb (h : heap (pay K V)) m l lo hi n O,
  sound h (olist (hm_root m) ++ O) -> hany h m l -> small l ->
  match hm_range_mut_t bor ask bomb lo hi h m n with
  | Returned (h', m') o n' => n <= n' <= n + 4 * length l /\ still O h h' m' l
      /\ match o with
         | Done it => exists xs l', StronglySorted lt xs /\ map (nth_error l) xs = map Some l'
             /\ ask_range (fun e => bor (fst e)) ask lo hi n n' l l'
             /\ forall cs, exists h2 it2 outs b, am_run bomb cs h' it [] = Ok (h2, it2, outs, b)
                /\ picks_ok bomb O h cs l xs (length l - length xs) h2 m' outs b
         | AvlHeapModel.Unwound => exists k, bomb k = true
         end
  | Ask.Unwound (h', m') n' => n < n' <= n + 4 * length l /\ panicked ask n' /\ still O h h' m' l
  | Fault => False
  end.
Proof. exact @range_mut_shared. Qed.
Print Assumptions C142_range_mut.
(** The comparisons of an order that may panic: at most eight per level of the tree, and if none panics the entries are exactly
    those between the bounds. *)
Theorem C142_order : forall K V Q (bor : K -> Q) ask bomb cmp (h : heap (pay K V)) m l lo hi n O,
  order_laws cmp -> answers cmp ask -> sound h (olist (hm_root m) ++ O) -> hshows bor cmp h m l -> small l ->
  exists lev, log_bound l lev /\
  match hm_range_mut_t bor ask bomb lo hi h m n with
  | Returned (h', m') o n' => n <= n' <= n + 8 * lev /\ still O h h' m' l
      /\ match o with
         | Done it => exists xs, StronglySorted lt xs /\ map (nth_error l) xs = map Some (s_range bor cmp lo hi l)
             /\ forall cs, exists h2 it2 outs b, am_run bomb cs h' it [] = Ok (h2, it2, outs, b)
                /\ picks_ok bomb O h cs l xs (length l - length xs) h2 m' outs b
         | AvlHeapModel.Unwound => exists k, bomb k = true
         end
  | Ask.Unwound (h', m') n' => n < n' <= n + 8 * lev /\ panicked ask n' /\ still O h h' m' l
  | Fault => False
  end.
Proof. exact @range_mut_order. Qed.
Print Assumptions C142_order.

(** *** Samples *)
(** [ch]: two maps [d0] share all nodes; 2 is above 1 and 3, and 3 above 4. *)
Definition unsure (stops : list nat) (n : nat) (a b : nat) : option comparison :=
  if existsb (Nat.eqb n) stops then None else Some (a ?= b).
Definition told (cs : list comparison) (n : nat) (_ _ : nat) : option comparison := nth_error cs n.
(** How the call ends, after how many questions; then what [cs] gives, whether all calls returned, and the values of both maps. *)
Definition seen (bomb : nat -> bool) (cs : list (mcall nat)) (t : trial (heap (pay nat nat) * hmap) (out (inner_iter addr addr))) :=
  let look h m := match hm_read h m with Ok b => map snd (AvlMapProofs.contents b) | Panic => [] end in
  let both h m := (look h m, look h d0) in
  match t with
  | Returned (h, m) (Done it) n =>
    match am_run bomb cs h it [] with
    | Ok (h2, _, outs, b) => Some (n, outs, b, both h2 m)
    | Panic => None
    end
  | Returned (h, m) _ n | Ask.Unwound (h, m) n => Some (n, [], false, both h m)
  | Fault => None
  end.
Definition run3 := [MNext; MBack; MWrite 0 S; MWrite 1 S; MNext].
Example C142_ex : sound ch (olist (hm_root d0) ++ [0]) /\ hany ch d0 l0 /\ hshows nb Nat.compare ch d0 l0 /\ small l0
  /\ order_laws Nat.compare /\ (forall stops, answers Nat.compare (unsure stops)).
Proof.
  split; [exact ch_sound|]. split.
  - destruct ch_shows as (a & E & S). exists a. split; [exact E|]. eapply AvlEntryAskProofs.shows_any; [exact Ncmp_laws|exact S].
  - split; [exact ch_shows|]. split; [reflexivity|]. split; [exact Ncmp_laws|].
    intros stops n a b c. unfold unsure. destruct (existsb (Nat.eqb n) stops); congruence.
Qed.
(** With the order; with it and a panic of the eighth comparison, when nodes are copied already; with it and a panic of the third
    call of [clone]; and with answers that make no sense. In all cases both maps keep their entries but for the values written
    to one. *)
Example C142_ex' :
  seen never run3 (hm_range_mut_t nb (unsure []) never (Excluded 1) (Included 4) ch d0 0)
    = Some (10, [(Some (2, 20), 3); (Some (4, 40), 2); (Some (2, 20), 2); (Some (4, 40), 2); (Some (3, 30), 1)], true,
            ([10; 21; 30; 41], [10; 20; 30; 40]))
  /\ match hm_range_mut_t nb (unsure [7]) never (Excluded 1) (Included 4) ch d0 0 with
     | Ask.Unwound (h', m') n => n = 8 /\ length (clones h') = length (clones ch) + 3 /\ hm_root m' <> hm_root d0
     | _ => False
     end
  /\ seen never run3 (hm_range_mut_t nb (unsure [7]) never (Excluded 1) (Included 4) ch d0 0)
    = Some (8, [], false, ([10; 20; 30; 40], [10; 20; 30; 40]))
  /\ seen never run3 (hm_range_mut_t nb (unsure []) (just 2) (Excluded 1) (Included 4) ch d0 0)
    = Some (4, [], false, ([10; 20; 30; 40], [10; 20; 30; 40]))
  /\ seen never run3 (hm_range_mut_t nb (told [Gt; Gt; Gt; Lt; Lt; Lt]) never (Included 1) (Included 4) ch d0 0)
    = Some (6, [(Some (3, 30), 3); (None, 3); (Some (3, 30), 3); (None, 3); (None, 3)], true,
            ([10; 20; 31; 40], [10; 20; 30; 40])).
Proof. split; [vm_compute; reflexivity|]. split; [vm_compute; split; [reflexivity|]; split; [reflexivity|discriminate]|]. repeat split; vm_compute; reflexivity. Qed.
