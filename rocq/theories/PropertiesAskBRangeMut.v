(** [range_mut] on [BTreeMap]s that share nodes, with comparisons that may answer anything, have a state and may panic
    (property C141). [ask]: see Ask.v; [asked_part], [asked_crossed], [asked_gap]: BAskRangeSpec.v; [still], [picks_ok]:
    BAskRangeMutSpec.v; [halt]: BTreeHeapRangeAskModel.v. A client makes any calls of [next()] and [next_back()], and reads and
    writes through the references it got in any order ([mcall], MutSpec.v). *)
From Coq Require Import List PeanoNat Bool Lia Sorted.
From Verif Require BTreeProofs2 BTreeShows.
From Verif Require Import Base Spec MapSpec BTreeSpec Heap HeapProofs HeapMut BTreeModel BTreeIterModel BTreeHistModel
  BTreeHeapModel BTreeHeapSpec BTreeHeapHistModel BTreeHeapHistSpec MutSpec BTreeHeapMutModel BTreeHeapMutSpec AnyOrdSpec BAnyHeapSpec AnyOrdShows
  Ask AskSpec BAskRangeSpec BAskRangeMutSpec BTreeHeapRangeAskModel BTreeHeapRangeAskProofs2 PropertiesBTreeHeap.
Import ListNotations.
Open Scope nat_scope.

(** ** C141 *)
(** Whatever the comparisons answer, and wherever one or a [clone] panics: the map keeps its entries, other maps keep theirs, and
    the reference counts stay exact. At most so many comparisons are made as in C140. If the call returns, a part of the entries
    is given, number [xs] in the order of [iter], each at most once; what is written through the references changes the values
    of these entries of this map and nothing else, no matter which nodes were shared. *)
Theorem C141_range_mut : forall K V Q (bor : K -> Q) ask N, 1 <= N -> forall bomb (h : heap (list (K * V))) m l lo hi n O,
  sound h (olist (hb_root m) ++ O) -> hbany N h m l ->
  exists d, level_bound l (N + 1) d /\
  match hb_range_mut_t bor ask bomb h m lo hi n with
  | Returned (h', m') o n' => n <= n' <= n + (1 + 2 * ((2 * N + 1) * (d + 1))) /\ still N O h h' m' l
      /\ match o with
         | Made it => ~ asked_crossed ask n lo hi
             /\ exists xs l', StronglySorted lt xs /\ map (nth_error l) xs = map Some l' /\ asked_part bor ask n n' lo hi l l'
             /\ forall cs, exists h2 it2 outs b, hm_run N bomb cs h' it [] = Ok (h2, it2, outs, b)
                /\ picks_ok N bomb O h cs l xs (length l - length xs) h2 m' outs b
         | Torn => exists k, bomb k = true
         | Broke => asked_crossed ask n lo hi
             \/ exists n2, n2 <= n + (1 + 2 * ((2 * N + 1) * (d + 1))) /\ asked_gap bor ask n n2 lo hi l
         end
  | Ask.Unwound (h', m') n' => n < n' <= n + (1 + 2 * ((2 * N + 1) * (d + 1))) /\ panicked ask n' /\ still N O h h' m' l
  | Fault => False
  end.
Proof. exact @range_mut_shared. Qed.
Print Assumptions C141_range_mut.
(** If all comparisons that return answer as [cmp], a call that is not unwound by one does what the model without state does:
    with an order, C84 and C85 say what that is. *)
Theorem C141_order : forall K V Q (bor : K -> Q) ask cmp, answers cmp ask -> forall bomb (h : heap (list (K * V))) m lo hi n,
  match hb_range_mut_t bor ask bomb h m lo hi n with
  | Returned (h', m') (Made it) _ => hb_range_mut bor cmp bomb h m lo hi = Ok (h', m', Done it)
  | Returned (h', m') Torn _ => hb_range_mut bor cmp bomb h m lo hi = Ok (h', m', BTreeHeapModel.Unwound)
  | Returned _ Broke _ => hb_range_mut bor cmp bomb h m lo hi = Panic
  | Ask.Unwound _ _ => True
  | Fault => hb_range_mut bor cmp bomb h m lo hi = Panic
  end.
Proof. exact @range_mut_does. Qed.
Print Assumptions C141_order.

(** *** Samples *)
(** [ch]: two maps, [d0] and another, share all nodes; [2; 4] is above [1], [3], [5; 6]. *)
Definition unsure (stops : list nat) (n : nat) (a b : nat) : option comparison :=
  if existsb (Nat.eqb n) stops then None else Some (a ?= b).
Definition told (cs : list comparison) (n : nat) (_ _ : nat) : option comparison := nth_error cs n.
(** How the call ends, after how many questions; then what [cs] gives, whether all calls returned, and the entries of both maps. *)
Definition seen (bomb : nat -> bool) (cs : list (mcall nat)) (t : trial (heap (list (nat * nat)) * hbmap) (halt m_iter)) :=
  let look h m := match hb_read h m with Ok b => map snd (BTreeProofs2.contents b) | Panic => [] end in
  let both h m := (look h m, look h d0) in
  match t with
  | Returned (h, m) (Made it) n =>
    match hm_run 1 bomb cs h it [] with
    | Ok (h2, _, outs, b) => Some (n, map fst outs, b, both h2 m)
    | Panic => None
    end
  | Returned (h, m) _ n | Ask.Unwound (h, m) n => Some (n, [], false, both h m)
  | Fault => None
  end.
Example C141_ex : sound ch (olist (hb_root d0) ++ [2]) /\ hbany 1 ch d0 l0 /\ (forall stops, answers Nat.compare (unsure stops)).
Proof.
  split; [exact ch_sound|]. split.
  - eexists. split; [vm_compute; reflexivity|]. split; [reflexivity|]. exists 1.
    change l0 with ([(1, 10)] ++ (2, 20) :: ([(3, 30)] ++ (4, 40) :: [(5, 50); (6, 60)])). unfold bm_root. apply BTreeShows.eo_branch; [cbn; lia|].
    apply BTreeShows.il_cons; [apply BTreeShows.eo_leaf; cbn; lia|]. apply BTreeShows.il_cons; [apply BTreeShows.eo_leaf; cbn; lia|]. apply BTreeShows.il_last, BTreeShows.eo_leaf; cbn; lia.
  - intros stops n a b c. unfold unsure. destruct (existsb (Nat.eqb n) stops); congruence.
Qed.
Definition run3 := [MNext; MBack; MWrite 0 S; MWrite 1 S; MNext; MNext].
(** With the order; with it and a panic of the sixth comparison (the root is copied by then); with it and a panic of the second
    call of [clone]; with answers that make no sense; and the library's own panic for the gap, after the root was copied. In all
    cases both maps keep their entries but for the values written to one. *)
Example C141_ex' :
  seen never run3 (hb_range_mut_t nb (unsure []) never ch d0 (Excluded 2) (Included 5) 0)
    = Some (6, [Some (3, 30); Some (5, 50); Some (3, 30); Some (5, 50); Some (4, 40); None], true,
            ([10; 20; 31; 40; 51; 60], [10; 20; 30; 40; 50; 60]))
  /\ seen never run3 (hb_range_mut_t nb (unsure [5]) never ch d0 (Excluded 2) (Included 5) 0)
    = Some (6, [], false, ([10; 20; 30; 40; 50; 60], [10; 20; 30; 40; 50; 60]))
  /\ seen never run3 (hb_range_mut_t nb (unsure []) (just 1) ch d0 (Excluded 2) (Included 5) 0)
    = Some (6, [], false, ([10; 20; 30; 40; 50; 60], [10; 20; 30; 40; 50; 60]))
  /\ seen never run3 (hb_range_mut_t nb (told [Gt; Gt; Lt; Lt; Lt; Gt]) never ch d0 (Included 2) (Included 5) 0)
    = Some (6, [Some (3, 30); None; Some (3, 30); None; None; None], true,
            ([10; 20; 31; 40; 50; 60], [10; 20; 30; 40; 50; 60]))
  /\ match hb_range_mut_t nb (told [Gt; Gt; Eq; Lt]) never ch d0 (Excluded 2) (Included 5) 0 with
     | Returned (h', m') Broke n => n = 4 /\ clones h' = [(2, 20); (4, 40)] :: clones ch /\ nshows h' m' l0 /\ nshows h' d0 l0
     | _ => False
     end.
Proof. do 4 (split; [vm_compute; reflexivity|]). vm_compute. split; [reflexivity|]. split; [reflexivity|]. split; shows. Qed.
