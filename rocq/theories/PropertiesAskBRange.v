(** [range] and [range_mut] of the B-tree map with comparisons that may answer anything, have a state and may panic
    (property C140). [ask n] is comparison number [n], [None] if it panics (see Ask.v); [asked_part], [asked_crossed] and
    [asked_gap]: BAskRangeSpec.v. *)
From Coq Require Import List ZArith Bool Lia.
From Verif Require Import Base Spec MapSpec BTreeSpec BTreeModel BTreeIterModel BTreeMutProofs BTreeShows AvlHeapSpec Heap BTreeHeapModel AnyOrdSpec
  BAnyHeapSpec Ask AskSpec BAskRangeSpec BTreeRangeAskModel BTreeRangeAskProofs.
Import ListNotations.
Open Scope nat_scope.

(** ** C140 *)
(** After the comparison of the bounds, at most two nodes are searched on each level, each with at most [2 * N + 1] keys: so
    many comparisons are made at most, whatever the answers are. The call panics by itself only if the first comparison
    says that the bounds are the wrong way round (then it always does), or if an entry was told to equal the excluded lower
    bound and not to be below the upper one. If it returns, some of the entries are given ([asked_part]), each at most once
    and in the order of [iter], from the two ends in any interleaving. *)
Theorem C140_range : forall K V Q (bor : K -> Q) ask N, 1 <= N -> forall (m : bt_map K V) l lo hi n, b_any N m l ->
  exists d, level_bound l (N + 1) d /\ match b_range_t bor ask m lo hi n with
  | Returned _ it n' => n <= n' <= n + (1 + 2 * ((2 * N + 1) * (d + 1))) /\ ~ asked_crossed ask n lo hi
      /\ exists l', asked_part bor ask n n' lo hi l l'
      /\ fst (b_range_hint N it) <= length l' <= snd (b_range_hint N it)
      /\ forall cs, exists outs, b_range_calls N cs it = Ok outs
         /\ Forall2 (fun o s => fst o = fst s /\ fst (snd o) <= snd s <= snd (snd o)) outs (s_ends cs l')
  | Unwound _ n' => n < n' <= n + (1 + 2 * ((2 * N + 1) * (d + 1))) /\ panicked ask n'
  | Fault => asked_crossed ask n lo hi \/ exists n', n' <= n + (1 + 2 * ((2 * N + 1) * (d + 1))) /\ asked_gap bor ask n n' lo hi l
  end.
Proof. exact @b_range_ask. Qed.
Print Assumptions C140_range.
(** The same of a map that shares nodes with others. The call only reads. *)
Theorem C140_range_shared : forall K V Q (bor : K -> Q) ask N, 1 <= N -> forall (h : heap (list (K * V))) m l lo hi n, hbany N h m l ->
  exists d, level_bound l (N + 1) d /\ match hb_range_t bor ask h m lo hi n with
  | Returned _ it n' => n <= n' <= n + (1 + 2 * ((2 * N + 1) * (d + 1))) /\ ~ asked_crossed ask n lo hi
      /\ exists l', asked_part bor ask n n' lo hi l l'
      /\ fst (b_range_hint N it) <= length l' <= snd (b_range_hint N it)
      /\ forall cs, exists outs, b_range_calls N cs it = Ok outs
         /\ Forall2 (fun o s => fst o = fst s /\ fst (snd o) <= snd s <= snd (snd o)) outs (s_ends cs l')
  | Unwound _ n' => n < n' <= n + (1 + 2 * ((2 * N + 1) * (d + 1))) /\ panicked ask n'
  | Fault => asked_crossed ask n lo hi \/ exists n', n' <= n + (1 + 2 * ((2 * N + 1) * (d + 1))) /\ asked_gap bor ask n n' lo hi l
  end.
Proof. exact @hb_range_ask. Qed.
Print Assumptions C140_range_shared.
(** The references of [range_mut] are to different entries: writes through them, in any order, change the values of their
    entries and nothing else. *)
Theorem C140_range_mut : forall K V Q (bor : K -> Q) ask N, 1 <= N -> forall (m : bt_map K V) l lo hi n, b_any N m l ->
  exists d refs, level_bound l (N + 1) d /\ map shown refs = l
  /\ (forall ws, b_any N (writes refs ws m) (fold_left (fun l iw => upd_nth (fst iw) (snd iw) l) ws l))
  /\ match b_range_mut_t bor ask m lo hi n with
  | Returned _ it n' => n <= n' <= n + (1 + 2 * ((2 * N + 1) * (d + 1))) /\ ~ asked_crossed ask n lo hi
      /\ exists refs', asked_part (fun r => bor (snd r)) ask n n' lo hi refs refs'
      /\ fst (b_range_hint N it) <= length refs' <= snd (b_range_hint N it)
      /\ forall cs, exists outs, b_range_calls N cs it = Ok outs
         /\ Forall2 (fun o s => fst o = fst s /\ fst (snd o) <= snd s <= snd (snd o)) outs (s_ends cs refs')
  | Unwound _ n' => n < n' <= n + (1 + 2 * ((2 * N + 1) * (d + 1))) /\ panicked ask n'
  | Fault => asked_crossed ask n lo hi \/ exists n', n' <= n + (1 + 2 * ((2 * N + 1) * (d + 1))) /\ asked_gap bor ask n n' lo hi l
  end.
Proof. exact @b_range_mut_ask. Qed.
Print Assumptions C140_range_mut.
(** If all comparisons that return answer as [cmp], a call that does not unwind does what the model without state does
    (an order: C34, C35; anything else: C129). *)
Theorem C140_order : forall K V Q (bor : K -> Q) ask cmp, answers cmp ask -> forall N, 1 <= N -> forall (m : bt_map K V) l lo hi n, b_any N m l ->
  exists d, level_bound l (N + 1) d
    /\ tries ask n (1 + 2 * ((2 * N + 1) * (d + 1))) tt (it <- b_range bor cmp m lo hi;; Ok (tt, it)) (b_range_t bor ask m lo hi n)
    /\ tries ask n (1 + 2 * ((2 * N + 1) * (d + 1))) tt (it <- b_range_mut bor cmp m lo hi;; Ok (tt, it)) (b_range_mut_t bor ask m lo hi n).
Proof. exact @b_ranges_order. Qed.
Print Assumptions C140_order.

(** *** Samples *)
Open Scope Z_scope.
Definition qid (k : Z) : Z := k.
Definition qent (n : Z) : Z * Z := (n, 10 * n).
Definition q7 : bt_map Z Z := BMap 7 (Some (BN [qent 2; qent 4] [BN [qent 1] []; BN [qent 3] []; BN [qent 5; qent 6; qent 7] []])).
Definition frail (stops : list nat) (n : nat) (a b : Z) : option comparison :=
  if existsb (Nat.eqb n) stops then None else Some (a ?= b).
(** The answers in turn, whatever the keys. *)
Definition script (cs : list comparison) (n : nat) (_ _ : Z) : option comparison := nth_error cs n.
Example C140_ex : b_any 1 q7 (map qent [1; 2; 3; 4; 5; 6; 7]) /\ (forall stops, answers Z.compare (frail stops)).
Proof.
  split.
  - split; [reflexivity|]. exists 1%nat.
    change (map qent [1; 2; 3; 4; 5; 6; 7]) with ([qent 1] ++ qent 2 :: ([qent 3] ++ qent 4 :: [qent 5; qent 6; qent 7])).
    unfold q7, bm_root. apply eo_branch; [cbn; lia|].
    apply il_cons; [apply eo_leaf; cbn; lia|]. apply il_cons; [apply eo_leaf; cbn; lia|]. apply il_last, eo_leaf; cbn; lia.
  - intros stops n a b c. unfold frail. destruct (existsb (Nat.eqb n) stops); congruence.
Qed.
(** How many questions were asked, and what comes from the front. *)
Definition gives {K} (t : trial unit (b_iter (erg K Z))) : option (nat * list (option (K * Z))) :=
  match t with
  | Returned _ it n => match b_range_calls 1 (repeat Front 6) it with Ok l => Some (n, map fst l) | Panic => None end
  | Unwound _ n => Some (n, [])
  | Fault => None
  end.
(** With the order; with the order and a panic of the fifth comparison; with answers that make no sense; twice a panic of the
    library's own, for bounds told to be the wrong way round and for the gap. *)
Example C140_ex' :
  gives (b_range_t qid (frail []) q7 (Excluded 2) (Included 6) 0)
    = Some (7%nat, [Some (3, 30); Some (4, 40); Some (5, 50); Some (6, 60); None; None])
  /\ gives (b_range_t qid (frail [4%nat]) q7 (Excluded 2) (Included 6) 0) = Some (5%nat, [])
  /\ gives (b_range_t qid (script [Gt; Gt; Lt; Gt; Lt; Gt; Lt]) q7 (Excluded 2) (Included 6) 0)
    = Some (7%nat, [Some (3, 30); Some (4, 40); Some (5, 50); None; None; None])
  /\ b_range_t qid (script [Lt]) q7 (Excluded 2) (Included 6) 0 = Fault
  /\ b_range_t qid (script [Gt; Gt; Eq; Lt]) q7 (Excluded 2) (Included 6) 0 = Fault.
Proof. vm_compute. repeat split. Qed.
