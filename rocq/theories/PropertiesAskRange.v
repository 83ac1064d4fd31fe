(** [range] and [range_mut] of the AVL map with comparisons that may answer anything, have a state and may panic
    (property C139). [ask n] is comparison number [n], [None] if it panics (see Ask.v). *)
From Coq Require Import List ZArith Bool Lia.
From Verif Require Import Base Spec MapSpec AvlModel AvlIterModel AvlShows AvlHeapSpec Heap AvlHeapModel AnyOrdSpec AnyHeapSpec Ask AskSpec AskRangeSpec
  AvlRangeAskModel AvlAnyProofs AvlRangeAskProofs.
From Verif Require AvlEntryAskProofs.
Import ListNotations.
Open Scope nat_scope.

(** ** C139 *)
(** At most four comparisons per entry are made. If none panics, some of the entries are given ([ask_range]), each at most
    once and in the order of [iter], from the two ends in any interleaving. *)
Theorem C139_range : forall K V Q (bor : K -> Q) ask (m : avl_map K V) l lo hi n, a_any m l ->
  match avl_range_t bor ask m lo hi n with
  | Returned _ it n' => n <= n' <= n + 4 * length l /\ exists l', ask_range (fun e => bor (fst e)) ask lo hi n n' l l'
      /\ forall cs, exists extra, run_ends norm_destr norm_size cs it = Ok (map (fun x => (fst x, snd x + extra)) (s_ends cs l'))
  | Unwound _ n' => n < n' <= n + 4 * length l /\ panicked ask n'
  | Fault => False
  end.
Proof. exact @a_range_ask. Qed.
Print Assumptions C139_range.
(** The same of a map that shares nodes with others. The call only reads. *)
Theorem C139_range_shared : forall K V Q (bor : K -> Q) ask (h : heap (pay K V)) m l lo hi n, hany h m l ->
  match hm_range_t bor ask h m lo hi n with
  | Returned _ it n' => n <= n' <= n + 4 * length l /\ exists l', ask_range (fun e => bor (fst e)) ask lo hi n n' l l'
      /\ forall cs, exists extra, run_ends norm_destr norm_size cs it = Ok (map (fun x => (fst x, snd x + extra)) (s_ends cs l'))
  | Unwound _ n' => n < n' <= n + 4 * length l /\ panicked ask n'
  | Fault => False
  end.
Proof. exact @h_range_ask. Qed.
Print Assumptions C139_range_shared.
(** The references of [range_mut] are to different entries, and a write through one changes only that value. *)
Theorem C139_range_mut : forall K V Q (bor : K -> Q) ask (m : avl_map K V) l lo hi n, a_any m l ->
  exists all, map snd all = map fst l /\ NoDup (map fst all)
    /\ (forall i r w, nth_error all i = Some r -> a_any (avl_write r w m) (upd_nth i w l))
    /\ match avl_range_mut_t bor ask m lo hi n with
       | Returned _ it n' => n <= n' <= n + 4 * length l /\ exists refs, ask_range (fun r => bor (snd r)) ask lo hi n n' all refs
           /\ forall cs, exists extra, run_ends mut_destr mut_size cs it = Ok (map (fun x => (fst x, snd x + extra)) (s_ends cs refs))
       | Unwound _ n' => n < n' <= n + 4 * length l /\ panicked ask n'
       | Fault => False
       end.
Proof. exact @a_range_mut_ask. Qed.
Print Assumptions C139_range_mut.
(** The comparisons of an order that may panic: at most eight per level of the tree, and if none panics the entries are exactly
    those between the bounds ([range_mut]: C15). *)
Theorem C139_order : forall K V Q (bor : K -> Q) ask cmp, order_laws cmp -> answers cmp ask ->
  forall (m : avl_map K V) l lo hi n, shows bor cmp m l ->
  exists lev, log_bound l lev
    /\ fares ask n (8 * lev) (avl_range_t bor ask m lo hi n)
         (fun _ it => forall cs, exists extra, run_ends norm_destr norm_size cs it = Ok (map (fun x => (fst x, snd x + extra)) (s_ends cs (s_range bor cmp lo hi l))))
         (fun _ => True)
    /\ fares ask n (8 * lev) (avl_range_mut_t bor ask m lo hi n) (fun _ it => avl_range_mut bor cmp m lo hi = Ok it) (fun _ => True).
Proof. exact @a_range_order. Qed.
Print Assumptions C139_order.

(** *** Samples *)
Open Scope Z_scope.
Definition zid (k : Z) : Z := k.
Definition ent (n : Z) : Z * Z := (n, 10 * n).
Definition leaf (k : Z) : tree Z Z := Node k (10 * k) 0 0 Leaf Leaf.
Definition t7 : tree Z Z := Node 8 80 2 2 (Node 4 40 1 1 (leaf 2) (leaf 6)) (Node 12 120 1 1 (leaf 10) (leaf 14)).
Definition m7 : avl_map Z Z := AvlMap 7 t7.
Definition l7 := map ent [2; 4; 6; 8; 10; 12; 14].
Definition frail (stops : list nat) (n : nat) (a b : Z) : option comparison :=
  if existsb (Nat.eqb n) stops then None else Some (a ?= b).
(** Eleven answers in turn, whatever the keys. *)
Definition whim (n : nat) (_ _ : Z) : option comparison := nth_error [Lt; Gt; Gt; Lt; Eq; Lt; Gt; Lt; Lt; Gt; Eq] (Nat.modulo n 11).
Example C139_ex : a_any m7 l7 /\ shows zid Z.compare m7 l7 /\ order_laws Z.compare /\ (forall stops, answers Z.compare (frail stops)).
Proof.
  assert (S : shows zid Z.compare m7 l7) by (split; vm_compute; reflexivity).
  split; [exact (AvlEntryAskProofs.shows_any zid Z.compare Zcmp_laws _ _ S)|]. split; [exact S|]. split; [exact Zcmp_laws|].
  intros stops n a b c. unfold frail. destruct (existsb (Nat.eqb n) stops); congruence.
Qed.
Definition given {N I} (destr : N -> option N * I * option N) size (t : trial unit (inner_iter N I)) : option (nat * list (option I)) :=
  match t with
  | Returned _ it n => match run_ends destr size (repeat Front 8) it with Ok l => Some (n, map fst l) | Panic => None end
  | Unwound _ n => Some (n, [])
  | Fault => None
  end.
(** With the order; with the order and a panic of the fifth comparison; with answers that make no sense. *)
Example C139_ex' :
  given norm_destr norm_size (avl_range_t zid (frail []) m7 (Excluded 4) (Included 12) 0)
    = Some (13%nat, [Some (6, 60); Some (8, 80); Some (10, 100); Some (12, 120); None; None; None; None])
  /\ given norm_destr norm_size (avl_range_t zid (frail [4%nat]) m7 (Excluded 4) (Included 12) 0) = Some (5%nat, [])
  /\ given norm_destr norm_size (avl_range_t zid whim m7 (Excluded 4) (Included 12) 2)
    = Some (16%nat, [Some (4, 40); Some (6, 60); Some (8, 80); Some (14, 140); None; None; None; None]).
Proof. vm_compute. repeat split. Qed.
