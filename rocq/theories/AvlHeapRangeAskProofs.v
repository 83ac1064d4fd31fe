(** Proofs about [range_mut] of [AvlMap]s on shared nodes with comparisons that may answer anything and may panic: the loops do what
    those of [AvlRangeAskModel] do on positions. *)
From Coq Require Import List PeanoNat Bool Lia.
From Verif Require Import Base Spec MapSpec Heap HeapProofs HeapMut HeapMutProofs AvlModel AvlIterModel AvlIterProofs
  AvlHeapModel AvlHeapSpec AvlHeapProofs MutSpec AvlHeapMutModel AvlHeapMutProofs AvlHeapMutProofs2 Ask AskSpec AvlRangeAskModel AvlRangeAskProofs AvlHeapRangeAskModel.
From Verif Require BTreeHeapMutProofs.
Import ListNotations.
Local Open Scope nat_scope.

Lemma after_assoc {A B C} (t : trial unit A) (f : unit -> A -> nat -> trial unit B) (g : unit -> B -> nat -> trial unit C) :
  after (after t back f) back g = after t back (fun u r n => after (f u r n) back g).
Proof. now destruct t. Qed.

(** So many questions at least were asked in the end. *)
Definition ends {R} (t : trial unit R) (n : nat) : Prop :=
  match t with Returned _ _ m | Ask.Unwound _ m => n <= m | Fault => True end.
Lemma ends_after {R R'} (t : trial unit R) (f : unit -> R -> nat -> trial unit R') n : ends t n -> (forall r m, ends (f tt r m) m) -> ends (after t back f) n.
Proof. intros H F. destruct t as [[] r m|u m|]; cbn in *; auto. specialize (F r m). destruct (f tt r m) as [u r' m'|u m'|]; cbn in *; auto; lia. Qed.
Lemma ends_goes {Q R} (ask : nat -> Q -> Q -> option comparison) n a (t : trial unit R) P : goes ask n a t P -> ends t n.
Proof. destruct t as [u r m|u m|]; cbn; intuition lia. Qed.

Section Sim.
  Context {K V Q : Type} (bor : K -> Q) (ask : nat -> Q -> Q -> option comparison).
  Variable bomb : nat -> bool.
  Notation tree := (tree K V).
  Notation heap := (heap (pay K V)).
  Notation path := AvlIterModel.path.
  Notation mnode := (@mnode K V).
  Notation mref := (@mref K).
  Notation gact := (action mnode mref).
  Notation work := (list (action addr addr)).
  Variables (h0 : heap) (t0 : tree) (O : list addr) (start : path -> Prop).
  Notation mst := (mst h0 t0 O start).
  Notation minv := (minv h0 t0 O start).
  Notation asim := (asim t0).
  Notation asims := (asims t0).
  Notation faulty := (exists n, bomb n = true).
  Variables lb ub : bound Q.
  Notation ikey := (fun r : mref => bor (snd r)).

  (** The call [c] on the heap does what [T] does on positions, or a [clone] panics. *)
  Definition sims (h : heap) (r : addr) (t : tree) (ps : list path) (n : nat) (T : trial unit (list gact)) (c : trial heap (out work)) : Prop :=
    match c with
    | Returned h' (Done w) n' => mono h h' r /\ n <= n' /\ exists gs nps, T = Returned tt gs n' /\ minv h' r t (nps ++ ps) /\ asims h' r w gs
    | Returned h' AvlHeapModel.Unwound n' => (exists nps, mst h' r t nps) /\ faulty /\ n <= n' /\ ends T n'
    | Ask.Unwound h' n' => T = Ask.Unwound tt n' /\ exists nps, mst h' r t nps
    | Fault => T = Fault
    end.
  Lemma sims_then h r t ps n T c F f : sims h r t ps n T c ->
    (forall h' w n' gs nps, mono h h' r -> n <= n' -> minv h' r t (nps ++ ps) -> asims h' r w gs -> sims h' r t (nps ++ ps) n' (F tt gs n') (f h' w n')) ->
    (forall gs m, ends (F tt gs m) m) -> sims h r t ps n (after T back F) (then_t c f).
  Proof.
    intros S G E. destruct c as [h' [w|] n'|h' n'|]; cbn [sims then_t] in *.
    - destruct S as (M & L & gs & nps & -> & I & A). cbn [after]. specialize (G h' w n' gs nps M L I A).
      destruct (f h' w n') as [h2 [w2|] n2|h2 n2|]; cbn [sims] in *; auto.
      + destruct G as (M2 & L2 & gs2 & nps2 & E2 & I2 & A2). split; [eapply mono_trans; eauto|]. split; [lia|]. exists gs2, (nps2 ++ nps). rewrite <- app_assoc. auto.
      + destruct G as (P1 & P2 & P3 & P4). repeat split; auto. lia.
    - destruct S as (P1 & P2 & P3 & P4). repeat split; auto. destruct T as [[] gs m|u m|]; cbn [after ends] in *; auto. specialize (E gs m).
      destruct (F tt gs m) as [u g m'|u m'|]; cbn [ends] in *; auto; lia.
    - destruct S as (-> & P). auto.
    - now subst T.
  Qed.

  Lemma sims_le h r t ps n m T c : sims h r t ps m T c -> n <= m -> sims h r t ps n T c.
  Proof.
    intros S L. destruct c as [h' [w|] n'|h' n'|]; cbn [sims] in *; auto.
    - destruct S as (M & L' & S). split; [exact M|]. split; [lia|exact S].
    - destruct S as (P1 & P2 & P3 & P4). split; [exact P1|]. split; [exact P2|]. split; [lia|exact P4].
  Qed.

  Lemma pull_sim h r t ps a p k l rr b n : minv h r t ps -> asim h r (Descend a) (Descend (p, k, l, rr)) ->
    sims h r t ps n (Returned tt (odesc (mk_mnode (p ++ [b]) (if b then rr else l))) n) (pull bomb h a (side b) n).
  Proof.
    intros I A. destruct (side_step bomb h0 t0 O start _ _ _ _ _ _ _ _ _ b I A) as (h' & o & nps & E & M & _ & _ & R). unfold pull. rewrite E. destruct o as [c|]; cbn [sims].
    - destruct R as [I' S']. split; [exact M|]. split; [lia|]. eauto.
    - destruct R as (R & B & _). split; [exists (nps ++ ps); exact R|]. split; [exact B|]. split; [lia|]. cbn. lia.
  Qed.
  Lemma node_at h r t ps a p k l rr : minv h r t ps -> asim h r (Descend a) (Descend (p, k, l, rr)) ->
    exists v lh rh pl pr, excl h a = Ok (Nd (Pay k v lh rh) [pl; pr]) /\ (pl = None <-> l = Leaf) /\ (pr = None <-> rr = Leaf).
  Proof.
    intros I [Ha (v & lh & rh & Hp)]. destruct (held_at h0 t0 O start _ _ _ _ _ _ _ _ _ _ _ _ I Ha Hp) as (v1 & l1 & rr1 & pl & pr & _ & G & D1 & D2 & S1 & S2).
    exists v1, lh, rh, pl, pr. split; [unfold excl; now rewrite G|].
    pose proof (den_leaf _ _ _ D1). pose proof (den_leaf _ _ _ D2). pose proof (kid_leaf true _ _ S1). pose proof (kid_leaf true _ _ S2). tauto.
  Qed.
  Lemma right_sim h r t ps a p k l rr n : minv h r t ps -> asim h r (Descend a) (Descend (p, k, l, rr)) ->
    sims h r t ps n (right_t ask ub (mk_mnode (p ++ [true]) rr) (bor k) n) (am_right_t bor ask bomb ub h a n).
  Proof.
    intros I A. destruct (node_at _ _ _ _ _ _ _ _ _ I A) as (v & lh & rh & pl & pr & E & _ & Hr). unfold am_right_t. rewrite E. cbn [nd_kids nth_error nd_data pk].
    pose proof (fun m => pull_sim h r t ps a p k l rr true m I A) as P. cbn [side] in P.
    destruct pr as [c|].
    2:{ assert (rr = Leaf) as -> by tauto. unfold right_t. cbn [mk_mnode] in *. destruct ub; apply P. }
    destruct rr as [|k2 v2 lh2 rh2 l2 r2]; [destruct Hr as [_ Hr]; discriminate (Hr eq_refl)|]. unfold right_t. cbn [mk_mnode] in *.
    destruct ub as [|q|q]; [apply P|unfold le_t, question; cbn [after]..]; (destruct (ask n q (bor k)) as [cc|] eqn:Ea; cbn [after back];
      [|split; [reflexivity|exists ps; exact (proj1 I)]]);
      destruct cc; cbn [sims]; try (split; [apply mono_refl|]; split; [lia|]; exists [], []; split; [reflexivity|]; split; [exact I|constructor]).
    - exact (sims_le _ _ _ _ n (S n) _ _ (P (S n)) (le_S _ _ (le_n n))).
    - exact (sims_le _ _ _ _ n (S n) _ _ (P (S n)) (le_S _ _ (le_n n))).
  Qed.
  Lemma left_sim h r t ps a p k l rr n : minv h r t ps -> asim h r (Descend a) (Descend (p, k, l, rr)) ->
    sims h r t ps n (left_t ask lb (mk_mnode (p ++ [false]) l) (bor k) n) (am_left_t bor ask bomb lb h a n).
  Proof.
    intros I A. destruct (node_at _ _ _ _ _ _ _ _ _ I A) as (v & lh & rh & pl & pr & E & Hl & _). unfold am_left_t. rewrite E. cbn [nd_kids nth_error nd_data pk].
    pose proof (fun m => pull_sim h r t ps a p k l rr false m I A) as P. cbn [side] in P.
    destruct pl as [c|].
    2:{ assert (l = Leaf) as -> by tauto. unfold left_t. cbn [mk_mnode] in *. destruct lb; apply P. }
    destruct l as [|k2 v2 lh2 rh2 l2 r2]; [destruct Hl as [_ Hl]; discriminate (Hl eq_refl)|]. unfold left_t. cbn [mk_mnode] in *.
    destruct lb as [|q|q]; [apply P|unfold ge_t, question; cbn [after]..]; (destruct (ask n q (bor k)) as [cc|] eqn:Ea; cbn [after back];
      [|split; [reflexivity|exists ps; exact (proj1 I)]]);
      destruct cc; cbn [sims]; try (split; [apply mono_refl|]; split; [lia|]; exists [], []; split; [reflexivity|]; split; [exact I|constructor]).
    - exact (sims_le _ _ _ _ n (S n) _ _ (P (S n)) (le_S _ _ (le_n n))).
    - exact (sims_le _ _ _ _ n (S n) _ _ (P (S n)) (le_S _ _ (le_n n))).
  Qed.
  Lemma item_sim h r t ps a p k l rr n : minv h r t ps -> asim h r (Descend a) (Descend (p, k, l, rr)) ->
    sims h r t ps n (item_t ikey ask lb ub (p, k) n) (am_item_t bor ask lb ub h a n).
  Proof.
    intros I A. destruct (node_at _ _ _ _ _ _ _ _ _ I A) as (v & lh & rh & pl & pr & E & _). unfold am_item_t. rewrite E. cbn [nd_data pk]. unfold item_t. cbn [snd].
    pose proof (contains_goes ikey ask lb ub (p, k) n) as G. cbn [snd] in G. destruct (contains_t ask lb ub (bor k) n) as [[] b n1|[] n1|]; cbn [goes after sims back] in *.
    - split; [apply mono_refl|]. split; [lia|]. exists (if b then [Return (p, k)] else []), []. split; [reflexivity|]. split; [exact I|].
      destruct b; constructor; [|constructor]. destruct A as [Ha (v1 & lh1 & rh1 & Hp)]. cbn [AvlHeapMutProofs2.asim]. split; eauto 6.
    - split; [reflexivity|]. exists ps. exact (proj1 I).
    - contradiction.
  Qed.

  Lemma right_ends o q n : ends (right_t ask ub o q n : trial unit (list gact)) n.
  Proof. pose proof (right_goes (fun _ : unit => q) ask lb ub o tt n) as G. unfold right_t. destruct o as [x|], ub as [|k|k]; cbn [ends]; auto; unfold le_t, question; destruct (ask n k q); cbn; lia. Qed.
  Lemma left_ends o q n : ends (left_t ask lb o q n : trial unit (list gact)) n.
  Proof. unfold left_t. destruct o as [x|], lb as [|k|k]; cbn [ends]; auto; unfold ge_t, question; destruct (ask n k q); cbn; lia. Qed.
  Lemma item_ends i n : ends (item_t ikey ask lb ub i n : trial unit (list gact)) n.
  Proof. eapply ends_goes, item_goes. Qed.
  Lemma front_ends fuel : forall gs n, ends (prune_front_t (@mut_destr K V) ikey ask lb ub fuel gs n) n.
  Proof.
    induction fuel as [|fuel IH]; intros gs n; [exact Logic.I|]. cbn [prune_front_t]. destruct gs as [|[x|i] gs]; [cbn; lia| |cbn; lia].
    apply ends_after; [|auto]. eapply ends_goes, (front_goes mut_destr mut_size mflat mut_flat mut_sized).
  Qed.
  Lemma back_ends fuel : forall gs n, ends (prune_back_t (@mut_destr K V) ikey ask lb ub fuel gs n) n.
  Proof.
    induction fuel as [|fuel IH]; intros gs n; [exact Logic.I|]. cbn [prune_back_t]. destruct (rev gs) as [|[x|i] gs']; [cbn; lia| |cbn; lia].
    apply ends_after; [|auto]. eapply ends_goes, (back_goes mut_destr mut_size mflat mut_flat mut_sized).
  Qed.

  Lemma front_sim fuel : forall h r t ps w gs n, minv h r t ps -> asims h r w gs ->
    sims h r t ps n (prune_front_t (@mut_destr K V) ikey ask lb ub fuel gs n) (am_front_t bor ask bomb lb ub fuel h w n).
  Proof.
    induction fuel as [|fuel IH]; intros h r t ps w gs n I F; [reflexivity|]. cbn [prune_front_t am_front_t].
    assert (Done1 : sims h r t ps n (Returned tt gs n) (Returned h (Done w) n)).
    { split; [apply mono_refl|]. split; [lia|]. exists gs, []. auto. }
    destruct F as [|x g w gs A F]; [exact Done1|].
    destruct x as [a|a], g as [x|i]; try (destruct x as [[[p k] l] rr]; contradiction); try (destruct i; contradiction); [|exact Done1]. clear Done1.
    destruct x as [[[p k] l] rr]. unfold front_t. cbn [mut_destr snd]. rewrite after_assoc. apply sims_then; [now apply right_sim with (l := l)| |].
    2:{ intros gs1 m. apply ends_after; [|intros; apply front_ends]. apply ends_after; [apply item_ends|]. intros r1 m1. apply ends_after; [apply left_ends|]. intros r2 m2. cbn. lia. }
    intros h1 w1 n1 g1 ps1 M1 L1 I1 F1. pose proof (asim_mono _ _ _ _ _ _ M1 A) as A1. pose proof (asims_mono _ _ _ _ _ _ M1 F) as Fw1.
    rewrite after_assoc. apply sims_then; [now apply item_sim with (l := l) (rr := rr)| |].
    2:{ intros gs1 m. apply ends_after; [|intros; apply front_ends]. apply ends_after; [apply left_ends|]. intros r2 m2. cbn. lia. }
    intros h2 w2 n2 g2 ps2 M2 L2 I2 F2. pose proof (asim_mono _ _ _ _ _ _ M2 A1) as A2. pose proof (asims_mono _ _ _ _ _ _ M2 Fw1) as Fw2. pose proof (asims_mono _ _ _ _ _ _ M2 F1) as F12.
    rewrite after_assoc. apply sims_then; [now apply left_sim with (rr := rr)| |].
    2:{ intros gs1 m. apply ends_after; [cbn; lia|intros; apply front_ends]. }
    intros h3 w3 n3 g3 ps3 M3 L3 I3 F3. cbn [after]. apply IH; [exact I3|].
    apply Forall2_app; [|exact (asims_mono _ _ _ _ _ _ M3 Fw2)]. apply Forall2_app; [exact F3|]. apply Forall2_app; eapply asims_mono; eauto.
  Qed.
  Lemma back_sim fuel : forall h r t ps w gs n, minv h r t ps -> asims h r w gs ->
    sims h r t ps n (prune_back_t (@mut_destr K V) ikey ask lb ub fuel gs n) (am_back_t bor ask bomb lb ub fuel h w n).
  Proof.
    induction fuel as [|fuel IH]; intros h r t ps w gs n I F; [reflexivity|]. cbn [prune_back_t am_back_t].
    assert (Done1 : sims h r t ps n (Returned tt gs n) (Returned h (Done w) n)).
    { split; [apply mono_refl|]. split; [lia|]. exists gs, []. auto. }
    destruct (BTreeHeapMutProofs.f2_snoc _ _ _ F) as [[-> ->]|(x & w0 & g & gs0 & -> & -> & A & F0)]; [exact Done1|].
    rewrite !rev_app_distr in *. cbn [rev app] in *. rewrite !rev_involutive.
    destruct x as [a|a], g as [x|i]; try (destruct x as [[[p k] l] rr]; contradiction); try (destruct i; contradiction); [|exact Done1]. clear Done1.
    destruct x as [[[p k] l] rr]. unfold back_t. cbn [mut_destr snd]. rewrite after_assoc. apply sims_then; [now apply left_sim with (rr := rr)| |].
    2:{ intros gs1 m. apply ends_after; [|intros; apply back_ends]. apply ends_after; [apply item_ends|]. intros r1 m1. apply ends_after; [apply right_ends|]. intros r2 m2. cbn. lia. }
    intros h1 w1 n1 g1 ps1 M1 L1 I1 F1. pose proof (asim_mono _ _ _ _ _ _ M1 A) as A1. pose proof (asims_mono _ _ _ _ _ _ M1 F0) as Fw1.
    rewrite after_assoc. apply sims_then; [now apply item_sim with (l := l) (rr := rr)| |].
    2:{ intros gs1 m. apply ends_after; [|intros; apply back_ends]. apply ends_after; [apply right_ends|]. intros r2 m2. cbn. lia. }
    intros h2 w2 n2 g2 ps2 M2 L2 I2 F2. pose proof (asim_mono _ _ _ _ _ _ M2 A1) as A2. pose proof (asims_mono _ _ _ _ _ _ M2 Fw1) as Fw2. pose proof (asims_mono _ _ _ _ _ _ M2 F1) as F12.
    rewrite after_assoc. apply sims_then; [now apply right_sim with (l := l)| |].
    2:{ intros gs1 m. apply ends_after; [cbn; lia|intros; apply back_ends]. }
    intros h3 w3 n3 g3 ps3 M3 L3 I3 F3. cbn [after]. apply IH; [exact I3|].
    apply Forall2_app; [exact (asims_mono _ _ _ _ _ _ M3 Fw2)|]. apply Forall2_app; [eapply asims_mono; eauto|]. apply Forall2_app; [eapply asims_mono; eauto|exact F3].
  Qed.
End Sim.
