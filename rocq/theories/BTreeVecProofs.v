(** Proofs about [Vec::from(map)] for shared [BTreeMap]s, with any comparison function. *)
From Coq Require Import List PeanoNat Bool Lia.
From Verif Require Import Base Spec MapSpec BTreeSpec SpecFacts Vec Heap HeapProofs BTreeModel BTreeProofs BTreeProofs2 BTreeIterModel
  BTreeIterProofs BTreeIterProofs2 BTreeHistModel BTreeHistProofs BTreeShows BTreeHeapModel BTreeHeapSpec BTreeHeapHistSpec
  BTreeHeapProofs BTreeHeapProofs2 BTreeHeapProofs3 BTreeHeapProofs4 BTreeHeapProofs5 BTreeHeapProofs6 BTreeHeapProofs7
  AnyOrdSpec BTreeAnyProofs AnyOrdShows AnyHeapSpec BAnyHeapSpec BTreeHeapAnyProofs BTreeVecModel.
From Verif Require AvlHeapSpec AvlHeapProofs.
Import ListNotations.
Local Open Scope nat_scope.

Section ToVecProofs.
  Context {K V : Type}.
  Context (N : nat) (HN : 1 <= N).
  Variable bomb : nat -> bool.
  Notation entry := (K * V)%type.
  Notation heap := (heap (list entry)).
  Notation wps := (flat_map (@w_ptrs K V)).
  Notation faulty := (faulty bomb).

  Lemma sub_nil_any (r : list entry) : sub [] r.
  Proof. induction r; [apply AvlHeapSpec.sub_nil|now apply AvlHeapSpec.sub_skip]. Qed.

  Lemma to_vec_s l : forall fuel (h : heap) it acc O, length l < fuel -> sound h (wps (hi_work it) ++ O) -> hi_at h it l ->
    exists h' o es, h_to_vec bomb fuel h it acc = Ok (h', o) /\ sound h' O /\ frame O h h'
      /\ clones h' = rev (singles es) ++ clones h /\ sub es l
      /\ match o with Done v => v = acc ++ l | Unwound => faulty end.
  Proof.
    induction l as [|e l IH]; intros [|fuel] h it acc O Hf S At; try (cbn in Hf; lia); cbn [h_to_vec].
    - destruct (next_s N HN bomb h it _ O S At) as (h1 & it1 & o & E & S1 & F1 & (cs0 & C1 & Cl) & P). rewrite E. cbn [bind].
      destruct o as [x|]; [|destruct P; congruence]. destruct P as [-> P]. cbn [hd_error] in *.
      destruct (hi_drop_s h1 it1 O S1) as (h2 & E2 & S2 & F2 & C2). rewrite E2. cbn [bind].
      destruct Cl as [->|(e & Hc & _)]; [|discriminate].
      exists h2, (Done acc), []. split; [reflexivity|]. split; auto. split; [eapply frame_trans; eauto|].
      split; [cbn in *; congruence|]. split; [apply sub_nil_any|]. now rewrite app_nil_r.
    - destruct (next_s N HN bomb h it _ O S At) as (h1 & it1 & o & E & S1 & F1 & (cs0 & C1 & Cl) & P). rewrite E. cbn [bind].
      assert (Hc : exists es0, cs0 = rev (singles es0) /\ forall es, sub es l -> sub (es0 ++ es) (e :: l)).
      { destruct Cl as [->|(e' & Hx & ->)].
        - exists []. split; auto. intros es Sb. now apply AvlHeapSpec.sub_skip.
        - cbn [hd_error] in Hx. injection Hx as <-. exists [e]. split; auto. intros es Sb. now apply AvlHeapSpec.sub_keep. }
      destruct Hc as (es0 & -> & Hs). destruct o as [x|].
      + destruct P as [-> P]. cbn [hd_error tl] in *. assert (Hf' : length l < fuel) by (cbn in Hf; lia).
        destruct (IH fuel h1 it1 (acc ++ [e]) O Hf' S1 P) as (h2 & o2 & es & E2 & S2 & F2 & C2 & Sb & P2). rewrite E2.
        exists h2, o2, (es0 ++ es). split; [reflexivity|]. split; auto. split; [eapply frame_trans; eauto|]. split.
        { unfold singles. rewrite map_app, rev_app_distr, <- app_assoc. fold (singles es0) (singles es). congruence. }
        split; [now apply Hs|]. destruct o2; auto. now rewrite <- app_assoc in P2.
      + destruct P as [_ Bb]. destruct (hi_drop_s h1 it1 O S1) as (h2 & E2 & S2 & F2 & C2). rewrite E2. cbn [bind].
        exists h2, Unwound, es0. split; [reflexivity|]. split; auto. split; [eapply frame_trans; eauto|]. split; [congruence|].
        split; auto. rewrite <- (app_nil_r es0). apply Hs, sub_nil_any.
  Qed.

  Lemma hb_to_vec_a (h : heap) m l O : sound h (olist (hb_root m) ++ O) -> hbany N h m l ->
    exists h' o es, hb_to_vec bomb h m = Ok (h', o) /\ sound h' O /\ frame O h h'
      /\ clones h' = rev (singles es) ++ clones h /\ sub es l
      /\ match o with Done v => v = l | Unwound => faulty end.
  Proof.
    intros S H. unfold hb_to_vec. destruct (into_iter_a N HN h m l O S H) as (h1 & it & E & S1 & F1 & A1 & C1). rewrite E. cbn [bind].
    assert (Hl : hb_len m = length l).
    { apply hbany_b in H as (b & [El D] & _ & A). apply (any_valid N) in A as [Va <-]. destruct Va as (_ & Lv & _). congruence. }
    destruct (to_vec_s l (Datatypes.S (hb_len m)) h1 it [] O) as (h2 & o & es & E2 & S2 & F2 & C2 & Sb & P); auto; try lia.
    exists h2, o, es. split; auto. split; auto. split; [eapply frame_trans; eauto|]. split; [congruence|]. auto.
  Qed.
End ToVecProofs.

Section RoundTrip.
  Context {K V Q : Type} (bor : K -> Q) (cmp : Q -> Q -> comparison) (laws : order_laws cmp).
  Context (N : nat) (HN : 1 <= N) (M : nat) (HM : 1 <= M).
  Variable bomb : nat -> bool.

  Lemma round_trip_s (h : heap (list (K * V))) m l O : sound h (olist (hb_root m) ++ O) -> hbshows bor cmp N h m l ->
    (forall n, bomb n = false) ->
    exists h1 v h2 m', hb_to_vec bomb h m = Ok (h1, Done v) /\ hb_from_iter bor cmp M bomb h1 v = Ok (h2, Done m')
      /\ sound h2 (olist (hb_root m') ++ O) /\ frame O h h2 /\ hbshows bor cmp M h2 m' l.
  Proof.
    intros S H B. assert (NF : ~ exists n, bomb n = true) by (intros [n X]; rewrite B in X; discriminate).
    destruct (hbshows_asc bor cmp laws N HN h m l H) as [A Hl].
    destruct (into_iter_s bor cmp laws N HN h m l O S H) as (h1 & it & E & S1 & F1 & A1 & C1).
    destruct (to_vec_s N HN bomb l (Datatypes.S (hb_len m)) h1 it [] O) as (h2 & o & es & E2 & S2 & F2 & _ & _ & P); auto; try lia.
    destruct o as [v|]; [|contradiction]. cbn [app] in P. subst v.
    destruct (from_iter_s bor cmp laws M HM bomb h2 l O S2) as (h3 & o & E3 & F3 & P). destruct o as [m'|]; [|destruct P; contradiction].
    destruct P as [S3 Sh]. pose proof (extend_asc_app bor cmp laws [] l A) as X. cbn [app] in X. rewrite X in Sh.
    exists h2, l, h3, m'. split; [unfold hb_to_vec; rewrite E; exact E2|]. split; [exact E3|]. split; [exact S3|].
    split; [|exact Sh]. eapply frame_trans; [exact F1|]. eapply frame_trans; eauto.
  Qed.
End RoundTrip.
