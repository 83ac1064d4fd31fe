(** Calls on shared [BTreeMap]s with comparisons that may answer anything and may panic, on the lists of entries. *)
From Coq Require Import List PeanoNat Bool Lia.
From Verif Require Import Base Spec MapSpec BTreeSpec SpecFacts Vec Heap HeapProofs BTreeModel BTreeProofs BTreeProofs2 BTreeIterModel
  BTreeIterProofs BTreeIterProofs2 BTreeHistModel BTreeHistProofs BTreeShows Ask AskSpec AskAnySpec AskAnyProofs BTreeAskModel BTreeAskAnyProofs
  BTreeHeapModel BTreeHeapSpec BTreeHeapHistSpec
  BTreeHeapProofs BTreeHeapProofs2 BTreeHeapProofs3 BTreeHeapProofs4 BTreeHeapProofs5 BTreeHeapProofs6 BTreeHeapProofs7
  AnyOrdSpec BTreeAnyProofs AnyOrdShows AnyHeapSpec BAnyHeapSpec BTreeHeapAnyProofs
  BTreeHeapAskModel BAskHeapSpec BTreeHeapAskProofs BTreeHeapAskProofs2 BTreeHeapAskProofs3.
From Verif Require AvlHeapSpec AvlHeapProofs.
Import ListNotations.
Local Open Scope nat_scope.

Section AskLists.
  Context {K V Q : Type} (bor : K -> Q) (ask : nat -> Q -> Q -> option comparison) (N : nat) (HN : 1 <= N).
  Variable bomb : nat -> bool.
  Notation entry := (K * V)%type.
  Notation pay := (list (K * V)).
  Notation heap := (heap pay).
  Notation bmap := (bt_map K V).
  Notation hbany := (@hbany K V N).
  Notation hbany_keep := (BTreeHeapAnyProofs.hbany_keep N).
  Notation hbany_new := (BTreeHeapAnyProofs.hbany_new N).
  Notation wps := (flat_map (@w_ptrs K V)).
  Notation nob := (fun _ : K => tt).
  Notation noc := (fun _ _ : unit => Lt).
  Notation near_t := (@near_t K V Q bor ask).
  Notation path_t := (@path_t K V Q bor ask).
  Notation why := (why ask bomb).
  Notation said := (said bor ask).
  Notation next_s := (BTreeHeapProofs7.next_s N HN bomb).
  Notation wf_swap := (BTreeHeapProofs7.wf_swap N HN).
  Notation sound3 := (BTreeHeapProofs7.sound3 N HN).
  Ltac wide := intros ? ?; apply said_mono; lia.

  Lemma any_loose (b : bmap) l : b_any N b l -> loose_map b.
  Proof. intros H. apply (any_valid N) in H as [H _]. eapply (valid_loose nob noc); eauto. Qed.

  (** ** Single calls *)
  Lemma insert_t_m (h : heap) m b l k v O n : sound h (olist (hb_root m) ++ O) -> hbm h m b -> b_any N b l ->
    exists h' m' n' o, hb_insert_t bor ask N bomb h m k v n = Ok (h', m', n', o) /\ n <= n' /\ sound h' (olist (hb_root m') ++ O) /\ frame O h h'
      /\ none_lost h h' (root_do b (fun t => path_t (bor k) t n))
      /\ match o with
         | Done x => exists l', may_insert bor (said n n') k v l l' x /\ hbany h' m' l'
         | Unwound => hbm h' m' b /\ why n'
         end.
  Proof.
    intros S M A. pose proof (b_insert_copes bor ask N HN b l k v n A) as C.
    destruct (hb_insert_t_ok bor ask N bomb h m b k v O n (any_loose _ _ A) S M) as (h' & m' & n' & o & E & L & S1 & F1 & N1 & P).
    { intros X. now rewrite X in C. }
    exists h', m', n', o. split; [exact E|]. split; [exact L|]. split; [exact S1|]. split; [exact F1|]. split; [exact N1|].
    destruct o as [x|]; [|exact P]. destruct P as (b' & Eb & M'). rewrite Eb in C. cbn [copes] in C. destruct C as (_ & l' & A' & X).
    exists l'. split; [exact X|]. eapply hbm_any; eauto.
  Qed.
  Lemma insert_t_a (h : heap) m l k v O n : sound h (olist (hb_root m) ++ O) -> hbany h m l ->
    exists h' m' n' o, hb_insert_t bor ask N bomb h m k v n = Ok (h', m', n', o) /\ n <= n' /\ sound h' (olist (hb_root m') ++ O) /\ frame O h h'
      /\ match o with
         | Done x => exists l', may_insert bor (said n n') k v l l' x /\ hbany h' m' l'
         | Unwound => hbany h' m' l /\ why n'
         end.
  Proof.
    intros S H. apply hbany_b in H as (b & M & _ & A). destruct (insert_t_m h m b l k v O n S M A) as (h' & m' & n' & o & E & L & S1 & F1 & _ & P).
    exists h', m', n', o. split; [exact E|]. split; [exact L|]. split; [exact S1|]. split; [exact F1|]. destruct o as [x|]; [exact P|].
    destruct P as [M' Y]. split; [|exact Y]. eapply hbm_any; eauto.
  Qed.
  Lemma get_mut_t_m (h : heap) m b l q w O n : sound h (olist (hb_root m) ++ O) -> hbm h m b -> b_any N b l ->
    exists h' m' n' o, hb_get_mut_t bor ask bomb h m q w n = Ok (h', m', n', o) /\ n <= n' /\ sound h' (olist (hb_root m') ++ O) /\ frame O h h'
      /\ none_lost h h' (root_do b (fun t => path_t q t n))
      /\ match o with
         | Done x => exists l', may_get_mut (said n n') q w l l' x /\ hbany h' m' l'
         | Unwound => hbm h' m' b /\ why n'
         end.
  Proof.
    intros S M A. pose proof (b_get_mut_copes bor ask N HN b l q w n A) as C.
    destruct (hb_get_mut_t_ok bor ask bomb h m b q w O n (any_loose _ _ A) S M) as (h' & m' & n' & o & E & L & S1 & F1 & N1 & P).
    exists h', m', n', o. split; [exact E|]. split; [exact L|]. split; [exact S1|]. split; [exact F1|]. split; [exact N1|].
    destruct o as [x|]; [|exact P]. destruct P as (b' & Eb & M'). rewrite Eb in C. cbn [copes] in C. destruct C as (_ & l' & A' & X).
    exists l'. split; [exact X|]. eapply hbm_any; eauto.
  Qed.
  Lemma remove_t_m (h : heap) m b l q O n : sound h (olist (hb_root m) ++ O) -> hbm h m b -> b_any N b l ->
    exists h' m' n1 n' o, hb_remove_t bor ask N bomb h m q n = Ok (h', m', n', o) /\ n <= n1 <= n' /\ sound h' (olist (hb_root m') ++ O) /\ frame O h h'
      /\ none_lost h h' (root_do b (fun t => near_t q t n1))
      /\ match o with
         | Done x => exists l', may_remove_val (said n n') q l l' x /\ hbany h' m' l'
         | Unwound => (panicked ask n' /\ hbm h' m' b) \/ ((exists i, bomb i = true) /\ spoilt h' m' l)
         end.
  Proof.
    intros S M A. pose proof (b_remove_copes bor ask N HN b l q n A) as C. pose proof (b_contains_copes bor ask N HN b l q n A) as Cc.
    destruct (hb_remove_t_ok bor ask N bomb h m b q O n (any_loose _ _ A) S M) as (h' & m' & n1 & n' & o & E & L & S1 & F1 & N1 & P).
    { intros X. now rewrite X in C. }
    { intros n1 u r X. rewrite X in Cc. apply Cc. }
    { intros n1 u X. rewrite X in Cc. destruct Cc as (L & P & _). split; [lia|exact P]. }
    exists h', m', n1, n', o. split; [exact E|]. split; [exact L|]. split; [exact S1|]. split; [exact F1|]. split; [exact N1|].
    destruct o as [x|].
    - destruct P as (b' & Eb & M'). rewrite Eb in C. cbn [copes] in C. destruct C as (_ & l' & A' & X). exists l'. split; [exact X|]. eapply hbm_any; eauto.
    - destruct P as [P|[Bb P]]; [left; exact P|right]. split; [exact Bb|]. eapply left_spoilt_a; eauto.
  Qed.

  (** Lookups. *)
  Lemma look_t_m {A} (h : heap) m b (f : bmap -> trial unit A) n (ok : A -> nat -> Prop) : hbm h m b ->
    copes ask n (f b) (fun _ r n' => ok r n') (fun _ => True) ->
    exists n' o, h_look_t h m f = Ok (n', o) /\ n <= n' /\ match o with Done r => ok r n' | Unwound => panicked ask n' end.
  Proof.
    intros M C. unfold h_look_t. rewrite (proj2 (read_iff h m b) M). cbn [bind]. destruct (f b) as [u r n'|u n'|]; cbn [copes] in C; [| |contradiction].
    - exists n', (Done r). split; [reflexivity|]. exact C.
    - exists n', Unwound. split; [reflexivity|]. destruct C as (L & P & _). split; [lia|exact P].
  Qed.
  Lemma get_t_a (h : heap) m l q n : hbany h m l ->
    exists n' o, hb_get_t bor ask h m q n = Ok (n', o) /\ n <= n'
      /\ match o with Done r => may_get (said n n') q l r | Unwound => panicked ask n' end.
  Proof.
    intros H. apply hbany_b in H as (b & M & _ & A). apply (look_t_m h m b (fun b => b_get_t bor ask b q n) n (fun r n' => may_get (said n n') q l r) M).
    exact (b_get_copes bor ask N HN b l q n A).
  Qed.
  Lemma contains_t_a (h : heap) m l q n : hbany h m l ->
    exists n' o, hb_contains_t bor ask h m q n = Ok (n', o) /\ n <= n'
      /\ match o with Done r => r = true -> exists e, In e l /\ said n n' q e | Unwound => panicked ask n' end.
  Proof.
    intros H. apply hbany_b in H as (b & M & _ & A).
    apply (look_t_m h m b (fun b => b_contains_t bor ask b q n) n (fun r n' => r = true -> exists e, In e l /\ said n n' q e) M).
    exact (b_contains_copes bor ask N HN b l q n A).
  Qed.
  Lemma get_key_value_t_a (h : heap) m l q n : hbany h m l ->
    exists n' o, hb_get_key_value_t bor ask h m q n = Ok (n', o) /\ n <= n'
      /\ match o with Done r => forall e, r = Some e -> In e l /\ said n n' q e | Unwound => panicked ask n' end.
  Proof.
    intros H. apply hbany_b in H as (b & M & _ & A).
    apply (look_t_m h m b (fun b => match bm_root b with None => Returned tt None n | Some t => n_get_t bor ask q t n end) n
      (fun r n' => forall e, r = Some e -> In e l /\ said n n' q e) M).
    apply (any_iff N) in A as [_ R]. destruct (bm_root b) as [t|]; [|apply copes_ret; [lia|discriminate]].
    destruct R as (d & Sh & <-). eapply copes_weak; [apply (n_get_copes bor ask N HN q d 1 t n Sh)| |auto].
    intros _ r n' _ X e ->. exact X.
  Qed.

  (** ** [extend] *)
  Lemma extend_t_a ps : forall (h : heap) m l O n, sound h (olist (hb_root m) ++ O) -> hbany h m l ->
    exists h' m' n' o, hb_extend_t bor ask N bomb h m ps n = Ok (h', m', n', o) /\ n <= n' /\ sound h' (olist (hb_root m') ++ O) /\ frame O h h'
      /\ match o with
         | Done _ => exists l', may_extend bor (said n n') ps l l' /\ hbany h' m' l'
         | Unwound => (exists done p rest l', ps = done ++ p :: rest /\ may_extend bor (said n n') done l l' /\ hbany h' m' l') /\ why n'
         end.
  Proof.
    induction ps as [|[k v] ps IH]; intros h m l O n S H; cbn [hb_extend_t].
    - eexists _, _, _, _. split; [reflexivity|]. split; [lia|]. split; [exact S|]. split; [apply frame_refl|]. exists l. cbn [may_extend]. auto.
    - destruct (insert_t_a h m l k v O n S H) as (h1 & m1 & n1 & o & E & L1 & S1 & F1 & P). rewrite E. cbn [bind]. destruct o as [x|].
      + destruct P as (l1 & X & P). destruct (IH h1 m1 _ O n1 S1 P) as (h2 & m2 & n2 & o2 & E2 & L2 & S2 & F2 & P2). rewrite E2.
        eexists _, _, _, _. split; [reflexivity|]. split; [lia|]. split; [exact S2|]. split; [eapply frame_trans; eauto|].
        assert (X' : may_insert bor (said n n2) k v l l1 x) by (eapply insert_mono; [|exact X]; wide). destruct o2.
        * destruct P2 as (l' & X2 & P2). exists l'. split; [|exact P2]. cbn [may_extend]. exists l1, x. split; [exact X'|]. eapply extend_mono; [|exact X2]; wide.
        * destruct P2 as [(dn & p & rest & l' & -> & X2 & P2) Bb]. split; [|exact Bb]. exists ((k, v) :: dn), p, rest, l'. split; [reflexivity|]. split; [|exact P2].
          cbn [may_extend]. exists l1, x. split; [exact X'|]. eapply extend_mono; [|exact X2]; wide.
      + destruct P as [P Bb]. eexists _, _, _, _. split; [reflexivity|]. split; [exact L1|]. split; [exact S1|]. split; [exact F1|]. split; [|exact Bb].
        exists [], (k, v), ps, l. cbn [may_extend]. auto.
  Qed.
  Lemma from_iter_t_a (h : heap) ps O n : sound h O ->
    exists h' n' o, hb_from_iter_t bor ask N bomb h ps n = Ok (h', n', o) /\ n <= n' /\ frame O h h'
      /\ match o with
         | Done m => sound h' (olist (hb_root m) ++ O) /\ exists l', may_extend bor (said n n') ps [] l' /\ hbany h' m l'
         | Unwound => sound h' O /\ why n'
         end.
  Proof.
    intros S. unfold hb_from_iter_t. destruct (extend_t_a ps h hb_new [] O n S (hbany_new h)) as (h1 & m1 & n1 & o & E & L & S1 & F1 & P).
    rewrite E. cbn [bind]. destruct o as [[]|].
    - eexists _, _, _. split; [reflexivity|]. auto.
    - destruct (hb_drop_ok h1 m1 O S1) as (h2 & E2 & S2 & F2 & _). rewrite E2. cbn [bind]. eexists _, _, _. split; [reflexivity|].
      split; [exact L|]. split; [eapply frame_trans; eauto|]. destruct P. auto.
  Qed.

  (** ** [append] *)
  Lemma extend_iter_t_a l : forall fuel (h : heap) m it la O n, length l < fuel -> sound h (wps (hi_work it) ++ olist (hb_root m) ++ O) ->
    hi_at h it l -> hbany h m la ->
    exists h' m' n' o, h_extend_iter_t bor ask N bomb fuel h m it n = Ok (h', m', n', o) /\ n <= n' /\ sound h' (olist (hb_root m') ++ O) /\ frame O h h'
      /\ match o with
         | Done _ => exists l', may_extend bor (said n n') l la l' /\ hbany h' m' l'
         | Unwound => (exists done p rest l', l = done ++ p :: rest /\ may_extend bor (said n n') done la l' /\ hbany h' m' l') /\ why n'
         end.
  Proof.
    induction l as [|[k v] l IH]; intros [|fuel] h m it la O n Hf S At Sh; try (cbn in Hf; lia); cbn [h_extend_iter_t].
    - destruct (next_s h it _ _ S At) as (h1 & it1 & o & E & S1 & F1 & _ & P). rewrite E. cbn [bind].
      destruct o as [x|]; [|destruct P; congruence]. destruct P as [-> P]. cbn [hd_error].
      destruct (hi_drop_s h1 it1 _ S1) as (h2 & E2 & S2 & F2 & _). rewrite E2. cbn [bind]. eexists _, _, _, _. split; [reflexivity|]. split; [lia|]. split; [exact S2|].
      pose proof (frame_trans _ _ _ _ F1 F2) as F. split; [eapply frame_r; eauto|]. exists la. split; [reflexivity|].
      eapply hbany_keep; [eapply keep_l; exact F|apply incl_refl|exact Sh].
    - destruct (next_s h it _ _ S At) as (h1 & it1 & o & E & S1 & F1 & _ & P). rewrite E. cbn [bind]. destruct o as [x|].
      + destruct P as [-> P]. cbn [hd_error tl] in *. assert (Sh1 : hbany h1 m la) by (eapply hbany_keep; [eapply keep_l; exact F1|apply incl_refl|exact Sh]).
        apply wf_swap in S1. destruct (insert_t_a h1 m la k v _ n S1 Sh1) as (h2 & m2 & n2 & o & E2 & L2 & S2 & F2 & P2). rewrite E2. cbn [bind].
        apply wf_swap in S2. pose proof (frame_trans _ _ _ _ (frame_r _ _ _ _ F1) (frame_r _ _ _ _ F2)) as F. destruct o as [x|].
        * destruct P2 as (l1 & X & P2). assert (P' : hi_at h2 it1 l) by (eapply hi_keep; [eapply keep_l; exact F2|apply incl_refl|exact P]).
          assert (Hf' : length l < fuel) by (cbn in Hf; lia).
          destruct (IH fuel h2 m2 it1 _ O n2 Hf' S2 P' P2) as (h3 & m3 & n3 & o & E3 & L3 & S3 & F3 & P3).
          assert (X' : may_insert bor (said n n3) k v la l1 x) by (eapply insert_mono; [|exact X]; wide).
          rewrite E3. eexists _, _, _, _. split; [reflexivity|]. split; [lia|]. split; [exact S3|]. split; [eapply frame_trans; eauto|]. destruct o.
          -- destruct P3 as (l' & X3 & P3). exists l'. split; [|exact P3]. cbn [may_extend]. exists l1, x. split; [exact X'|]. eapply extend_mono; [|exact X3]; wide.
          -- destruct P3 as [(dn & p & rest & l' & -> & X3 & P3) Bb]. split; [|exact Bb]. exists ((k, v) :: dn), p, rest, l'. split; [reflexivity|]. split; [|exact P3].
             cbn [may_extend]. exists l1, x. split; [exact X'|]. eapply extend_mono; [|exact X3]; wide.
        * destruct P2 as [P2 Bb]. destruct (hi_drop_s h2 it1 _ S2) as (h3 & E3 & S3 & F3 & _). rewrite E3. cbn [bind].
          eexists _, _, _, _. split; [reflexivity|]. split; [exact L2|]. split; [exact S3|]. split; [eapply frame_trans; [exact F|eapply frame_r; eauto]|]. split; [|exact Bb].
          exists [], (k, v), l, la. split; auto. split; [reflexivity|]. eapply hbany_keep; [eapply keep_l; exact F3|apply incl_refl|exact P2].
      + destruct P as [_ Bb]. destruct (hi_drop_s h1 it1 _ S1) as (h2 & E2 & S2 & F2 & _). rewrite E2. cbn [bind]. eexists _, _, _, _. split; [reflexivity|]. split; [lia|]. split; [exact S2|].
        pose proof (frame_trans _ _ _ _ F1 F2) as F. split; [eapply frame_r; eauto|]. split; [|left; exact Bb]. exists [], (k, v), l, la. split; auto. split; [reflexivity|].
        eapply hbany_keep; [eapply keep_l; exact F|apply incl_refl|exact Sh].
  Qed.
  Lemma append_t_a (h : heap) a b la lb O n : sound h (olist (hb_root a) ++ olist (hb_root b) ++ O) -> hbany h a la -> hbany h b lb ->
    exists h' a' n' o, hb_append_t bor ask N bomb h a b n = Ok (h', a', hb_new, n', o) /\ n <= n' /\ sound h' (olist (hb_root a') ++ O) /\ frame O h h'
      /\ match o with
         | Done _ => exists l', may_extend bor (said n n') lb la l' /\ hbany h' a' l'
         | Unwound => (exists done p rest l', lb = done ++ p :: rest /\ may_extend bor (said n n') done la l' /\ hbany h' a' l') /\ why n'
         end.
  Proof.
    intros S Ha Hb. unfold hb_append_t. apply wf_swap in S. destruct (into_iter_a N HN h b lb _ S Hb) as (h1 & it & E & S1 & F1 & A1 & _). rewrite E. cbn [bind].
    pose proof (hbany_len N _ _ _ Hb) as Ll. destruct (extend_iter_t_a lb (Datatypes.S (hb_len b)) h1 a it la O n) as (h2 & a' & n2 & o & E2 & L2 & S2 & F2 & P); auto; [lia| |].
    { eapply hbany_keep; [eapply keep_l; exact F1|apply incl_refl|exact Ha]. }
    rewrite E2. cbn [bind]. eexists _, _, _, _. split; [reflexivity|]. split; [exact L2|]. split; [exact S2|]. split; [|exact P]. eapply frame_trans; [eapply frame_r; eauto|auto].
  Qed.

  (** ** [retain] *)
  Section Retain.
    Context {S' : Type} (f : S' -> K -> V -> S' * V * bool) (fbomb : S' -> K -> V -> bool).
    Notation kept := (BTreeHeapProofs7.kept f).
    Definition fails_t (n : nat) : Prop := why n \/ exists s k v, fbomb s k v = true.
    Lemma retain_iter_t_a l : forall fuel (h : heap) m it la s O n, length l < fuel -> sound h (wps (hi_work it) ++ olist (hb_root m) ++ O) ->
      hi_at h it l -> hbany h m la ->
      exists h' n' o, h_retain_iter_t bor ask N bomb f fbomb fuel h m it s n = Ok (h', n', o) /\ n <= n' /\ frame O h h'
        /\ match o with
           | Done (m', s') => sound h' (olist (hb_root m') ++ O) /\ (exists l', may_extend bor (said n n') (kept s l) la l' /\ hbany h' m' l') /\ s' = snd (run_calls f s l)
           | Unwound => sound h' O /\ fails_t n'
           end.
    Proof.
      assert (Bail : forall (h h0 : heap) it1 m O n n1, sound h (wps (hi_work it1) ++ olist (hb_root m) ++ O) -> frame O h0 h -> fails_t n1 -> n <= n1 ->
        exists h' n' o, (h1 <- hi_drop h it1;; h2 <- hb_drop h1 m;; Ok (h2, n1, @Unwound (hbmap * S'))) = Ok (h', n', o) /\ n <= n' /\ frame O h0 h'
        /\ match o with
           | Done (m', s') => False
           | Unwound => sound h' O /\ fails_t n'
           end).
      { intros h h0 it1 m O n n1 S F Bb Ln. destruct (hi_drop_s h it1 _ S) as (h1 & E1 & S1 & F1 & _). rewrite E1. cbn [bind].
        destruct (hb_drop_ok h1 m O S1) as (h2 & E2 & S2 & F2 & _). rewrite E2. cbn [bind]. eexists _, _, _. split; [reflexivity|]. split; [exact Ln|]. split; [|auto].
        eapply frame_trans; [exact F|]. eapply frame_trans; [eapply frame_r; exact F1|auto]. }
      induction l as [|[k v] l IH]; intros [|fuel] h m it la s O n Hf S At Sh; try (cbn in Hf; lia); cbn [h_retain_iter_t].
      - destruct (next_s h it _ _ S At) as (h1 & it1 & o & E & S1 & F1 & _ & P). rewrite E. cbn [bind].
        destruct o as [x|]; [|destruct P; congruence]. destruct P as [-> P]. cbn [hd_error].
        destruct (hi_drop_s h1 it1 _ S1) as (h2 & E2 & S2 & F2 & _). rewrite E2. cbn [bind]. eexists _, _, _. split; [reflexivity|]. split; [lia|].
        pose proof (frame_trans _ _ _ _ F1 F2) as F. split; [eapply frame_r; eauto|]. split; [exact S2|]. split; [|reflexivity]. exists la. split; [reflexivity|].
        eapply hbany_keep; [eapply keep_l; exact F|apply incl_refl|exact Sh].
      - destruct (next_s h it _ _ S At) as (h1 & it1 & o & E & S1 & F1 & _ & P). rewrite E. cbn [bind]. destruct o as [x|].
        + destruct P as [-> P]. cbn [hd_error tl] in *. assert (Sh1 : hbany h1 m la) by (eapply hbany_keep; [eapply keep_l; exact F1|apply incl_refl|exact Sh]).
          assert (Hf' : length l < fuel) by (cbn in Hf; lia). rewrite kept_cons, calls_cons. destruct (fbomb s k v) eqn:Fb.
          { destruct (Bail h1 h it1 m O n n S1 (frame_r _ _ _ _ F1)) as (h2 & n2 & o & E2 & L2 & F2 & P2); [right; eauto|lia|]. rewrite E2. eexists _, _, _. split; [reflexivity|]. split; [exact L2|]. split; [exact F2|].
            destruct o as [[]|]; [contradiction|exact P2]. }
          destruct (f s k v) as [[s1 v1] [|]].
          * apply wf_swap in S1. destruct (insert_t_a h1 m la k v1 _ n S1 Sh1) as (h2 & m2 & n2 & o & E2 & L2 & S2 & F2 & P2). rewrite E2. cbn [bind].
            apply wf_swap in S2. pose proof (frame_trans _ _ _ _ (frame_r _ _ _ _ F1) (frame_r _ _ _ _ F2)) as F. destruct o as [x|].
            -- destruct P2 as (l1 & X & P2). assert (P' : hi_at h2 it1 l) by (eapply hi_keep; [eapply keep_l; exact F2|apply incl_refl|exact P]).
               destruct (IH fuel h2 m2 it1 _ s1 O n2 Hf' S2 P' P2) as (h3 & n3 & o & E3 & L3 & F3 & P3).
               rewrite E3. eexists _, _, _. split; [reflexivity|]. split; [lia|]. split; [eapply frame_trans; eauto|]. destruct o as [[]|]; [|exact P3].
               destruct P3 as (S3 & (l' & X3 & P3) & E4). split; [exact S3|]. split; [|exact E4]. exists l'. split; [|exact P3]. cbn [may_extend]. exists l1, x. split.
               ++ eapply insert_mono; [|exact X]; wide.
               ++ eapply extend_mono; [|exact X3]; wide.
            -- destruct P2 as [_ Bb]. destruct (Bail h2 h it1 m2 O n n2 S2 F) as (h3 & n3 & o & E3 & L3 & F3 & P3); [now left|exact L2|]. rewrite E3. eexists _, _, _. split; [reflexivity|]. split; [exact L3|]. split; [exact F3|].
               destruct o as [[]|]; [contradiction|exact P3].
          * destruct (IH fuel h1 m it1 _ s1 O n Hf' S1 P Sh1) as (h3 & n3 & o & E3 & L3 & F3 & P3).
            rewrite E3. eexists _, _, _. split; [reflexivity|]. split; [exact L3|]. split; [eapply frame_trans; [eapply frame_r; exact F1|auto]|exact P3].
        + destruct P as [_ Bb]. destruct (Bail h1 h it1 m O n n S1 (frame_r _ _ _ _ F1)) as (h2 & n2 & o & E2 & L2 & F2 & P2); [left; now left|lia|]. rewrite E2. eexists _, _, _. split; [reflexivity|]. split; [exact L2|]. split; [exact F2|].
          destruct o as [[]|]; [contradiction|exact P2].
    Qed.
    Lemma retain_t_a (h : heap) m l s O n : sound h (olist (hb_root m) ++ O) -> hbany h m l ->
      exists h' m' n' o, hb_retain_t bor ask N bomb f fbomb h m s n = Ok (h', m', n', o) /\ n <= n' /\ sound h' (olist (hb_root m') ++ O) /\ frame O h h'
        /\ match o with
           | Done s' => (exists l', may_extend bor (said n n') (kept s l) [] l' /\ hbany h' m' l') /\ s' = snd (run_calls f s l)
           | Unwound => hbany h' m' [] /\ fails_t n'
           end.
    Proof.
      intros S H. unfold hb_retain_t. destruct (into_iter_a N HN h m l O S H) as (h1 & it & E & S1 & F1 & A1 & _). rewrite E. cbn [bind].
      pose proof (hbany_len N _ _ _ H) as Ll.
      destruct (retain_iter_t_a l (Datatypes.S (hb_len m)) h1 hb_new it [] s O n) as (h2 & n2 & o & E2 & L2 & F2 & P); auto; [lia|apply hbany_new|].
      rewrite E2. cbn [bind]. pose proof (frame_trans _ _ _ _ F1 F2) as F. destruct o as [[m' s']|].
      - destruct P as (S2 & Sh & ->). eexists _, _, _, _. split; [reflexivity|]. auto.
      - destruct P as [S2 Bb]. eexists _, _, _, _. split; [reflexivity|]. cbn [hb_root hb_new olist app]. split; [exact L2|]. split; [exact S2|]. split; [exact F|]. split; [|exact Bb]. apply hbany_new.
    Qed.
  End Retain.

  (** ** [split_off] *)
  Lemma partition_iter_t_a q l : forall fuel (h : heap) m1 m2 it la lb O n, length l < fuel ->
    sound h (wps (hi_work it) ++ olist (hb_root m1) ++ olist (hb_root m2) ++ O) ->
    hi_at h it l -> hbany h m1 la -> hbany h m2 lb ->
    exists h' n' o, h_partition_iter_t bor ask N bomb fuel h m1 m2 it q n = Ok (h', n', o) /\ n <= n' /\ frame O h h'
      /\ match o with
         | Done (m1', m2') => sound h' (olist (hb_root m1') ++ olist (hb_root m2') ++ O)
             /\ exists p1 p2 l1 l2, may_part bor ask n n' q l p1 p2 /\ may_extend bor (said n n') p1 la l1 /\ may_extend bor (said n n') p2 lb l2
                /\ hbany h' m1' l1 /\ hbany h' m2' l2
         | Unwound => sound h' O /\ why n'
         end.
  Proof.
    assert (Bail : forall (h h0 : heap) it1 m1 m2 O n n1, sound h (wps (hi_work it1) ++ olist (hb_root m1) ++ olist (hb_root m2) ++ O) -> frame O h0 h -> why n1 -> n <= n1 ->
      exists h' n' o, (h1 <- hi_drop h it1;; h2 <- hb_drop h1 m1;; h3 <- hb_drop h2 m2;; Ok (h3, n1, @Unwound (hbmap * hbmap))) = Ok (h', n', o) /\ n <= n' /\ frame O h0 h'
      /\ match o with
         | Done (m1', m2') => False
         | Unwound => sound h' O /\ why n'
         end).
    { intros h h0 it1 m1 m2 O n n1 S F Bb Ln. destruct (hi_drop_s h it1 _ S) as (h1 & E1 & S1 & F1 & _). rewrite E1. cbn [bind].
      destruct (hb_drop_ok h1 m1 _ S1) as (h2 & E2 & S2 & F2 & _). rewrite E2. cbn [bind].
      destruct (hb_drop_ok h2 m2 _ S2) as (h3 & E3 & S3 & F3 & _). rewrite E3. cbn [bind]. eexists _, _, _. split; [reflexivity|]. split; [exact Ln|]. split; [|auto].
      eapply frame_trans; [exact F|]. eapply frame_trans; [eapply frame_r, frame_r; exact F1|]. eapply frame_trans; [eapply frame_r; exact F2|auto]. }
    induction l as [|[k v] l IH]; intros [|fuel] h m1 m2 it la lb O n Hf S At Sa Sb; try (cbn in Hf; lia); cbn [h_partition_iter_t].
    - destruct (next_s h it _ _ S At) as (h1 & it1 & o & E & S1 & F1 & _ & P). rewrite E. cbn [bind].
      destruct o as [x|]; [|destruct P; congruence]. destruct P as [-> P]. cbn [hd_error].
      destruct (hi_drop_s h1 it1 _ S1) as (h2 & E2 & S2 & F2 & _). rewrite E2. cbn [bind]. eexists _, _, _. split; [reflexivity|]. split; [lia|].
      pose proof (frame_trans _ _ _ _ F1 F2) as F. destruct (frame_rr _ _ _ _ _ F) as (F' & Ka & Kb). split; [exact F'|]. split; [exact S2|].
      exists [], [], la, lb. split; [split; reflexivity|]. split; [reflexivity|]. split; [reflexivity|].
      split; [exact (hbany_keep _ h h2 m1 la Ka (incl_refl _) Sa)|exact (hbany_keep _ h h2 m2 lb Kb (incl_refl _) Sb)].
    - destruct (next_s h it _ _ S At) as (h1 & it1 & o & E & S1 & F1 & _ & P). rewrite E. cbn [bind]. destruct (frame_rr _ _ _ _ _ F1) as (F1' & Ka & Kb).
      destruct o as [x|].
      2:{ destruct P as [_ Bb]. destruct (Bail h1 h it1 m1 m2 O n n S1 F1' (or_introl Bb) (le_n _)) as (h2 & n2 & o & E2 & L2 & F2 & P2). rewrite E2. eexists _, _, _. split; [reflexivity|]. split; [exact L2|]. split; [exact F2|].
          destruct o as [[]|]; [contradiction|exact P2]. }
      destruct P as [-> P]. cbn [hd_error tl] in *.
      pose proof (hbany_keep _ h h1 m1 la Ka (incl_refl _) Sa) as Sa1.
      pose proof (hbany_keep _ h h1 m2 lb Kb (incl_refl _) Sb) as Sb1.
      destruct (sound3 _ _ _ _ _ S1) as [Sx Sy]. assert (Hf' : length l < fuel) by (cbn in Hf; lia).
      destruct (ask n q (bor k)) as [c|] eqn:Ec.
      2:{ destruct (Bail h1 h it1 m1 m2 O n (Datatypes.S n) S1 F1') as (h2 & n2 & o & E2 & L2 & F2 & P2); [right; exists n, q, (bor k); auto|lia|].
          rewrite E2. eexists _, _, _. split; [reflexivity|]. split; [exact L2|]. split; [exact F2|]. destruct o as [[]|]; [contradiction|exact P2]. }
      assert (Hi : c <> Gt -> exists h' n' o, ('(h2, m2', n2, o2) <- hb_insert_t bor ask N bomb h1 m2 k v (Datatypes.S n);;
          match o2 with
          | Unwound => h1 <- hi_drop h2 it1;; h2 <- hb_drop h1 m1;; h3 <- hb_drop h2 m2';; Ok (h3, n2, Unwound)
          | Done _ => h_partition_iter_t bor ask N bomb fuel h2 m1 m2' it1 q n2 end) = Ok (h', n', o) /\ n <= n' /\ frame O h h'
        /\ match o with
           | Done (m1', m2') => sound h' (olist (hb_root m1') ++ olist (hb_root m2') ++ O)
               /\ exists p1 p2 l1 l2, may_part bor ask n n' q ((k, v) :: l) p1 p2 /\ may_extend bor (said n n') p1 la l1 /\ may_extend bor (said n n') p2 lb l2
                  /\ hbany h' m1' l1 /\ hbany h' m2' l2
           | Unwound => sound h' O /\ why n'
           end).
      { intros Hc. destruct (insert_t_a h1 m2 lb k v _ (Datatypes.S n) Sy Sb1) as (h2 & m2' & n2 & o & E2 & L2 & S2 & F2 & P2). rewrite E2. cbn [bind].
        destruct (frame_rr _ _ _ _ _ F2) as (F2' & Kw & Ka2). pose proof (frame_trans _ _ _ _ F1' F2') as F.
        assert (S2' : sound h2 (wps (hi_work it1) ++ olist (hb_root m1) ++ olist (hb_root m2') ++ O)) by (apply sound3 in S2 as [_ S2]; apply sound3 in S2 as [_ S2]; exact S2).
        destruct o as [x|].
        - destruct P2 as (l1 & X & P2). assert (P' : hi_at h2 it1 l) by (eapply hi_keep; [exact Kw|apply incl_refl|exact P]).
          assert (Sa2 : hbany h2 m1 la) by (eapply hbany_keep; [exact Ka2|apply incl_refl|exact Sa1]).
          destruct (IH fuel h2 m1 m2' it1 la _ O n2 Hf' S2' P' Sa2 P2) as (h3 & n3 & o & E3 & L3 & F3 & P3).
          rewrite E3. eexists _, _, _. split; [reflexivity|]. split; [lia|]. split; [eapply frame_trans; eauto|]. destruct o as [[]|]; [|exact P3].
          destruct P3 as (S3 & p1 & p2 & l1' & l2' & X1 & X2 & X3 & P4 & P5). split; [exact S3|]. exists p1, ((k, v) :: p2), l1', l2'.
          split; [|split; [|split; [|split; [exact P4|exact P5]]]].
          + cbn [may_part]. exists n, c. split; [lia|]. split; [exact Ec|].
            assert (X1' : may_part bor ask n n3 q l p1 p2) by (eapply (part_mono bor ask N HN); [| |exact X1]; lia). destruct c; [eauto|eauto|congruence].
          + eapply extend_mono; [|exact X2]; wide.
          + cbn [may_extend]. exists l1, x. split; [eapply insert_mono; [|exact X]; wide|eapply extend_mono; [|exact X3]; wide].
        - destruct P2 as [_ Bb]. destruct (Bail h2 h it1 m1 m2' O n n2 S2' F Bb) as (h3 & n3 & o & E3 & L3 & F3 & P3); [lia|]. rewrite E3. eexists _, _, _. split; [reflexivity|]. split; [exact L3|]. split; [exact F3|].
          destruct o as [[]|]; [contradiction|exact P3]. }
      destruct c.
      3:{ clear Hi. destruct (insert_t_a h1 m1 la k v _ (Datatypes.S n) Sx Sa1) as (h2 & m1' & n2 & o & E2 & L2 & S2 & F2 & P2). rewrite E2. cbn [bind].
          destruct (frame_rr _ _ _ _ _ F2) as (F2' & Kw & Kb2). pose proof (frame_trans _ _ _ _ F1' F2') as F.
          assert (S2' : sound h2 (wps (hi_work it1) ++ olist (hb_root m1') ++ olist (hb_root m2) ++ O)) by now apply wf_swap.
          destruct o as [x|].
          - destruct P2 as (l1 & X & P2). assert (P' : hi_at h2 it1 l) by (eapply hi_keep; [exact Kw|apply incl_refl|exact P]).
            assert (Sb2 : hbany h2 m2 lb) by (eapply hbany_keep; [exact Kb2|apply incl_refl|exact Sb1]).
            destruct (IH fuel h2 m1' m2 it1 _ lb O n2 Hf' S2' P' P2 Sb2) as (h3 & n3 & o & E3 & L3 & F3 & P3).
            rewrite E3. eexists _, _, _. split; [reflexivity|]. split; [lia|]. split; [eapply frame_trans; eauto|]. destruct o as [[]|]; [|exact P3].
            destruct P3 as (S3 & p1 & p2 & l1' & l2' & X1 & X2 & X3 & P4 & P5). split; [exact S3|]. exists ((k, v) :: p1), p2, l1', l2'.
            split; [|split; [|split; [|split; [exact P4|exact P5]]]].
            + cbn [may_part]. exists n, Gt. split; [lia|]. split; [exact Ec|]. exists p1. split; [reflexivity|]. eapply (part_mono bor ask N HN); [| |exact X1]; lia.
            + cbn [may_extend]. exists l1, x. split; [eapply insert_mono; [|exact X]; wide|eapply extend_mono; [|exact X2]; wide].
            + eapply extend_mono; [|exact X3]; wide.
          - destruct P2 as [_ Bb]. destruct (Bail h2 h it1 m1' m2 O n n2 S2' F Bb) as (h3 & n3 & o & E3 & L3 & F3 & P3); [lia|]. rewrite E3. eexists _, _, _. split; [reflexivity|]. split; [exact L3|]. split; [exact F3|].
            destruct o as [[]|]; [contradiction|exact P3]. }
      all: apply Hi; discriminate.
  Qed.
  Lemma split_off_t_a (h : heap) m l q O n : sound h (olist (hb_root m) ++ O) -> hbany h m l ->
    exists h' m' n' o, hb_split_off_t bor ask N bomb h m q n = Ok (h', m', n', o) /\ n <= n' /\ frame O h h'
      /\ match o with
         | Done m2 => sound h' (olist (hb_root m') ++ olist (hb_root m2) ++ O)
             /\ exists p1 p2 l1 l2, may_part bor ask n n' q l p1 p2 /\ may_extend bor (said n n') p1 [] l1 /\ may_extend bor (said n n') p2 [] l2
                /\ hbany h' m' l1 /\ hbany h' m2 l2
         | Unwound => sound h' (olist (hb_root m') ++ O) /\ hbany h' m' [] /\ why n'
         end.
  Proof.
    intros S H. unfold hb_split_off_t. destruct (into_iter_a N HN h m l O S H) as (h1 & it & E & S1 & F1 & A1 & _). rewrite E. cbn [bind].
    pose proof (hbany_len N _ _ _ H) as Ll.
    destruct (partition_iter_t_a q l (Datatypes.S (hb_len m)) h1 hb_new hb_new it [] [] O n) as (h2 & n2 & o & E2 & L2 & F2 & P); [lia|exact S1|exact A1|apply hbany_new|apply hbany_new|].
    rewrite E2. cbn [bind]. pose proof (frame_trans _ _ _ _ F1 F2) as F. destruct o as [[m1 m2]|].
    - destruct P as (S2 & X). eexists _, _, _, _. split; [reflexivity|]. auto.
    - destruct P as [S2 Bb]. eexists _, _, _, _. split; [reflexivity|]. cbn [hb_root hb_new olist app]. split; [exact L2|]. split; [exact F|]. split; [exact S2|]. split; [apply hbany_new|exact Bb].
  Qed.
End AskLists.
