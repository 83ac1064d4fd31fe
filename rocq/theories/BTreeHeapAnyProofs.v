(** Calls on shared [BTreeMap]s with any comparison function, on the lists of entries. *)
From Coq Require Import List PeanoNat Bool Lia.
From Verif Require Import Base Spec MapSpec BTreeSpec SpecFacts Vec Heap HeapProofs BTreeModel BTreeProofs BTreeProofs2 BTreeIterModel
  BTreeIterProofs BTreeIterProofs2 BTreeHistModel BTreeHistProofs BTreeShows BTreeHeapModel BTreeHeapSpec BTreeHeapHistSpec
  BTreeHeapProofs BTreeHeapProofs2 BTreeHeapProofs3 BTreeHeapProofs4 BTreeHeapProofs5 BTreeHeapProofs6 BTreeHeapProofs7
  AnyOrdSpec BTreeAnyProofs AnyOrdShows AnyHeapSpec BAnyHeapSpec.
From Verif Require AvlHeapSpec AvlHeapProofs.
Import ListNotations.
Local Open Scope nat_scope.

Section AnyLists.
  Context {K V Q : Type} (bor : K -> Q) (cmp : Q -> Q -> comparison).
  Context (N : nat) (HN : 1 <= N).
  Variable bomb : nat -> bool.
  Notation pay := (list (K * V)).
  Notation entry := (K * V)%type.
  Notation heap := (heap pay).
  Notation bmap := (bt_map K V).
  Notation hbany := (@hbany K V N).
  Notation wps := (flat_map (@w_ptrs K V)).
  Notation nob := (fun _ : K => tt).
  Notation noc := (fun _ _ : unit => Lt).
  Notation faulty := (faulty bomb).
  Notation next_s := (BTreeHeapProofs7.next_s N HN bomb).
  Notation wf_swap := (BTreeHeapProofs7.wf_swap N HN).
  Notation sound3 := (BTreeHeapProofs7.sound3 N HN).

  Lemma hbany_b (h : heap) m l : hbany h m l -> exists b, hbm h m b /\ loose_map b /\ b_any N b l.
  Proof.
    intros (b & H1 & H2). exists b. split; [now apply read_iff|]. split; auto.
    apply (any_valid N) in H2 as [H2 _]. eapply (valid_loose nob noc); eauto.
  Qed.
  Lemma hbm_any (h : heap) m b l : hbm h m b -> b_any N b l -> hbany h m l.
  Proof. intros H1 H2. exists b. split; auto. now apply read_iff. Qed.
  Lemma hbany_len (h : heap) m l : hbany h m l -> hb_len m = length l.
  Proof. intros H. apply hbany_b in H as (b & [E _] & _ & [L _]). congruence. Qed.
  Lemma hbany_keep O (h h' : heap) m l : keep O h h' -> incl (olist (hb_root m)) O -> hbany h m l -> hbany h' m l.
  Proof. intros Kp I H. apply hbany_b in H as (b & M & _ & A). eapply hbm_any; [eapply hbm_keep; eauto|auto]. Qed.
  Lemma hbany_new (h : heap) : hbany h hb_new [].
  Proof. eapply (hbm_any h hb_new b_new); [split; exact I || reflexivity|split; reflexivity]. Qed.

  (** ** Single calls *)
  Lemma insert_a (h : heap) m l k v O : sound h (olist (hb_root m) ++ O) -> hbany h m l ->
    exists h' m' o, hb_insert bor cmp N bomb h m k v = Ok (h', m', o) /\ sound h' (olist (hb_root m') ++ O) /\ frame O h h'
      /\ match o with
         | Done x => exists l', any_insert bor cmp k v l l' x /\ hbany h' m' l'
         | Unwound => hbany h' m' l /\ faulty
         end.
  Proof.
    intros S H. apply hbany_b in H as (b & M & L & Sh). destruct (b_insert_any bor cmp N HN b l k v Sh) as (b' & r & l' & Eb & Sh' & X).
    destruct (hb_insert_ok bor cmp N bomb h m b k v b' _ O L S M Eb) as (h' & m' & o & E & S1 & F1 & _ & P).
    exists h', m', o. split; auto. split; auto. split; auto. destruct o.
    - destruct P as [-> P]. exists l'. split; auto. eapply hbm_any; eauto.
    - destruct P as [P Bb]. split; auto. eapply hbm_any; eauto.
  Qed.
  Lemma get_mut_a (h : heap) m l q w O : sound h (olist (hb_root m) ++ O) -> hbany h m l ->
    exists h' m' o, hb_get_mut bor cmp bomb h m q w = Ok (h', m', o) /\ sound h' (olist (hb_root m') ++ O) /\ frame O h h'
      /\ match o with
         | Done x => exists l', any_get_mut bor cmp q w l l' x /\ hbany h' m' l'
         | Unwound => hbany h' m' l /\ faulty
         end.
  Proof.
    intros S H. apply hbany_b in H as (b & M & L & Sh). destruct (b_get_mut_any bor cmp N HN b l q w Sh) as (b' & r & l' & Eb & Sh' & X).
    destruct (hb_get_mut_ok bor cmp bomb h m b q w O L S M) as (h' & m' & o & E & S1 & F1 & _ & P). rewrite Eb in P. cbn [fst snd] in P.
    exists h', m', o. split; auto. split; auto. split; auto. destruct o.
    - destruct P as [-> P]. exists l'. split; auto. eapply hbm_any; eauto.
    - destruct P as [P Bb]. split; auto. eapply hbm_any; eauto.
  Qed.

  Lemma left_spoilt_a (h' : heap) m' b l : b_any N b l -> left_over h' m' b -> spoilt h' m' l.
  Proof.
    intros Sh (t0 & t1 & d & Er & M & L0 & L1 & Sb). apply (any_valid N) in Sh as [(_ & Hl & _) <-].
    exists t1, d. split; [apply read_iff; now rewrite <- Hl|]. split; auto. unfold contents. now rewrite Er.
  Qed.
  Lemma remove_a (h : heap) m l q O : sound h (olist (hb_root m) ++ O) -> hbany h m l ->
    exists h' m' o, hb_remove bor cmp N bomb h m q = Ok (h', m', o) /\ sound h' (olist (hb_root m') ++ O) /\ frame O h h'
      /\ match o with
         | Done x => exists l', any_remove_val bor cmp q l l' x /\ hbany h' m' l'
         | Unwound => spoilt h' m' l /\ faulty
         end.
  Proof.
    intros S H. apply hbany_b in H as (b & M & L & Sh). destruct (b_remove_any bor cmp N HN b l q Sh) as (b' & r & l' & Eb & Sh' & X).
    destruct (hb_remove_ok bor cmp N bomb h m b q b' _ O L S M Eb) as (h' & m' & o & E & S1 & F1 & _ & P).
    exists h', m', o. split; auto. split; auto. split; auto. destruct o.
    - destruct P as [-> P]. exists l'. split; auto. eapply hbm_any; eauto.
    - destruct P as [P Bb]. split; auto. eapply left_spoilt_a; eauto.
  Qed.
  Lemma pop_first_a (h : heap) m l O : sound h (olist (hb_root m) ++ O) -> hbany h m l ->
    exists h' m' o, hb_pop_first N bomb h m = Ok (h', m', o) /\ sound h' (olist (hb_root m') ++ O) /\ frame O h h'
      /\ match o with
         | Done x => x = s_first l /\ hbany h' m' (tl l)
         | Unwound => spoilt h' m' l /\ faulty
         end.
  Proof.
    intros S H. apply hbany_b in H as (b & M & L & Sh). destruct (b_pops_any N HN b l Sh) as [(b' & Eb & Sh') _].
    destruct (hb_pop_first_ok N bomb h m b b' _ O L S M Eb) as (h' & m' & o & E & S1 & F1 & _ & P).
    exists h', m', o. split; auto. split; auto. split; auto. destruct o.
    - destruct P as [-> P]. split; auto. eapply hbm_any; eauto.
    - destruct P as [P Bb]. split; auto. eapply left_spoilt_a; eauto.
  Qed.
  Lemma pop_last_a (h : heap) m l O : sound h (olist (hb_root m) ++ O) -> hbany h m l ->
    exists h' m' o, hb_pop_last N bomb h m = Ok (h', m', o) /\ sound h' (olist (hb_root m') ++ O) /\ frame O h h'
      /\ match o with
         | Done x => x = s_last l /\ hbany h' m' (removelast l)
         | Unwound => spoilt h' m' l /\ faulty
         end.
  Proof.
    intros S H. apply hbany_b in H as (b & M & L & Sh). destruct (b_pops_any N HN b l Sh) as [_ (b' & Eb & Sh')].
    destruct (hb_pop_last_ok N bomb h m b b' _ O L S M Eb) as (h' & m' & o & E & S1 & F1 & _ & P).
    exists h', m', o. split; auto. split; auto. split; auto. destruct o.
    - destruct P as [-> P]. split; auto. eapply hbm_any; eauto.
    - destruct P as [P Bb]. split; auto. eapply left_spoilt_a; eauto.
  Qed.

  Lemma clone_a (h : heap) m l O : sound h (olist (hb_root m) ++ O) -> hbany h m l ->
    exists h', hb_clone h m = Ok (h', m) /\ sound h' (olist (hb_root m) ++ olist (hb_root m) ++ O)
      /\ frame (olist (hb_root m) ++ O) h h' /\ hbany h' m l /\ clones h' = clones h.
  Proof.
    intros S H. apply hbany_b in H as (b & M & _ & A). destruct (hb_clone_ok h m b O S M) as (h' & E & S1 & F1 & M1 & C1).
    exists h'. split; auto. split; auto. split; auto. split; auto. eapply hbm_any; eauto.
  Qed.

  Lemma extend_a ps : forall (h : heap) m l O, sound h (olist (hb_root m) ++ O) -> hbany h m l ->
    exists h' m' o, hb_extend bor cmp N bomb h m ps = Ok (h', m', o) /\ sound h' (olist (hb_root m') ++ O) /\ frame O h h'
      /\ match o with
         | Done _ => exists l', any_extend bor cmp ps l l' /\ hbany h' m' l'
         | Unwound => (exists done rest l', ps = done ++ rest /\ any_extend bor cmp done l l' /\ hbany h' m' l') /\ faulty
         end.
  Proof.
    induction ps as [|[k v] ps IH]; intros h m l O S H; cbn [hb_extend].
    - eexists _, _, _. split; [reflexivity|]. split; auto. split; [apply frame_refl|]. exists l. cbn [any_extend]. auto.
    - destruct (insert_a h m l k v O S H) as (h1 & m1 & o & E & S1 & F1 & P). rewrite E. cbn [bind]. destruct o as [x|].
      + destruct P as (l1 & X & P). destruct (IH h1 m1 _ O S1 P) as (h2 & m2 & o2 & E2 & S2 & F2 & P2). rewrite E2.
        eexists _, _, _. split; [reflexivity|]. split; auto. split; [eapply frame_trans; eauto|]. destruct o2.
        * destruct P2 as (l' & X2 & P2). exists l'. split; auto. cbn [any_extend]. eauto.
        * destruct P2 as [(dn & rest & l' & -> & X2 & P2) Bb]. split; auto. exists ((k, v) :: dn), rest, l'. split; [reflexivity|]. split; [|assumption]. cbn [any_extend]. eauto.
      + destruct P as [P Bb]. eexists _, _, _. split; [reflexivity|]. split; auto. split; auto. split; auto. exists [], ((k, v) :: ps), l. cbn [any_extend]. auto.
  Qed.
  Lemma from_iter_a (h : heap) ps O : sound h O ->
    exists h' o, hb_from_iter bor cmp N bomb h ps = Ok (h', o) /\ frame O h h'
      /\ match o with
         | Done m => sound h' (olist (hb_root m) ++ O) /\ exists l', any_extend bor cmp ps [] l' /\ hbany h' m l'
         | Unwound => sound h' O /\ faulty
         end.
  Proof.
    intros S. unfold hb_from_iter. destruct (extend_a ps h hb_new [] O S (hbany_new h)) as (h1 & m1 & o & E & S1 & F1 & P).
    rewrite E. cbn [bind]. destruct o as [[]|].
    - eexists _, _. split; [reflexivity|]. auto.
    - destruct (hb_drop_ok h1 m1 O S1) as (h2 & E2 & S2 & F2 & _). rewrite E2. cbn [bind]. eexists _, _. split; [reflexivity|].
      split; [eapply frame_trans; eauto|]. destruct P. auto.
  Qed.
  Lemma into_iter_a (h : heap) m l O : sound h (olist (hb_root m) ++ O) -> hbany h m l ->
    exists h' it, hb_into_iter h m = Ok (h', it) /\ sound h' (wps (hi_work it) ++ O) /\ frame O h h' /\ hi_at h' it l /\ clones h' = clones h.
  Proof.
    intros S H. apply hbany_b in H as (b & [El D] & _ & A). apply (any_valid N) in A as [Va <-]. destruct (iter_start nob noc N HN b Va) as (W & Dn & Ln & _).
    destruct Va as (_ & Lv & _). unfold hb_into_iter, bt_iter in *.
    destruct (hb_root m) as [a|], (bm_root b) as [t|] eqn:Er; cbn [opt_ns bi_work bi_len] in *; try contradiction.
    - destruct (w_try_unwrap_ok h h [] a t [] O) as (h1 & w & E & S1 & Wr & _ & C1); auto. { now apply sess_start. }
      rewrite E. cbn [bind]. apply sess_end in S1 as [S1 F1]. eexists _, _. split; [reflexivity|]. cbn [hi_work hi_len flat_map].
      split; [exact S1|]. split; [exact F1|]. split; [|exact C1]. exists [g_make t]. cbn [hi_work hi_len].
      split; [now repeat constructor|]. split; [exact W|]. split; [exact Dn|]. congruence.
    - eexists _, _. split; [reflexivity|]. cbn [hi_work hi_len flat_map]. split; [exact S|]. split; [apply frame_refl|]. split; [|auto].
      exists []. cbn [hi_work hi_len]. split; [constructor|]. split; [constructor|]. split; [exact Dn|]. congruence.
  Qed.

  Lemma into_calls_a (h : heap) m l cs O : sound h (olist (hb_root m) ++ O) -> hbany h m l ->
    exists h' o es, hb_into_calls bomb h m cs = Ok (h', o) /\ sound h' O /\ frame O h h'
      /\ clones h' = rev (singles es) ++ clones h /\ sub es (yielded (s_ends cs l))
      /\ match o with Done rs => rs = s_ends cs l | Unwound => faulty end.
  Proof.
    intros S H. unfold hb_into_calls. destruct (into_iter_a h m l O S H) as (h1 & it & E & S1 & F1 & A1 & C1). rewrite E. cbn [bind].
    destruct (run_ends_s N HN bomb cs h1 it l O S1 A1) as (h2 & it2 & o & es & E2 & S2 & F2 & C2 & Sb & P). rewrite E2. cbn [bind].
    destruct (hi_drop_s h2 it2 O S2) as (h3 & E3 & S3 & F3 & C3). rewrite E3. cbn [bind]. eexists _, _, es. split; [reflexivity|]. split; auto.
    split; [eapply frame_trans; [eapply frame_trans; eauto|eauto]|]. split; [congruence|]. auto.
  Qed.

  (** ** [append] *)
  Lemma extend_iter_a l : forall fuel (h : heap) m it la O, length l < fuel -> sound h (wps (hi_work it) ++ olist (hb_root m) ++ O) ->
    hi_at h it l -> hbany h m la ->
    exists h' m' o, h_extend_iter bor cmp N bomb fuel h m it = Ok (h', m', o) /\ sound h' (olist (hb_root m') ++ O) /\ frame O h h'
      /\ match o with
         | Done _ => exists l', any_extend bor cmp l la l' /\ hbany h' m' l'
         | Unwound => (exists done rest l', l = done ++ rest /\ any_extend bor cmp done la l' /\ hbany h' m' l') /\ faulty
         end.
  Proof.
    induction l as [|[k v] l IH]; intros [|fuel] h m it la O Hf S At Sh; try (cbn in Hf; lia); cbn [h_extend_iter].
    - destruct (next_s h it _ _ S At) as (h1 & it1 & o & E & S1 & F1 & _ & P). rewrite E. cbn [bind].
      destruct o as [x|]; [|destruct P; congruence]. destruct P as [-> P]. cbn [hd_error].
      destruct (hi_drop_s h1 it1 _ S1) as (h2 & E2 & S2 & F2 & _). rewrite E2. cbn [bind]. eexists _, _, _. split; [reflexivity|]. split; auto.
      pose proof (frame_trans _ _ _ _ F1 F2) as F. split; [eapply frame_r; eauto|]. exists la. split; [reflexivity|].
      eapply hbany_keep; [eapply keep_l; exact F|apply incl_refl|exact Sh].
    - destruct (next_s h it _ _ S At) as (h1 & it1 & o & E & S1 & F1 & _ & P). rewrite E. cbn [bind]. destruct o as [x|].
      + destruct P as [-> P]. cbn [hd_error tl] in *. assert (Sh1 : hbany h1 m la) by (eapply hbany_keep; [eapply keep_l; exact F1|apply incl_refl|exact Sh]).
        apply wf_swap in S1. destruct (insert_a h1 m la k v _ S1 Sh1) as (h2 & m2 & o & E2 & S2 & F2 & P2). rewrite E2. cbn [bind].
        apply wf_swap in S2. pose proof (frame_trans _ _ _ _ (frame_r _ _ _ _ F1) (frame_r _ _ _ _ F2)) as F. destruct o as [x|].
        * destruct P2 as (l1 & X & P2). assert (P' : hi_at h2 it1 l) by (eapply hi_keep; [eapply keep_l; exact F2|apply incl_refl|exact P]).
          assert (Hf' : length l < fuel) by (cbn in Hf; lia).
          destruct (IH fuel h2 m2 it1 _ O Hf' S2 P' P2) as (h3 & m3 & o & E3 & S3 & F3 & P3).
          rewrite E3. eexists _, _, _. split; [reflexivity|]. split; auto. split; [eapply frame_trans; eauto|]. destruct o.
          -- destruct P3 as (l' & X3 & P3). exists l'. split; auto. cbn [any_extend]. eauto.
          -- destruct P3 as [(dn & rest & l' & -> & X3 & P3) Bb]. split; auto. exists ((k, v) :: dn), rest, l'. split; [reflexivity|]. split; [|assumption]. cbn [any_extend]. eauto.
        * destruct P2 as [P2 Bb]. destruct (hi_drop_s h2 it1 _ S2) as (h3 & E3 & S3 & F3 & _). rewrite E3. cbn [bind].
          eexists _, _, _. split; [reflexivity|]. split; auto. split; [eapply frame_trans; [exact F|eapply frame_r; eauto]|]. split; auto.
          exists [], ((k, v) :: l), la. split; auto. split; [reflexivity|]. eapply hbany_keep; [eapply keep_l; exact F3|apply incl_refl|exact P2].
      + destruct P as [_ Bb]. destruct (hi_drop_s h1 it1 _ S1) as (h2 & E2 & S2 & F2 & _). rewrite E2. cbn [bind]. eexists _, _, _. split; [reflexivity|]. split; auto.
        pose proof (frame_trans _ _ _ _ F1 F2) as F. split; [eapply frame_r; eauto|]. split; auto. exists [], ((k, v) :: l), la. split; auto. split; [reflexivity|].
        eapply hbany_keep; [eapply keep_l; exact F|apply incl_refl|exact Sh].
  Qed.
  Lemma append_a (h : heap) a b la lb O : sound h (olist (hb_root a) ++ olist (hb_root b) ++ O) -> hbany h a la -> hbany h b lb ->
    exists h' a' o, hb_append bor cmp N bomb h a b = Ok (h', a', hb_new, o) /\ sound h' (olist (hb_root a') ++ O) /\ frame O h h'
      /\ match o with
         | Done _ => exists l', any_extend bor cmp lb la l' /\ hbany h' a' l'
         | Unwound => (exists done rest l', lb = done ++ rest /\ any_extend bor cmp done la l' /\ hbany h' a' l') /\ faulty
         end.
  Proof.
    intros S Ha Hb. unfold hb_append. apply wf_swap in S. destruct (into_iter_a h b lb _ S Hb) as (h1 & it & E & S1 & F1 & A1 & _). rewrite E. cbn [bind].
    pose proof (hbany_len _ _ _ Hb) as Ll. destruct (extend_iter_a lb (Datatypes.S (hb_len b)) h1 a it la O) as (h2 & a' & o & E2 & S2 & F2 & P); auto; [lia| |].
    { eapply hbany_keep; [eapply keep_l; exact F1|apply incl_refl|exact Ha]. }
    rewrite E2. cbn [bind]. eexists _, _, _. split; [reflexivity|]. split; auto. split; auto. eapply frame_trans; [eapply frame_r; eauto|auto].
  Qed.

  (** ** [retain] *)
  Section Retain.
    Context {S' : Type} (f : S' -> K -> V -> S' * V * bool) (fbomb : S' -> K -> V -> bool).
    Notation kept := (BTreeHeapProofs7.kept f).
    Notation fails := (BTreeHeapProofs7.fails bomb fbomb).
    Lemma retain_iter_a l : forall fuel (h : heap) m it la s O, length l < fuel -> sound h (wps (hi_work it) ++ olist (hb_root m) ++ O) ->
      hi_at h it l -> hbany h m la ->
      exists h' o, h_retain_iter bor cmp N bomb f fbomb fuel h m it s = Ok (h', o) /\ frame O h h'
        /\ match o with
           | Done (m', s') => sound h' (olist (hb_root m') ++ O) /\ (exists l', any_extend bor cmp (kept s l) la l' /\ hbany h' m' l') /\ s' = snd (run_calls f s l)
           | Unwound => sound h' O /\ fails
           end.
    Proof.
      assert (Bail : forall (h h0 : heap) it1 m O, sound h (wps (hi_work it1) ++ olist (hb_root m) ++ O) -> frame O h0 h -> fails ->
        exists h' o, (h1 <- hi_drop h it1;; h2 <- hb_drop h1 m;; Ok (h2, @Unwound (hbmap * S'))) = Ok (h', o) /\ frame O h0 h'
        /\ match o with
           | Done (m', s') => False
           | Unwound => sound h' O /\ fails
           end).
      { intros h h0 it1 m O S F Bb. destruct (hi_drop_s h it1 _ S) as (h1 & E1 & S1 & F1 & _). rewrite E1. cbn [bind].
        destruct (hb_drop_ok h1 m O S1) as (h2 & E2 & S2 & F2 & _). rewrite E2. cbn [bind]. eexists _, _. split; [reflexivity|]. split; auto.
        eapply frame_trans; [exact F|]. eapply frame_trans; [eapply frame_r; exact F1|auto]. }
      induction l as [|[k v] l IH]; intros [|fuel] h m it la s O Hf S At Sh; try (cbn in Hf; lia); cbn [h_retain_iter].
      - destruct (next_s h it _ _ S At) as (h1 & it1 & o & E & S1 & F1 & _ & P). rewrite E. cbn [bind].
        destruct o as [x|]; [|destruct P; congruence]. destruct P as [-> P]. cbn [hd_error].
        destruct (hi_drop_s h1 it1 _ S1) as (h2 & E2 & S2 & F2 & _). rewrite E2. cbn [bind]. eexists _, _. split; [reflexivity|].
        pose proof (frame_trans _ _ _ _ F1 F2) as F. split; [eapply frame_r; eauto|]. split; auto. split; auto. exists la. split; [reflexivity|].
        eapply hbany_keep; [eapply keep_l; exact F|apply incl_refl|exact Sh].
      - destruct (next_s h it _ _ S At) as (h1 & it1 & o & E & S1 & F1 & _ & P). rewrite E. cbn [bind]. destruct o as [x|].
        + destruct P as [-> P]. cbn [hd_error tl] in *. assert (Sh1 : hbany h1 m la) by (eapply hbany_keep; [eapply keep_l; exact F1|apply incl_refl|exact Sh]).
          assert (Hf' : length l < fuel) by (cbn in Hf; lia). rewrite kept_cons, calls_cons. destruct (fbomb s k v) eqn:Fb.
          { destruct (Bail h1 h it1 m O S1 (frame_r _ _ _ _ F1)) as (h2 & o & E2 & F2 & P2); [right; eauto|]. rewrite E2. eexists _, _. split; [reflexivity|]. split; auto.
            destruct o as [[]|]; [contradiction|auto]. }
          destruct (f s k v) as [[s1 v1] [|]].
          * apply wf_swap in S1. destruct (insert_a h1 m la k v1 _ S1 Sh1) as (h2 & m2 & o & E2 & S2 & F2 & P2). rewrite E2. cbn [bind].
            apply wf_swap in S2. pose proof (frame_trans _ _ _ _ (frame_r _ _ _ _ F1) (frame_r _ _ _ _ F2)) as F. destruct o as [x|].
            -- destruct P2 as (l1 & X & P2). assert (P' : hi_at h2 it1 l) by (eapply hi_keep; [eapply keep_l; exact F2|apply incl_refl|exact P]).
               destruct (IH fuel h2 m2 it1 _ s1 O Hf' S2 P' P2) as (h3 & o & E3 & F3 & P3).
               rewrite E3. eexists _, _. split; [reflexivity|]. split; [eapply frame_trans; eauto|]. destruct o as [[]|]; auto.
               destruct P3 as (S3 & (l' & X3 & P3) & E4). split; auto. split; auto. exists l'. split; auto. cbn [any_extend]. eauto.
            -- destruct P2 as [_ Bb]. destruct (Bail h2 h it1 m2 O S2 F) as (h3 & o & E3 & F3 & P3); [now left|]. rewrite E3. eexists _, _. split; [reflexivity|]. split; auto.
               destruct o as [[]|]; [contradiction|auto].
          * destruct (IH fuel h1 m it1 _ s1 O Hf' S1 P Sh1) as (h3 & o & E3 & F3 & P3).
            rewrite E3. eexists _, _. split; [reflexivity|]. split; [eapply frame_trans; [eapply frame_r; exact F1|auto]|]. destruct o as [[]|]; auto.
        + destruct P as [_ Bb]. destruct (Bail h1 h it1 m O S1 (frame_r _ _ _ _ F1)) as (h2 & o & E2 & F2 & P2); [now left|]. rewrite E2. eexists _, _. split; [reflexivity|]. split; auto.
          destruct o as [[]|]; [contradiction|auto].
    Qed.
    Lemma retain_a (h : heap) m l s O : sound h (olist (hb_root m) ++ O) -> hbany h m l ->
      exists h' m' o, hb_retain bor cmp N bomb f fbomb h m s = Ok (h', m', o) /\ sound h' (olist (hb_root m') ++ O) /\ frame O h h'
        /\ match o with
           | Done s' => (exists l', any_extend bor cmp (kept s l) [] l' /\ hbany h' m' l') /\ s' = snd (run_calls f s l)
           | Unwound => hbany h' m' [] /\ fails
           end.
    Proof.
      intros S H. unfold hb_retain. destruct (into_iter_a h m l O S H) as (h1 & it & E & S1 & F1 & A1 & _). rewrite E. cbn [bind].
      pose proof (hbany_len _ _ _ H) as Ll.
      destruct (retain_iter_a l (Datatypes.S (hb_len m)) h1 hb_new it [] s O) as (h2 & o & E2 & F2 & P); auto; [lia|apply hbany_new|].
      rewrite E2. cbn [bind]. pose proof (frame_trans _ _ _ _ F1 F2) as F. destruct o as [[m' s']|].
      - destruct P as (S2 & Sh & ->). eexists _, _, _. split; [reflexivity|]. auto.
      - destruct P as [S2 Bb]. eexists _, _, _. split; [reflexivity|]. cbn [hb_root hb_new olist app]. split; auto. split; auto. split; auto. apply hbany_new.
    Qed.
  End Retain.

  (** ** [split_off] *)
  Notation lower q := (fun e : entry => match cmp q (bor (fst e)) with Gt => true | _ => false end).
  Notation upper q := (fun e : entry => match cmp q (bor (fst e)) with Gt => false | _ => true end).
  Lemma partition_iter_a q l : forall fuel (h : heap) m1 m2 it la lb O, length l < fuel ->
    sound h (wps (hi_work it) ++ olist (hb_root m1) ++ olist (hb_root m2) ++ O) ->
    hi_at h it l -> hbany h m1 la -> hbany h m2 lb ->
    exists h' o, h_partition_iter bor cmp N bomb fuel h m1 m2 it q = Ok (h', o) /\ frame O h h'
      /\ match o with
         | Done (m1', m2') => sound h' (olist (hb_root m1') ++ olist (hb_root m2') ++ O)
             /\ (exists l1, any_extend bor cmp (filter (lower q) l) la l1 /\ hbany h' m1' l1)
             /\ (exists l2, any_extend bor cmp (filter (upper q) l) lb l2 /\ hbany h' m2' l2)
         | Unwound => sound h' O /\ faulty
         end.
  Proof.
    assert (Bail : forall (h h0 : heap) it1 m1 m2 O, sound h (wps (hi_work it1) ++ olist (hb_root m1) ++ olist (hb_root m2) ++ O) -> frame O h0 h -> faulty ->
      exists h' o, (h1 <- hi_drop h it1;; h2 <- hb_drop h1 m1;; h3 <- hb_drop h2 m2;; Ok (h3, @Unwound (hbmap * hbmap))) = Ok (h', o) /\ frame O h0 h'
      /\ match o with
         | Done (m1', m2') => False
         | Unwound => sound h' O /\ faulty
         end).
    { intros h h0 it1 m1 m2 O S F Bb. destruct (hi_drop_s h it1 _ S) as (h1 & E1 & S1 & F1 & _). rewrite E1. cbn [bind].
      destruct (hb_drop_ok h1 m1 _ S1) as (h2 & E2 & S2 & F2 & _). rewrite E2. cbn [bind].
      destruct (hb_drop_ok h2 m2 _ S2) as (h3 & E3 & S3 & F3 & _). rewrite E3. cbn [bind]. eexists _, _. split; [reflexivity|]. split; auto.
      eapply frame_trans; [exact F|]. eapply frame_trans; [eapply frame_r, frame_r; exact F1|]. eapply frame_trans; [eapply frame_r; exact F2|auto]. }
    induction l as [|[k v] l IH]; intros [|fuel] h m1 m2 it la lb O Hf S At Sa Sb; try (cbn in Hf; lia); cbn [h_partition_iter].
    - destruct (next_s h it _ _ S At) as (h1 & it1 & o & E & S1 & F1 & _ & P). rewrite E. cbn [bind].
      destruct o as [x|]; [|destruct P; congruence]. destruct P as [-> P]. cbn [hd_error].
      destruct (hi_drop_s h1 it1 _ S1) as (h2 & E2 & S2 & F2 & _). rewrite E2. cbn [bind]. eexists _, _. split; [reflexivity|].
      pose proof (frame_trans _ _ _ _ F1 F2) as F. destruct (frame_rr _ _ _ _ _ F) as (F' & Ka & Kb). split; auto. split; auto.
      split; [exists la|exists lb]; (split; [reflexivity|]); [exact (hbany_keep _ h h2 m1 la Ka (incl_refl _) Sa)|exact (hbany_keep _ h h2 m2 lb Kb (incl_refl _) Sb)].
    - destruct (next_s h it _ _ S At) as (h1 & it1 & o & E & S1 & F1 & _ & P). rewrite E. cbn [bind]. destruct (frame_rr _ _ _ _ _ F1) as (F1' & Ka & Kb).
      destruct o as [x|].
      2:{ destruct P as [_ Bb]. destruct (Bail h1 h it1 m1 m2 O S1 F1' Bb) as (h2 & o & E2 & F2 & P2). rewrite E2. eexists _, _. split; [reflexivity|]. split; auto.
          destruct o as [[]|]; [contradiction|auto]. }
      destruct P as [-> P]. cbn [hd_error tl] in *.
      pose proof (hbany_keep _ h h1 m1 la Ka (incl_refl _) Sa) as Sa1.
      pose proof (hbany_keep _ h h1 m2 lb Kb (incl_refl _) Sb) as Sb1.
      destruct (sound3 _ _ _ _ _ S1) as [Sx Sy]. assert (Hf' : length l < fuel) by (cbn in Hf; lia). cbn [filter fst].
      destruct (cmp q (bor k)) eqn:Ec.
      3:{ destruct (insert_a h1 m1 la k v _ Sx Sa1) as (h2 & m1' & o & E2 & S2 & F2 & P2). rewrite E2. cbn [bind].
          destruct (frame_rr _ _ _ _ _ F2) as (F2' & Kw & Kb2). pose proof (frame_trans _ _ _ _ F1' F2') as F.
          assert (S2' : sound h2 (wps (hi_work it1) ++ olist (hb_root m1') ++ olist (hb_root m2) ++ O)) by now apply wf_swap.
          destruct o as [x|].
          - destruct P2 as (l1 & X & P2). assert (P' : hi_at h2 it1 l) by (eapply hi_keep; [exact Kw|apply incl_refl|exact P]).
            assert (Sb2 : hbany h2 m2 lb) by (eapply hbany_keep; [exact Kb2|apply incl_refl|exact Sb1]).
            destruct (IH fuel h2 m1' m2 it1 _ lb O Hf' S2' P' P2 Sb2) as (h3 & o & E3 & F3 & P3).
            rewrite E3. eexists _, _. split; [reflexivity|]. split; [eapply frame_trans; eauto|]. destruct o as [[]|]; auto.
            destruct P3 as (S3 & (l1' & X1 & P3) & P4). split; auto. split; auto. exists l1'. split; auto. cbn [any_extend]. eauto.
          - destruct P2 as [_ Bb]. destruct (Bail h2 h it1 m1' m2 O S2' F Bb) as (h3 & o & E3 & F3 & P3). rewrite E3. eexists _, _. split; [reflexivity|]. split; auto.
            destruct o as [[]|]; [contradiction|auto]. }
      all: destruct (insert_a h1 m2 lb k v _ Sy Sb1) as (h2 & m2' & o & E2 & S2 & F2 & P2); rewrite E2; cbn [bind];
          destruct (frame_rr _ _ _ _ _ F2) as (F2' & Kw & Ka2); pose proof (frame_trans _ _ _ _ F1' F2') as F;
          assert (S2' : sound h2 (wps (hi_work it1) ++ olist (hb_root m1) ++ olist (hb_root m2') ++ O)) by (apply sound3 in S2 as [_ S2]; apply sound3 in S2 as [_ S2]; exact S2);
          destruct o as [x|];
          [ destruct P2 as (l1 & X & P2); assert (P' : hi_at h2 it1 l) by (eapply hi_keep; [exact Kw|apply incl_refl|exact P]);
            assert (Sa2 : hbany h2 m1 la) by (eapply hbany_keep; [exact Ka2|apply incl_refl|exact Sa1]);
            destruct (IH fuel h2 m1 m2' it1 la _ O Hf' S2' P' Sa2 P2) as (h3 & o & E3 & F3 & P3);
            rewrite E3; eexists _, _; split; [reflexivity|]; split; [eapply frame_trans; eauto|]; destruct o as [[]|]; auto;
            destruct P3 as (S3 & P4 & (l1' & X1 & P3)); split; auto; split; auto; exists l1'; split; auto; cbn [any_extend]; eauto
          | destruct P2 as [_ Bb]; destruct (Bail h2 h it1 m1 m2' O S2' F Bb) as (h3 & o & E3 & F3 & P3); rewrite E3; eexists _, _; split; [reflexivity|]; split; auto;
            destruct o as [[]|]; [contradiction|auto] ].
  Qed.
  Lemma split_off_a (h : heap) m l q O : sound h (olist (hb_root m) ++ O) -> hbany h m l ->
    exists h' m' o, hb_split_off bor cmp N bomb h m q = Ok (h', m', o) /\ frame O h h'
      /\ match o with
         | Done m2 => sound h' (olist (hb_root m') ++ olist (hb_root m2) ++ O)
             /\ (exists l1, any_extend bor cmp (filter (lower q) l) [] l1 /\ hbany h' m' l1)
             /\ (exists l2, any_extend bor cmp (filter (upper q) l) [] l2 /\ hbany h' m2 l2)
         | Unwound => sound h' (olist (hb_root m') ++ O) /\ hbany h' m' [] /\ faulty
         end.
  Proof.
    intros S H. unfold hb_split_off. destruct (into_iter_a h m l O S H) as (h1 & it & E & S1 & F1 & A1 & _). rewrite E. cbn [bind].
    pose proof (hbany_len _ _ _ H) as Ll.
    destruct (partition_iter_a q l (Datatypes.S (hb_len m)) h1 hb_new hb_new it [] [] O) as (h2 & o & E2 & F2 & P); auto; [lia|apply hbany_new..|].
    rewrite E2. cbn [bind]. pose proof (frame_trans _ _ _ _ F1 F2) as F. destruct o as [[m1 m2]|].
    - destruct P as (S2 & Sh1 & Sh2). eexists _, _, _. split; [reflexivity|]. auto.
    - destruct P as [S2 Bb]. eexists _, _, _. split; [reflexivity|]. split; auto. cbn [hb_root hb_new olist app]. split; auto. split; auto. apply hbany_new.
  Qed.
End AnyLists.
