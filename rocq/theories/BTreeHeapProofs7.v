(** Calls on shared [BTreeMap]s, in terms of the entries that they show. *)
From Coq Require Import List PeanoNat Bool Lia.
From Verif Require Import Base Spec MapSpec BTreeSpec SpecFacts Vec Heap HeapProofs BTreeModel BTreeProofs BTreeProofs2 BTreeIterModel
  BTreeIterProofs BTreeIterProofs2 BTreeHistModel BTreeHistProofs BTreeShows BTreeHeapModel BTreeHeapSpec BTreeHeapHistSpec
  BTreeHeapProofs BTreeHeapProofs2 BTreeHeapProofs3 BTreeHeapProofs4 BTreeHeapProofs5 BTreeHeapProofs6.
From Verif Require AvlHeapSpec AvlHeapProofs AvlHistProofs.
Import ListNotations.
Local Open Scope nat_scope.

Section Lists.
  Context {K V Q : Type} (bor : K -> Q) (cmp : Q -> Q -> comparison) (laws : order_laws cmp).
  Context (N : nat) (HN : 1 <= N).
  Variable bomb : nat -> bool.
  Notation pay := (list (K * V)).
  Notation entry := (K * V)%type.
  Notation heap := (heap pay).
  Notation bmap := (bt_map K V).
  Notation hbshows := (hbshows bor cmp N).
  Notation valid := (@valid K V Q bor cmp N).
  Notation wps := (flat_map (@w_ptrs K V)).
  Notation asc := (@ascending K V Q bor cmp).
  Definition faulty : Prop := exists n, bomb n = true.

  Lemma hbshows_iff (h : heap) m l : hbshows h m l <-> exists b, hbm h m b /\ valid b /\ contents b = l.
  Proof.
    unfold BTreeHeapHistSpec.hbshows. split; intros (b & H1 & H2); exists b.
    - apply read_iff in H1. apply (b_shows_iff bor cmp N laws HN) in H2. auto.
    - split; [now apply read_iff|]. now apply (b_shows_iff bor cmp N laws HN).
  Qed.
  Lemma hbshows_b (h : heap) m l : hbshows h m l -> exists b, hbm h m b /\ loose_map b /\ b_shows bor cmp N b l.
  Proof.
    intros (b & H1 & H2). exists b. split; [now apply read_iff|]. split; auto.
    apply (b_shows_iff bor cmp N laws HN) in H2 as [H2 _]. eapply valid_loose; eauto.
  Qed.
  Lemma hbm_shows (h : heap) m b l : hbm h m b -> b_shows bor cmp N b l -> hbshows h m l.
  Proof. intros H1 H2. exists b. split; auto. now apply read_iff. Qed.
  Lemma hbshows_asc (h : heap) m l : hbshows h m l -> asc l /\ hb_len m = length l.
  Proof. intros H. apply hbshows_iff in H as (b & [E _] & (A & L & _) & <-). split; auto. congruence. Qed.
  Lemma hbshows_keep O (h h' : heap) m l : keep O h h' -> incl (olist (hb_root m)) O -> hbshows h m l -> hbshows h' m l.
  Proof. intros Kp I H. apply hbshows_iff in H as (b & M & P). apply hbshows_iff. exists b. split; auto. eapply hbm_keep; eauto. Qed.
  Lemma hbshows_new (h : heap) : hbshows h hb_new [].
  Proof. eapply (hbm_shows h hb_new b_new); [split; exact I || reflexivity|now apply b_shows_new]. Qed.

  (** ** Single calls *)
  Lemma insert_s (h : heap) m l k v O : sound h (olist (hb_root m) ++ O) -> hbshows h m l ->
    exists h' m' o, hb_insert bor cmp N bomb h m k v = Ok (h', m', o) /\ sound h' (olist (hb_root m') ++ O) /\ frame O h h'
      /\ match o with
         | Done x => x = s_get bor cmp (bor k) l /\ hbshows h' m' (s_insert bor cmp k v l)
         | Unwound => hbshows h' m' l /\ faulty
         end.
  Proof.
    intros S H. apply hbshows_b in H as (b & M & L & Sh). destruct (b_insert_l bor cmp N laws HN b l k v Sh) as (b' & Eb & Sh').
    destruct (hb_insert_ok bor cmp N bomb h m b k v b' _ O L S M Eb) as (h' & m' & o & E & S1 & F1 & _ & P).
    exists h', m', o. split; auto. split; auto. split; auto. destruct o.
    - destruct P as [-> P]. split; auto. eapply hbm_shows; eauto.
    - destruct P as [P Bb]. split; auto. eapply hbm_shows; eauto.
  Qed.
  Lemma get_mut_s (h : heap) m l q w O : sound h (olist (hb_root m) ++ O) -> hbshows h m l ->
    exists h' m' o, hb_get_mut bor cmp bomb h m q w = Ok (h', m', o) /\ sound h' (olist (hb_root m') ++ O) /\ frame O h h'
      /\ match o with
         | Done x => x = s_get bor cmp q l /\ hbshows h' m' (s_update bor cmp q w l)
         | Unwound => hbshows h' m' l /\ faulty
         end.
  Proof.
    intros S H. apply hbshows_b in H as (b & M & L & Sh). destruct (b_get_mut_l bor cmp N laws HN b l q w Sh) as (b' & Eb & Sh').
    destruct (hb_get_mut_ok bor cmp bomb h m b q w O L S M) as (h' & m' & o & E & S1 & F1 & _ & P). rewrite Eb in P. cbn [fst snd] in P.
    exists h', m', o. split; auto. split; auto. split; auto. destruct o.
    - destruct P as [-> P]. split; auto. eapply hbm_shows; eauto.
    - destruct P as [P Bb]. split; auto. eapply hbm_shows; eauto.
  Qed.

  (** What is left of a map after a removal that unwound: reading it yields some of the entries in their
      order, all leaves are at one depth, no node has too many children; [len()] still counts all. *)
  Definition spoilt (h : heap) (m : hbmap) (l : list entry) : Prop :=
    exists t d, hb_read h m = Ok (BMap (length l) (Some t)) /\ loose d t /\ sub (flat t) l.

  Lemma left_spoilt (h' : heap) m' b l : b_shows bor cmp N b l -> left_over h' m' b -> spoilt h' m' l.
  Proof.
    intros Sh (t0 & t1 & d & Er & M & L0 & L1 & Sb). apply (b_shows_iff bor cmp N laws HN) in Sh as [(_ & Hl & _) <-].
    exists t1, d. split; [apply read_iff; now rewrite <- Hl|]. split; auto. unfold contents. now rewrite Er.
  Qed.

  Lemma remove_s (h : heap) m l q O : sound h (olist (hb_root m) ++ O) -> hbshows h m l ->
    exists h' m' o, hb_remove bor cmp N bomb h m q = Ok (h', m', o) /\ sound h' (olist (hb_root m') ++ O) /\ frame O h h'
      /\ match o with
         | Done x => x = s_get bor cmp q l /\ hbshows h' m' (s_remove bor cmp q l)
         | Unwound => spoilt h' m' l /\ faulty
         end.
  Proof.
    intros S H. apply hbshows_b in H as (b & M & L & Sh). destruct (b_remove_l bor cmp N laws HN b l q Sh) as (b' & Eb & Sh').
    destruct (hb_remove_ok bor cmp N bomb h m b q b' _ O L S M Eb) as (h' & m' & o & E & S1 & F1 & _ & P).
    exists h', m', o. split; auto. split; auto. split; auto. destruct o.
    - destruct P as [-> P]. split; auto. eapply hbm_shows; eauto.
    - destruct P as [P Bb]. split; auto. eapply left_spoilt; eauto.
  Qed.
  Lemma pop_first_s (h : heap) m l O : sound h (olist (hb_root m) ++ O) -> hbshows h m l ->
    exists h' m' o, hb_pop_first N bomb h m = Ok (h', m', o) /\ sound h' (olist (hb_root m') ++ O) /\ frame O h h'
      /\ match o with
         | Done x => x = s_first l /\ hbshows h' m' (tl l)
         | Unwound => spoilt h' m' l /\ faulty
         end.
  Proof.
    intros S H. apply hbshows_b in H as (b & M & L & Sh). destruct (b_pops_l bor cmp N laws HN b l Sh) as [(b' & Eb & Sh') _].
    destruct (hb_pop_first_ok N bomb h m b b' _ O L S M Eb) as (h' & m' & o & E & S1 & F1 & _ & P).
    exists h', m', o. split; auto. split; auto. split; auto. destruct o.
    - destruct P as [-> P]. split; auto. eapply hbm_shows; eauto.
    - destruct P as [P Bb]. split; auto. eapply left_spoilt; eauto.
  Qed.
  Lemma pop_last_s (h : heap) m l O : sound h (olist (hb_root m) ++ O) -> hbshows h m l ->
    exists h' m' o, hb_pop_last N bomb h m = Ok (h', m', o) /\ sound h' (olist (hb_root m') ++ O) /\ frame O h h'
      /\ match o with
         | Done x => x = s_last l /\ hbshows h' m' (removelast l)
         | Unwound => spoilt h' m' l /\ faulty
         end.
  Proof.
    intros S H. apply hbshows_b in H as (b & M & L & Sh). destruct (b_pops_l bor cmp N laws HN b l Sh) as [_ (b' & Eb & Sh')].
    destruct (hb_pop_last_ok N bomb h m b b' _ O L S M Eb) as (h' & m' & o & E & S1 & F1 & _ & P).
    exists h', m', o. split; auto. split; auto. split; auto. destruct o.
    - destruct P as [-> P]. split; auto. eapply hbm_shows; eauto.
    - destruct P as [P Bb]. split; auto. eapply left_spoilt; eauto.
  Qed.

  Lemma clone_s (h : heap) m l O : sound h (olist (hb_root m) ++ O) -> hbshows h m l ->
    exists h', hb_clone h m = Ok (h', m) /\ sound h' (olist (hb_root m) ++ olist (hb_root m) ++ O)
      /\ frame (olist (hb_root m) ++ O) h h' /\ hbshows h' m l /\ clones h' = clones h.
  Proof.
    intros S H. apply hbshows_iff in H as (b & M & P). destruct (hb_clone_ok h m b O S M) as (h' & E & S1 & F1 & M1 & C1).
    exists h'. split; auto. split; auto. split; auto. split; auto. apply hbshows_iff. eauto.
  Qed.

  Lemma extend_s ps : forall (h : heap) m l O, sound h (olist (hb_root m) ++ O) -> hbshows h m l ->
    exists h' m' o, hb_extend bor cmp N bomb h m ps = Ok (h', m', o) /\ sound h' (olist (hb_root m') ++ O) /\ frame O h h'
      /\ match o with
         | Done _ => hbshows h' m' (s_extend bor cmp l ps)
         | Unwound => (exists done rest, ps = done ++ rest /\ hbshows h' m' (s_extend bor cmp l done)) /\ faulty
         end.
  Proof.
    induction ps as [|[k v] ps IH]; intros h m l O S H; cbn [hb_extend].
    - eexists _, _, _. split; [reflexivity|]. split; auto. split; [apply frame_refl|auto].
    - destruct (insert_s h m l k v O S H) as (h1 & m1 & o & E & S1 & F1 & P). rewrite E. cbn [bind]. destruct o as [x|].
      + destruct P as [-> P]. destruct (IH h1 m1 _ O S1 P) as (h2 & m2 & o2 & E2 & S2 & F2 & P2). rewrite E2.
        eexists _, _, _. split; [reflexivity|]. split; auto. split; [eapply frame_trans; eauto|]. destruct o2; auto.
        destruct P2 as [(dn & rest & -> & P2) Bb]. split; auto. exists ((k, v) :: dn), rest. auto.
      + destruct P as [P Bb]. eexists _, _, _. split; [reflexivity|]. split; auto. split; auto. split; auto. exists [], ((k, v) :: ps). auto.
  Qed.
  Lemma from_iter_s (h : heap) ps O : sound h O ->
    exists h' o, hb_from_iter bor cmp N bomb h ps = Ok (h', o) /\ frame O h h'
      /\ match o with
         | Done m => sound h' (olist (hb_root m) ++ O) /\ hbshows h' m (s_extend bor cmp [] ps)
         | Unwound => sound h' O /\ faulty
         end.
  Proof.
    intros S. unfold hb_from_iter. destruct (extend_s ps h hb_new [] O S (hbshows_new h)) as (h1 & m1 & o & E & S1 & F1 & P).
    rewrite E. cbn [bind]. destruct o as [[]|].
    - eexists _, _. split; [reflexivity|]. auto.
    - destruct (hb_drop_ok h1 m1 O S1) as (h2 & E2 & S2 & F2 & _). rewrite E2. cbn [bind]. eexists _, _. split; [reflexivity|].
      split; [eapply frame_trans; eauto|]. destruct P. auto.
  Qed.
  Lemma or_insert_s (h : heap) m l k v w O : sound h (olist (hb_root m) ++ O) -> hbshows h m l ->
    exists h' m' o, hb_or_insert bor cmp N bomb h m k v w = Ok (h', m', o) /\ sound h' (olist (hb_root m') ++ O) /\ frame O h h'
      /\ match o with
         | Done x => match s_get bor cmp (bor k) l with
                     | Some y => x = y /\ hbshows h' m' (s_update bor cmp (bor k) w l)
                     | None => x = v /\ hbshows h' m' (s_insert bor cmp k (w v) l)
                     end
         | Unwound => (hbshows h' m' l \/ hbshows h' m' (s_insert bor cmp k v l)) /\ faulty
         end.
  Proof.
    intros S H. pose proof (hbshows_asc _ _ _ H) as [A _]. pose proof H as H0. apply hbshows_b in H as (b & M & L & Sh). unfold hb_or_insert.
    rewrite (proj2 (read_iff h m b) M). cbn [bind]. destruct (b_lookup_l bor cmp N laws HN b l (bor k) Sh) as (_ & _ & Ec). rewrite Ec.
    rewrite (mem_find bor cmp). unfold s_get at 1. destruct (s_find bor cmp (bor k) l) as [[k0 v0]|] eqn:Ef; cbn [negb bind option_map snd].
    - destruct (get_mut_s h m l (bor k) w O S H0) as (h1 & m1 & o & E & S1 & F1 & P). rewrite E. cbn [bind]. destruct o as [x|].
      + destruct P as [-> P]. unfold s_get in *. rewrite Ef. cbn [option_map snd unwrap bind]. eexists _, _, _. split; [reflexivity|]. auto.
      + destruct P as [P Bb]. eexists _, _, _. split; [reflexivity|]. auto 10.
    - destruct (insert_s h m l k v O S H0) as (h1 & m1 & o & E & S1 & F1 & P). rewrite E. cbn [bind]. destruct o as [x|].
      2:{ destruct P as [P Bb]. eexists _, _, _. split; [reflexivity|]. auto 10. }
      destruct P as [_ P]. destruct (get_mut_s h1 m1 _ (bor k) w O S1 P) as (h2 & m2 & o & E2 & S2 & F2 & P2). rewrite E2. cbn [bind]. destruct o as [y|].
      + destruct P2 as [-> P2]. unfold s_get. rewrite (AvlMapProofs.find_insert bor cmp laws) by auto. rewrite (cmp_refl laws).
        cbn [option_map snd unwrap bind]. eexists _, _, _. split; [reflexivity|]. split; auto. split; [eapply frame_trans; eauto|]. split; auto.
        rewrite (AvlHistProofs.update_insert bor cmp laws) in P2. exact P2.
      + destruct P2 as [P2 Bb]. eexists _, _, _. split; [reflexivity|]. split; auto. split; [eapply frame_trans; eauto|]. auto.
  Qed.

  (** ** Owning iteration *)
  Definition hi_at (h : heap) (it : h_iter) (l : list entry) : Prop :=
    exists gs, Forall2 (wrel h) (hi_work it) gs /\ Forall ok2 gs /\ BTreeIterProofs.dens gs = l /\ hi_len it = length l.

  Lemma hi_keep O (h h' : heap) it l : keep O h h' -> incl (wps (hi_work it)) O -> hi_at h it l -> hi_at h' it l.
  Proof. intros Kp I (gs & F & P). exists gs. split; auto. eapply wrels_keep; eauto. Qed.

  Lemma into_iter_s (h : heap) m l O : sound h (olist (hb_root m) ++ O) -> hbshows h m l ->
    exists h' it, hb_into_iter h m = Ok (h', it) /\ sound h' (wps (hi_work it) ++ O) /\ frame O h h' /\ hi_at h' it l /\ clones h' = clones h.
  Proof.
    intros S H. apply hbshows_iff in H as (b & [El D] & Va & <-). destruct (iter_start bor cmp N HN b Va) as (W & Dn & Ln & _).
    destruct Va as (_ & Lv & _). unfold hb_into_iter, bt_iter in *.
    destruct (hb_root m) as [a|], (bm_root b) as [t|] eqn:Er; cbn [opt_ns bi_work bi_len] in *; try contradiction.
    - destruct (w_try_unwrap_ok h h [] a t [] O) as (h1 & w & E & S1 & Wr & _ & C1); auto. { now apply sess_start. }
      rewrite E. cbn [bind]. apply sess_end in S1 as [S1 F1]. eexists _, _. split; [reflexivity|]. cbn [hi_work hi_len flat_map].
      split; [exact S1|]. split; [exact F1|]. split; [|exact C1]. exists [g_make t]. cbn [hi_work hi_len].
      split; [now repeat constructor|]. split; [exact W|]. split; [exact Dn|]. congruence.
    - eexists _, _. split; [reflexivity|]. cbn [hi_work hi_len flat_map]. split; [exact S|]. split; [apply frame_refl|]. split; [|auto].
      exists []. cbn [hi_work hi_len]. split; [constructor|]. split; [constructor|]. split; [exact Dn|]. congruence.
  Qed.

  Lemma next_s (h : heap) it l O : sound h (wps (hi_work it) ++ O) -> hi_at h it l ->
    exists h' it' o, h_next bomb h it = Ok (h', it', o) /\ sound h' (wps (hi_work it') ++ O) /\ frame O h h'
      /\ (exists cs, clones h' = cs ++ clones h /\ cl_of (hd_error l) cs)
      /\ match o with
         | Done x => x = hd_error l /\ hi_at h' it' (tl l)
         | Unwound => l <> [] /\ faulty
         end.
  Proof.
    intros S (gs & F & Ok2 & <- & Hl). apply sess_start in S. pose proof Ok2 as Ok2'. apply ok2s in Ok2' as [Ok Bl].
    destruct (next_ok gs (hi_len it) Ok) as (gs' & E & Ok' & Dn & Bl').
    { rewrite Hl. destruct (BTreeIterProofs.dens gs); [easy|cbn; lia]. }
    assert (S' : sess h h [] (wps (hi_work it) ++ []) O) by (rewrite app_nil_r; exact S).
    destruct (next_heap bomb h h [] it gs _ gs' _ [] O F S' E) as (h' & it' & o & E1 & S1 & _ & C1 & P).
    apply sess_end in S1 as [S1 F1]. rewrite app_nil_r in S1. eexists _, _, _. split; [exact E1|]. split; auto. split; auto. split; auto.
    destruct o as [x|].
    - destruct P as (-> & Fw & Hl'). split; auto. exists gs'. split; auto. split; [apply ok2s; auto|]. split; auto. rewrite Hl', Hl.
      destruct (BTreeIterProofs.dens gs); cbn; lia.
    - destruct P as [P Bb]. split; auto. destruct (BTreeIterProofs.dens gs); cbn in P; congruence.
  Qed.
  Lemma next_back_s (h : heap) it l O : sound h (wps (hi_work it) ++ O) -> hi_at h it l ->
    exists h' it' o, h_next_back bomb h it = Ok (h', it', o) /\ sound h' (wps (hi_work it') ++ O) /\ frame O h h'
      /\ (exists cs, clones h' = cs ++ clones h /\ cl_of (hd_error (rev l)) cs)
      /\ match o with
         | Done x => x = hd_error (rev l) /\ hi_at h' it' (removelast l)
         | Unwound => l <> [] /\ faulty
         end.
  Proof.
    intros S (gs & F & Ok2 & <- & Hl). apply sess_start in S.
    destruct (next_back_ok gs (hi_len it) Ok2) as (gs' & E & Ok' & Dn).
    { rewrite Hl. destruct (BTreeIterProofs.dens gs); [easy|cbn; lia]. }
    assert (S' : sess h h [] (wps (hi_work it) ++ []) O) by (rewrite app_nil_r; exact S).
    destruct (next_back_heap bomb h h [] it gs _ gs' _ [] O F S' E) as (h' & it' & o & E1 & S1 & _ & C1 & P).
    apply sess_end in S1 as [S1 F1]. rewrite app_nil_r in S1. eexists _, _, _. split; [exact E1|]. split; auto. split; auto. split; auto.
    destruct o as [x|].
    - destruct P as (-> & Fw & Hl'). split; auto. exists gs'. split; auto. split; auto. split; auto. rewrite Hl', Hl.
      rewrite removelast_rev, rev_length. destruct (BTreeIterProofs.dens gs) as [|e l]; [auto|].
      assert (length (tl (rev (e :: l))) = length (rev (e :: l)) - 1) by (destruct (rev (e :: l)); cbn; lia).
      rewrite H, rev_length. cbn. lia.
    - destruct P as [P Bb]. split; auto. destruct (BTreeIterProofs.dens gs); cbn in P; congruence.
  Qed.
  Lemma hi_drop_s (h : heap) it O : sound h (wps (hi_work it) ++ O) ->
    exists h', hi_drop h it = Ok h' /\ sound h' O /\ frame O h h' /\ clones h' = clones h.
  Proof.
    intros S. apply sess_start in S. rewrite <- (app_nil_r (wps _)) in S.
    destruct (sess_drops h h [] (wps (hi_work it)) [] O S) as (h' & E & S1 & _ & C1 & _). apply sess_end in S1 as [S1 F1]. exists h'. auto.
  Qed.

  (** The entries that a sequence of calls yields. *)
  Definition yielded (rs : list (option entry * nat)) : list entry := flat_map (fun r => match fst r with Some e => [e] | None => [] end) rs.
  Definition singles (es : list entry) : list pay := map (fun e => [e]) es.

  Lemma run_ends_s cs : forall (h : heap) it l O, sound h (wps (hi_work it) ++ O) -> hi_at h it l ->
    exists h' it' o es, h_run_ends bomb cs h it = Ok (h', it', o) /\ sound h' (wps (hi_work it') ++ O) /\ frame O h h'
      /\ clones h' = rev (singles es) ++ clones h /\ sub es (yielded (s_ends cs l))
      /\ match o with Done rs => rs = s_ends cs l | Unwound => faulty end.
  Proof.
    assert (Hcl : forall x cs0 (rest : list entry), cl_of x cs0 -> exists es0, cs0 = rev (singles es0) /\ forall es, sub es rest -> sub (es0 ++ es) (match x with Some e => [e] | None => [] end ++ rest)).
    { intros x cs0 rest [->|(e & -> & ->)].
      - exists []. split; auto. intros es Sb. destruct x; cbn; [now apply AvlHeapSpec.sub_skip|auto].
      - exists [e]. split; auto. intros es Sb. cbn. now apply AvlHeapSpec.sub_keep. }
    assert (Sn : forall r : list entry, sub [] r).
    { induction r; [apply AvlHeapSpec.sub_nil|now apply AvlHeapSpec.sub_skip]. }
    induction cs as [|c cs IH]; intros h it l O S H; cbn [h_run_ends s_ends].
    - exists h, it, (Done []), []. split; auto. split; auto. split; [apply frame_refl|]. split; auto.
    - destruct c; cbn [yielded flat_map fst].
      + destruct (next_s h it l O S H) as (h1 & it1 & o & E & S1 & F1 & (cs0 & C1 & Cl) & P). rewrite E. cbn [bind].
        destruct (Hcl _ _ (yielded (s_ends cs (tl l))) Cl) as (es0 & -> & Hs). destruct o as [x|].
        * destruct P as [-> P]. destruct (IH h1 it1 _ O S1 P) as (h2 & it2 & o2 & es & E2 & S2 & F2 & C2 & Sb & P2). rewrite E2. cbn [bind].
          eexists _, _, _, (es0 ++ es). split; [reflexivity|]. split; auto. split; [eapply frame_trans; eauto|]. split.
          { unfold singles. rewrite map_app, rev_app_distr, <- app_assoc. fold (singles es0) (singles es). congruence. }
          split; [now apply Hs|]. destruct o2; auto. subst. destruct P as (gs & _ & _ & _ & ->). auto.
        * destruct P as [_ Bb]. eexists _, _, _, es0. split; [reflexivity|]. split; auto. split; auto. split; auto. split; auto.
          rewrite <- (app_nil_r es0). apply Hs. apply Sn.
      + destruct (next_back_s h it l O S H) as (h1 & it1 & o & E & S1 & F1 & (cs0 & C1 & Cl) & P). rewrite E. cbn [bind].
        destruct (Hcl _ _ (yielded (s_ends cs (removelast l))) Cl) as (es0 & -> & Hs). destruct o as [x|].
        * destruct P as [-> P]. destruct (IH h1 it1 _ O S1 P) as (h2 & it2 & o2 & es & E2 & S2 & F2 & C2 & Sb & P2). rewrite E2. cbn [bind].
          eexists _, _, _, (es0 ++ es). split; [reflexivity|]. split; auto. split; [eapply frame_trans; eauto|]. split.
          { unfold singles. rewrite map_app, rev_app_distr, <- app_assoc. fold (singles es0) (singles es). congruence. }
          split; [now apply Hs|]. destruct o2; auto. subst. destruct P as (gs & _ & _ & _ & ->). auto.
        * destruct P as [_ Bb]. eexists _, _, _, es0. split; [reflexivity|]. split; auto. split; auto. split; auto. split; auto.
          rewrite <- (app_nil_r es0). apply Hs. apply Sn.
  Qed.
  Lemma into_calls_s (h : heap) m l cs O : sound h (olist (hb_root m) ++ O) -> hbshows h m l ->
    exists h' o es, hb_into_calls bomb h m cs = Ok (h', o) /\ sound h' O /\ frame O h h'
      /\ clones h' = rev (singles es) ++ clones h /\ sub es (yielded (s_ends cs l))
      /\ match o with Done rs => rs = s_ends cs l | Unwound => faulty end.
  Proof.
    intros S H. unfold hb_into_calls. destruct (into_iter_s h m l O S H) as (h1 & it & E & S1 & F1 & A1 & C1). rewrite E. cbn [bind].
    destruct (run_ends_s cs h1 it l O S1 A1) as (h2 & it2 & o & es & E2 & S2 & F2 & C2 & Sb & P). rewrite E2. cbn [bind].
    destruct (hi_drop_s h2 it2 O S2) as (h3 & E3 & S3 & F3 & C3). rewrite E3. cbn [bind]. eexists _, _, es. split; [reflexivity|]. split; auto.
    split; [eapply frame_trans; [eapply frame_trans; eauto|eauto]|]. split; [congruence|]. auto.
  Qed.

  Lemma wf_swap (h : heap) A B O : sound h (A ++ B ++ O) -> sound h (B ++ A ++ O).
  Proof. intros [W Ac]. split; auto. eapply wf_equiv; [|exact W]. intros x. rewrite !cnt_app. lia. Qed.
  Lemma frame_r A O (h h' : heap) : frame (A ++ O) h h' -> frame O h h'.
  Proof. apply frame_incl. intros x Hx. apply in_or_app. auto. Qed.
  Lemma keep_l A O (h h' : heap) : frame (A ++ O) h h' -> keep A h h'.
  Proof. intros F. eapply keep_incl; [|apply frame_keep; exact F]. intros x Hx. apply in_or_app. auto. Qed.

  (** ** [append] *)
  Lemma extend_iter_s l : forall fuel (h : heap) m it la O, length l < fuel -> sound h (wps (hi_work it) ++ olist (hb_root m) ++ O) ->
    hi_at h it l -> hbshows h m la ->
    exists h' m' o, h_extend_iter bor cmp N bomb fuel h m it = Ok (h', m', o) /\ sound h' (olist (hb_root m') ++ O) /\ frame O h h'
      /\ match o with
         | Done _ => hbshows h' m' (s_extend bor cmp la l)
         | Unwound => (exists done rest, l = done ++ rest /\ hbshows h' m' (s_extend bor cmp la done)) /\ faulty
         end.
  Proof.
    induction l as [|[k v] l IH]; intros [|fuel] h m it la O Hf S At Sh; try (cbn in Hf; lia); cbn [h_extend_iter].
    - destruct (next_s h it _ _ S At) as (h1 & it1 & o & E & S1 & F1 & _ & P). rewrite E. cbn [bind].
      destruct o as [x|]; [|destruct P; congruence]. destruct P as [-> P]. cbn [hd_error].
      destruct (hi_drop_s h1 it1 _ S1) as (h2 & E2 & S2 & F2 & _). rewrite E2. cbn [bind]. eexists _, _, _. split; [reflexivity|]. split; auto.
      pose proof (frame_trans _ _ _ _ F1 F2) as F. split; [eapply frame_r; eauto|].
      eapply hbshows_keep; [eapply keep_l; exact F|apply incl_refl|exact Sh].
    - destruct (next_s h it _ _ S At) as (h1 & it1 & o & E & S1 & F1 & _ & P). rewrite E. cbn [bind]. destruct o as [x|].
      + destruct P as [-> P]. cbn [hd_error tl] in *. assert (Sh1 : hbshows h1 m la) by (eapply hbshows_keep; [eapply keep_l; exact F1|apply incl_refl|exact Sh]).
        apply wf_swap in S1. destruct (insert_s h1 m la k v _ S1 Sh1) as (h2 & m2 & o & E2 & S2 & F2 & P2). rewrite E2. cbn [bind].
        apply wf_swap in S2. pose proof (frame_trans _ _ _ _ (frame_r _ _ _ _ F1) (frame_r _ _ _ _ F2)) as F. destruct o as [x|].
        * destruct P2 as [_ P2]. assert (P' : hi_at h2 it1 l) by (eapply hi_keep; [eapply keep_l; exact F2|apply incl_refl|exact P]).
          assert (Hf' : length l < fuel) by (cbn in Hf; lia).
          destruct (IH fuel h2 m2 it1 _ O Hf' S2 P' P2) as (h3 & m3 & o & E3 & S3 & F3 & P3).
          rewrite E3. eexists _, _, _. split; [reflexivity|]. split; auto. split; [eapply frame_trans; eauto|]. destruct o; auto.
          destruct P3 as [(dn & rest & -> & P3) Bb]. split; auto. exists ((k, v) :: dn), rest. auto.
        * destruct P2 as [P2 Bb]. destruct (hi_drop_s h2 it1 _ S2) as (h3 & E3 & S3 & F3 & _). rewrite E3. cbn [bind].
          eexists _, _, _. split; [reflexivity|]. split; auto. split; [eapply frame_trans; [exact F|eapply frame_r; eauto]|]. split; auto.
          exists [], ((k, v) :: l). split; auto. eapply hbshows_keep; [eapply keep_l; exact F3|apply incl_refl|exact P2].
      + destruct P as [_ Bb]. destruct (hi_drop_s h1 it1 _ S1) as (h2 & E2 & S2 & F2 & _). rewrite E2. cbn [bind]. eexists _, _, _. split; [reflexivity|]. split; auto.
        pose proof (frame_trans _ _ _ _ F1 F2) as F. split; [eapply frame_r; eauto|]. split; auto. exists [], ((k, v) :: l). split; auto.
        eapply hbshows_keep; [eapply keep_l; exact F|apply incl_refl|exact Sh].
  Qed.
  Lemma append_s (h : heap) a b la lb O : sound h (olist (hb_root a) ++ olist (hb_root b) ++ O) -> hbshows h a la -> hbshows h b lb ->
    exists h' a' o, hb_append bor cmp N bomb h a b = Ok (h', a', hb_new, o) /\ sound h' (olist (hb_root a') ++ O) /\ frame O h h'
      /\ match o with
         | Done _ => hbshows h' a' (s_extend bor cmp la lb)
         | Unwound => (exists done rest, lb = done ++ rest /\ hbshows h' a' (s_extend bor cmp la done)) /\ faulty
         end.
  Proof.
    intros S Ha Hb. unfold hb_append. apply wf_swap in S. destruct (into_iter_s h b lb _ S Hb) as (h1 & it & E & S1 & F1 & A1 & _). rewrite E. cbn [bind].
    destruct (hbshows_asc _ _ _ Hb) as [_ Ll]. destruct (extend_iter_s lb (Datatypes.S (hb_len b)) h1 a it la O) as (h2 & a' & o & E2 & S2 & F2 & P); auto; [lia| |].
    { eapply hbshows_keep; [eapply keep_l; exact F1|apply incl_refl|exact Ha]. }
    rewrite E2. cbn [bind]. eexists _, _, _. split; [reflexivity|]. split; auto. split; auto. eapply frame_trans; [eapply frame_r; eauto|auto].
  Qed.

  (** ** [retain] *)
  Section Retain.
    Context {S' : Type} (f : S' -> K -> V -> S' * V * bool) (fbomb : S' -> K -> V -> bool).
    Definition kept (s : S') (l : list entry) : list entry :=
      map (fun o => (fst (fst (fst o)), snd (fst o))) (filter (fun o => snd o) (fst (run_calls f s l))).
    Definition fails : Prop := faulty \/ exists s k v, fbomb s k v = true.

    Lemma kept_cons s k v l : kept s ((k, v) :: l) =
      let '(s1, v1, b) := f s k v in if b then (k, v1) :: kept s1 l else kept s1 l.
    Proof.
      unfold kept. cbn [run_calls]. destruct (f s k v) as [[s1 v1] b]. destruct (run_calls f s1 l) as [outs s2]. cbn [fst filter snd]. destruct b; reflexivity.
    Qed.
    Lemma calls_cons s k v l : snd (run_calls f s ((k, v) :: l)) = let '(s1, v1, b) := f s k v in snd (run_calls f s1 l).
    Proof. cbn [run_calls]. destruct (f s k v) as [[s1 v1] b]. destruct (run_calls f s1 l). reflexivity. Qed.

    Lemma retain_iter_s l : forall fuel (h : heap) m it la s O, length l < fuel -> sound h (wps (hi_work it) ++ olist (hb_root m) ++ O) ->
      hi_at h it l -> hbshows h m la ->
      exists h' o, h_retain_iter bor cmp N bomb f fbomb fuel h m it s = Ok (h', o) /\ frame O h h'
        /\ match o with
           | Done (m', s') => sound h' (olist (hb_root m') ++ O) /\ hbshows h' m' (s_extend bor cmp la (kept s l)) /\ s' = snd (run_calls f s l)
           | Unwound => sound h' O /\ fails
           end.
    Proof.
      assert (Bail : forall (h h0 : heap) it1 m O, sound h (wps (hi_work it1) ++ olist (hb_root m) ++ O) -> frame O h0 h -> fails ->
        exists h' o, (h1 <- hi_drop h it1;; h2 <- hb_drop h1 m;; Ok (h2, @Unwound (hbmap * S'))) = Ok (h', o) /\ frame O h0 h'
        /\ match o with
           | Done (m', s') => False
           | Unwound => sound h' O /\ fails
           end).
      { intros h h0 it1 m O S F Bb. destruct (hi_drop_s h it1 _ S) as (h1 & E1 & S1 & F1 & _). rewrite E1. cbn [bind].
        destruct (hb_drop_ok h1 m O S1) as (h2 & E2 & S2 & F2 & _). rewrite E2. cbn [bind]. eexists _, _. split; [reflexivity|]. split; auto.
        eapply frame_trans; [exact F|]. eapply frame_trans; [eapply frame_r; exact F1|auto]. }
      induction l as [|[k v] l IH]; intros [|fuel] h m it la s O Hf S At Sh; try (cbn in Hf; lia); cbn [h_retain_iter].
      - destruct (next_s h it _ _ S At) as (h1 & it1 & o & E & S1 & F1 & _ & P). rewrite E. cbn [bind].
        destruct o as [x|]; [|destruct P; congruence]. destruct P as [-> P]. cbn [hd_error].
        destruct (hi_drop_s h1 it1 _ S1) as (h2 & E2 & S2 & F2 & _). rewrite E2. cbn [bind]. eexists _, _. split; [reflexivity|].
        pose proof (frame_trans _ _ _ _ F1 F2) as F. split; [eapply frame_r; eauto|]. split; auto. split; auto.
        eapply hbshows_keep; [eapply keep_l; exact F|apply incl_refl|exact Sh].
      - destruct (next_s h it _ _ S At) as (h1 & it1 & o & E & S1 & F1 & _ & P). rewrite E. cbn [bind]. destruct o as [x|].
        + destruct P as [-> P]. cbn [hd_error tl] in *. assert (Sh1 : hbshows h1 m la) by (eapply hbshows_keep; [eapply keep_l; exact F1|apply incl_refl|exact Sh]).
          assert (Hf' : length l < fuel) by (cbn in Hf; lia). rewrite kept_cons, calls_cons. destruct (fbomb s k v) eqn:Fb.
          { destruct (Bail h1 h it1 m O S1 (frame_r _ _ _ _ F1)) as (h2 & o & E2 & F2 & P2); [right; eauto|]. rewrite E2. eexists _, _. split; [reflexivity|]. split; auto.
            destruct o as [[]|]; [contradiction|auto]. }
          destruct (f s k v) as [[s1 v1] [|]].
          * apply wf_swap in S1. destruct (insert_s h1 m la k v1 _ S1 Sh1) as (h2 & m2 & o & E2 & S2 & F2 & P2). rewrite E2. cbn [bind].
            apply wf_swap in S2. pose proof (frame_trans _ _ _ _ (frame_r _ _ _ _ F1) (frame_r _ _ _ _ F2)) as F. destruct o as [x|].
            -- destruct P2 as [_ P2]. assert (P' : hi_at h2 it1 l) by (eapply hi_keep; [eapply keep_l; exact F2|apply incl_refl|exact P]).
               destruct (IH fuel h2 m2 it1 _ s1 O Hf' S2 P' P2) as (h3 & o & E3 & F3 & P3).
               rewrite E3. eexists _, _. split; [reflexivity|]. split; [eapply frame_trans; eauto|]. destruct o as [[]|]; auto.
            -- destruct P2 as [_ Bb]. destruct (Bail h2 h it1 m2 O S2 F) as (h3 & o & E3 & F3 & P3); [now left|]. rewrite E3. eexists _, _. split; [reflexivity|]. split; auto.
               destruct o as [[]|]; [contradiction|auto].
          * destruct (IH fuel h1 m it1 _ s1 O Hf' S1 P Sh1) as (h3 & o & E3 & F3 & P3).
            rewrite E3. eexists _, _. split; [reflexivity|]. split; [eapply frame_trans; [eapply frame_r; exact F1|auto]|]. destruct o as [[]|]; auto.
        + destruct P as [_ Bb]. destruct (Bail h1 h it1 m O S1 (frame_r _ _ _ _ F1)) as (h2 & o & E2 & F2 & P2); [now left|]. rewrite E2. eexists _, _. split; [reflexivity|]. split; auto.
          destruct o as [[]|]; [contradiction|auto].
    Qed.
    Lemma retain_s (h : heap) m l s O : sound h (olist (hb_root m) ++ O) -> hbshows h m l ->
      exists h' m' o, hb_retain bor cmp N bomb f fbomb h m s = Ok (h', m', o) /\ sound h' (olist (hb_root m') ++ O) /\ frame O h h'
        /\ match o with
           | Done s' => hbshows h' m' (kept s l) /\ s' = snd (run_calls f s l)
           | Unwound => hbshows h' m' [] /\ fails
           end.
    Proof.
      intros S H. unfold hb_retain. destruct (into_iter_s h m l O S H) as (h1 & it & E & S1 & F1 & A1 & _). rewrite E. cbn [bind].
      destruct (hbshows_asc _ _ _ H) as [A Ll].
      destruct (retain_iter_s l (Datatypes.S (hb_len m)) h1 hb_new it [] s O) as (h2 & o & E2 & F2 & P); auto; [lia|apply hbshows_new|].
      rewrite E2. cbn [bind]. pose proof (frame_trans _ _ _ _ F1 F2) as F. destruct o as [[m' s']|].
      - destruct P as (S2 & Sh & ->). eexists _, _, _. split; [reflexivity|]. split; auto. split; auto. split; auto.
        pose proof (retain_keys bor cmp f l s A) as [Ak _]. rewrite (retain_list_spec f) in Ak. cbn [fst] in Ak. fold (kept s l) in Ak.
        pose proof (extend_asc_app bor cmp laws [] (kept s l) Ak) as Ex. cbn [app] in Ex. rewrite Ex in Sh. exact Sh.
      - destruct P as [S2 Bb]. eexists _, _, _. split; [reflexivity|]. cbn [hb_root hb_new olist app]. split; auto. split; auto. split; auto. apply hbshows_new.
    Qed.
  End Retain.

  (** ** [split_off] *)
  Lemma sound3 (h : heap) A B C O : sound h (A ++ B ++ C ++ O) -> sound h (B ++ A ++ C ++ O) /\ sound h (C ++ A ++ B ++ O).
  Proof. intros [W Ac]. split; split; auto; (eapply wf_equiv; [|exact W]; intros x; rewrite !cnt_app; lia). Qed.
  Lemma frame_rr A B O (h h' : heap) : frame (A ++ B ++ O) h h' -> frame O h h' /\ keep A h h' /\ keep B h h'.
  Proof.
    intros F. split; [eapply frame_r, frame_r; exact F|]. split; [eapply keep_l; exact F|eapply keep_l, frame_r; exact F].
  Qed.

  Notation below := (lt_q bor cmp).
  Lemma gt_below q (e : entry) : below q e = match cmp q (bor (fst e)) with Gt => true | _ => false end.
  Proof. unfold lt_q. rewrite (cmp_opp _ laws (bor (fst e)) q). now destruct (cmp (bor (fst e)) q). Qed.

  Lemma partition_iter_s q l : forall fuel (h : heap) m1 m2 it la lb O, length l < fuel ->
    sound h (wps (hi_work it) ++ olist (hb_root m1) ++ olist (hb_root m2) ++ O) ->
    hi_at h it l -> hbshows h m1 la -> hbshows h m2 lb ->
    exists h' o, h_partition_iter bor cmp N bomb fuel h m1 m2 it q = Ok (h', o) /\ frame O h h'
      /\ match o with
         | Done (m1', m2') => sound h' (olist (hb_root m1') ++ olist (hb_root m2') ++ O)
             /\ hbshows h' m1' (s_extend bor cmp la (filter (below q) l))
             /\ hbshows h' m2' (s_extend bor cmp lb (filter (fun e => negb (below q e)) l))
         | Unwound => sound h' O /\ faulty
         end.
  Proof.
    assert (Bail : forall (h h0 : heap) it1 m1 m2 O, sound h (wps (hi_work it1) ++ olist (hb_root m1) ++ olist (hb_root m2) ++ O) -> frame O h0 h -> faulty ->
      exists h' o, (h1 <- hi_drop h it1;; h2 <- hb_drop h1 m1;; h3 <- hb_drop h2 m2;; Ok (h3, @Unwound (hbmap * hbmap))) = Ok (h', o) /\ frame O h0 h'
      /\ match o with
         | Done (m1', m2') => False
         | Unwound => sound h' O /\ faulty
         end).
    { intros h h0 it1 m1 m2 O S F Bb. destruct (hi_drop_s h it1 _ S) as (h1 & E1 & S1 & F1 & _). rewrite E1. cbn [bind].
      destruct (hb_drop_ok h1 m1 _ S1) as (h2 & E2 & S2 & F2 & _). rewrite E2. cbn [bind].
      destruct (hb_drop_ok h2 m2 _ S2) as (h3 & E3 & S3 & F3 & _). rewrite E3. cbn [bind]. eexists _, _. split; [reflexivity|]. split; auto.
      eapply frame_trans; [exact F|]. eapply frame_trans; [eapply frame_r, frame_r; exact F1|]. eapply frame_trans; [eapply frame_r; exact F2|auto]. }
    induction l as [|[k v] l IH]; intros [|fuel] h m1 m2 it la lb O Hf S At Sa Sb; try (cbn in Hf; lia); cbn [h_partition_iter].
    - destruct (next_s h it _ _ S At) as (h1 & it1 & o & E & S1 & F1 & _ & P). rewrite E. cbn [bind].
      destruct o as [x|]; [|destruct P; congruence]. destruct P as [-> P]. cbn [hd_error].
      destruct (hi_drop_s h1 it1 _ S1) as (h2 & E2 & S2 & F2 & _). rewrite E2. cbn [bind]. eexists _, _. split; [reflexivity|].
      pose proof (frame_trans _ _ _ _ F1 F2) as F. destruct (frame_rr _ _ _ _ _ F) as (F' & Ka & Kb). split; auto. split; auto.
      split; [exact (hbshows_keep _ h h2 m1 la Ka (incl_refl _) Sa)|exact (hbshows_keep _ h h2 m2 lb Kb (incl_refl _) Sb)].
    - destruct (next_s h it _ _ S At) as (h1 & it1 & o & E & S1 & F1 & _ & P). rewrite E. cbn [bind]. destruct (frame_rr _ _ _ _ _ F1) as (F1' & Ka & Kb).
      destruct o as [x|].
      2:{ destruct P as [_ Bb]. destruct (Bail h1 h it1 m1 m2 O S1 F1' Bb) as (h2 & o & E2 & F2 & P2). rewrite E2. eexists _, _. split; [reflexivity|]. split; auto.
          destruct o as [[]|]; [contradiction|auto]. }
      destruct P as [-> P]. cbn [hd_error tl] in *.
      pose proof (hbshows_keep _ h h1 m1 la Ka (incl_refl _) Sa) as Sa1.
      pose proof (hbshows_keep _ h h1 m2 lb Kb (incl_refl _) Sb) as Sb1.
      destruct (sound3 _ _ _ _ _ S1) as [Sx Sy]. assert (Hf' : length l < fuel) by (cbn in Hf; lia). cbn [filter]. rewrite gt_below. cbn [fst].
      destruct (cmp q (bor k)) eqn:Ec; cbn [negb].
      3:{ destruct (insert_s h1 m1 la k v _ Sx Sa1) as (h2 & m1' & o & E2 & S2 & F2 & P2). rewrite E2. cbn [bind].
          destruct (frame_rr _ _ _ _ _ F2) as (F2' & Kw & Kb2). pose proof (frame_trans _ _ _ _ F1' F2') as F.
          assert (S2' : sound h2 (wps (hi_work it1) ++ olist (hb_root m1') ++ olist (hb_root m2) ++ O)) by now apply wf_swap.
          destruct o as [x|].
          - destruct P2 as [_ P2]. assert (P' : hi_at h2 it1 l) by (eapply hi_keep; [exact Kw|apply incl_refl|exact P]).
            assert (Sb2 : hbshows h2 m2 lb) by (eapply hbshows_keep; [exact Kb2|apply incl_refl|exact Sb1]).
            destruct (IH fuel h2 m1' m2 it1 _ lb O Hf' S2' P' P2 Sb2) as (h3 & o & E3 & F3 & P3).
            rewrite E3. eexists _, _. split; [reflexivity|]. split; [eapply frame_trans; eauto|]. destruct o as [[]|]; auto.
          - destruct P2 as [_ Bb]. destruct (Bail h2 h it1 m1' m2 O S2' F Bb) as (h3 & o & E3 & F3 & P3). rewrite E3. eexists _, _. split; [reflexivity|]. split; auto.
            destruct o as [[]|]; [contradiction|auto]. }
      all: destruct (insert_s h1 m2 lb k v _ Sy Sb1) as (h2 & m2' & o & E2 & S2 & F2 & P2); rewrite E2; cbn [bind];
          destruct (frame_rr _ _ _ _ _ F2) as (F2' & Kw & Ka2); pose proof (frame_trans _ _ _ _ F1' F2') as F;
          assert (S2' : sound h2 (wps (hi_work it1) ++ olist (hb_root m1) ++ olist (hb_root m2') ++ O)) by (apply sound3 in S2 as [_ S2]; apply sound3 in S2 as [_ S2]; exact S2);
          destruct o as [x|];
          [ destruct P2 as [_ P2]; assert (P' : hi_at h2 it1 l) by (eapply hi_keep; [exact Kw|apply incl_refl|exact P]);
            assert (Sa2 : hbshows h2 m1 la) by (eapply hbshows_keep; [exact Ka2|apply incl_refl|exact Sa1]);
            destruct (IH fuel h2 m1 m2' it1 la _ O Hf' S2' P' Sa2 P2) as (h3 & o & E3 & F3 & P3);
            rewrite E3; eexists _, _; split; [reflexivity|]; split; [eapply frame_trans; eauto|]; destruct o as [[]|]; auto
          | destruct P2 as [_ Bb]; destruct (Bail h2 h it1 m1 m2' O S2' F Bb) as (h3 & o & E3 & F3 & P3); rewrite E3; eexists _, _; split; [reflexivity|]; split; auto;
            destruct o as [[]|]; [contradiction|auto] ].
  Qed.
  Lemma split_off_s (h : heap) m l q O : sound h (olist (hb_root m) ++ O) -> hbshows h m l ->
    exists h' m' o, hb_split_off bor cmp N bomb h m q = Ok (h', m', o) /\ frame O h h'
      /\ match o with
         | Done m2 => sound h' (olist (hb_root m') ++ olist (hb_root m2) ++ O)
             /\ hbshows h' m' (filter (below q) l) /\ hbshows h' m2 (filter (fun e => negb (below q e)) l)
         | Unwound => sound h' (olist (hb_root m') ++ O) /\ hbshows h' m' [] /\ faulty
         end.
  Proof.
    intros S H. unfold hb_split_off. destruct (into_iter_s h m l O S H) as (h1 & it & E & S1 & F1 & A1 & _). rewrite E. cbn [bind].
    destruct (hbshows_asc _ _ _ H) as [A Ll].
    destruct (partition_iter_s q l (Datatypes.S (hb_len m)) h1 hb_new hb_new it [] [] O) as (h2 & o & E2 & F2 & P); auto; [lia|apply hbshows_new..|].
    rewrite E2. cbn [bind]. pose proof (frame_trans _ _ _ _ F1 F2) as F. destruct o as [[m1 m2]|].
    - destruct P as (S2 & Sh1 & Sh2). eexists _, _, _. split; [reflexivity|]. split; auto. split; auto.
      pose proof (extend_asc_app bor cmp laws [] (filter (below q) l)) as X1. pose proof (extend_asc_app bor cmp laws [] (filter (fun e => negb (below q e)) l)) as X2.
      cbn [app] in X1, X2. rewrite X1 in Sh1 by (now apply asc_filter). rewrite X2 in Sh2 by (now apply asc_filter). auto.
    - destruct P as [S2 Bb]. eexists _, _, _. split; [reflexivity|]. split; auto. cbn [hb_root hb_new olist app]. split; auto. split; auto. apply hbshows_new.
  Qed.
End Lists.
