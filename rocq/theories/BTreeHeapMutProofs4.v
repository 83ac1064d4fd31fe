(** Proofs about [iter_mut] and [range_mut] on shared nodes: which nodes are cloned; whole maps. *)
From Coq Require Import List PeanoNat Bool Lia Sorted.
From Verif Require Import Base Spec MapSpec SpecFacts Vec Heap HeapProofs HeapMut HeapMutProofs BTreeSpec BTreeModel BTreeProofs BTreeProofs2
  BTreeIterModel BTreeIterProofs2 BTreeRangeProofs BTreeMutProofs BTreeShows BTreeHeapModel BTreeHeapSpec BTreeHeapHistSpec BTreeHeapProofs
  BTreeHeapProofs5 BTreeHeapProofs7 MutSpec BTreeHeapMutModel BTreeHeapMutProofs BTreeHeapMutProofs2 BTreeHeapMutProofs3 BTreeHeapMutSpec BTreeHeapProofs9 BTreeHeapProofs2.
From Verif Require BTreeIterProofs BTreeHistProofs.
Import ListNotations.
Local Open Scope nat_scope.

Section InWeave.
  Context {A : Type}.
  Lemma in_weave_kid (L : list (list A)) : forall es l e, In l L -> In e l -> In e (weave L es).
  Proof.
    induction L as [|k L IH]; intros es l e H I; [contradiction|]. cbn [weave]. apply in_or_app. destruct H as [->|H]; [auto|]. right.
    destruct es as [|x es]; [apply in_concat; eauto|]. right. eauto.
  Qed.
  Lemma in_weave_es (L : list (list A)) : forall es e, In e es -> In e (weave L es).
  Proof.
    induction L as [|k L IH]; intros es e I; [auto|]. cbn [weave]. apply in_or_app. right. destruct es as [|x es]; [contradiction|].
    destruct I as [->|I]; [now left|]. right. auto.
  Qed.
End InWeave.

Section Way.
  Context {K V Q : Type} (bor : K -> Q) (cmp : Q -> Q -> comparison) (laws : order_laws cmp) (N : nat).
  Notation bt := (bt K V).
  Notation key e := (bor (fst e)).
  Notation flat := (@BTreeProofs.flat K V).
  Notation shape := (@shape K V N).
  Notation asc := (ascending bor cmp).

  Lemma rank_kid (es : list (K * V)) : forall ks c (t : bt) e, length ks = S (length es) -> asc (weave (map flat ks) es) ->
    nth_error ks c = Some t -> In e (flat t) -> rank bor cmp (key e) es = c /\ hit bor cmp (key e) es = false.
  Proof.
    induction es as [|e1 es IH]; intros [|k ks] c t e L A H I; try discriminate.
    - destruct ks; [|discriminate]. destruct c as [|c]; [|now destruct c]. auto.
    - cbn [map weave] in A. apply (asc_app_iff bor cmp) in A as (A1 & A2 & A3). inversion A2 as [|? ? A4 A5]; subst. cbn in L. destruct c as [|c].
      + injection H as ->. unfold hit. cbn [rank]. assert (X : cmp (key e) (key e1) = Lt) by (apply A3; [auto|now left]). rewrite X. cbn [nth_error]. rewrite X. auto.
      + rewrite Forall_forall in A5. assert (X : cmp (key e1) (key e) = Lt) by (apply A5; apply (in_weave_kid _ _ (flat t)); auto; apply in_map; eapply nth_error_In; eauto).
        apply (cmp_lt_gt laws) in X. unfold hit. cbn [rank]. rewrite X. cbn [nth_error]. destruct (IH ks c t e) as [R H2]; auto.
  Qed.

  Lemma at_in ht : forall mn (t : bt) q j es ks e, shape mn ht t -> n_at t q = Some (BN es ks) -> nth_error es j = Some e -> In e (flat t).
  Proof.
    induction ht as [|ht IH]; intros mn t q j es ks e S H E.
    - apply shape_0 in S as (es' & -> & _). destruct q as [|c q]; cbn [n_at] in H; [|now destruct c]. injection H as -> <-. exact (nth_error_In _ _ E).
    - apply shape_S in S as (es' & ks' & -> & _ & Hk & F). destruct q as [|c q]; cbn [n_at] in H.
      + injection H as -> ->. cbn [BTreeProofs.flat]. apply in_weave_es. eapply nth_error_In; eauto.
      + destruct (nth_error ks' c) as [d|] eqn:Ed; [|discriminate]. cbn [BTreeProofs.flat]. apply nth_error_In in Ed. apply (in_weave_kid _ _ (flat d)); [now apply in_map|].
        rewrite Forall_forall in F. eapply (IH N d q j es ks e); eauto.
  Qed.

  (** The nodes above an entry are on the way to its key. *)
  Lemma way_ok ht : forall mn (t : bt) p q j es ks e, shape mn ht t -> asc (flat t) -> n_at t q = Some (BN es ks) -> nth_error es j = Some e ->
    prefix p q -> In (pay_at t p) (path bor cmp (key e) t).
  Proof.
    induction ht as [|ht IH]; intros mn t p q j es ks e S A H E [s ->].
    - apply shape_0 in S as (es' & -> & _). destruct p as [|c p]; cbn [app n_at] in H; [|now destruct c]. unfold pay_at. cbn [n_at path elems_of].
      apply in_or_app. right. now left.
    - apply shape_S in S as (es' & ks' & -> & _ & Hk & F). destruct p as [|c p]; unfold pay_at; cbn [path n_at elems_of]; apply in_or_app; [right; now left|].
      left. cbn [app n_at] in H. destruct (nth_error ks' c) as [d|] eqn:Ed; [|discriminate].
      assert (Sd : shape N ht d) by (rewrite Forall_forall in F; apply F; eapply nth_error_In; eauto).
      cbn [BTreeProofs.flat] in A. destruct (rank_kid es' ks' c d e Hk A Ed) as [R Hh]. { eapply at_in; eauto. }
      rewrite Hh, R, nth_error_map, Ed. cbn [option_map]. apply (IH N d p (p ++ s) j es ks e); auto; [|now exists s].
      destruct (cut_mid c ks') as (k1 & d' & k2 & -> & L1); [apply nth_error_Some; congruence|]. rewrite nth_mid in Ed by auto. injection Ed as ->.
      rewrite map_app in A. cbn [map] in A. rewrite <- (firstn_skipn c es') in A. rewrite app_length in Hk. cbn in Hk.
      rewrite weave_split in A; [|rewrite map_length, firstn_length; lia|rewrite map_length, skipn_length; lia].
      apply (asc_app_iff bor cmp) in A as (_ & A & _). now apply (asc_app_iff bor cmp) in A.
  Qed.

  (** Different nodes have different data. *)
  Lemma pos_in ht : forall mn (t : bt) p q j es ks e, shape mn ht t -> n_at t q = Some (BN es ks) -> nth_error es j = Some e ->
    In (((p ++ q, j), fst e), snd e) (BTreeProofs.flat (with_pos p t)).
  Proof.
    induction ht as [|ht IH]; intros mn t p q j es ks e S H E.
    - apply shape_0 in S as (es' & -> & _). destruct q as [|c q]; cbn [n_at] in H; [|now destruct c]. injection H as -> <-. rewrite with_pos_eq, app_nil_r. cbn.
      apply (nth_error_In _ j). now rewrite mapi_nth, E.
    - apply shape_S in S as (es' & ks' & -> & _ & Hk & F). rewrite with_pos_eq. cbn [BTreeProofs.flat]. destruct q as [|c q]; cbn [n_at] in H.
      + injection H as -> ->. rewrite app_nil_r. apply in_weave_es. apply (nth_error_In _ j). now rewrite mapi_nth, E.
      + destruct (nth_error ks' c) as [d|] eqn:Ed; [|discriminate]. apply (in_weave_kid _ _ (BTreeProofs.flat (with_pos (p ++ [c]) d))).
        * apply in_map. apply (nth_error_In _ c). now rewrite mapi_nth, Ed.
        * replace (p ++ c :: q) with ((p ++ [c]) ++ q) by (now rewrite <- app_assoc). rewrite Forall_forall in F. eapply (IH N d); eauto. apply F. eapply nth_error_In; eauto.
  Qed.
  Lemma asc_eq {X} (f : X -> Q) (l : list X) x y : StronglySorted (fun a b => cmp (f a) (f b) = Lt) l -> In x l -> In y l -> f x = f y -> x = y.
  Proof.
    intros S. induction S as [|a l S IH F]; [contradiction|]. rewrite Forall_forall in F.
    assert (Irr : forall a b, f a = f b -> cmp (f a) (f b) = Lt -> False). { intros u v E H. rewrite E in H. pose proof (cmp_refl laws (f v)). congruence. }
    intros [->|Hx] [->|Hy] E; auto; exfalso.
    - apply (Irr x y); auto.
    - apply (Irr y x); auto.
  Qed.
  Lemma n_at_len ht : forall mn (t : bt) p c, 1 <= mn -> 1 <= N -> shape mn ht t -> n_at t p = Some c -> 1 <= length (elems_of c).
  Proof.
    induction ht as [|ht IH]; intros mn t p c Hm HN S H.
    - apply shape_0 in S as (es & -> & L). destruct p as [|j p]; cbn [n_at] in H; [|now destruct j]. injection H as <-. cbn. lia.
    - apply shape_S in S as (es & ks & -> & L & _ & F). destruct p as [|j p]; cbn [n_at] in H; [injection H as <-; cbn; lia|].
      destruct (nth_error ks j) as [d|] eqn:Ed; [|discriminate]. rewrite Forall_forall in F. eapply (IH N d p c); eauto. apply F. eapply nth_error_In; eauto.
  Qed.
  Lemma pay_inj ht mn (t : bt) p q : 1 <= mn -> 1 <= N -> shape mn ht t -> asc (flat t) -> n_at t p <> None -> n_at t q <> None ->
    pay_at t p = pay_at t q -> p = q.
  Proof.
    intros Hm HN S A Hp Hq E. destruct (n_at t p) as [[es ks]|] eqn:Ep; [|congruence]. destruct (n_at t q) as [[es' ks']|] eqn:Eq; [|congruence].
    unfold pay_at in E. rewrite Ep, Eq in E. cbn [elems_of] in E. subst es'.
    pose proof (n_at_len ht mn t p _ Hm HN S Ep) as L. cbn [elems_of] in L. destruct es as [|e es]; [cbn in L; lia|].
    pose proof (pos_in ht mn t [] p 0 _ _ e S Ep eq_refl) as I1. pose proof (pos_in ht mn t [] q 0 _ _ e S Eq eq_refl) as I2. cbn [app] in *.
    assert (X : ((p, 0, fst e), snd e) = ((q, 0, fst e), snd e)); [|now injection X].
    apply (asc_eq (fun r : bref * V => bor (snd (fst r))) (BTreeProofs.flat (with_pos [] t))); auto.
    apply (asc_unpos bor cmp). now rewrite (proj2 (with_pos_ok N ht mn t [] S)).
  Qed.
  Lemma pay_nodup ht mn (t : bt) ps : 1 <= mn -> 1 <= N -> shape mn ht t -> asc (flat t) -> NoDup ps -> Forall (fun p => n_at t p <> None) ps ->
    NoDup (map (pay_at t) ps).
  Proof.
    intros Hm HN S A Nd F. induction Nd as [|p ps H Nd IH]; [constructor|]. inversion F as [|? ? F1 F2]; subst. cbn [map]. constructor; auto.
    intros Hi. apply in_map_iff in Hi as (q & E & Hq). rewrite Forall_forall in F2. apply (pay_inj ht mn t q p) in E; auto. now subst.
  Qed.
End Way.

Lemma run_nil {K V} N bomb (cs : list (mcall V)) (h : heap (list (K * V))) :
  hm_run N bomb cs h (MIter [] 0) [] = Ok (h, MIter [] 0, map (fun _ => (None, (0, 0))) cs, true)
  /\ s_muts cs ([] : list (K * V)) 0 0 [] = (map (fun _ => (None, 0)) cs, [], []).
Proof.
  induction cs as [|c cs [IH1 IH2]]; [auto|]. destruct c as [| |j w]; cbn [hm_run s_muts]; unfold hm_next, hm_next_back;
    cbn [mi_work vec_pop rev bind map Nat.ltb Nat.leb].
  - rewrite IH1, IH2. auto.
  - rewrite IH1, IH2. auto.
  - replace (nth_error (@nil mref) j) with (@None mref) by (now destruct j). replace (nth_error (@nil nat) j) with (@None nat) by (now destruct j).
    rewrite IH1, IH2. auto.
Qed.

Lemma rich_root {K V} N mn ht (c : bt K V) : shape N mn ht c -> rich N (g_make c).
Proof. intros S. destruct S as [mn es H|mn h es ks H1 H2 F]; [constructor|]. unfold rich. cbn [g_make g_kids]. rewrite Forall_forall in *. eauto. Qed.

Section Whole.
  Context {K V Q : Type} (bor : K -> Q) (cmp : Q -> Q -> comparison) (laws : order_laws cmp) (N : nat) (HN : 1 <= N).
  Variable bomb : nat -> bool.
  Notation bt := (bt K V).
  Notation pay := (list (K * V)).
  Notation heap := (heap pay).
  Notation ns := (@ns K V).
  Notation valid := (@valid K V Q bor cmp N).
  Notation faulty := (exists n, bomb n = true).
  Notation hbshows := (hbshows bor cmp N).

  Definition from (h : heap) (a : addr) (p : list nat) : Prop := exists b, held h a p b.

  (** Cloning the root, if need be. *)
  Lemma root_start ht (h : heap) a t O : wf h (a :: O) -> acyclic h -> ns h a t -> loose ht t -> n_levels t = S ht ->
    exists h1 x, make_mut bomb h a = Ok (h1, x)
      /\ match x with
         | None => mst h t O (from h a) h1 a t [[]] /\ faulty
         | Some r => exists ps, minv h t O (from h a) h1 r t ps /\ held h1 r [] r /\ (ps = [] \/ ps = [[]])
         end.
  Proof.
    intros W A D L Lv. destruct (root_mut_ok bomb h a O W A) as (h1 & x & kr & m & G & E & A1 & F1 & D1 & R).
    exists h1, x. split; auto. destruct t as [es ks]. destruct (ns_inv h a es ks D) as (c & kk & G' & _). rewrite G in G'. injection G' as <- ->. cbn [nd_data] in *.
    assert (Hs : kr <> 1 -> forall p, ~ from h a p).
    { intros Hk p [b Hb]. inversion Hb as [? n Gn|? n ? ? ? ? Gn]; subst; rewrite G in Gn; injection Gn as -> _; congruence. }
    destruct x as [r|].
    - destruct R as (W1 & H1 & Dr & C1 & K1 & K2). specialize (Dr _ D). exists (if kr =? 1 then [] else [[]]).
      assert (Ll : S ht <= length (cells h1)) by exact (loose_depth h1 ht (BN es ks) r L Dr).
      split; [|split; [auto|destruct (kr =? 1); auto]]. split.
      + split; auto. split; auto. split; auto. split; auto. split; auto. split; [lia|]. rewrite C1. destruct (Nat.eqb_spec kr 1) as [Hk|Hk].
        * split; [reflexivity|]. split; constructor.
        * split; [reflexivity|]. split; [repeat constructor; intros []|]. constructor; [|constructor]. split; [discriminate|now apply Hs].
      + split; [auto|]. split; [destruct (kr =? 1); repeat constructor; eauto|]. intros p [b Hb]. destruct (Nat.eq_dec kr 1) as [Hk|Hk].
        * destruct (K1 Hk) as [-> ->]. eauto.
        * destruct (Hs Hk p). now exists b.
    - destruct R as (W1 & Hk & Hb & C1 & Cs). split; [|eauto].
      assert (Ll : S ht <= length (cells h1)) by (exact (loose_depth h1 ht (BN es ks) a L (D1 _ _ D))).
      split; auto. split; auto. split; [exact (D1 _ _ D)|]. split; auto. split; auto. split; [lia|]. split; [exact C1|]. split; [repeat constructor; intros []|].
      constructor; [|constructor]. split; [discriminate|now apply Hs].
  Qed.

  (** ** Maps that are not shared *)
  Lemma unshared_held (h : heap) t : forall p a c, ns h a t -> n_at t p = Some c -> unshared h (Some a) -> exists b, held h a p b /\ ns h b c.
  Proof.
    intros p. revert t. induction p as [|j p IH]; intros [es ks] a c D H U; cbn [n_at] in H; destruct (ns_inv h a es ks D) as (n & kk & G & F).
    - injection H as <-. assert (n = 1) as -> by (eapply U; [apply reach_root; now left|exact G]). exists a. split; auto. econstructor; eauto.
    - destruct (nth_error ks j) as [d|] eqn:Ed; [|discriminate]. destruct (f2_nth _ _ _ _ _ F Ed) as (x & Ex & Dx).
      assert (n = 1) as -> by (eapply U; [apply reach_root; now left|exact G]).
      destruct (IH d x c Dx H) as (b & Hb & Db).
      { intros y cy ny Ry. apply U. clear - Ry G Ex. induction Ry as [y [<-|[]]|y cy n b Ry IHy Gy Hb].
        - eapply reach_kid; [apply reach_root; now left|exact G|]. cbn [nd_kids]. rewrite olists_some. eapply nth_error_In; eauto.
        - eapply reach_kid; eauto. }
      exists b. split; auto. econstructor; eauto. cbn [nd_kids]. now rewrite nth_error_map, Ex.
  Qed.
  Lemma held_unshared (h : heap) r t : ns h r t -> (forall p, n_at t p <> None -> from h r p) -> unshared h (Some r).
  Proof.
    intros D H. assert (G : forall a, reach h (Some r) a -> exists p c, held h r p a /\ n_at t p = Some c /\ ns h a c).
    { intros a Ra. induction Ra as [a [<-|[]]|a c n b Ra (p & [es ks] & Hp & Hn & Da) Ga Hb].
      - exists [], t. split; [|auto]. destruct (H [] ltac:(discriminate)) as [b Hb]. inversion Hb; subst. exact Hb.
      - destruct (ns_inv h a es ks Da) as (c' & kk & G' & F). rewrite Ga in G'. injection G' as <- ->. cbn [nd_kids] in Hb. rewrite olists_some in Hb.
        apply In_nth_error in Hb as [j Ej]. destruct (f2_nth_l _ _ _ _ _ F Ej) as (d & Ed & Dd).
        assert (Hd : n_at t (p ++ [j]) = Some d) by (now rewrite (n_at_snoc p t es ks j Hn)).
        destruct (H (p ++ [j])) as [b' Hb']; [congruence|]. exists (p ++ [j]), d. split; [|auto].
        destruct (held_last h (p ++ [j]) r b') as (q & j' & a' & n' & Eq & Hq & Ga' & Ea); [now destruct p|exact Hb'|].
        apply app_inj_tail in Eq as [<- <-]. pose proof (held_det _ _ _ _ Hp _ Hq) as <-. rewrite Ga in Ga'. injection Ga' as -> <-. cbn [nd_kids] in Ea.
        rewrite nth_error_map, Ej in Ea. injection Ea as <-. exact Hb'. }
    intros a c n Ra Ga. destruct (G a Ra) as (p & d & Hp & _). destruct (held_end _ _ _ _ Hp) as [n' G']. rewrite Ga in G'. now injection G'.
  Qed.

  (** ** Results *)
  Definition good_end (h : heap) (a : addr) (t : bt) len (O : list addr) (cs : list (mcall V)) (l : pay) (i k d : nat)
    (h' : heap) (r : addr) (outs : list (option (K * V) * (nat * nat))) (b : bool) (ps2 ps1 : list (list nat)) : Prop :=
    exists t', mst h t O (from h a) h' r t' (ps2 ++ ps1)
      /\ shows_at bor cmp N t len t' (s_final (firstn (length outs) cs) l i k)
      /\ Forall2 (mut_out d) outs (s_outs (firstn (length outs) cs) l i k)
      /\ Forall (fun p => exists x, In x (s_taken (firstn (S (length outs)) cs) l i k) /\ on_way t len p x) ps2
      /\ if b then length outs = length cs /\ BTreeHeapMutProofs.mheld t (from h a) h' r t' (ps2 ++ ps1) else faulty /\ ps2 ++ ps1 <> [].

  Lemma end_now h a t len O cs i k d h' r ps1 : valid (BMap len (Some t)) -> mst h t O (from h a) h' r t ps1 -> faulty -> ps1 <> [] ->
    good_end h a t len O cs (contents (BMap len (Some t))) i k d h' r [] false [] ps1.
  Proof. intros Hv M B Hn. exists t. split; auto. split; [split; auto|]. split; [constructor|]. split; [constructor|]. auto. Qed.

  Lemma iter_core h a t len O cs : wf h (a :: O) -> acyclic h -> ns h a t -> valid (BMap len (Some t)) ->
    exists h' r outs b ps2 ps1, hb_iter_mut_calls N bomb h (HB len (Some a)) cs = Ok (h', HB len (Some r), outs, b)
      /\ good_end h a t len O cs (contents (BMap len (Some t))) 0 (length (contents (BMap len (Some t)))) 0 h' r outs b ps2 ps1
      /\ (ps1 = [] \/ ps1 = [[]]).
  Proof.
    intros W A D Hv. pose proof Hv as (As & Ln & ht & Sh). cbn [bm_root bm_len] in *.
    destruct (root_start ht h a t O W A D (shape_loose N ht _ _ Sh) (levels N ht _ _ Sh)) as (h1 & x & E & R).
    unfold hb_iter_mut_calls, hb_iter_mut. cbn [hb_root hb_len]. unfold mw_make. cbn [slot_mut]. rewrite E. cbn [bind]. destruct x as [r|].
    - destruct R as (ps & I & Hr & Hps). destruct t as [es ks].
      destruct (held_at _ _ _ _ _ _ _ _ [] r es ks I Hr eq_refl) as (es1 & ks1 & cs1 & _ & G & _ & L1 & L2 & L3).
      unfold excl. rewrite G. cbn [bind nd_kids nd_data mw_at hm_client]. rewrite map_length, L1, L3.
      set (t := BN es ks) in *. set (dk := negb (length ks =? 0)).
      assert (It : iter_ok N t len h1 r (MIter [MW r 0 (length es) 0 (length ks) dk dk] len) 0 (length (contents (map_pos (BMap len (Some t))))) 0).
      { destruct (map_pos_ok bor cmp N _ Hv) as [Hm Hc]. destruct (iter_start (fun r : bref => bor (snd r)) cmp N HN _ Hm) as (W0 & D0 & Ln0 & _).
        exists [g_make (with_pos [] t)]. split.
        { constructor; [|constructor]. exists []. split; auto. exact (gsim_make t [] t eq_refl). }
        split; [exact W0|]. split.
        { constructor; [|constructor]. eapply rich_root. exact (proj1 (with_pos_ok N ht 1 t [] Sh)). }
        split; [rewrite cut_all; exact D0|]. split; [lia|]. cbn [mi_len]. rewrite <- (map_length unpos (contents (map_pos _))), Hc. lia. }
      destruct (run_ok bor cmp N HN bomb h t O (from h a) len Hv cs h1 r t (contents (BMap len (Some t))) ps _ _ _ _ [] [] I (conj Hv (conj eq_refl eq_refl)) It (Forall2_nil _)) as (h' & it' & outs & b & nps & Er & Hran).
      rewrite Er. cbn [bind]. exists h', r, outs, b, nps, ps. split; auto. split; auto. rewrite <- (proj2 (map_pos_ok bor cmp N _ Hv)) at 2. rewrite map_length. exact Hran.
    - destruct R as (M & B). cbn [hm_client]. exists h1, a, [], false, [], [[]]. split; auto. split; [|auto]. apply end_now; auto. discriminate.
  Qed.

  Lemma s_range_len lo hi (R : list (@bref K * V)) :
    s_lo (fun r : bref => bor (snd r)) cmp lo R = s_lo bor cmp lo (map unpos R)
    /\ s_hi (fun r : bref => bor (snd r)) cmp lo hi R = s_hi bor cmp lo hi (map unpos R).
  Proof.
    assert (G : forall (f : bref * V -> bool) (g : K * V -> bool), (forall x, f x = g (unpos x)) -> length (filter f R) = length (filter g (map unpos R))).
    { intros f g H. induction R as [|x R0 IH]; auto. cbn [map filter]. rewrite H. destruct (g (unpos x)); cbn [length]; now rewrite IH. }
    assert (H1 : s_lo (fun r : bref => bor (snd r)) cmp lo R = s_lo bor cmp lo (map unpos R)) by (apply G; intros [[? ?] ?]; reflexivity).
    split; auto. unfold s_hi. rewrite H1. f_equal. apply G. intros [[? ?] ?]. reflexivity.
  Qed.

  Lemma range_core h a t len O cs lo hi : wf h (a :: O) -> acyclic h -> ns h a t -> valid (BMap len (Some t)) ->
    bounds_fine bor cmp lo hi (contents (BMap len (Some t))) ->
    exists ht h' r outs b ps2 ps1, hb_range_mut_calls bor cmp N bomb h (HB len (Some a)) lo hi cs = Ok (h', HB len (Some r), outs, b)
      /\ good_end h a t len O cs (contents (BMap len (Some t))) (s_lo bor cmp lo (contents (BMap len (Some t)))) (s_hi bor cmp lo hi (contents (BMap len (Some t))))
           (length (contents (BMap len (Some t))) - length (s_range bor cmp lo hi (contents (BMap len (Some t))))) h' r outs b ps2 ps1
      /\ shape N 1 ht t /\ length ps1 <= 1 + (bd1 lo + bd1 hi) * ht.
  Proof.
    intros W A D Hv Bf. pose proof Hv as (As & Ln & ht & Sh). cbn [bm_root bm_len] in *. exists ht.
    destruct (root_start ht h a t O W A D (shape_loose N ht _ _ Sh) (levels N ht _ _ Sh)) as (h1 & x & E & R).
    pose proof (loose_depth h ht t a (shape_loose N ht _ _ Sh) D) as Dp.
    unfold hb_range_mut_calls, hb_range_mut. cbn [hb_root hb_len]. rewrite (proj1 (BTreeHistProofs.fine_good bor cmp lo hi _ Bf)).
    destruct (map_pos_ok bor cmp N _ Hv) as [Hm Hc]. destruct t as [es ks]. destruct (ns_inv h a es ks D) as (ka & kk & Ga & _).
    assert (Ep : peek h a = Ok es) by (unfold peek; now rewrite Ga).
    destruct x as [r|].
    - destruct R as (ps & I & Hr & Hps).
      assert (Ew : exists gs, make_worklist (fun r : bref => bor (snd r)) cmp (with_pos [] (BN es ks)) lo hi = Ok gs /\ Forall BTreeIterProofs.ok2 gs
        /\ Forall (rich N) gs /\ BTreeIterProofs.dens gs = s_range (fun r : bref => bor (snd r)) cmp lo hi (contents (map_pos (BMap len (Some (BN es ks)))))).
      { apply (work_ok (fun r : bref => bor (snd r)) cmp laws N HN ht 1 (with_pos [] (BN es ks)) lo hi (le_n 1)).
        - exact (proj1 (with_pos_ok N ht 1 _ [] Sh)).
        - apply Hm.
        - apply BTreeHistProofs.fine_good. apply fine_refs. change (bounds_fine bor cmp lo hi (map unpos (contents (map_pos (BMap len (Some (BN es ks))))))). now rewrite Hc. }
      destruct Ew as (gs & Ew & W1 & W2 & W3).
      destruct (work_m bor cmp bomb h (BN es ks) O (from h a) N HN ht 1 (BN es ks) (depth h) h h1 (SRoot a) a es r (BN es ks) ps [] r lo hi gs)
        as (h2 & o & nps & E2 & M2 & Ln2 & P); auto.
      { unfold depth. lia. }
      rewrite E2. cbn [bind].
      assert (Lp : length (nps ++ ps) <= 1 + (bd1 lo + bd1 hi) * ht) by (rewrite app_length; destruct Hps as [->| ->]; cbn [length]; lia).
      destruct o as [ws|].
      + destruct P as [I2 F2]. cbn [hm_client].
        assert (Hl : forall l : pay, ascending bor cmp l -> length (s_range bor cmp lo hi l) = s_hi bor cmp lo hi l - s_lo bor cmp lo l) by (intros l _; unfold s_hi; lia).
        pose proof (hi_le bor cmp laws lo hi _ As) as Hle. set (l := contents (BMap len (Some (BN es ks)))) in *.
        assert (It : iter_ok N (BN es ks) len h2 r (MIter ws len) (s_lo bor cmp lo l) (s_hi bor cmp lo hi l) (length l - length (s_range bor cmp lo hi l))).
        { exists gs. split; auto. split; auto. split; auto. split.
          { rewrite W3, (range_cut (fun r : bref => bor (snd r)) cmp laws) by apply Hm. destruct (s_range_len lo hi (contents (map_pos (BMap len (Some (BN es ks)))))) as [-> ->].
            now rewrite Hc. }
          rewrite <- (map_length unpos (contents (map_pos _))), Hc. fold l. split; auto. cbn [mi_len]. rewrite Hl by auto. lia. }
        destruct (run_ok bor cmp N HN bomb h (BN es ks) O (from h a) len Hv cs h2 r (BN es ks) l _ _ _ _ _ [] [] I2 (conj Hv (conj eq_refl eq_refl)) It (Forall2_nil _)) as (h' & it' & outs & b & n2 & Er & Hran).
        rewrite Er. cbn [bind]. exists h', r, outs, b, n2, (nps ++ ps). split; auto.
      + destruct P as (M3 & B & Hne). cbn [hm_client]. exists h2, r, [], false, [], (nps ++ ps). split; auto. split; [|auto]. apply end_now; auto. destruct nps; [congruence|discriminate].
    - destruct R as (M & B). assert (Ed : exists d, depth h = S d) by (unfold depth; destruct (length (cells h)); [lia|eauto]). destruct Ed as [d Ed].
      exists h1, a, [], false, [], [[]]. split; [|split; [apply end_now; auto; discriminate|split; [auto|cbn [length]; lia]]].
      rewrite Ed. cbn [hm_worklist slot_addr slot_mut bind]. rewrite Ep. cbn [bind]. destruct (find_range_edges bor cmp es lo hi) as [[[? ?] ?] [[? ?] ?]]. rewrite E. reflexivity.
  Qed.

  (** ** The statements *)
  Notation outs_t := (list (option (K * V) * (nat * nat))).
  Notation client_ok := (@client_ok K V Q bor cmp N bomb).
  Notation on_paths := (@on_paths K V Q bor cmp).
  Lemma end_client h a t len O cs l i k d h' r outs b ps2 ps1 : good_end h a t len O cs l i k d h' r outs b ps2 ps1 ->
    client_ok O h cs l i k d h' (HB len (Some r)) outs b.
  Proof.
    intros (t' & (W & A & D & Sk & F & _) & (Hv & Hc & _) & Fo & _ & Hb). split; [split; auto|]. split; [exact F|]. split.
    { apply (hbshows_iff bor cmp laws N HN). exists (BMap len (Some t')). split; [split; auto|]. auto. }
    split; [exact Fo|]. destruct b; tauto.
  Qed.

  Lemma end_clones h a t len O cs i k d h' r outs b ps2 ps1 : valid (BMap len (Some t)) ->
    good_end h a t len O cs (contents (BMap len (Some t))) i k d h' r outs b ps2 ps1 ->
    clones h' = map (pay_at t) ps2 ++ map (pay_at t) ps1 ++ clones h /\ NoDup (map (pay_at t) ps2 ++ map (pay_at t) ps1)
    /\ Forall (on_paths (firstn (S (length outs)) cs) (contents (BMap len (Some t))) i k t) (map (pay_at t) ps2).
  Proof.
    intros Hv (t' & (_ & _ & _ & _ & _ & _ & C & Nd & Fn) & _ & _ & Fw & _). pose proof Hv as (As & _ & ht & Sh). cbn [bm_root] in Sh.
    split; [now rewrite C, map_app, <- app_assoc|]. split.
    { rewrite <- map_app. apply (pay_nodup bor cmp laws N ht 1 t); auto. eapply Forall_impl; [|exact Fn]. intros p [H _]. exact H. }
    rewrite Forall_map. eapply Forall_impl; [|exact Fw]. intros p (x & Hx & e & q & j & E & Ef & Pq). cbv beta.
    destruct (pos_at N ht 1 t [] x e Sh E) as (q' & j' & es & ks & E1 & E2 & E3). cbn [app] in E1. rewrite Ef in E1. injection E1 as <- <-.
    exists x, (unpos e). split; auto. split.
    - rewrite <- (proj2 (map_pos_ok bor cmp N _ Hv)), nth_error_map, E. reflexivity.
    - exact (way_ok bor cmp laws N ht 1 t p q j es ks (unpos e) Sh As E2 E3 Pq).
  Qed.

  Lemma end_unshared h a t len O cs l i k d h' r outs b ps2 ps1 : ns h a t -> unshared h (Some a) ->
    good_end h a t len O cs l i k d h' r outs b ps2 ps1 -> clones h' = clones h /\ b = true /\ unshared h' (Some r).
  Proof.
    intros D U (t' & (_ & _ & D' & Sk & _ & _ & C & _ & Fn) & _ & _ & _ & Hb).
    assert (St : forall p, n_at t p <> None -> from h a p).
    { intros p Hp. destruct (n_at t p) as [c|] eqn:E; [|congruence]. destruct (unshared_held h t p a c D E U) as (x & Hx & _). now exists x. }
    assert (E : ps2 ++ ps1 = []).
    { destruct (ps2 ++ ps1) as [|p ps]; auto. inversion Fn as [|? ? [H1 H2] _]; subst. destruct (H2 (St p H1)). }
    rewrite E in *. split; [exact C|]. destruct b; [|destruct Hb as [_ Hb]; congruence]. split; auto. destruct Hb as (_ & _ & _ & Hs).
    apply (held_unshared h' r t' D'). intros p Hp. apply Hs, St. destruct (n_at t' p) as [[es ks]|] eqn:Ep; [|congruence].
    destruct (skel_at t' t p es ks Sk Ep) as (es' & ks' & -> & _). discriminate.
  Qed.

  Lemma empty_iter h len O cs : valid (BMap len None) -> sound h O ->
    hb_iter_mut_calls N bomb h (HB len None) cs = Ok (h, HB len None, map (fun _ => (None, (0, 0))) cs, true)
    /\ (forall lo hi, bad_range cmp lo hi = false -> hb_range_mut_calls bor cmp N bomb h (HB len None) lo hi cs = Ok (h, HB len None, map (fun _ => (None, (0, 0))) cs, true))
    /\ client_ok O h cs [] 0 0 0 h (HB len None) (map (fun _ => (None, (0, 0))) cs) true.
  Proof.
    intros Hv S. pose proof Hv as (_ & Ln & _). cbn in Ln. subst len. unfold hb_iter_mut_calls, hb_range_mut_calls, hb_iter_mut, hb_range_mut. cbn [hb_root hb_len bind hm_client].
    destruct (run_nil N bomb cs h) as [E1 E2]. rewrite E1. cbn [bind]. split; auto. split; [intros lo hi ->; cbn [bind hm_client]; now rewrite E1|].
    split; [exact S|]. split; [apply frame_refl|]. rewrite !map_length. rewrite firstn_all. unfold s_final, s_outs. rewrite E2. cbn [fst snd]. split.
    - apply (hbshows_iff bor cmp laws N HN). exists (BMap 0 None). split; [split; auto; exact Logic.I|]. auto.
    - split; [|reflexivity]. clear. induction cs; constructor; auto. repeat split; auto.
  Qed.

  Lemma iter_calls h m l cs O : sound h (olist (hb_root m) ++ O) -> hbshows h m l ->
    exists h' m' outs f, hb_iter_mut_calls N bomb h m cs = Ok (h', m', outs, f) /\ client_ok O h cs l 0 (length l) 0 h' m' outs f.
  Proof.
    intros So H. apply (hbshows_iff bor cmp laws N HN) in H as ([len [t|]] & [El D] & Hv & <-); destruct m as [len' [a|]]; cbn [hb_len hb_root bm_len bm_root opt_ns] in *; try contradiction; subst len'.
    - destruct So as [W A]. destruct (iter_core h a t len O cs W A D Hv) as (h' & r & outs & b & ps2 & ps1 & E & G & _).
      exists h', (HB len (Some r)), outs, b. split; auto. eapply end_client; eauto.
    - destruct (empty_iter h len O cs Hv So) as (E & _ & C). eauto 6.
  Qed.
  Lemma range_calls h m l lo hi cs O : sound h (olist (hb_root m) ++ O) -> hbshows h m l -> bounds_fine bor cmp lo hi l ->
    exists h' m' outs f, hb_range_mut_calls bor cmp N bomb h m lo hi cs = Ok (h', m', outs, f)
      /\ client_ok O h cs l (s_lo bor cmp lo l) (s_hi bor cmp lo hi l) (length l - length (s_range bor cmp lo hi l)) h' m' outs f.
  Proof.
    intros So H Bf. apply (hbshows_iff bor cmp laws N HN) in H as ([len [t|]] & [El D] & Hv & <-); destruct m as [len' [a|]]; cbn [hb_len hb_root bm_len bm_root opt_ns] in *; try contradiction; subst len'.
    - destruct So as [W A]. destruct (range_core h a t len O cs lo hi W A D Hv Bf) as (ht & h' & r & outs & b & ps2 & ps1 & E & G & _).
      exists h', (HB len (Some r)), outs, b. split; auto. eapply end_client; eauto.
    - destruct (empty_iter h len O cs Hv So) as (_ & E & C). specialize (E lo hi (proj1 (BTreeHistProofs.fine_good bor cmp lo hi _ Bf))). eauto 6.
  Qed.

  Lemma iter_lazy h m l b cs O : sound h (olist (hb_root m) ++ O) -> hbshows h m l -> hb_read h m = Ok b ->
    exists h' m' outs f c2 c1, hb_iter_mut_calls N bomb h m cs = Ok (h', m', outs, f) /\ clones h' = c2 ++ c1 ++ clones h
      /\ NoDup (c2 ++ c1)
      /\ match bm_root b with
         | None => c1 = [] /\ c2 = []
         | Some t => (c1 = [] \/ c1 = [elems_of t]) /\ Forall (on_paths (firstn (S (length outs)) cs) l 0 (length l) t) c2
         end.
  Proof.
    intros So H R. destruct (shows_read bor cmp laws N HN _ _ _ _ H R) as ([El D] & _ & Sb). apply (b_shows_iff bor cmp N laws HN) in Sb as [Hv <-]. clear H R.
    destruct b as [len [t|]], m as [len' [a|]]; cbn [hb_len hb_root bm_len bm_root opt_ns] in *; try contradiction; subst len'.
    - destruct So as [W A]. destruct (iter_core h a t len O cs W A D Hv) as (h' & r & outs & b & ps2 & ps1 & E & G & Hp).
      destruct (end_clones _ _ _ _ _ _ _ _ _ _ _ _ _ _ _ Hv G) as (C & Nd & F).
      exists h', (HB len (Some r)), outs, b, (map (pay_at t) ps2), (map (pay_at t) ps1). repeat (split; [assumption|]). split; auto.
      destruct Hp as [->| ->]; [now left|right]. reflexivity.
    - destruct (empty_iter h len O cs Hv So) as (E & _). exists h, (HB len None). eexists _, _, [], []. split; [exact E|]. split; auto. split; [constructor|auto].
  Qed.
  Lemma range_lazy h m l b lo hi cs O : sound h (olist (hb_root m) ++ O) -> hbshows h m l -> hb_read h m = Ok b -> bounds_fine bor cmp lo hi l ->
    exists h' m' outs f c2 c1 d, hb_range_mut_calls bor cmp N bomb h m lo hi cs = Ok (h', m', outs, f) /\ clones h' = c2 ++ c1 ++ clones h
      /\ NoDup (c2 ++ c1)
      /\ match bm_root b with
         | None => c1 = [] /\ c2 = []
         | Some t => 2 * (N + 1) ^ d <= length l + 1 /\ length c1 <= 1 + (bd1 lo + bd1 hi) * d
           /\ Forall (on_paths (firstn (S (length outs)) cs) l (s_lo bor cmp lo l) (s_hi bor cmp lo hi l) t) c2
         end.
  Proof.
    intros So H R Bf. destruct (shows_read bor cmp laws N HN _ _ _ _ H R) as ([El D] & _ & Sb). apply (b_shows_iff bor cmp N laws HN) in Sb as [Hv <-]. clear H R.
    destruct b as [len [t|]], m as [len' [a|]]; cbn [hb_len hb_root bm_len bm_root opt_ns] in *; try contradiction; subst len'.
    - destruct So as [W A]. destruct (range_core h a t len O cs lo hi W A D Hv Bf) as (ht & h' & r & outs & b & ps2 & ps1 & E & G & Sh & Hp).
      destruct (end_clones _ _ _ _ _ _ _ _ _ _ _ _ _ _ _ Hv G) as (C & Nd & F).
      exists h', (HB len (Some r)), outs, b, (map (pay_at t) ps2), (map (pay_at t) ps1), ht. repeat (split; [assumption|]).
      split; [exact (proj1 (count_bounds N ht 1 t Sh))|]. rewrite map_length. auto.
    - destruct (empty_iter h len O cs Hv So) as (_ & E & _). specialize (E lo hi (proj1 (BTreeHistProofs.fine_good bor cmp lo hi _ Bf))).
      exists h, (HB len None). eexists _, _, [], [], 0. split; [exact E|]. split; auto. split; [constructor|auto].
  Qed.

  Lemma muts_unshared (h : heap) m l cs O : sound h (olist (hb_root m) ++ O) -> hbshows h m l -> unshared h (hb_root m) ->
    (exists (h' : heap) m' outs, hb_iter_mut_calls N bomb h m cs = Ok (h', m', outs, true) /\ clones h' = clones h /\ unshared h' (hb_root m'))
    /\ forall lo hi, bounds_fine bor cmp lo hi l ->
       exists (h' : heap) m' outs, hb_range_mut_calls bor cmp N bomb h m lo hi cs = Ok (h', m', outs, true) /\ clones h' = clones h /\ unshared h' (hb_root m').
  Proof.
    intros So H U. apply (hbshows_iff bor cmp laws N HN) in H as ([len [t|]] & [El D] & Hv & <-); destruct m as [len' [a|]]; cbn [hb_len hb_root bm_len bm_root opt_ns] in *; try contradiction; subst len'.
    - destruct So as [W A]. split.
      + destruct (iter_core h a t len O cs W A D Hv) as (h' & r & outs & b & ps2 & ps1 & E & G & _).
        destruct (end_unshared _ _ _ _ _ _ _ _ _ _ _ _ _ _ _ _ D U G) as (C & -> & U'). eauto 6.
      + intros lo hi Bf. destruct (range_core h a t len O cs lo hi W A D Hv Bf) as (ht & h' & r & outs & b & ps2 & ps1 & E & G & _).
        destruct (end_unshared _ _ _ _ _ _ _ _ _ _ _ _ _ _ _ _ D U G) as (C & -> & U'). eauto 6.
    - destruct (empty_iter h len O cs Hv So) as (E1 & E2 & _). split; [eauto 6|]. intros lo hi Bf.
      specialize (E2 lo hi (proj1 (BTreeHistProofs.fine_good bor cmp lo hi _ Bf))). eauto 6.
  Qed.
End Whole.
