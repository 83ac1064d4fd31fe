(** The functions of [FixedHeapModel] on arrays follow those of [FixedHeapProofs2] on lists. *)
From Coq Require Import List PeanoNat Bool Lia.
From Verif Require Import Base Spec Vec Heap HeapProofs BTreeModel BTreeProofs BTreeHeapModel
  FixedModel FixedProofs FixedProofs2 FixedProofs3 FixedHeapModel FixedHeapProofs FixedHeapProofs2.
Import ListNotations.
Local Open Scope nat_scope.

Ltac inv_bind H := let E := fresh "E" in let x := fresh "a" in
  match type of H with bind ?m _ = Ok _ => destruct m as [x|] eqn:E; cbn [bind] in H; [|discriminate H] end;
  try match type of x with unit => destruct x end.

Section Sim.
  Context {K V Q : Type} (bor : K -> Q) (cmp : Q -> Q -> comparison) (small_key : bool).
  Variable bomb : nat -> bool.
  Notation elems := (elems K V).
  Notation okids := (option (kids addr)).
  Notation cell := (elems * okids)%type.
  Notation fheap := (heap cell).
  Notation pay := (list (K * V)).
  Notation er := (@er K V).
  Notation good := (@good K V).
  Notation crel := (@crel K V).
  Notation entry := (K * V)%type.
  Notation N := MIN_OCCUPANCY.
  Implicit Types (e : elems) (d : okids) (es : pay) (ks : list addr) (h : fheap).

  (** ** Steps on one cell *)
  Lemma nth_set {A} i (x y : A) l : nth_error l i = Some x -> exists l1 l2, l = l1 ++ x :: l2 /\ length l1 = i /\ set_at i y l = l1 ++ y :: l2.
  Proof.
    intros E. apply nth_error_split in E as (l1 & l2 & -> & E). exists l1, l2. split; auto. split; auto.
    now apply set_at_mid.
  Qed.
  Lemma crel_some e d es ks : crel e d es ks -> is_some d = negb (is_nil ks).
  Proof. intros [_ H]. destruct d; [destruct H, ks; cbn; congruence|now subst]. Qed.
  Lemma crel_len e d es ks : crel e d es ks -> el_len e = length es.
  Proof. intros [(_ & _ & H) _]. exact H. Qed.
  Lemma crel_child e d es ks i : crel e d es ks -> fchild d i = Ok (nth_error ks i).
  Proof.
    intros [_ H]. destruct d; [destruct H; now apply fchild_ok|]. subst. cbn. now destruct i.
  Qed.
  Lemma crel_put e d es ks i c x : crel e d es ks -> nth_error ks i = Some x -> crel e (fput d i c) es (set_at i c ks).
  Proof.
    intros [He H] E. split; auto. destruct (nth_set i x c ks E) as (k1 & k2 & Ek & L & ->).
    destruct d as [b|]; [|subst ks; now destruct i]. destruct H as [Hn [Ha Hl]]. cbn [fput].
    split; [now destruct k1|]. subst ks. split; cbn [kd_ptrs kd_len]; [|rewrite Hl, !app_length; reflexivity].
    eapply set_arr; eauto.
  Qed.
  Lemma crel_kids e d es ks e' es' : crel e d es ks -> elems_are e' es' -> crel e' d es' ks.
  Proof. intros [_ H] H'. split; auto. Qed.
  Lemma search_sim q e es s : elems_are e es -> lsearch bor cmp small_key q es = Ok s ->
    search_keys bor cmp small_key q e = Ok s.
  Proof.
    intros He E. unfold lsearch in E. inv_bind E. apply assert_true in E0.
    destruct (el_live e es He) as [Ek _]; [now intros ->|]. unfold search_keys. now rewrite Ek.
  Qed.
  Lemma replace_sim e es i old kv : elems_are e es -> nth_error es i = Some old ->
    exists e', el_replace e i kv = Ok (old, e') /\ elems_are e' (set_at i kv es).
  Proof.
    intros He E. destruct (nth_set i old kv es E) as (l1 & l2 & -> & L & ->). apply el_replace_ok; auto.
  Qed.
  Lemma remove_sim e es i kv es' : elems_are e es -> vec_remove i es = Ok (kv, es') ->
    exists e', el_remove e i = Ok (kv, e') /\ elems_are e' es'.
  Proof.
    intros He E. apply vec_remove_cut in E as (x1 & x2 & -> & -> & E). apply el_remove_ok; auto.
  Qed.
  Lemma pop_sim e es kv es' : elems_are e es -> vec_pop es = Some (kv, es') ->
    exists e', el_pop e = Ok (kv, e') /\ elems_are e' es'.
  Proof. intros He E. apply vec_pop_cut in E. subst es. now apply el_pop_ok. Qed.
  Lemma last_sim e d es ks : crel e d es ks -> flast d = Ok (last_opt ks)
    /\ match d with Some b => kd_len b - 1 | None => 0 end = length ks - 1.
  Proof.
    intros [_ H]. destruct d as [b|]; [|now subst]. destruct H as [Hn H]. split; [|now rewrite (proj2 H)].
    destruct (snoc_cases ks) as [?|(k1 & x & ->)]; [congruence|]. rewrite last_snoc. eapply flast_ok; eauto.
  Qed.
  (** The first, or the last, child of a node that has children is taken out, and others are left. *)
  Lemma first_kid_sim e d es ks e' es' kid ks' : crel e d es ks -> elems_are e' es' ->
    (if is_nil ks then Ok (None, ks) else '(x, ks') <- vec_remove 0 ks;; Ok (Some x, ks')) = Ok (kid, ks') ->
    Bool.eqb (is_some kid) (negb (is_nil ks')) = true ->
    exists d', match d with Some b => '(x, b') <- kd_remove b 0;; Ok (Some x, Some b') | None => Ok (None, None) end = Ok (kid, d')
      /\ crel e' d' es' ks'.
  Proof.
    intros [_ H] He E B. destruct d as [b|].
    - destruct H as [Hn H]. destruct ks as [|x ks]; [congruence|]. cbn [is_nil] in E.
      change (vec_remove 0 (x :: ks)) with (Ok (x, ks)) in E. cbn [bind] in E. injection E as <- <-.
      destruct (kd_remove_ok b [] ks x 0 H eq_refl) as (b' & -> & Hb). cbn [bind app] in *. eexists. split; [reflexivity|].
      split; auto. split; auto. intros ->. discriminate.
    - subst ks. cbn in E. injection E as <- <-. eexists. split; [reflexivity|]. split; auto.
  Qed.
  Lemma last_kid_sim e d es ks e' es' kid ks' : crel e d es ks -> elems_are e' es' ->
    match vec_pop ks with Some (x, ks') => (Some x, ks') | None => (None, ks) end = (kid, ks') ->
    Bool.eqb (is_some kid) (negb (is_nil ks')) = true ->
    exists d', match d with Some b => '(x, b') <- kd_pop b;; Ok (Some x, Some b') | None => Ok (None, None) end = Ok (kid, d')
      /\ crel e' d' es' ks'.
  Proof.
    intros [_ H] He E B. destruct d as [b|].
    - destruct H as [Hn H]. destruct (snoc_cases ks) as [->|(k1 & x & ->)]; [congruence|]. rewrite vec_pop_snoc in E.
      injection E as <- <-. destruct (kd_pop_ok b k1 x H) as (b' & -> & Hb). cbn [bind]. eexists. split; [reflexivity|].
      split; auto. split; auto. intros ->. discriminate.
    - subst ks. cbn in E. injection E as <- <-. eexists. split; [reflexivity|]. split; auto.
  Qed.

  (** ** [get_mut] and [insert] *)
  Theorem get_mut_sim q w : forall fuel h a g a' o, good h ->
    g_get_mut bor cmp small_key bomb fuel (er h) a q w = Ok (g, a', o) ->
    exists h', fh_get_mut bor cmp small_key bomb fuel h a q w = Ok (h', a', o) /\ er h' = g /\ good h'.
  Proof.
    induction fuel as [|fuel IH]; intros h a g a' o G E; [discriminate|]. cbn [g_get_mut fh_get_mut] in *.
    inv_bind E. destruct a0 as [g1 r]. destruct (fopn_sim bomb _ _ _ _ G E0) as (h1 & r' & -> & <- & G1 & Or). cbn [bind].
    destruct r as [[[a1 es] ks]|], r' as [[[a2 e] d]|]; cbn [orel] in Or; try contradiction.
    2:{ injection E as <- <- <-. eauto. }
    destruct Or as [-> Cr]. inv_bind E. rewrite (search_sim _ _ _ _ (proj1 Cr) E1). cbn [bind].
    destruct a0 as [i|i].
    - inv_bind E. destruct (nth_error es i) as [[k v]|] eqn:En; [|discriminate]. injection E2 as <-. injection E as <- <- <-.
      destruct (el_live e es (proj1 Cr)) as [_ ->]; [intros ->; now destruct i|]. cbn [bind].
      rewrite nth_error_map, En. cbn [option_map unwrap bind fst snd].
      destruct (nth_set i (k, v) (k, w v) es En) as (l1 & l2 & -> & L & Es). rewrite Es.
      assert (He : elems_are (Elems (el_keys e) (set_at i (Some (w v)) (el_vals e)) (el_len e)) (l1 ++ (k, w v) :: l2)).
      { destruct Cr as [(Hk & Hv & Hl) _]. rewrite map_app in Hk, Hv. cbn [map fst snd] in Hk, Hv.
        split; [|split]; cbn [el_keys el_vals el_len]; rewrite ?map_app; cbn [map fst snd]; auto.
        - eapply set_arr; eauto. now rewrite map_length.
        - rewrite Hl, !app_length. reflexivity. }
      destruct (fcls_sim h1 a1 _ _ _ _ G1 (crel_kids _ _ _ _ _ _ Cr He)) as (h2 & -> & <- & G2). cbn [bind]. eauto.
    - rewrite (crel_child _ _ _ _ i Cr). cbn [bind]. destruct (nth_error ks i) as [c|] eqn:En.
      + inv_bind E. destruct a0 as [[g2 c'] o']. injection E as <- <- <-.
        destruct (IH _ _ _ _ _ G1 E2) as (h2 & -> & <- & G2). cbn [bind].
        destruct (fcls_sim h2 a1 _ _ _ _ G2 (crel_put _ _ _ _ i c' c Cr En)) as (h3 & -> & <- & G3). cbn [bind]. eauto.
      + injection E as <- <- <-.
        destruct (fcls_sim h1 a1 _ _ _ _ G1 Cr) as (h2 & -> & <- & G2). cbn [bind]. eauto.
  Qed.

  Lemma absorb_sim h a e d es ks ub kid kv g a' o : good h -> crel e d es ks ->
    g_absorb (er h) a es ks ub kid kv = Ok (g, a', o) ->
    exists h', (if el_len e <? MAX_OCCUPANCY then
              '(e', d') <- cell_absorb e d ub kid kv;;
              h3 <- fcls h a e' d';;
              Ok (h3, a, Done FHAbsorbed)
            else
              '((he, hd), (le, ld), div) <- cell_split e d ub kid kv;;
              h3 <- fcls h a he hd;;
              '(h4, b) <- f_alloc h3 le ld;;
              Ok (h4, a, Done (FHSplit (Some b) div))) = Ok (h', a', o) /\ er h' = g /\ good h'.
  Proof.
    intros G Cr E. unfold g_absorb in E. inv_bind E. inv_bind E. inv_bind E. inv_bind E.
    apply assert_true in E0, E1, E2, E3. apply Nat.leb_le in E2, E3. rewrite (crel_len _ _ _ _ Cr).
    pose proof (crel_some _ _ _ _ Cr) as Es. rewrite <- Es in E0.
    destruct (length es <? MAX_OCCUPANCY) eqn:El.
    - injection E as <- <- <-. apply Nat.ltb_lt in El. unfold cell_absorb. rewrite (crel_len _ _ _ _ Cr).
      destruct (Nat.ltb_spec (length es) MAX_OCCUPANCY); [|lia].
      destruct (Nat.leb_spec ub (length es)); [|lia]. rewrite E0. cbn [assert_ bind].
      rewrite <- (firstn_skipn ub es) in Cr, El. destruct Cr as [He Hd].
      destruct (el_insert_ok e _ _ kv ub He El) as (e' & -> & He'); [rewrite firstn_length; lia|]. cbn [bind].
      assert (X : exists d', match kid with Some c => d1 <- unwrap d;; d2 <- kd_insert d1 ub c;; Ok (Some d2) | None => Ok d end = Ok d'
        /\ crel e' d' (ins_at ub kv es) (match kid with Some c => ins_at ub c ks | None => ks end)).
      { destruct kid as [c|].
        - destruct d as [b|]; [|discriminate]. destruct Hd as [Hn Hb]. cbn [unwrap bind].
          destruct ks as [|k ks]; [congruence|]. cbn [is_nil orb] in E1. apply Nat.eqb_eq in E1.
          rewrite firstn_skipn in El. rewrite <- (firstn_skipn ub (k :: ks)) in Hb.
          destruct (kd_insert_ok b _ _ c ub Hb) as (b' & -> & Hb').
          { rewrite firstn_skipn, E1. unfold MAX_KIDS. lia. }
          { rewrite firstn_length. lia. }
          cbn [bind]. eexists. split; [reflexivity|]. split; auto. split; auto. unfold FixedProofs3.put. now destruct (firstn ub (k :: ks)).
        - eexists. split; [reflexivity|]. split; auto. }
      destruct X as (d' & -> & Cr'). cbn [bind].
      destruct (fcls_sim h a _ _ _ _ G Cr') as (h' & -> & <- & G'). cbn [bind]. eauto.
    - apply Nat.ltb_ge in El. assert (Le : length es = MAX_OCCUPANCY) by lia.
      set (m := lo_len ub) in *. cbv zeta in E. rewrite Le in E2.
      destruct (alloc _ _) as [g2 bn] eqn:Ea in E. injection E as <- <- <-.
      assert (X : exists he hd le ld, cell_split e d ub kid kv = Ok ((he, hd), (le, ld), nth m (ins_at ub kv es) kv)
        /\ crel he hd (skipn (S m) (ins_at ub kv es)) (skipn (S m) (match kid with Some c => ins_at ub c ks | None => ks end))
        /\ crel le ld (firstn m (ins_at ub kv es)) (firstn (S m) (match kid with Some c => ins_at ub c ks | None => ks end))).
      { destruct Cr as [He Hd]. destruct d as [b|], kid as [c|]; try discriminate E0.
        - destruct Hd as [Hn Hb]. destruct ks as [|k ks]; [congruence|]. cbn [is_nil orb] in E1. apply Nat.eqb_eq in E1.
          assert (Lk : length (k :: ks) = MAX_KIDS) by (rewrite E1; unfold MAX_KIDS; now rewrite Le).
          destruct (cell_split_branch e es b (k :: ks) ub c kv He Hb Le Lk) as (le & he & ld & hd & -> & X1 & X2 & X3 & X4); [lia|].
          exists he, (Some hd), le, (Some ld). split; [reflexivity|].
          assert (Lp : length (ins_at ub c (k :: ks)) = 13).
          { unfold FixedProofs3.put. rewrite app_length. cbn [length]. rewrite firstn_length, skipn_length, Lk.
            change MAX_OCCUPANCY with 11 in *. change MAX_KIDS with 12. lia. }
          split; split; auto; split; auto.
          + intros X. apply (f_equal (@length _)) in X. rewrite skipn_length, Lp in X. unfold m, lo_len in X.
            destruct (ub <=? MIN_OCCUPANCY); cbn in X; lia.
          + now destruct (ins_at ub c (k :: ks)).
        - subst ks. destruct (@cell_split_leaf K V addr e es ub kv He Le) as (le & he & -> & X1 & X2); [lia|].
          exists he, None, le, None. split; [reflexivity|]. split; split; auto. }
      destruct X as (he & hd & le & ld & -> & C1 & C2). cbn [bind].
      destruct (fcls_sim h a _ _ _ _ G C1) as (h3 & -> & E3h & G3). cbn [bind]. rewrite <- E3h in Ea.
      destruct (f_alloc_sim h3 _ _ _ _ _ _ G3 C2 Ea) as (h4 & -> & <- & G4). cbn [bind]. eauto.
  Qed.

  Theorem insert_sim kv : forall fuel h a g a' o, good h ->
    g_insert bor cmp small_key bomb fuel (er h) a kv = Ok (g, a', o) ->
    exists h', fh_insert bor cmp small_key bomb fuel h a kv = Ok (h', a', o) /\ er h' = g /\ good h'.
  Proof.
    induction fuel as [|fuel IH]; intros h a g a' o G E; [discriminate|]. cbn [g_insert fh_insert] in *.
    inv_bind E. destruct a0 as [g1 r]. destruct (fopn_sim bomb _ _ _ _ G E0) as (h1 & r' & -> & <- & G1 & Or). cbn [bind].
    destruct r as [[[a1 es] ks]|], r' as [[[a2 e] d]|]; cbn [orel] in Or; try contradiction.
    2:{ injection E as <- <- <-. eauto. }
    destruct Or as [-> Cr]. inv_bind E. rewrite (search_sim _ _ _ _ (proj1 Cr) E1). cbn [bind].
    destruct a0 as [ub|ub].
    - inv_bind E. destruct (nth_error es ub) as [old|] eqn:En; [|discriminate]. injection E2 as <-. injection E as <- <- <-.
      destruct (replace_sim e es ub old kv (proj1 Cr) En) as (e' & -> & He'). cbn [bind].
      destruct (fcls_sim h1 a1 _ _ _ _ G1 (crel_kids _ _ _ _ _ _ Cr He')) as (h2 & -> & <- & G2). cbn [bind]. eauto.
    - rewrite (crel_child _ _ _ _ ub Cr). cbn [bind]. inv_bind E. destruct a0 as [[g2 ks1] r].
      assert (X : exists h2 d1, match nth_error ks ub with
                          | Some c => '(h2, c', o) <- fh_insert bor cmp small_key bomb fuel h1 c kv;; Ok (h2, fput d ub c', o)
                          | None => Ok (h1, d, Done (FHSplit None kv))
                          end = Ok (h2, d1, r) /\ er h2 = g2 /\ good h2 /\ crel e d1 es ks1).
      { destruct (nth_error ks ub) as [c|] eqn:En.
        - inv_bind E2. destruct a0 as [[g3 c'] o']. injection E2 as <- <- <-.
          destruct (IH _ _ _ _ _ G1 E3) as (h2 & -> & <- & G2). cbn [bind]. eexists _, _. split; [reflexivity|].
          split; auto. split; auto. eapply crel_put; eauto.
        - injection E2 as <- <- <-. eexists _, _. split; [reflexivity|]. auto. }
      destruct X as (h2 & d1 & -> & <- & G2 & Cr2). cbn [bind].
      destruct r as [[|k0 v0|kid kv1]|];
        try (injection E as <- <- <-; destruct (fcls_sim h2 a1 _ _ _ _ G2 Cr2) as (h3 & -> & <- & G3); cbn [bind]; eauto; fail).
      eapply absorb_sim; eauto.
  Qed.
End Sim.
