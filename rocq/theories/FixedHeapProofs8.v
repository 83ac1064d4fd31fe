(** The calls of shared maps made of arrays. *)
From Coq Require Import List PeanoNat Bool Lia.
From Verif Require Import Base Spec SpecFacts Vec Heap HeapProofs BTreeModel BTreeProofs BTreeProofs2 BTreeHeapModel BTreeHeapSpec
  BTreeHeapProofs BTreeHeapProofs2 BTreeHeapProofs3 BTreeHeapProofs5 FixedModel FixedSpec FixedProofs FixedProofs2 FixedProofs4 FixedShows
  FixedHeapModel FixedHeapSpec FixedHeapProofs FixedHeapProofs2 FixedHeapProofs3 FixedHeapProofs4 FixedHeapProofs5 FixedHeapProofs6
  FixedHeapProofs7.
Import ListNotations.
Local Open Scope nat_scope.

Section Calls.
  Context {K V Q : Type} (bor : K -> Q) (cmp : Q -> Q -> comparison).
  Context (laws : order_laws cmp) (small_key : bool).
  Variable bomb : nat -> bool.
  Notation elems := (elems K V).
  Notation okids := (option (kids addr)).
  Notation cell := (elems * okids)%type.
  Notation fheap := (heap cell).
  Notation pay := (list (K * V)).
  Notation bt := (bt K V).
  Notation er := (@er K V).
  Notation good := (@good K V).
  Notation N := MIN_OCCUPANCY.
  Notation fh_is := (fh_is bor cmp).
  Notation valid := (valid bor cmp N).
  Notation path := (@path K V Q bor cmp).
  Notation near := (@near K V Q bor cmp).
  Notation flat := (@flat K V).

  Lemma min_le : 1 <= 1 <= N.
  Proof. unfold MIN_OCCUPANCY. lia. Qed.
  Lemma er_depth (h : fheap) d (t : bt) a : shape N 1 d t -> ns (er h) a t -> d < fdepth h.
  Proof.
    intros S D. pose proof (loose_depth _ _ _ _ (shape_loose _ _ _ _ S) D) as H. unfold FixedHeapProofs.er in H. rewrite cells_hm in H.
    unfold fdepth. lia.
  Qed.
  Lemma is_intro (h : fheap) m n r l : fh_len m = n -> opt_ns (er h) (fh_root m) r -> valid (BMap n r) -> contents (BMap n r) = l -> fh_is h m l.
  Proof. intros H1 H2 H3 H4. exists (BMap n r). split; [split; auto|auto]. Qed.
  Lemma is_asc (h : fheap) m l : fh_is h m l -> ascending bor cmp l /\ fh_len m = length l.
  Proof. intros (b & [L _] & (A & La & _) & <-). split; auto. congruence. Qed.

  (** What a call does to the heap: [P] says what the map shows after it. *)
  Definition called {A} (h : fheap) (O : list addr) (M : list pay) (r : res (fheap * fhmap * out A))
      (P : fheap -> fhmap -> A -> Prop) (U : fheap -> fhmap -> Prop) : Prop :=
    exists h' m' o, r = Ok (h', m', o) /\ good h' /\ sound (er h') (olist (fh_root m') ++ O) /\ frame O (er h) (er h')
      /\ none_lost (er h) (er h') M
      /\ match o with Done x => P h' m' x | Unwound => U h' m' /\ exists n, bomb n = true end.

  Lemma get_mut_b (h : fheap) m b q w O : valid b -> good h -> sound (er h) (olist (fh_root m) ++ O) -> fhm h m b ->
    called h O (tree_of b (path q)) (fh_get_mut_map bor cmp small_key bomb h m q w)
      (fun h' m' x => x = s_get bor cmp q (contents b) /\ fh_is h' m' (s_update bor cmp q w (contents b)))
      (fun h' m' => fh_is h' m' (contents b)).
  Proof.
    intros Vb G S Hb. pose proof Hb as [L D]. unfold fh_get_mut_map, tree_of, called.
    destruct (b_get_mut_ok bor cmp laws N min_pos b q w Vb) as (b' & Eb & Vb' & Cb').
    destruct (fh_root m) as [a|] eqn:Ea, (bm_root b) as [t|] eqn:Er; cbn [opt_ns] in D; try contradiction.
    - pose proof Vb as (A & La & Sv). unfold contents in A. rewrite Er in *. destruct Sv as [d Sh].
      destruct (g_get_mut_ok bor cmp laws small_key bomb q w (fdepth h) 1 d t a (er h) O) as (g & a' & o & E & S' & F & NL & P);
        auto; [eapply er_depth; eauto|].
      destruct (get_mut_sim bor cmp small_key bomb q w _ _ _ _ _ _ G E) as (h' & E' & <- & G'). rewrite E'. cbn [bind].
      eexists _, _, _. split; [reflexivity|]. cbn [fh_root olist]. split; auto. split; [exact S'|]. split; auto. split; auto.
      unfold b_get_mut in Eb. rewrite Er in Eb. destruct (n_get_mut bor cmp q w t) as [t' r]. injection Eb as Eb1 Eb2. cbn [fst snd] in P.
      destruct o as [x|].
      + destruct P as [-> D']. split; [auto|]. rewrite <- Cb'. subst b'. eapply is_intro; eauto. cbn; auto.
      + destruct P as [D' Bb]. split; auto. exists b. split; auto. split; auto. rewrite Er. exact D'.
    - eexists _, _, _. split; [reflexivity|]. rewrite Ea. split; auto. split; auto. split; [apply frame_refl|]. split; [now apply nl_same|].
      unfold b_get_mut in Eb. rewrite Er in Eb. injection Eb as Eb1 Eb2. subst b'. split; auto. rewrite <- Cb'. exists b. auto.
  Qed.

  Lemma insert_b (h : fheap) m b k v O : valid b -> good h -> sound (er h) (olist (fh_root m) ++ O) -> fhm h m b ->
    called h O (tree_of b (path (bor k))) (fh_insert_map bor cmp small_key bomb h m k v)
      (fun h' m' x => x = s_get bor cmp (bor k) (contents b) /\ fh_is h' m' (s_insert bor cmp k v (contents b)))
      (fun h' m' => fh_is h' m' (contents b)).
  Proof.
    intros Vb G S Hb. pose proof Hb as [L D]. unfold fh_insert_map, tree_of, called.
    destruct (fh_root m) as [a|] eqn:Ea, (bm_root b) as [t|] eqn:Er; cbn [opt_ns] in D; try contradiction.
    - pose proof Vb as (A & La & Sv). assert (Ec : contents b = flat t) by (unfold contents; now rewrite Er). rewrite Ec in *. rewrite Er in Sv. destruct Sv as [d Sh].
      pose proof (length_insert bor cmp laws k v (flat t) A) as Hl. rewrite (mem_find bor cmp) in Hl.
      assert (A' : ascending bor cmp (s_insert bor cmp k v (flat t))) by now apply asc_insert.
      destruct (g_insert_ok bor cmp laws small_key bomb k v (fdepth h) 1 d t a (er h) O) as (g & a' & o & E & F & NL & P);
        auto; [eapply er_depth; eauto|].
      destruct (insert_sim bor cmp small_key bomb (k, v) _ _ _ _ _ _ G E) as (h' & E' & <- & G'). rewrite E'. cbn [bind].
      destruct o as [x|].
      2:{ destruct P as (S' & D' & Bb). eexists _, _, _. split; [reflexivity|]. cbn [fh_root olist]. split; auto. split; [exact S'|]. split; auto. split; auto.
          split; auto. exists b. split; auto. split; auto. rewrite Er. exact D'. }
      destruct P as (Y & S' & Gi). unfold s_get. destruct x as [|k0 v0|[c|] kv]; cbn [g_ins_good] in Gi; [| | |contradiction].
      + destruct Gi as (-> & G1 & t' & D' & Sh' & F'). rewrite G1 in *. eexists _, _, _. split; [reflexivity|]. cbn [fh_root olist app] in *.
        split; auto. split; [exact S'|]. split; auto. split; auto. split; auto.
        apply (is_intro h' _ (fh_len m + 1) (Some t')); auto. unfold BTreeProofs2.valid, contents. cbn [bm_root bm_len]. rewrite F'. split; auto. split; eauto. lia.
      + destruct Gi as (-> & G1 & t' & D' & Sh' & F'). rewrite G1 in *. eexists _, _, _. split; [reflexivity|]. cbn [fh_root olist app] in *.
        split; auto. split; [exact S'|]. split; auto. split; auto. split; auto.
        apply (is_intro h' _ (fh_len m) (Some t')); auto. unfold BTreeProofs2.valid, contents. cbn [bm_root bm_len]. rewrite F'. split; auto. split; eauto. lia.
      + destruct Gi as (-> & G1 & lhs & t' & Dl & D' & Sl & Sh' & F'). rewrite G1 in *. cbn [unwrap bind].
        destruct (el_push_ok el_new [] kv el_new_ok) as (e & -> & He); [cbn; unfold MAX_OCCUPANCY, max_occupancy; lia|]. cbn [bind].
        destruct (kd_push_ok kd_new [] c kd_new_ok) as (d1 & -> & Hd1); [cbn; unfold MAX_KIDS, MAX_OCCUPANCY, max_occupancy; lia|]. cbn [bind app] in *.
        destruct (kd_push_ok d1 [c] a' Hd1) as (d2 & -> & Hd2); [cbn; unfold MAX_KIDS, MAX_OCCUPANCY, max_occupancy, MIN_OCCUPANCY; lia|]. cbn [bind app] in *.
        destruct (alloc (er h') (Nd [kv] (map Some [c; a']))) as [g2 r2] eqn:Eal.
        destruct (f_alloc_sim h' e (Some d2) [kv] [c; a'] g2 r2 G') as (h2 & E2 & <- & G2); auto.
        { split; auto. split; [discriminate|exact Hd2]. }
        rewrite E2. cbn [bind].
        assert (S0 : sess (er h') (er h') [] ([c; a'] ++ []) O).
        { rewrite app_nil_r. apply sess_start. destruct S' as [W' A1]. split; auto. eapply wf_equiv; [|exact W']. intros x. cbn [app]. rewrite !cnt_cons. lia. }
        destruct (sess_alloc (er h') (er h') [] [c; a'] [] O [kv] [lhs; t'] (er h2) r2 S0) as (S4 & D4 & _ & _ & _ & C4 & _); auto.
        apply sess_end in S4 as [S4 F4]. eexists _, _, _. split; [reflexivity|]. cbn [fh_root olist]. split; auto. split; [exact S4|].
        split; [eapply frame_trans; eauto|]. split; [eapply nl_eq; eauto|]. split; auto.
        assert (EF : flat (BN [kv] [lhs; t']) = s_insert bor cmp k v (flat t)) by (rewrite <- F'; cbn; now rewrite app_nil_r).
        apply (is_intro h2 _ (fh_len m + 1) (Some (BN [kv] [lhs; t']))); auto. unfold BTreeProofs2.valid, contents. cbn [bm_root bm_len]. rewrite EF.
        split; auto. split; [lia|]. exists (Datatypes.S d). constructor; auto. cbn. unfold MAX_OCC, MIN_OCCUPANCY. lia.
    - assert (Ec : contents b = []) by (unfold contents; now rewrite Er). rewrite Ec.
      destruct (el_push_ok el_new [] (k, v) el_new_ok) as (e & -> & He); [cbn; unfold MAX_OCCUPANCY, max_occupancy; lia|]. cbn [bind app] in *.
      destruct (alloc (er h) (Nd [(k, v)] (map Some []))) as [g2 r2] eqn:Eal.
      destruct (f_alloc_sim h e None [(k, v)] [] g2 r2 G) as (h2 & E2 & <- & G2); auto. { split; auto. }
      rewrite E2. cbn [bind]. pose proof (sess_start (er h) [] O S) as S0.
      destruct (sess_alloc (er h) (er h) [] [] [] O [(k, v)] [] (er h2) r2 S0) as (S4 & D4 & _ & _ & _ & C4 & _); auto.
      apply sess_end in S4 as [S4 F4]. eexists _, _, _. split; [reflexivity|]. cbn [fh_root olist]. split; auto. split; [exact S4|].
      split; auto. split; [now apply nl_same|]. split; auto.
      apply (is_intro h2 _ 1 (Some (BN [(k, v)] []))); auto. unfold BTreeProofs2.valid, contents. cbn.
      split; [repeat constructor|]. split; auto. exists 0. constructor. cbn. unfold MAX_OCC. lia.
  Qed.

  (** A root without entries, whose last child has been taken out, is dropped. *)
  Lemma drop_bare (h : fheap) a c d g : good h -> get h a = None -> a < length (cells h) ->
    drop (give h a (Nd (c, d) [])) (Some a) = Ok g -> good g.
  Proof.
    intros G Ga La E. unfold drop, drops in E. cbn [length Nat.add] in E. cbn [drops_fuel] in E. unfold give in E.
    rewrite get_put_same in E by auto. cbn [nd_kids app] in E.
    assert (g = put (put h a (Some (1, Nd (c, d) []))) a None) as ->.
    { congruence. }
    intros b x n Gb. destruct (Nat.eq_dec a b) as [<-|Hn].
    - rewrite get_put_same in Gb by (rewrite cells_put; auto). discriminate.
    - rewrite !get_put_other in Gb by auto. eauto.
  Qed.

  Lemma remove_entry_b (h : fheap) m b q O : valid b -> good h -> sound (er h) (olist (fh_root m) ++ O) -> fhm h m b ->
    called h O (tree_of b (near q)) (fh_remove_entry bor cmp small_key bomb h m q)
      (fun h' m' x => x = s_find bor cmp q (contents b) /\ fh_is h' m' (s_remove bor cmp q (contents b)))
      (fun h' m' => fh_len m' = fh_len m /\ exists a t, fh_root m' = Some a /\ ns (er h') a t).
  Proof.
    intros Vb G S Hb. pose proof Hb as [L D]. unfold fh_remove_entry, tree_of, called.
    destruct (fh_root m) as [a|] eqn:Ea, (bm_root b) as [t|] eqn:Er; cbn [opt_ns] in D; try contradiction.
    - pose proof Vb as (A & La & Sv). assert (Ec : contents b = flat t) by (unfold contents; now rewrite Er). rewrite Ec in *. rewrite Er in Sv. destruct Sv as [d Sh].
      pose proof (length_remove bor cmp laws q (flat t) A) as Hl. rewrite (mem_find bor cmp) in Hl.
      assert (A' : ascending bor cmp (s_remove bor cmp q (flat t))) by now apply asc_remove.
      destruct (n_remove_ok bor cmp laws N min_pos 1 d t q min_le Sh A) as (t' & ret & En & Ff & Gr).
      destruct (g_remove_ok bor cmp laws small_key bomb q (fdepth h) 1 d t t' ret a (er h) O min_le Sh A) as (g & a' & o & E & S' & F & NL & P);
        auto; [eapply er_depth; eauto|].
      destruct (remove_node_sim bor cmp small_key bomb q _ _ _ _ _ _ G E) as (h1 & E' & <- & G1). rewrite E'. cbn [bind].
      destruct o as [x|].
      2:{ destruct P as (Bb & t1 & D1). eexists _, _, _. split; [reflexivity|]. cbn [fh_root fh_len olist]. split; auto. split; [exact S'|]. split; auto. split; auto.
          split; [|exact Bb]. split; auto. exists a', t1. auto. }
      destruct P as (-> & D1 & U1). destruct ret as [[old u]|].
      2:{ destruct Gr as [Gr1 Gr2]. rewrite Gr1 in *. eexists _, _, _. split; [reflexivity|]. cbn [fh_root olist]. split; auto. split; [exact S'|].
          split; auto. split; auto. split; auto. apply (is_intro h1 _ (fh_len m) (Some t')); auto. unfold BTreeProofs2.valid, contents. cbn [bm_root bm_len].
          rewrite Ff. split; auto. split; eauto. lia. }
      destruct Gr as [Gr1 Gr2]. rewrite Gr1 in *.
      assert (Lf : 1 <= length (flat t)). { destruct (flat t); [discriminate|cbn [length]; lia]. }
      rewrite usize_sub_ok by lia. cbn [bind].
      destruct (left_root bor cmp N min_pos d t' u Gr2) as (r & Erl & F' & S2); [now rewrite Ff|].
      destruct t' as [es ts]. destruct (ns_cell h1 a' es ts G1 D1) as (c & e & dd & ks & Gh & Cr & Fk).
      assert (c = 1) as ->.
      { apply unique_get in U1 as [n Hn]. unfold FixedHeapProofs.er in Hn. rewrite get_hm, Gh in Hn. now injection Hn as ->. }
      unfold fpeek. rewrite Gh. cbn [bind nd_data fst snd]. rewrite (crel_len _ _ _ _ Cr). cbn [elems_of kids_of] in Erl.
      replace (length es =? 0) with (is_nil es) by (now destruct es).
      assert (Lr : length (s_remove bor cmp q (flat t)) = length (flat t) - 1) by lia.
      destruct (u && is_nil es).
      2:{ injection Erl as <-. eexists _, _, _. split; [reflexivity|]. cbn [fh_root olist]. split; auto. split; [exact S'|]. split; auto. split; auto. split; auto.
          apply (is_intro h1 _ (fh_len m - 1) (Some (BN es ts))); auto. unfold BTreeProofs2.valid, contents. cbn [bm_root bm_len]. rewrite Ff.
          split; auto. split; [lia|]. exact S2. }
      destruct (length ts <=? 1) eqn:El; [|discriminate]. cbn [assert_ bind] in Erl. injection Erl as <-.
      pose proof (sess_start (er h1) [a'] O S') as S3.
      destruct (sess_take (er h1) (er h1) [] a' [] O es ts S3 D1 U1) as (g2 & ks' & E2 & S4 & F4 & K4 & C4 & _).
      unfold take. rewrite Gh. cbn [bind nd_data fst snd].
      unfold FixedHeapProofs.er in E2. rewrite take_hm in E2. unfold take in E2. rewrite Gh in E2. cbn [rm_ fst snd] in E2. injection E2 as <- Hes Hks.
      assert (ks' = ks) as ->.
      { cbn [nm nd_kids] in Hks. rewrite <- (olists_some ks), <- (olists_some ks'). congruence. }
      change (hm (@ent K V) (put h1 a' None)) with (er (put h1 a' None)) in *.
      set (h2 := put h1 a' None) in *.
      assert (G2 : good h2) by (eapply good_sub; [exact G1|apply subn_none]).
      assert (Lh1 : a' < length (cells h1)) by (eapply get_lt; eauto).
      assert (Ga : get h2 a' = None) by (unfold h2; now apply get_put_same).
      assert (Lh : a' < length (cells h2)) by (unfold h2; now rewrite cells_put).
      assert (X : exists root d', match dd with Some b => '(c, b') <- kd_pop b;; Ok (Some c, Some b') | None => Ok (None, None) end = Ok (root, d')
        /\ kid_ptrs d' = Ok [] /\ opt_ns (er h2) root (option_map fst (vec_pop ts)) /\ ks = olist root).
      { apply Nat.leb_le in El. pose proof Cr as [_ Hd]. destruct dd as [bb|].
        - destruct Hd as [Hn Hd]. destruct F4 as [|k0 t0 ks0 ts0 Dk F4]; [congruence|]. destruct F4; [|cbn [length] in El; lia].
          destruct (kd_pop_ok bb [] k0 Hd) as (b' & -> & Hb'). cbn [bind]. exists (Some k0), (Some b'). split; auto. split; [|cbn; auto].
          destruct Hb' as [Ha' Hl']. cbn [kid_ptrs]. rewrite Hl'. cbn. reflexivity.
        - subst ks. inversion F4; subst. exists None, None. cbn. auto. }
      destruct X as (root & d' & -> & Hp & On & ->). cbn [bind]. unfold fcls, f_node. rewrite Hp. cbn [bind].
      assert (S4' : sess (er h1) (er h2) [a'] ([] ++ olist root) O) by (rewrite app_nil_r in S4; exact S4).
      destruct (sess_close (er h1) (er h2) [] a' [] (olist root) O es [] S4') as (S5 & _ & K5 & _ & _ & C5); auto.
      destruct (sess_drop (er h1) (cls (er h2) a' es []) [] (Some a') (olist root) O S5) as (g3 & E5 & S6 & K6 & C6 & _).
      assert (Ec2 : cls (er h2) a' es [] = er (give h2 a' (Nd (e, d') []))).
      { assert (Ent : @ent K V (e, d') = es) by (unfold ent; cbn [fst]; now rewrite (el_clear_are _ _ (proj1 Cr))).
        unfold FixedHeapProofs.er. rewrite give_hm. unfold nm. cbn [nd_data nd_kids]. rewrite Ent. reflexivity. }
      rewrite Ec2 in E5. unfold FixedHeapProofs.er in E5. rewrite drop_hm in E5. apply rm_ok_inv in E5 as (h3 & E5 & ->). rewrite E5. cbn [bind].
      eexists _, _, _. split; [reflexivity|]. apply sess_end in S6 as [S6 F6]. cbn [fh_root].
      split; [eapply drop_bare; eauto|]. split; [exact S6|]. split; [eapply frame_trans; eauto|].
      split; [eapply nl_eq; [|exact NL]; exact (eq_trans C6 (eq_trans C5 C4))|]. split; auto.
      apply (is_intro h3 _ (fh_len m - 1) (option_map fst (vec_pop ts))); auto.
      + cbn [fh_root]. destruct root as [k0|], (option_map fst (vec_pop ts)) as [t0|]; cbn [opt_ns] in *; auto.
        apply K6; [apply in_or_app; left; now left|]. apply K5. exact On.
      + unfold BTreeProofs2.valid, contents. cbn [bm_root bm_len]. rewrite F', Ff. split; auto. split; [lia|]. destruct (option_map fst (vec_pop ts)); auto.
      + unfold contents. cbn [bm_root]. now rewrite F', Ff.
    - assert (Ec : contents b = []) by (unfold contents; now rewrite Er). rewrite Ec.
      eexists _, _, _. split; [reflexivity|]. rewrite Ea. split; auto. split; auto. split; [apply frame_refl|]. split; [now apply nl_same|].
      split; auto. exists b. auto.
  Qed.

  (** ** In terms of [fh_is] *)
  Notation called0 h O := (called h O).
  Definition called_is {A} (h : fheap) (O : list addr) (r : res (fheap * fhmap * out A))
      (P : fheap -> fhmap -> A -> Prop) (U : fheap -> fhmap -> Prop) : Prop :=
    exists h' m' o, r = Ok (h', m', o) /\ good h' /\ sound (er h') (olist (fh_root m') ++ O) /\ frame O (er h) (er h')
      /\ match o with Done x => P h' m' x | Unwound => U h' m' /\ exists n, bomb n = true end.
  Lemma called_weak {A} h O M (r : res (fheap * fhmap * out A)) P U : called h O M r P U -> called_is h O r P U.
  Proof. intros (h' & m' & o & H1 & H2 & H3 & H4 & _ & H5). exists h', m', o. auto 10. Qed.

  Lemma get_mut_i (h : fheap) m l q w O : good h -> sound (er h) (olist (fh_root m) ++ O) -> fh_is h m l ->
    called_is h O (fh_get_mut_map bor cmp small_key bomb h m q w)
      (fun h' m' x => x = s_get bor cmp q l /\ fh_is h' m' (s_update bor cmp q w l)) (fun h' m' => fh_is h' m' l).
  Proof. intros G S (b & Hb & Vb & <-). eapply called_weak, get_mut_b; auto. Qed.
  Lemma insert_i (h : fheap) m l k v O : good h -> sound (er h) (olist (fh_root m) ++ O) -> fh_is h m l ->
    called_is h O (fh_insert_map bor cmp small_key bomb h m k v)
      (fun h' m' x => x = s_get bor cmp (bor k) l /\ fh_is h' m' (s_insert bor cmp k v l)) (fun h' m' => fh_is h' m' l).
  Proof. intros G S (b & Hb & Vb & <-). eapply called_weak, insert_b; auto. Qed.
  Lemma remove_i (h : fheap) m l q O : good h -> sound (er h) (olist (fh_root m) ++ O) -> fh_is h m l ->
    called_is h O (fh_remove_map bor cmp small_key bomb h m q)
      (fun h' m' x => x = s_get bor cmp q l /\ fh_is h' m' (s_remove bor cmp q l)) (fun _ m' => fh_len m' = fh_len m).
  Proof.
    intros G S (b & Hb & Vb & <-). destruct (remove_entry_b h m b q O Vb G S Hb) as (h' & m' & o & E & H1 & H2 & H3 & _ & H4).
    unfold fh_remove_map. rewrite E. cbn [bind]. eexists _, _, _. split; [reflexivity|]. split; auto. split; auto. split; auto.
    destruct o as [x|]; [|destruct H4 as [[H4 _] H5]; auto]. destruct H4 as [-> H4]. auto.
  Qed.
  Lemma is_new (h : fheap) : fh_is h (FH None 0) [].
  Proof. apply (is_intro h _ 0 None); cbn; auto. unfold BTreeProofs2.valid, contents. cbn. split; [constructor|auto]. Qed.
  Lemma extend_i ps : forall (h : fheap) m l O, good h -> sound (er h) (olist (fh_root m) ++ O) -> fh_is h m l ->
    called_is h O (fh_extend bor cmp small_key bomb h m ps)
      (fun h' m' _ => fh_is h' m' (s_extend bor cmp l ps))
      (fun h' m' => exists done rest, ps = done ++ rest /\ fh_is h' m' (s_extend bor cmp l done)).
  Proof.
    induction ps as [|[k v] ps IH]; intros h m l O G S H; cbn [fh_extend].
    - exists h, m, (Done tt). split; auto. split; auto. split; auto. split; [apply frame_refl|exact H].
    - destruct (insert_i h m l k v O G S H) as (h1 & m1 & o & E & G1 & S1 & F1 & P). rewrite E. cbn [bind]. destruct o as [x|].
      + destruct P as [_ P]. destruct (IH h1 m1 _ O G1 S1 P) as (h2 & m2 & o & E2 & G2 & S2 & F2 & P2). rewrite E2.
        exists h2, m2, o. split; auto. split; auto. split; auto. split; [eapply frame_trans; eauto|].
        destruct o as [y|]; [exact P2|]. destruct P2 as [(dn & rest & -> & P2) Bb]. split; auto. exists ((k, v) :: dn), rest. auto.
      + destruct P as [P Bb]. exists h1, m1, Unwound. split; auto. split; auto. split; auto. split; auto. split; auto. exists [], ((k, v) :: ps). auto.
  Qed.
  Lemma drop_i (h : fheap) p O : good h -> sound (er h) (olist p ++ O) ->
    exists h', drop h p = Ok h' /\ good h' /\ sound (er h') O /\ frame O (er h) (er h') /\ clones (er h') = clones (er h).
  Proof.
    intros G [W A]. destruct (drop_ok (er h) p O W A) as (g & E & W1 & A1 & F & C & _). destruct (drop_sim h p g G E) as (h' & E' & <- & G').
    exists h'. split; auto. split; auto. split; [split; auto|auto].
  Qed.
  Lemma from_iter_i (h : fheap) ps O : good h -> sound (er h) O ->
    exists h' o, fh_from_iter bor cmp small_key bomb h ps = Ok (h', o) /\ good h' /\ frame O (er h) (er h')
      /\ match o with
         | Done m => sound (er h') (olist (fh_root m) ++ O) /\ fh_is h' m (s_extend bor cmp [] ps)
         | Unwound => sound (er h') O /\ exists n, bomb n = true
         end.
  Proof.
    intros G S. unfold fh_from_iter. destruct (extend_i ps h fh_new [] O G S (is_new h)) as (h1 & m1 & o & E & G1 & S1 & F1 & P).
    rewrite E. cbn [bind]. destruct o as [x|].
    - exists h1, (Done m1). auto 10.
    - destruct P as [_ Bb]. destruct (drop_i h1 (fh_root m1) O G1 S1) as (h2 & E2 & G2 & S2 & F2 & _). unfold fh_drop. rewrite E2. cbn [bind].
      exists h2, Unwound. split; auto. split; auto. split; [eapply frame_trans; eauto|auto].
  Qed.
  Lemma clone_i (h : fheap) m l O : good h -> sound (er h) (olist (fh_root m) ++ O) -> fh_is h m l ->
    exists h', fh_clone h m = Ok (h', m) /\ good h' /\ sound (er h') (olist (fh_root m) ++ olist (fh_root m) ++ O)
      /\ frame (olist (fh_root m) ++ O) (er h) (er h') /\ fh_is h' m l /\ clones h' = clones h.
  Proof.
    intros G [W A] H. unfold fh_clone.
    destruct (inc_ok (er h) (fh_root m) (olist (fh_root m) ++ O) W A) as (g & E & W' & A' & S1 & S2 & _ & Lc & C).
    { intros x Hx. apply in_or_app. left. apply in_or_app. now left. }
    destruct (inc_sim h (fh_root m) g G E) as (h' & E' & <- & G'). rewrite E'. cbn [bind]. exists h'. split; auto. split; auto. split; [split; auto|].
    assert (F : frame (olist (fh_root m) ++ O) (er h) (er h')).
    { apply same_frame; auto; [|lia]. intros a Ga _. destruct (get (er h') a) as [[c n]|] eqn:Gn; auto. apply S2 in Gn as [c' Gn]. congruence. }
    split; auto. split; [eapply is_frame; eauto; intros x Hx; apply in_or_app; now left|].
    destruct (fh_root m) as [a|]; cbn [inc] in E'; [|congruence]. destruct (get h a) as [[c n]|]; [|discriminate]. now injection E' as <-.
  Qed.
End Calls.
