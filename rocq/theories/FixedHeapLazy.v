(** A fixed [BTreeMap] none of whose nodes is shared is changed in place: no node is cloned, and nothing can
    unwind. First for the functions on lists of [FixedHeapProofs2], then for those on arrays. *)
From Coq Require Import List PeanoNat Bool Lia.
From Verif Require Import Base Spec SpecFacts Vec Heap HeapProofs BTreeModel BTreeProofs BTreeProofs2 BTreeHeapModel BTreeHeapSpec
  BTreeHeapProofs BTreeHeapProofs2 BTreeHeapProofs3 BTreeHeapProofs5 BTreeHeapLazy BTreeHeapProofs9 FixedModel FixedSpec FixedProofs FixedProofs2 FixedProofs3
  FixedProofs4 FixedShows FixedHeapModel FixedHeapSpec FixedHeapProofs FixedHeapProofs2 FixedHeapProofs3 FixedHeapProofs4 FixedHeapProofs5
  FixedHeapProofs6 FixedHeapProofs7 FixedHeapProofs8 FixedHeapProofs9.
Import ListNotations.
Local Open Scope nat_scope.

Section LazyLists.
  Context {K V Q : Type} (bor : K -> Q) (cmp : Q -> Q -> comparison) (small_key : bool).
  Variable bomb : nat -> bool.
  Variable U : addr -> Prop.
  Notation pay := (list (K * V)).
  Notation heap := (heap pay).
  Notation N := MIN_OCCUPANCY.
  Variable c0 : list pay.
  Notation ok := (ok U c0).
  Notation pins := (Forall U).
  Notation lnode := (lnode U c0).
  Notation lpart := (lpart U c0).

  Lemma pins_put i c ks : pins ks -> U c -> pins (ins_at i c ks).
  Proof. intros P Hc. unfold FixedProofs3.put. destruct (pins_parts U i ks P). apply Forall_app; split; auto. Qed.

  Hint Resolve cls_ok pins_set pins_some pins_put : lz.
  Ltac opn_ hx ex kx Ox Px := eapply l_bind; [apply (opn_lone bomb U c0); [solve [auto with lz]..|solve [eauto with lz]]|];
    intros [hx [[[? ex] kx]|]] [Ox Px]; cbn [fst snd isd] in Ox, Px; [destruct Px as [-> Px]|destruct Px].
  Ltac un := apply l_pure; let E := fresh "Eu" in intros ? E; try apply unwrap_ok in E.

  Lemma g_rot_lf_lone (h : heap) es ks i : ok h -> pins ks -> lres lpart (g_rot_lf bomb h es ks i).
  Proof.
    intros O P. unfold g_rot_lf. un. un. pose proof (pins_nth _ _ _ _ P Eu0). un. un. opn_ h1 es1 ks1 O1 P1.
    apply l_pure. intros [kv2 r'] E1.
    eapply l_bind with (P := fun x => pins (olist (fst x)) /\ pins (snd x)).
    { destruct (is_nil ks1); [split; cbn; auto|]. apply l_pure. intros [x l1] E2. apply (pins_remove U) in E2 as [? ?]; auto. split; cbn; auto. }
    intros [kid ks'] [Pk1 Pk2]. cbn [fst snd] in *. un. un. un. assert (Ua : U a5) by (eapply (pins_nth U); [|exact Eu5]; auto with lz).
    un. un. opn_ h2 es2 ks2 O2 P2. un. un. un. split; [|split]; cbn [fst snd isd]; auto with lz; try exact Logic.I.
    apply cls_ok; auto. apply Forall_app; auto.
  Qed.
  Lemma g_rot_rt_lone (h : heap) es ks i : ok h -> pins ks -> lres lpart (g_rot_rt bomb h es ks i).
  Proof.
    intros O P. unfold g_rot_rt. un. un. pose proof (pins_nth _ _ _ _ P Eu0). un. un. opn_ h1 es1 ks1 O1 P1.
    apply l_pure. intros [kv2 r'] E1.
    destruct (match vec_pop ks1 with Some (x, l_ks') => (Some x, l_ks') | None => (None, ks1) end) as [kid ks'] eqn:Ek.
    assert (Pk' : pins (olist kid) /\ pins ks').
    { destruct (vec_pop ks1) as [[x l']|] eqn:Ep; injection Ek as <- <-; cbn; auto. apply (pins_pop U) in Ep as [? ?]; auto. }
    destruct Pk' as [Pk1 Pk2]. un. un. un. assert (Ua : U a5) by (eapply (pins_nth U); [|exact Eu5]; auto with lz).
    opn_ h2 es2 ks2 O2 P2. un. un. un. un. eapply l_bind with (P := pins).
    { destruct kid as [x|]; [|exact P2]. inversion Pk1; subst. unfold lres. destruct (vec_insert 0 x ks2) eqn:Ei; auto. eapply (pins_insert U); [| |exact Ei]; auto. }
    intros r_ks' Pr. split; [|split]; cbn [fst snd isd]; auto with lz; exact Logic.I.
  Qed.
  Lemma g_merge_lone (h : heap) es ks i : ok h -> pins ks -> lres lpart (g_merge bomb h es ks i).
  Proof.
    intros O P. unfold g_merge. apply l_pure. intros [r ks0] E. apply (pins_remove U) in E as [Ul P0]; auto. un.
    eapply l_bind; [apply (own_lone bomb U c0); auto|]. intros [h1 [[l_es l_ks]|]] [O1 Pl]; cbn [fst snd isd] in *; [|contradiction].
    apply l_pure. intros [mid es1] _.
    un. assert (Ur : U a0) by (eapply (pins_nth U); [exact P0|eauto]). opn_ h2 es2 ks2 O2 P2. un. un. un. un.
    split; [|split]; cbn [fst snd isd]; auto with lz; try exact Logic.I.
    apply cls_ok; auto. apply Forall_app; auto.
  Qed.
  Lemma g_rebal_lone (h : heap) es ks i : ok h -> pins ks -> lres lpart (g_rebal bomb h es ks i).
  Proof.
    intros O P. unfold g_rebal. un. un. un. un. eapply l_bind with (P := lpart).
    - destruct (0 <? i); un; un; destruct (_ <? _); auto using g_rot_rt_lone, g_rot_lf_lone, g_merge_lone.
    - intros [[[h1 es1] ks1] [[]|]] (O1 & P1 & D1); cbn [fst snd isd] in *; [|contradiction]. split; auto.
  Qed.
  Lemma g_rebal_cls_lone (h : heap) a es ks i kv : ok h -> U a -> pins ks -> lres (lnode any) (g_rebal_cls bomb h a es ks i kv).
  Proof.
    intros O Ua P. unfold g_rebal_cls. eapply l_bind; [now apply g_rebal_lone|].
    intros [[[h1 es1] ks1] [u|]] (O1 & P1 & D1); cbn [fst snd isd] in *; [|contradiction]. split; [|split]; cbn; auto with lz; exact Logic.I.
  Qed.
  Hint Resolve l_node g_rebal_cls_lone Logic.I : lz.

  Lemma g_pop_last_lone fuel : forall (h : heap) a, ok h -> U a -> lres (lnode any) (g_pop_last bomb fuel h a).
  Proof.
    induction fuel as [|fuel IH]; intros h a O Ua; [exact Logic.I|]. cbn [g_pop_last]. opn_ h0 p l O0 Pk. destruct (last_opt l) as [c|] eqn:Ec.
    - eapply l_bind; [apply IH; [auto|eapply (pins_nth U); eauto]|]. intros [[h2 c'] [o|]] (O2 & Uc & D2); cbn [fst snd isd] in *; [|contradiction].
      cbv zeta. destruct o as [[kv [|]]|]; auto 6 with lz; apply l_node; auto with lz; exact Logic.I.
    - apply l_pure. intros [kv es'] _. apply l_node; auto with lz; exact Logic.I.
  Qed.
  Lemma g_get_mut_lone q w fuel : forall (h : heap) a, ok h -> U a -> lres (lnode any) (g_get_mut bor cmp small_key bomb fuel h a q w).
  Proof.
    induction fuel as [|fuel IH]; intros h a O Ua; [exact Logic.I|]. cbn [g_get_mut]. opn_ h0 p l O0 Pk. un. destruct a0 as [i|i].
    - un. apply l_node; auto with lz; exact Logic.I.
    - destruct (nth_error l i) as [c|] eqn:Ec; [|apply l_node; auto with lz; exact Logic.I].
      eapply l_bind; [apply IH; [auto|eapply (pins_nth U); eauto]|]. intros [[h2 c'] [o|]] (O2 & Uc & D2); cbn [fst snd isd] in *; [|contradiction].
      apply l_node; auto with lz.
  Qed.
  Lemma g_remove_lone q fuel : forall (h : heap) a, ok h -> U a -> lres (lnode any) (g_remove bor cmp small_key bomb fuel h a q).
  Proof.
    induction fuel as [|fuel IH]; intros h a O Ua; [exact Logic.I|]. cbn [g_remove]. opn_ h0 p l O0 Pk. un. destruct a0 as [i|i].
    - destruct (is_nil l).
      + apply l_pure. intros [kv es'] _. apply l_node; auto with lz; exact Logic.I.
      + un. eapply l_bind; [apply g_pop_last_lone; [auto|eapply (pins_nth U); eauto]|]. intros [[h2 c'] [o|]] (O2 & Uc & D2); cbn [fst snd isd] in *; [|contradiction].
        cbv zeta. apply l_pure. intros [kv under] _. un. destruct under; auto with lz; apply l_node; auto with lz; exact Logic.I.
    - destruct (nth_error l i) as [c|] eqn:Ec; [|apply l_node; auto with lz; exact Logic.I].
      eapply l_bind; [apply IH; [auto|eapply (pins_nth U); eauto]|]. intros [[h2 c'] [o|]] (O2 & Uc & D2); cbn [fst snd isd] in *; [|contradiction].
      cbv zeta. destruct o as [[kv [|]]|]; auto 6 with lz; apply l_node; auto with lz; exact Logic.I.
  Qed.

  Definition pinned (r : fh_res K V) : Prop := match r with FHSplit c _ => pins (olist c) | _ => True end.
  Lemma g_absorb_lone (h : heap) a es ks ub kid kv : ok h -> U a -> pins ks -> pins (olist kid) ->
    lres (lnode pinned) (g_absorb h a es ks ub kid kv).
  Proof.
    intros O Ua P Pk. unfold g_absorb. un. un. un. un. cbv zeta.
    assert (P1 : pins (match kid with Some c => ins_at ub c ks | None => ks end)).
    { destruct kid as [c|]; auto. inversion Pk; subst. auto with lz. }
    destruct (_ <? _); [apply l_node; cbn; auto with lz|].
    destruct (alloc (cls h a _ _) _) as [h2 b] eqn:E. apply (alloc_lone U c0) in E as [O2 Ub].
    - apply l_node; cbn; auto.
    - apply cls_ok; auto. now apply (pins_parts U).
    - apply pins_some. now apply (pins_parts U).
  Qed.
  Lemma g_insert_lone kv fuel : forall (h : heap) a, ok h -> U a -> lres (lnode pinned) (g_insert bor cmp small_key bomb fuel h a kv).
  Proof.
    induction fuel as [|fuel IH]; intros h a O Ua; [exact Logic.I|]. cbn [g_insert]. opn_ h0 p l O0 Pk. un. destruct a0 as [ub|ub].
    - un. apply l_node; cbn; auto with lz.
    - eapply l_bind with (P := fun x : heap * list addr * out (fh_res K V) => ok (fst (fst x)) /\ pins (snd (fst x)) /\ isd pinned (snd x)).
      { destruct (nth_error l ub) as [c|] eqn:Ec; [|cbn; auto].
        eapply l_bind; [apply IH; [auto|eapply (pins_nth U); eauto]|]. intros [[h2 c'] [o|]] (O2 & Uc & D2); cbn [fst snd isd] in *; [|contradiction]. cbn. auto with lz. }
      intros [[h2 ks1] [r|]] (O2 & P2 & D2); cbn [fst snd isd] in *; [|contradiction].
      destruct r as [|k0 v0|c kv1]; try (apply l_node; cbn; auto with lz; fail). now apply g_absorb_lone.
  Qed.
End LazyLists.

Section LazyArrays.
  Context {K V Q : Type} (bor : K -> Q) (cmp : Q -> Q -> comparison).
  Context (laws : order_laws cmp) (small_key : bool).
  Variable bomb : nat -> bool.
  Notation elems := (elems K V).
  Notation okids := (option (kids addr)).
  Notation cell := (elems * okids)%type.
  Notation fheap := (heap cell).
  Notation pay := (list (K * V)).
  Notation er := (@er K V).
  Notation good := (@good K V).
  Notation N := MIN_OCCUPANCY.
  Notation valid := (valid bor cmp N).
  Notation fh_shows := (@fh_shows K V Q bor cmp).

  Definition alike {A} U c (r : res (fheap * fhmap * out A)) : Prop :=
    forall h' m' o, r = Ok (h', m', o) -> ok U c (er h') /\ Forall U (olist (fh_root m')) /\ o <> Unwound.

  Section Within.
    Variables (U : addr -> Prop) (c : list pay).
    Notation ok := (ok U c).
    Notation pins := (Forall U).
    Notation alike := (alike U c).

    Lemma get_mut_alike (h : fheap) m b q w O : valid b -> good h -> sound (er h) (olist (fh_root m) ++ O) -> fhm h m b ->
      ok (er h) -> pins (olist (fh_root m)) -> alike (fh_get_mut_map bor cmp small_key bomb h m q w).
    Proof.
      intros Vb G S Hb Ok0 P0 h' m' o E0. pose proof Hb as [L D]. unfold fh_get_mut_map in E0.
      destruct (fh_root m) as [a|] eqn:Ea, (bm_root b) as [t|] eqn:Er; cbn [opt_ns] in D; try contradiction.
      - pose proof Vb as (A & La & Sv). unfold contents in A. rewrite Er in *. destruct Sv as [d Sh]. inversion P0 as [|? ? Ua _]; subst.
        destruct (g_get_mut_ok bor cmp laws small_key bomb q w (fdepth h) 1 d t a (er h) O) as (g & a' & o1 & E & _);
          auto; [eapply er_depth; eauto|].
        destruct (get_mut_sim bor cmp small_key bomb q w _ _ _ _ _ _ G E) as (h1 & E' & <- & G'). rewrite E' in E0. cbn [bind] in E0.
        pose proof (g_get_mut_lone bor cmp small_key bomb U c q w (fdepth h) (er h) a Ok0 Ua) as X. rewrite E in X. destruct X as (X1 & X2 & X3). cbn [fst snd] in *.
        injection E0 as <- <- <-. split; auto. split; [cbn; auto|]. destruct o1; [discriminate|contradiction].
      - injection E0 as <- <- <-. rewrite Ea. split; auto. split; auto. discriminate.
    Qed.
    Lemma insert_alike (h : fheap) m b k v O : valid b -> good h -> sound (er h) (olist (fh_root m) ++ O) -> fhm h m b ->
      ok (er h) -> pins (olist (fh_root m)) -> alike (fh_insert_map bor cmp small_key bomb h m k v).
    Proof.
      intros Vb G S Hb Ok0 P0 h' m' o E0. pose proof Hb as [L D]. unfold fh_insert_map in E0.
      destruct (fh_root m) as [a|] eqn:Ea, (bm_root b) as [t|] eqn:Er; cbn [opt_ns] in D; try contradiction.
      - pose proof Vb as (A & La & Sv). unfold contents in A. rewrite Er in *. destruct Sv as [d Sh]. inversion P0 as [|? ? Ua _]; subst.
        destruct (g_insert_ok bor cmp laws small_key bomb k v (fdepth h) 1 d t a (er h) O) as (g & a' & o1 & E & _);
          auto; [eapply er_depth; eauto|].
        destruct (insert_sim bor cmp small_key bomb (k, v) _ _ _ _ _ _ G E) as (h1 & E' & <- & G'). rewrite E' in E0. cbn [bind] in E0.
        pose proof (g_insert_lone bor cmp small_key bomb U c (k, v) (fdepth h) (er h) a Ok0 Ua) as X. rewrite E in X. destruct X as (X1 & X2 & X3). cbn [fst snd isd] in *.
        destruct o1 as [[|k0 v0|[x|] kv]|]; cbn [isd pinned] in X3; [| | | |contradiction].
        1, 2: injection E0 as <- <- <-; split; auto; split; [cbn; auto|discriminate].
        2: discriminate.
        cbn [unwrap bind] in E0.
        destruct (el_push_ok el_new [] kv el_new_ok) as (e & Ee & He); [cbn; unfold MAX_OCCUPANCY, max_occupancy; lia|]. rewrite Ee in E0. cbn [bind] in E0.
        destruct (kd_push_ok kd_new [] x kd_new_ok) as (d1 & Ed1 & Hd1); [cbn; unfold MAX_KIDS, MAX_OCCUPANCY, max_occupancy; lia|]. rewrite Ed1 in E0. cbn [bind app] in *.
        destruct (kd_push_ok d1 [x] a' Hd1) as (d2 & Ed2 & Hd2); [cbn; unfold MAX_KIDS, MAX_OCCUPANCY, max_occupancy, MIN_OCCUPANCY; lia|]. rewrite Ed2 in E0. cbn [bind app] in *.
        destruct (alloc (er h1) (Nd [kv] (map Some [x; a']))) as [g2 r2] eqn:Eal.
        destruct (f_alloc_sim h1 e (Some d2) [kv] [x; a'] g2 r2 G') as (h2 & E2 & <- & G2); auto.
        { split; auto. split; [discriminate|exact Hd2]. }
        rewrite E2 in E0. cbn [bind] in E0. apply (alloc_lone U c) in Eal as [O2 Ur]; auto.
        2:{ cbn. inversion X3; subst. auto. }
        injection E0 as <- <- <-. split; auto. split; [cbn; auto|discriminate].
      - destruct (el_push_ok el_new [] (k, v) el_new_ok) as (e & Ee & He); [cbn; unfold MAX_OCCUPANCY, max_occupancy; lia|]. rewrite Ee in E0. cbn [bind app] in *.
        destruct (alloc (er h) (Nd [(k, v)] (map Some []))) as [g2 r2] eqn:Eal.
        destruct (f_alloc_sim h e None [(k, v)] [] g2 r2 G) as (h2 & E2 & <- & G2); auto. { split; auto. }
        rewrite E2 in E0. cbn [bind] in E0. apply (alloc_lone U c) in Eal as [O2 Ur]; auto.
        injection E0 as <- <- <-. split; auto. split; [cbn; auto|discriminate].
    Qed.

    Lemma some_ptrs (b : kids addr) ks : kids_are b ks -> kid_ptrs (Some b) = Ok (map Some ks).
    Proof.
      intros [Ha Hl]. cbn [kid_ptrs]. pose proof (arr_len _ _ _ Ha) as Ln. destruct Ha as [Hn Ha]. rewrite Hn, Hl.
      destruct (Nat.leb_spec (length ks) MAX_KIDS); [|lia]. cbn [assert_ bind].
      rewrite (arr_firstn MAX_KIDS), all_init_some by (split; auto). reflexivity.
    Qed.
    Lemma remove_alike (h : fheap) m b q O : valid b -> good h -> sound (er h) (olist (fh_root m) ++ O) -> fhm h m b ->
      ok (er h) -> pins (olist (fh_root m)) -> alike (fh_remove_entry bor cmp small_key bomb h m q).
    Proof.
      intros Vb G S Hb Ok0 P0 h' m' o E0. pose proof Hb as [L D]. unfold fh_remove_entry in E0.
      destruct (fh_root m) as [a|] eqn:Ea, (bm_root b) as [t|] eqn:Er; cbn [opt_ns] in D; try contradiction.
      - pose proof Vb as (A & La & Sv). unfold contents in A. rewrite Er in *. destruct Sv as [d Sh]. inversion P0 as [|? ? Ua _]; subst.
        destruct (n_remove_ok bor cmp laws N min_pos 1 d t q min_le Sh A) as (t' & ret & En & _).
        destruct (g_remove_ok bor cmp laws small_key bomb q (fdepth h) 1 d t t' ret a (er h) O min_le Sh A) as (g & a' & o1 & E & _);
          auto; [eapply er_depth; eauto|].
        destruct (remove_node_sim bor cmp small_key bomb q _ _ _ _ _ _ G E) as (h1 & E' & <- & G1). rewrite E' in E0. cbn [bind] in E0.
        pose proof (g_remove_lone bor cmp small_key bomb U c q (fdepth h) (er h) a Ok0 Ua) as X. rewrite E in X. destruct X as (X1 & X2 & X3). cbn [fst snd isd] in *.
        destruct o1 as [[[old u]|]|]; [| |contradiction].
        2:{ injection E0 as <- <- <-. split; auto. split; [cbn; auto|discriminate]. }
        destruct (usize_sub (fh_len m) 1) as [len|]; [|discriminate]. cbn [bind] in E0.
        unfold fpeek in E0. destruct (get h1 a') as [[n x]|] eqn:Gh; [|discriminate]. cbn [bind] in E0.
        destruct (u && (el_len (fst (nd_data x)) =? 0)).
        2:{ injection E0 as <- <- <-. split; auto. split; [cbn; auto|discriminate]. }
        unfold take in E0. rewrite Gh in E0. destruct n as [|[|n]]; try discriminate. cbn [bind] in E0.
        destruct (G1 a' 1 x Gh) as (es & ks & Cr & Ek). destruct x as [[e dd] kk]. cbn [nd_data nd_kids fst snd] in *. subst kk.
        assert (Pk : pins ks).
        { apply (proj2 (proj1 X1) a' 1 (Nd es (map Some ks))) in X2 as [_ Hk].
          - cbn [nd_kids] in Hk. rewrite olists_somes in Hk. now apply Forall_forall.
          - unfold FixedHeapProofs.er. rewrite get_hm, Gh. cbn [option_map]. unfold cm, nm. cbn [fst snd nd_data nd_kids]. now rewrite (ent_is _ _ _ _ Cr). }
        assert (X4 : exists root d' ks', match dd with Some b => '(c, b') <- kd_pop b;; Ok (Some c, Some b') | None => Ok (None, None) end = Ok (root, d')
          /\ kid_ptrs d' = Ok (map Some ks') /\ pins (olist root) /\ pins ks').
        { destruct Cr as [_ Cr]. destruct dd as [bb|]; [|exists None, None, []; cbn; auto].
          destruct Cr as [Hn Hd]. destruct (exists_last Hn) as (ks' & k0 & ->). destruct (kd_pop_ok bb ks' k0 Hd) as (b' & -> & Hb'). cbn [bind].
          apply Forall_app in Pk as [Pk1 Pk2]. exists (Some k0), (Some b'), ks'. split; auto. split; [now apply some_ptrs|]. split; auto. }
        destruct X4 as (root & d' & ks' & Er2 & Hp & Pr & Pk'). rewrite Er2 in E0. cbn [bind] in E0. unfold fcls, f_node in E0. rewrite Hp in E0. cbn [bind] in E0.
        assert (O2 : ok (er (give (Heap.put h1 a' None) a' (Nd (e, d') (map Some ks'))))).
        { unfold FixedHeapProofs.er. rewrite give_hm, put_hm. cbn [option_map nm nd_data nd_kids].
          apply (cls_ok U c); auto. now apply put_none_ok. }
        destruct (drop (give (Heap.put h1 a' None) a' (Nd (e, d') (map Some ks'))) (Some a')) as [h3|] eqn:Ed; [|discriminate]. cbn [bind] in E0.
        injection E0 as <- <- <-. split; [|split; [auto|discriminate]].
        unfold drop, drops in Ed. match type of Ed with drops_fuel ?f ?x ?ps = _ =>
          pose proof (drops_fuel_hm (@ent K V) f x ps) as Dh; rewrite Ed in Dh;
          pose proof (drops_lone U c f (er x) ps O2) as Dl end.
        cbn [rm_] in Dh. unfold FixedHeapProofs.er in Dl. rewrite Dh in Dl. apply Dl. cbn. auto.
      - injection E0 as <- <- <-. rewrite Ea. split; auto. split; auto. discriminate.
    Qed.
  End Within.

  (** ** In terms of [funshared] *)
  Lemma freach_er (h : fheap) p a : freach h p a <-> reach (er h) p a.
  Proof.
    split.
    - induction 1 as [a Ha|a c n b _ IH G Hb]; [now constructor|]. eapply (reach_kid (er h)); [exact IH| |].
      + unfold FixedHeapProofs.er. rewrite get_hm, G. reflexivity.
      + exact Hb.
    - induction 1 as [a Ha|a c n b _ IH G Hb]; [now constructor|]. unfold FixedHeapProofs.er in G. rewrite get_hm in G.
      destruct (get h a) as [[c' n']|] eqn:Gh; [|discriminate]. injection G as <- <-. eapply freach_kid; [exact IH|exact Gh|exact Hb].
  Qed.
  Lemma funshared_er (h : fheap) p : funshared h p <-> unshared (er h) p.
  Proof.
    split; intros H a c n R G.
    - apply freach_er in R. unfold FixedHeapProofs.er in G. rewrite get_hm in G. destruct (get h a) as [[c' n']|] eqn:Gh; [|discriminate].
      injection G as <- <-. exact (H a c' n' R Gh).
    - apply freach_er in R. apply (H a c (nm (@ent K V) n)); auto. unfold FixedHeapProofs.er. now rewrite get_hm, G.
  Qed.
  Definition placed {A} (h : fheap) (r : res (fheap * fhmap * out A)) : Prop :=
    exists h' m' x, r = Ok (h', m', Done x) /\ copies h' = copies h /\ funshared h' (fh_root m').
  Lemma alike_placed {A} (h : fheap) m O (r : res (fheap * fhmap * out A)) P U : funshared h (fh_root m) ->
    call_s bor cmp bomb h O r P U -> alike (spread (er h) (fh_root m)) (clones (er h)) r -> placed h r.
  Proof.
    intros Un (h' & m' & o & E & _) H. destruct (H h' m' o E) as (O1 & P1 & N1). destruct o as [x|]; [|congruence].
    exists h', m', x. split; auto. split; [exact (proj2 O1)|]. apply funshared_er. eapply pin_reach; eauto.
  Qed.

  Lemma insert_placed (h : fheap) m l k v O : fsound h (olist (fh_root m) ++ O) -> fh_shows h m l -> funshared h (fh_root m) ->
    placed h (fh_insert_map bor cmp small_key bomb h m k v).
  Proof.
    intros S H Un. pose proof (insert_s bor cmp laws small_key bomb h m l k v O S H) as C. apply (alike_placed h m _ _ _ _ Un C).
    apply fsound_iff in S as [G S]. apply is_shows in H as (b & Hb & Vb & _); auto. apply funshared_er in Un.
    destruct (unshared_alone _ _ Un) as [O1 P1]. eapply insert_alike; eauto.
  Qed.
  Lemma get_mut_placed (h : fheap) m l q w O : fsound h (olist (fh_root m) ++ O) -> fh_shows h m l -> funshared h (fh_root m) ->
    placed h (fh_get_mut_map bor cmp small_key bomb h m q w).
  Proof.
    intros S H Un. pose proof (get_mut_s bor cmp laws small_key bomb h m l q w O S H) as C. apply (alike_placed h m _ _ _ _ Un C).
    apply fsound_iff in S as [G S]. apply is_shows in H as (b & Hb & Vb & _); auto. apply funshared_er in Un.
    destruct (unshared_alone _ _ Un) as [O1 P1]. eapply get_mut_alike; eauto.
  Qed.
  Lemma remove_placed (h : fheap) m l q O : fsound h (olist (fh_root m) ++ O) -> fh_shows h m l -> funshared h (fh_root m) ->
    placed h (fh_remove_map bor cmp small_key bomb h m q).
  Proof.
    intros S H Un. pose proof (remove_s bor cmp laws small_key bomb h m l q O S H) as C. apply (alike_placed h m _ _ _ _ Un C).
    apply fsound_iff in S as [G S]. apply is_shows in H as (b & Hb & Vb & _); auto. apply funshared_er in Un.
    destruct (unshared_alone _ _ Un) as [O1 P1]. intros h' m' o E. unfold fh_remove_map in E.
    destruct (fh_remove_entry bor cmp small_key bomb h m q) as [[[h1 m1] o1]|] eqn:E1; [|discriminate]. cbn [bind] in E. injection E as <- <- <-.
    destruct (remove_alike _ _ h m b q O Vb G S Hb O1 P1 _ _ _ E1) as (X1 & X2 & X3). split; auto. split; auto. destruct o1; [discriminate|congruence].
  Qed.
  Lemma extend_placed ps O : forall (h : fheap) m l, fsound h (olist (fh_root m) ++ O) -> fh_shows h m l -> funshared h (fh_root m) ->
    placed h (fh_extend bor cmp small_key bomb h m ps).
  Proof.
    induction ps as [|[k v] ps IH]; intros h m l S H Un; cbn [fh_extend].
    - exists h, m, tt. auto.
    - destruct (insert_placed h m l k v O S H Un) as (h1 & m1 & x & E & C & Un1).
      destruct (insert_s bor cmp laws small_key bomb h m l k v O S H) as (h1' & m1' & o1 & E' & S1 & _ & H1). rewrite E in E'. injection E' as <- <- <-.
      rewrite E. cbn [bind]. destruct (IH h1 m1 _ S1 (proj2 H1) Un1) as (h2 & m2 & y & E2 & C2 & Un2).
      exists h2, m2, y. split; auto. split; auto. congruence.
  Qed.
  Lemma from_iter_placed (h : fheap) ps O : fsound h O ->
    exists h' m, fh_from_iter bor cmp small_key bomb h ps = Ok (h', Done m) /\ copies h' = copies h /\ funshared h' (fh_root m).
  Proof.
    intros S. destruct (extend_placed ps O h fh_new []) as (h' & m & x & E & C & Un); auto.
    - apply is_shows; [now apply fsound_iff in S|apply is_new].
    - intros a c n R. exfalso. cbn [fh_root fh_new] in R. induction R as [a Ha|a c' n' b _ IH _ _]; [destruct Ha|exact IH].
    - unfold fh_from_iter. rewrite E. cbn [bind]. exists h', m. auto.
  Qed.
End LazyArrays.
