(** The calls of shared maps made of arrays, with any answers to the comparisons. The order of the keys plays no part: the
    predicates of FixedHeapProofs7.v are used with an order for which every list ascends. *)
From Coq Require Import List PeanoNat Bool Lia.
From Verif Require Import Base Spec SpecFacts Vec AskSpec AskAnySpec Ask AnyOrdSpec AskAnyProofs BTreeAnyProofs FixedAskModel FixedAnyProofs FixedAskAnyProofs
  Heap HeapProofs BTreeModel BTreeProofs BTreeProofs2 BTreeHeapModel BTreeHeapSpec
  BTreeHeapProofs BTreeHeapProofs2 BTreeHeapProofs3 BTreeHeapProofs5 FixedModel FixedSpec FixedProofs FixedProofs2 FixedProofs4 FixedShows
  FixedHeapModel FixedHeapSpec FixedHeapProofs FixedHeapProofs2 FixedHeapProofs3 FixedHeapProofs4 FixedHeapProofs5 FixedHeapProofs6
  FixedHeapProofs7 FixedHeapProofs8 FixedHeapAskModel FixedHeapAskProofs FixedAskHeapSpec FixedHeapAskProofs2.
From Verif Require BTreeMutProofs BTreeHeapProofs9.
Import ListNotations.
Local Open Scope nat_scope.

Section Calls.
  Context {K V Q : Type} (bor : K -> Q) (ask : nat -> Q -> Q -> option comparison) (small_key : bool).
  Variable bomb : nat -> bool.
  Notation elems := (elems K V).
  Notation okids := (option (kids addr)).
  Notation cell := (elems * okids)%type.
  Notation fheap := (heap cell).
  Notation pay := (list (K * V)).
  Notation entry := (K * V)%type.
  Notation bt := (bt K V).
  Notation er := (@er K V).
  Notation good := (@good K V).
  Notation N := MIN_OCCUPANCY.
  Notation nob := (fun _ : K => tt).
  Notation noc := (fun _ _ : unit => Lt).
  Notation fh_is := (fh_is nob noc).
  Notation valid := (valid nob noc N).
  Notation flat := (@flat K V).
  Notation said := (said bor ask).
  Notation why := (why ask bomb).
  Ltac wide := intros ? ?; apply said_mono; lia.

  Lemma any_shows (h : fheap) m l : fh_any h m l <-> fh_shows nob noc h m l.
  Proof. unfold fh_any, fh_shows, f_shows, f_any. split; intros (b & E & H); exists b; split; auto; [split; [apply sorted_any|auto]|tauto]. Qed.
  Lemma any_is (h : fheap) m l : good h -> fh_any h m l <-> fh_is h m l.
  Proof. intros G. rewrite any_shows. symmetry. now apply is_shows. Qed.
  Lemma is_some (h : fheap) n a l d t : ns (er h) a t -> shape N 1 d t -> flat t = l -> n = length l -> fh_is h (FH (Some a) n) l.
  Proof.
    intros D Sh F L. apply (is_intro nob noc h _ n (Some t)); auto. unfold BTreeProofs2.valid, contents. cbn [bm_root bm_len]. rewrite F.
    split; [apply sorted_any|]. split; eauto.
  Qed.
  (** A map is empty, or it has a root. *)
  Lemma is_cases (h : fheap) m l : fh_is h m l -> fh_len m = length l
    /\ (fh_root m = None /\ l = [] \/ exists a d t, fh_root m = Some a /\ ns (er h) a t /\ shape N 1 d t /\ flat t = l).
  Proof.
    intros (b & [L D] & (_ & La & Sv) & <-). split; [congruence|]. unfold contents in *.
    destruct (fh_root m) as [a|], (bm_root b) as [t|]; cbn [opt_ns] in D; try contradiction; [right|left; auto].
    destruct Sv as [d Sh]. exists a, d, t. auto.
  Qed.

  Definition called_t {A} (B : bt -> list pay -> Prop) (h : fheap) (O : list addr) (m : fhmap) (n0 : nat) (r : res (fheap * fhmap * nat * out A))
      (P : fheap -> fhmap -> nat -> A -> Prop) (U : fheap -> fhmap -> nat -> Prop) : Prop :=
    exists h' m' n' o, r = Ok (h', m', n', o) /\ n0 <= n' /\ good h' /\ sound (er h') (olist (fh_root m') ++ O) /\ frame O (er h) (er h')
      /\ cloned_on B h m h'
      /\ match o with Done x => P h' m' n' x | Unwound => U h' m' n' /\ why n0 n' end.
  Lemma cloned_of (B : bt -> list pay -> Prop) (h h' : fheap) m a t : good h -> fh_root m = Some a -> ns (er h) a t ->
    (exists p, B t p /\ none_lost (er h) (er h') p) -> cloned_on B h m h'.
  Proof.
    intros G E D (p & Bp & cs & Ec & Sc). exists cs. split; [exact Ec|]. rewrite E. exists t, p. split; [now apply reads_ns|]. auto.
  Qed.
  Lemma cloned_none B (h h' : fheap) m : fh_root m = None -> copies h' = copies h -> @cloned_on K V B h m h'.
  Proof. intros E C. exists []. rewrite E. auto. Qed.
  Lemma same_of (h h' : fheap) m a a' t : good h -> good h' -> fh_root m = Some a -> ns (er h) a t -> ns (er h') a' t ->
    f_same h m h' (FH (Some a') (fh_len m)).
  Proof.
    intros G G' E D D'. split; auto. rewrite E. cbn [fh_root]. intros t1 R. apply reads_ns; auto.
    assert (t1 = t) as ->; auto. apply reads_ns in D; auto. destruct R as (n1 & E1 & <-), D as (n2 & E2 & <-). congruence.
  Qed.
  Lemma same_refl (h : fheap) m : f_same h m h m.
  Proof. split; auto. destruct (fh_root m); auto. Qed.

  Lemma get_mut_t_b (h : fheap) m l q w O n0 : good h -> sound (er h) (olist (fh_root m) ++ O) -> fh_is h m l ->
    called_t branch h O m n0 (fh_get_mut_map_t bor ask small_key bomb h m q w n0)
      (fun h' m' n' x => exists l', fh_is h' m' l' /\ may_get_mut (said n0 n') q w l l' x)
      (fun h' m' _ => f_same h m h' m' /\ fh_is h' m' l).
  Proof.
    intros G S Hi. destruct (is_cases _ _ _ Hi) as [L [[Ea ->]|(a & d & t & Ea & D & Sh & <-)]]; unfold fh_get_mut_map_t, called_t; rewrite Ea.
    - eexists _, _, _, _. split; [reflexivity|]. split; [lia|]. rewrite Ea in *. split; auto. split; auto. split; [apply frame_refl|]. split; [now apply cloned_none|].
      exists []. split; auto. reflexivity.
    - rewrite Ea in S.
      destruct (g_get_mut_t_ok bor ask small_key bomb q w (fdepth h) 1 d t a (er h) O n0) as (g & a' & n' & o & E & Hn & S' & F & B & P);
        auto; [eapply er_depth; eauto|].
      destruct (get_mut_t_sim bor ask small_key bomb q w _ _ _ _ _ _ _ _ G E) as (h' & E' & <- & G'). rewrite E'. cbn [bind].
      eexists _, _, _, _. split; [reflexivity|]. cbn [fh_root olist]. split; auto. split; auto. split; [exact S'|]. split; auto.
      split; [eapply cloned_of; eauto|]. destruct o as [x|].
      + destruct P as (t' & D' & Sh' & Gm). exists (flat t'). split; auto. eapply is_some; eauto. rewrite L. symmetry. eapply AskAnyProofs.len_get_mut; eauto.
      + destruct P as [D' W]. split; auto. split; [eapply same_of; eauto|]. eapply is_some; eauto.
  Qed.

  Lemma insert_t_b (h : fheap) m l k v O n0 : good h -> sound (er h) (olist (fh_root m) ++ O) -> fh_is h m l ->
    called_t branch h O m n0 (fh_insert_map_t bor ask small_key bomb h m k v n0)
      (fun h' m' n' x => exists l', fh_is h' m' l' /\ may_insert bor (said n0 n') k v l l' x)
      (fun h' m' _ => f_same h m h' m' /\ fh_is h' m' l).
  Proof.
    intros G S Hi. destruct (is_cases _ _ _ Hi) as [L [[Ea ->]|(a & d & t & Ea & D & Sh & <-)]]; unfold fh_insert_map_t, called_t; rewrite Ea.
    - rewrite Ea in S. destruct (el_push_ok el_new [] (k, v) el_new_ok) as (e & -> & He); [cbn; unfold MAX_OCCUPANCY, max_occupancy; lia|]. cbn [bind app] in *.
      destruct (alloc (er h) (Nd [(k, v)] (map Some []))) as [g2 r2] eqn:Eal.
      destruct (f_alloc_sim h e None [(k, v)] [] g2 r2 G) as (h2 & E2 & <- & G2); auto. { split; auto. }
      rewrite E2. cbn [bind]. pose proof (sess_start (er h) [] O S) as S0.
      destruct (sess_alloc (er h) (er h) [] [] [] O [(k, v)] [] (er h2) r2 S0) as (S4 & D4 & _ & _ & _ & C4 & _); auto.
      apply sess_end in S4 as [S4 F4]. eexists _, _, _, _. split; [reflexivity|]. split; [lia|]. cbn [fh_root olist]. split; auto. split; [exact S4|].
      split; auto. split; [now apply cloned_none|]. exists [(k, v)]. split; [|exists [], []; auto].
      apply (is_some h2 1 r2 [(k, v)] 0 (BN [(k, v)] [])); auto. constructor. cbn. unfold MAX_OCC. lia.
    - rewrite Ea in S.
      destruct (g_insert_t_ok bor ask small_key bomb k v (fdepth h) 1 d t a (er h) O n0) as (g & a' & n' & o & E & Hn & F & B & P);
        auto; [eapply er_depth; eauto|].
      destruct (insert_t_sim bor ask small_key bomb (k, v) _ _ _ _ _ _ _ _ G E) as (h' & E' & <- & G'). rewrite E'. cbn [bind].
      pose proof (cloned_of branch h h' m a t G Ea D B) as Cl.
      destruct o as [x|].
      2:{ destruct P as (S' & D' & W). eexists _, _, _, _. split; [reflexivity|]. split; auto. cbn [fh_root olist]. split; auto. split; [exact S'|]. split; auto. split; auto.
          split; auto. split; [eapply same_of; eauto|eapply is_some; eauto]. }
      destruct P as (Y & S' & Gi). destruct x as [|k0 v0|[c|] kv]; cbn [g_ins_may] in Gi; [| | |contradiction].
      + destruct Gi as (-> & t' & D' & Sh' & Mi). eexists _, _, _, _. split; [reflexivity|]. split; auto. cbn [fh_root olist app] in *.
        split; auto. split; [exact S'|]. split; auto. split; auto. exists (flat t'). split; auto. eapply is_some; eauto.
        rewrite (AskAnyProofs.len_insert _ _ _ _ _ _ _ Mi). lia.
      + destruct Gi as (-> & t' & D' & Sh' & Mi). eexists _, _, _, _. split; [reflexivity|]. split; auto. cbn [fh_root olist app] in *.
        split; auto. split; [exact S'|]. split; auto. split; auto. exists (flat t'). split; auto. eapply is_some; eauto.
        rewrite (AskAnyProofs.len_insert _ _ _ _ _ _ _ Mi). lia.
      + destruct Gi as (-> & lhs & t' & Dl & D' & Sl & Sh' & Mi). cbn [unwrap bind].
        destruct (el_push_ok el_new [] kv el_new_ok) as (e & -> & He); [cbn; unfold MAX_OCCUPANCY, max_occupancy; lia|]. cbn [bind].
        destruct (kd_push_ok kd_new [] c kd_new_ok) as (d1 & -> & Hd1); [cbn; unfold MAX_KIDS, MAX_OCCUPANCY, max_occupancy; lia|]. cbn [bind app] in *.
        destruct (kd_push_ok d1 [c] a' Hd1) as (d2 & -> & Hd2); [cbn; unfold MAX_KIDS, MAX_OCCUPANCY, max_occupancy, MIN_OCCUPANCY; lia|]. cbn [bind app] in *.
        destruct (alloc (er h') (Nd [kv] (map Some [c; a']))) as [g2 r2] eqn:Eal.
        destruct (f_alloc_sim h' e (Some d2) [kv] [c; a'] g2 r2 G') as (h2 & E2 & <- & G2); auto.
        { split; auto. split; [discriminate|exact Hd2]. }
        rewrite E2. cbn [bind].
        assert (S0 : sess (er h') (er h') [] ([c; a'] ++ []) O).
        { rewrite app_nil_r. apply sess_start. destruct S' as [W' A1]. split; auto. eapply wf_equiv; [|exact W']. intros x. cbn [app]. rewrite !cnt_cons. lia. }
        destruct (sess_alloc (er h') (er h') [] [c; a'] [] O [kv] [lhs; t'] (er h2) r2 S0) as (S4 & D4 & _ & _ & _ & C4 & _); auto.
        apply sess_end in S4 as [S4 F4]. eexists _, _, _, _. split; [reflexivity|]. split; auto. cbn [fh_root olist]. split; auto. split; [exact S4|].
        split; [eapply frame_trans; eauto|].
        split. { destruct Cl as (cs & C1 & C2). exists cs. split; auto. rewrite <- C1. exact C4. }
        assert (EF : flat (BN [kv] [lhs; t']) = flat lhs ++ kv :: flat t') by (cbn; now rewrite app_nil_r).
        exists (flat lhs ++ kv :: flat t'). split; auto.
        eapply (is_some h2 _ r2 _ (Datatypes.S d)); [exact D4| |exact EF|rewrite (AskAnyProofs.len_insert _ _ _ _ _ _ _ Mi); lia].
        constructor; auto. cbn. unfold MAX_OCC, MIN_OCCUPANCY. lia.
  Qed.

  Lemma remove_entry_t_b (h : fheap) m l q O n0 : good h -> sound (er h) (olist (fh_root m) ++ O) -> fh_is h m l ->
    called_t branch_near h O m n0 (fh_remove_entry_t bor ask small_key bomb h m q n0)
      (fun h' m' n' x => exists l', fh_is h' m' l' /\ may_remove (said n0 n') q l l' x)
      (fun h' m' n' => f_same h m h' m' /\ fh_is h' m' l /\ n0 < n' /\ panicked ask n'
        \/ (exists i, bomb i = true) /\ fh_len m' = fh_len m /\ exists a t, fh_root m' = Some a /\ reads h' a t).
  Proof.
    intros G S Hi. destruct (is_cases _ _ _ Hi) as [L [[Ea ->]|(a & d & t & Ea & D & Sh & <-)]]; unfold fh_remove_entry_t, called_t; rewrite Ea.
    - eexists _, _, _, _. split; [reflexivity|]. split; [lia|]. rewrite Ea in *. split; auto. split; auto. split; [apply frame_refl|]. split; [now apply cloned_none|].
      exists []. split; auto. reflexivity.
    - rewrite Ea in S.
      destruct (g_remove_t_ok bor ask small_key bomb q (fdepth h) 1 d t a (er h) O n0 min_le Sh) as (g & a' & n' & o & E & Hn & S' & F & B & P);
        auto; [eapply er_depth; eauto|].
      destruct (remove_node_t_sim bor ask small_key bomb q _ _ _ _ _ _ _ _ G E) as (h1 & E' & <- & G1). rewrite E'. cbn [bind].
      pose proof (cloned_of branch_near h h1 m a t G Ea D B) as Cl.
      destruct o as [x|].
      2:{ eexists _, _, _, _. split; [reflexivity|]. cbn [fh_root fh_len olist]. split; auto. split; auto. split; [exact S'|]. split; auto. split; auto.
          destruct P as [(D1 & H1 & H2)|(Bb & t1 & D1)].
          - split; [left|right; auto]. split; [eapply same_of; eauto|]. split; [eapply is_some; eauto|auto].
          - split; [right|left; auto]. split; auto. split; auto. exists a', t1. split; auto. now apply reads_ns. }
      destruct P as (t' & D1 & U1 & Mr & Gr). pose proof (AskAnyProofs.len_remove _ _ _ _ _ Mr) as Hl. destruct x as [[old u]|]; cbn [option_map fst] in *.
      2:{ eexists _, _, _, _. split; [reflexivity|]. cbn [fh_root olist]. split; auto. split; auto. split; [exact S'|].
          split; auto. split; auto. exists (flat t'). split; auto. eapply is_some; eauto. lia. }
      rewrite usize_sub_ok by lia. cbn [bind].
      destruct (left_root nob noc N min_pos d t' u Gr (sorted_any _)) as (r & Erl & F' & S2).
      remember (flat t') as l' eqn:El'.
      destruct t' as [es ts]. destruct (ns_cell h1 a' es ts G1 D1) as (c & e & dd & ks & Gh & Cr & Fk).
      assert (c = 1) as ->.
      { apply unique_get in U1 as [n Hu]. unfold FixedHeapProofs.er in Hu. rewrite get_hm, Gh in Hu. now injection Hu as ->. }
      unfold fpeek. rewrite Gh. cbn [bind nd_data fst snd]. rewrite (crel_len _ _ _ _ Cr). cbn [elems_of kids_of] in Erl.
      replace (length es =? 0) with (is_nil es) by (now destruct es).
      destruct (u && is_nil es).
      2:{ injection Erl as <-. destruct S2 as [d2 S2]. eexists _, _, _, _. split; [reflexivity|]. cbn [fh_root olist]. split; auto. split; auto. split; [exact S'|].
          split; auto. split; auto. exists l'. split; auto. eapply is_some; eauto. lia. }
      destruct (length ts <=? 1) eqn:El; [|discriminate]. cbn [assert_ bind] in Erl. injection Erl as <-.
      pose proof (sess_start (er h1) [a'] O S') as S3.
      destruct (sess_take (er h1) (er h1) [] a' [] O es ts S3 D1 U1) as (g2 & ks' & E2 & S4 & F4 & K4 & C4 & _).
      unfold take. rewrite Gh. cbn [bind nd_data fst snd].
      unfold FixedHeapProofs.er in E2. rewrite take_hm in E2. unfold take in E2. rewrite Gh in E2. cbn [rm_ fst snd] in E2. injection E2 as <- Hes Hks.
      assert (ks' = ks) as ->.
      { cbn [nm nd_kids] in Hks. rewrite <- (olists_some ks), <- (olists_some ks'). congruence. }
      change (hm (@ent K V) (put h1 a' None)) with (er (put h1 a' None)) in *.
      set (h2 := put h1 a' None) in *.
      assert (G2 : good h2) by (eapply good_sub; [exact G1|apply subn_none]).
      assert (Lh1 : a' < length (cells h1)) by (eapply get_lt; eauto).
      assert (Ga : get h2 a' = None) by (unfold h2; now apply get_put_same).
      assert (Lh : a' < length (cells h2)) by (unfold h2; now rewrite cells_put).
      assert (X : exists root d', match dd with Some b => '(c, b') <- kd_pop b;; Ok (Some c, Some b') | None => Ok (None, None) end = Ok (root, d')
        /\ kid_ptrs d' = Ok [] /\ opt_ns (er h2) root (option_map fst (vec_pop ts)) /\ ks = olist root).
      { apply Nat.leb_le in El. pose proof Cr as [_ Hd]. destruct dd as [bb|].
        - destruct Hd as [Hne Hd]. destruct F4 as [|k0 t0 ks0 ts0 Dk F4]; [congruence|]. destruct F4; [|cbn [length] in El; lia].
          destruct (kd_pop_ok bb [] k0 Hd) as (b' & -> & Hb'). cbn [bind]. exists (Some k0), (Some b'). split; auto. split; [|cbn; auto].
          destruct Hb' as [Ha' Hl']. cbn [kid_ptrs]. rewrite Hl'. cbn. reflexivity.
        - subst ks. inversion F4; subst. exists None, None. cbn. auto. }
      destruct X as (root & d' & -> & Hp & On & ->). cbn [bind]. unfold fcls, f_node. rewrite Hp. cbn [bind].
      assert (S4' : sess (er h1) (er h2) [a'] ([] ++ olist root) O) by (rewrite app_nil_r in S4; exact S4).
      destruct (sess_close (er h1) (er h2) [] a' [] (olist root) O es [] S4') as (S5 & _ & K5 & _ & _ & C5); auto.
      destruct (sess_drop (er h1) (cls (er h2) a' es []) [] (Some a') (olist root) O S5) as (g3 & E5 & S6 & K6 & C6 & _).
      assert (Ec2 : cls (er h2) a' es [] = er (give h2 a' (Nd (e, d') []))).
      { assert (Ent : @ent K V (e, d') = es) by (unfold ent; cbn [fst]; now rewrite (el_clear_are _ _ (proj1 Cr))).
        unfold FixedHeapProofs.er. rewrite give_hm. unfold nm. cbn [nd_data nd_kids]. rewrite Ent. reflexivity. }
      rewrite Ec2 in E5. unfold FixedHeapProofs.er in E5. rewrite drop_hm in E5. apply rm_ok_inv in E5 as (h3 & E5 & ->). rewrite E5. cbn [bind].
      eexists _, _, _, _. split; [reflexivity|]. apply sess_end in S6 as [S6 F6]. cbn [fh_root]. split; auto.
      split; [eapply drop_bare; eauto|]. split; [exact S6|]. split; [eapply frame_trans; eauto|].
      split. { destruct Cl as (cs & C1 & C2). exists cs. split; auto. rewrite <- C1. exact (eq_trans C6 (eq_trans C5 C4)). }
      exists l'. split; auto.
      apply (is_intro nob noc h3 _ (fh_len m - 1) (option_map fst (vec_pop ts))); auto.
      + cbn [fh_root]. destruct root as [k0|], (option_map fst (vec_pop ts)) as [t0|]; cbn [opt_ns] in *; auto.
        apply K6; [apply in_or_app; left; now left|]. apply K5. exact On.
      + unfold BTreeProofs2.valid, contents. cbn [bm_root bm_len]. rewrite F'. split; [apply sorted_any|]. split; [lia|]. destruct (option_map fst (vec_pop ts)); auto.
  Qed.

  Lemma remove_t_b (h : fheap) m l q O n0 : good h -> sound (er h) (olist (fh_root m) ++ O) -> fh_is h m l ->
    called_t branch_near h O m n0 (fh_remove_map_t bor ask small_key bomb h m q n0)
      (fun h' m' n' x => exists l', fh_is h' m' l' /\ may_remove_val (said n0 n') q l l' x)
      (fun h' m' n' => f_same h m h' m' /\ fh_is h' m' l /\ n0 < n' /\ panicked ask n'
        \/ (exists i, bomb i = true) /\ fh_len m' = fh_len m /\ exists a t, fh_root m' = Some a /\ reads h' a t).
  Proof.
    intros G S Hi. destruct (remove_entry_t_b h m l q O n0 G S Hi) as (h' & m' & n' & o & E & H1 & H2 & H3 & H4 & H5 & H6).
    unfold fh_remove_map_t. rewrite E. cbn [bind]. eexists _, _, _, _. split; [reflexivity|]. split; auto. split; auto. split; auto. split; auto. split; auto.
    destruct o as [x|]; [|exact H6]. destruct H6 as (l' & I' & Mr). exists l'. split; auto. exists x. auto.
  Qed.

  Lemma get_t_b (h : fheap) m l q n0 : good h -> fh_is h m l ->
    exists n' o, fh_get_t bor ask small_key h m q n0 = Ok (n', o) /\ n0 <= n'
      /\ match o with Done x => may_get (said n0 n') q l x | Unwound => n0 < n' /\ panicked ask n' end.
  Proof.
    intros G Hi. apply any_is in Hi as (b & E & Hb); auto. unfold fh_get_t. rewrite E. cbn [bind].
    pose proof (f_get_copes bor ask small_key b l q n0 Hb) as C. destruct (f_get_t bor ask small_key b q n0) as [[] r n|[] n|]; cbn [AskAnySpec.copes] in C.
    - destruct C as [Hn Gr]. exists n, (Done r). auto.
    - destruct C as (Hn & Pn & _). exists n, Unwound. split; auto. split; [lia|auto].
    - destruct C.
  Qed.

  (** The same without the clones. *)
  Definition called_i {A} (h : fheap) (O : list addr) (n0 : nat) (r : res (fheap * fhmap * nat * out A))
      (P : fheap -> fhmap -> nat -> A -> Prop) (U : fheap -> fhmap -> nat -> Prop) : Prop :=
    exists h' m' n' o, r = Ok (h', m', n', o) /\ n0 <= n' /\ good h' /\ sound (er h') (olist (fh_root m') ++ O) /\ frame O (er h) (er h')
      /\ match o with Done x => P h' m' n' x | Unwound => U h' m' n' /\ why n0 n' end.
  Lemma extend_t_b ps : forall (h : fheap) m l O n0, good h -> sound (er h) (olist (fh_root m) ++ O) -> fh_is h m l ->
    called_i h O n0 (fh_extend_t bor ask small_key bomb h m ps n0)
      (fun h' m' n' _ => exists l', fh_is h' m' l' /\ may_extend bor (said n0 n') ps l l')
      (fun h' m' n' => exists done p rest l', ps = done ++ p :: rest /\ fh_is h' m' l' /\ may_extend bor (said n0 n') done l l').
  Proof.
    induction ps as [|[k v] ps IH]; intros h m l O n0 G S H; cbn [fh_extend_t].
    - exists h, m, n0, (Done tt). split; auto. split; auto. split; auto. split; auto. split; [apply frame_refl|]. exists l. split; auto. reflexivity.
    - destruct (insert_t_b h m l k v O n0 G S H) as (h1 & m1 & n1 & o & E & Hn1 & G1 & S1 & F1 & _ & P). rewrite E. cbn [bind]. destruct o as [x|].
      + destruct P as (l1 & I1 & Mi). destruct (IH h1 m1 l1 O n1 G1 S1 I1) as (h2 & m2 & n2 & o & E2 & Hn2 & G2 & S2 & F2 & P2). rewrite E2.
        exists h2, m2, n2, o. split; auto. split; [lia|]. split; auto. split; auto. split; [eapply frame_trans; eauto|].
        assert (W : forall q (e : entry), said n0 n1 q e -> said n0 n2 q e) by wide.
        assert (W' : forall q (e : entry), said n1 n2 q e -> said n0 n2 q e) by wide.
        apply (AskAnyProofs.insert_mono bor _ _ W) in Mi.
        destruct o as [y|].
        * destruct P2 as (l' & I2 & Me). exists l'. split; auto. cbn [may_extend]. exists l1, x. split; auto. eapply extend_mono; eauto.
        * destruct P2 as [(dn & p & rest & l' & -> & I2 & Me) Wy]. split; [|eapply why_wide; [|exact Wy]; lia].
          exists ((k, v) :: dn), p, rest, l'. split; auto. split; auto. cbn [may_extend]. exists l1, x. split; auto. eapply extend_mono; eauto.
      + destruct P as [[_ I1] Wy]. exists h1, m1, n1, Unwound. split; auto. split; auto. split; auto. split; auto. split; auto. split; auto.
        exists [], (k, v), ps, l. split; auto. split; auto. reflexivity.
  Qed.
  Lemma from_iter_t_b (h : fheap) ps O n0 : good h -> sound (er h) O ->
    exists h' n' o, fh_from_iter_t bor ask small_key bomb h ps n0 = Ok (h', n', o) /\ n0 <= n' /\ good h' /\ frame O (er h) (er h')
      /\ match o with
         | Done m => sound (er h') (olist (fh_root m) ++ O) /\ exists l', fh_is h' m l' /\ may_extend bor (said n0 n') ps [] l'
         | Unwound => sound (er h') O /\ why n0 n'
         end.
  Proof.
    intros G S. unfold fh_from_iter_t. destruct (extend_t_b ps h fh_new [] O n0 G S (is_new nob noc h)) as (h1 & m1 & n1 & o & E & Hn & G1 & S1 & F1 & P).
    rewrite E. cbn [bind]. destruct o as [x|].
    - exists h1, n1, (Done m1). auto 10.
    - destruct P as [_ Wy]. destruct (drop_i h1 (fh_root m1) O G1 S1) as (h2 & E2 & G2 & S2 & F2 & _). unfold fh_drop. rewrite E2. cbn [bind].
      exists h2, n1, Unwound. split; auto. split; auto. split; auto. split; [eapply frame_trans; eauto|auto].
  Qed.

  (** ** How many nodes there are on a way down *)
  Lemma branch_len : forall d t p, BTreeHeapProofs.loose d t -> @branch K V t p -> length p <= d + 1.
  Proof.
    induction d as [|d IH]; intros t p L B; inversion B; subst; cbn [length]; try lia; inversion L; subst; [now cbn in *|].
    rewrite app_length. cbn [length]. match goal with HF : Forall _ ts, HI : In _ ts, HB : branch _ _ |- _ => rewrite Forall_forall in HF; specialize (IH _ _ (HF _ HI) HB) end. lia.
  Qed.
  Lemma branch_near_len : forall d t p, BTreeHeapProofs.loose d t -> @branch_near K V t p -> length p <= 2 * d + 1.
  Proof.
    induction d as [|d IH]; intros t p L B; inversion B; subst; cbn [length]; try lia; inversion L; subst.
    - match goal with HE : nth_error [] _ = Some _ |- _ => rewrite nth_nil in HE; discriminate end.
    - rewrite !app_length. cbn [length]. match goal with HF : Forall _ ts, HI : nth_error ts ?i = Some _, HB : branch_near _ _ |- _ =>
        apply nth_error_In in HI; rewrite Forall_forall in HF; specialize (IH _ _ (HF _ HI) HB); pose proof (BTreeHeapProofs9.beside_len i ts) end. lia.
  Qed.
  Lemma few_t (h : fheap) m l a t : good h -> fh_is h m l -> fh_root m = Some a -> reads h a t ->
    exists d, 2 * 6 ^ d <= length l + 1 /\ (forall p, branch t p -> length p <= d + 1) /\ (forall p, branch_near t p -> length p <= 2 * d + 1).
  Proof.
    intros G Hi E R. destruct (is_cases _ _ _ Hi) as [_ [[Ea _]|(a1 & d & t1 & Ea & D & Sh & <-)]]; [congruence|].
    assert (a1 = a) as -> by congruence. assert (t1 = t) as ->.
    { apply reads_ns in D; auto. destruct R as (n1 & E1 & <-), D as (n2 & E2 & <-). congruence. }
    pose proof (shape_loose _ _ _ _ Sh) as Lo. exists d. split; [apply (BTreeMutProofs.count_bounds 5 d 1 t Sh)|].
    split; intros p Bp; [eapply branch_len|eapply branch_near_len]; eauto.
  Qed.
End Calls.
