(** What calls on shared [BTreeMap]s clone, and what is left of a map after a removal that
    unwound. *)
From Coq Require Import List PeanoNat Bool Lia Sorted.
From Verif Require Import Base Spec MapSpec BTreeSpec SpecFacts Vec Heap HeapProofs BTreeModel BTreeProofs BTreeProofs2 BTreeIterModel
  BTreeIterProofs BTreeIterProofs2 BTreeHistModel BTreeHistProofs BTreeShows BTreeHeapModel BTreeHeapSpec BTreeHeapHistSpec
  BTreeHeapProofs BTreeHeapProofs2 BTreeHeapProofs3 BTreeHeapProofs4 BTreeHeapProofs5 BTreeHeapProofs6 BTreeHeapProofs7 BTreeHeapLazy BTreeMutProofs.
From Verif Require AvlHeapSpec AvlHeapProofs.
Import ListNotations.
Local Open Scope nat_scope.

Section Clones.
  Context {K V Q : Type} (bor : K -> Q) (cmp : Q -> Q -> comparison).
  Notation pay := (list (K * V)).
  Notation entry := (K * V)%type.
  Notation heap := (heap pay).
  Notation bt := (bt K V).
  Notation bmap := (bt_map K V).
  Notation loose := (@loose K V).
  Notation flat := (@flat K V).
  Notation asc := (@ascending K V Q bor cmp).

  (** ** How many nodes there are on a way *)
  Lemma nth_loose d (ks : list bt) i c : Forall (loose d) ks -> nth_error ks i = Some c -> loose d c.
  Proof. intros F E. eapply Forall_forall; [exact F|]. eapply nth_error_In; eauto. Qed.
  Lemma nth_map_le {A} (f : A -> list pay) (P : A -> Prop) n (ks : list A) i : Forall P ks -> (forall c, P c -> length (f c) <= n) ->
    match nth_error (map f ks) i with Some l => length l <= n | None => True end.
  Proof.
    intros F H. rewrite nth_error_map. destruct (nth_error ks i) as [c|] eqn:E; cbn; auto. apply H. eapply Forall_forall; [exact F|]. eapply nth_error_In; eauto.
  Qed.
  Lemma beside_len i (ks : list bt) : length (beside i ks) <= 1.
  Proof. unfold beside. destruct (nth_error _ _); cbn; lia. Qed.
  Lemma path_len q d : forall t, loose d t -> length (path bor cmp q t) <= d + 1.
  Proof.
    induction d as [|d IH]; intros t L; inversion L; subst; cbn [path]; rewrite app_length; cbn [length map].
    - destruct (hit bor cmp q es); [cbn; lia|]. destruct (rank bor cmp q es); cbn; lia.
    - destruct (hit bor cmp q es); [cbn; lia|]. pose proof (nth_map_le (path bor cmp q) _ (d + 1) ks (rank bor cmp q es) H1 IH) as Hn.
      destruct (nth_error _ _); cbn [length] in *; lia.
  Qed.
  Lemma near_first_len d : forall t, loose d t -> length (near_first t) <= 2 * d + 1.
  Proof.
    induction d as [|d IH]; intros t L; inversion L; subst; cbn [near_first]; rewrite app_length; cbn [length].
    - cbn. lia.
    - pose proof (nth_map_le near_first _ (2 * d + 1) ks 0 H1 IH) as Hn. pose proof (beside_len 0 ks).
      destruct (nth_error (map near_first ks) 0); cbn [length] in *; rewrite ?app_length; cbn [length]; lia.
  Qed.
  Lemma near_last_len d : forall t, loose d t -> length (near_last t) <= 2 * d + 1.
  Proof.
    induction d as [|d IH]; intros t L; inversion L; subst; cbn [near_last]; rewrite app_length; cbn [length].
    - cbn [map]. destruct (length es); cbn; lia.
    - pose proof (nth_map_le near_last _ (2 * d + 1) ks (length es) H1 IH) as Hn. pose proof (beside_len (length es) ks).
      destruct (nth_error (map near_last ks) (length es)); cbn [length] in *; rewrite ?app_length; cbn [length]; lia.
  Qed.
  Lemma near_len q d : forall t, loose d t -> length (near bor cmp q t) <= 2 * d + 1.
  Proof.
    induction d as [|d IH]; intros t L; inversion L; subst; cbn [near]; rewrite app_length; cbn [length].
    - cbn [map]. destruct (rank bor cmp q es); cbn; lia.
    - pose proof (nth_map_le (fun c => if hit bor cmp q es then near_last c else near bor cmp q c) _ (2 * d + 1) ks (rank bor cmp q es) H1) as Hn.
      pose proof (beside_len (rank bor cmp q es) ks).
      assert (Hc : forall c, loose d c -> length (if hit bor cmp q es then near_last c else near bor cmp q c) <= 2 * d + 1).
      { intros c Lc. destruct (hit bor cmp q es); [now apply near_last_len|auto]. }
      specialize (Hn Hc). destruct (nth_error (map _ ks) (rank bor cmp q es)); cbn [length] in *; rewrite ?app_length; cbn [length]; lia.
  Qed.

  (** ** A tree of any occupancy answers lookups *)
  Section Laws.
  Context (laws : order_laws cmp).
  Lemma loose_get d : forall t q, loose d t -> asc (flat t) -> n_get bor cmp q t = s_find bor cmp q (flat t).
  Proof.
    induction d as [|d IH]; intros t q L A; inversion L; subst.
    - cbn [n_get]. destruct (scan bor cmp q es) as [i c] eqn:E.
      destruct (scan_leaf bor cmp laws q es i c A E) as (es1 & es2 & -> & <- & H1 & H2). destruct c.
      + destruct H2 as (e & es3 & -> & He). rewrite nth_mid by auto.
        symmetry. now apply (fnd_pivot_eq bor cmp laws).
      + cbn [map]. rewrite nth_nil. destruct H2 as [_ H2].
        symmetry. exact (fnd_seg bor cmp laws q es1 [] es2 H1 H2).
      + subst. symmetry. exact (fnd_seg bor cmp laws q es1 [] [] H1 (all_gt_nil bor cmp q)).
    - rename H0 into Hk. rename H1 into HF. cbn [n_get]. destruct (scan bor cmp q es) as [i c] eqn:E. destruct c.
      + destruct (scan_branch_eq bor cmp laws 1 (le_n 1) q es ks i Hk A E) as (es1 & e & es2 & ks1 & t & ks2 & -> & -> & <- & L1 & L2 & He).
        rewrite nth_mid by auto. rewrite flat_pivot in * by auto.
        symmetry. now apply (fnd_pivot_eq bor cmp laws).
      + destruct (scan_branch bor cmp laws 1 (le_n 1) q es ks i Lt Hk A E) as (es1 & es2 & ks1 & t & ks2 & -> & -> & L0 & L1 & L2 & Hl & Hr & At & _); [discriminate|].
        apply Forall_mid in HF as (_ & F & _).
        rewrite nth_map_mid, flat_branch, (fnd_seg bor cmp laws) by (auto; lia). eapply IH; eauto.
      + destruct (scan_branch bor cmp laws 1 (le_n 1) q es ks i Gt Hk A E) as (es1 & es2 & ks1 & t & ks2 & -> & -> & L0 & L1 & L2 & Hl & Hr & At & Hg); [discriminate|].
        destruct (Hg eq_refl) as (_ & -> & ->). apply Forall_mid in HF as (_ & F & _).
        rewrite last_map_snoc, flat_branch, (fnd_seg bor cmp laws) by (auto; lia). eapply IH; eauto.
  Qed.
  Lemma asc_sub (l m : list entry) : sub l m -> asc m -> asc l.
  Proof.
    unfold ascending. intros S A. induction S as [|x l m S IH|x l m S IH]; auto; inversion A; subst; auto.
    constructor; auto. rewrite Forall_forall in *. intros e He. apply H2. eapply AvlHeapProofs.sub_incl; eauto.
  Qed.

  (** ** What calls clone *)
  Context (N : nat) (HN : 1 <= N).
  Variable bomb : nat -> bool.
  Notation hbshows := (hbshows bor cmp N).
  Notation contents := (@contents K V).

  Definition clones_in {A} (x : res (heap * hbmap * out A)) (h : heap) (M : list pay) : Prop :=
    exists h' m' o cs, x = Ok (h', m', o) /\ clones h' = cs ++ clones h /\ sub cs M.

  Lemma shows_read (h : heap) m l b : hbshows h m l -> hb_read h m = Ok b -> hbm h m b /\ loose_map b /\ b_shows bor cmp N b l.
  Proof.
    intros (b' & E & S) E'. rewrite E in E'. injection E' as <-. pose proof S as Sv.
    apply (b_shows_iff bor cmp N laws HN) in Sv as [Sv _]. split; [now apply read_iff|]. split; auto. eapply valid_loose; eauto.
  Qed.
  Lemma insert_clones (h : heap) m l b k v O : sound h (olist (hb_root m) ++ O) -> hbshows h m l -> hb_read h m = Ok b ->
    clones_in (hb_insert bor cmp N bomb h m k v) h (root_do b (path bor cmp (bor k))).
  Proof.
    intros So H E. destruct (shows_read _ _ _ _ H E) as (M & L & S).
    destruct (b_insert_l bor cmp N laws HN b l k v S) as (b' & Eb & _).
    destruct (hb_insert_ok bor cmp N bomb h m b k v b' _ O L So M Eb) as (h' & m' & o & E' & _ & _ & (cs & C & Sb) & _).
    exists h', m', o, cs. auto.
  Qed.
  Lemma get_mut_clones (h : heap) m l b q w O : sound h (olist (hb_root m) ++ O) -> hbshows h m l -> hb_read h m = Ok b ->
    clones_in (hb_get_mut bor cmp bomb h m q w) h (root_do b (path bor cmp q)).
  Proof.
    intros So H E. destruct (shows_read _ _ _ _ H E) as (M & L & S).
    destruct (hb_get_mut_ok bor cmp bomb h m b q w O L So M) as (h' & m' & o & E' & _ & _ & (cs & C & Sb) & _).
    exists h', m', o, cs. auto.
  Qed.
  Lemma remove_clones (h : heap) m l b q O : sound h (olist (hb_root m) ++ O) -> hbshows h m l -> hb_read h m = Ok b ->
    clones_in (hb_remove bor cmp N bomb h m q) h (if s_mem bor cmp q l then root_do b (near bor cmp q) else []).
  Proof.
    intros So H E. destruct (shows_read _ _ _ _ H E) as (M & L & S).
    destruct (b_remove_l bor cmp N laws HN b l q S) as (b' & Eb & _).
    destruct (hb_remove_ok bor cmp N bomb h m b q b' _ O L So M Eb) as (h' & m' & o & E' & _ & _ & (cs & C & Sb) & _).
    exists h', m', o, cs. split; auto. split; auto.
    replace (s_mem bor cmp q l) with (b_contains_key bor cmp b q); auto.
    apply (b_lookup_l bor cmp N laws HN b l q S).
  Qed.
  Lemma pops_clones (h : heap) m l b O : sound h (olist (hb_root m) ++ O) -> hbshows h m l -> hb_read h m = Ok b ->
    clones_in (hb_pop_first N bomb h m) h (root_do b near_first) /\ clones_in (hb_pop_last N bomb h m) h (root_do b near_last).
  Proof.
    intros So H E. destruct (shows_read _ _ _ _ H E) as (M & L & S). split.
    - destruct (b_pops_l bor cmp N laws HN b l S) as [(b' & Eb & _) _].
      destruct (hb_pop_first_ok N bomb h m b b' _ O L So M Eb) as (h' & m' & o & E' & _ & _ & (cs & C & Sb) & _).
      exists h', m', o, cs. auto.
    - destruct (b_pops_l bor cmp N laws HN b l S) as [_ (b' & Eb & _)].
      destruct (hb_pop_last_ok N bomb h m b b' _ O L So M Eb) as (h' & m' & o & E' & _ & _ & (cs & C & Sb) & _).
      exists h', m', o, cs. auto.
  Qed.

  (** Their number: at most one (two) per level, and there are few levels. *)
  Lemma few_path (h : heap) m l b t q : hbshows h m l -> hb_read h m = Ok b -> bm_root b = Some t ->
    exists d, 2 * (N + 1) ^ d <= length l + 1
      /\ length (path bor cmp q t) <= d + 1
      /\ length (near bor cmp q t) <= 2 * d + 1
      /\ length (near_first t) <= 2 * d + 1
      /\ length (near_last t) <= 2 * d + 1.
  Proof.
    intros H E Er. destruct (shows_read _ _ _ _ H E) as (M & L & S).
    apply (b_shows_iff bor cmp N laws HN) in S as [(_ & _ & Sh) <-]. rewrite Er in Sh. destruct Sh as [d Sh].
    pose proof (shape_loose _ _ _ _ Sh) as Lo. exists d. split.
    - unfold contents. rewrite Er. apply (count_bounds N d 1 t Sh).
    - split; [now apply path_len|]. split; [now apply near_len|]. split; [now apply near_first_len|now apply near_last_len].
  Qed.

  (** ** Lookups in what a removal that unwound left *)
  Lemma spoilt_get (h : heap) m l : asc l -> spoilt h m l ->
    exists b l', hb_read h m = Ok b /\ bm_len b = length l /\ hb_len m = length l /\ sub l' l
      /\ forall q, b_get bor cmp b q = s_get bor cmp q l' /\ b_get_key_value bor cmp b q = s_find bor cmp q l'.
  Proof.
    intros A (t & d & E & L & S). exists (BMap (length l) (Some t)), (flat t). split; auto. split; auto. split.
    { apply read_iff in E as [E _]. exact E. }
    split; auto. intros q. pose proof (loose_get d t q L (asc_sub _ _ S A)) as Hg.
    unfold b_get, b_get_key_value, s_get. cbn [bm_root]. rewrite Hg. destruct (s_find bor cmp q (flat t)) as [[]|]; auto.
  Qed.

  End Laws.

  (** ** Nothing shared, nothing cloned *)
  Definition spread (h : heap) (p : ptr) (a : addr) : Prop := reach h p a \/ length (cells h) <= a.
  Lemma unshared_alone (h : heap) p : unshared h p -> ok (spread h p) (clones h) h /\ Forall (spread h p) (olist p).
  Proof.
    intros H. split; [split; auto; split|].
    - intros a L. now right.
    - intros a c n [R|L] G.
      + split; [eapply H; eauto|]. intros b Hb. left. eapply reach_kid; eauto.
      + apply get_lt in G. lia.
    - apply Forall_forall. intros b Hb. left. now apply reach_root.
  Qed.
  Lemma pin_reach U c (h : heap) p : ok U c h -> Forall U (olist p) -> unshared h p.
  Proof.
    intros [[A1 A2] _] P.
    assert (R : forall a, reach h p a -> U a).
    { induction 1 as [a Ha|a c' n b _ IH G Hb]; [rewrite Forall_forall in P; auto|]. destruct (A2 a c' n IH G) as [_ Hk]. auto. }
    intros a c' n Ra G. destruct (A2 a c' n (R a Ra) G). auto.
  Qed.
  Lemma alone_two (h : heap) p1 p2 : unshared h p1 -> unshared h p2 ->
    let U a := spread h p1 a \/ spread h p2 a in ok U (clones h) h /\ Forall U (olist p1) /\ Forall U (olist p2).
  Proof.
    intros U1 U2 U. destruct (unshared_alone _ _ U1) as [[[A1 A2] C1] P1]. destruct (unshared_alone _ _ U2) as [[[B1 B2] C2] P2].
    split; [split; auto; split|].
    - intros a L. left. auto.
    - intros a c n [R|R] G.
      + destruct (A2 a c n R G) as [-> Hk]. split; auto. intros b Hb. left. auto.
      + destruct (B2 a c n R G) as [-> Hk]. split; auto. intros b Hb. right. auto.
    - split; [eapply Forall_impl; [|exact P1]|eapply Forall_impl; [|exact P2]]; intros a Ha; [left|right]; auto.
  Qed.
  Definition in_place {A} (h : heap) (x : res (heap * hbmap * out A)) : Prop :=
    forall h' m' o, x = Ok (h', m', o) -> clones h' = clones h /\ o <> Unwound /\ unshared h' (hb_root m').
  Lemma lone_in_place {A} U (P : A -> Prop) (h : heap) x : lres (lmap U (clones h) P) x -> in_place h x.
  Proof.
    intros H h' m' o ->. destruct H as (O & Pn & D). cbn [fst snd] in *. split; [apply O|]. split; [destruct o; [discriminate|contradiction]|]. eapply pin_reach; eauto.
  Qed.
  Section InPlace.
    Context (N : nat).
    Variable bomb : nat -> bool.
    Lemma in_place_b (h : heap) m k v q w : unshared h (hb_root m) ->
      in_place h (hb_insert bor cmp N bomb h m k v)
      /\ in_place h (hb_get_mut bor cmp bomb h m q w)
      /\ in_place h (hb_or_insert bor cmp N bomb h m k v w)
      /\ in_place h (hb_remove bor cmp N bomb h m q)
      /\ in_place h (hb_pop_first N bomb h m)
      /\ in_place h (hb_pop_last N bomb h m).
    Proof.
      intros Un. destruct (unshared_alone _ _ Un) as [O P].
      split; [|split; [|split; [|split; [|split]]]].
      - eapply lone_in_place. eapply hb_insert_lone; [exact O|exact P].
      - eapply lone_in_place. eapply hb_get_mut_lone; [exact O|exact P].
      - eapply lone_in_place. eapply hb_or_insert_lone; [exact O|exact P].
      - eapply lone_in_place. eapply hb_remove_lone; [exact O|exact P].
      - eapply lone_in_place. unfold hb_pop_first. apply (rm_lone _ _ h m _ O P). intros. now apply pop_first_lone.
      - eapply lone_in_place. unfold hb_pop_last. apply (rm_lone _ _ h m _ O P). intros. now apply pop_last_lone.
    Qed.
    Lemma extend_in_place (h : heap) m ps : unshared h (hb_root m) -> in_place h (hb_extend bor cmp N bomb h m ps).
    Proof. intros Un. destruct (unshared_alone _ _ Un) as [O P]. eapply lone_in_place. eapply hb_extend_lone; [exact O|exact P]. Qed.
    Lemma retain_in_place {S} (f : S -> K -> V -> S * V * bool) (h : heap) m s : unshared h (hb_root m) ->
      in_place h (hb_retain bor cmp N bomb f (fun _ _ _ => false) h m s).
    Proof. intros Un. destruct (unshared_alone _ _ Un) as [O P]. eapply lone_in_place. eapply retain_lone; [exact O|exact P]. Qed.
    Lemma split_off_in_place (h : heap) m q h' m' o : unshared h (hb_root m) -> hb_split_off bor cmp N bomb h m q = Ok (h', m', o) ->
      clones h' = clones h /\ unshared h' (hb_root m') /\ exists m2, o = Done m2 /\ unshared h' (hb_root m2).
    Proof.
      intros Un E. destruct (unshared_alone _ _ Un) as [O P]. pose proof (split_off_lone N bomb _ _ bor cmp h m q O P) as L.
      rewrite E in L. destruct L as (O1 & P1 & D). cbn [fst snd] in *. destruct o as [m2|]; [|contradiction].
      split; [apply O1|]. split; [eapply pin_reach; eauto|]. exists m2. split; auto. eapply pin_reach; eauto.
    Qed.
    Lemma append_in_place (h : heap) m1 m2 h' m1' m2' o : unshared h (hb_root m1) -> unshared h (hb_root m2) ->
      hb_append bor cmp N bomb h m1 m2 = Ok (h', m1', m2', o) ->
      clones h' = clones h /\ o <> Unwound /\ unshared h' (hb_root m1') /\ m2' = hb_new.
    Proof.
      intros U1 U2 E. destruct (alone_two _ _ _ U1 U2) as (O & P1 & P2). pose proof (append_lone N bomb _ _ bor cmp h m1 m2 O P1 P2) as L.
      rewrite E in L. destruct L as (O1 & Pm & E2 & D). cbn [fst snd] in *. split; [apply O1|]. split; [destruct o; [discriminate|contradiction]|].
      split; auto. eapply pin_reach; eauto.
    Qed.
    Lemma into_calls_in_place (h : heap) m cs h' o : unshared h (hb_root m) -> hb_into_calls bomb h m cs = Ok (h', o) ->
      clones h' = clones h /\ o <> Unwound.
    Proof.
      intros Un E. destruct (unshared_alone _ _ Un) as [O P]. pose proof (into_calls_lone bomb _ _ h m cs O P) as L.
      rewrite E in L. destruct L as (O1 & D). cbn [fst snd] in *. split; [apply O1|destruct o; [discriminate|contradiction]].
    Qed.
  End InPlace.
End Clones.
