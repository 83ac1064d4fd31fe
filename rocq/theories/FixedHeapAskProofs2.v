(** [get_mut], [insert] and [remove] on the level of lists, with any answers. *)
From Coq Require Import List PeanoNat Bool Lia.
From Verif Require Import Base Spec SpecFacts Vec AskSpec AskAnySpec Ask AskAnyProofs BTreeAnyProofs FixedAskModel FixedAskAnyProofs Heap HeapProofs BTreeModel BTreeProofs BTreeProofs2 BTreeHeapModel
  BTreeHeapSpec BTreeHeapProofs BTreeHeapProofs2 BTreeHeapProofs3 BTreeHeapProofs4 BTreeHeapProofs5
  FixedModel FixedProofs FixedProofs2 FixedProofs3 FixedAnyProofs FixedHeapModel FixedHeapProofs2 FixedHeapProofs3 FixedHeapProofs4 FixedHeapAskModel FixedHeapAskProofs FixedAskHeapSpec.
Import ListNotations.
Local Open Scope nat_scope.

Section Nodes.
  Context {K V Q : Type} (bor : K -> Q) (ask : nat -> Q -> Q -> option comparison) (small_key : bool).
  Variable bomb : nat -> bool.
  Notation pay := (list (K * V)).
  Notation heap := (heap pay).
  Notation bt := (bt K V).
  Notation entry := (K * V)%type.
  Notation N := MIN_OCCUPANCY.
  Notation loose := (@loose K V).
  Notation flat := (@flat K V).
  Notation shape := (@shape K V MIN_OCCUPANCY).
  Notation arity := (@arity K V MIN_OCCUPANCY).
  Notation left_ok := (@left_ok K V MIN_OCCUPANCY).
  Notation rm_ok := (@FixedHeapProofs2.rm_ok K V bomb).
  Notation said := (said bor ask).
  Notation copes := (copes ask).
  Ltac wide := intros ? ?; apply said_mono; lia.

  Definition why (n0 n : nat) : Prop := (exists i, bomb i = true) \/ n0 < n /\ panicked ask n.
  Lemma why_wide n0 n1 n : n0 <= n1 -> why n1 n -> why n0 n.
  Proof. intros L [H|[H H']]; [now left|right; split; [lia|exact H']]. Qed.

  Lemma lsearch_copes q (es : pay) n0 : es <> [] ->
    copes n0 (lsearch_t bor ask small_key q es n0) (fun _ r n => FixedAskAnyProofs.search_ok bor ask n0 q es r n) (fun _ => True).
  Proof.
    intros Hn. unfold lsearch_t. destruct es as [|e0 es0]; [congruence|]. cbn [is_nil]. set (es := e0 :: es0). destruct small_key.
    - eapply copes_weak; [apply (lin_copes bor ask q es 0)| |auto]. intros [] [i|i] n L G; cbn.
      + destruct G as (e1 & _ & H & T). rewrite Nat.sub_0_r in H. eauto.
      + cbn in G. lia.
    - rewrite map_length. apply bin_copes; lia.
  Qed.
  (** The search in the entries [es] of an opened node. *)
  Ltac searched q es n0 Hm Sh i n1 Hn Gs Pn :=
    let C := fresh "C" in pose proof (lsearch_copes q es n0 (shape_ne _ _ _ _ Hm Sh)) as C;
    destruct (lsearch_t bor ask small_key q es n0) as [[] [i|i] n1|[] n1|]; cbn [AskAnySpec.copes FixedAskAnyProofs.search_ok] in C;
    [destruct C as [Hn Gs]|destruct C as [Hn Gs]|destruct C as (Hn & Pn & _)|destruct C].

  (** Where the search ends in a regular node. *)
  Lemma down mn d (es : pay) ts i : shape mn d (BN es ts) -> i <= length es ->
    (d = 0 /\ ts = [] /\ exists es1 es2, es = es1 ++ es2 /\ length es1 = i)
    \/ exists d', d = S d' /\ exists es1 es2 ks1 t ks2, es = es1 ++ es2 /\ ts = ks1 ++ t :: ks2
      /\ length es1 = i /\ length ks1 = i /\ length ks2 = length es2
      /\ Forall (shape N d') ks1 /\ shape N d' t /\ Forall (shape N d') ks2.
  Proof.
    intros S Hi. destruct d as [|d'].
    - left. destruct (shape_0 _ _ _ S) as (es0 & X & _). injection X as <- ->. split; auto. split; auto.
      exists (firstn i es), (skipn i es). split; [symmetry; apply firstn_skipn|rewrite firstn_length; lia].
    - right. exists d'. split; auto. destruct (shape_S _ _ _ _ S) as (es0 & ks0 & X & _ & Hk & HF). injection X as <- <-.
      destruct (cut_at es ts i Hi Hk) as (es1 & es2 & ks1 & t & ks2 & -> & -> & L0 & L1 & L2).
      apply Forall_mid in HF as (F1 & F & F2). exists es1, es2, ks1, t, ks2. auto 10.
  Qed.
  Lemma at_hit mn d (es : pay) ts i e : shape mn d (BN es ts) -> nth_error es i = Some e ->
    exists es1 es2, es = es1 ++ e :: es2 /\ length es1 = i
      /\ (forall e', exists l1 l2, flat (BN (es1 ++ e' :: es2) ts) = l1 ++ e' :: l2 /\ flat (BN (es1 ++ e :: es2) ts) = l1 ++ e :: l2)
      /\ forall e', shape mn d (BN (es1 ++ e' :: es2) ts).
  Proof.
    intros Sh E. destruct d as [|d'].
    - destruct (shape_0 _ _ _ Sh) as (es0 & X & Hb). injection X as <- ->. destruct (nth_cut _ _ _ E) as (es1 & es2 & -> & L1).
      exists es1, es2. split; auto. split; auto. split.
      + intros e'. exists es1, es2. rewrite !flat_leaf. auto.
      + intros e'. apply shape_iff. rewrite app_length in *. split; [exact Hb|reflexivity].
    - destruct (shape_S _ _ _ _ Sh) as (es0 & ks0 & X & Hb & Hk & HF). injection X as <- <-.
      destruct (cut_pivot es ts i e E Hk) as (es1 & es2 & ks1 & t & ks2 & -> & -> & L0 & L1 & L2).
      exists es1, es2. split; auto. split; auto. split.
      + intros e'. rewrite !flat_pivot by lia. eauto.
      + intros e'. apply shape_iff. split; [rewrite app_length in *; auto|]. split; auto. rewrite !app_length in *. auto.
  Qed.
  Lemma one_branch (h h' : heap) es (ts : list bt) : none_lost h h' [es] -> exists p, branch (BN es ts) p /\ none_lost h h' p.
  Proof. intros H. exists [es]. split; [constructor|exact H]. Qed.

  Lemma g_get_mut_t_ok q w fuel : forall mn d t a (h : heap) O n0, 1 <= mn -> shape mn d t -> d < fuel ->
    sound h (a :: O) -> ns h a t ->
    exists h' a' n' o, g_get_mut_t bor ask small_key bomb fuel h a q w n0 = Ok (h', a', n', o) /\ n0 <= n' /\ sound h' (a' :: O) /\ frame O h h'
      /\ (exists p, branch t p /\ none_lost h h' p)
      /\ match o with
         | Done r => exists t', ns h' a' t' /\ shape mn d t' /\ may_get_mut (said n0 n') q w (flat t) (flat t') r
         | Unwound => ns h' a' t /\ why n0 n'
         end.
  Proof.
    induction fuel as [|fuel IH]; intros mn d [es ts] a h O n0 Hm Sh Lf S D; [lia|]. cbn [g_get_mut_t].
    pose proof (sess_start h [a] O S) as S0.
    destruct (sess_open bomb h h [] a [] O es ts S0 D) as (h1 & r & E & P). rewrite E. cbn [bind].
    destruct r as [[[a' es'] ks]|].
    2:{ destruct P as (S1 & K1 & C1 & _ & B & _). apply sess_end in S1 as [S1 F1].
        eexists _, _, _, _. split; [reflexivity|]. split; [lia|]. split; [exact S1|]. split; [exact F1|].
        split; [apply one_branch, nl_one; exact C1|]. split; [apply K1; [now left|auto]|left; eauto]. }
    destruct P as (-> & S1 & F1 & K1 & _ & cs & C1 & Sc & _).
    assert (N1 : none_lost h h1 [es]) by (exists cs; auto).
    assert (Cl0 : forall es', sound (cls h1 a' es' ks) (a' :: O) /\ frame O h (cls h1 a' es' ks)
      /\ (exists p, branch (BN es ts) p /\ none_lost h (cls h1 a' es' ks) p) /\ ns (cls h1 a' es' ks) a' (BN es' ts)).
    { intros es'. destruct (sess_close h h1 [] a' ks [] O es' ts S1 F1) as (S2 & D2 & _ & _ & _ & C2).
      apply sess_end in S2 as [S2 Fr2]. split; auto. split; auto. split; auto. apply one_branch. eapply nl_eq; eauto. }
    searched q es n0 Hm Sh i n1 Hn Gs Pn.
    - destruct Gs as (e & E1 & T). destruct (at_hit mn d es ts i e Sh E1) as (es1 & es2 & -> & <- & Fl & Shp).
      rewrite (nth_mid es1) by auto. cbn [unwrap bind]. rewrite set_at_mid by auto.
      destruct (Cl0 (es1 ++ (fst e, w (snd e)) :: es2)) as (A1 & A2 & A3 & A4).
      eexists _, _, _, _. split; [reflexivity|]. split; auto. split; auto. split; auto. split; auto.
      eexists. split; [exact A4|]. split; auto. destruct (Fl (fst e, w (snd e))) as (l1 & l2 & X1 & X2). rewrite X1, X2. exists l1, e, l2. auto.
    - destruct (down mn d es ts i Sh Gs) as [(-> & -> & es1 & es2 & -> & L1)
        |(d' & -> & es1 & es2 & tl & t0 & tr & -> & -> & L0 & L1 & L2 & Fs1 & Ft & Fs2)].
      + inversion F1; subst ks. rewrite nth_nil. destruct (Cl0 (es1 ++ es2)) as (A1 & A2 & A3 & A4).
        eexists _, _, _, _. split; [reflexivity|]. split; auto. split; auto. split; auto. split; auto. eexists. split; [exact A4|]. split; auto. reflexivity.
      + clear Cl0. destruct (f2_cut_r _ _ _ _ _ F1) as (kl & c0 & kr & -> & Lk & Fl & Dc & Fr).
        rewrite (nth_mid kl c0 kr) by lia.
        destruct (IH N d' t0 c0 h1 ((kl ++ kr ++ []) ++ O) n1 min_pos Ft) as (h2 & c' & n2 & o & E2 & Hn2 & S2 & Fr2 & (p & Bp & N2) & P2); auto; [lia|eapply kid_sound; eauto|].
        rewrite E2. cbn [bind]. rewrite (set_at_mid kl c0 c' kr) by lia.
        destruct (kid_done h h1 h2 [a'] kl c0 [c'] kr [] O S1 S2 Fr2) as [S3 K3].
        assert (S3' : sess h h2 [a'] ((kl ++ c' :: kr) ++ []) O) by perm.
        assert (Fl' : Forall2 (ns h2) kl tl) by (eapply keep_f2; [exact K3|inc|exact Fl]).
        assert (Fr' : Forall2 (ns h2) kr tr) by (eapply keep_f2; [exact K3|inc|exact Fr]).
        assert (NL : none_lost h h2 (p ++ [es1 ++ es2])) by (eapply nl_trans; eauto).
        assert (Cl : forall t1, ns h2 c' t1 -> sound (cls h2 a' (es1 ++ es2) (kl ++ c' :: kr)) (a' :: O) /\ frame O h (cls h2 a' (es1 ++ es2) (kl ++ c' :: kr))
           /\ (exists p, branch (BN (es1 ++ es2) (tl ++ t0 :: tr)) p /\ none_lost h (cls h2 a' (es1 ++ es2) (kl ++ c' :: kr)) p)
           /\ ns (cls h2 a' (es1 ++ es2) (kl ++ c' :: kr)) a' (BN (es1 ++ es2) (tl ++ t1 :: tr))).
        { intros t1 D1. destruct (sess_close h h2 [] a' (kl ++ c' :: kr) [] O (es1 ++ es2) (tl ++ t1 :: tr) S3') as (S4 & D4 & _ & _ & _ & C4).
          { apply f2_app; auto. }
          apply sess_end in S4 as [S4 F4]. split; auto. split; auto. split; auto. exists (p ++ [es1 ++ es2]). split; [|eapply nl_eq; eauto].
          eapply branch_down; eauto. apply in_or_app. right. now left. }
        eexists _, _, _, _. split; [reflexivity|]. split; [lia|]. destruct o as [r|].
        * destruct P2 as (t' & D' & Sh' & Gm). destruct (Cl _ D') as (A1 & A2 & A3 & A4). split; auto. split; auto. split; auto.
          eexists. split; [exact A4|]. split; [pose proof (proj1 (proj1 (shape_iff _ _ _ _ _) Sh)) as HB; apply shape_branch; auto; solve [exact min_pos|lia|exact HB]|].
          rewrite !flat_branch by lia. apply AskAnyProofs.get_mut_seg. eapply AskAnyProofs.get_mut_mono; [|exact Gm]. wide.
        * destruct P2 as [D' W']. destruct (Cl _ D') as (A1 & A2 & A3 & A4). split; auto. split; auto. split; auto. split; auto.
          eapply why_wide; eauto.
    - destruct (Cl0 es) as (A1 & A2 & A3 & A4). eexists _, _, _, _. split; [reflexivity|]. split; [lia|]. split; auto. split; auto. split; auto.
      split; auto. right. auto.
  Qed.

  (** ** Insertion *)
  Definition g_ins_may (told : Q -> entry -> Prop) (mn d : nat) (k : K) (v : V) (l : pay) (h : heap) (a : addr) (r : fh_res K V) (Y : list addr) : Prop :=
    match r with
    | FHReplaced _ v0 => Y = [] /\ exists t', ns h a t' /\ shape mn d t' /\ may_insert bor told k v l (flat t') (Some v0)
    | FHAbsorbed => Y = [] /\ exists t', ns h a t' /\ shape mn d t' /\ may_insert bor told k v l (flat t') None
    | FHSplit None _ => False
    | FHSplit (Some c) kv => Y = [c]
        /\ exists lhs t', ns h c lhs /\ ns h a t' /\ shape N d lhs /\ shape N d t' /\ may_insert bor told k v l (flat lhs ++ kv :: flat t') None
    end.
  Lemma g_absorb_may told (h0 h : heap) O a mn d k v l es1 es2 ks ts1 ts2 lks kid kv i :
    sess h0 h [a] (ks ++ olist kid) O -> Forall2 (ns h) ks (ts1 ++ ts2) -> i = length es1 ->
    mn <= length (es1 ++ es2) <= MAX_OCCUPANCY ->
    match d with
    | 0 => kid = None /\ lks = [] /\ ts1 = [] /\ ts2 = []
    | S _ => exists c lhs, kid = Some c /\ lks = [lhs] /\ ns h c lhs /\ length ts1 = length es1 /\ length ts2 = S (length es2)
    end ->
    arity d (es1 ++ kv :: es2) (ts1 ++ lks ++ ts2) ->
    may_insert bor told k v l (flat (BN (es1 ++ kv :: es2) (ts1 ++ lks ++ ts2))) None ->
    exists h' r Y, g_absorb h a (es1 ++ es2) ks i kid kv = Ok (h', a, Done r) /\ sound h' (a :: Y ++ O) /\ frame O h0 h'
      /\ clones h' = clones h /\ g_ins_may told mn d k v l h' a r Y.
  Proof.
    intros S F Hi B Hk A Hf. unfold g_absorb.
    pose proof (f2_length _ _ _ F) as Lks. rewrite app_length in Lks.
    assert (C1 : Bool.eqb (negb (is_nil ks)) (is_some kid) = true).
    { rewrite is_nil_len, Lks. destruct d; [destruct Hk as (-> & -> & -> & ->); reflexivity|].
      destruct Hk as (c & lhs & -> & -> & _ & L1 & L2). rewrite L1, L2. rewrite Nat.add_succ_r. reflexivity. }
    assert (C2 : is_nil ks || (length ks =? Datatypes.S (length (es1 ++ es2))) = true).
    { rewrite is_nil_len, Lks, app_length. destruct d; [destruct Hk as (-> & -> & -> & ->); reflexivity|].
      destruct Hk as (c & lhs & -> & -> & _ & L1 & L2). rewrite L1, L2. apply orb_true_intro. right. apply Nat.eqb_eq. lia. }
    rewrite C1, C2. cbn [assert_ bind].
    rewrite (proj2 (Nat.leb_le i _)) by (rewrite app_length; lia). cbn [assert_ bind].
    rewrite (proj2 (Nat.leb_le _ MAX_OCCUPANCY)) by lia. cbn [assert_ bind].
    set (ks1 := match kid with Some c => ins_at i c ks | None => ks end).
    assert (sess h0 h [a] (ks1 ++ []) O /\ Forall2 (ns h) ks1 (ts1 ++ lks ++ ts2)) as [S1 F1].
    { unfold ks1. destruct d.
      - destruct Hk as (-> & -> & -> & ->). cbn [olist app] in *. auto.
      - destruct Hk as (c & lhs & -> & -> & Dc & L1 & L2). cbn [olist app] in *. apply Forall2_app_inv_r in F as (l1 & l2 & F1 & F2 & ->).
        rewrite put_mid by (rewrite (f2_length _ _ _ F1); lia). split; [perm|]. apply f2_set; auto. }
    clearbody ks1. clear S F Lks C1 C2. rewrite (put_mid i kv es1 es2 Hi).
    destruct (Nat.ltb_spec (length (es1 ++ es2)) MAX_OCCUPANCY) as [Hlt|Hge].
    - destruct (node_close _ _ _ _ _ (es1 ++ kv :: es2) _ S1 F1) as (A1 & A2 & A3 & A4 & A5).
      eexists _, _, []. split; [reflexivity|]. split; [exact A1|]. split; auto. split; auto. cbn [g_ins_may]. split; auto.
      eexists. split; [exact A4|]. split; auto. apply shape_iff. split; auto. change (MAX_OCC N) with 11. change MAX_OCCUPANCY with 11 in *.
      rewrite app_length in *. cbn [length]. lia.
    - assert (Len : length (es1 ++ es2) = MAX_OCCUPANCY) by lia.
      destruct (cut_good i kv es1 es2 (ts1 ++ lks ++ ts2) d Len Hi A) as (G1 & G2 & G3). rewrite (put_mid i kv es1 es2 Hi) in *.
      set (m := lo_len i) in *. set (es := es1 ++ kv :: es2) in *. set (ts := ts1 ++ lks ++ ts2) in *.
      assert (Ek : ks1 = firstn (Datatypes.S m) ks1 ++ skipn (Datatypes.S m) ks1) by now rewrite firstn_skipn.
      pose proof (f2_firstn _ (Datatypes.S m) _ _ F1) as Fa. pose proof (f2_skipn _ (Datatypes.S m) _ _ F1) as Fb.
      set (lo := firstn (Datatypes.S m) ks1) in *. set (hi := skipn (Datatypes.S m) ks1) in *.
      assert (S0 : sess h0 h [a] (hi ++ lo ++ []) O) by (rewrite Ek in S1; perm).
      destruct (sess_close h0 h [] a hi (lo ++ []) O (skipn (Datatypes.S m) es) _ S0 Fb) as (S2 & D2 & K2 & _ & _ & C2).
      destruct (alloc _ _) as [h2 b] eqn:Ea.
      assert (S3 : sess h0 (cls h a (skipn (Datatypes.S m) es) hi) [] (lo ++ a :: []) O) by perm.
      destruct (sess_alloc h0 _ [] lo (a :: []) O (firstn m es) (firstn (Datatypes.S m) ts) h2 b S3) as (S4 & D4 & K4 & _ & _ & C4 & _); auto.
      { clear -Fa K2. induction Fa; auto. }
      assert (S4' : sess h0 h2 [] (a :: [b]) O) by perm. apply sess_end in S4' as [S5 Fr5].
      eexists _, _, [b]. split; [reflexivity|]. split; [exact S5|]. split; [exact Fr5|]. split; [congruence|].
      cbn [g_ins_may]. split; auto. eexists _, _. split; [exact D4|]. split; [apply K4; exact D2|].
      split; [exact G1|]. split; [exact G2|]. now rewrite G3.
  Qed.

  Lemma g_insert_t_ok k v fuel : forall mn d t a (h : heap) O n0, 1 <= mn -> shape mn d t -> d < fuel ->
    sound h (a :: O) -> ns h a t ->
    exists h' a' n' o, g_insert_t bor ask small_key bomb fuel h a (k, v) n0 = Ok (h', a', n', o) /\ n0 <= n' /\ frame O h h'
      /\ (exists p, branch t p /\ none_lost h h' p)
      /\ match o with
         | Done r => exists Y, sound h' (a' :: Y ++ O) /\ g_ins_may (said n0 n') mn d k v (flat t) h' a' r Y
         | Unwound => sound h' (a' :: O) /\ ns h' a' t /\ why n0 n'
         end.
  Proof.
    induction fuel as [|fuel IH]; intros mn d [es ts] a h O n0 Hm Sh Lf S D; [lia|]. cbn [g_insert_t fst].
    pose proof (sess_start h [a] O S) as S0.
    destruct (sess_open bomb h h [] a [] O es ts S0 D) as (h1 & o & Eo & P). rewrite Eo. cbn [bind].
    destruct o as [[[a' es'] ks]|].
    2:{ destruct P as (S1 & K1 & C1 & _ & B & _). apply sess_end in S1 as [S1 F1].
        eexists _, _, _, _. split; [reflexivity|]. split; [lia|]. split; [exact F1|]. split; [apply one_branch, nl_one; exact C1|].
        split; [exact S1|]. split; [apply K1; [now left|auto]|left; eauto]. }
    destruct P as (-> & S1 & F1 & K1 & _ & cs & C1 & Sc & _).
    assert (N1 : none_lost h h1 [es]) by (exists cs; auto).
    assert (HB : mn <= length es <= MAX_OCCUPANCY) by (apply shape_iff in Sh as [HB _]; exact HB).
    searched (bor k) es n0 Hm Sh i n1 Hn Gs Pn.
    - destruct Gs as (e & E1 & T). destruct (at_hit mn d es ts i e Sh E1) as (es1 & es2 & -> & <- & Fl & Shp).
      rewrite (nth_mid es1) by auto. cbn [unwrap bind]. rewrite set_at_mid by auto.
      destruct (node_close _ _ _ _ _ (es1 ++ (k, v) :: es2) _ S1 F1) as (A1 & A2 & A3 & A4 & A5).
      eexists _, _, _, _. split; [reflexivity|]. split; auto. split; [exact A2|].
      split; [apply one_branch; eapply nl_eq; [exact A3|exact N1]|].
      exists []. split; [exact A1|]. cbn [g_ins_may]. split; auto.
      destruct (Fl (k, v)) as (l1 & l2 & X1 & X2). eexists. split; [exact A4|]. split; auto. rewrite X1, X2. exists l1, e, l2. auto.
    - destruct (down mn d es ts i Sh Gs) as [(-> & -> & es1 & es2 & -> & L1)
        |(d' & -> & es1 & es2 & tl & t0 & tr & -> & -> & L0 & L1 & L2 & Fs1 & Ft & Fs2)].
      + inversion F1; subst ks. rewrite !nth_nil. cbn [bind].
        destruct (g_absorb_may (said n0 n1) h h1 O a' mn 0 k v (es1 ++ es2) es1 es2 [] [] [] [] None (k, v) i)
          as (h' & r & Y & E2 & A1 & A2 & A3 & A4); auto.
        { reflexivity. }
        { cbn [app]. rewrite flat_leaf. exists es1, es2. auto. }
        rewrite E2. unfold asks_none. cbn [bind]. eexists _, _, _, _. split; [reflexivity|]. split; auto. split; auto.
        split; [apply one_branch; eapply nl_eq; [exact A3|exact N1]|]. exists Y. rewrite flat_leaf. auto.
      + destruct (f2_cut_r _ _ _ _ _ F1) as (kl & c0 & kr & -> & Lk & Fl & Dc & Fr).
        rewrite (nth_mid kl c0 kr) by lia.
        destruct (IH N d' t0 c0 h1 ((kl ++ kr ++ []) ++ O) n1 min_pos Ft) as (h2 & c' & n2 & o & E2 & Hn2 & Fr2 & (p & Bp & N2) & P2); auto; [lia|eapply kid_sound; eauto|].
        rewrite E2. cbn [bind]. rewrite (set_at_mid kl c0 c' kr) by lia.
        assert (NL0 : none_lost h h2 (p ++ [es1 ++ es2])) by (eapply nl_trans; eauto).
        assert (NL : forall h', clones h' = clones h2 -> exists p, branch (BN (es1 ++ es2) (tl ++ t0 :: tr)) p /\ none_lost h h' p).
        { intros h' Ec. exists (p ++ [es1 ++ es2]). split; [|eapply nl_eq; eauto]. eapply branch_down; eauto. apply in_or_app. right. now left. }
        assert (W : forall q (e : entry), said n1 n2 q e -> said n0 n2 q e) by wide.
        destruct o as [r|].
        2:{ destruct P2 as (S2 & D2 & Bb).
            destruct (kid_done h h1 h2 [a'] kl c0 [c'] kr [] O S1 S2 Fr2) as [S3 K3].
            assert (S3' : sess h h2 [a'] ((kl ++ c' :: kr) ++ []) O) by perm.
            assert (F3 : Forall2 (ns h2) (kl ++ c' :: kr) (tl ++ t0 :: tr)) by (apply f2_set; auto; eapply keep_f2; try exact K3; eauto; inc).
            destruct (node_close _ _ _ _ _ (es1 ++ es2) _ S3' F3) as (A1 & A2 & A3 & A4 & A5).
            eexists _, _, _, _. split; [reflexivity|]. split; [lia|]. split; [exact A2|]. split; auto. split; auto. split; auto. eapply why_wide; eauto. }
        destruct P2 as (Y & S2 & G).
        destruct (kid_done h h1 h2 [a'] kl c0 (c' :: Y) kr [] O S1 S2 Fr2) as [S3 K3].
        assert (Fl' : Forall2 (ns h2) kl tl) by (eapply keep_f2; [exact K3|inc|exact Fl]).
        assert (Fr' : Forall2 (ns h2) kr tr) by (eapply keep_f2; [exact K3|inc|exact Fr]).
        rewrite flat_branch by lia.
        assert (Stay : forall t' x (r' : out (fh_res K V)), Y = [] -> ns h2 c' t' -> shape N d' t' -> may_insert bor (said n1 n2) k v (flat t0) (flat t') x ->
          exists h' a'', Ok (cls h2 a' (es1 ++ es2) (kl ++ c' :: kr), a', n2, r') = Ok (h', a'', n2, r') /\ frame O h h'
           /\ (exists p, branch (BN (es1 ++ es2) (tl ++ t0 :: tr)) p /\ none_lost h h' p)
           /\ sound h' (a'' :: O) /\ exists t'', ns h' a'' t'' /\ shape mn (Datatypes.S d') t''
             /\ may_insert bor (said n0 n2) k v (zipl (map flat tl) es1 ++ flat t0 ++ zipr es2 (map flat tr)) (flat t'') x).
        { intros t' x r' -> G2 G3 G4. assert (S3' : sess h h2 [a'] ((kl ++ c' :: kr) ++ []) O) by perm.
          assert (F3 : Forall2 (ns h2) (kl ++ c' :: kr) (tl ++ t' :: tr)) by (apply f2_set; auto).
          destruct (node_close _ _ _ _ _ (es1 ++ es2) _ S3' F3) as (A1 & A2 & A3 & A4 & A5).
          eexists _, _. split; [reflexivity|]. split; auto. split; auto. split; auto.
          eexists. split; [exact A4|]. split; [apply shape_branch; auto; solve [exact min_pos|lia|exact HB]|].
          rewrite flat_branch by lia. apply AskAnyProofs.insert_seg. eapply AskAnyProofs.insert_mono; eauto. }
        destruct r as [|k0 v0|[c1|] kv1]; cbn [g_ins_may] in G.
        * destruct G as (-> & t' & G2 & G3 & G4). destruct (Stay t' None (Done FHAbsorbed)) as (h' & a'' & E3 & A1 & A2 & A3 & A4); auto.
          eexists _, _, _, _. split; [exact E3|]. split; [lia|]. split; auto. split; auto. exists []. split; auto. cbn [g_ins_may]. split; auto.
        * destruct G as (-> & t' & G2 & G3 & G4). destruct (Stay t' (Some v0) (Done (FHReplaced k0 v0))) as (h' & a'' & E3 & A1 & A2 & A3 & A4); auto.
          eexists _, _, _, _. split; [exact E3|]. split; [lia|]. split; auto. split; auto. exists []. split; auto. cbn [g_ins_may]. split; auto.
        * destruct G as (-> & lhs & t' & G2 & G3 & G4 & G5 & G6).
          destruct (g_absorb_may (said n0 n2) h h2 O a' mn (Datatypes.S d') k v (zipl (map flat tl) es1 ++ flat t0 ++ zipr es2 (map flat tr))
            es1 es2 (kl ++ c' :: kr) tl (t' :: tr) [lhs] (Some c1) kv1 i) as (h' & r & Y & E3 & A1 & A2 & A3 & A4); auto.
          -- perm.
          -- apply f2_set; auto.
          -- exists c1, lhs. cbn [length]. repeat split; auto; lia.
          -- cbn [app]. split; [rewrite !app_length in *; cbn [length] in *; lia|].
             apply Forall_app. repeat constructor; auto.
          -- cbn [app]. rewrite (flat_pivot es1 kv1 es2 tl lhs (t' :: tr)) by lia.
             replace es1 with (es1 ++ []) at 2 by apply app_nil_r.
             rewrite (flat_branch es1 [] tl lhs []) by (cbn; lia).
             replace (BN es2 (t' :: tr)) with (BN ([] ++ es2) ([] ++ t' :: tr)) by reflexivity.
             rewrite (flat_branch [] es2 [] t' tr) by (cbn; lia). cbn [map].
             rewrite zipl_nil, zipr_nil, app_nil_r. cbn [app].
             match goal with |- may_insert _ _ _ _ _ ?x _ => replace x with (zipl (map flat tl) es1 ++ (flat lhs ++ kv1 :: flat t') ++ zipr es2 (map flat tr)) end.
             { apply AskAnyProofs.insert_seg. eapply AskAnyProofs.insert_mono; eauto. } now rewrite <- !app_assoc.
          -- rewrite E3. unfold asks_none. cbn [bind]. eexists _, _, _, _. split; [reflexivity|]. split; [lia|]. split; auto. split; auto. eauto.
        * destruct G.
    - destruct (node_close _ _ _ _ _ es _ S1 F1) as (A1 & A2 & A3 & A4 & A5).
      eexists _, _, _, _. split; [reflexivity|]. split; [lia|]. split; [exact A2|].
      split; [apply one_branch; eapply nl_eq; [exact A3|exact N1]|]. split; auto. split; auto. right. auto.
  Qed.

  (** ** Removal *)
  Lemma near_last_branch : forall d (t : bt) mn, shape mn d t -> branch_near t (near_last t).
  Proof.
    induction d as [|d IH]; intros t mn Sh.
    - destruct (shape_0 _ _ _ Sh) as (es & -> & _). cbn [near_last map]. rewrite nth_nil. constructor.
    - destruct (shape_S _ _ _ _ Sh) as (es & ks & -> & _ & _ & HF). cbn [near_last]. rewrite nth_error_map.
      destruct (nth_error ks (length es)) as [t|] eqn:E; cbn [option_map]; [|constructor].
      apply near_down with (t := t); auto. apply nth_error_In in E. rewrite Forall_forall in HF. apply (IH t N). auto.
  Qed.
  (** What follows a removal in one child of an opened node. *)
  Lemma kid_after (h0 h1 h2 : heap) O a es kl c kr tl t0 tr d i c' M0 M1 t0' r0 t' r :
    sess h0 h1 [a] ((kl ++ c :: kr) ++ []) O -> Forall2 (ns h1) kl tl -> Forall2 (ns h1) kr tr -> none_lost h0 h1 M0 ->
    i = length tl -> length (tl ++ t0 :: tr) = S (length es) -> Forall (shape N d) tl -> Forall (shape N d) tr ->
    sound h2 (c' :: (kl ++ kr ++ []) ++ O) -> frame ((kl ++ kr ++ []) ++ O) h1 h2 -> none_lost h1 h2 M1 -> ns h2 c' t0' -> unique h2 c' = true ->
    loose d t0' -> (forall kv, r0 = Some (kv, true) -> left_ok N d t0' true) ->
    match r0 with
    | Some (kv, true) => '(t2, u) <- rebal N (BN es (tl ++ t0' :: tr)) i;; Ok (t2, Some (kv, u))
    | _ => Ok (BN es (tl ++ t0' :: tr), r0)
    end = Ok (t', r) ->
    rm_ok h0 O ((beside i (tl ++ t0 :: tr) ++ M1) ++ M0) t' r
       (match r0 with
        | Some (kv, true) => g_rebal_cls bomb h2 a es (kl ++ c' :: kr) i kv
        | _ => Ok (cls h2 a es (kl ++ c' :: kr), a, Done r0)
        end).
  Proof.
    intros S1 Fl Fr NL Hi Hlen Fs1 Fs2 S2 Fr2 N2 D2 U2 L0' Hun E.
    destruct (kid_done h0 h1 h2 [a] kl c [c'] kr [] O S1 S2 Fr2) as [S3 K3].
    assert (S3' : sess h0 h2 [a] ((kl ++ c' :: kr) ++ []) O) by perm.
    assert (Fl' : Forall2 (ns h2) kl tl) by (eapply keep_f2; [exact K3|inc|exact Fl]).
    assert (Fr' : Forall2 (ns h2) kr tr) by (eapply keep_f2; [exact K3|inc|exact Fr]).
    assert (NL2 : none_lost h0 h2 (M1 ++ M0)) by (eapply nl_trans; eauto).
    assert (NL3 : none_lost h0 h2 ((beside i (tl ++ t0 :: tr) ++ M1) ++ M0)).
    { eapply nl_le; [|exact NL2]. rewrite <- app_assoc. apply sub_app_r, sub_refl. }
    assert (Cl : Ok (BN es (tl ++ t0' :: tr), r0) = Ok (t', r) ->
      rm_ok h0 O ((beside i (tl ++ t0 :: tr) ++ M1) ++ M0) t' r (Ok (cls h2 a es (kl ++ c' :: kr), a, Done r0))).
    { intros Ex. injection Ex as <- <-. apply rm_close; auto. apply f2_set; auto. }
    destruct r0 as [[kv [|]]|]; [|apply Cl; exact E..].
    destruct (rebal N _ _) as [[t2' u']|] eqn:Er; cbn [bind] in E; [|discriminate]. injection E as <- <-.
    rewrite <- app_assoc. rewrite (beside_mid i tl t0 t0' tr) by lia.
    pose proof (Hun kv eq_refl) as Lu. pose proof (under_len _ _ Lu) as Le.
    apply (g_rebal_cls_ok bomb h0 h2 O a es (kl ++ c' :: kr) (tl ++ t0' :: tr) i c' d t2' u' kv); auto.
    + apply f2_set; auto.
    + constructor; [rewrite app_length in *; exact Hlen|]. apply Forall_app. split; [|constructor; auto];
        (eapply Forall_impl; [|eassumption]; intros x; apply shape_loose).
    + apply nth_mid. rewrite (f2_length _ _ _ Fl). lia.
    + apply Forall_app. split; [eapply full_kids; eauto|]. constructor; [|eapply full_kids; eauto]. rewrite Le. change N with 5. lia.
    + intros tc Htc. rewrite (nth_mid tl) in Htc by lia. injection Htc as <-. exact Le.
  Qed.

  Definition rm_may (h : heap) (O : list addr) (n0 mn d : nat) (q : Q) (t : bt) (x : res (heap * addr * nat * out (option (entry * bool)))) : Prop :=
    exists h' a' n' o, x = Ok (h', a', n', o) /\ n0 <= n' /\ sound h' (a' :: O) /\ frame O h h'
      /\ (exists p, branch_near t p /\ none_lost h h' p)
      /\ match o with
         | Done r => exists t', ns h' a' t' /\ unique h' a' = true /\ rem_may (said n0 n') mn d q (flat t) t' r
         | Unwound => ns h' a' t /\ n0 < n' /\ panicked ask n' \/ (exists i, bomb i = true) /\ exists t', ns h' a' t'
         end.
  Lemma rm_may_of h O n0 n1 mn d q t t' r M x : n0 <= n1 -> branch_near t M -> rm_ok h O M t' r x ->
    rem_may (said n0 n1) mn d q (flat t) t' r -> rm_may h O n0 mn d q t (asks_none n1 x).
  Proof.
    intros Hn B (h' & a' & o & -> & S & F & NL & P) R. unfold asks_none. cbn [bind]. eexists _, _, _, _. split; [reflexivity|]. split; auto. split; auto. split; auto.
    split; eauto. destruct o as [x|]; [|right; destruct P; auto]. destruct P as (-> & D & U). eauto.
  Qed.

  Lemma g_remove_t_ok q fuel : forall mn d t a (h : heap) O n0, 1 <= mn <= N -> shape mn d t -> d < fuel ->
    sound h (a :: O) -> ns h a t -> rm_may h O n0 mn d q t (g_remove_t bor ask small_key bomb fuel h a q n0).
  Proof.
    induction fuel as [|fuel IH]; intros mn d [es ts] a h O n0 Hm Sh Lf S D; [lia|]. cbn [g_remove_t].
    pose proof (sess_start h [a] O S) as S0. pose proof (shape_loose _ _ _ _ Sh) as L.
    destruct (sess_open bomb h h [] a [] O es ts S0 D) as (h1 & o & Eo & P). rewrite Eo. cbn [bind].
    destruct o as [[[a' es'] ks]|].
    2:{ destruct P as (S1 & K1 & C1 & _ & B & _). apply sess_end in S1 as [S1 F1]. eexists _, _, _, _. split; [reflexivity|]. split; [lia|].
        split; [exact S1|]. split; [exact F1|]. split; [exists [es]; split; [constructor|apply nl_one; exact C1]|].
        right. split; eauto. exists (BN es ts). apply K1; [now left|auto]. }
    destruct P as (-> & S1 & F1 & K1 & _ & cs & C1 & Sc & _).
    assert (N1 : none_lost h h1 [es]) by (exists cs; auto).
    assert (HB : mn <= length es <= MAX_OCC N) by (apply shape_iff in Sh as [HB _]; exact HB).
    assert (Leaf : forall es' n1 r, n0 <= n1 -> rem_may (said n0 n1) mn d q (flat (BN es ts)) (BN es' ts) r ->
      rm_may h O n0 mn d q (BN es ts) (Ok (cls h1 a' es' ks, a', n1, Done r))).
    { intros es' n1 r Hn R. destruct (node_close _ _ _ _ _ es' _ S1 F1) as (A1 & A2 & A3 & A4 & A5).
      eexists _, _, _, _. split; [reflexivity|]. split; auto. split; auto. split; auto.
      split; [exists [es]; split; [constructor|eapply nl_eq; eauto]|]. eauto. }
    searched q es n0 (proj1 Hm) Sh i n1 Hn Gs Pn.
    - destruct Gs as (e & En & T). rewrite (f2_nil _ _ _ F1). destruct d as [|d'].
      + destruct (shape_0 _ _ _ Sh) as (es0 & X & _). injection X as <- ->. cbn [is_nil].
        destruct (nth_cut _ _ _ En) as (es1 & es2 & -> & <-). rewrite vec_remove_mid by reflexivity. cbn [bind]. apply Leaf; auto. split.
        * cbn [option_map fst]. rewrite !flat_leaf. exists es1, es2. auto.
        * apply (leaf_left N min_pos mn (es1 ++ e :: es2)); auto. rewrite !app_length. cbn. lia.
      + clear Leaf. destruct (shape_S _ _ _ _ Sh) as (es0 & ks0 & X & Hb & Hk & HF). injection X as <- <-.
        destruct (is_nil ts) eqn:Ei; [destruct ts; discriminate|].
        destruct (cut_pivot es ts i e En Hk) as (e1 & e2 & t1 & k & t2 & -> & -> & L1 & Lt & L2).
        apply Forall_mid in HF as (Fs1 & Ft & Fs2).
        destruct (n_pop_last_ok N min_pos N d' k) as (k' & kv & u & Ep & Lo0 & Fp); auto; [split; [exact min_pos|auto]|].
        apply f2_cut_r in F1 as (kl & c0 & kr & -> & Lkl & Fkl & Dc & Fkr).
        rewrite (nth_mid kl) by lia. cbn [unwrap bind].
        destruct (g_pop_last_ok bomb fuel N d' k k' (Some (kv, u)) c0 h1 ((kl ++ kr ++ []) ++ O)) as (h2 & c' & o & E2 & S2 & Fr2 & N2 & P2); auto;
          [split; [exact min_pos|auto]|lia|eapply kid_sound; eauto|].
        rewrite E2. cbn [bind]. rewrite (set_at_mid kl c0 c' kr) by lia.
        assert (B0 : branch_near (BN (e1 ++ e :: e2) (t1 ++ k :: t2)) ((beside i (t1 ++ k :: t2) ++ near_last k) ++ [e1 ++ e :: e2])).
        { apply near_down with (t := k); [apply nth_mid; lia|exact (near_last_branch _ _ _ Ft)]. }
        destruct o as [r2|].
        * destruct P2 as (-> & D2 & U2). cbn [unwrap bind]. rewrite (nth_mid e1) by lia. cbn [unwrap bind]. rewrite (set_at_mid e1) by lia.
          assert (Hfl : may_remove (said n0 n1) q (flat (BN (e1 ++ e :: e2) (t1 ++ k :: t2))) (flat (BN (e1 ++ kv :: e2) (t1 ++ k' :: t2))) (Some e)).
          { rewrite !flat_pivot by lia. exists (flat (BN e1 (t1 ++ [k]))), (flat (BN e2 t2)). split; auto. split; auto.
            replace e1 with (e1 ++ []) by apply app_nil_r. rewrite !(flat_branch e1 [] t1 _ []) by (cbn; lia). rewrite Fp. cbn [map].
            rewrite zipr_nil, !app_nil_r, <- !app_assoc. reflexivity. }
          assert (B' : mn <= length (e1 ++ kv :: e2) <= MAX_OCC N) by (rewrite app_length in *; exact Hb).
          assert (Lk : length (t1 ++ k :: t2) = Datatypes.S (length (e1 ++ kv :: e2))) by (rewrite !app_length in *; exact Hk).
          destruct u.
          -- destruct (kid_fixed N min_pos mn d' e1 (kv :: e2) t1 k' t2 i) as (t2' & u2 & Er & Lo & Fr); auto; try lia.
             pose proof (kid_after h h1 h2 O a' (e1 ++ kv :: e2) kl c0 kr t1 k t2 d' i c' [e1 ++ e :: e2] (near_last k) k' (Some (e, true)) t2' (Some (e, u2))) as Ka.
             eapply rm_may_of; [exact Hn|exact B0| |].
             ++ apply Ka; auto; [eapply left_loose; eauto|]. rewrite Er. reflexivity.
             ++ split; auto. cbn [option_map fst]. now rewrite Fr.
          -- pose proof (kid_after h h1 h2 O a' (e1 ++ kv :: e2) kl c0 kr t1 k t2 d' i c' [e1 ++ e :: e2] (near_last k) k' (Some (e, false))
               (BN (e1 ++ kv :: e2) (t1 ++ k' :: t2)) (Some (e, false))) as Ka.
             change (Ok (cls h2 a' (e1 ++ kv :: e2) (kl ++ c' :: kr), a', n1, Done (Some (e, false))))
               with (asks_none n1 (Ok (cls h2 a' (e1 ++ kv :: e2) (kl ++ c' :: kr), a', Done (Some (e, false))))).
             eapply rm_may_of; [exact Hn|exact B0| |].
             ++ apply Ka; auto; [eapply left_loose; eauto|discriminate].
             ++ split; auto. apply (kid_kept N min_pos mn d' e1 (kv :: e2) t1 k' t2); auto; lia.
        * destruct P2 as (Bb & t1' & D1).
          destruct (kid_done h h1 h2 [a'] kl c0 [c'] kr [] O S1 S2 Fr2) as [S3 K3].
          assert (S3' : sess h h2 [a'] ((kl ++ c' :: kr) ++ []) O) by perm.
          assert (F3 : Forall2 (ns h2) (kl ++ c' :: kr) (t1 ++ t1' :: t2)) by (apply f2_set; auto; eapply keep_f2; try exact K3; eauto; inc).
          destruct (node_close _ _ _ _ _ (e1 ++ e :: e2) _ S3' F3) as (A1 & A2 & A3 & A4 & A5).
          eexists _, _, _, _. split; [reflexivity|]. split; auto. split; auto. split; auto.
          split; [eexists; split; [exact B0|]|right; eauto]. eapply nl_eq; [exact A3|]. rewrite <- app_assoc.
          eapply nl_le; [apply sub_app_r, sub_refl|]. eapply nl_trans; eauto.
    - destruct (down mn d es ts i Sh Gs) as [(-> & -> & es1 & es2 & -> & L1)
        |(d' & -> & es1 & es2 & tl & t0 & tr & -> & -> & L0 & L1 & L2 & Fs1 & Ft & Fs2)].
      + inversion F1; subst ks. rewrite nth_nil. apply Leaf; auto. split; auto. reflexivity.
      + clear Leaf. destruct (f2_cut_r _ _ _ _ _ F1) as (kl & c0 & kr & -> & Lk & Fl & Dc & Fr).
        rewrite (nth_mid kl c0 kr) by lia.
        destruct (IH N d' t0 c0 h1 ((kl ++ kr ++ []) ++ O) n1) as (h2 & c' & n2 & o & E2 & Hn2 & S2 & Fr2 & (p & Bp & N2) & P2); auto;
          [split; [exact min_pos|auto]|lia|eapply kid_sound; eauto|].
        rewrite E2. cbn [bind]. rewrite (set_at_mid kl c0 c' kr) by lia. cbv zeta.
        assert (B0 : branch_near (BN (es1 ++ es2) (tl ++ t0 :: tr)) ((beside i (tl ++ t0 :: tr) ++ p) ++ [es1 ++ es2])).
        { apply near_down with (t := t0); [apply nth_mid; lia|exact Bp]. }
        destruct (kid_done h h1 h2 [a'] kl c0 [c'] kr [] O S1 S2 Fr2) as [S3 K3].
        assert (S3' : sess h h2 [a'] ((kl ++ c' :: kr) ++ []) O) by perm.
        assert (F3 : forall t', ns h2 c' t' -> Forall2 (ns h2) (kl ++ c' :: kr) (tl ++ t' :: tr)) by (intros t' D'; apply f2_set; auto; eapply keep_f2; try exact K3; eauto; inc).
        destruct o as [r2|].
        * destruct P2 as (t0' & D2 & U2 & Gr & G2).
          assert (Hfl : may_remove (said n0 n2) q (flat (BN (es1 ++ es2) (tl ++ t0 :: tr))) (flat (BN (es1 ++ es2) (tl ++ t0' :: tr))) (option_map fst r2)).
          { rewrite !flat_branch by lia. apply AskAnyProofs.remove_seg. eapply AskAnyProofs.remove_mono; [|exact Gr]. wide. }
          assert (Lk' : length (tl ++ t0 :: tr) = Datatypes.S (length (es1 ++ es2))) by (rewrite !app_length; cbn [length]; lia).
          assert (Lo0 : loose d' t0') by (destruct r2 as [[kv u]|]; [eapply left_loose; eauto|eapply shape_loose; eauto]).
          pose proof (kid_after h h1 h2 O a' (es1 ++ es2) kl c0 kr tl t0 tr d' i c' [es1 ++ es2] p t0' r2) as Ka.
          assert (Fin : forall t' r, match r2 with
              | Some (kv, true) => '(t2, u) <- rebal N (BN (es1 ++ es2) (tl ++ t0' :: tr)) i;; Ok (t2, Some (kv, u))
              | _ => Ok (BN (es1 ++ es2) (tl ++ t0' :: tr), r2) end = Ok (t', r) ->
              rem_may (said n0 n2) mn (Datatypes.S d') q (flat (BN (es1 ++ es2) (tl ++ t0 :: tr))) t' r ->
              rm_may h O n0 mn (Datatypes.S d') q (BN (es1 ++ es2) (tl ++ t0 :: tr))
                match r2 with
                | Some (kv, true) => asks_none n2 (g_rebal_cls bomb h2 a' (es1 ++ es2) (kl ++ c' :: kr) i kv)
                | _ => Ok (cls h2 a' (es1 ++ es2) (kl ++ c' :: kr), a', n2, Done r2)
                end).
          { intros t' r Et Rm. assert (X : rm_ok h O ((beside i (tl ++ t0 :: tr) ++ p) ++ [es1 ++ es2]) t' r
               match r2 with
               | Some (kv, true) => g_rebal_cls bomb h2 a' (es1 ++ es2) (kl ++ c' :: kr) i kv
               | _ => Ok (cls h2 a' (es1 ++ es2) (kl ++ c' :: kr), a', Done r2)
               end). { apply Ka; auto. intros kv ->. exact G2. }
            pose proof (rm_may_of h O n0 n2 mn _ q _ t' r _ _ ltac:(lia) B0 X Rm) as Y. destruct r2 as [[kv [|]]|]; exact Y. }
          clear Ka. destruct r2 as [[kv [|]]|].
          -- destruct (kid_fixed N min_pos mn d' es1 es2 tl t0' tr i) as (t2' & u2 & Er & Lo & Ff); auto; try lia.
             apply (Fin t2' (Some (kv, u2))); [rewrite Er; reflexivity|]. split; auto. cbn [option_map fst] in *. now rewrite Ff.
          -- apply (Fin (BN (es1 ++ es2) (tl ++ t0' :: tr)) (Some (kv, false)) eq_refl). split; auto. apply (kid_kept N min_pos mn d' es1 es2 tl t0' tr); auto; lia.
          -- apply (Fin (BN (es1 ++ es2) (tl ++ t0' :: tr)) None eq_refl). split; auto. apply shape_branch; auto; try lia.
        * assert (X : exists t1, ns h2 c' t1 /\ (t1 = t0 /\ n1 < n2 /\ panicked ask n2 \/ (exists i, bomb i = true))).
          { destruct P2 as [(D1 & P1)|(Bb & t1 & D1)]; eauto 6. }
          destruct X as (t1 & D1 & X).
          destruct (node_close _ _ _ _ _ (es1 ++ es2) _ S3' (F3 _ D1)) as (A1 & A2 & A3 & A4 & A5).
          eexists _, _, _, _. split; [reflexivity|]. split; [lia|]. split; auto. split; auto. split.
          -- eexists. split; [exact B0|]. eapply nl_eq; [exact A3|]. rewrite <- app_assoc. eapply nl_le; [apply sub_app_r, sub_refl|]. eapply nl_trans; eauto.
          -- destruct X as [(-> & Hlt & Pk)|Bb]; [left|right; eauto]. split; auto. split; [lia|exact Pk].
    - destruct (node_close _ _ _ _ _ es _ S1 F1) as (A1 & A2 & A3 & A4 & A5).
      eexists _, _, _, _. split; [reflexivity|]. split; [lia|]. split; auto. split; auto.
      split; [exists [es]; split; [constructor|eapply nl_eq; eauto]|]. left. auto.
  Qed.
End Nodes.
