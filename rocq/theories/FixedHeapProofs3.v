(** Lookup for writing and insertion into shared nodes, on the level of lists. *)
From Coq Require Import List PeanoNat Bool Lia.
From Verif Require Import Base Spec SpecFacts Vec Heap HeapProofs BTreeModel BTreeProofs BTreeProofs2 BTreeHeapModel
  BTreeHeapSpec BTreeHeapProofs BTreeHeapProofs2 BTreeHeapProofs3 BTreeHeapProofs4 BTreeHeapProofs5
  FixedModel FixedProofs FixedProofs2 FixedProofs3 FixedHeapModel FixedHeapProofs2.
Import ListNotations.
Local Open Scope nat_scope.

Section Insert.
  Context {K V Q : Type} (bor : K -> Q) (cmp : Q -> Q -> comparison).
  Context (laws : order_laws cmp) (small_key : bool).
  Variable bomb : nat -> bool.
  Notation pay := (list (K * V)).
  Notation heap := (heap pay).
  Notation bt := (bt K V).
  Notation entry := (K * V)%type.
  Notation N := MIN_OCCUPANCY.
  Notation scan := (@scan K V Q bor cmp).
  Notation rank := (@rank K V Q bor cmp).
  Notation hit := (@hit K V Q bor cmp).
  Notation path := (@path K V Q bor cmp).
  Notation loose := (@loose K V).
  Notation flat := (@flat K V).
  Notation asc := (@ascending K V Q bor cmp).
  Notation ins := (@s_insert K V Q bor cmp).
  Notation fnd := (@s_find K V Q bor cmp).
  Notation shape := (@shape K V MIN_OCCUPANCY).
  Notation arity := (@arity K V MIN_OCCUPANCY).
  Notation all_lt := (@all_lt K V Q bor cmp).
  Notation all_gt := (@all_gt K V Q bor cmp).
  Notation key e := (bor (fst e)).

  Lemma lsearch_ok q (es : pay) i c : es <> [] -> asc es -> scan q es = (i, c) ->
    lsearch bor cmp small_key q es = Ok (match c with Eq => inl i | _ => inr i end).
  Proof.
    intros Hn A S. unfold lsearch. destruct es as [|e0 es0]; [congruence|]. cbn [is_nil negb assert_ bind]. set (es := e0 :: es0) in *.
    destruct small_key.
    - rewrite lin_scan, S. now destruct c.
    - rewrite map_length. destruct (scan_leaf bor cmp laws q es i c A S) as (es1 & es2 & Ees & Li & H1 & H2).
      assert (i <= length es) by (rewrite Ees, app_length; lia).
      apply (bin_scan bor cmp laws); auto; try lia. intros ->. destruct H2 as (e' & es3 & -> & _).
      rewrite Ees, app_length. cbn. lia.
  Qed.

  (** Where the search ends in a regular node if the key is not among its entries. *)
  Lemma scan_down mn d q es ts i c : shape mn d (BN es ts) -> asc (flat (BN es ts)) -> scan q es = (i, c) -> c <> Eq ->
    (d = 0 /\ ts = [] /\ exists es1 es2, es = es1 ++ es2 /\ length es1 = i /\ all_lt es1 q /\ all_gt es2 q)
    \/ exists d', d = S d' /\ exists es1 es2 ks1 t ks2, es = es1 ++ es2 /\ ts = ks1 ++ t :: ks2
      /\ length es1 = i /\ length ks1 = i /\ length ks2 = length es2
      /\ all_lt (zipl (map flat ks1) es1) q /\ all_gt (zipr es2 (map flat ks2)) q /\ asc (flat t)
      /\ Forall (shape N d') ks1 /\ shape N d' t /\ Forall (shape N d') ks2 /\ (c = Gt -> ks2 = []).
  Proof.
    intros S A E Hc. destruct d as [|d'].
    - left. destruct (shape_0 _ _ _ S) as (es0 & X & _). injection X as <- ->. split; auto. split; auto.
      destruct (scan_leaf bor cmp laws q es i c A E) as (es1 & es2 & -> & <- & H1 & H2). exists es1, es2.
      split; auto. split; auto. split; auto. destruct c; [congruence|tauto|subst; intros ? []].
    - right. exists d'. split; auto. destruct (shape_S _ _ _ _ S) as (es0 & ks0 & X & _ & Hk & HF). injection X as <- <-.
      destruct (scan_branch bor cmp laws N min_pos q es ts i c Hk A E Hc) as (es1 & es2 & ks1 & t & ks2 & -> & -> & L0 & L1 & L2 & Hl & Hr & At & G).
      apply Forall_mid in HF as (F1 & F & F2). exists es1, es2, ks1, t, ks2.
      split; auto. split; auto. split; auto. split; auto. split; auto. split; auto. split; auto. split; auto. split; auto. split; auto. split; auto. tauto.
  Qed.
  Lemma shape_ne mn d (es : pay) ts : 1 <= mn -> shape mn d (BN es ts) -> es <> [].
  Proof. intros Hm S. apply shape_iff in S as [B _]. intros ->. cbn in B. lia. Qed.

  Lemma path_head q es ts : sub [es] (path q (BN es ts)).
  Proof. cbn [BTreeHeapSpec.path]. apply sub_app_r, sub_refl. Qed.
  Lemma path_kid q es tl t0 tr i c : scan q es = (i, c) -> c <> Eq -> length tl = i ->
    path q (BN es (tl ++ t0 :: tr)) = path q t0 ++ [es].
  Proof.
    intros Sn Hc Hi. apply scan_rank in Sn as (E & Hh & _). cbn [BTreeHeapSpec.path].
    rewrite Hh. destruct c; [congruence| |]; rewrite <- E, nth_error_map, nth_mid by lia; reflexivity.
  Qed.

  Lemma g_get_mut_ok q w fuel : forall mn d t a (h : heap) O, 1 <= mn -> shape mn d t -> asc (flat t) -> d < fuel ->
    sound h (a :: O) -> ns h a t ->
    exists h' a' o, g_get_mut bor cmp small_key bomb fuel h a q w = Ok (h', a', o) /\ sound h' (a' :: O) /\ frame O h h'
      /\ none_lost h h' (path q t)
      /\ match o with
         | Done e => e = option_map snd (snd (n_get_mut bor cmp q w t)) /\ ns h' a' (fst (n_get_mut bor cmp q w t))
         | Unwound => ns h' a' t /\ exists n, bomb n = true
         end.
  Proof.
    induction fuel as [|fuel IH]; intros mn d [es ts] a h O Hm Sh A Lf S D; [lia|]. cbn [g_get_mut].
    pose proof (sess_start h [a] O S) as S0.
    destruct (sess_open bomb h h [] a [] O es ts S0 D) as (h1 & r & E & P). rewrite E. cbn [bind].
    destruct r as [[[a' es'] ks]|].
    2:{ destruct P as (S1 & K1 & C1 & _ & B & _). apply sess_end in S1 as [S1 F1].
        eexists _, _, _. split; [reflexivity|]. split; [exact S1|]. split; [exact F1|]. split.
        - eapply nl_le; [apply path_head|apply nl_one; exact C1].
        - split; [apply K1; [now left|auto]|eauto]. }
    destruct P as (-> & S1 & F1 & K1 & _ & cs & C1 & Sc & _).
    assert (N1 : none_lost h h1 [es]) by (exists cs; auto).
    cbn [n_get_mut]. destruct (scan q es) as [i c] eqn:Sn.
    rewrite (lsearch_ok q es i c (shape_ne _ _ _ _ Hm Sh) (asc_elems bor cmp _ _ A) Sn). cbn [bind].
    pose proof (scan_rank _ _ _ _ _ _ Sn) as (Hi & Hh & Hn).
    assert (HE : c = Eq \/ c <> Eq) by (destruct c; [left|right|right]; congruence). destruct HE as [->|Hc].
    { destruct Hn as (e & Hn). rewrite Hn. cbn [unwrap bind].
      destruct (sess_close h h1 [] a' ks [] O (set_at i (fst e, w (snd e)) es) ts S1 F1) as (S2 & D2 & _ & _ & _ & C2).
      apply sess_end in S2 as [S2 Fr2]. eexists _, _, _. split; [reflexivity|]. split; [exact S2|]. split; [exact Fr2|].
      split; [|cbn [fst snd option_map]; auto]. eapply nl_eq; [exact C2|]. eapply nl_le; [apply path_head|exact N1]. }
    assert (G : exists h' a'' o, match nth_error ks i with
          | None => Ok (cls h1 a' es ks, a', Done None)
          | Some c => '(h2, c', o) <- g_get_mut bor cmp small_key bomb fuel h1 c q w;; Ok (cls h2 a' es (set_at i c' ks), a', o)
          end = Ok (h', a'', o) /\ sound h' (a'' :: O) /\ frame O h h' /\ none_lost h h' (path q (BN es ts))
        /\ match o with
           | Done e =>
             match nth_error (map (n_get_mut bor cmp q w) ts) i with
             | Some (c', r) => e = option_map snd r /\ ns h' a'' (BN es (set_at i c' ts))
             | None => e = None /\ ns h' a'' (BN es ts)
             end
           | Unwound => ns h' a'' (BN es ts) /\ exists n, bomb n = true
           end).
    { rewrite nth_error_map.
      destruct (scan_down mn d q es ts i c Sh A Sn Hc) as [(-> & -> & es1 & es2 & -> & L1 & H1 & H2)
        |(d' & -> & es1 & es2 & tl & t0 & tr & -> & -> & L0 & L1 & L2 & Hl & Hr & At & Fs1 & Ft & Fs2 & _)].
      - inversion F1; subst. rewrite !nth_nil. cbn [option_map].
        destruct (sess_close h h1 [] a' [] [] O (es1 ++ es2) [] S1 F1) as (S2 & D2 & _ & _ & _ & C2).
        apply sess_end in S2 as [S2 Fr2]. eexists _, _, _. split; [reflexivity|]. split; [exact S2|]. split; [exact Fr2|].
        split; [|auto]. eapply nl_eq; [exact C2|]. eapply nl_le; [apply path_head|exact N1].
      - destruct (f2_cut_r _ _ _ _ _ F1) as (kl & c0 & kr & -> & Lk & Fl & Dc & Fr).
        rewrite (nth_mid tl t0 tr), (nth_mid kl c0 kr) by lia. cbn [option_map].
        destruct (IH N d' t0 c0 h1 ((kl ++ kr ++ []) ++ O) min_pos Ft At) as (h2 & c' & o & E2 & S2 & Fr2 & N2 & P2); auto; [lia|eapply kid_sound; eauto|].
        rewrite E2. cbn [bind]. rewrite (set_at_mid kl c0 c' kr) by lia.
        destruct (kid_done h h1 h2 [a'] kl c0 [c'] kr [] O S1 S2 Fr2) as [S3 K3].
        assert (S3' : sess h h2 [a'] ((kl ++ c' :: kr) ++ []) O) by perm.
        assert (Fl' : Forall2 (ns h2) kl tl) by (eapply keep_f2; [exact K3|inc|exact Fl]).
        assert (Fr' : Forall2 (ns h2) kr tr) by (eapply keep_f2; [exact K3|inc|exact Fr]).
        assert (NL : none_lost h h2 (path q (BN (es1 ++ es2) (tl ++ t0 :: tr)))).
        { rewrite (path_kid _ _ _ _ _ i c Sn Hc L1). eapply nl_trans; eauto. }
        assert (Cl : forall t1, ns h2 c' t1 -> sound (cls h2 a' (es1 ++ es2) (kl ++ c' :: kr)) (a' :: O) /\ frame O h (cls h2 a' (es1 ++ es2) (kl ++ c' :: kr))
           /\ none_lost h (cls h2 a' (es1 ++ es2) (kl ++ c' :: kr)) (path q (BN (es1 ++ es2) (tl ++ t0 :: tr)))
           /\ ns (cls h2 a' (es1 ++ es2) (kl ++ c' :: kr)) a' (BN (es1 ++ es2) (tl ++ t1 :: tr))).
        { intros t1 D1. destruct (sess_close h h2 [] a' (kl ++ c' :: kr) [] O (es1 ++ es2) (tl ++ t1 :: tr) S3') as (S4 & D4 & _ & _ & _ & C4).
          { apply f2_app; auto. }
          apply sess_end in S4 as [S4 F4]. auto. }
        eexists _, _, _. split; [reflexivity|].
        destruct o as [e|]; [|destruct P2 as [P2 Bb]].
        + destruct P2 as [-> P2]. destruct (Cl _ P2) as (A1 & A2 & A3 & A4). split; auto. split; auto. split; auto.
          destruct (n_get_mut bor cmp q w t0) as [t' r']. cbn [fst snd] in *. rewrite set_at_mid in * by lia. auto.
        + destruct (Cl _ P2) as (A1 & A2 & A3 & A4). auto. }
    assert (Hlast : c = Gt -> ts = [] \/ i = length ts - 1).
    { intros ->. destruct (scan_down mn d q es ts i Gt Sh A Sn Hc) as [(_ & -> & _)
        |(d' & -> & es1 & es2 & tl & t0 & tr & -> & -> & L0 & L1 & L2 & _ & _ & _ & _ & _ & _ & X)]; auto.
      rewrite (X eq_refl). right. rewrite app_length. cbn. lia. }
    destruct G as (h' & a'' & o & E1 & A1 & A2 & A3 & A4).
    destruct c; [congruence| |].
    - eexists _, _, _. split; [exact E1|]. split; auto. split; auto. split; auto.
      destruct o; auto. revert A4. destruct (nth_error (map (n_get_mut bor cmp q w) ts) i) as [[t1 r1]|]; cbn [fst snd option_map]; auto.
    - eexists _, _, _. split; [exact E1|]. split; auto. split; auto. split; auto.
      destruct o; auto. unfold last_opt. rewrite map_length. destruct (Hlast eq_refl) as [->|X].
      + cbn [map] in *. rewrite !nth_nil in *. exact A4.
      + rewrite <- X. revert A4. destruct (nth_error (map (n_get_mut bor cmp q w) ts) i) as [[t1 r1]|]; cbn [fst snd option_map]; auto.
  Qed.

  (** *** Insertion *)
  Definition g_ins_good (mn d : nat) (k : K) (v : V) (l : pay) (h : heap) (a : addr) (r : fh_res K V) (Y : list addr) : Prop :=
    match r with
    | FHReplaced k0 v0 => Y = [] /\ fnd (bor k) l = Some (k0, v0) /\ exists t', ns h a t' /\ shape mn d t' /\ flat t' = ins k v l
    | FHAbsorbed => Y = [] /\ fnd (bor k) l = None /\ exists t', ns h a t' /\ shape mn d t' /\ flat t' = ins k v l
    | FHSplit None _ => False
    | FHSplit (Some c) kv => Y = [c] /\ fnd (bor k) l = None
        /\ exists lhs t', ns h c lhs /\ ns h a t' /\ shape N d lhs /\ shape N d t' /\ flat lhs ++ kv :: flat t' = ins k v l
    end.

  Lemma cut_good i (kv : entry) es1 es2 kall d : length (es1 ++ es2) = MAX_OCCUPANCY -> i = length es1 ->
    arity d (es1 ++ kv :: es2) kall ->
    let m := lo_len i in let es := ins_at i kv (es1 ++ es2) in
    shape N d (BN (firstn m es) (firstn (S m) kall)) /\ shape N d (BN (skipn (S m) es) (skipn (S m) kall))
    /\ flat (BN (firstn m es) (firstn (S m) kall)) ++ nth m es kv :: flat (BN (skipn (S m) es) (skipn (S m) kall))
       = flat (BN (es1 ++ kv :: es2) kall).
  Proof.
    intros Len Hi A m es. change MAX_OCCUPANCY with 11 in *.
    assert (La : length (es1 ++ kv :: es2) = 12) by (rewrite app_length in *; cbn [length]; lia).
    assert (Hm : m = 5 \/ m = 6) by apply lo_len_cases.
    destruct (cut_mid m (es1 ++ kv :: es2)) as (lo & dv & hi & Ecut & Llo); [lia|].
    assert (Lhi : length hi = 11 - m). { rewrite Ecut, app_length in La. cbn [length] in La. lia. }
    assert (Ee : es = lo ++ dv :: hi) by (unfold es; now rewrite put_mid, Ecut by auto).
    rewrite Ee. rewrite firstn_len by auto.
    assert (E2 : skipn (S m) (lo ++ dv :: hi) = hi).
    { replace (lo ++ dv :: hi) with ((lo ++ [dv]) ++ hi) by now rewrite <- app_assoc. apply skipn_len. rewrite app_length. cbn. lia. }
    rewrite E2. assert (nth m (lo ++ dv :: hi) kv = dv) as -> by (rewrite <- Llo, app_nth2 by lia; now rewrite Nat.sub_diag).
    change N with 5. rewrite !shape_iff. unfold MAX_OCC.
    destruct d as [|d].
    - unfold BTreeProofs.arity in *. subst kall. split; [split; [lia|now rewrite firstn_nil]|]. split; [split; [lia|now rewrite skipn_nil]|].
      rewrite firstn_nil, skipn_nil, Ecut, !flat_leaf. reflexivity.
    - destruct A as [LA FA]. rewrite La in LA.
      assert (Hka : exists ka x, firstn (S m) kall = ka ++ [x] /\ length ka = m).
      { destruct (snoc_cases (firstn (S m) kall)) as [X|(ka & x & X)].
        - apply (f_equal (@length _)) in X. rewrite firstn_length, LA in X. cbn in X. lia.
        - exists ka, x. split; auto. apply (f_equal (@length _)) in X. rewrite firstn_length, LA, app_length in X. cbn in X. lia. }
      destruct Hka as (ka & x & Eka & Lka).
      assert (Lkb : length (skipn (S m) kall) = S (length hi)) by (rewrite skipn_length, LA, Lhi; lia).
      pose proof FA as FA0. rewrite <- (firstn_skipn (S m) kall) in FA. apply Forall_app in FA as [FA1 FA2].
      split; [|split].
      + split; [lia|]. split; auto. rewrite Eka, app_length. cbn. lia.
      + split; [lia|]. split; auto.
      + rewrite Ecut. rewrite <- (firstn_skipn (S m) kall) at 3. rewrite Eka, <- app_assoc. cbn [app].
        symmetry. apply flat_pivot. lia.
  Qed.

  Lemma g_absorb_ok (h0 h : heap) O a mn d k v l es1 es2 ks ts1 ts2 lks kid kv i :
    sess h0 h [a] (ks ++ olist kid) O -> Forall2 (ns h) ks (ts1 ++ ts2) -> i = length es1 ->
    mn <= length (es1 ++ es2) <= MAX_OCCUPANCY ->
    match d with
    | 0 => kid = None /\ lks = [] /\ ts1 = [] /\ ts2 = []
    | S _ => exists c lhs, kid = Some c /\ lks = [lhs] /\ ns h c lhs /\ length ts1 = length es1 /\ length ts2 = S (length es2)
    end ->
    arity d (es1 ++ kv :: es2) (ts1 ++ lks ++ ts2) ->
    fnd (bor k) l = None -> flat (BN (es1 ++ kv :: es2) (ts1 ++ lks ++ ts2)) = ins k v l ->
    exists h' r Y, g_absorb h a (es1 ++ es2) ks i kid kv = Ok (h', a, Done r) /\ sound h' (a :: Y ++ O) /\ frame O h0 h'
      /\ clones h' = clones h /\ g_ins_good mn d k v l h' a r Y.
  Proof.
    intros S F Hi B Hk A Hf Fl. unfold g_absorb.
    pose proof (f2_length _ _ _ F) as Lks. rewrite app_length in Lks.
    assert (C1 : Bool.eqb (negb (is_nil ks)) (is_some kid) = true).
    { rewrite is_nil_len, Lks. destruct d; [destruct Hk as (-> & -> & -> & ->); reflexivity|].
      destruct Hk as (c & lhs & -> & -> & _ & L1 & L2). rewrite L1, L2. rewrite Nat.add_succ_r. reflexivity. }
    assert (C2 : is_nil ks || (length ks =? Datatypes.S (length (es1 ++ es2))) = true).
    { rewrite is_nil_len, Lks, app_length. destruct d; [destruct Hk as (-> & -> & -> & ->); reflexivity|].
      destruct Hk as (c & lhs & -> & -> & _ & L1 & L2). rewrite L1, L2. apply orb_true_intro. right. apply Nat.eqb_eq. lia. }
    rewrite C1, C2. cbn [assert_ bind].
    rewrite (proj2 (Nat.leb_le i _)) by (rewrite app_length; lia). cbn [assert_ bind].
    rewrite (proj2 (Nat.leb_le _ MAX_OCCUPANCY)) by lia. cbn [assert_ bind].
    set (ks1 := match kid with Some c => ins_at i c ks | None => ks end).
    assert (sess h0 h [a] (ks1 ++ []) O /\ Forall2 (ns h) ks1 (ts1 ++ lks ++ ts2)) as [S1 F1].
    { unfold ks1. destruct d.
      - destruct Hk as (-> & -> & -> & ->). cbn [olist app] in *. auto.
      - destruct Hk as (c & lhs & -> & -> & Dc & L1 & L2). cbn [olist app] in *. apply Forall2_app_inv_r in F as (l1 & l2 & F1 & F2 & ->).
        rewrite put_mid by (rewrite (f2_length _ _ _ F1); lia). split; [perm|]. apply f2_set; auto. }
    clearbody ks1. clear S F Lks C1 C2. rewrite (put_mid i kv es1 es2 Hi).
    destruct (Nat.ltb_spec (length (es1 ++ es2)) MAX_OCCUPANCY) as [Hlt|Hge].
    - destruct (node_close _ _ _ _ _ (es1 ++ kv :: es2) _ S1 F1) as (A1 & A2 & A3 & A4 & A5).
      eexists _, _, []. split; [reflexivity|]. split; [exact A1|]. split; auto. split; auto. cbn [g_ins_good]. split; auto. split; auto.
      eexists. split; [exact A4|]. split; auto. apply shape_iff. split; auto. change (MAX_OCC N) with 11. change MAX_OCCUPANCY with 11 in *.
      rewrite app_length in *. cbn [length]. lia.
    - assert (Len : length (es1 ++ es2) = MAX_OCCUPANCY) by lia.
      destruct (cut_good i kv es1 es2 (ts1 ++ lks ++ ts2) d Len Hi A) as (G1 & G2 & G3). rewrite (put_mid i kv es1 es2 Hi) in *.
      set (m := lo_len i) in *. set (es := es1 ++ kv :: es2) in *. set (ts := ts1 ++ lks ++ ts2) in *.
      assert (Ek : ks1 = firstn (Datatypes.S m) ks1 ++ skipn (Datatypes.S m) ks1) by now rewrite firstn_skipn.
      pose proof (f2_firstn _ (Datatypes.S m) _ _ F1) as Fa. pose proof (f2_skipn _ (Datatypes.S m) _ _ F1) as Fb.
      set (lo := firstn (Datatypes.S m) ks1) in *. set (hi := skipn (Datatypes.S m) ks1) in *.
      assert (S0 : sess h0 h [a] (hi ++ lo ++ []) O) by (rewrite Ek in S1; perm).
      destruct (sess_close h0 h [] a hi (lo ++ []) O (skipn (Datatypes.S m) es) _ S0 Fb) as (S2 & D2 & K2 & _ & _ & C2).
      destruct (alloc _ _) as [h2 b] eqn:Ea.
      assert (S3 : sess h0 (cls h a (skipn (Datatypes.S m) es) hi) [] (lo ++ a :: []) O) by perm.
      destruct (sess_alloc h0 _ [] lo (a :: []) O (firstn m es) (firstn (Datatypes.S m) ts) h2 b S3) as (S4 & D4 & K4 & _ & _ & C4 & _); auto.
      { clear -Fa K2. induction Fa; auto. }
      assert (S4' : sess h0 h2 [] (a :: [b]) O) by perm. apply sess_end in S4' as [S5 Fr5].
      eexists _, _, [b]. split; [reflexivity|]. split; [exact S5|]. split; [exact Fr5|]. split; [congruence|].
      cbn [g_ins_good]. split; auto. split; auto. eexists _, _. split; [exact D4|]. split; [apply K4; exact D2|].
      split; [exact G1|]. split; [exact G2|]. rewrite G3. exact Fl.
  Qed.

  Lemma g_insert_ok k v fuel : forall mn d t a (h : heap) O, 1 <= mn -> shape mn d t -> asc (flat t) -> d < fuel ->
    sound h (a :: O) -> ns h a t ->
    exists h' a' o, g_insert bor cmp small_key bomb fuel h a (k, v) = Ok (h', a', o) /\ frame O h h'
      /\ none_lost h h' (path (bor k) t)
      /\ match o with
         | Done r => exists Y, sound h' (a' :: Y ++ O) /\ g_ins_good mn d k v (flat t) h' a' r Y
         | Unwound => sound h' (a' :: O) /\ ns h' a' t /\ exists n, bomb n = true
         end.
  Proof.
    induction fuel as [|fuel IH]; intros mn d [es ts] a h O Hm Sh A Lf S D; [lia|]. cbn [g_insert fst].
    pose proof (sess_start h [a] O S) as S0.
    destruct (sess_open bomb h h [] a [] O es ts S0 D) as (h1 & o & Eo & P). rewrite Eo. cbn [bind].
    destruct o as [[[a' es'] ks]|].
    2:{ destruct P as (S1 & K1 & C1 & _ & B & _). apply sess_end in S1 as [S1 F1].
        eexists _, _, _. split; [reflexivity|]. split; [exact F1|]. split.
        - eapply nl_le; [apply path_head|apply nl_one; exact C1].
        - split; [exact S1|]. split; [apply K1; [now left|auto]|eauto]. }
    destruct P as (-> & S1 & F1 & K1 & _ & cs & C1 & Sc & _).
    assert (N1 : none_lost h h1 [es]) by (exists cs; auto).
    destruct (scan (bor k) es) as [i c] eqn:Sn.
    rewrite (lsearch_ok (bor k) es i c (shape_ne _ _ _ _ Hm Sh) (asc_elems bor cmp _ _ A) Sn). cbn [bind].
    assert (HB : mn <= length es <= MAX_OCCUPANCY) by (apply shape_iff in Sh as [HB _]; exact HB).
    assert (HE : c = Eq \/ c <> Eq) by (destruct c; [left|right|right]; congruence). destruct HE as [->|Hc].
    { assert (exists es1 e es2, es = es1 ++ e :: es2 /\ length es1 = i /\ cmp (bor k) (key e) = Eq
        /\ flat (BN es ts) = flat (BN (es1 ++ e :: es2) ts)
        /\ (forall e', exists l1 l2, flat (BN (es1 ++ e' :: es2) ts) = l1 ++ e' :: l2 /\ flat (BN (es1 ++ e :: es2) ts) = l1 ++ e :: l2)
        /\ forall e', shape mn d (BN (es1 ++ e' :: es2) ts)) as (es1 & e & es2 & -> & <- & Hc & _ & Fl & Shp).
      { destruct d as [|d'].
        - destruct (shape_0 _ _ _ Sh) as (es0 & X & Hb). injection X as <- ->.
          destruct (scan_leaf bor cmp laws _ es i Eq A Sn) as (es1 & es2 & -> & L1 & H1 & e & es3 & -> & Hc).
          exists es1, e, es3. split; auto. split; auto. split; auto. split; auto. split.
          + intros e'. exists es1, es3. auto.
          + intros e'. apply shape_iff. rewrite app_length in *. split; [exact Hb|reflexivity].
        - destruct (shape_S _ _ _ _ Sh) as (es0 & ks0 & X & Hb & Hk & HF). injection X as <- <-.
          destruct (scan_branch_eq bor cmp laws N min_pos _ es ts i Hk A Sn) as (es1 & e & es2 & ks1 & t & ks2 & -> & -> & L0 & L1 & L2 & Hc).
          exists es1, e, es2. split; auto. split; auto. split; auto. split; auto. split.
          + intros e'. rewrite !flat_pivot by lia. eauto.
          + intros e'. apply shape_iff. split; [rewrite app_length in *; auto|]. split; auto. rewrite !app_length in *. auto. }
      rewrite (nth_mid es1) by auto. cbn [unwrap bind]. rewrite set_at_mid by auto.
      destruct (node_close _ _ _ _ _ (es1 ++ (k, v) :: es2) _ S1 F1) as (A1 & A2 & A3 & A4 & A5).
      eexists _, _, _. split; [reflexivity|]. split; [exact A2|].
      split; [eapply nl_eq; [exact A3|]; eapply nl_le; [apply path_head|exact N1]|].
      exists []. split; [exact A1|]. cbn [g_ins_good]. split; auto.
      destruct (Fl (k, v)) as (l1 & l2 & E1 & E2). rewrite E2 in *. split.
      - rewrite (fnd_pivot_eq bor cmp laws _ _ _ _ A Hc). now destruct e.
      - eexists. split; [exact A4|]. split; auto. rewrite E1. symmetry. now apply (ins_pivot_eq bor cmp laws). }
    (* the child *)
    replace (match c with Eq => inl i | _ => inr i end) with (@inr nat nat i) by (destruct c; congruence).
    destruct (scan_down mn d (bor k) es ts i c Sh A Sn Hc) as [(-> & -> & es1 & es2 & -> & L1 & H1 & H2)
      |(d' & -> & es1 & es2 & tl & t0 & tr & -> & -> & L0 & L1 & L2 & Hl & Hr & At & Fs1 & Ft & Fs2 & _)].
    - inversion F1; subst ks. rewrite !nth_nil. cbn [bind].
      destruct (g_absorb_ok h h1 O a' mn 0 k v (es1 ++ es2) es1 es2 [] [] [] [] None (k, v) i)
        as (h' & r & Y & E2 & A1 & A2 & A3 & A4); auto.
      { reflexivity. }
      { exact (fnd_seg bor cmp laws (bor k) es1 [] es2 H1 H2). }
      { cbn [app]. rewrite flat_leaf. symmetry. exact (ins_seg bor cmp laws k v es1 [] es2 H1 H2). }
      rewrite E2. eexists _, _, _. split; [reflexivity|]. split; auto.
      split; [eapply nl_eq; [exact A3|]; eapply nl_le; [apply path_head|exact N1]|].
      exists Y. auto.
    - destruct (f2_cut_r _ _ _ _ _ F1) as (kl & c0 & kr & -> & Lk & Fl & Dc & Fr).
      rewrite (nth_mid kl c0 kr) by lia.
      destruct (IH N d' t0 c0 h1 ((kl ++ kr ++ []) ++ O) min_pos Ft At) as (h2 & c' & o & E2 & Fr2 & N2 & P2); auto; [lia|eapply kid_sound; eauto|].
      rewrite E2. cbn [bind]. rewrite (set_at_mid kl c0 c' kr) by lia.
      assert (NL : none_lost h h2 (path (bor k) (BN (es1 ++ es2) (tl ++ t0 :: tr)))).
      { rewrite (path_kid _ _ _ _ _ i c Sn Hc L1). eapply nl_trans; eauto. }
      destruct o as [r|].
      2:{ destruct P2 as (S2 & D2 & Bb).
          destruct (kid_done h h1 h2 [a'] kl c0 [c'] kr [] O S1 S2 Fr2) as [S3 K3].
          assert (S3' : sess h h2 [a'] ((kl ++ c' :: kr) ++ []) O) by perm.
          assert (F3 : Forall2 (ns h2) (kl ++ c' :: kr) (tl ++ t0 :: tr)) by (apply f2_set; auto; eapply keep_f2; try exact K3; eauto; inc).
          destruct (node_close _ _ _ _ _ (es1 ++ es2) _ S3' F3) as (A1 & A2 & A3 & A4 & A5).
          eexists _, _, _. split; [reflexivity|]. split; [exact A2|]. split; [eapply nl_eq; eauto|]. auto. }
      destruct P2 as (Y & S2 & G).
      destruct (kid_done h h1 h2 [a'] kl c0 (c' :: Y) kr [] O S1 S2 Fr2) as [S3 K3].
      assert (Fl' : Forall2 (ns h2) kl tl) by (eapply keep_f2; [exact K3|inc|exact Fl]).
      assert (Fr' : Forall2 (ns h2) kr tr) by (eapply keep_f2; [exact K3|inc|exact Fr]).
      rewrite flat_branch by lia.
      assert (Stay : forall t' (r' : out (fh_res K V)), Y = [] -> ns h2 c' t' -> shape N d' t' -> flat t' = ins k v (flat t0) ->
        exists h' a'', Ok (cls h2 a' (es1 ++ es2) (kl ++ c' :: kr), a', r') = Ok (h', a'', r') /\ frame O h h'
         /\ none_lost h h' (path (bor k) (BN (es1 ++ es2) (tl ++ t0 :: tr)))
         /\ sound h' (a'' :: O) /\ exists t'', ns h' a'' t'' /\ shape mn (Datatypes.S d') t''
           /\ flat t'' = ins k v (zipl (map flat tl) es1 ++ flat t0 ++ zipr es2 (map flat tr))).
      { intros t' r' -> G2 G3 G4. assert (S3' : sess h h2 [a'] ((kl ++ c' :: kr) ++ []) O) by perm.
        assert (F3 : Forall2 (ns h2) (kl ++ c' :: kr) (tl ++ t' :: tr)) by (apply f2_set; auto).
        destruct (node_close _ _ _ _ _ (es1 ++ es2) _ S3' F3) as (A1 & A2 & A3 & A4 & A5).
        eexists _, _. split; [reflexivity|]. split; auto. split; [eapply nl_eq; eauto|]. split; auto.
        eexists. split; [exact A4|]. split; [apply shape_branch; auto; solve [exact min_pos|lia|exact HB]|].
        rewrite flat_branch, G4 by lia. symmetry. now apply (ins_seg bor cmp laws). }
      destruct r as [|k0 v0|[c1|] kv1]; cbn [g_ins_good] in G.
      + destruct G as (-> & G1 & t' & G2 & G3 & G4). destruct (Stay t' (Done FHAbsorbed)) as (h' & a'' & E3 & A1 & A2 & A3 & A4); auto.
        eexists _, _, _. split; [exact E3|]. split; auto. split; auto. exists []. split; auto. cbn [g_ins_good]. split; auto. split; auto.
        now rewrite (fnd_seg bor cmp laws).
      + destruct G as (-> & G1 & t' & G2 & G3 & G4). destruct (Stay t' (Done (FHReplaced k0 v0))) as (h' & a'' & E3 & A1 & A2 & A3 & A4); auto.
        eexists _, _, _. split; [exact E3|]. split; auto. split; auto. exists []. split; auto. cbn [g_ins_good]. split; auto. split; auto.
        now rewrite (fnd_seg bor cmp laws).
      + destruct G as (-> & G1 & lhs & t' & G2 & G3 & G4 & G5 & G6).
        destruct (g_absorb_ok h h2 O a' mn (Datatypes.S d') k v (zipl (map flat tl) es1 ++ flat t0 ++ zipr es2 (map flat tr))
          es1 es2 (kl ++ c' :: kr) tl (t' :: tr) [lhs] (Some c1) kv1 i) as (h' & r & Y & E3 & A1 & A2 & A3 & A4); auto.
        * perm.
        * apply f2_set; auto.
        * exists c1, lhs. cbn [length]. repeat split; auto; lia.
        * cbn [app]. split; [rewrite !app_length in *; cbn [length] in *; lia|].
          apply Forall_app. repeat constructor; auto.
        * now rewrite (fnd_seg bor cmp laws).
        * cbn [app]. rewrite (ins_seg bor cmp laws), <- G6 by auto.
          rewrite (flat_pivot es1 kv1 es2 tl lhs (t' :: tr)) by lia.
          replace es1 with (es1 ++ []) at 1 by apply app_nil_r.
          rewrite (flat_branch es1 [] tl lhs []) by (cbn; lia).
          replace (BN es2 (t' :: tr)) with (BN ([] ++ es2) ([] ++ t' :: tr)) by reflexivity.
          rewrite (flat_branch [] es2 [] t' tr) by (cbn; lia). cbn [map].
          rewrite zipl_nil, zipr_nil, app_nil_r. cbn [app]. now rewrite <- !app_assoc.
        * rewrite E3. eexists _, _, _. split; [reflexivity|]. split; auto. split; [eapply nl_eq; eauto|]. eauto.
      + destruct G.
  Qed.
End Insert.
