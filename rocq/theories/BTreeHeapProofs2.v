(** [get_mut] and [insert] of shared B-trees. *)
From Coq Require Import List PeanoNat Bool Lia.
From Verif Require Import Base Vec Heap HeapProofs BTreeModel BTreeProofs BTreeHeapModel BTreeHeapSpec BTreeHeapProofs.
Import ListNotations.
Local Open Scope nat_scope.

Section Insert.
  Context {K V Q : Type} (bor : K -> Q) (cmp : Q -> Q -> comparison) (N : nat).
  Variable bomb : nat -> bool.
  Notation pay := (list (K * V)).
  Notation heap := (heap pay).
  Notation bt := (bt K V).
  Notation scan := (@scan K V Q bor cmp).
  Notation rank := (@rank K V Q bor cmp).
  Notation hit := (@hit K V Q bor cmp).
  Notation path := (@path K V Q bor cmp).
  Notation loose := (@loose K V).

  Lemma scan_rank q es i c : scan q es = (i, c) ->
    i = rank q es /\ hit q es = match c with Eq => true | _ => false end
    /\ match c with Gt => i = length es | _ => exists e, nth_error es i = Some e end.
  Proof.
    revert i c. induction es as [|e es IH]; cbn [BTreeModel.scan]; intros i c H.
    - injection H as <- <-. auto.
    - unfold BTreeHeapSpec.hit in *. cbn [BTreeHeapSpec.rank]. destruct (cmp q (bor (fst e))) eqn:E.
      + injection H as <- <-. cbn. rewrite E. eauto.
      + injection H as <- <-. cbn. rewrite E. eauto.
      + destruct (scan q es) as [j c'] eqn:S. injection H as <- <-.
        destruct (IH _ _ eq_refl) as (-> & H1 & H2). cbn. split; auto. split; auto.
        destruct c'; auto.
  Qed.

  Lemma nth_cut {A} (l : list A) i x : nth_error l i = Some x -> exists l1 l2, l = l1 ++ x :: l2 /\ length l1 = i.
  Proof.
    intros H. apply nth_error_split in H as (l1 & l2 & -> & <-). eauto.
  Qed.
  Lemma f2_cut {A B} (R : A -> B -> Prop) l1 x l2 m : Forall2 R (l1 ++ x :: l2) m ->
    exists m1 y m2, m = m1 ++ y :: m2 /\ length m1 = length l1 /\ Forall2 R l1 m1 /\ R x y /\ Forall2 R l2 m2.
  Proof.
    intros F. apply Forall2_app_inv_l in F as (m1 & m2 & F1 & F2 & ->). inversion F2; subst.
    eexists m1, _, _. split; [reflexivity|]. split; [symmetry; eapply f2_length; eauto|auto].
  Qed.
  Lemma f2_cut_r {A B} (R : A -> B -> Prop) l m1 y m2 : Forall2 R l (m1 ++ y :: m2) ->
    exists l1 x l2, l = l1 ++ x :: l2 /\ length l1 = length m1 /\ Forall2 R l1 m1 /\ R x y /\ Forall2 R l2 m2.
  Proof.
    intros F. apply Forall2_app_inv_r in F as (l1 & l2 & F1 & F2 & ->). inversion F2; subst.
    eexists l1, _, _. split; [reflexivity|]. split; [eapply f2_length; eauto|auto].
  Qed.
  Lemma f2_at {A B} (R : A -> B -> Prop) l m i x : Forall2 R l m -> nth_error l i = Some x ->
    exists l1 l2 m1 y m2, l = l1 ++ x :: l2 /\ m = m1 ++ y :: m2 /\ length l1 = i /\ length m1 = i
      /\ Forall2 R l1 m1 /\ R x y /\ Forall2 R l2 m2.
  Proof.
    intros F H. apply nth_cut in H as (l1 & l2 & -> & <-). apply f2_cut in F as (m1 & y & m2 & -> & L & F1 & D & F2).
    exists l1, l2, m1, y, m2. auto 10.
  Qed.
  Lemma f2_none {A B} (R : A -> B -> Prop) l m i : Forall2 R l m -> nth_error l i = None -> nth_error m i = None.
  Proof. intros F H. rewrite nth_error_None in *. rewrite <- (f2_length _ _ _ F). exact H. Qed.
  Lemma f2_app {A B} (R : A -> B -> Prop) l1 l2 m1 m2 : Forall2 R l1 m1 -> Forall2 R l2 m2 -> Forall2 R (l1 ++ l2) (m1 ++ m2).
  Proof. apply Forall2_app. Qed.

  (** A call on one child of an opened node. *)
  Lemma kid_sound (h0 h : heap) R l c r X O : sess h0 h R ((l ++ c :: r) ++ X) O -> sound h (c :: (l ++ r ++ X) ++ O).
  Proof. intros S. apply (sess_sub h0 h R [c] (l ++ r ++ X) O). perm. Qed.
  Lemma kid_done (h0 h h' : heap) R l c c' r X O : sess h0 h R ((l ++ c :: r) ++ X) O ->
    sound h' (c' ++ (l ++ r ++ X) ++ O) -> frame ((l ++ r ++ X) ++ O) h h' ->
    sess h0 h' R (c' ++ l ++ r ++ X) O /\ keep ((l ++ r ++ X) ++ O) h h'.
  Proof.
    intros S S' F. apply (sess_call h0 h h' R [c]); auto. perm.
  Qed.

  Definition none_lost (h h' : heap) (M : list pay) : Prop := exists cs, clones h' = cs ++ clones h /\ sub cs M.
  Lemma nl_trans (h h1 h2 : heap) M1 M2 : none_lost h h1 M1 -> none_lost h1 h2 M2 -> none_lost h h2 (M2 ++ M1).
  Proof.
    intros (c1 & E1 & S1) (c2 & E2 & S2). exists (c2 ++ c1). rewrite E2, E1, app_assoc. split; auto.
    now apply sub_app.
  Qed.
  Lemma nl_same (h h1 : heap) M : clones h1 = clones h -> none_lost h h1 M.
  Proof. intros E. exists []. split; auto. apply sub_nil_l. Qed.
  Lemma nl_le (h h1 : heap) M M' : sub M M' -> none_lost h h1 M -> none_lost h h1 M'.
  Proof. intros S (cs & E & S1). exists cs. split; auto. eapply sub_trans; eauto. Qed.
  Lemma nl_one (h h1 : heap) d : clones h1 = d :: clones h -> none_lost h h1 [d].
  Proof. intros E. exists [d]. split; auto. apply sub_refl. Qed.

  Lemma h_get_mut_ok q w fuel : forall d t a (h : heap) O, loose d t -> d < fuel -> sound h (a :: O) -> ns h a t ->
    exists h' a' o, h_get_mut bor cmp bomb fuel h a q w = Ok (h', a', o) /\ sound h' (a' :: O) /\ frame O h h'
      /\ none_lost h h' (path q t)
      /\ match o with
         | Done e => e = snd (n_get_mut bor cmp q w t) /\ ns h' a' (fst (n_get_mut bor cmp q w t))
         | Unwound => ns h' a' t /\ exists n, bomb n = true
         end.
  Proof.
    induction fuel as [|fuel IH]; intros d [es ts] a h O L Lf S D; [lia|]. cbn [h_get_mut].
    pose proof (sess_start h [a] O S) as S0.
    destruct (sess_open bomb h h [] a [] O es ts S0 D) as (h1 & r & E & P). rewrite E. cbn [bind].
    destruct r as [[[a' es'] ks]|].
    2:{ destruct P as (S1 & K1 & C1 & _ & B & _). apply sess_end in S1 as [S1 F1].
        eexists _, _, _. split; [reflexivity|]. split; [exact S1|]. split; [exact F1|]. split.
        - eapply nl_le; [|apply nl_one; exact C1]. cbn [BTreeHeapSpec.path]. apply sub_app_r, sub_refl.
        - split; [apply K1; [now left|auto]|eauto]. }
    destruct P as (-> & S1 & F1 & K1 & _ & cs & C1 & Sc & _).
    assert (N1 : none_lost h h1 [es]) by (exists cs; auto).
    (* closing with what was there *)
    assert (Same : forall es1, exists h' a'' (o : out (option (K * V))), Ok (cls h1 a' es1 ks, a', @Done (option (K * V)) None) = Ok (h', a'', Done None)
      /\ sound h' (a'' :: O) /\ frame O h h' /\ none_lost h h' (path q (BN es ts)) /\ ns h' a'' (BN es1 ts)).
    { intros es1. destruct (sess_close h h1 [] a' ks [] O es1 ts S1 F1) as (S2 & D2 & _ & _ & _ & C2).
      apply sess_end in S2 as [S2 Fr2]. eexists _, _, (Done None). split; [reflexivity|]. split; [exact S2|]. split; [exact Fr2|].
      split; auto. destruct N1 as (c1 & E1 & E1'). exists c1. rewrite C2. split; auto.
      cbn [BTreeHeapSpec.path]. now apply sub_app_r. }
    cbn [n_get_mut]. destruct (scan q es) as [i c] eqn:Sn.
    apply scan_rank in Sn as (Hi & Hh & Hn).
    (* descending into child [j] *)
    assert (Below : forall j, c <> Eq -> (j = i \/ nth_error ts j = None /\ nth_error ts i = None) ->
      exists h' a'' o, match nth_error ks j with
          | None => Ok (cls h1 a' es ks, a', Done None)
          | Some c => '(h2, c', o) <- h_get_mut bor cmp bomb fuel h1 c q w;; Ok (cls h2 a' es (set_at j c' ks), a', o)
          end = Ok (h', a'', o) /\ sound h' (a'' :: O) /\ frame O h h' /\ none_lost h h' (path q (BN es ts))
        /\ match o with
           | Done e =>
             match nth_error (map (n_get_mut bor cmp q w) ts) j with
             | Some (c', r) => e = r /\ ns h' a'' (BN es (set_at j c' ts))
             | None => e = None /\ ns h' a'' (BN es ts)
             end
           | Unwound => ns h' a'' (BN es ts) /\ exists n, bomb n = true
           end).
    { intros j Hc Hj. rewrite nth_error_map.
      destruct (nth_error ks j) as [c0|] eqn:Ek.
      2:{ rewrite (f2_none _ _ _ _ F1 Ek). destruct (Same es) as (h' & a'' & o & Eq1 & A1 & A2 & A3 & A4).
          eexists _, _, _. split; [exact Eq1|]. cbn [option_map]. auto. }
      destruct (f2_at _ _ _ _ _ F1 Ek) as (kl & kr & tl & t0 & tr & -> & -> & Lk & Lt & Fl & Dc & Fr).
      rewrite (nth_mid tl t0 tr) in * by lia. cbn [option_map].
      destruct Hj as [->|[Hj _]]; [|discriminate].
      apply loose_inv in L as [[_ ?]|(d' & -> & Hd & FL)]; [destruct tl; discriminate|].
      assert (Lc : loose d' t0). { rewrite Forall_forall in FL. apply FL, in_elt. }
      destruct (IH d' t0 c0 h1 ((kl ++ kr ++ []) ++ O) Lc) as (h2 & c' & o & E2 & S2 & Fr2 & N2 & P2); auto; [lia|eapply kid_sound; eauto|].
      rewrite E2. cbn [bind]. rewrite (set_at_mid kl c0 c' kr) by lia.
      destruct (kid_done h h1 h2 [a'] kl c0 [c'] kr [] O S1 S2 Fr2) as [S3 K3].
      assert (S3' : sess h h2 [a'] ((kl ++ c' :: kr) ++ []) O) by perm.
      assert (Fl' : Forall2 (ns h2) kl tl) by (eapply keep_f2; [exact K3|inc|exact Fl]).
      assert (Fr' : Forall2 (ns h2) kr tr) by (eapply keep_f2; [exact K3|inc|exact Fr]).
      assert (NL : none_lost h h2 (path q (BN es (tl ++ t0 :: tr)))).
      { cbn [BTreeHeapSpec.path]. rewrite Hh. destruct c; [congruence| |]; rewrite <- Hi, nth_error_map, nth_mid by lia; cbn [option_map];
          eapply nl_trans; eauto. }
      assert (Cl : forall t1, ns h2 c' t1 -> sound (cls h2 a' es (kl ++ c' :: kr)) (a' :: O) /\ frame O h (cls h2 a' es (kl ++ c' :: kr))
         /\ none_lost h (cls h2 a' es (kl ++ c' :: kr)) (path q (BN es (tl ++ t0 :: tr)))
         /\ ns (cls h2 a' es (kl ++ c' :: kr)) a' (BN es (tl ++ t1 :: tr))).
      { intros t1 D1. destruct (sess_close h h2 [] a' (kl ++ c' :: kr) [] O es (tl ++ t1 :: tr) S3') as (S4 & D4 & _ & _ & _ & C4).
        { apply f2_app; auto. }
        apply sess_end in S4 as [S4 F4]. auto. }
      eexists _, _, _. split; [reflexivity|].
      destruct o as [e|]; [|destruct P2 as [P2 Bb]].
      - destruct P2 as [-> P2]. destruct (Cl _ P2) as (A1 & A2 & A3 & A4). split; auto. split; auto. split; auto.
        destruct (n_get_mut bor cmp q w t0) as [t' r']. cbn [fst snd] in *. rewrite set_at_mid in * by lia. auto.
      - destruct (Cl _ P2) as (A1 & A2 & A3 & A4). auto. }
    destruct c.
    - destruct Hn as (e & Hn). rewrite Hn.
      destruct (sess_close h h1 [] a' ks [] O (set_at i (fst e, w (snd e)) es) ts S1 F1) as (S2 & D2 & _ & _ & _ & C2).
      apply sess_end in S2 as [S2 Fr2]. eexists _, _, _. split; [reflexivity|]. split; [exact S2|]. split; [exact Fr2|].
      split; [|cbn [fst snd]; auto]. destruct N1 as (c1 & E1 & E1'). exists c1. rewrite C2. split; auto.
      cbn [BTreeHeapSpec.path]. now apply sub_app_r.
    - destruct (Below i) as (h' & a'' & o & E1 & A1 & A2 & A3 & A4); [discriminate|auto|].
      eexists _, _, _. split; [exact E1|]. split; auto. split; auto. split; auto.
      destruct o; auto. revert A4. destruct (nth_error (map (n_get_mut bor cmp q w) ts) i) as [[t1 r1]|]; cbn [fst snd]; auto.
    - assert (Hj : length ks - 1 = i \/ nth_error ts (length ks - 1) = None /\ nth_error ts i = None).
      { rewrite (f2_length _ _ _ F1). apply loose_inv in L as [[_ ->]|(d' & -> & Hd & FL)]; [right|left; lia].
        rewrite !nth_nil. auto. }
      destruct (Below (length ks - 1)) as (h' & a'' & o & E1 & A1 & A2 & A3 & A4); [discriminate|auto|].
      eexists _, _, _. split; [exact E1|]. split; auto. split; auto. split; auto.
      destruct o; auto. unfold last_opt. rewrite map_length. rewrite (f2_length _ _ _ F1) in A4. revert A4.
      destruct (nth_error (map (n_get_mut bor cmp q w) ts) (length ts - 1)) as [[t1 r1]|]; cbn [fst snd]; auto.
  Qed.

  Definition opt_ns (h : heap) (p : option addr) (t : option bt) : Prop :=
    match p, t with Some a, Some t => ns h a t | None, None => True | _, _ => False end.
  Definition ins_rel (h : heap) (s : hins K V) (r : ins_res K V) (X : list addr) : Prop :=
    match s, r with
    | HReplaced v, Replaced v' => v = v' /\ X = []
    | HSplit p k v, Split t k' v' => k = k' /\ v = v' /\ X = olist p /\ opt_ns h p t
    | HAbsorbed, Absorbed => X = []
    | _, _ => False
    end.

  Lemma f2_firstn {A B} (R : A -> B -> Prop) i l m : Forall2 R l m -> Forall2 R (firstn i l) (firstn i m).
  Proof. intros F. revert i. induction F; intros [|i]; cbn; auto. Qed.
  Lemma f2_skipn {A B} (R : A -> B -> Prop) i l m : Forall2 R l m -> Forall2 R (skipn i l) (skipn i m).
  Proof. intros F. revert i. induction F; intros [|i]; cbn; auto. Qed.
  Lemma f2_split_off {A B} (R : A -> B -> Prop) i l m m1 m2 : Forall2 R l m -> vec_split_off i m = Ok (m1, m2) ->
    exists l1 l2, vec_split_off i l = Ok (l1, l2) /\ l = l1 ++ l2 /\ Forall2 R l1 m1 /\ Forall2 R l2 m2.
  Proof.
    unfold vec_split_off. intros F E. rewrite (f2_length _ _ _ F). destruct (i <=? length m); [|discriminate].
    injection E as <- <-. eexists _, _. split; [reflexivity|]. split; [now rewrite firstn_skipn|].
    split; [now apply f2_firstn|now apply f2_skipn].
  Qed.
  Lemma f2_insert {A B} (R : A -> B -> Prop) i x y l m m' : Forall2 R l m -> R x y -> vec_insert i y m = Ok m' ->
    exists l', vec_insert i x l = Ok l' /\ Forall2 R l' m' /\ exists l1 l2, l = l1 ++ l2 /\ l' = l1 ++ x :: l2.
  Proof.
    unfold vec_insert. intros F D E. rewrite (f2_length _ _ _ F). destruct (i <=? length m); [|discriminate].
    injection E as <-. eexists. split; [reflexivity|]. split.
    - apply Forall2_app; [now apply f2_firstn|]. constructor; auto. now apply f2_skipn.
    - exists (firstn i l), (skipn i l). split; auto. now rewrite firstn_skipn.
  Qed.
  Lemma f2_nil {A B} (R : A -> B -> Prop) l m : Forall2 R l m -> is_nil l = is_nil m.
  Proof. now destruct 1. Qed.

  Lemma h_split_ok (h0 h : heap) R a es ks ts X O t' r :
    sess h0 h (a :: R) (ks ++ X) O -> Forall2 (ns h) ks ts -> n_split N (BN es ts) = Ok (t', r) ->
    exists h' s Y, h_split N h a es ks = Ok (h', s) /\ ins_rel h' s r Y /\ sess h0 h' R (a :: Y ++ X) O
      /\ ns h' a t' /\ clones h' = clones h.
  Proof.
    intros S F E. unfold n_split, h_split in *.
    destruct (MAX_OCC N <? length es); cbn [assert_ bind] in *; [|discriminate].
    destruct (vec_split_off (MIN_OCC N + 1) es) as [[lo_es hi_es]|] eqn:Ee; cbn [bind] in *; [|discriminate].
    rewrite (f2_nil _ _ _ F).
    assert (exists lo_ks hi_ks lo_ts hi_ts, (if is_nil ts then Ok (ks, []) else vec_split_off (MIN_OCC N + 1) ks) = Ok (lo_ks, hi_ks)
      /\ (if is_nil ts then Ok (ts, []) else vec_split_off (MIN_OCC N + 1) ts) = Ok (lo_ts, hi_ts)
      /\ ks = lo_ks ++ hi_ks /\ Forall2 (ns h) lo_ks lo_ts /\ Forall2 (ns h) hi_ks hi_ts) as (lo_ks & hi_ks & lo_ts & hi_ts & E1 & E2 & -> & F1 & F2).
    { destruct (is_nil ts).
      - exists ks, [], ts, []. rewrite app_nil_r. auto.
      - destruct (vec_split_off (MIN_OCC N + 1) ts) as [[m1 m2]|] eqn:E1; [|discriminate].
        destruct (f2_split_off _ _ _ _ _ _ F E1) as (l1 & l2 & El & -> & Fa & Fb). exists l1, l2, m1, m2. auto. }
    rewrite E1. rewrite E2 in E. cbn [bind] in *.
    destruct (vec_pop lo_es) as [[mid lo_es']|]; cbn [unwrap bind] in *; [|discriminate]. injection E as <- <-.
    assert (S0 : sess h0 h (a :: R) (hi_ks ++ lo_ks ++ X) O) by perm.
    destruct (sess_close h0 h R a hi_ks (lo_ks ++ X) O hi_es hi_ts S0 F2) as (S1 & D1 & K1 & _ & _ & C1).
    destruct (alloc _ _) as [h2 b] eqn:Ea.
    assert (S2 : sess h0 (cls h a hi_es hi_ks) R (lo_ks ++ a :: X) O) by perm.
    destruct (sess_alloc h0 _ R lo_ks (a :: X) O lo_es' lo_ts h2 b S2) as (S3 & D3 & K3 & _ & _ & C3 & _); auto.
    { clear -F1 K1. induction F1; auto. }
    eexists _, _, [b]. split; [reflexivity|]. split; [cbn; auto|]. split; [perm|]. split; [auto|congruence].
  Qed.

  Lemma f2_set {A B} (R : A -> B -> Prop) l1 x l2 m1 y m2 : Forall2 R l1 m1 -> R x y -> Forall2 R l2 m2 ->
    Forall2 R (l1 ++ x :: l2) (m1 ++ y :: m2).
  Proof. intros. apply Forall2_app; auto. Qed.

  Lemma h_insert_ok k v fuel : forall d t t' r a (h : heap) O, loose d t -> d < fuel -> sound h (a :: O) -> ns h a t ->
    n_insert bor cmp N k v t = Ok (t', r) ->
    exists h' a' o, h_insert bor cmp N bomb fuel h a k v = Ok (h', a', o) /\ frame O h h'
      /\ none_lost h h' (path (bor k) t)
      /\ match o with
         | Done s => exists Y, ins_rel h' s r Y /\ sound h' (a' :: Y ++ O) /\ ns h' a' t'
         | Unwound => sound h' (a' :: O) /\ ns h' a' t /\ exists n, bomb n = true
         end.
  Proof.
    induction fuel as [|fuel IH]; intros d [es ts] t' r a h O L Lf S D E; [lia|]. cbn [h_insert].
    pose proof (sess_start h [a] O S) as S0.
    destruct (sess_open bomb h h [] a [] O es ts S0 D) as (h1 & o & Eo & P). rewrite Eo. cbn [bind].
    destruct o as [[[a' es'] ks]|].
    2:{ destruct P as (S1 & K1 & C1 & _ & B & _). apply sess_end in S1 as [S1 F1].
        eexists _, _, _. split; [reflexivity|]. split; [exact F1|]. split.
        - eapply nl_le; [|apply nl_one; exact C1]. cbn [BTreeHeapSpec.path]. apply sub_app_r, sub_refl.
        - split; [exact S1|]. split; [apply K1; [now left|auto]|eauto]. }
    destruct P as (-> & S1 & F1 & K1 & _ & cs & C1 & Sc & _).
    assert (N1 : none_lost h h1 [es]) by (exists cs; auto).
    cbn [n_insert] in E. destruct (scan (bor k) es) as [i c] eqn:Sn.
    apply scan_rank in Sn as (Hi & Hh & Hn).
    assert (HE : c = Eq \/ c <> Eq) by (destruct c; [left|right|right]; congruence). destruct HE as [->|Hc].
    { destruct (nth_error es i) as [e|]; cbn [unwrap bind] in *; [|discriminate]. injection E as <- <-.
      destruct (sess_close h h1 [] a' ks [] O (set_at i (k, v) es) ts S1 F1) as (S2 & D2 & _ & _ & _ & C2).
      apply sess_end in S2 as [S2 Fr2]. eexists _, _, _. split; [reflexivity|]. split; [exact Fr2|].
      split; [|exists []; cbn [ins_rel]; auto]. destruct N1 as (c1 & E1 & E1'). exists c1. rewrite C2. split; auto.
      cbn [BTreeHeapSpec.path]. now apply sub_app_r. }
    (* the child *)
    set (rec := match nth_error ks i with
                | Some c0 => _
                | None => _
                end).
    set (vrec := match nth_error (map (n_insert bor cmp N k v) ts) i with Some m => _ | None => _ end) in E.
    assert (E' : '(ks1, r0) <- vrec;; match r0 with
        | Split child k1 v1 =>
          es1 <- vec_insert i (k1, v1) es;;
          ks2 <- match child with Some rc => vec_insert i rc ks1 | None => Ok ks1 end;;
          if length es1 <=? MAX_OCC N then Ok (BN es1 ks2, Absorbed) else n_split N (BN es1 ks2)
        | _ => Ok (BN es ks1, r0)
        end = Ok (t', r)) by (destruct c; [congruence|exact E|exact E]). clear E.
    destruct vrec as [[ts1 r0]|] eqn:Ev; cbn [bind] in E'; [|discriminate].
    assert (Rec : exists h2 ks1 o, rec = Ok (h2, ks1, o) /\ none_lost h h2 (path (bor k) (BN es ts))
      /\ match o with
         | Done s => exists Y, ins_rel h2 s r0 Y /\ sess h h2 [a'] (ks1 ++ Y) O /\ Forall2 (ns h2) ks1 ts1
         | Unwound => sess h h2 [a'] (ks1 ++ []) O /\ Forall2 (ns h2) ks1 ts /\ exists n, bomb n = true
         end).
    { unfold rec, vrec in *. clear rec vrec. rewrite nth_error_map in Ev.
      destruct (nth_error ks i) as [c0|] eqn:Ek.
      2:{ rewrite (f2_none _ _ _ _ F1 Ek) in Ev. cbn [option_map] in Ev. injection Ev as <- <-.
          eexists _, _, _. split; [reflexivity|]. split.
          - eapply nl_le; [|exact N1]. cbn [BTreeHeapSpec.path]. apply sub_app_r, sub_refl.
          - exists []. cbn [ins_rel opt_ns olist]. auto. }
      destruct (f2_at _ _ _ _ _ F1 Ek) as (kl & kr & tl & t0 & tr & -> & -> & Lk & Lt & Fl & Dc & Fr).
      rewrite (nth_mid tl t0 tr) in * by lia. cbn [option_map] in Ev.
      destruct (n_insert bor cmp N k v t0) as [[t1 r1]|] eqn:E0; cbn [bind] in Ev; [|discriminate].
      injection Ev as <- <-. rewrite (set_at_mid tl t0 t1 tr) by lia.
      apply loose_inv in L as [[_ ?]|(d' & -> & Hd & FL)]; [destruct tl; discriminate|].
      assert (Lc : loose d' t0). { rewrite Forall_forall in FL. apply FL, in_elt. }
      destruct (IH d' t0 t1 r1 c0 h1 ((kl ++ kr ++ []) ++ O) Lc) as (h2 & c' & o & E2 & Fr2 & N2 & P2); auto; [lia|eapply kid_sound; eauto|].
      rewrite E2. cbn [bind]. rewrite (set_at_mid kl c0 c' kr) by lia.
      assert (NL : none_lost h h2 (path (bor k) (BN es (tl ++ t0 :: tr)))).
      { cbn [BTreeHeapSpec.path]. rewrite Hh. destruct c; [congruence| |]; rewrite <- Hi, nth_error_map, nth_mid by lia; cbn [option_map];
          eapply nl_trans; eauto. }
      eexists _, _, _. split; [reflexivity|]. split; [exact NL|].
      destruct o as [s|].
      - destruct P2 as (Y & IR & S2 & D2).
        destruct (kid_done h h1 h2 [a'] kl c0 (c' :: Y) kr [] O S1 S2 Fr2) as [S3 K3].
        exists Y. split; auto. split; [perm|]. apply f2_set; auto; eapply keep_f2; try exact K3; eauto; inc.
      - destruct P2 as (S2 & D2 & Bb).
        destruct (kid_done h h1 h2 [a'] kl c0 [c'] kr [] O S1 S2 Fr2) as [S3 K3].
        split; [perm|]. split; auto. apply f2_set; auto; eapply keep_f2; try exact K3; eauto; inc. }
    clearbody rec vrec. destruct Rec as (h2 & ks1 & o & -> & NL & P2).
    assert (G : exists h' a'' o', match o with
        | Unwound => Ok (cls h2 a' es ks1, a', Unwound)
        | Done (HSplit child k1 v1) =>
          es1 <- vec_insert i (k1, v1) es;;
          ks2 <- match child with Some rc => vec_insert i rc ks1 | None => Ok ks1 end;;
          if length es1 <=? MAX_OCC N then Ok (cls h2 a' es1 ks2, a', Done HAbsorbed)
          else '(h3, s) <- h_split N h2 a' es1 ks2;; Ok (h3, a', Done s)
        | Done s => Ok (cls h2 a' es ks1, a', Done s)
        end = Ok (h', a'', o') /\ frame O h h' /\ none_lost h h' (path (bor k) (BN es ts))
        /\ match o' with
         | Done s => exists Y, ins_rel h' s r Y /\ sound h' (a'' :: Y ++ O) /\ ns h' a'' t'
         | Unwound => sound h' (a'' :: O) /\ ns h' a'' (BN es ts) /\ exists n, bomb n = true
         end).
    { assert (NLc : forall g, clones g = clones h2 -> none_lost h g (path (bor k) (BN es ts))).
      { intros g Eg. destruct NL as (c1 & E1 & E1'). exists c1. rewrite Eg. auto. }
      assert (Close : forall s ks2 ts2 es2, sess h h2 [a'] (ks2 ++ []) O -> Forall2 (ns h2) ks2 ts2 ->
        sound (cls h2 a' es2 ks2) (a' :: O) /\ frame O h (cls h2 a' es2 ks2)
        /\ none_lost h (cls h2 a' es2 ks2) (path (bor k) (BN es ts)) /\ ns (cls h2 a' es2 ks2) a' (BN es2 ts2) /\ s = s :> hins K V).
      { intros s ks2 ts2 es2 S2 F2. destruct (sess_close h h2 [] a' ks2 [] O es2 ts2 S2 F2) as (S3 & D3 & _ & _ & _ & C3).
        apply sess_end in S3 as [S3 Fr3]. auto. }
      destruct o as [s|].
      2:{ destruct P2 as (S2 & F2 & Bb). destruct (Close HAbsorbed ks1 ts es S2 F2) as (A1 & A2 & A3 & A4 & _).
          eexists _, _, _. split; [reflexivity|]. auto. }
      destruct P2 as (Y & IR & S2 & F2).
      destruct s as [v1|child k1 v1|]; destruct r0 as [v2|tc k2 v2|]; cbn [ins_rel] in IR; try contradiction.
      - destruct IR as [-> ->]. injection E' as <- <-. destruct (Close HAbsorbed ks1 ts1 es S2 F2) as (A1 & A2 & A3 & A4 & _).
        eexists _, _, _. split; [reflexivity|]. split; auto. split; auto. exists []. cbn [ins_rel]. auto.
      - destruct IR as (-> & -> & -> & On).
        destruct (vec_insert i (k2, v2) es) as [es1|]; cbn [bind] in *; [|discriminate].
        assert (exists ks2 ts2, match child with Some rc => vec_insert i rc ks1 | None => Ok ks1 end = Ok ks2
          /\ match tc with Some rc => vec_insert i rc ts1 | None => Ok ts1 end = Ok ts2
          /\ sess h h2 [a'] (ks2 ++ []) O /\ Forall2 (ns h2) ks2 ts2) as (ks2 & ts2 & E3 & E4 & S3 & F3).
        { destruct child as [rc|]; destruct tc as [tc|]; cbn [opt_ns] in On; try contradiction.
          - destruct (vec_insert i tc ts1) as [ts2|] eqn:E4; [|discriminate].
            destruct (f2_insert _ _ _ _ _ _ _ F2 On E4) as (ks2 & E3 & F3 & l1 & l2 & -> & ->).
            exists (l1 ++ rc :: l2), ts2. split; auto. split; auto. split; [|auto]. perm.
          - exists ks1, ts1. auto. }
        rewrite E3. rewrite E4 in E'. cbn [bind] in *.
        destruct (length es1 <=? MAX_OCC N).
        + injection E' as <- <-. destruct (Close HAbsorbed ks2 ts2 es1 S3 F3) as (A1 & A2 & A3 & A4 & _).
          eexists _, _, _. split; [reflexivity|]. split; auto. split; auto. exists []. cbn [ins_rel]. auto.
        + destruct (h_split_ok h h2 [] a' es1 ks2 ts2 [] O t' r S3 F3 E') as (h3 & s & Y & E5 & IR & S5 & D5 & C5).
          rewrite E5. cbn [bind]. apply sess_end in S5 as [S5 Fr5]. rewrite app_nil_r in S5.
          eexists _, _, _. split; [reflexivity|]. split; auto. split; [auto|]. exists Y. split; auto.
      - subst Y. injection E' as <- <-. destruct (Close HAbsorbed ks1 ts1 es S2 F2) as (A1 & A2 & A3 & A4 & _).
        eexists _, _, _. split; [reflexivity|]. split; auto. split; auto. exists []. cbn [ins_rel]. auto. }
    destruct c; [congruence|exact G|exact G].
  Qed.
End Insert.
