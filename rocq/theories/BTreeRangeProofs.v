(** Proofs about [range]: the worklist built by [make_worklist]. *)
From Coq Require Import List PeanoNat Bool Lia.
From Verif Require Import Base Spec MapSpec SpecFacts Vec BTreeModel BTreeProofs BTreeProofs2
  BTreeIterModel BTreeIterProofs BTreeIterProofs2.
Import ListNotations.
Local Hint Constructors Forall2 Forall : core.

Section Edges.
  Context {K V Q : Type} (bor : K -> Q) (cmp : Q -> Q -> comparison) (laws : order_laws cmp).
  Notation entry := (K * V)%type.
  Notation asc := (@ascending K V Q bor cmp).
  Notation key e := (bor (fst e)).
  Notation above := (@above K V Q bor cmp).
  Notation below := (@below K V Q bor cmp).
  Notation cmp_bd := (@cmp_bd Q cmp).

  (** What a comparison with a bound says. *)
  Lemma bd_above lb (e : entry) : above lb e =
    match cmp_bd lb (key e) with BUnbounded | BLess => true | BEqual b => b | BGreater => false end.
  Proof.
    destruct lb as [|q|q]; cbn -[Nat.ltb]; auto; unfold lt_q, gt_q; rewrite ?(cmp_opp _ laws (key e) q);
      now destruct (cmp (key e) q).
  Qed.
  Lemma bd_below ub (e : entry) : below ub e =
    match cmp_bd ub (key e) with BUnbounded | BGreater => true | BEqual b => b | BLess => false end.
  Proof.
    destruct ub as [|q|q]; cbn -[Nat.ltb]; auto; unfold lt_q, gt_q; rewrite ?(cmp_opp _ laws (key e) q);
      now destruct (cmp (key e) q).
  Qed.
  (** Moving away from a bound. *)
  Lemma bd_up bd k k' : cmp k k' = Lt -> cmp_bd bd k <> BGreater ->
    cmp_bd bd k' = match bd with Unbounded => BUnbounded | _ => BLess end.
  Proof.
    intros H. destruct bd as [|q|q]; cbn -[Nat.ltb]; auto; destruct (cmp q k) eqn:E; try congruence; intros _.
    - now rewrite (cmp_eq_l _ laws _ _ _ E), H.
    - now rewrite (cmp_lt_trans _ laws _ _ _ E H).
    - now rewrite (cmp_eq_l _ laws _ _ _ E), H.
    - now rewrite (cmp_lt_trans _ laws _ _ _ E H).
  Qed.
  Lemma bd_down bd k k' : cmp k' k = Lt -> cmp_bd bd k <> BLess ->
    cmp_bd bd k' = match bd with Unbounded => BUnbounded | _ => BGreater end.
  Proof.
    intros H. destruct bd as [|q|q]; cbn -[Nat.ltb]; auto; destruct (cmp q k) eqn:E; try congruence; intros _.
    - rewrite (cmp_eq_l _ laws _ _ _ E). apply (cmp_lt_gt laws) in H. now rewrite H.
    - apply (cmp_gt_lt laws) in E. pose proof (cmp_lt_trans _ laws _ _ _ H E) as X.
      apply (cmp_lt_gt laws) in X. now rewrite X.
    - rewrite (cmp_eq_l _ laws _ _ _ E). apply (cmp_lt_gt laws) in H. now rewrite H.
    - apply (cmp_gt_lt laws) in E. pose proof (cmp_lt_trans _ laws _ _ _ H E) as X.
      apply (cmp_lt_gt laws) in X. now rewrite X.
  Qed.

  (** Children of any kind, with their contents. *)
  Context {C : Type} (fl : C -> list entry).
  Definition wv (ks : list C) (es : list entry) : list entry := weave (map fl ks) es.
  Definition dn (lf : bool) (ks : list C) (es : list entry) : list entry :=
    if lf then wv ks es else match es with [] => [] | e :: es' => e :: wv ks es' end.
  Definition all (f : entry -> bool) (l : list entry) : Prop := forall x, In x l -> f x = true.
  Definition none (f : entry -> bool) (l : list entry) : Prop := forall x, In x l -> f x = false.

  Lemma wv_cons k ks e es : wv (k :: ks) (e :: es) = fl k ++ e :: wv ks es.
  Proof. reflexivity. Qed.
  Lemma wv_single k : wv [k] [] = fl k.
  Proof. unfold wv. cbn. apply app_nil_r. Qed.

  Definition right_of ub n i (es : list entry) : nat * nat * bool :=
    match right_edge bor cmp ub n i es with Some x => x | None => (n, n + 1, true) end.
  Definition left_of lb n i (es : list entry) : nat * nat * bool :=
    match fst (left_edge bor cmp lb i es) with Some x => x | None => (n, n, true) end.

  (** What the right edge cuts off. *)
  Inductive rcut (ub : bound Q) (a : nat) (lf : bool) (ks : list C) (es : list entry) : nat * nat * bool -> Prop :=
  | rc_before u v :
      lf = false -> u = a -> v = a + 1 -> none (below ub) (dn lf ks es) -> rcut ub a lf ks es (u, v, true)
  | rc_prune u v es3 es4 ks3 c ks4 up :
      es = es3 ++ es4 -> ks = ks3 ++ c :: ks4 -> u = a + length es3 ->
      v + Nat.b2n lf = a + 1 + S (length ks3) -> length ks3 + 1 = length es3 + Nat.b2n lf ->
      dn lf ks es = dn lf ks3 es3 ++ fl c ++ up ->
      all (below ub) (dn lf ks3 es3) -> none (below ub) up -> rcut ub a lf ks es (u, v, true)
  | rc_clean u v es3 es4 ks3 ks4 up :
      es = es3 ++ es4 -> ks = ks3 ++ ks4 -> u = a + length es3 ->
      v + Nat.b2n lf = a + 1 + length ks3 ->
      length ks3 + 1 = length es3 + Nat.b2n lf + Nat.b2n (u <? v) ->
      dn lf ks es = dn lf ks3 es3 ++ up ->
      all (below ub) (dn lf ks3 es3) -> none (below ub) up ->
      (lf = false -> es <> [] /\ forall e es', es = e :: es' -> cmp_bd ub (key e) <> BLess) ->
      rcut ub a lf ks es (u, v, false).

  Lemma all_app f l r : all f (l ++ r) <-> all f l /\ all f r.
  Proof.
    unfold all. split; [intros H; split; intros x Hx; apply H, in_or_app; auto|].
    intros [H1 H2] x Hx. apply in_app_or in Hx as [Hx|Hx]; auto.
  Qed.
  Lemma all_cons f x l : all f (x :: l) <-> f x = true /\ all f l.
  Proof.
    unfold all. split; [intros H; split; [apply H; now left|intros y Hy; apply H; now right]|].
    intros [H1 H2] y [<-|Hy]; auto.
  Qed.
  Lemma all_nil f : all f [].
  Proof. intros ? []. Qed.
  Lemma none_app f l r : none f (l ++ r) <-> none f l /\ none f r.
  Proof.
    unfold none. split; [intros H; split; intros x Hx; apply H, in_or_app; auto|].
    intros [H1 H2] x Hx. apply in_app_or in Hx as [Hx|Hx]; auto.
  Qed.
  Lemma none_cons f x l : none f (x :: l) <-> f x = false /\ none f l.
  Proof.
    unfold none. split; [intros H; split; [apply H; now left|intros y Hy; apply H; now right]|].
    intros [H1 H2] y [<-|Hy]; auto.
  Qed.
  Lemma none_nil f : none f [].
  Proof. intros ? []. Qed.
  Hint Resolve all_nil none_nil : core.

  Lemma gt_not_below ub (e : entry) l : all_gt bor cmp l (key e) -> cmp_bd ub (key e) <> BGreater ->
    ub <> Unbounded -> none (below ub) l.
  Proof.
    intros H He Hu x Hx. rewrite bd_below, (bd_up ub _ _ (H x Hx) He). destruct ub; congruence.
  Qed.
  Lemma lt_below ub (e : entry) l : all_lt bor cmp l (key e) -> cmp_bd ub (key e) <> BLess ->
    all (below ub) l.
  Proof.
    intros H He x Hx. rewrite bd_below, (bd_down ub _ _ (H x Hx) He). destruct ub; congruence.
  Qed.
  Lemma lt_not_above lb (e : entry) l : all_lt bor cmp l (key e) -> cmp_bd lb (key e) <> BLess ->
    lb <> Unbounded -> none (above lb) l.
  Proof.
    intros H He Hu x Hx. rewrite bd_above, (bd_down lb _ _ (H x Hx) He). destruct lb; congruence.
  Qed.
  Lemma gt_above lb (e : entry) l : all_gt bor cmp l (key e) -> cmp_bd lb (key e) <> BGreater ->
    all (above lb) l.
  Proof.
    intros H He x Hx. rewrite bd_above, (bd_up lb _ _ (H x Hx) He). destruct lb; congruence.
  Qed.

  Lemma ltb_plus a b c : a + b <? a + c = (b <? c).
  Proof. destruct (Nat.ltb_spec (a + b) (a + c)), (Nat.ltb_spec b c); auto; lia. Qed.

  Lemma right_true ub : forall es ks a n, n = a + length es -> length ks = S (length es) -> asc (wv ks es) ->
    rcut ub a true ks es (right_of ub n a es).
  Proof.
    induction es as [|e es IH]; intros ks a n Hn Hk A.
    - destruct ks as [|k [|? ?]]; try discriminate. cbn in Hn. unfold right_of. cbn [right_edge].
      apply (rc_prune ub a true [k] [] n (n + 1) [] [] [] k [] []); cbn -[Nat.ltb]; auto; lia.
    - destruct ks as [|k ks]; [discriminate|]. cbn [length] in *. rewrite wv_cons in A.
      pose proof A as A0. apply (asc_pivot bor cmp laws) in A as (A1 & A2 & A3 & A4).
      unfold right_of. cbn [right_edge]. destruct (cmp_bd ub (key e)) eqn:Eb.
      + assert (ub = Unbounded) as -> by (destruct ub as [|q|q]; cbn in Eb; auto; destruct (cmp q (key e)); discriminate).
        apply (rc_clean Unbounded a true (k :: ks) (e :: es) n (n + 1) (e :: es) [] (k :: ks) [] []);
          rewrite ?app_nil_r; auto; cbn [length Nat.b2n]; try lia; try discriminate.
        * destruct (Nat.ltb_spec n (n + 1)); cbn -[Nat.ltb]; lia.
        * intros x _. reflexivity.
      + assert (ub <> Unbounded) by (intros ->; discriminate).
        apply (rc_prune ub a true (k :: ks) (e :: es) a (a + 1) [] (e :: es) [] k ks (e :: wv ks es)); cbn -[Nat.ltb]; auto; try lia.
        apply none_cons. rewrite bd_below, Eb. split; auto. apply (gt_not_below ub e); auto; congruence.
      + assert (ub <> Unbounded) by (intros ->; discriminate). destruct is_in; cbn [Nat.b2n].
        * apply (rc_clean ub a true (k :: ks) (e :: es) (a + 1) (a + 1) [e] es [k] ks (wv ks es)); cbn -[Nat.ltb]; auto; try lia; try discriminate.
          -- destruct (Nat.ltb_spec (a + 1) (a + 1)); cbn -[Nat.ltb]; lia.
          -- rewrite <- app_assoc. reflexivity.
          -- apply all_app. split; [apply (lt_below ub e); auto; congruence|].
             apply all_cons. split; auto. now rewrite bd_below, Eb.
          -- apply (gt_not_below ub e); auto; congruence.
        * rewrite Nat.add_0_r.
          apply (rc_clean ub a true (k :: ks) (e :: es) a (a + 1) [] (e :: es) [k] ks (e :: wv ks es)); cbn -[Nat.ltb]; auto; try lia; try discriminate.
          -- destruct (Nat.ltb_spec a (a + 1)); cbn -[Nat.ltb]; lia.
          -- now rewrite app_nil_r.
          -- rewrite app_nil_r. apply (lt_below ub e); auto; congruence.
          -- apply none_cons. rewrite bd_below, Eb. split; auto. apply (gt_not_below ub e); auto; congruence.
      + specialize (IH ks (S a) n). unfold right_of in IH.
        assert (Hb : all (below ub) (fl k ++ [e])).
        { apply all_app. split; [apply (lt_below ub e); auto; congruence|].
          apply all_cons. split; auto. now rewrite bd_below, Eb. }
        apply all_app in Hb as [Hb1 Hb2]. apply all_cons in Hb2 as [Hb2 _].
        destruct IH as [u v X|u v es3 es4 ks3 c ks4 up E1 E2 E3 E4 E5 E6 E7 E8|u v es3 es4 ks3 ks4 up E1 E2 E3 E4 E5 E6 E7 E8 _];
          auto; try lia; try discriminate.
        * cbn -[Nat.ltb] in *. apply (rc_prune ub a true _ _ u v (e :: es3) es4 (k :: ks3) c ks4 up); cbn -[Nat.ltb]; subst; auto; try lia.
          -- unfold wv in *. rewrite E6, <- app_assoc. reflexivity.
          -- apply all_app. split; auto. apply all_cons. auto.
        * cbn -[Nat.ltb] in *. apply (rc_clean ub a true _ _ u v (e :: es3) es4 (k :: ks3) ks4 up); cbn -[Nat.ltb]; subst; auto; try lia; try discriminate.
          -- unfold wv in *. rewrite E6, <- app_assoc. reflexivity.
          -- apply all_app. split; auto. apply all_cons. auto.
  Qed.

  Lemma right_ok ub lf : forall es ks a n, n = a + length es -> length ks = length es + Nat.b2n lf ->
    asc (dn lf ks es) -> rcut ub a lf ks es (right_of ub n a es).
  Proof.
    destruct lf; intros es ks a n Hn Hk A.
    { apply right_true; auto. cbn in Hk. lia. }
    destruct es as [|e es].
    - cbn in Hn, Hk. apply rc_before; auto; lia.
    - cbn [dn] in A. apply (asc_cons_iff bor cmp) in A as [A A4]. cbn in Hn, Hk.
      unfold right_of. cbn [right_edge]. destruct (cmp_bd ub (key e)) eqn:Eb.
      + assert (ub = Unbounded) as -> by (destruct ub as [|q|q]; cbn in Eb; auto; destruct (cmp q (key e)); discriminate).
        apply (rc_clean Unbounded a false ks (e :: es) n (n + 1) (e :: es) [] ks [] []);
          rewrite ?app_nil_r; auto; cbn [length Nat.b2n]; try lia.
        * destruct (Nat.ltb_spec n (n + 1)); cbn -[Nat.ltb]; lia.
        * intros x _. reflexivity.
        * intros _. split; [discriminate|]. intros e0 es0 X. injection X as <- <-. congruence.
      + assert (ub <> Unbounded) by (intros ->; discriminate). apply rc_before; auto.
        apply none_cons. rewrite bd_below, Eb. split; auto. apply (gt_not_below ub e); auto; congruence.
      + assert (ub <> Unbounded) by (intros ->; discriminate).
        assert (Hz : false = false -> e :: es <> [] /\
                 (forall e0 es', e :: es = e0 :: es' -> cmp_bd ub (key e0) <> BLess)).
        { intros _. split; [discriminate|]. intros e0 es0 X. injection X as <- <-. congruence. }
        destruct is_in; cbn [Nat.b2n].
        * apply (rc_clean ub a false ks (e :: es) (a + 1) (a + 1) [e] es [] ks (wv ks es)); cbn [length Nat.b2n dn app]; auto; try lia.
          -- destruct (Nat.ltb_spec (a + 1) (a + 1)); cbn -[Nat.ltb]; lia.
          -- apply all_cons. split; auto. now rewrite bd_below, Eb.
          -- apply (gt_not_below ub e); auto; congruence.
        * rewrite Nat.add_0_r.
          apply (rc_clean ub a false ks (e :: es) a (a + 1) [] (e :: es) [] ks (e :: wv ks es)); cbn [length Nat.b2n dn app]; auto; try lia.
          -- destruct (Nat.ltb_spec a (a + 1)); cbn -[Nat.ltb]; lia.
          -- apply none_cons. rewrite bd_below, Eb. split; auto. apply (gt_not_below ub e); auto; congruence.
      + assert (Hz : false = false -> e :: es <> [] /\
                 (forall e0 es', e :: es = e0 :: es' -> cmp_bd ub (key e0) <> BLess)).
        { intros _. split; [discriminate|]. intros e0 es0 X. injection X as <- <-. congruence. }
        assert (Hb2 : below ub e = true) by now rewrite bd_below, Eb.
        pose proof (right_true ub es ks (S a) n) as IH. unfold right_of in IH.
        destruct IH as [u v X|u v es3 es4 ks3 c ks4 up E1 E2 E3 E4 E5 E6 E7 E8|u v es3 es4 ks3 ks4 up E1 E2 E3 E4 E5 E6 E7 E8 _];
          auto; try lia; try discriminate.
        * cbn -[Nat.ltb] in *. apply (rc_prune ub a false _ _ u v (e :: es3) es4 ks3 c ks4 up); cbn -[Nat.ltb]; subst; auto; try lia.
          -- unfold wv in *. rewrite E6. reflexivity.
          -- apply all_cons. auto.
        * cbn -[Nat.ltb] in *. apply (rc_clean ub a false _ _ u v (e :: es3) es4 ks3 ks4 up); cbn -[Nat.ltb]; subst; auto; try lia.
          -- unfold wv in *. rewrite E6. reflexivity.
          -- apply all_cons. auto.
  Qed.

  (** What the left edge cuts off; [i] and [rest] are where the search for the right
      edge starts. *)
  Inductive lcut (lb : bound Q) (a0 : nat) (ks : list C) (es : list entry)
    : nat * nat * bool -> nat -> list entry -> Prop :=
  | lc_prune a es1 es2 ks1 c ks2 lo :
      es = es1 ++ es2 -> ks = ks1 ++ c :: ks2 -> a = a0 + length es1 ->
      length ks1 = length es1 -> length ks2 = length es2 ->
      wv ks es = lo ++ fl c ++ dn false ks2 es2 ->
      none (above lb) lo -> all (above lb) (dn false ks2 es2) -> lcut lb a0 ks es (a, a, true) a es2
  | lc_all a : lb = Unbounded -> a = a0 -> lcut lb a0 ks es (a, a, false) a es
  | lc_incl a es1 es2 ks1 ks2 lo :
      es = es1 ++ es2 -> ks = ks1 ++ ks2 -> a = a0 + length es1 ->
      length ks1 = length es1 + 1 -> length ks2 = length es2 ->
      wv ks es = lo ++ dn false ks2 es2 ->
      none (above lb) lo -> all (above lb) (dn false ks2 es2) -> lcut lb a0 ks es (a, a + 1, false) a es2
  | lc_excl a es1 e es2 ks1 ks2 lo q :
      es = es1 ++ e :: es2 -> ks = ks1 ++ ks2 -> a = a0 + length es1 ->
      length ks1 = length es1 + 1 -> length ks2 = length es2 + 1 ->
      wv ks es = lo ++ dn true ks2 es2 ->
      none (above lb) lo -> all (above lb) (dn true ks2 es2) ->
      lb = Excluded q -> cmp q (key e) = Eq -> lcut lb a0 ks es (a + 1, a + 1, false) a (e :: es2).

  Lemma left_ok lb : forall es ks a n, n = a + length es -> length ks = S (length es) -> asc (wv ks es) ->
    (lb = Unbounded -> a = 0) ->
    lcut lb a ks es (left_of lb n a es) (fst (snd (left_edge bor cmp lb a es))) (snd (snd (left_edge bor cmp lb a es))).
  Proof.
    induction es as [|e es IH]; intros ks a n Hn Hk A Hu.
    - destruct ks as [|k [|? ?]]; try discriminate. cbn in Hn. unfold left_of. cbn [left_edge fst snd].
      replace n with a by lia.
      apply (lc_prune lb a [k] [] a [] [] [] k [] []); cbn -[Nat.ltb]; auto.
    - destruct ks as [|k ks]; [discriminate|]. cbn [length] in *. rewrite wv_cons in A.
      pose proof A as A0. apply (asc_pivot bor cmp laws) in A as (A1 & A2 & A3 & A4).
      unfold left_of. cbn [left_edge]. destruct (cmp_bd lb (key e)) eqn:Eb; cbn [fst snd].
      + assert (lb = Unbounded) as -> by (destruct lb as [|q|q]; cbn in Eb; auto; destruct (cmp q (key e)); discriminate).
        rewrite Hu by auto. now apply lc_all.
      + apply (lc_prune lb a (k :: ks) (e :: es) a [] (e :: es) [] k ks []); cbn -[Nat.ltb]; auto.
        apply all_cons. rewrite bd_above, Eb. split; auto. apply (gt_above lb e); auto; congruence.
      + assert (lb <> Unbounded) by (intros ->; discriminate). destruct is_in; cbn [negb Nat.b2n].
        * rewrite Nat.add_0_r.
          apply (lc_incl lb a (k :: ks) (e :: es) a [] (e :: es) [k] ks (fl k)); cbn -[Nat.ltb]; auto; try lia.
          -- apply (lt_not_above lb e); auto; congruence.
          -- apply all_cons. rewrite bd_above, Eb. split; auto. apply (gt_above lb e); auto; congruence.
        * destruct lb as [|q|q]; [congruence|cbn in Eb; destruct (cmp q (key e)); discriminate|].
          cbn in Eb. destruct (cmp q (key e)) eqn:Eq; try discriminate.
          apply (lc_excl (Excluded q) a (k :: ks) (e :: es) a [] e es [k] ks (fl k ++ [e]) q); cbn [length app]; auto; try lia.
          -- rewrite wv_cons, <- app_assoc. reflexivity.
          -- assert (Eb' : cmp_bd (Excluded q) (key e) = BEqual false) by (cbn; now rewrite Eq).
             apply none_app. split; [apply (lt_not_above (Excluded q) e); auto; congruence|].
             apply none_cons. rewrite bd_above, Eb'. auto.
          -- apply (gt_above (Excluded q) e); auto. cbn. rewrite Eq. discriminate.
      + assert (lb <> Unbounded) by (intros ->; discriminate).
        assert (Hb : none (above lb) (fl k ++ [e])).
        { apply none_app. split; [apply (lt_not_above lb e); auto; congruence|].
          apply none_cons. split; auto. now rewrite bd_above, Eb. }
        specialize (IH ks (S a) n). unfold left_of in IH.
        destruct IH as [b es1 es2 ks1 c ks2 lo E1 E2 E3 E4 E5 E6 E7 E8|b E1 E2
                       |b es1 es2 ks1 ks2 lo E1 E2 E3 E4 E5 E6 E7 E8
                       |b es1 e' es2 ks1 ks2 lo q E1 E2 E3 E4 E5 E6 E7 E8 E9 E10]; auto; try lia; try congruence.
        * apply (lc_prune lb a _ _ b (e :: es1) es2 (k :: ks1) c ks2 ((fl k ++ [e]) ++ lo)); cbn [length app]; subst; auto; try lia.
          -- rewrite wv_cons, E6, <- !app_assoc. reflexivity.
          -- apply none_app. auto.
        * apply (lc_incl lb a _ _ b (e :: es1) es2 (k :: ks1) ks2 ((fl k ++ [e]) ++ lo)); cbn [length app]; subst; auto; try lia.
          -- rewrite wv_cons, E6, <- !app_assoc. reflexivity.
          -- apply none_app. auto.
        * apply (lc_excl lb a _ _ b (e :: es1) e' es2 (k :: ks1) ks2 ((fl k ++ [e]) ++ lo) q); cbn [length app]; subst; auto; try lia.
          -- rewrite wv_cons, E6, <- !app_assoc. reflexivity.
          -- apply none_app. auto.
  Qed.

  (** Bounds that do not make [range] panic on a node with the entries [l]. *)
  Definition good (lb ub : bound Q) (l : list entry) : Prop :=
    bad_range cmp lb ub = false /\
    forall q1 q2, lb = Excluded q1 -> ub = Excluded q2 -> cmp q1 q2 = Eq -> s_find bor cmp q1 l = None.

  Lemma edges_ok lb ub es ks : length ks = S (length es) -> asc (wv ks es) -> good lb ub (wv ks es) ->
    exists a b lp r es1 es2 ks1 po ks2 lo lf,
      find_range_edges bor cmp es lb ub = ((a, b, lp), r)
      /\ es = es1 ++ es2 /\ length es1 = a /\ ks = ks1 ++ po ++ ks2 /\ length ks1 = b
      /\ length ks2 = length es2 + Nat.b2n lf /\ b + length po + Nat.b2n lf = a + 1
      /\ lf = negb lp && (a =? b) /\ (if lp then exists c, po = [c] else po = [])
      /\ wv ks es = lo ++ concat (map fl po) ++ dn lf ks2 es2
      /\ none (above lb) lo /\ all (above lb) (dn lf ks2 es2)
      /\ rcut ub a lf ks2 es2 r.
  Proof.
    intros Hk A [Hg1 Hg2]. unfold find_range_edges.
    pose proof (left_ok lb es ks 0 (length es) eq_refl Hk A (fun _ => eq_refl)) as L. unfold left_of in L.
    destruct (left_edge bor cmp lb 0 es) as [l [i rest]]. cbn [fst snd] in L.
    fold (right_of ub (length es) i rest).
    remember (match l with Some x => x | None => (length es, length es, true) end) as al eqn:El. clear El l.
    destruct L as [a es1 es2 ks1 c ks2 lo E1 E2 E3 E4 E5 E6 E7 E8|a E1 E2
                  |a es1 es2 ks1 ks2 lo E1 E2 E3 E4 E5 E6 E7 E8
                  |a es1 e es2 ks1 ks2 lo q E1 E2 E3 E4 E5 E6 E7 E8 E9 E10].
    - exists a, a, true, (right_of ub (length es) a es2), es1, es2, ks1, [c], ks2, lo, false.
      cbn [length map concat Nat.b2n negb andb app] in *. rewrite app_nil_r.
      do 8 (split; [solve [auto; lia]|]). split; [eauto|]. split; [exact E6|]. split; auto. split; auto.
      apply right_ok; auto; [|cbn; lia|].
      + subst es. rewrite app_length. lia.
      + rewrite E6 in A. apply (asc_app_iff bor cmp) in A as (_ & A & _). now apply (asc_app_iff bor cmp) in A.
    - subst a. exists 0, 0, false, (right_of ub (length es) 0 es), [], es, [], [], ks, [], true.
      cbn [length map concat Nat.b2n negb andb app Nat.eqb dn] in *.
      do 8 (split; [solve [auto; lia]|]). do 3 (split; [auto|]). split.
      { subst lb. intros x _. reflexivity. }
      apply right_ok; auto. cbn. lia.
    - exists a, (a + 1), false, (right_of ub (length es) a es2), es1, es2, ks1, [], ks2, lo, false.
      cbn [length map concat Nat.b2n negb andb app] in *.
      do 7 (split; [solve [auto; lia]|]).
      split. { destruct (Nat.eqb_spec a (a + 1)); auto; lia. }
      do 4 (split; [auto|]). apply right_ok; auto; [|cbn; lia|].
      + subst es. rewrite app_length. lia.
      + rewrite E6 in A. now apply (asc_app_iff bor cmp) in A.
    - exists (a + 1), (a + 1), false, (right_of ub (length es) a (e :: es2)), (es1 ++ [e]), es2, ks1, [], ks2, lo, true.
      cbn [length map concat Nat.b2n negb andb app] in *.
      split; [reflexivity|]. split; [now rewrite <- app_assoc|]. split; [rewrite app_length; cbn; lia|].
      do 4 (split; [solve [auto; lia]|]). split; [now rewrite Nat.eqb_refl|]. do 4 (split; [auto|]).
      assert (A2 : asc (wv ks2 es2)) by (rewrite E6 in A; now apply (asc_app_iff bor cmp) in A).
      assert (Hn : length es = a + 1 + length es2) by (subst es; rewrite app_length; cbn; lia).
      assert (Hin : In e (wv ks es)).
      { assert (X : forall ks es, length ks = S (length es) -> In e es -> In e (wv ks es)).
        { clear. intros ks es. revert ks. induction es as [|x es IH]; intros [|k ks] H Hi; try easy.
          rewrite wv_cons. apply in_or_app. right. destruct Hi as [->|Hi]; [now left|right].
          apply IH; auto. }
        apply X; auto. subst es. apply in_elt. }
      unfold right_of. cbn [right_edge]. destruct (cmp_bd ub (key e)) eqn:Eb.
      + assert (ub = Unbounded) as -> by (destruct ub as [|x|x]; cbn in Eb; auto; destruct (cmp x (key e)); discriminate).
        apply (rc_clean Unbounded (a + 1) true ks2 es2 (length es) (length es + 1) es2 [] ks2 [] []);
          rewrite ?app_nil_r; auto; cbn [Nat.b2n]; try lia; try discriminate.
        * destruct (Nat.ltb_spec (length es) (length es + 1)); cbn; lia.
        * intros x _. reflexivity.
      + exfalso. subst lb. unfold bad_range in Hg1. destruct ub as [|x|x]; cbn in Eb; try discriminate;
          destruct (cmp x (key e)) eqn:Ex; try discriminate; rewrite (cmp_eq_r laws q (key e) x E10), Ex in Hg1; discriminate.
      + destruct is_in; cbn [Nat.b2n].
        * assert (ub <> Unbounded) by (intros ->; discriminate).
          apply (rc_clean ub (a + 1) true ks2 es2 (a + 1) (a + 1) [] es2 [] ks2 (wv ks2 es2));
            cbn [length Nat.b2n dn app]; auto; try lia; try discriminate.
          -- destruct (Nat.ltb_spec (a + 1) (a + 1)); cbn; lia.
          -- apply (gt_not_below ub e); auto; [|congruence].
             subst lb. intros x Hx. specialize (E8 x Hx). cbn in E8. unfold gt_q in E8.
             destruct (cmp (key x) q) eqn:Ex; try discriminate. apply (cmp_gt_lt laws) in Ex.
             now rewrite <- (cmp_eq_l _ laws _ _ _ E10).
        * exfalso. destruct ub as [|x|x]; cbn in Eb; [discriminate|destruct (cmp x (key e)); discriminate|].
          destruct (cmp x (key e)) eqn:Ex; try discriminate.
          assert (Hn1 : s_find bor cmp q (wv ks es) = None).
          { apply (Hg2 q x E9 eq_refl). rewrite (cmp_eq_l _ laws _ _ _ E10). now apply (cmp_eq_sym laws). }
          apply (fnd_none bor cmp) with (e := e) in Hn1; auto. apply Hn1. now apply (cmp_eq_sym laws).
      + fold (right_of ub (length es) (S a) es2). replace (S a) with (a + 1) by lia. apply right_ok; auto.
  Qed.
End Edges.

Section Worklist.
  Context {K V Q : Type} (bor : K -> Q) (cmp : Q -> Q -> comparison) (laws : order_laws cmp).
  Context (N : nat) (HN : 1 <= N).
  Notation entry := (K * V)%type.
  Notation bt := (bt K V).
  Notation erg := (erg K V).
  Notation asc := (@ascending K V Q bor cmp).
  Notation above := (@above K V Q bor cmp).
  Notation below := (@below K V Q bor cmp).
  Notation flat := (@flat K V).
  Notation shape := (@shape K V N).
  Notation good := (@good K V Q bor cmp).
  Notation rng := (@s_range K V Q bor cmp).
  Notation work := (@make_worklist K V Q bor cmp).

  Lemma rng_app lb ub l r : rng lb ub (l ++ r) = rng lb ub l ++ rng lb ub r.
  Proof. apply filter_app. Qed.
  Lemma rng_none_above lb ub l : none (above lb) l -> rng lb ub l = [].
  Proof. intros H. apply filter_none. intros x Hx. now rewrite (H x Hx). Qed.
  Lemma rng_none_below lb ub l : none (below ub) l -> rng lb ub l = [].
  Proof. intros H. apply filter_none. intros x Hx. rewrite (H x Hx). apply andb_false_r. Qed.
  Lemma rng_all lb ub l : all (above lb) l -> all (below ub) l -> rng lb ub l = l.
  Proof. intros H1 H2. apply filter_all. intros x Hx. now rewrite (H1 x Hx), (H2 x Hx). Qed.
  Lemma rng_all_above lb ub l : all (above lb) l -> rng lb ub l = rng Unbounded ub l.
  Proof. intros H. apply filter_ext_in. intros x Hx. now rewrite (H x Hx). Qed.
  Lemma rng_all_below lb ub l : all (below ub) l -> rng lb ub l = rng lb Unbounded l.
  Proof. intros H. apply filter_ext_in. intros x Hx. now rewrite (H x Hx). Qed.

  (** The children that a worklist still holds are well-shaped. *)
  Definition rich (g : erg) : Prop := Forall (fun c => exists h, shape N h c) (g_kids g).

  Lemma good_sub lb ub l l' : good lb ub l -> (forall x, In x l' -> In x l) -> good lb ub l'.
  Proof.
    intros [G1 G2] H. split; auto. intros q1 q2 E1 E2 E3. specialize (G2 q1 q2 E1 E2 E3).
    apply (fnd_none_iff bor cmp). intros e He. now apply (fnd_none bor cmp) with (1 := G2), H.
  Qed.
  Lemma good_lb lb l : good lb Unbounded l.
  Proof. split; [now destruct lb|]. intros; discriminate. Qed.
  Lemma good_ub ub l : good Unbounded ub l.
  Proof. split; [now destruct ub|]. intros; discriminate. Qed.

  Lemma wv_flat ks es : wv flat ks es = flat (BN es ks).
  Proof. reflexivity. Qed.
  Lemma dn_den lf rt ks es : dn flat lf ks es = den (Erg es ks lf rt).
  Proof. reflexivity. Qed.

  Lemma dummy_wv (es : list entry) : wv (fun _ : unit => []) (repeat tt (S (length es))) es = es.
  Proof. induction es as [|e es IH]; [reflexivity|]. cbn [length repeat] in *. rewrite wv_cons. cbn [app]. now rewrite IH. Qed.
  Lemma dummy_dn lf (ks : list unit) (es : list entry) : length ks + 1 <= length es + Nat.b2n lf + 1 ->
    dn (fun _ : unit => []) lf ks es = es.
  Proof.
    assert (X : forall es (ks : list unit), length ks <= S (length es) -> wv (fun _ : unit => []) ks es = es :> list entry).
    { clear. induction es as [|e es IH]; intros [|k ks] H; auto.
      - destruct ks; [reflexivity|cbn in H; lia].
      - rewrite wv_cons. cbn [app]. rewrite IH; auto. cbn in H. lia. }
    destruct lf; cbn [dn Nat.b2n]; intros H.
    - apply X. lia.
    - destruct es as [|e es]; auto. f_equal. apply X. cbn in H. lia.
  Qed.

  Lemma leaf_work es lb ub : es <> [] -> asc es -> good lb ub es ->
    exists w, work (BN es []) lb ub = Ok w /\ Forall ok2 w /\ Forall rich w /\ dens w = rng lb ub es.
  Proof.
    intros He A G.
    destruct (edges_ok bor cmp laws (fun _ : unit => []) lb ub es (repeat tt (S (length es))))
      as (a & b & lp & r & es1 & es2 & ks1 & po & ks2 & lo & lf & E1 & E2 & E3 & E4 & E5 & E6 & E7 & E8 & E9 & E10 & E11 & E12 & E13).
    { now rewrite repeat_length. }
    { now rewrite dummy_wv. }
    { now rewrite dummy_wv. }
    rewrite dummy_wv in E10. cbn [make_worklist]. rewrite E1.
    assert (Hc : forall l : list unit, concat (map (fun _ => []) l) = [] :> list entry) by (clear; induction l; auto).
    rewrite Hc in E10. cbn [app] in E10.
    assert (Hfin : exists u v rp es3 es4 up, r = (u, v, rp) /\ es2 = es3 ++ es4 /\ u = a + length es3
        /\ es2 = es3 ++ up /\ all (below ub) es3 /\ none (below ub) up).
    { destruct E13 as [u v X1 X2 X3 X4|u v es3 es4 ks3 c ks4 up X1 X2 X3 X4 X5 X6 X7 X8|u v es3 es4 ks3 ks4 up X1 X2 X3 X4 X5 X6 X7 X8 _].
      - exists u, v, true, [], es2, es2. cbn. rewrite dummy_dn in X4 by (subst; cbn in *; lia).
        repeat split; auto using (all_nil (below ub)); lia.
      - exists u, v, true, es3, es4, up. rewrite !dummy_dn in X6 by lia. rewrite dummy_dn in X7 by lia. cbn [app] in X6.
        repeat split; auto.
      - exists u, v, false, es3, es4, up. rewrite !dummy_dn in X6 by (destruct (u <? v); cbn in *; lia).
        rewrite dummy_dn in X7 by (destruct (u <? v); cbn in *; lia). repeat split; auto. }
    destruct Hfin as (u & v & rp & es3 & es4 & up & -> & X1 & X2 & X3 & X4 & X5).
    assert (Hs : slice a u es = Ok es3) by (rewrite E2, X1; apply slice_mid; lia).
    rewrite Hs. cbn [bind map].
    assert (Hd : forall {A} i j, slice_or_default i j (@nil A) = []).
    { intros B i j. unfold slice_or_default, slice. destruct ((i <=? j) && (j <=? length (@nil B))); auto.
      now rewrite skipn_nil, firstn_nil. }
    rewrite !Hd. cbn [length Nat.eqb andb].
    assert (Hr : rng lb ub es = es3).
    { rewrite E10, dummy_dn by lia. rewrite rng_app, rng_none_above by auto. cbn [app].
      rewrite X3, rng_app, (rng_none_below _ _ up), app_nil_r by auto. apply rng_all; auto.
      rewrite dummy_dn in E12 by lia. rewrite X1 in E12. now apply all_app in E12. }
    rewrite Hr. destruct lp, rp; cbn [bind removelast last_opt tl nth_error length Nat.ltb Nat.leb orb app];
      (destruct es3 as [|e es3]; cbn [length Nat.leb orb app];
       eexists; (split; [reflexivity|]); (split; [|split]); auto;
         try (constructor; auto; split; [now left|reflexivity]);
         try (constructor; auto; constructor);
         unfold dens; cbn [map concat]; rewrite app_nil_r; apply den_leaf; discriminate).
  Qed.

  Lemma branch_in es ks c x : length ks = S (length es) -> In c ks -> In x (flat c) -> In x (flat (BN es ks)).
  Proof.
    intros Hk Hc Hx. apply in_split in Hc as (k1 & k2 & ->).
    destruct (cut_at (length k1) es) as (e1 & e2 & -> & He); [rewrite app_length in Hk; cbn in Hk; lia|].
    rewrite flat_branch; [|auto|rewrite !app_length in Hk; cbn in Hk; lia].
    apply in_or_app. right. apply in_or_app. now left.
  Qed.

  Lemma work_ok h : forall mn t lb ub, 1 <= mn -> shape mn h t -> asc (flat t) -> good lb ub (flat t) ->
    exists w, work t lb ub = Ok w /\ Forall ok2 w /\ Forall rich w /\ dens w = rng lb ub (flat t).
  Proof.
    induction h as [|h IH]; intros mn t lb ub Hm S A G.
    { apply shape_0 in S as (es & -> & Hl). apply leaf_work; auto. destruct es; [cbn in Hl; lia|easy]. }
    apply shape_S in S as (es & ks & -> & Hl & Hk & HF).
    destruct (edges_ok bor cmp laws flat lb ub es ks Hk A G)
      as (a & b & lp & r & es1 & es2 & ks1 & po & ks2 & lo & lf & E1 & E2 & E3 & E4 & E5 & E6 & E7 & E8 & E9 & E10 & E11 & E12 & E13).
    cbn [make_worklist]. rewrite E1.
    assert (HF2 : Forall (shape N h) ks2) by (rewrite E4 in HF; apply Forall_app in HF as [_ HF]; now apply Forall_app in HF).
    assert (Htidy : forall l, Forall (shape N h) l -> Forall tidy l /\ Forall (fun c => exists h, shape N h c) l).
    { intros l HFl. rewrite !Forall_forall in *. split; intros x Hx; specialize (HFl x Hx); eauto.
      now apply (shape_tidy N N h). }
    assert (Hkid : forall c, In c ks -> shape N h c /\ asc (flat c)).
    { intros c Hc. rewrite Forall_forall in HF. split; auto.
      apply in_split in Hc as (k1 & k2 & Hc). rewrite Hc in A, Hk. rewrite wv_flat in *.
      destruct (cut_at (length k1) es) as (x1 & x2 & Hx & Hx1); [rewrite app_length in Hk; cbn in Hk; lia|].
      rewrite Hx in A. rewrite flat_branch in A; auto.
      - apply (asc_app_iff bor cmp) in A as (_ & A & _). now apply (asc_app_iff bor cmp) in A.
      - rewrite Hx, !app_length in Hk. cbn in Hk. lia. }
    assert (Hgood : forall c, In c ks -> good lb ub (flat c)).
    { intros c Hc. apply (good_sub lb ub _ _ G). intros x Hx. now apply (branch_in es ks c). }
    rewrite <- wv_flat, E10, !rng_app, (rng_none_above lb ub lo E11). cbn [app].
    assert (AD : asc (concat (map flat po) ++ dn flat lf ks2 es2)).
    { rewrite <- wv_flat, E10 in A. now apply (asc_app_iff bor cmp) in A. }
    destruct E13 as [u v X1 X2 X3 X4|u v es3 es4 ks3 c ks4 up X1 X2 X3 X4 X5 X6 X7 X8|u v es3 es4 ks3 ks4 up X1 X2 X3 X4 X5 X6 X7 X8 X9].
    - (* the range ends before the first remaining element *)
      assert (Hs : slice a u es = Ok []).
      { rewrite E2. apply (slice_mid es1 [] es2); cbn; lia. }
      rewrite Hs. cbn [bind]. rewrite (rng_none_below lb ub _ X4), app_nil_r.
      assert (Hk1 : forall {B} (f : bt -> B), slice_or_default b v (map f ks) = map f po).
      { intros B f. unfold slice_or_default. rewrite E4, !map_app, slice_mid; auto; rewrite map_length; [lia|].
        rewrite map_length. rewrite X1 in E7. cbn [Nat.b2n] in E7. lia. }
      pose proof (Hk1 bt (fun x => x)) as Hk2. rewrite !map_id in Hk2. rewrite Hk2, Hk1.
      destruct lp.
      + destruct E9 as [c ->]. cbn [length Nat.eqb andb bind map assert_].
        destruct (Hkid c) as [Sc Ac]; [rewrite E4; apply in_elt|].
        destruct (IH N c lb ub HN Sc Ac) as (w & Ew & W1 & W2 & W3).
        { apply Hgood. rewrite E4. apply in_elt. }
        rewrite Ew. cbn [bind tl removelast last_opt nth_error length Nat.ltb Nat.leb orb app concat].
        exists w. rewrite last_nil. cbn [bind]. rewrite !app_nil_r. auto.
      + subst po. cbn [length Nat.eqb andb bind map assert_ removelast last_opt nth_error Nat.ltb Nat.leb orb app concat].
        exists []. repeat split; auto.
    - (* the last child kept must be pruned *)
      assert (Hs : slice a u es = Ok es3) by (rewrite E2, X1; apply slice_mid; lia).
      rewrite Hs. cbn [bind].
      assert (Hk1 : forall {B} (f : bt -> B), slice_or_default b v (map f ks) = map f po ++ map f ks3 ++ [f c]).
      { intros B f. unfold slice_or_default. rewrite E4, X2.
        replace (ks1 ++ po ++ ks3 ++ c :: ks4) with (ks1 ++ (po ++ ks3 ++ [c]) ++ ks4)
          by now rewrite <- !app_assoc.
        rewrite !map_app, slice_mid; auto; rewrite ?app_length, !map_length; auto. cbn. lia. }
      pose proof (Hk1 bt (fun x => x)) as Hk2. rewrite !map_id in Hk2. rewrite Hk2, Hk1. clear Hk1 Hk2.
      assert (Hc : In c ks). { rewrite E4, X2. apply in_or_app; right. apply in_or_app; right. apply in_elt. }
      destruct (Hkid c Hc) as [Sc Ac].
      rewrite X6, !rng_app, (rng_none_below lb ub up X8), app_nil_r.
      rewrite X6 in E12. apply all_app in E12 as [Y1 Y2]. apply all_app in Y2 as [Y2 _].
      rewrite (rng_all lb ub (dn flat lf ks3 es3)) by auto.
      assert (Hmid : forall lf' rt', (if lp then lf' = false else lf' = lf) -> (rt' = false) ->
        let w2 := if (0 <? length es3) || (0 <? length ks3) then [Erg es3 ks3 lf' rt'] else [] in
        Forall ok2 w2 /\ Forall rich w2 /\ dens w2 = dn flat lf ks3 es3).
      { intros lf' rt' Hlf ->. cbn zeta.
        assert (lf' = lf) as -> by (destruct lp; subst; auto).
        destruct ((0 <? length es3) || (0 <? length ks3)) eqn:Ez.
        - rewrite X2 in HF2. apply Forall_app in HF2 as [HF3 _]. destruct (Htidy ks3 HF3) as [T1 T2].
          split; [|split].
          + constructor; auto. split.
            * right. split; auto. cbn [g_kids g_elems g_lf g_rt Nat.b2n]. lia.
            * unfold g_empty. cbn [g_elems g_kids]. now destruct es3, ks3.
          + constructor; auto.
          + unfold dens. cbn [map concat]. rewrite app_nil_r. reflexivity.
        - destruct es3, ks3; try discriminate. repeat split; auto. destruct lf; reflexivity. }
      destruct lp.
      + destruct E9 as [p ->]. cbn [negb andb] in E8. subst lf. cbn [Nat.b2n] in *.
        assert (Hp : In p ks) by (rewrite E4; apply in_elt). destruct (Hkid p Hp) as [Sp Ap].
        replace (length (([p] ++ ks3 ++ [c])) =? 1) with false
          by (cbn; rewrite app_length; cbn; destruct (Nat.eqb_spec (length ks3 + 1) 0); [lia|reflexivity]).
        cbn [andb bind map app].
        destruct (IH N p lb Unbounded HN Sp Ap (good_lb lb _)) as (w1 & Ew1 & W11 & W12 & W13). rewrite Ew1.
        cbn [bind tl]. rewrite removelast_last, last_snoc.
        destruct (IH N c Unbounded ub HN Sc Ac (good_ub ub _)) as (w3 & Ew3 & W31 & W32 & W33). rewrite Ew3.
        cbn [bind].
        destruct (Hmid (negb true && (a =? b)) (negb true && (u <? v)) eq_refl eq_refl) as (M1 & M2 & M3).
        eexists. split; [reflexivity|]. split; [|split].
        * apply Forall_app. split; auto. apply Forall_app. auto.
        * apply Forall_app. split; auto. apply Forall_app. auto.
        * unfold dens in *. rewrite !map_app, !concat_app, W13, M3, W33. cbn [map concat]. rewrite app_nil_r.
          rewrite <- (rng_all_above lb ub) by auto. f_equal. symmetry. apply rng_all_below.
          destruct es3 as [|e3 es3]; [cbn in X5; lia|]. cbn [dn] in X7. apply all_cons in X7 as [X7 _].
          cbn [map concat] in AD. rewrite app_nil_r, X6 in AD. cbn [dn app] in AD.
          apply (asc_pivot bor cmp laws) in AD as (_ & _ & AD & _).
          apply (lt_below bor cmp laws ub e3); auto. rewrite (bd_below bor cmp laws) in X7.
          destruct (cmp_bd cmp ub (bor (fst e3))); congruence.
      + subst po. cbn [negb andb app] in *. cbn [bind map app].
        rewrite removelast_last, last_snoc.
        destruct (IH N c lb ub HN Sc Ac (Hgood c Hc)) as (w3 & Ew3 & W31 & W32 & W33). rewrite Ew3. cbn [bind].
        destruct (Hmid (a =? b) false (eq_sym E8) eq_refl) as (M1 & M2 & M3).
        eexists. split; [reflexivity|]. split; [|split].
        * apply Forall_app. auto.
        * apply Forall_app. auto.
        * unfold dens in *. rewrite !map_app, !concat_app, M3, W33. reflexivity.
    - (* the right edge is at an element *)
      assert (Hs : slice a u es = Ok es3) by (rewrite E2, X1; apply slice_mid; lia).
      rewrite Hs. cbn [bind].
      assert (Hk1 : forall {B} (f : bt -> B), slice_or_default b v (map f ks) = map f po ++ map f ks3).
      { intros B f. unfold slice_or_default. rewrite E4, X2.
        replace (ks1 ++ po ++ ks3 ++ ks4) with (ks1 ++ (po ++ ks3) ++ ks4) by now rewrite <- !app_assoc.
        rewrite !map_app, slice_mid; auto; rewrite ?app_length, !map_length; auto. lia. }
      pose proof (Hk1 bt (fun x => x)) as Hk2. rewrite !map_id in Hk2. rewrite Hk2, Hk1. clear Hk1 Hk2.
      rewrite X6, !rng_app, (rng_none_below lb ub up X8), app_nil_r.
      rewrite X6 in E12. apply all_app in E12 as [Y1 _].
      rewrite (rng_all lb ub (dn flat lf ks3 es3)) by auto.
      assert (Hmid : let w2 := if (0 <? length es3) || (0 <? length ks3)
                      then [Erg es3 ks3 (negb lp && (a =? b)) (negb false && (u <? v))] else [] in
        Forall ok2 w2 /\ Forall rich w2 /\ dens w2 = dn flat lf ks3 es3).
      { cbn zeta. rewrite <- E8. cbn [negb andb].
        destruct ((0 <? length es3) || (0 <? length ks3)) eqn:Ez.
        - rewrite X2 in HF2. apply Forall_app in HF2 as [HF3 _]. destruct (Htidy ks3 HF3) as [T1 T2].
          split; [|split].
          + constructor; auto. split.
            * right. split; auto.
            * unfold g_empty. cbn [g_elems g_kids]. now destruct es3, ks3.
          + constructor; auto.
          + unfold dens. cbn [map concat]. rewrite app_nil_r. reflexivity.
        - destruct es3, ks3; try discriminate. repeat split; auto. destruct lf; reflexivity. }
      destruct lp.
      + destruct E9 as [p ->]. cbn [negb andb] in E8. subst lf. cbn [Nat.b2n] in *.
        assert (Hp : In p ks) by (rewrite E4; apply in_elt). destruct (Hkid p Hp) as [Sp Ap].
        rewrite andb_false_r. cbn [andb bind map app].
        destruct (IH N p lb Unbounded HN Sp Ap (good_lb lb _)) as (w1 & Ew1 & W11 & W12 & W13). rewrite Ew1.
        cbn [bind tl]. destruct Hmid as (M1 & M2 & M3).
        eexists. split; [reflexivity|]. rewrite app_nil_r. split; [|split].
        * apply Forall_app. auto.
        * apply Forall_app. auto.
        * unfold dens in *. rewrite !map_app, !concat_app, W13, M3. cbn [map concat]. rewrite app_nil_r.
          f_equal. symmetry. apply rng_all_below.
          destruct (X9 eq_refl) as [Hne Hb]. destruct es2 as [|e2 es2]; [congruence|].
          cbn [map concat] in AD. rewrite app_nil_r in AD. cbn [dn app] in AD.
          apply (asc_pivot bor cmp laws) in AD as (_ & _ & AD & _).
          apply (lt_below bor cmp laws ub e2); auto. now apply (Hb e2 es2).
      + subst po. cbn [bind map app]. destruct Hmid as (M1 & M2 & M3).
        eexists. split; [reflexivity|]. rewrite app_nil_r. cbn [concat map app]. auto.
  Qed.

  (** *** The remaining number of items *)
  Lemma shape_count mn h t : shape mn h t -> mn <= length (flat t).
  Proof.
    intros S. destruct h.
    - apply shape_0 in S as (es & -> & H). cbn. lia.
    - apply shape_S in S as (es & ks & -> & H & Hk & _). cbn [BTreeProofs.flat].
      rewrite weave_length by (rewrite map_length; lia). lia.
  Qed.
  Lemma rich_hint g : erg_ok g -> rich g -> length (g_elems g) + N * length (g_kids g) <= length (den g).
  Proof.
    destruct g as [es ks lf rt]. intros [[E1 E2]|(E1 & E2 & E3)] R; cbn [g_elems g_kids g_lf] in *.
    - subst ks. rewrite den_leaf by auto. cbn. lia.
    - assert (C : N * length ks <= length (concat (map flat ks))).
      { unfold rich in R. cbn [g_kids] in R. clear - R HN. induction R as [|c ks [h S] R IH]; cbn [length map concat]; [lia|].
        apply shape_count in S. rewrite app_length. lia. }
      unfold den. cbn [g_elems g_kids g_lf]. destruct lf; cbn [Nat.b2n] in E3.
      + rewrite weave_length by (rewrite map_length; lia). lia.
      + destruct es as [|e es]; [destruct ks; [easy|cbn in E3; lia]|]. cbn [length] in *.
        rewrite weave_length by (rewrite map_length; lia). lia.
  Qed.
  Lemma hint_ok w n : Forall erg_ok w -> Forall rich w ->
    fst (b_range_hint N (BIter w n)) <= length (dens w).
  Proof.
    intros H R. unfold b_range_hint. cbn [fst bi_work]. induction w as [|g w IH]; [cbn; lia|].
    inversion H; inversion R; subst. unfold dens in *. cbn [fold_right map concat]. rewrite app_length.
    pose proof (rich_hint g). specialize (IH H3 H7). specialize (H0 H2 H6). lia.
  Qed.

  (** The worklist stays well-shaped. *)
  Lemma rich_make c : (exists h, shape N h c) -> rich (g_make c).
  Proof.
    intros [h S]. destruct h.
    - apply shape_0 in S as (es & -> & _). constructor.
    - apply shape_S in S as (es & ks & -> & _ & _ & HF). unfold rich. cbn.
      rewrite Forall_forall in *. eauto.
  Qed.
  Lemma rich_kid g c g' : g_next_kid g = Ok (c, g') -> rich g ->
    rich g' /\ match c with Some c => exists h, shape N h c | None => True end.
  Proof.
    destruct g as [es ks lf rt]. unfold g_next_kid, rich. cbn [g_kids g_elems g_lf g_rt].
    destruct (is_nil ks || lf); [|discriminate]. cbn [assert_ bind]. intros E R. injection E as <- <-.
    cbn [g_kids]. destruct R; cbn; auto.
  Qed.
  Lemma rich_back_kid g c g' : g_next_back_kid g = Ok (c, g') -> rich g ->
    rich g' /\ match c with Some c => exists h, shape N h c | None => True end.
  Proof.
    destruct g as [es ks lf rt]. unfold g_next_back_kid, rich. cbn [g_kids g_elems g_lf g_rt].
    destruct (is_nil ks || rt); [|discriminate]. cbn [assert_ bind]. intros E R. injection E as <- <-.
    cbn [g_kids]. destruct (snoc_cases ks) as [->|(k & c & ->)]; [cbn; auto|].
    rewrite removelast_last, rev_app_distr. cbn [rev app hd_error]. apply Forall_app in R as [R1 R2].
    split; auto. now inversion R2.
  Qed.
  Lemma rich_elem g x g' : g_next_elem g = Ok (x, g') -> rich g -> rich g'.
  Proof.
    unfold g_next_elem. destruct (negb (g_lf g)); [|discriminate]. cbn [assert_ bind]. intros E R.
    injection E as <- <-. exact R.
  Qed.
  Lemma rich_back_elem g x g' : g_next_back_elem g = Ok (x, g') -> rich g -> rich g'.
  Proof.
    unfold g_next_back_elem. destruct (negb (g_rt g)); [|discriminate]. cbn [assert_ bind]. intros E R.
    injection E as <- <-. exact R.
  Qed.

  Section Keep.
    Context (ops : node_iter erg bt entry).
    Hypothesis Hmake : forall c, (exists h, shape N h c) -> rich (ni_make ops c).
    Hypothesis Hkid : forall g c g', ni_next_kid ops g = Ok (c, g') -> rich g ->
      rich g' /\ match c with Some c => exists h, shape N h c | None => True end.
    Hypothesis Helem : forall g x g', ni_next_elem ops g = Ok (x, g') -> rich g -> rich g'.

    Lemma des_rich f : forall w w', des_lf ops f w = Ok w' -> Forall rich w -> Forall rich w'.
    Proof.
      induction f as [|f IH]; intros w w' E R; [discriminate|]. cbn [des_lf] in E.
      destruct w as [|g w]; [discriminate|]. inversion R as [|? ? Rg Rw]; subst.
      destruct (ni_next_kid ops g) as [[c g1]|] eqn:Ek; [|discriminate]. cbn [bind] in E.
      destruct (Hkid _ _ _ Ek Rg) as [R1 R2]. destruct c as [c|].
      - apply IH in E; auto. constructor; auto. destruct (ni_empty ops g1); auto.
      - injection E as <-. auto.
    Qed.
    Lemma next_rich it x it' : b_next ops it = Ok (x, it') -> Forall rich (bi_work it) -> Forall rich (bi_work it').
    Proof.
      unfold b_next. destruct (bi_work it) as [|g w] eqn:Ew; intros E R.
      - injection E as <- <-. now rewrite Ew.
      - destruct (if ni_lf ops g then des_lf ops (ni_fuel ops g) (g :: w) else Ok (g :: w)) as [w1|] eqn:E1; [|discriminate].
        cbn [bind] in E.
        assert (R1 : Forall rich w1).
        { destruct (ni_lf ops g); [eapply des_rich; eauto|]. injection E1 as <-. auto. }
        destruct w1 as [|g1 w1]; [discriminate|]. inversion R1 as [|? ? Rg Rw]; subst.
        destruct (ni_next_elem ops g1) as [[y g2]|] eqn:E2; [|discriminate]. cbn [bind] in E.
        apply Helem in E2; auto.
        destruct (assert_ _) as [[]|]; [|discriminate]. cbn [bind] in E.
        destruct (usize_sub _ _); [|discriminate]. cbn [bind] in E. injection E as <- <-. cbn [bi_work].
        destruct (ni_empty ops g2); auto.
    Qed.
  End Keep.
  Lemma next_keeps it x it' : b_next borrowed it = Ok (x, it') -> Forall rich (bi_work it) -> Forall rich (bi_work it').
  Proof. apply (next_rich borrowed rich_make rich_kid rich_elem). Qed.
  Lemma next_back_keeps it x it' : b_next_back borrowed it = Ok (x, it') ->
    Forall rich (bi_work it) -> Forall rich (bi_work it').
  Proof.
    rewrite next_back_eq. intros E R.
    destruct (b_next (swap borrowed) (BIter (rev (bi_work it)) (bi_len it))) as [[y it1]|] eqn:E1; [|discriminate].
    cbn [bind] in E. injection E as <- <-. cbn [bi_work].
    apply Forall_rev. apply (next_rich (swap borrowed) rich_make rich_back_kid rich_back_elem) in E1; auto.
    cbn [bi_work]. now apply Forall_rev.
  Qed.

  Lemma calls_ok cs : forall w n, Forall ok2 w -> Forall rich w -> length (dens w) <= n ->
    exists outs, b_range_calls N cs (BIter w n) = Ok outs
      /\ Forall2 (fun o s => fst o = fst s /\ fst (snd o) <= snd s <= snd (snd o)) outs (s_ends cs (dens w)).
  Proof.
    induction cs as [|c cs IH]; intros w n W R L; cbn [b_range_calls s_ends]; [eauto|].
    assert (Hn : dens w <> [] -> 1 <= n) by (destruct (dens w); [easy|cbn in L; lia]).
    destruct c.
    - destruct (next_ok w n) as (w' & E & W' & D & B); [now apply ok2s|auto|].
      rewrite E. cbn [bind].
      assert (W2 : Forall ok2 w') by (apply ok2s; split; auto; apply B; now apply ok2s).
      assert (R2 : Forall rich w') by exact (next_keeps _ _ _ E R).
      destruct (IH w' (n - match dens w with [] => 0 | _ => 1 end)) as (outs & Eo & F); auto.
      { rewrite D. destruct (dens w); cbn in *; lia. }
      rewrite Eo. cbn [bind]. eexists. split; [reflexivity|]. rewrite <- D. constructor; auto.
      cbn [fst snd b_range_hint bi_len bi_work]. split; auto. split.
      + apply (hint_ok w' n); auto.
      + rewrite D. destruct (dens w); cbn in *; lia.
    - destruct (next_back_ok w n) as (w' & E & W2 & D); auto.
      rewrite E. cbn [bind].
      assert (R2 : Forall rich w') by exact (next_back_keeps _ _ _ E R).
      assert (Hl : length (removelast (dens w)) <= n - match dens w with [] => 0 | _ => 1 end).
      { destruct (snoc_cases (dens w)) as [X|(l & y & X)]; rewrite X in *; [cbn; lia|].
        rewrite removelast_last. rewrite app_length in L. cbn in L. destruct (l ++ [y]) eqn:Z; [|lia].
        apply (f_equal (@length _)) in Z. rewrite app_length in Z. cbn in Z. lia. }
      destruct (IH w' (n - match dens w with [] => 0 | _ => 1 end)) as (outs & Eo & F); auto.
      { now rewrite D. }
      rewrite Eo. cbn [bind]. eexists. split; [reflexivity|]. rewrite <- D in *. constructor; auto.
      cbn [fst snd b_range_hint bi_len bi_work]. split; auto. split; auto.
      apply (hint_ok w' n); auto. now apply ok2s.
  Qed.

  (** *** Whole maps *)
  Notation valid := (@valid K V Q bor cmp N).
  Lemma range_ok (m : bt_map K V) lb ub : valid m -> good lb ub (contents m) ->
    exists w, b_range bor cmp m lb ub = Ok (BIter w (length (contents m)))
      /\ Forall ok2 w /\ Forall rich w /\ dens w = rng lb ub (contents m).
  Proof.
    intros (A & L & S) G. unfold b_range, b_len. rewrite L, (proj1 G). unfold contents in *.
    destruct (bm_root m) as [t|].
    - destruct S as [h S]. destruct (work_ok h 1 t lb ub (le_n 1) S A G) as (w & E & W). rewrite E. cbn [bind].
      exists w. auto.
    - cbn [bind]. exists []. auto.
  Qed.
  Lemma range_calls_ok (m : bt_map K V) lb ub cs : valid m -> good lb ub (contents m) ->
    exists it outs, b_range bor cmp m lb ub = Ok it
      /\ (fst (b_range_hint N it) <= length (rng lb ub (contents m)) <= snd (b_range_hint N it))
      /\ b_range_calls N cs it = Ok outs
      /\ Forall2 (fun o s => fst o = fst s /\ fst (snd o) <= snd s <= snd (snd o)) outs
                 (s_ends cs (rng lb ub (contents m))).
  Proof.
    intros Hv G. destruct (range_ok m lb ub Hv G) as (w & E & W & R & D).
    assert (L : length (rng lb ub (contents m)) <= length (contents m)).
    { unfold s_range. generalize (contents m) as l. induction l as [|x l IH]; cbn [filter length]; [lia|].
      destruct (_ && _); cbn [length]; lia. }
    destruct (calls_ok cs w (length (contents m)) W R) as (outs & Eo & F); [now rewrite D|].
    rewrite D in F. exists (BIter w (length (contents m))), outs. split; auto. split; auto. split.
    - rewrite <- D. apply hint_ok; auto. now apply ok2s.
    - exact L.
  Qed.

  (** *** Bounds that panic *)
  Lemma edge_scan q (es : list entry) : forall i, left_edge bor cmp (Excluded q) i es =
    let '(j, c) := scan bor cmp q es in
    match c with
    | Lt => (Some (i + j, i + j, true), (i + j, skipn j es))
    | Eq => (Some (i + j + 1, i + j + 1, false), (i + j, skipn j es))
    | Gt => (None, (i + j, []))
    end.
  Proof.
    induction es as [|e es IH]; intros i; cbn [left_edge scan cmp_bd].
    - now rewrite Nat.add_0_r.
    - destruct (cmp q (bor (fst e))); cbn [skipn negb Nat.b2n]; rewrite ?Nat.add_0_r; auto.
      rewrite IH. destruct (scan bor cmp q es) as [j c]. replace (S i + j) with (i + S j) by lia.
      destruct c; reflexivity.
  Qed.
  Lemma panic_work q1 q2 h : cmp q1 q2 = Eq -> forall mn t, 1 <= mn -> shape mn h t -> asc (flat t) ->
    s_mem bor cmp q1 (flat t) = true -> work t (Excluded q1) (Excluded q2) = Panic.
  Proof.
    intros Hq.
    assert (Hat : forall es1 e es2 ks, cmp q1 (bor (fst e)) = Eq -> scan bor cmp q1 (es1 ++ e :: es2) = (length es1, Eq) ->
      work (BN (es1 ++ e :: es2) ks) (Excluded q1) (Excluded q2) = Panic).
    { intros es1 e es2 ks He E. cbn [make_worklist]. unfold find_range_edges.
      rewrite edge_scan, E. cbn [Nat.add]. rewrite skipn_app, skipn_all, Nat.sub_diag. cbn [skipn app right_edge cmp_bd].
      rewrite <- (cmp_eq_l _ laws _ _ _ Hq), He. cbn [Nat.b2n]. unfold slice at 1.
      destruct (Nat.leb_spec (length es1 + 1) (length es1 + 0)); [lia|]. reflexivity. }
    induction h as [|h IH]; intros mn t Hm S A M.
    - apply shape_0 in S as (es & -> & Hb). cbn [BTreeProofs.flat map weave] in A, M.
      destruct (scan bor cmp q1 es) as [i c] eqn:E.
      destruct (scan_leaf bor cmp laws q1 es i c A E) as (es1 & es2 & -> & <- & H1 & H2).
      rewrite (mem_find bor cmp) in M. destruct c.
      + destruct H2 as (e & es3 & -> & He). now apply Hat.
      + destruct H2 as [_ H2]. pose proof (fnd_seg bor cmp laws q1 es1 [] es2 H1 H2) as X. cbn [app] in X.
        rewrite X in M. discriminate.
      + subst. pose proof (fnd_seg bor cmp laws q1 es1 [] [] H1 (all_gt_nil bor cmp q1)) as X. cbn [app] in X.
        rewrite X in M. discriminate.
    - apply shape_S in S as (es & ks & -> & Hb & Hk & HF).
      destruct (scan bor cmp q1 es) as [i c] eqn:E. destruct c.
      + destruct (scan_branch_eq bor cmp laws N HN q1 es ks i Hk A E) as (es1 & e & es2 & ks1 & t & ks2 & -> & -> & <- & L1 & L2 & He).
        now apply Hat.
      + destruct (scan_branch bor cmp laws N HN q1 es ks i Lt Hk A E) as (es1 & es2 & ks1 & t & ks2 & -> & -> & L0 & L1 & L2 & Hl & Hr & At & _); [discriminate|].
        apply Forall_mid in HF as (_ & F & _). rewrite (mem_find bor cmp) in M.
        rewrite flat_branch, (fnd_seg bor cmp laws) in M by (auto; lia). rewrite <- (mem_find bor cmp) in M.
        cbn [make_worklist]. unfold find_range_edges. rewrite edge_scan, E. cbn [Nat.add].
        subst i. rewrite skipn_app, skipn_all, Nat.sub_diag. cbn [skipn app].
        apply scan_spec in E as (x1 & e & x2 & Ee & Lx & He & _); auto.
        apply (f_equal (skipn (length es1))) in Ee.
        rewrite skipn_app, skipn_all, Nat.sub_diag, <- Lx, skipn_app, skipn_all, Nat.sub_diag in Ee. cbn [skipn app] in Ee. subst es2.
        cbn [right_edge cmp_bd]. rewrite <- (cmp_eq_l _ laws _ _ _ Hq), He.
        rewrite (slice_mid es1 [] (e :: x2)) by (cbn; lia). cbn [bind].
        unfold slice_or_default. rewrite map_app. cbn [map].
        rewrite !slice_one by (rewrite ?map_length; lia).
        cbn [length Nat.eqb andb assert_ bind]. rewrite (IH N t HN F At M). reflexivity.
      + destruct (scan_branch bor cmp laws N HN q1 es ks i Gt Hk A E) as (es1 & es2 & ks1 & t & ks2 & -> & -> & L0 & L1 & L2 & Hl & Hr & At & Hg); [discriminate|].
        destruct (Hg eq_refl) as (Hi & -> & ->).
        apply Forall_mid in HF as (_ & F & _). rewrite (mem_find bor cmp) in M.
        rewrite flat_branch, (fnd_seg bor cmp laws) in M by (auto; lia). rewrite <- (mem_find bor cmp) in M.
        cbn [make_worklist]. unfold find_range_edges. rewrite edge_scan, E. cbn [right_edge].
        rewrite !app_nil_r in *.
        replace (slice (length es1) (length es1) es1) with (Ok (@nil entry))
          by (pose proof (slice_mid es1 [] [] (length es1) (length es1)) as X; rewrite !app_nil_r in X; rewrite X by (cbn; lia); reflexivity).
        cbn [bind]. unfold slice_or_default. rewrite map_app. cbn [map].
        rewrite !slice_one by (rewrite ?map_length; lia).
        cbn [length Nat.eqb andb assert_ bind]. rewrite (IH N t HN F At M). reflexivity.
  Qed.
  Lemma range_panics (m : bt_map K V) q1 q2 : valid m -> cmp q1 q2 = Eq ->
    b_range bor cmp m (Excluded q1) (Excluded q2) = Panic <-> s_mem bor cmp q1 (contents m) = true.
  Proof.
    intros Hv Hq. split.
    - intros E. destruct (s_mem bor cmp q1 (contents m)) eqn:M; auto. exfalso.
      destruct (range_ok m (Excluded q1) (Excluded q2) Hv) as (w & E' & _); [|congruence].
      split.
      + cbn. now rewrite (cmp_eq_sym laws _ _ Hq).
      + intros x1 x2 X1 X2 _. injection X1 as <-. rewrite (mem_find bor cmp) in M.
        now destruct (s_find bor cmp q1 (contents m)).
    - intros M. destruct Hv as (A & L & S). unfold b_range. destruct (bad_range _ _ _); auto.
      unfold contents in *. destruct (bm_root m) as [t|]; [|discriminate]. destruct S as [h S].
      now rewrite (panic_work q1 q2 h Hq 1 t).
  Qed.
End Worklist.
