(** Proofs about [BTreeMap::check]: it succeeds exactly on the maps that are valid,
    provided every branch has one more child than entries. *)
From Coq Require Import List PeanoNat Bool Lia.
From Verif Require Import Base Spec MapSpec SpecFacts Vec BTreeModel BTreeProofs BTreeProofs2
  BTreeIterModel BTreeIterProofs.
Import ListNotations.

(** Every node has no children, or one more child than entries. *)
Fixpoint kids_match {K V} (t : bt K V) : bool :=
  match t with
  | BN es ks => (is_nil ks || (length ks =? S (length es))) && forallb kids_match ks
  end.
Definition map_kids_match {K V} (m : bt_map K V) : bool :=
  match bm_root m with None => true | Some t => kids_match t end.

Section Chk.
  Context {K V Q : Type} (bor : K -> Q) (cmp : Q -> Q -> comparison) (laws : order_laws cmp).
  Context (N : nat) (HN : 1 <= N).
  Notation entry := (K * V)%type.
  Notation bt := (bt K V).
  Notation asc := (@ascending K V Q bor cmp).
  Notation flat := (@flat K V).
  Notation shape := (@shape K V N).
  Notation check := (@check K).
  Notation chk := (@n_chk K V Q bor cmp N).
  Notation all_lt := (@all_lt K V Q bor cmp).
  Notation all_gt := (@all_gt K V Q bor cmp).
  Notation key e := (bor (fst e)).

  (** The greatest key so far after the entries [l]. *)
  Definition gk (pred : option K) (l : list entry) : option K :=
    match last_opt l with Some e => Some (fst e) | None => pred end.
  Definition above_p (pred : option K) (l : list entry) : Prop :=
    match pred with Some p => all_gt l (bor p) | None => True end.
  Definition lt_p (pred : option K) (k : K) : Prop :=
    match pred with Some p => cmp (bor p) (bor k) = Lt | None => True end.

  Lemma gk_nil p : gk p [] = p.
  Proof. reflexivity. Qed.
  Lemma gk_snoc p l e : gk p (l ++ [e]) = Some (fst e).
  Proof. unfold gk. now rewrite last_snoc. Qed.
  Lemma gk_app p l r : gk p (l ++ r) = gk (gk p l) r.
  Proof.
    destruct (snoc_cases r) as [->|(r' & x & ->)]; [now rewrite app_nil_r|].
    now rewrite app_assoc, !gk_snoc.
  Qed.
  Lemma gk_cons p e l : gk p (e :: l) = gk (Some (fst e)) l.
  Proof. exact (gk_app p [e] l). Qed.
  Lemma gk_some p l : exists g, gk (Some p) l = Some g.
  Proof. unfold gk. destruct (last_opt l); eauto. Qed.
  (** The next key is greater than everything so far iff than the greatest. *)
  Lemma gk_lt p l k : asc l -> above_p p l ->
    lt_p (gk p l) k <-> all_lt l (bor k) /\ lt_p p k.
  Proof.
    intros A P. destruct (snoc_cases l) as [->|(l' & x & ->)].
    - cbn. split; [intros H; split; auto; intros ? []|tauto].
    - rewrite gk_snoc. cbn [lt_p]. rewrite (all_lt_app bor cmp), (all_lt_cons bor cmp).
      apply (asc_pivot bor cmp laws) in A as (A1 & _ & A3 & _). split.
      + intros H. split; [split; [|split; [auto|intros ? []]]|].
        * exact (all_lt_trans bor cmp laws l' _ _ A3 H).
        * destruct p as [p|]; cbn in *; auto. apply (cmp_lt_trans _ laws _ (key x)); auto.
          apply P. apply in_elt.
      + now intros [[_ [H _]] _].
  Qed.

  Lemma key_ge_lt a b : key_ge bor cmp a b = false <-> cmp (bor a) (bor b) = Lt.
  Proof. unfold key_ge. destruct (cmp (bor a) (bor b)); split; congruence. Qed.

  Lemma above_app p l r : above_p p (l ++ r) <-> above_p p l /\ above_p p r.
  Proof. destruct p; cbn; [apply (all_gt_app bor cmp)|tauto]. Qed.
  Lemma above_cons p (e : entry) l : above_p p (e :: l) <-> lt_p p (fst e) /\ above_p p l.
  Proof. destruct p; cbn; [apply (all_gt_cons bor cmp)|tauto]. Qed.
  Lemma above_gt p (e : entry) l : lt_p p (fst e) -> all_gt l (key e) -> above_p p l.
  Proof. destruct p as [p|]; cbn; auto. intros H1 H2. exact (all_gt_trans bor cmp laws l _ _ H2 H1). Qed.

  (** One separator: a child, an entry and the rest. *)
  Lemma step_iff p l e r : asc l /\ above_p p l /\ lt_p (gk p l) (fst e) /\ asc r /\ all_gt r (key e)
    <-> asc (l ++ e :: r) /\ above_p p (l ++ e :: r).
  Proof.
    rewrite above_app, above_cons, (asc_pivot bor cmp laws). split.
    - intros (A & P & G & A2 & G2). apply gk_lt in G as [G1 G3]; auto.
      split; auto. split; auto. split; auto. now apply (above_gt p e).
    - intros ((A1 & A2 & A3 & A4) & P1 & P2 & P3).
      split; [|split; [|split; [|split]]]; auto. now apply gk_lt.
  Qed.

  Definition comp (f : option K -> res (check + bt_err)) (ht : nat) (l : list entry) : Prop :=
    forall p, asc l -> above_p p l -> f p = Ok (inl (Check ht (length l) (gk p l))).
  Definition sound (f : option K -> res (check + bt_err)) (hok : nat -> Prop) (l : list entry) : Prop :=
    forall p c, f p = Ok (inl c) ->
      asc l /\ above_p p l /\ ck_len c = length l /\ ck_greatest c = gk p l /\ hok (ck_ht c).

  Lemma loop_comp kid ht : forall es L i len p, length L = length es ->
    (forall j l, nth_error L j = Some l -> comp (chk_child kid (i + j)) ht l) ->
    asc (zipl L es) -> all_gt (zipl L es) (bor p) ->
    chk_loop bor cmp kid i es ht len (Some p) = Ok (inl (len + length (concat L), gk (Some p) es)).
  Proof.
    induction es as [|[k v] es IH]; intros [|l L] i len p HL HC A P; try discriminate.
    - cbn. now rewrite Nat.add_0_r.
    - rewrite zipl_cons in A, P. pose proof (conj A (P : above_p (Some p) _)) as X.
      apply step_iff in X as (X1 & X2 & X3 & X4 & X5). cbn [chk_loop].
      pose proof (HC 0 l eq_refl (Some p) X1 X2) as E. rewrite Nat.add_0_r in E. rewrite E. cbn [bind ck_ht ck_greatest ck_len].
      rewrite Nat.eqb_refl. cbn [negb]. destruct (gk_some p l) as [g Eg]. rewrite Eg in *. cbn [unwrap bind].
      cbn [lt_p fst] in X3. apply key_ge_lt in X3. rewrite X3.
      rewrite (IH L (S i)); auto.
      + cbn [concat]. rewrite app_length, Nat.add_assoc, gk_cons. reflexivity.
      + intros j l' Hj. rewrite Nat.add_succ_l, <- Nat.add_succ_r. now apply HC.
  Qed.
  Lemma loop_sound kid ht hok : forall es L i len p len' p', length L = length es ->
    (forall j l, nth_error L j = Some l -> sound (chk_child kid (i + j)) (hok (i + j)) l) ->
    chk_loop bor cmp kid i es ht len (Some p) = Ok (inl (len', p')) ->
    asc (zipl L es) /\ all_gt (zipl L es) (bor p) /\ len' = len + length (concat L) /\ p' = gk (Some p) es
    /\ forall j, j < length es -> hok (i + j) ht.
  Proof.
    induction es as [|[k v] es IH]; intros [|l L] i len p len' p' HL HC E; try discriminate.
    - cbn in E. injection E as <- <-. cbn. rewrite Nat.add_0_r.
      repeat split; auto; [constructor|intros ? []|intros; lia].
    - cbn [chk_loop] in E. pose proof (HC 0 l eq_refl) as S. rewrite Nat.add_0_r in S.
      destruct (chk_child kid i (Some p)) as [[c|]|] eqn:Ec; cbn [bind] in E; try discriminate.
      destruct (S _ _ Ec) as (S1 & S2 & S3 & S4 & S5).
      destruct (Nat.eqb_spec ht (ck_ht c)) as [Hh|]; cbn [negb] in E; [|discriminate].
      rewrite S4 in E. destruct (gk_some p l) as [g Eg]. rewrite Eg in E. cbn [unwrap bind] in E.
      destruct (key_ge bor cmp g k) eqn:Eg2; [discriminate|]. apply key_ge_lt in Eg2.
      apply (IH L (Datatypes.S i)) in E; auto.
      + destruct E as (I1 & I2 & I3 & I4 & I5).
        assert (X : asc (l ++ (k, v) :: zipl L es) /\ above_p (Some p) (l ++ (k, v) :: zipl L es)).
        { apply step_iff. rewrite Eg. cbn [lt_p fst]. auto. }
        destruct X as [X1 X2]. rewrite zipl_cons. split; auto. split; auto.
        rewrite gk_cons. cbn [concat fst]. rewrite app_length. split; [lia|]. split; auto.
        intros [|j] Hj; [rewrite Nat.add_0_r; congruence|]. rewrite Nat.add_succ_r, <- Nat.add_succ_l.
        apply I5. cbn in Hj. lia.
      + intros j l' Hj. rewrite Nat.add_succ_l, <- Nat.add_succ_r. now apply HC.
  Qed.

  (** The whole body of [chk] of a node with [length es + 1] (perhaps absent) children. *)
  Definition body (kid : nat -> option K -> option (res (check + bt_err)))
    (last : option K -> res (check + bt_err)) (es : list entry) (prev : option K) : res (check + bt_err) :=
    first <- chk_child kid 0 prev;;
    match first with
    | inr e => Ok (inr e)
    | inl first =>
      '(k0, _) <- unwrap (nth_error es 0);;
      if match ck_greatest first with Some g => key_ge bor cmp g k0 | None => false end
      then Ok (inr Unsorted) else
      r <- chk_loop bor cmp kid 1 (skipn 1 es) (ck_ht first) (ck_len first) (Some k0);;
      match r with
      | inr e => Ok (inr e)
      | inl (len, pred) =>
        c <- last pred;;
        match c with
        | inr e => Ok (inr e)
        | inl curr =>
          if negb (ck_ht first =? ck_ht curr) then Ok (inr Imbalanced) else
          Ok (inl (Check (ck_ht first + 1) (length es + len + ck_len curr) (ck_greatest curr)))
        end
      end
    end.

  Lemma weave_ends (l0 : list entry) e0 es L lz : length L = length es ->
    weave (l0 :: L ++ [lz]) (e0 :: es) = l0 ++ e0 :: (zipl L es ++ lz).
  Proof.
    intros H. change (weave (l0 :: L ++ [lz]) (e0 :: es)) with (l0 ++ e0 :: weave (L ++ [lz]) es).
    rewrite <- (app_nil_r es) at 1. rewrite weave_split by auto. now rewrite zipr_nil, app_nil_r.
  Qed.
  Lemma zipl_length (L : list (list entry)) es : length L = length es -> length (zipl L es) = length (concat L) + length es.
  Proof.
    revert L. induction es as [|e es IH]; intros [|l L] H; try discriminate; auto.
    rewrite zipl_cons. cbn [concat length]. rewrite !app_length. cbn [length]. rewrite IH by (cbn in H; lia). lia.
  Qed.
  Lemma gk_zipl p (L : list (list entry)) es : length L = length es -> gk p (zipl L es) = gk p es.
  Proof.
    revert p L. induction es as [|e es IH]; intros p [|l L] H; try discriminate; auto.
    rewrite zipl_cons, gk_app, !gk_cons. now apply IH; auto.
  Qed.

  Lemma body_comp kid last ht es L prev : es <> [] -> length L = S (length es) ->
    (forall j l, j < length es -> nth_error L j = Some l -> comp (chk_child kid j) ht l) ->
    (forall l, last_opt L = Some l -> comp last ht l) ->
    asc (weave L es) -> above_p prev (weave L es) ->
    body kid last es prev = Ok (inl (Check (ht + 1) (length (weave L es)) (gk prev (weave L es)))).
  Proof.
    intros He HL HC HZ A P. destruct es as [|e0 es]; [congruence|]. destruct L as [|l0 L]; [discriminate|].
    cbn in HL. destruct (snoc_cases L) as [->|(L' & lz & ->)]; [discriminate|].
    rewrite app_length in HL. cbn in HL. assert (HL' : length L' = length es) by lia.
    rewrite weave_ends in * by auto. pose proof (conj A P) as X. apply step_iff in X as (X1 & X2 & X3 & X4 & X5).
    apply (asc_app_iff bor cmp) in X4 as (Y1 & Y2 & Y3). apply (all_gt_app bor cmp) in X5 as [Z1 Z2].
    unfold body. rewrite (HC 0 l0) by (auto; cbn; lia). destruct e0 as [k0 v0].
    cbn [bind ck_greatest ck_ht ck_len nth_error unwrap skipn fst] in *.
    replace (match gk prev l0 with Some g => key_ge bor cmp g k0 | None => false end) with false.
    2:{ destruct (gk prev l0) as [g|]; auto. symmetry. now apply key_ge_lt. }
    rewrite (loop_comp kid ht es L'); auto.
    - cbn [bind]. rewrite (HZ lz).
      + cbn [bind ck_ht ck_len ck_greatest]. rewrite Nat.eqb_refl. cbn [negb]. f_equal. f_equal. f_equal.
        * rewrite !app_length. cbn [length]. rewrite app_length, zipl_length by auto. lia.
        * rewrite gk_app, gk_cons, gk_app, gk_zipl by auto. reflexivity.
      + change (l0 :: L' ++ [lz]) with ((l0 :: L') ++ [lz]). apply last_snoc.
      + auto.
      + (* above the last separator *)
        destruct (gk_some k0 es) as [g Eg]. rewrite Eg. cbn [above_p].
        destruct (snoc_cases es) as [->|(es' & ez & ->)].
        * cbn in Eg. injection Eg as <-. exact Z2.
        * rewrite gk_snoc in Eg. injection Eg as <-. intros x Hx.
          destruct (snoc_cases L') as [->|(L1 & l1 & ->)]; [rewrite app_length in HL'; cbn in HL'; lia|].
          apply Y3; auto. rewrite zipl_snoc by (rewrite !app_length in HL'; cbn in HL'; lia).
          apply in_or_app. right. apply in_elt.
    - intros j l Hj. apply HC; [|cbn [nth_error Nat.add]; rewrite nth_error_app1; auto].
      + assert (j < length L') by (apply nth_error_Some; congruence). cbn. lia.
      + apply nth_error_Some; congruence.
  Qed.

  Lemma body_sound kid last hok hz es L prev c : length L = S (length es) ->
    (forall j l, j < length es -> nth_error L j = Some l -> sound (chk_child kid j) (hok j) l) ->
    (forall l, last_opt L = Some l -> sound last hz l) ->
    body kid last es prev = Ok (inl c) ->
    asc (weave L es) /\ above_p prev (weave L es) /\ ck_len c = length (weave L es)
    /\ ck_greatest c = gk prev (weave L es)
    /\ exists ht, ck_ht c = ht + 1 /\ hz ht /\ forall j, j < length es -> hok j ht.
  Proof.
    intros HL HC HZ E. unfold body in E. destruct es as [|[k0 v0] es].
    { destruct (chk_child kid 0 prev) as [[|]|]; discriminate. }
    destruct L as [|l0 L]; [discriminate|]. cbn in HL.
    destruct (snoc_cases L) as [->|(L' & lz & ->)]; [discriminate|].
    rewrite app_length in HL. cbn in HL. assert (HL' : length L' = length es) by lia.
    rewrite weave_ends by auto.
    pose proof (HC 0 l0 (Nat.lt_0_succ _) eq_refl) as S0.
    destruct (chk_child kid 0 prev) as [[first|]|] eqn:E0; cbn [bind] in E; try discriminate.
    destruct (S0 _ _ E0) as (A0 & P0 & L0 & G0 & H0). cbn [nth_error unwrap bind skipn] in E.
    rewrite G0 in E.
    destruct (match gk prev l0 with Some g => key_ge bor cmp g k0 | None => false end) eqn:Ek; [discriminate|].
    assert (G1 : lt_p (gk prev l0) k0).
    { destruct (gk prev l0) as [g|]; cbn; auto. now apply key_ge_lt. }
    destruct (chk_loop bor cmp kid 1 es (ck_ht first) (ck_len first) (Some k0)) as [[[len pred]|]|] eqn:El;
      cbn [bind] in E; try discriminate.
    apply (loop_sound kid (ck_ht first) hok es L') in El; auto.
    2:{ intros j l Hj. assert (j < length L') by (apply nth_error_Some; congruence).
        apply HC; [cbn; lia|]. cbn [nth_error Nat.add]. rewrite nth_error_app1; auto. }
    destruct El as (B1 & B2 & B3 & B4 & B5).
    destruct (last pred) as [[curr|]|] eqn:Ez; cbn [bind] in E; try discriminate.
    pose proof (HZ lz) as SZ. change (l0 :: L' ++ [lz]) with ((l0 :: L') ++ [lz]) in SZ. rewrite last_snoc in SZ.
    destruct (SZ eq_refl _ _ Ez) as (A2 & P2 & L2 & G2 & H2).
    destruct (Nat.eqb_spec (ck_ht first) (ck_ht curr)) as [Hh|]; cbn [negb] in E; [|discriminate].
    injection E as <-. cbn [ck_ht ck_len ck_greatest].
    assert (X : asc (l0 ++ (k0, v0) :: (zipl L' es ++ lz)) /\ above_p prev (l0 ++ (k0, v0) :: (zipl L' es ++ lz))).
    { apply step_iff. split; auto. split; auto. split; auto.
      assert (Q1 : all_gt lz (bor k0) /\ forall x y, In x (zipl L' es) -> In y lz -> cmp (key x) (key y) = Lt).
      { subst pred. pose proof (gk_lt (Some k0) (zipl L' es)) as X. rewrite gk_zipl in X by auto.
        assert (Y : forall y, In y lz -> lt_p (gk (Some k0) es) (fst y)).
        { intros y Hy. destruct (gk_some k0 es) as [g Eg]. rewrite Eg in *. cbn. now apply P2. }
        split.
        - intros y Hy. specialize (Y y Hy). apply X in Y; auto. apply Y.
        - intros x y Hx Hy. specialize (Y y Hy). apply X in Y as [Y _]; auto. }
      destruct Q1 as [Q1 Q2]. split.
      - apply (asc_app_iff bor cmp). auto.
      - apply (all_gt_app bor cmp). auto. }
    destruct X as [X1 X2]. split; auto. split; auto. split; [|split].
    - rewrite L2, B3, L0, !app_length. cbn [length]. rewrite app_length, zipl_length by auto. lia.
    - rewrite G2, B4, gk_app, gk_cons, gk_app, gk_zipl by auto. reflexivity.
    - exists (ck_ht first). split; auto. rewrite Hh at 1. split; auto.
      intros [|j] Hj; auto. apply (B5 j). cbn in Hj. lia.
  Qed.

  Lemma n_chk_body mn es ks prev : chk mn (BN es ks) prev =
    (_ <- assert_ ((mn =? 1) || (mn =? N));;
     if length es <? mn then Ok (inr Underpopulated) else
     if MAX_OCC N <? length es then Ok (inr Overpopulated) else
     body (fun i pred => nth_error (map (fun c => chk N c pred) ks) i)
          (fun pred => match last_opt (map (fun c => chk N c pred) ks) with Some r => r | None => chk_none pred end)
          es prev).
  Proof. reflexivity. Qed.

  Lemma none_comp : comp chk_none 0 [].
  Proof. intros p _ _. reflexivity. Qed.
  Lemma none_sound : sound chk_none (fun h => h = 0) [].
  Proof. intros p c E. injection E as <-. repeat split; [constructor|]. destruct p; cbn; auto. intros ? []. Qed.

  Lemma weave_nils (es : list entry) n : weave (repeat [] n) es = es.
  Proof.
    revert es. induction n as [|n IH]; intros es; [reflexivity|]. cbn [repeat weave app].
    destruct es as [|e es]; [|now rewrite IH]. clear. induction n; auto.
  Qed.

  (** Completeness. *)
  Lemma chk_comp h : forall mn t, (mn = 1 \/ mn = N) -> shape mn h t -> comp (chk mn t) (S h) (flat t).
  Proof.
    induction h as [|h IH]; intros mn t Hm S p A P.
    - apply shape_0 in S as (es & -> & Hl). rewrite n_chk_body.
      replace ((mn =? 1) || (mn =? N)) with true
        by (symmetry; apply orb_true_iff; destruct Hm; subst; rewrite Nat.eqb_refl; auto).
      cbn [assert_ bind]. destruct (Nat.ltb_spec (length es) mn); [lia|].
      destruct (Nat.ltb_spec (MAX_OCC N) (length es)); [lia|].
      change 1 with (0 + 1). cbn [BTreeProofs.flat map weave] in *.
      pose proof (body_comp (fun i pred => nth_error (map (fun c => chk N c pred) []) i)
        (fun pred => match last_opt (map (fun c => chk N c pred) []) with Some r => r | None => chk_none pred end)
        0 es (repeat [] (Datatypes.S (length es))) p) as B.
      rewrite weave_nils in B. apply B; auto.
      + intros ->. cbn in *. lia.
      + apply repeat_length.
      + intros j l _ Hj. apply nth_error_In, repeat_spec in Hj. subst l. intros q _ _.
        unfold chk_child. cbn [map]. rewrite nth_nil. reflexivity.
      + intros l Hl'. unfold last_opt in Hl'. apply nth_error_In, repeat_spec in Hl'. subst l. intros q _ _. reflexivity.
    - apply shape_S in S as (es & ks & -> & Hl & Hk & HF). rewrite n_chk_body.
      replace ((mn =? 1) || (mn =? N)) with true
        by (symmetry; apply orb_true_iff; destruct Hm; subst; rewrite Nat.eqb_refl; auto).
      cbn [assert_ bind]. destruct (Nat.ltb_spec (length es) mn); [lia|].
      destruct (Nat.ltb_spec (MAX_OCC N) (length es)); [lia|].
      rewrite Forall_forall in HF.
      replace (Datatypes.S (Datatypes.S h)) with (Datatypes.S h + 1) by lia. cbn [BTreeProofs.flat] in *.
      apply body_comp; auto.
      + destruct es; [cbn in *; lia|easy].
      + now rewrite map_length.
      + intros j l Hj Hn. rewrite nth_error_map in Hn. destruct (nth_error ks j) as [c|] eqn:Ec; [|discriminate].
        cbn in Hn. injection Hn as <-. intros q Aq Pq. unfold chk_child. rewrite nth_error_map, Ec. cbn [option_map].
        apply IH; auto. apply HF. eapply nth_error_In; eauto.
      + intros l Hn. destruct (snoc_cases ks) as [->|(ks' & c & ->)]; [discriminate|].
        rewrite map_app in Hn. cbn [map] in Hn. rewrite last_snoc in Hn. injection Hn as <-.
        intros q Aq Pq. rewrite map_app. cbn [map]. rewrite last_snoc. apply IH; auto. apply HF, in_elt.
  Qed.

  (** Soundness. *)
  Lemma kids_match_in (es : list entry) ks c : kids_match (BN es ks) = true -> In c ks -> kids_match c = true.
  Proof. cbn. intros H Hc. apply andb_true_iff in H as [_ H]. rewrite forallb_forall in H. auto. Qed.

  Lemma chk_sound n : forall mn t, n_levels t <= n -> kids_match t = true ->
    sound (chk mn t) (fun ht => exists h, ht = S h /\ shape mn h t) (flat t).
  Proof.
    induction n as [|n IH]; intros mn [es ks] Hn Hm p c E; [cbn in Hn; lia|].
    rewrite n_chk_body in E. destruct ((mn =? 1) || (mn =? N)); [|discriminate]. cbn [assert_ bind] in E.
    destruct (Nat.ltb_spec (length es) mn) as [|H1]; [discriminate|].
    destruct (Nat.ltb_spec (MAX_OCC N) (length es)) as [|H2]; [discriminate|].
    destruct ks as [|k0 ks].
    - cbn [BTreeProofs.flat map].
      apply (body_sound _ _ (fun _ h => h = 0) (fun h => h = 0) es (repeat [] (S (length es)))) in E.
      + rewrite weave_nils in E. destruct E as (X1 & X2 & X3 & X4 & ht & X5 & X6 & _). subst ht.
        cbn [weave]. repeat (split; [auto|]). exists 0. split; auto. constructor. auto.
      + apply repeat_length.
      + intros j l _ Hj. apply nth_error_In, repeat_spec in Hj. subst l. intros q d Eq.
        unfold chk_child in Eq. cbn [map] in Eq. rewrite nth_nil in Eq. exact (none_sound q d Eq).
      + intros l Hl'. unfold last_opt in Hl'. apply nth_error_In, repeat_spec in Hl'. subst l. exact none_sound.
    - pose proof Hm as Hm'. cbn [kids_match is_nil orb] in Hm'. apply andb_true_iff in Hm' as [Hk Hf].
      apply Nat.eqb_eq in Hk. set (KS := k0 :: ks) in *.
      assert (HK : forall x, In x KS -> sound (chk N x) (fun ht => exists h, ht = S h /\ shape N h x) (flat x)).
      { intros x Hx. apply IH; [|now apply (kids_match_in es KS)].
        rewrite levels_eq in Hn. apply max_levels_in in Hx. lia. }
      apply (body_sound _ _ (fun j ht => forall x, nth_error KS j = Some x -> exists h, ht = S h /\ shape N h x)
               (fun ht => forall x, last_opt KS = Some x -> exists h, ht = S h /\ shape N h x) es (map flat KS)) in E.
      + destruct E as (X1 & X2 & X3 & X4 & ht & X5 & X6 & X7). cbn [BTreeProofs.flat].
        repeat (split; [auto|]).
        destruct (snoc_cases KS) as [X|(KS' & z & Ez)]; [discriminate|].
        destruct (X6 z) as (h & -> & Sz); [rewrite Ez; apply last_snoc|].
        exists (S h). split; [lia|]. constructor; auto. rewrite Forall_forall. intros x Hx.
        apply In_nth_error in Hx as [j Hj].
        destruct (Nat.lt_ge_cases j (length es)) as [Hl|Hl].
        * destruct (X7 j Hl x Hj) as (h' & E' & Sx). injection E' as <-. exact Sx.
        * assert (j < length KS) by (apply nth_error_Some; congruence).
          assert (j = length KS') as -> by (rewrite Ez, app_length in *; cbn in *; lia).
          rewrite Ez, nth_mid in Hj by auto. congruence.
      + now rewrite map_length.
      + intros j l Hj Hl q d Eq. rewrite nth_error_map in Hl. destruct (nth_error KS j) as [x|] eqn:Ex; [|discriminate].
        cbn in Hl. injection Hl as <-. unfold chk_child in Eq. rewrite nth_error_map, Ex in Eq. cbn [option_map] in Eq.
        destruct (HK x (nth_error_In _ _ Ex) q d Eq) as (Y1 & Y2 & Y3 & Y4 & Y5). repeat (split; [auto|]).
        intros y Hy. injection Hy as <-. auto.
      + intros l Hl q d Eq. destruct (snoc_cases KS) as [X|(KS' & z & Ez)]; [discriminate|].
        rewrite Ez in *. rewrite map_app in Hl. cbn [map] in Hl. rewrite last_snoc in Hl. injection Hl as <-.
        rewrite map_app in Eq. cbn [map] in Eq. rewrite last_snoc in Eq.
        destruct (HK z (in_elt _ _ _) q d Eq) as (Y1 & Y2 & Y3 & Y4 & Y5). repeat (split; [auto|]).
        intros y Hy. rewrite last_snoc in Hy. injection Hy as <-. auto.
  Qed.

  Notation valid := (@valid K V Q bor cmp N).
  Lemma shape_kids_match mn h t : shape mn h t -> kids_match t = true.
  Proof.
    revert mn t. induction h as [|h IH]; intros mn t S.
    - apply shape_0 in S as (es & -> & _). reflexivity.
    - apply shape_S in S as (es & ks & -> & _ & Hk & HF). cbn [kids_match]. rewrite Hk, Nat.eqb_refl, orb_true_r.
      cbn [andb]. apply forallb_forall. rewrite Forall_forall in HF. eauto.
  Qed.
  Lemma check_iff (m : bt_map K V) :
    map_kids_match m = true /\ b_chk bor cmp N m = Ok (inl tt) <-> valid m.
  Proof.
    unfold b_chk, map_kids_match, BTreeProofs2.valid, contents. destruct (bm_root m) as [t|].
    - split.
      + intros [Hm E]. destruct (chk 1 t None) as [[c|]|] eqn:Ec; cbn [bind] in E; try discriminate.
        destruct (Nat.eqb_spec (ck_len c) (bm_len m)); [|discriminate].
        destruct (chk_sound (n_levels t) 1 t (le_n _) Hm None c Ec) as (A & _ & L & _ & h & _ & S).
        split; auto. split; [congruence|eauto].
      + intros (A & L & h & S). split; [now apply (shape_kids_match 1 h)|].
        rewrite (chk_comp h 1 t (or_introl eq_refl) S None A I). cbn [bind ck_len].
        now rewrite L, Nat.eqb_refl.
    - cbn. split.
      + intros [_ E]. destruct (bm_len m); [|discriminate]. repeat split. constructor.
      + intros (_ & -> & _). auto.
  Qed.
End Chk.
