(** The operations on the nodes of the array-based B-tree follow those on lists. *)
From Coq Require Import List PeanoNat Bool Lia.
From Verif Require Import Base Spec SpecFacts Vec BTreeModel BTreeProofs BTreeProofs2 FixedModel FixedProofs.
Import ListNotations.

Section FixedProofs2.
  Context {K V Q : Type} (bor : K -> Q) (cmp : Q -> Q -> comparison).
  Context (laws : order_laws cmp) (small_key : bool).
  Notation bt := (bt K V).
  Notation fnode := (fnode K V).
  Notation entry := (K * V)%type.
  Notation asc := (@ascending K V Q bor cmp).
  Notation key e := (bor (fst e)).
  Notation scan := (@scan K V Q bor cmp).
  Notation flat := (@flat K V).
  Notation shape := (@shape K V MIN_OCCUPANCY).
  Notation arity_of := (@arity_of K V MIN_OCCUPANCY).

  Lemma max_is : MAX_OCC MIN_OCCUPANCY = MAX_OCCUPANCY.
  Proof. reflexivity. Qed.

  (** ** Search *)
  Lemma lin_scan q (es : list entry) : forall j,
    lin_search bor cmp q (map fst es) j =
    let '(i, c) := scan q es in match c with Eq => inl (j + i) | _ => inr (j + i) end.
  Proof.
    induction es as [|e es IH]; intros j; cbn [map lin_search BTreeModel.scan]; [now rewrite Nat.add_0_r|].
    destruct (cmp q (key e)); [now rewrite Nat.add_0_r|now rewrite Nat.add_0_r|].
    rewrite IH. destruct (scan q es) as [i c]. now destruct c; rewrite Nat.add_succ_r.
  Qed.

  Lemma bin_scan q (es : list entry) i c : asc es -> scan q es = (i, c) ->
    forall fuel l r, l <= i <= r -> r <= length es -> r - l <= fuel -> (c = Eq -> i < r) ->
    bin_search bor cmp fuel q (map fst es) l r = Ok (match c with Eq => inl i | _ => inr i end).
  Proof.
    intros A S. destruct (scan_leaf bor cmp laws q es i c A S) as (es1 & es2 & Ees & Li & H1 & H2).
    assert (Hlo : forall m e, nth_error es m = Some e -> m < i -> cmp (key e) q = Lt).
    { intros m e E Hm. rewrite Ees, nth_error_app1 in E by lia. apply H1. eapply nth_error_In; eauto. }
    assert (Heq : forall e, nth_error es i = Some e -> c = Eq -> cmp (key e) q = Eq).
    { intros e E ->. destruct H2 as (e' & es3 & -> & Hc). rewrite Ees, nth_mid in E by auto.
      injection E as <-. now apply (cmp_eq_sym laws). }
    assert (Hhi : forall m e, nth_error es m = Some e -> (i < m \/ (c <> Eq /\ m = i)) -> cmp (key e) q = Gt).
    { intros m e E Hm. rewrite Ees, nth_error_app2 in E by lia. destruct c.
      - destruct H2 as (e' & es3 & -> & Hc). destruct Hm as [Hm|[Hm _]]; [|congruence].
        destruct (m - length es1) as [|m'] eqn:Em; [lia|]. cbn in E. apply nth_error_In in E.
        rewrite Ees in A. apply (asc_app_iff bor cmp) in A as (_ & A & _).
        apply (asc_cons_iff bor cmp) in A as [_ A]. specialize (A _ E).
        apply (cmp_lt_gt laws). now rewrite (cmp_eq_l _ laws _ _ _ Hc).
      - destruct H2 as [_ H2]. apply (cmp_lt_gt laws). apply H2. eapply nth_error_In; eauto.
      - subst es2. now rewrite nth_nil in E. }
    induction fuel as [|fuel IH]; intros l r Hi Hr Hf Hc; cbn [bin_search].
    - destruct (Nat.ltb_spec l r); [lia|].
      assert (i = l) by lia. subst l. destruct c; auto. specialize (Hc eq_refl). lia.
    - destruct (Nat.ltb_spec l r) as [Hlr|Hlr].
      2:{ assert (i = l) by lia. subst l. destruct c; auto. specialize (Hc eq_refl). lia. }
      pose proof (Nat.lt_div2 (r - l) ltac:(lia)) as Hd. set (mid := l + Nat.div2 (r - l)).
      assert (Hm : l <= mid < r) by (unfold mid; lia).
      destruct (nth_error es mid) as [e|] eqn:E; [|apply nth_error_None in E; lia].
      rewrite nth_error_map, E. cbn [option_map unwrap bind].
      destruct (Nat.lt_trichotomy mid i) as [Hlt|[Heqi|Hgt]].
      + rewrite (Hlo _ _ E Hlt). apply IH; auto; lia.
      + subst mid. destruct c eqn:Ec.
        * rewrite Heqi in E. rewrite (Heq _ E eq_refl). now rewrite Heqi.
        * rewrite (Hhi _ _ E). { apply IH; try lia. discriminate. } { right. split; [discriminate|auto]. }
        * rewrite (Hhi _ _ E). { apply IH; try lia. discriminate. } { right. split; [discriminate|auto]. }
      + rewrite (Hhi _ _ E) by auto. apply IH; try lia.
  Qed.

  Lemma search_ok q e es i c : elems_are e es -> es <> [] -> asc es -> scan q es = (i, c) ->
    search_keys bor cmp small_key q e = Ok (match c with Eq => inl i | _ => inr i end).
  Proof.
    intros He Hn A S. destruct (el_live e es He Hn) as [E _]. unfold search_keys. rewrite E. cbn [bind].
    destruct small_key.
    - rewrite lin_scan, S. now destruct c.
    - rewrite map_length. destruct (scan_leaf bor cmp laws q es i c A S) as (es1 & es2 & Ees & Li & H1 & H2).
      assert (i <= length es) by (rewrite Ees, app_length; lia).
      apply bin_scan; auto; try lia. intros ->. destruct H2 as (e' & es3 & -> & _).
      rewrite Ees, app_length. cbn. lia.
  Qed.

  (** The entries of a node are in order if all below it are. *)
  Lemma in_weave (es : list entry) : forall ks x, In x es -> In x (weave ks es).
  Proof.
    induction es as [|e es IH]; intros ks x H; [destruct H|]. destruct ks as [|k ks]; cbn; auto.
    apply in_or_app. right. destruct H as [<-|H]; [now left|]. right. auto.
  Qed.
  Lemma asc_weave (es : list entry) : forall ks, asc (weave ks es) -> asc es.
  Proof.
    induction es as [|e es IH]; intros ks A; [constructor|]. destruct ks as [|k ks]; cbn in A; auto.
    apply (asc_app_iff bor cmp) in A as (_ & A & _). apply (asc_cons_iff bor cmp) in A as [A H].
    apply (asc_cons_iff bor cmp). split; eauto. intros x Hx. apply H. now apply in_weave.
  Qed.
  Lemma asc_elems es ks : asc (flat (BN es ks)) -> asc es.
  Proof. apply asc_weave. Qed.

  (** ** Rotations and merging *)
  Ltac inv_bind H := let E := fresh "E" in let x := fresh "a" in
    match type of H with bind ?m _ = Ok _ => destruct m as [x|] eqn:E; cbn [bind] in H; [|discriminate H] end;
    try match type of x with unit => destruct x end.
  Lemma assert_true b u : assert_ b = Ok u -> b = true.
  Proof. now destruct b. Qed.
  Lemma arity_kids h es ks e d : elems_are e es -> okids_rep d ks -> arity_of h (BN es ks) ->
    match h with 0 => d = None /\ ks = [] | S _ => exists b, d = Some b /\ ks <> [] /\ kids_rep b ks /\ length ks = S (length es) end.
  Proof.
    intros He Hd A. destruct h; cbn in A.
    - subst. destruct d as [b|]; auto. destruct Hd as [X _]. congruence.
    - destruct A as [L F]. destruct d as [b|]; cbn in Hd; [|subst; discriminate].
      destruct Hd as [Hn Hd]. eauto 6.
  Qed.

  Lemma rot_lf_sim h n es1 sep es2 ks1 l r ks2 t' :
    repr n (BN (es1 ++ sep :: es2) (ks1 ++ l :: r :: ks2)) -> length ks1 = length es1 ->
    arity_of h l -> arity_of h r ->
    rot_lf MIN_OCCUPANCY (BN (es1 ++ sep :: es2) (ks1 ++ l :: r :: ks2)) (length es1) = Ok t' ->
    exists n', f_rot_lf n (length es1) = Ok n' /\ repr n' t'.
  Proof.
    intros R L1 Al Ar H. destruct n as [e d]. apply repr_iff in R as [He Hd].
    destruct d as [d|]; cbn in Hd; [|now destruct ks1]. destruct Hd as [Hn Hd].
    destruct l as [l_es l_ks], r as [r_es r_ks].
    cbn [rot_lf f_rot_lf is_branch is_leaf] in H |- *. inv_bind H. clear E.
    cbn [is_some assert_ bind].
    replace (ks1 ++ BN l_es l_ks :: BN r_es r_ks :: ks2) with ((ks1 ++ [BN l_es l_ks]) ++ BN r_es r_ks :: ks2) in *
      by now rewrite <- app_assoc.
    assert (Lk : length es1 + 1 = length (ks1 ++ [BN l_es l_ks])) by (rewrite app_length; cbn; lia).
    rewrite nth_mid in H by auto. cbn [unwrap bind] in H.
    destruct (fchild_rep d _ _ _ _ Hd Lk) as (rn & Ec & Rr). rewrite Ec. cbn [unwrap bind].
    destruct rn as [re rd]. apply repr_iff in Rr as [Hre Hrd].
    inv_bind H. apply assert_true in E. unfold MIN_OCC in E.
    destruct Hre as (Hrk & Hrv & Hrl). rewrite Hrl, E. pose proof (conj Hrk (conj Hrv Hrl)) as Hre. cbn [assert_ bind].
    inv_bind H. destruct a as [kv2 r_es']. apply vec_remove_cut in E0 as (x1 & x2 & -> & -> & E0).
    destruct x1; [|discriminate]. cbn [app] in *.
    destruct (el_remove_ok re [] x2 kv2 0 Hre eq_refl) as (re' & -> & Hre'). cbn [bind app] in *.
    (* the child that moves *)
    assert (X : exists k12 rd' mv r_ks',
      (if is_nil r_ks then Ok (None, r_ks) else '(x, r_ks') <- vec_remove 0 r_ks;; Ok (Some x, r_ks')) = Ok (mv, r_ks')
      /\ match rd with Some b => '(x, b') <- kd_remove b 0;; Ok (Some x, Some b') | None => Ok (None, None) end = Ok (k12, rd')
      /\ okids_rep rd' r_ks'
      /\ match k12, mv with None, None => h = 0 | Some x, Some y => h <> 0 /\ repr x y | _, _ => False end).
    { pose proof (arity_kids h _ _ _ _ Hre Hrd Ar) as Xr. destruct h.
      - destruct Xr as [-> ->]. cbn. eexists _, _, _, _. repeat split; reflexivity.
      - destruct Xr as (b & -> & Hne & Hb & Lr). destruct r_ks as [|y r_ks]; [congruence|]. cbn [is_nil].
        change (vec_remove 0 (y :: r_ks)) with (Ok (y, r_ks)). cbn [bind].
        destruct (kd_remove_rep b [] y r_ks 0 Hb eq_refl) as (xn & b' & -> & Rx & Hb'). cbn [bind].
        eexists _, _, _, _. split; [reflexivity|]. split; [reflexivity|]. split; [|split; [discriminate|exact Rx]].
        split; auto. destruct r_ks; [|discriminate]. cbn in Lr. apply Nat.ltb_lt in E. cbn in E, Lr. unfold MIN_OCCUPANCY in E. lia. }
    destruct X as (k12 & rd' & mv & r_ks' & E1 & -> & Hrd' & Hmv). rewrite E1 in H. cbn [bind] in *.
    assert (Rr' : repr (FNode re' rd') (BN x2 r_ks')) by (apply repr_iff; auto).
    destruct (fput_rep d _ _ _ _ _ _ Hd Lk Rr') as (d1 & -> & Hd1).
    rewrite nth_mid, !set_at_mid in H by auto. cbn [unwrap bind] in H.
    destruct (el_replace_ok e es1 es2 sep kv2 _ He eq_refl) as (e1 & -> & He1). cbn [bind].
    rewrite <- app_assoc in Hd1. cbn [app] in Hd1. rewrite <- app_assoc in H. cbn [app] in H.
    rewrite nth_mid in H by auto. cbn [unwrap bind] in H.
    destruct (fchild_rep d1 _ _ _ (length es1) Hd1 (eq_sym L1)) as (ln & -> & Rl). cbn [unwrap bind].
    destruct ln as [le ld]. apply repr_iff in Rl as [Hle Hld].
    inv_bind H. apply assert_true in E2. unfold MIN_OCC in E2. pose proof (proj2 (proj2 Hle)) as Hll.
    rewrite Hll, E2. cbn [assert_ bind]. apply Nat.ltb_lt in E2.
    destruct (el_push_ok le l_es sep Hle) as (le' & -> & Hle').
    { unfold MAX_OCCUPANCY, max_occupancy. lia. }
    cbn [bind]. injection H as <-. rewrite set_at_mid by auto.
    pose proof (arity_kids h _ _ _ _ Hle Hld Al) as Xl.
    assert (X : exists ld', match k12 with Some x => b <- unwrap ld;; b' <- kd_push b x;; Ok (Some b') | None => Ok ld end = Ok ld'
      /\ okids_rep ld' (match mv with Some x => l_ks ++ [x] | None => l_ks end)).
    { destruct k12 as [x|], mv as [y|]; try easy.
      - destruct Hmv as [Hh Rx]. destruct h; [congruence|]. destruct Xl as (b & -> & Hne & Hb & Ll). cbn [unwrap bind].
        destruct (kd_push_rep b l_ks x y Hb) as (b' & -> & Hb'); auto.
        { unfold MAX_KIDS, MAX_OCCUPANCY, max_occupancy. lia. }
        cbn [bind]. eexists. split; [reflexivity|]. split; auto. now destruct l_ks.
      - eexists. split; [reflexivity|]. auto. }
    destruct X as (ld' & -> & Hld'). cbn [bind].
    assert (Rl' : repr (FNode le' ld') (BN (l_es ++ [sep]) (match mv with Some x => l_ks ++ [x] | None => l_ks end)))
      by (apply repr_iff; auto).
    destruct (fput_rep d1 _ _ _ (length es1) _ _ Hd1 (eq_sym L1) Rl') as (d2 & -> & Hd2).
    eexists. split; [reflexivity|]. apply repr_iff. split; auto. split; auto. now destruct ks1.
  Qed.

  Lemma rot_rt_sim h n es1 sep es2 ks1 l r ks2 t' :
    repr n (BN (es1 ++ sep :: es2) (ks1 ++ l :: r :: ks2)) -> length ks1 = length es1 ->
    arity_of h l -> arity_of h r -> n_len r < MAX_OCCUPANCY ->
    rot_rt MIN_OCCUPANCY (BN (es1 ++ sep :: es2) (ks1 ++ l :: r :: ks2)) (length es1) = Ok t' ->
    exists n', f_rot_rt n (length es1) = Ok n' /\ repr n' t'.
  Proof.
    intros R L1 Al Ar Lr H. destruct n as [e d]. apply repr_iff in R as [He Hd].
    destruct d as [d|]; cbn in Hd; [|now destruct ks1]. destruct Hd as [Hn Hd].
    destruct l as [l_es l_ks], r as [r_es r_ks]. unfold n_len in Lr. cbn [elems_of] in Lr.
    cbn [rot_rt f_rot_rt is_branch is_leaf] in H |- *. inv_bind H. clear E.
    cbn [is_some assert_ bind].
    rewrite nth_mid in H by auto. cbn [unwrap bind] in H.
    destruct (fchild_rep d _ _ _ _ Hd (eq_sym L1)) as (ln & Ec & Rl). rewrite Ec. cbn [unwrap bind].
    destruct ln as [le ld]. apply repr_iff in Rl as [Hle Hld].
    inv_bind H. apply assert_true in E. unfold MIN_OCC in E.
    pose proof (proj2 (proj2 Hle)) as Hll. rewrite Hll, E. cbn [assert_ bind].
    inv_bind H. destruct a as [kv0 l_es']. destruct (vec_pop l_es) as [p|] eqn:Ep; cbn in E0; [|discriminate].
    injection E0 as ->. apply vec_pop_cut in Ep. subst l_es.
    destruct (el_pop_ok le l_es' kv0 Hle) as (le' & -> & Hle'). cbn [bind].
    rewrite app_length in E. cbn [length] in E. apply Nat.ltb_lt in E.
    assert (X : exists k01 ld' mv l_ks',
      match vec_pop l_ks with Some (x, l_ks') => (Some x, l_ks') | None => (None, l_ks) end = (mv, l_ks')
      /\ match ld with Some b => '(x, b') <- kd_pop b;; Ok (Some x, Some b') | None => Ok (None, None) end = Ok (k01, ld')
      /\ okids_rep ld' l_ks'
      /\ match k01, mv with None, None => h = 0 | Some x, Some y => h <> 0 /\ repr x y | _, _ => False end).
    { pose proof (arity_kids h _ _ _ _ Hle Hld Al) as Xl. destruct h.
      - destruct Xl as [-> ->]. cbn. eexists _, _, _, _. repeat split; reflexivity.
      - destruct Xl as (b & -> & Hne & Hb & Ll). destruct (snoc_cases l_ks) as [->|(l_ks' & y & ->)]; [congruence|].
        rewrite vec_pop_snoc.
        destruct (kd_pop_rep b l_ks' y Hb) as (xn & b' & -> & Rx & Hb'). cbn [bind].
        eexists _, _, _, _. split; [reflexivity|]. split; [reflexivity|]. split; [|split; [discriminate|exact Rx]].
        split; auto. intros ->. rewrite !app_length in Ll. cbn in Ll. unfold MIN_OCCUPANCY in E. lia. }
    destruct X as (k01 & ld' & mv & l_ks' & E1 & -> & Hld' & Hmv). rewrite E1 in H. cbn [bind] in *.
    assert (Rl' : repr (FNode le' ld') (BN l_es' l_ks')) by (apply repr_iff; auto).
    destruct (fput_rep d _ _ _ _ _ _ Hd (eq_sym L1) Rl') as (d1 & -> & Hd1).
    rewrite nth_mid, !set_at_mid in H by auto. cbn [unwrap bind] in H.
    destruct (el_replace_ok e es1 es2 sep kv0 _ He eq_refl) as (e1 & -> & He1). cbn [bind].
    replace (ks1 ++ BN l_es' l_ks' :: BN r_es r_ks :: ks2) with ((ks1 ++ [BN l_es' l_ks']) ++ BN r_es r_ks :: ks2) in *
      by now rewrite <- app_assoc.
    assert (Lk : length es1 + 1 = length (ks1 ++ [BN l_es' l_ks'])) by (rewrite app_length; cbn; lia).
    rewrite nth_mid in H by auto. cbn [unwrap bind] in H.
    destruct (fchild_rep d1 _ _ _ _ Hd1 Lk) as (rn & -> & Rr). cbn [unwrap bind].
    destruct rn as [re rd]. apply repr_iff in Rr as [Hre Hrd].
    destruct (el_insert_ok re [] r_es sep 0 Hre Lr eq_refl) as (re' & -> & Hre'). cbn [bind app] in *.
    change (vec_insert 0 sep r_es) with (Ok (sep :: r_es)) in H. cbn [bind] in H.
    pose proof (arity_kids h _ _ _ _ Hre Hrd Ar) as Xr.
    inv_bind H. injection H as <-. rewrite set_at_mid by auto.
    assert (X : exists rd', match k01 with Some x => b <- unwrap rd;; b' <- kd_insert b 0 x;; Ok (Some b') | None => Ok rd end = Ok rd'
      /\ okids_rep rd' a).
    { destruct k01 as [x|], mv as [y|]; try easy.
      - destruct Hmv as [Hh Rx]. destruct h; [congruence|]. destruct Xr as (b & -> & Hne & Hb & Lrk). cbn [unwrap bind].
        destruct (kd_insert_rep b [] r_ks x y 0 Hb) as (b' & -> & Hb'); auto.
        { cbn [app]. unfold MAX_KIDS in *. lia. }
        change (vec_insert 0 y r_ks) with (Ok (y :: r_ks)) in E0. injection E0 as <-.
        cbn [bind]. eexists. split; [reflexivity|]. split; auto. discriminate.
      - injection E0 as <-. eexists. split; [reflexivity|]. auto. }
    destruct X as (rd' & -> & Hrd'). cbn [bind].
    assert (Rr' : repr (FNode re' rd') (BN (sep :: r_es) a)) by (apply repr_iff; auto).
    destruct (fput_rep d1 _ _ _ _ _ _ Hd1 Lk Rr') as (d2 & -> & Hd2).
    eexists. split; [reflexivity|]. apply repr_iff. split; auto. split; auto. now destruct ks1.
  Qed.

  Lemma drop_empty un (ks : list (option K)) (vs : list (option V)) d : match d with Some b => kd_len b = 0 | None => True end ->
    fn_drop un (FNode (Elems ks vs 0) d) = Ok [].
  Proof. intros H. destruct d as [[ps len]|]; [|reflexivity]. cbn [kd_len] in H. subst len. now destruct ps as [|[] ps]. Qed.

  Lemma merge_sim h n es1 sep es2 ks1 l r ks2 t' :
    repr n (BN (es1 ++ sep :: es2) (ks1 ++ l :: r :: ks2)) -> length ks1 = length es1 ->
    arity_of h l -> arity_of h r -> n_len l + 1 + n_len r <= MAX_OCCUPANCY -> 1 <= n_len r ->
    merge_kids (BN (es1 ++ sep :: es2) (ks1 ++ l :: r :: ks2)) (length es1) = Ok t' ->
    exists n', f_merge_kids n (length es1) = Ok n' /\ repr n' t'.
  Proof.
    intros R L1 Al Ar Lr Lr1 H. destruct n as [e d]. apply repr_iff in R as [He Hd].
    destruct d as [d|]; cbn in Hd; [|now destruct ks1]. destruct Hd as [Hn Hd].
    destruct l as [l_es l_ks], r as [r_es r_ks]. unfold n_len in Lr, Lr1. cbn [elems_of] in Lr, Lr1.
    cbn [merge_kids f_merge_kids] in H |- *.
    rewrite vec_remove_mid in H by auto. cbn [bind] in H. rewrite vec_remove_mid in H by auto. cbn [bind] in H.
    rewrite nth_mid in H by auto. cbn [unwrap bind] in H. rewrite set_at_mid in H by auto. injection H as <-. cbn [unwrap bind].
    replace (ks1 ++ BN l_es l_ks :: BN r_es r_ks :: ks2) with ((ks1 ++ [BN l_es l_ks]) ++ BN r_es r_ks :: ks2) in *
      by now rewrite <- app_assoc.
    assert (Lk : length es1 + 1 = length (ks1 ++ [BN l_es l_ks])) by (rewrite app_length; cbn; lia).
    destruct (kd_remove_rep d _ _ _ _ Hd Lk) as (rn & d1 & -> & Rr & Hd1). cbn [bind].
    destruct rn as [re rd]. apply repr_iff in Rr as [Hre Hrd].
    destruct (el_remove_ok e es1 es2 sep _ He eq_refl) as (e1 & -> & He1). cbn [bind].
    rewrite <- app_assoc in Hd1. cbn [app] in Hd1.
    destruct (fchild_rep d1 _ _ _ _ Hd1 (eq_sym L1)) as (ln & Ec & Rl). unfold fchild in Ec.
    inv_bind Ec. injection Ec as Ec. cbn [bind]. rewrite Ec. cbn [unwrap bind].
    destruct ln as [le ld]. apply repr_iff in Rl as [Hle Hld].
    destruct (el_push_ok le l_es sep Hle) as (le1 & -> & Hle1); [lia|]. cbn [bind].
    destruct (el_live le1 _ Hle1) as [-> ->]; [now destruct l_es|].
    destruct (el_live re _ Hre) as [-> ->]; [now destruct r_es; [cbn in Lr1; lia|]|]. cbn [bind].
    assert (Hm : exists ks vs, slot_copy (el_keys re) 0 (el_keys le1) (el_len le1) (el_len re) = Ok ks
      /\ slot_copy (el_vals re) 0 (el_vals le1) (el_len le1) (el_len re) = Ok vs
      /\ elems_are (Elems ks vs (el_len le1 + el_len re)) ((l_es ++ [sep]) ++ r_es)).
    { destruct Hle1 as (Hk1 & Hv1 & ->), Hre as (Hk2 & Hv2 & ->).
      destruct (copy_ok MAX_OCCUPANCY MAX_OCCUPANCY (el_keys re) [] (map fst r_es) [] (el_keys le1) (map fst (l_es ++ [sep])) []
        0 (length (l_es ++ [sep])) (length r_es)) as (ks & Ek & Hk);
        rewrite ?app_nil_r, ?map_length; auto; [rewrite ?app_length in *; cbn [length app] in *; lia|].
      destruct (copy_ok MAX_OCCUPANCY MAX_OCCUPANCY (el_vals re) [] (map snd r_es) [] (el_vals le1) (map snd (l_es ++ [sep])) []
        0 (length (l_es ++ [sep])) (length r_es)) as (vs & Ev & Hv);
        rewrite ?app_nil_r, ?map_length; auto; [rewrite ?app_length in *; cbn [length app] in *; lia|].
      exists ks, vs. split; auto. split; auto. split; [|split]; cbn [el_keys el_vals el_len]; rewrite ?map_app in *; auto.
      now rewrite !app_length. }
    destruct Hm as (ks & vs & -> & -> & Hle2). cbn [bind].
    pose proof (elems_len _ _ Hle2) as Ll2. pose proof (proj2 (proj2 Hle2)) as El2. cbn [el_len] in *.
    rewrite El2. destruct (Nat.leb_spec (length ((l_es ++ [sep]) ++ r_es)) MAX_OCCUPANCY); [|lia]. cbn [assert_ bind].
    rewrite <- El2.
    pose proof (arity_kids h _ _ _ _ Hle Hld Al) as Xl. pose proof (arity_kids h _ _ _ _ Hre Hrd Ar) as Xr.
    assert (X : exists ld2, match ld with
             | Some lk =>
               rk <- unwrap rd;;
               ps <- slot_copy (kd_ptrs rk) 0 (kd_ptrs lk) (kd_len lk) (kd_len rk);;
               _ <- assert_ (kd_len lk + kd_len rk <=? MAX_KIDS);;
               Ok (Some (Kids ps (kd_len lk + kd_len rk)))
             | None => Ok None
             end = Ok ld2 /\ okids_rep ld2 (l_ks ++ r_ks)
             /\ match ld, rd with Some _, Some rk => Some (Kids (kd_ptrs rk) 0) | _, _ => rd end
                = match rd with Some rk => Some (Kids (kd_ptrs rk) 0) | None => None end).
    { destruct h.
      - destruct Xl as [-> ->], Xr as [-> ->]. eexists. split; [reflexivity|]. split; reflexivity.
      - destruct Xl as (bl & -> & Hnl & (nl & [Hbl El] & Fl) & Ll). destruct Xr as (br & -> & Hnr & (nr & [Hbr Er] & Fr) & Lrr).
        cbn [unwrap bind]. pose proof (Forall2_len _ _ _ Fl) as Ln1. pose proof (Forall2_len _ _ _ Fr) as Ln2.
        destruct (copy_ok MAX_KIDS MAX_KIDS (kd_ptrs br) [] nr [] (kd_ptrs bl) nl [] 0 (kd_len bl) (kd_len br))
          as (ps & -> & Hps); rewrite ?app_nil_r; auto; [unfold MAX_KIDS; lia|]. cbn [bind].
        rewrite El, Er. destruct (Nat.leb_spec (length nl + length nr) MAX_KIDS); [|unfold MAX_KIDS in *; lia].
        cbn [assert_ bind]. eexists. split; [reflexivity|]. split; [|reflexivity]. split; [now destruct l_ks|].
        exists (nl ++ nr). split; [split; auto|now apply Forall2_app]. cbn. now rewrite app_length. }
    destruct X as (ld2 & -> & Hld2 & Erd). cbn [bind]. rewrite Erd, drop_empty by (now destruct rd). cbn [is_nil assert_ bind].
    assert (R2 : repr (FNode (Elems ks vs (el_len le1 + el_len re)) ld2) (BN ((l_es ++ [sep]) ++ r_es) (l_ks ++ r_ks)))
      by (apply repr_iff; auto).
    destruct (fput_rep d1 _ _ _ _ _ _ Hd1 (eq_sym L1) R2) as (d2 & -> & Hd2).
    eexists. split; [reflexivity|]. apply repr_iff. split; auto. split; auto. now destruct ks1.
  Qed.

  (** ** Rebalancing *)
  Notation left_ok := (@left_ok K V MIN_OCCUPANCY).
  Lemma min_pos : 1 <= MIN_OCCUPANCY.
  Proof. unfold MIN_OCCUPANCY. lia. Qed.
  Lemma max_val : MAX_OCCUPANCY = 2 * MIN_OCCUPANCY + 1.
  Proof. reflexivity. Qed.
  Lemma max_kids_val : MAX_KIDS = S MAX_OCCUPANCY.
  Proof. reflexivity. Qed.

  Lemma rebal_sim h n es1 es2 ks1 c ks2 t' u :
    repr n (BN (es1 ++ es2) (ks1 ++ c :: ks2)) ->
    length ks1 = length es1 -> length ks2 = length es2 -> 1 <= length (es1 ++ es2) ->
    Forall (shape MIN_OCCUPANCY h) ks1 -> Forall (shape MIN_OCCUPANCY h) ks2 -> left_ok MIN_OCCUPANCY h c true ->
    rebal MIN_OCCUPANCY (BN (es1 ++ es2) (ks1 ++ c :: ks2)) (length es1) = Ok (t', u) ->
    exists n', f_rebal n (length es1) = Ok (n', u) /\ repr n' t'.
  Proof.
    intros R L1 L2 B F1 F2 [Sc Lc] H. pose proof min_pos as HN. pose proof max_val as HM.
    pose proof (shape_len MIN_OCCUPANCY _ _ _ Sc) as Bc. rewrite max_is in Bc.
    destruct n as [e d]. pose proof R as R0. apply repr_iff in R as [He Hd].
    destruct d as [d|]; cbn in Hd; [|now destruct ks1]. destruct Hd as [Hn Hd].
    unfold rebal, is_branch, is_leaf in H. cbn [kids_of] in H.
    assert (X0 : is_nil (ks1 ++ c :: ks2) = false) by now destruct ks1. rewrite X0 in H. cbn [negb assert_ bind] in H.
    unfold f_rebal. cbn [fn_kids is_some assert_ bind].
    destruct (fchild_rep d _ _ _ _ Hd (eq_sym L1)) as (cn & -> & Rc). cbn [unwrap bind].
    rewrite (repr_len _ _ Rc). destruct (Nat.eqb_spec (n_len c) (MIN_OCCUPANCY - 1)); [|lia]. cbn [assert_ bind].
    unfold MIN_OCC in H. rewrite max_is in H. cbv zeta in H |- *.
    assert (Ac : arity_of h c) by now apply (shape_arity MIN_OCCUPANCY) in Sc.
    inv_bind H. rename a into t1. injection H as <- <-.
    match goal with |- exists x, (_ <- ?m;; _) = _ /\ _ => assert (X : exists y, m = Ok y /\ repr y t1) end.
    2:{ destruct X as (n' & -> & Rn). cbn [bind]. rewrite (repr_len _ _ Rn). eauto. }
    destruct (snoc_cases es1) as [->|(es1' & k & ->)].
    - destruct ks1; [|discriminate]. cbn [app length] in *. change (0 <? 0) with false in *. cbv match in E |- *.
      destruct es2 as [|k es2]; [cbn in B; lia|]. destruct ks2 as [|s ks2]; [discriminate|].
      inversion F2 as [|? ? Ss F2']; subst. pose proof (shape_len MIN_OCCUPANCY _ _ _ Ss) as Bs.
      assert (As : arity_of h s) by now apply (shape_arity MIN_OCCUPANCY) in Ss.
      cbn [nth_error Nat.add unwrap bind] in E.
      destruct (fchild_rep d [c] s ks2 1 Hd eq_refl) as (sn & Es & Rs). cbn [Nat.add]. rewrite Es. cbn [unwrap bind].
      rewrite (repr_len _ _ Rs). destruct (Nat.ltb_spec (MAX_OCCUPANCY - MIN_OCCUPANCY) (n_len s)).
      + apply (rot_lf_sim h _ [] k es2 [] c s ks2); auto.
      + apply (merge_sim h _ [] k es2 [] c s ks2); auto; lia.
    - destruct (snoc_cases ks1) as [->|(ks1' & s & ->)]; [rewrite app_length in L1; cbn in L1; lia|].
      rewrite !app_length in L1. cbn [length] in L1. assert (L1' : length ks1' = length es1') by lia.
      apply Forall_app in F1 as [F1 Fs]. inversion Fs as [|? ? Ss _]; subst.
      pose proof (shape_len MIN_OCCUPANCY _ _ _ Ss) as Bs.
      assert (As : arity_of h s) by now apply (shape_arity MIN_OCCUPANCY) in Ss.
      rewrite app_length in *. cbn [length] in *.
      destruct (Nat.ltb_spec 0 (length es1' + 1)); [|lia].
      replace (length es1' + 1 - 1) with (length es1') in * by lia.
      rewrite <- !app_assoc in *. cbn [app] in *. rewrite nth_mid in E by auto. cbn [unwrap bind] in E.
      destruct (fchild_rep d ks1' s (c :: ks2) _ Hd (eq_sym L1')) as (sn & -> & Rs). cbn [unwrap bind].
      rewrite (repr_len _ _ Rs). destruct (Nat.ltb_spec (MAX_OCCUPANCY - MIN_OCCUPANCY) (n_len s)).
      + apply (rot_rt_sim h _ es1' k es2 ks1' s c ks2); auto. lia.
      + apply (merge_sim h _ es1' k es2 ks1' s c ks2); auto; try lia. unfold MIN_OCCUPANCY in *. lia.
  Qed.

  (** Following a child. *)
  Lemma map_child {B} (f : fnode -> B) d ks1 t ks2 i : kids_rep d (ks1 ++ t :: ks2) -> i = length ks1 ->
    exists n, fchild (on_kids f (Some d)) i = Ok (Some (f n)) /\ repr n t /\ fchild (Some d) i = Ok (Some n).
  Proof.
    intros Hd Hi. destruct (fchild_rep d _ _ _ _ Hd Hi) as (n & E & R). exists n. split; [|auto].
    destruct Hd as (ns & Hns & F).
    assert (ns <> []) by (apply (ns_nonempty _ _ F); now destruct ks1).
    rewrite (fchild_map f d ns i) by auto. rewrite (fchild_ok d ns i) in E by auto. injection E as E. now rewrite nth_error_map, E.
  Qed.
  Lemma map_last {B} (f : fnode -> B) d ks t : kids_rep d (ks ++ [t]) ->
    exists n, flast (on_kids f (Some d)) = Ok (Some (f n)) /\ repr n t /\ kd_len d = S (length ks).
  Proof.
    intros (ns & Hns & F). destruct (Forall2_cut_r _ _ _ _ _ F) as (n1 & n & n2 & -> & F1 & R & F2 & _).
    inversion F2; subst. destruct (on_kids_ok f d _ Hns) as (d' & -> & Hd').
    rewrite map_app in Hd'. cbn [map] in Hd'. exists n. rewrite (flast_ok d' _ _ Hd'). repeat split; auto.
    destruct Hns as [_ ->]. rewrite app_length, (Forall2_len _ _ _ F1). cbn. lia.
  Qed.

  Lemma pop_sim h : forall mn n t, 1 <= mn <= MIN_OCCUPANCY -> shape mn h t -> repr n t -> forall t' e u,
    n_pop_last MIN_OCCUPANCY t = Ok (t', Some (e, u)) ->
    exists n', fn_pop_greatest n = Ok (n', (e, u)) /\ repr n' t'.
  Proof.
    pose proof min_pos as HN.
    induction h as [|h IH]; intros mn n t Hm S R t' e u H.
    - destruct (shape_0 _ _ _ S) as (es & -> & Hb). destruct n as [el d]. apply repr_iff in R as [He Hd].
      destruct d as [d|]; [destruct Hd; congruence|].
      destruct (snoc_cases es) as [->|(es' & x & ->)]; [cbn in Hb; lia|].
      cbn [n_pop_last map] in H. rewrite last_nil, vec_pop_snoc in H. cbn [unwrap bind] in H. injection H as <- <- <-.
      cbn [fn_pop_greatest on_kids flast bind].
      destruct (el_pop_ok el es' x He) as (el' & -> & He'). cbn [bind].
      destruct He' as (H1 & H2 & H3). rewrite H3. eexists. split; [reflexivity|]. apply repr_iff. split; [split; auto|reflexivity].
    - destruct (shape_S _ _ _ _ S) as (es & ks & -> & Hb & Hk & HF).
      destruct n as [el d]. apply repr_iff in R as [He Hd].
      destruct (snoc_cases ks) as [->|(ks' & c & ->)]; [discriminate|].
      destruct d as [d|]; cbn in Hd; [|now destruct ks']. destruct Hd as [_ Hd].
      apply Forall_mid in HF as (F & Fc & _). rewrite app_length in Hk. cbn in Hk.
      destruct (n_pop_last_ok MIN_OCCUPANCY HN MIN_OCCUPANCY h c) as (c' & e1 & u1 & E & G & _); [lia|auto|].
      cbn [n_pop_last] in H. rewrite last_map_snoc, E in H. cbn [bind] in H.
      rewrite set_at_mid in H by (rewrite app_length; cbn; lia).
      cbn [fn_pop_greatest]. destruct (map_last fn_pop_greatest d ks' c Hd) as (cn & -> & Rc & Ld). cbn [bind].
      destruct (IH MIN_OCCUPANCY cn c ltac:(lia) Fc Rc _ _ _ E) as (cn' & -> & Rc'). cbn [bind].
      destruct (fput_rep d ks' c [] (kd_len d - 1) cn' c' Hd) as (d1 & E1 & Hd1); [lia|auto|]. rewrite E1.
      assert (R1 : repr (FNode el (Some d1)) (BN (es ++ []) (ks' ++ [c']))).
      { rewrite app_nil_r. apply repr_iff. split; auto. split; auto. now destruct ks'. }
      pose proof (proj2 (proj2 He)) as Le.
      destruct u1.
      + inv_bind H. destruct a as [t2 u2]. injection H as <- <- <-.
        replace es with (es ++ []) in E0 at 1 by apply app_nil_r.
        destruct (rebal_sim h _ es [] ks' c' [] t2 u2 R1) as (n' & E2 & R2); auto; try lia.
        { rewrite app_nil_r. lia. }
        rewrite Le, E2. cbn [bind]. eauto.
      + injection H as <- <- <-. rewrite app_nil_r in R1. eauto.
  Qed.

  Lemma remove_sim q h : forall mn n t, 1 <= mn <= MIN_OCCUPANCY -> shape mn h t -> repr n t -> asc (flat t) ->
    forall t' ret, n_remove bor cmp MIN_OCCUPANCY q t = Ok (t', ret) ->
    exists n', fn_remove bor cmp small_key q n = Ok (n', ret) /\ repr n' t'.
  Proof.
    pose proof min_pos as HN.
    induction h as [|h IH]; intros mn n t Hm S R A t' ret H.
    - destruct (shape_0 _ _ _ S) as (es & -> & Hb). destruct n as [el d]. pose proof R as R0. apply repr_iff in R as [He Hd].
      destruct d as [d|]; [destruct Hd; congruence|].
      cbn [n_remove] in H. destruct (scan q es) as [i c] eqn:E.
      cbn [fn_remove]. rewrite (search_ok q el es i c He) by (auto; intros ->; cbn in Hb; lia). cbn [bind].
      destruct (scan_leaf bor cmp laws q es i c A E) as (es1 & es2 & -> & <- & H1 & H2).
      destruct c.
      + destruct H2 as (e & es3 & -> & Hc). cbn [is_leaf kids_of is_nil] in H.
        rewrite vec_remove_mid in H by auto. cbn [bind] in H. injection H as <- <-.
        destruct (el_remove_ok el es1 es3 e _ He eq_refl) as (el' & -> & He'). cbn [bind].
        destruct He' as (X1 & X2 & X3). rewrite X3. eexists. split; [reflexivity|]. apply repr_iff. split; [split; auto|reflexivity].
      + cbn [map] in H. rewrite nth_nil in H. injection H as <- <-. cbn [on_kids fchild bind]. eauto.
      + cbn [map] in H. rewrite last_nil in H. injection H as <- <-. cbn [on_kids fchild bind]. eauto.
    - destruct (shape_S _ _ _ _ S) as (es & ks & -> & Hb & Hk & HF).
      destruct n as [el d]. apply repr_iff in R as [He Hd].
      destruct d as [d|]; cbn in Hd; [|now subst]. destruct Hd as [_ Hd].
      cbn [n_remove] in H. destruct (scan q es) as [i c] eqn:E.
      cbn [fn_remove]. rewrite (search_ok q el es i c He) by (eauto using asc_elems; intros ->; cbn in Hb; lia). cbn [bind].
      assert (Down : forall es1 es2 ks1 t ks2, es = es1 ++ es2 -> ks = ks1 ++ t :: ks2 ->
        length es1 = i -> length ks1 = i -> length ks2 = length es2 -> asc (flat t) ->
        ('(c', ret) <- n_remove bor cmp MIN_OCCUPANCY q t;;
           let t1 := BN es (ks1 ++ c' :: ks2) in
           match ret with
           | None => Ok (t1, None)
           | Some (kv, true) => '(t2, u) <- rebal MIN_OCCUPANCY t1 i;; Ok (t2, Some (kv, u))
           | Some (kv, false) => Ok (t1, Some (kv, false))
           end) = Ok (t', ret) ->
        exists n',
          (c <- fchild (on_kids (fn_remove bor cmp small_key q) (Some d)) i;;
           match c with
           | None => Ok (FNode el (Some d), None)
           | Some m =>
             '(c', o) <- m;;
             let n1 := FNode el (fput (Some d) i c') in
             match o with
             | None => Ok (n1, None)
             | Some (kv, true) => '(n2, u) <- f_rebal n1 i;; Ok (n2, Some (kv, u))
             | Some (kv, false) => Ok (n1, Some (kv, false))
             end
           end) = Ok (n', ret) /\ repr n' t').
      { clear H. intros es1 es2 ks1 t ks2 -> -> L0 L1 L2 At H.
        apply Forall_mid in HF as (F1 & F & F2).
        destruct (n_remove_ok bor cmp laws MIN_OCCUPANCY HN MIN_OCCUPANCY h t q) as (c' & r & E' & _ & G); auto; try lia.
        rewrite E' in H. cbn [bind] in H. cbv zeta in H |- *.
        destruct (map_child (fn_remove bor cmp small_key q) d ks1 t ks2 i Hd) as (cn & -> & Rc & _); [lia|]. cbn [bind].
        destruct (IH MIN_OCCUPANCY cn t ltac:(lia) F Rc At _ _ E') as (cn' & -> & Rc'). cbn [bind].
        destruct (fput_rep d ks1 t ks2 i cn' c' Hd) as (d1 & -> & Hd1); [lia|auto|].
        assert (R1 : repr (FNode el (Some d1)) (BN (es1 ++ es2) (ks1 ++ c' :: ks2))).
        { apply repr_iff. split; auto. split; auto. now destruct ks1. }
        destruct r as [[kv [|]]|].
        - inv_bind H. destruct a as [t2 u2]. injection H as <- <-. subst i. destruct G as [_ G].
          destruct (rebal_sim h _ es1 es2 ks1 c' ks2 t2 u2 R1) as (n' & E2 & R2); auto; try lia.
          rewrite E2. cbn [bind]. eauto.
        - injection H as <- <-. eauto.
        - injection H as <- <-. eauto. }
      destruct c.
      + destruct (scan_branch_eq bor cmp laws MIN_OCCUPANCY HN q es ks i Hk A E) as (es1 & e & es2 & ks1 & t & ks2 & -> & -> & Li & L1 & L2 & Hc).
        clear Down. apply Forall_mid in HF as (F1 & F & F2).
        assert (X0 : is_leaf (BN (es1 ++ e :: es2) (ks1 ++ t :: ks2)) = false)
          by (unfold is_leaf; cbn; now destruct ks1). rewrite X0 in H.
        destruct (n_pop_last_ok MIN_OCCUPANCY HN MIN_OCCUPANCY h t) as (c' & e' & u & E' & G & _); [lia|auto|].
        rewrite nth_map_mid in H by auto. cbn [unwrap bind] in H. rewrite E' in H. cbn [bind unwrap] in H.
        rewrite nth_mid in H by auto. cbn [unwrap bind] in H. rewrite !set_at_mid in H by auto. cbv zeta in H.
        destruct (map_child fn_pop_greatest d ks1 t ks2 i Hd) as (cn & -> & Rc & _); [lia|]. cbn [bind unwrap].
        destruct (pop_sim h MIN_OCCUPANCY cn t ltac:(lia) F Rc _ _ _ E') as (cn' & -> & Rc'). cbn [bind].
        destruct (el_replace_ok el es1 es2 e e' i He) as (el' & -> & He'); auto. cbn [bind].
        destruct (fput_rep d ks1 t ks2 i cn' c' Hd) as (d1 & -> & Hd1); [lia|auto|]. cbv zeta.
        assert (R1 : repr (FNode el' (Some d1)) (BN (es1 ++ e' :: es2) (ks1 ++ c' :: ks2))).
        { apply repr_iff. split; auto. split; auto. now destruct ks1. }
        destruct u.
        * inv_bind H. destruct a as [t2 u2]. injection H as <- <-. subst i.
          destruct (rebal_sim h _ es1 (e' :: es2) ks1 c' ks2 t2 u2 R1) as (n' & E2 & R2); auto; try lia.
          { rewrite app_length. cbn. lia. }
          rewrite E2. cbn [bind]. eauto.
        * injection H as <- <-. eauto.
      + destruct (scan_branch bor cmp laws MIN_OCCUPANCY HN q es ks i Lt Hk A E) as (es1 & es2 & ks1 & t & ks2 & Ees & Eks & L0 & L1 & L2 & Hl & Hr & At & _); [discriminate|].
        apply (Down es1 es2 ks1 t ks2); auto.
        assert (H1 : nth_error (map (n_remove bor cmp MIN_OCCUPANCY q) ks) i = Some (n_remove bor cmp MIN_OCCUPANCY q t))
          by (rewrite Eks; now apply nth_map_mid).
        assert (H2 : forall c', set_at i c' ks = ks1 ++ c' :: ks2)
          by (intros c'; rewrite Eks; now apply set_at_mid).
        rewrite <- H, H1. destruct (n_remove bor cmp MIN_OCCUPANCY q t) as [[c' r]|]; auto. cbn [bind]. now rewrite H2.
      + destruct (scan_branch bor cmp laws MIN_OCCUPANCY HN q es ks i Gt Hk A E) as (es1 & es2 & ks1 & t & ks2 & Ees & Eks & L0 & L1 & L2 & Hl & Hr & At & Hg); [discriminate|].
        apply (Down es1 es2 ks1 t ks2); auto. destruct (Hg eq_refl) as (Hi & -> & ->).
        assert (H1 : last_opt (map (n_remove bor cmp MIN_OCCUPANCY q) ks) = Some (n_remove bor cmp MIN_OCCUPANCY q t))
          by (rewrite Eks; apply last_map_snoc).
        assert (H2 : forall c', set_at (length ks - 1) c' ks = ks1 ++ [c']).
        { intros c'; rewrite Eks; apply set_at_mid. rewrite app_length. cbn. lia. }
        rewrite <- H, H1. destruct (n_remove bor cmp MIN_OCCUPANCY q t) as [[c' r]|]; auto. cbn [bind]. now rewrite H2, Hi.
  Qed.

  (** ** Lookups *)
  Lemma get_sim q h : forall mn n t, 1 <= mn -> shape mn h t -> repr n t -> asc (flat t) ->
    fn_get bor cmp small_key q n = Ok (n_get bor cmp q t).
  Proof.
    pose proof min_pos as HN.
    induction h as [|h IH]; intros mn n t Hm S R A.
    - destruct (shape_0 _ _ _ S) as (es & -> & Hb). destruct n as [el d]. apply repr_iff in R as [He Hd].
      destruct d as [d|]; [destruct Hd; congruence|].
      cbn [n_get fn_get]. destruct (scan q es) as [i c] eqn:E.
      rewrite (search_ok q el es i c He) by (auto; intros ->; cbn in Hb; lia). cbn [bind].
      destruct (scan_leaf bor cmp laws q es i c A E) as (es1 & es2 & -> & <- & H1 & H2).
      destruct c; cbn [map on_kids fchild bind]; rewrite ?nth_nil; auto.
      destruct H2 as (e & es3 & -> & _). rewrite (el_get_ok el _ _ e He), nth_mid by now rewrite ?nth_mid. reflexivity.
    - destruct (shape_S _ _ _ _ S) as (es & ks & -> & Hb & Hk & HF).
      destruct n as [el d]. apply repr_iff in R as [He Hd].
      destruct d as [d|]; cbn in Hd; [|now subst]. destruct Hd as [_ Hd].
      cbn [n_get fn_get]. destruct (scan q es) as [i c] eqn:E.
      rewrite (search_ok q el es i c He) by (eauto using asc_elems; intros ->; cbn in Hb; lia). cbn [bind]. destruct c.
      + destruct (scan_branch_eq bor cmp laws MIN_OCCUPANCY HN q es ks i Hk A E) as (es1 & e & es2 & ks1 & t & ks2 & -> & -> & <- & L1 & L2 & _).
        rewrite (el_get_ok el _ _ e He), nth_mid by now rewrite ?nth_mid. reflexivity.
      + destruct (scan_branch bor cmp laws MIN_OCCUPANCY HN q es ks i Lt Hk A E) as (es1 & es2 & ks1 & t & ks2 & -> & -> & L0 & L1 & L2 & Hl & Hr & At & _); [discriminate|].
        apply Forall_mid in HF as (_ & F & _).
        destruct (map_child (fn_get bor cmp small_key q) d ks1 t ks2 i Hd) as (cn & -> & Rc & _); [lia|]. cbn [bind].
        rewrite nth_map_mid by auto. eauto.
      + destruct (scan_branch bor cmp laws MIN_OCCUPANCY HN q es ks i Gt Hk A E) as (es1 & es2 & ks1 & t & ks2 & -> & -> & L0 & L1 & L2 & Hl & Hr & At & Hg); [discriminate|].
        destruct (Hg eq_refl) as (_ & -> & ->). apply Forall_mid in HF as (_ & F & _).
        destruct (map_child (fn_get bor cmp small_key q) d ks1 t [] i Hd) as (cn & -> & Rc & _); [lia|]. cbn [bind].
        rewrite last_map_snoc. eauto.
  Qed.

  Lemma get_mut_sim q w h : forall mn n t t' r, 1 <= mn -> shape mn h t -> repr n t -> asc (flat t) ->
    n_get_mut bor cmp q w t = (t', r) ->
    exists n', fn_get_mut bor cmp small_key q w n = Ok (n', option_map snd r) /\ repr n' t'.
  Proof.
    pose proof min_pos as HN.
    assert (Set_ : forall (el : elems K V) es1 e es2, elems_are el (es1 ++ e :: es2) ->
      exists vs, live (el_vals el) (el_len el) = Ok vs /\ nth_error vs (length es1) = Some (snd e)
        /\ elems_are (Elems (el_keys el) (set_at (length es1) (Some (w (snd e))) (el_vals el)) (el_len el))
             (es1 ++ (fst e, w (snd e)) :: es2)).
    { intros el es1 e es2 He. destruct (el_live el _ He) as [_ E]; [now destruct es1|].
      eexists. split; [exact E|]. split.
      - rewrite nth_error_map, nth_mid by auto. reflexivity.
      - destruct He as (X1 & X2 & X3). split; [|split]; cbn [el_keys el_vals el_len].
        + rewrite map_app in *. exact X1.
        + rewrite map_app in *. cbn [map snd] in *. eapply set_arr; eauto. now rewrite map_length.
        + rewrite X3, !app_length. reflexivity. }
    induction h as [|h IH]; intros mn n t t' r Hm S R A H.
    - destruct (shape_0 _ _ _ S) as (es & -> & Hb). destruct n as [el d]. pose proof R as R0. apply repr_iff in R as [He Hd].
      destruct d as [d|]; [destruct Hd; congruence|].
      cbn [n_get_mut fn_get_mut] in *. destruct (scan q es) as [i c] eqn:E.
      rewrite (search_ok q el es i c He) by (auto; intros ->; cbn in Hb; lia). cbn [bind].
      destruct (scan_leaf bor cmp laws q es i c A E) as (es1 & es2 & -> & <- & H1 & H2).
      destruct c; cbn [map on_kids fchild bind] in *; rewrite ?nth_nil, ?last_nil in H.
      + destruct H2 as (e & es3 & -> & _). rewrite nth_mid, set_at_mid in H by auto. injection H as <- <-.
        destruct (Set_ _ _ _ _ He) as (vs & -> & E1 & He'). cbn [bind]. rewrite E1. cbn [unwrap bind].
        eexists. split; [reflexivity|]. apply repr_iff. split; [exact He'|reflexivity].
      + injection H as <- <-. eauto.
      + injection H as <- <-. eauto.
    - destruct (shape_S _ _ _ _ S) as (es & ks & -> & Hb & Hk & HF).
      destruct n as [el d]. apply repr_iff in R as [He Hd].
      destruct d as [d|]; cbn in Hd; [|now subst]. destruct Hd as [Hn Hd].
      cbn [n_get_mut fn_get_mut] in *. destruct (scan q es) as [i c] eqn:E.
      rewrite (search_ok q el es i c He) by (eauto using asc_elems; intros ->; cbn in Hb; lia). cbn [bind]. destruct c.
      + destruct (scan_branch_eq bor cmp laws MIN_OCCUPANCY HN q es ks i Hk A E) as (es1 & e & es2 & ks1 & t & ks2 & -> & -> & <- & L1 & L2 & _).
        rewrite nth_mid, set_at_mid in H by auto. injection H as <- <-.
        destruct (Set_ _ _ _ _ He) as (vs & -> & E1 & He'). cbn [bind]. rewrite E1. cbn [unwrap bind].
        eexists. split; [reflexivity|]. apply repr_iff. split; [exact He'|split; auto].
      + destruct (scan_branch bor cmp laws MIN_OCCUPANCY HN q es ks i Lt Hk A E) as (es1 & es2 & ks1 & t & ks2 & -> & -> & L0 & L1 & L2 & Hl & Hr & At & _); [discriminate|].
        apply Forall_mid in HF as (_ & F & _).
        destruct (map_child (fn_get_mut bor cmp small_key q w) d ks1 t ks2 i Hd) as (cn & -> & Rc & _); [lia|]. cbn [bind].
        rewrite nth_map_mid in H by auto. destruct (n_get_mut bor cmp q w t) as [t1 r1] eqn:E1.
        rewrite set_at_mid in H by auto. injection H as <- <-.
        destruct (IH _ cn t _ _ HN F Rc At E1) as (cn' & -> & Rc'). cbn [bind].
        destruct (fput_rep d ks1 t ks2 i cn' t1 Hd) as (d1 & -> & Hd1); [lia|auto|].
        eexists. split; [reflexivity|]. apply repr_iff. split; auto. split; auto. now destruct ks1.
      + destruct (scan_branch bor cmp laws MIN_OCCUPANCY HN q es ks i Gt Hk A E) as (es1 & es2 & ks1 & t & ks2 & -> & -> & L0 & L1 & L2 & Hl & Hr & At & Hg); [discriminate|].
        destruct (Hg eq_refl) as (_ & -> & ->). apply Forall_mid in HF as (_ & F & _).
        destruct (map_child (fn_get_mut bor cmp small_key q w) d ks1 t [] i Hd) as (cn & -> & Rc & _); [lia|]. cbn [bind].
        rewrite last_map_snoc in H by auto. destruct (n_get_mut bor cmp q w t) as [t1 r1] eqn:E1.
        rewrite set_at_mid in H by (rewrite app_length; cbn; lia). injection H as <- <-.
        destruct (IH _ cn t _ _ HN F Rc At E1) as (cn' & -> & Rc'). cbn [bind].
        destruct (fput_rep d ks1 t [] i cn' t1 Hd) as (d1 & -> & Hd1); [lia|auto|].
        eexists. split; [reflexivity|]. apply repr_iff. split; auto. split; auto. now destruct ks1.
  Qed.
End FixedProofs2.
