(** The calls of the array-based B-tree map with any comparison function. *)
From Coq Require Import List PeanoNat Bool Lia.
From Verif Require Import Base Spec SpecFacts Vec BTreeModel BTreeProofs BTreeProofs2 FixedModel FixedSpec FixedProofs FixedProofs2 FixedProofs3 FixedProofs4
  FixedShows AnyOrdSpec BTreeAnyProofs.
Import ListNotations.

Section FixedAny.
  Context {K V Q : Type} (bor : K -> Q) (cmp : Q -> Q -> comparison) (small_key : bool).
  Notation bt := (bt K V).
  Notation fnode := (fnode K V).
  Notation entry := (K * V)%type.
  Notation MIN := MIN_OCCUPANCY.
  Notation flat := (@flat K V).
  Notation shape := (@shape K V MIN_OCCUPANCY).
  Notation arity := (@arity K V MIN_OCCUPANCY).
  Notation told := (told_eq bor cmp).

  (** ** Search *)
  Definition search_good (q : Q) (es : list entry) (r : nat + nat) : Prop :=
    match r with inl i => exists e, nth_error es i = Some e /\ told q e | inr i => i <= length es end.
  Lemma lin_any q (es : list entry) : forall j,
    match lin_search bor cmp q (map fst es) j with
    | inl i => exists e, j <= i /\ nth_error es (i - j) = Some e /\ told q e
    | inr i => j <= i <= j + length es
    end.
  Proof.
    induction es as [|e es IH]; intros j; cbn [map lin_search length]; [lia|]. destruct (cmp q (bor (fst e))) eqn:E; [|lia|].
    - exists e. rewrite Nat.sub_diag. split; auto. split; auto. now left.
    - specialize (IH (S j)). destruct (lin_search bor cmp q (map fst es) (S j)) as [i|i]; [|lia].
      destruct IH as (e' & L & E1 & T). exists e'. split; [lia|]. split; auto. replace (i - j) with (S (i - S j)) by lia. exact E1.
  Qed.
  Lemma bin_any q (es : list entry) : forall fuel l r, l <= r <= length es -> r - l <= fuel ->
    exists x, bin_search bor cmp fuel q (map fst es) l r = Ok x /\ search_good q es x.
  Proof.
    induction fuel as [|fuel IH]; intros l r Hr Hf; cbn [bin_search].
    - destruct (Nat.ltb_spec l r); [lia|]. exists (inr l). split; auto. cbn. lia.
    - destruct (Nat.ltb_spec l r) as [H|H]; [|exists (inr l); split; auto; cbn; lia].
      set (mid := l + Nat.div2 (r - l)). assert (Hm : l <= mid < r).
      { unfold mid. pose proof (Nat.div2_div (r - l)). pose proof (Nat.div_lt (r - l) 2 ltac:(lia) ltac:(lia)). lia. }
      cbv zeta. destruct (nth_error es mid) as [e|] eqn:E; [|apply nth_error_None in E; lia].
      rewrite nth_error_map, E. cbn [option_map unwrap bind]. destruct (cmp (bor (fst e)) q) eqn:C.
      + exists (inl mid). split; auto. exists e. split; auto. now right.
      + apply IH; lia.
      + apply IH; lia.
  Qed.
  Lemma search_any q e es : elems_are e es -> es <> [] ->
    exists r, search_keys bor cmp small_key q e = Ok r /\ search_good q es r.
  Proof.
    intros He Hn. destruct (el_live e es He Hn) as [E _]. unfold search_keys. rewrite E. cbn [bind]. destruct small_key.
    - eexists. split; [reflexivity|]. pose proof (lin_any q es 0) as H. destruct (lin_search bor cmp q (map fst es) 0) as [i|i]; cbn.
      + destruct H as (e0 & _ & H & T). rewrite Nat.sub_0_r in H. eauto.
      + lia.
    - rewrite map_length. apply bin_any; lia.
  Qed.

  (** ** Lookups *)
  Lemma fn_get_any q h : forall mn n t, 1 <= mn -> shape mn h t -> repr n t ->
    exists r, fn_get bor cmp small_key q n = Ok r /\ match r with Some e => In e (flat t) /\ told q e | None => True end.
  Proof.
    pose proof min_pos as HN. induction h as [|h IH]; intros mn n t Hm S R.
    - destruct (shape_0 _ _ _ S) as (es & -> & Hb). destruct n as [el d]. apply repr_iff in R as [He Hd].
      destruct d as [d|]; [destruct Hd; congruence|]. cbn [fn_get].
      destruct (search_any q el es He) as (r & -> & G); [intros ->; cbn in Hb; lia|]. cbn [bind]. destruct r as [i|i]; cbn [search_good] in G.
      + destruct G as (e & E & T). rewrite (el_get_ok el _ _ e He E). eexists. split; [reflexivity|]. rewrite flat_leaf. split; auto. eapply nth_error_In; eauto.
      + cbn [on_kids fchild bind]. exists None. auto.
    - destruct (shape_S _ _ _ _ S) as (es & ks & -> & Hb & Hk & HF).
      destruct n as [el d]. apply repr_iff in R as [He Hd].
      destruct d as [d|]; cbn in Hd; [|now subst]. destruct Hd as [_ Hd]. cbn [fn_get].
      destruct (search_any q el es He) as (r & -> & G); [intros ->; cbn in Hb; lia|]. cbn [bind]. destruct r as [i|i]; cbn [search_good] in G.
      + destruct G as (e & E & T). rewrite (el_get_ok el _ _ e He E). eexists. split; [reflexivity|]. cbn. split; auto.
        apply (in_weave es). eapply nth_error_In; eauto.
      + destruct (cut_at es ks i G Hk) as (es1 & es2 & ks1 & t & ks2 & -> & -> & L0 & L1 & L2).
        apply Forall_mid in HF as (_ & F & _).
        destruct (map_child (fn_get bor cmp small_key q) d ks1 t ks2 i Hd) as (cn & -> & Rc & _); [lia|]. cbn [bind].
        destruct (IH MIN cn t HN F Rc) as (r & -> & Gr). exists r. split; auto. destruct r as [e|]; auto. destruct Gr. split; auto.
        rewrite flat_branch by lia. apply in_or_app. right. apply in_or_app. now left.
  Qed.

  Lemma fn_get_mut_any q w h : forall mn n t, 1 <= mn -> shape mn h t -> repr n t ->
    exists n' r t', fn_get_mut bor cmp small_key q w n = Ok (n', r) /\ repr n' t' /\ shape mn h t' /\ any_get_mut bor cmp q w (flat t) (flat t') r.
  Proof.
    pose proof min_pos as HN.
    assert (Set_ : forall (el : elems K V) es1 e es2, elems_are el (es1 ++ e :: es2) ->
      exists vs, live (el_vals el) (el_len el) = Ok vs /\ nth_error vs (length es1) = Some (snd e)
        /\ elems_are (Elems (el_keys el) (set_at (length es1) (Some (w (snd e))) (el_vals el)) (el_len el))
             (es1 ++ (fst e, w (snd e)) :: es2)).
    { intros el es1 e es2 He. destruct (el_live el _ He) as [_ E]; [now destruct es1|].
      eexists. split; [exact E|]. split.
      - rewrite nth_error_map, nth_mid by auto. reflexivity.
      - destruct He as (X1 & X2 & X3). split; [|split]; cbn [el_keys el_vals el_len].
        + rewrite map_app in *. exact X1.
        + rewrite map_app in *. cbn [map snd] in *. eapply set_arr; eauto. now rewrite map_length.
        + rewrite X3, !app_length. reflexivity. }
    induction h as [|h IH]; intros mn n t Hm S R.
    - destruct (shape_0 _ _ _ S) as (es & -> & Hb). destruct n as [el d]. pose proof R as R0. apply repr_iff in R as [He Hd].
      destruct d as [d|]; [destruct Hd; congruence|]. cbn [fn_get_mut].
      destruct (search_any q el es He) as (r & -> & G); [intros ->; cbn in Hb; lia|]. cbn [bind]. destruct r as [i|i]; cbn [search_good] in G.
      + destruct G as (e & E & T). destruct (nth_cut _ _ _ E) as (es1 & es2 & -> & <-). destruct (Set_ _ _ _ _ He) as (vs & -> & E1 & He'). cbn [bind]. rewrite E1. cbn [unwrap bind].
        eexists _, _, (BN (es1 ++ (fst e, w (snd e)) :: es2) []). split; [reflexivity|]. split; [apply repr_iff; split; [exact He'|reflexivity]|].
        split; [apply shape_iff; rewrite app_length in *; split; [exact Hb|reflexivity]|]. rewrite !flat_leaf. exists es1, e, es2. auto.
      + cbn [on_kids fchild bind]. eexists _, None, (BN es []). split; [reflexivity|]. split; auto. split; auto. reflexivity.
    - destruct (shape_S _ _ _ _ S) as (es & ks & -> & Hb & Hk & HF).
      destruct n as [el d]. apply repr_iff in R as [He Hd].
      destruct d as [d|]; cbn in Hd; [|now subst]. destruct Hd as [Hn Hd]. cbn [fn_get_mut].
      destruct (search_any q el es He) as (r & -> & G); [intros ->; cbn in Hb; lia|]. cbn [bind]. destruct r as [i|i]; cbn [search_good] in G.
      + destruct G as (e & E & T). destruct (cut_pivot es ks i e E Hk) as (es1 & es2 & ks1 & t & ks2 & -> & -> & <- & L1 & L2).
        destruct (Set_ _ _ _ _ He) as (vs & -> & E1 & He'). cbn [bind]. rewrite E1. cbn [unwrap bind].
        eexists _, _, (BN (es1 ++ (fst e, w (snd e)) :: es2) (ks1 ++ t :: ks2)). split; [reflexivity|]. split; [apply repr_iff; split; [exact He'|split; auto]|].
        split; [apply shape_iff; split; [rewrite app_length in *; auto|]; split; auto; rewrite !app_length in *; auto|].
        rewrite !flat_pivot by auto. exists (flat (BN es1 (ks1 ++ [t]))), e, (flat (BN es2 ks2)). auto.
      + destruct (cut_at es ks i G Hk) as (es1 & es2 & ks1 & t & ks2 & -> & -> & L0 & L1 & L2).
        apply Forall_mid in HF as (F1 & F & F2).
        destruct (map_child (fn_get_mut bor cmp small_key q w) d ks1 t ks2 i Hd) as (cn & -> & Rc & _); [lia|]. cbn [bind].
        destruct (IH MIN cn t HN F Rc) as (cn' & r & t' & -> & Rc' & Sc & Gr). cbn [bind].
        destruct (fput_rep d ks1 t ks2 i cn' t' Hd) as (d1 & -> & Hd1); [lia|auto|].
        eexists _, _, (BN (es1 ++ es2) (ks1 ++ t' :: ks2)). split; [reflexivity|]. split; [apply repr_iff; split; auto; split; auto; now destruct ks1|].
        split; [apply shape_branch; auto; lia|]. rewrite !flat_branch by lia. now apply get_mut_seg.
  Qed.

  (** ** Insertion *)
  Definition absorbed (mn h : nat) (l : list entry) (n' : fnode) (r : f_res K V) : Prop :=
    match r with
    | FAbsorbed => exists t', repr n' t' /\ shape mn h t' /\ flat t' = l
    | FSplit (Some c) kv => exists lhs t', repr c lhs /\ repr n' t' /\ shape MIN h lhs /\ shape MIN h t' /\ flat lhs ++ kv :: flat t' = l
    | _ => False
    end.
  Lemma f_absorb_any mn h n es1 es2 ks1 ks2 lks kid kv i :
    repr n (BN (es1 ++ es2) (ks1 ++ ks2)) -> i = length es1 ->
    mn <= length (es1 ++ es2) <= MAX_OCCUPANCY ->
    match h with
    | 0 => kid = None /\ lks = [] /\ ks1 = [] /\ ks2 = []
    | S _ => exists c lhs, kid = Some c /\ lks = [lhs] /\ repr c lhs /\ length ks1 = length es1 /\ length ks2 = S (length es2)
    end ->
    arity h (es1 ++ kv :: es2) (ks1 ++ lks ++ ks2) ->
    exists n' r, (if fn_len n <? MAX_OCCUPANCY then ins_no_split n i kid kv else ins_split n i kid kv) = Ok (n', r)
      /\ absorbed mn h (flat (BN (es1 ++ kv :: es2) (ks1 ++ lks ++ ks2))) n' r.
  Proof.
    clear bor cmp small_key. intros R Hi B Hk A. set (l := flat (BN (es1 ++ kv :: es2) (ks1 ++ lks ++ ks2))).
    assert (Hin : In kv l) by (apply (in_weave (es1 ++ kv :: es2)), in_or_app; right; now left).
    destruct l as [|[k0 v0] l0] eqn:El; [destruct Hin|].
    destruct (f_absorb (fun _ => tt) always mn h n es1 es2 ks1 ks2 lks kid kv i k0 v0 l0 R Hi B Hk A) as (n' & r & E & G).
    { apply find_always. } { rewrite insert_always. exact El. }
    exists n', r. split; auto. destruct r as [|k1 v1|[c|] kv1]; cbn [f_ins_good absorbed] in *.
    - destruct G as (_ & t' & H1 & H2 & H3). rewrite insert_always in H3. eauto.
    - destruct G as (X & _). rewrite find_always in X. discriminate.
    - destruct G as (_ & lhs & t' & H1 & H2 & H3 & H4 & H5). rewrite insert_always in H5. exists lhs, t'. auto.
    - destruct G.
  Qed.

  Definition ins_any (mn h : nat) (k : K) (v : V) (l : list entry) (n' : fnode) (r : f_res K V) : Prop :=
    match r with
    | FAbsorbed => exists t', repr n' t' /\ shape mn h t' /\ any_insert bor cmp k v l (flat t') None
    | FReplaced k0 v0 => exists t', repr n' t' /\ shape mn h t' /\ any_insert bor cmp k v l (flat t') (Some v0)
    | FSplit (Some c) kv => exists lhs t', repr c lhs /\ repr n' t' /\ shape MIN h lhs /\ shape MIN h t'
                              /\ any_insert bor cmp k v l (flat lhs ++ kv :: flat t') None
    | FSplit None _ => False
    end.
  Lemma absorbed_any mn h k v l l' n' r : absorbed mn h l' n' r -> any_insert bor cmp k v l l' None -> ins_any mn h k v l n' r.
  Proof.
    intros A H. destruct r as [|k0 v0|[c|] kv]; cbn [absorbed ins_any] in *; try contradiction.
    - destruct A as (t' & A1 & A2 & <-). eauto.
    - destruct A as (lhs & t' & A1 & A2 & A3 & A4 & <-). exists lhs, t'. auto.
  Qed.

  Lemma fn_insert_any k v h : forall mn n t, 1 <= mn -> shape mn h t -> repr n t ->
    exists n' r, fn_insert bor cmp small_key (k, v) n = Ok (n', r) /\ ins_any mn h k v (flat t) n' r.
  Proof.
    pose proof min_pos as HN. induction h as [|h IH]; intros mn n t Hm S R.
    - destruct (shape_0 _ _ _ S) as (es & -> & Hb). destruct n as [el d]. pose proof R as R0. apply repr_iff in R as [He Hd].
      destruct d as [d|]; [destruct Hd; congruence|]. cbn [fn_insert fst].
      destruct (search_any (bor k) el es He) as (r & -> & G); [intros ->; cbn in Hb; lia|]. cbn [bind]. rewrite flat_leaf. destruct r as [i|i]; cbn [search_good] in G.
      + destruct G as (e & E & T). destruct (nth_cut _ _ _ E) as (es1 & es2 & -> & <-).
        destruct (el_replace_ok el es1 es2 e (k, v) _ He eq_refl) as (el' & -> & He'). cbn [bind].
        eexists _, _. split; [reflexivity|]. exists (BN (es1 ++ (k, v) :: es2) []). split; [apply repr_iff; split; [auto|reflexivity]|]. split.
        * apply shape_iff. rewrite app_length in *. split; [exact Hb|reflexivity].
        * rewrite flat_leaf. exists es1, e, es2. auto.
      + cbn [on_kids fchild bind].
        assert (Es : es = firstn i es ++ skipn i es) by (symmetry; apply firstn_skipn). set (es1 := firstn i es) in *. set (es2 := skipn i es) in *.
        assert (L1 : length es1 = i) by (unfold es1; rewrite firstn_length; lia).
        destruct (f_absorb_any mn 0 (FNode el None) es1 es2 [] [] [] None (k, v) i) as (n' & r & E & A); auto.
        { cbn [app]. now rewrite <- Es. } { rewrite <- Es. exact Hb. }
        exists n', r. split; auto. apply (absorbed_any _ _ _ _ _ _ _ _ A). cbn [app]. rewrite flat_leaf. exists es1, es2. auto.
    - destruct (shape_S _ _ _ _ S) as (es & ks & -> & Hb & Hk & HF).
      destruct n as [el d]. apply repr_iff in R as [He Hd].
      destruct d as [d|]; cbn in Hd; [|now subst]. destruct Hd as [Hn Hd]. cbn [fn_insert fst].
      destruct (search_any (bor k) el es He) as (r & -> & G); [intros ->; cbn in Hb; lia|]. cbn [bind]. destruct r as [i|i]; cbn [search_good] in G.
      + destruct G as (e & E & T). destruct (cut_pivot es ks i e E Hk) as (es1 & es2 & ks1 & t & ks2 & -> & -> & <- & L1 & L2).
        destruct (el_replace_ok el es1 es2 e (k, v) _ He eq_refl) as (el' & -> & He'). cbn [bind].
        eexists _, _. split; [reflexivity|]. exists (BN (es1 ++ (k, v) :: es2) (ks1 ++ t :: ks2)).
        split; [apply repr_iff; split; [auto|split; auto]|]. split.
        * apply shape_iff. split; [rewrite app_length in *; auto|]. split; auto. rewrite !app_length in *. auto.
        * rewrite !flat_pivot by auto. exists (flat (BN es1 (ks1 ++ [t]))), e, (flat (BN es2 ks2)). auto.
      + destruct (cut_at es ks i G Hk) as (es1 & es2 & ks1 & t & ks2 & -> & -> & L0 & L1 & L2).
        apply Forall_mid in HF as (F1 & F & F2).
        destruct (map_child (fn_insert bor cmp small_key (k, v)) d ks1 t ks2 i Hd) as (cn & -> & Rc & _); [lia|]. cbn [bind].
        destruct (IH MIN cn t HN F Rc) as (cn' & r & -> & Gr). cbn [bind].
        assert (Hput : forall t', repr cn' t' -> repr (FNode el (fput (Some d) i cn')) (BN (es1 ++ es2) (ks1 ++ t' :: ks2))).
        { intros t' Rt. destruct (fput_rep d ks1 t ks2 i cn' t' Hd) as (d1 & -> & Hd1); [lia|auto|].
          apply repr_iff. split; auto. split; auto. now destruct ks1. }
        rewrite flat_branch by lia.
        assert (Keep : forall t', shape MIN h t' -> shape mn (Datatypes.S h) (BN (es1 ++ es2) (ks1 ++ t' :: ks2))) by (intros t' St; apply shape_branch; auto; lia).
        destruct r as [|k0 v0|[c0|] kv1]; cbn [ins_any] in Gr.
        * destruct Gr as (t' & G2 & G3 & G4). eexists _, _. split; [reflexivity|]. exists (BN (es1 ++ es2) (ks1 ++ t' :: ks2)). split; auto. split; auto.
          rewrite flat_branch by lia. now apply insert_seg.
        * destruct Gr as (t' & G2 & G3 & G4). eexists _, _. split; [reflexivity|]. exists (BN (es1 ++ es2) (ks1 ++ t' :: ks2)). split; auto. split; auto.
          rewrite flat_branch by lia. now apply insert_seg.
        * destruct Gr as (lhs & t' & G2 & G3 & G4 & G5 & G6).
          destruct (f_absorb_any mn (Datatypes.S h) (FNode el (fput (Some d) i cn')) es1 es2 ks1 (t' :: ks2) [lhs] (Some c0) kv1 i) as (n' & r & E & A); auto.
          { exists c0, lhs. cbn [length]. repeat split; auto; lia. }
          { cbn [app]. split; [rewrite !app_length in *; cbn [length] in *; lia|]. apply Forall_app. repeat constructor; auto. }
          exists n', r. split; auto. apply (absorbed_any _ _ _ _ _ _ _ _ A). cbn [app].
          rewrite (flat_pivot es1 kv1 es2 ks1 lhs (t' :: ks2)) by lia.
          replace es1 with (es1 ++ []) at 2 by apply app_nil_r.
          rewrite (flat_branch es1 [] ks1 lhs []) by (cbn; lia).
          replace (BN es2 (t' :: ks2)) with (BN ([] ++ es2) ([] ++ t' :: ks2)) by reflexivity.
          rewrite (flat_branch [] es2 [] t' ks2) by (cbn; lia). cbn [map].
          rewrite zipl_nil, zipr_nil, app_nil_r. cbn [app].
          match goal with |- any_insert _ _ _ _ _ ?x _ => replace x with (zipl (map flat ks1) es1 ++ (flat lhs ++ kv1 :: flat t') ++ zipr es2 (map flat ks2)) end.
          { now apply insert_seg. } now rewrite <- !app_assoc.
        * destruct Gr.
  Qed.

  (** ** Removal *)
  Definition rem_any (mn h : nat) (q : Q) (l : list entry) (t' : bt) (o : option (entry * bool)) : Prop :=
    any_remove bor cmp q l (flat t') (option_map fst o)
    /\ match o with Some (_, u) => left_ok MIN mn h t' u | None => shape mn h t' end.
  Lemma fn_remove_any q h : forall mn n t, 1 <= mn <= MIN -> shape mn h t -> repr n t ->
    exists n' o t', fn_remove bor cmp small_key q n = Ok (n', o) /\ repr n' t' /\ rem_any mn h q (flat t) t' o.
  Proof.
    pose proof min_pos as HN. induction h as [|h IH]; intros mn n t Hm S R.
    - destruct (shape_0 _ _ _ S) as (es & -> & Hb). destruct n as [el d]. pose proof R as R0. apply repr_iff in R as [He Hd].
      destruct d as [d|]; [destruct Hd; congruence|]. cbn [fn_remove].
      destruct (search_any q el es He) as (r & -> & G); [intros ->; cbn in Hb; lia|]. cbn [bind]. rewrite flat_leaf. destruct r as [i|i]; cbn [search_good] in G.
      + destruct G as (e & E & T). destruct (nth_cut _ _ _ E) as (es1 & es2 & -> & <-).
        destruct (el_remove_ok el es1 es2 e _ He eq_refl) as (el' & -> & He'). cbn [bind]. pose proof (proj2 (proj2 He')) as X3. rewrite X3.
        eexists _, _, (BN (es1 ++ es2) []). split; [reflexivity|]. split; [apply repr_iff; split; [auto|reflexivity]|]. split.
        * cbn [option_map fst]. rewrite flat_leaf. exists es1, es2. auto.
        * apply (leaf_left MIN HN mn (es1 ++ e :: es2)); auto. rewrite !app_length. cbn. lia.
      + cbn [on_kids fchild bind]. eexists _, None, (BN es []). split; [reflexivity|]. split; auto. split; auto. apply flat_leaf.
    - destruct (shape_S _ _ _ _ S) as (es & ks & -> & Hb & Hk & HF).
      destruct n as [el d]. apply repr_iff in R as [He Hd].
      destruct d as [d|]; cbn in Hd; [|now subst]. destruct Hd as [_ Hd]. cbn [fn_remove].
      destruct (search_any q el es He) as (r & -> & G); [intros ->; cbn in Hb; lia|]. cbn [bind]. destruct r as [i|i]; cbn [search_good] in G.
      + destruct G as (e & E & T). destruct (cut_pivot es ks i e E Hk) as (es1 & es2 & ks1 & t & ks2 & -> & -> & Li & L1 & L2).
        apply Forall_mid in HF as (F1 & F & F2).
        destruct (n_pop_last_ok MIN HN MIN h t) as (c' & e' & u & E' & Gp & Fp); [lia|auto|].
        destruct (map_child fn_pop_greatest d ks1 t ks2 i Hd) as (cn & -> & Rc & _); [lia|]. cbn [bind unwrap].
        destruct (pop_sim h MIN cn t ltac:(lia) F Rc _ _ _ E') as (cn' & -> & Rc'). cbn [bind].
        destruct (el_replace_ok el es1 es2 e e' i He) as (el' & -> & He'); auto. cbn [bind].
        destruct (fput_rep d ks1 t ks2 i cn' c' Hd) as (d1 & -> & Hd1); [lia|auto|]. cbv zeta.
        assert (R1 : repr (FNode el' (Some d1)) (BN (es1 ++ e' :: es2) (ks1 ++ c' :: ks2))).
        { apply repr_iff. split; auto. split; auto. now destruct ks1. }
        assert (Hfl : any_remove bor cmp q (flat (BN (es1 ++ e :: es2) (ks1 ++ t :: ks2))) (flat (BN (es1 ++ e' :: es2) (ks1 ++ c' :: ks2))) (Some e)).
        { rewrite !flat_pivot by lia. exists (flat (BN es1 (ks1 ++ [t]))), (flat (BN es2 ks2)). split; auto. split; auto.
          replace es1 with (es1 ++ []) by apply app_nil_r. rewrite !(flat_branch es1 [] ks1 _ []) by (cbn; lia). rewrite Fp. cbn [map].
          rewrite zipr_nil, !app_nil_r, <- !app_assoc. reflexivity. }
        assert (B' : mn <= length (es1 ++ e' :: es2) <= MAX_OCC MIN) by (rewrite app_length in *; exact Hb).
        destruct u.
        * destruct (kid_fixed MIN HN mn h es1 (e' :: es2) ks1 c' ks2 i) as (t2 & u2 & Er & Lk & Fr); auto; try lia.
          subst i. destruct (rebal_sim h _ es1 (e' :: es2) ks1 c' ks2 t2 u2 R1) as (n' & E2 & R2); auto; try lia.
          rewrite E2. cbn [bind]. eexists _, _, t2. split; [reflexivity|]. split; auto. split; auto. cbn [option_map fst]. now rewrite Fr.
        * eexists _, _, _. split; [reflexivity|]. split; [exact R1|]. split; auto. apply (kid_kept MIN HN mn h es1 (e' :: es2) ks1 c' ks2); auto; try lia.
      + destruct (cut_at es ks i G Hk) as (es1 & es2 & ks1 & t & ks2 & -> & -> & L0 & L1 & L2).
        apply Forall_mid in HF as (F1 & F & F2).
        destruct (map_child (fn_remove bor cmp small_key q) d ks1 t ks2 i Hd) as (cn & -> & Rc & _); [lia|]. cbn [bind].
        destruct (IH MIN cn t ltac:(lia) F Rc) as (cn' & o & c' & -> & Rc' & Gr & Gs). cbn [bind]. cbv zeta.
        destruct (fput_rep d ks1 t ks2 i cn' c' Hd) as (d1 & -> & Hd1); [lia|auto|].
        assert (R1 : repr (FNode el (Some d1)) (BN (es1 ++ es2) (ks1 ++ c' :: ks2))).
        { apply repr_iff. split; auto. split; auto. now destruct ks1. }
        assert (Hfl : any_remove bor cmp q (flat (BN (es1 ++ es2) (ks1 ++ t :: ks2))) (flat (BN (es1 ++ es2) (ks1 ++ c' :: ks2))) (option_map fst o)).
        { rewrite !flat_branch by lia. now apply remove_seg. }
        destruct o as [[kv [|]]|].
        * destruct (kid_fixed MIN HN mn h es1 es2 ks1 c' ks2 i) as (t2 & u2 & Er & Lk & Fr); auto; try lia.
          subst i. destruct (rebal_sim h _ es1 es2 ks1 c' ks2 t2 u2 R1) as (n' & E2 & R2); auto; try lia.
          rewrite E2. cbn [bind]. eexists _, _, t2. split; [reflexivity|]. split; auto. split; auto. cbn [option_map fst] in *. now rewrite Fr.
        * eexists _, _, _. split; [reflexivity|]. split; [exact R1|]. split; auto. apply (kid_kept MIN HN mn h es1 es2 ks1 c' ks2); auto; try lia.
        * eexists _, _, _. split; [reflexivity|]. split; [exact R1|]. split; auto. apply shape_branch; auto; lia.
  Qed.

  (** ** Maps *)
  Notation shows := (@f_any K V).
  Lemma fany_iff (m : f_map K V) l : shows m l <-> fm_len m = length l
    /\ match fm_root m with None => l = [] | Some n => exists h t, repr n t /\ shape 1 h t /\ flat t = l end.
  Proof.
    unfold f_any. destruct (fm_root m); [|tauto]. split; intros (L & h & R); split; auto; exists h; now apply holds_iff.
  Qed.

  Lemma f_get_any m l q : shows m l -> exists r, f_get bor cmp small_key m q = Ok r /\ any_get bor cmp q l r.
  Proof.
    rewrite fany_iff. intros (L & R). unfold f_get. destruct (fm_root m) as [n|]; [|exists None; split; auto; exact Logic.I].
    destruct R as (h & t & R & S & <-). destruct (fn_get_any q h 1 n t (le_n 1) S R) as (r & -> & G). cbn [bind].
    exists (option_map snd r). split; auto. destruct r as [e|]; cbn; auto. exists e. tauto.
  Qed.
  Lemma f_get_mut_any m l q w : shows m l ->
    exists m' r l', f_get_mut bor cmp small_key m q w = Ok (m', r) /\ shows m' l' /\ any_get_mut bor cmp q w l l' r.
  Proof.
    intros H. pose proof H as H0. rewrite fany_iff in H. destruct H as (L & R). unfold f_get_mut. destruct (fm_root m) as [n|]; [|exists m, None, l; split; auto; split; auto; reflexivity].
    destruct R as (h & t & R & S & <-). destruct (fn_get_mut_any q w h 1 n t (le_n 1) S R) as (n' & r & t' & -> & R' & S' & G). cbn [bind].
    eexists _, _, (flat t'). split; [reflexivity|]. split; auto. apply fany_iff. cbn [fm_len fm_root]. split; eauto. rewrite L. destruct r; cbn in G.
    - destruct G as (l1 & e & l2 & -> & -> & _). now rewrite !app_length.
    - now rewrite G.
  Qed.
  Lemma f_insert_any m l k v : shows m l ->
    exists m' r l', f_insert bor cmp small_key m k v = Ok (m', r) /\ shows m' l' /\ any_insert bor cmp k v l l' r.
  Proof.
    rewrite fany_iff. intros (L & R). unfold f_insert. destruct (fm_root m) as [n|].
    - destruct R as (h & t & R & S & <-). destruct (fn_insert_any k v h 1 n t (le_n 1) S R) as (n' & r & -> & G). cbn [bind].
      destruct r as [|k0 v0|[c|] kv]; cbn [ins_any] in G.
      + destruct G as (t' & R' & S' & G). eexists _, _, (flat t'). split; [reflexivity|]. split; auto. apply fany_iff. cbn [fm_len fm_root]. split; eauto.
        rewrite (len_insert _ _ _ _ _ _ _ G). lia.
      + destruct G as (t' & R' & S' & G). eexists _, _, (flat t'). split; [reflexivity|]. split; auto. apply fany_iff. cbn [fm_len fm_root]. split; eauto.
        rewrite (len_insert _ _ _ _ _ _ _ G). lia.
      + destruct G as (lhs & t' & Rc & R' & Sl & S' & G). cbn [unwrap bind]. unfold fn_branch.
        destruct (el_push_ok el_new [] kv el_new_ok) as (e & -> & He); [cbn; unfold MAX_OCCUPANCY, max_occupancy; lia|]. cbn [bind].
        destruct (kd_push_rep kd_new [] c lhs kd_new_rep) as (d1 & -> & Hd1); [cbn; unfold MAX_KIDS, MAX_OCCUPANCY, max_occupancy; lia|exact Rc|]. cbn [bind app] in *.
        destruct (kd_push_rep d1 [lhs] n' t' Hd1) as (d2 & -> & Hd2); [cbn; unfold MAX_KIDS, MAX_OCCUPANCY, max_occupancy, MIN_OCCUPANCY; lia|exact R'|]. cbn [bind app] in *.
        eexists _, _, (flat lhs ++ kv :: flat t'). split; [reflexivity|]. split; auto. apply fany_iff. cbn [fm_len fm_root]. split; [rewrite (len_insert _ _ _ _ _ _ _ G); lia|].
        exists (Datatypes.S h), (BN [kv] [lhs; t']). split; [apply repr_iff; split; auto; split; [discriminate|auto]|]. split; [|cbn; now rewrite app_nil_r].
        constructor; auto. cbn. unfold MAX_OCC, MIN_OCCUPANCY. lia.
      + destruct G.
    - subst l. unfold fn_leaf.
      destruct (el_push_ok el_new [] (k, v) el_new_ok) as (e & -> & He); [cbn; unfold MAX_OCCUPANCY, max_occupancy; lia|].
      cbn [bind app] in *. eexists _, _, [(k, v)]. split; [reflexivity|]. split; [|exists [], []; auto]. apply fany_iff. cbn [fm_len fm_root length]. split; auto.
      exists 0, (BN [(k, v)] []). split; [now constructor|]. split; [|reflexivity]. constructor. cbn. unfold MAX_OCC. lia.
  Qed.
  Lemma f_remove_entry_any m l q : shows m l ->
    exists m' r l', f_remove_entry bor cmp small_key m q = Ok (m', r) /\ shows m' l' /\ any_remove bor cmp q l l' r.
  Proof.
    intros H. pose proof H as H0. rewrite fany_iff in H. destruct H as (L & R). unfold f_remove_entry. destruct (fm_root m) as [n|] eqn:Em; [|exists m, None, l; split; auto; split; auto; reflexivity].
    destruct R as (h & t & R & S & <-). destruct (fn_remove_any q h 1 n t) as (n' & o & t' & -> & R' & G & G2); auto; [unfold MIN_OCCUPANCY; lia|]. cbn [bind].
    pose proof (len_remove _ _ _ _ _ _ G) as Hl. destruct o as [[kv u]|]; cbn [option_map fst] in *.
    - rewrite usize_sub_ok by lia. cbn [bind].
      destruct (left_root (fun _ => tt) (fun _ _ => Lt) MIN min_pos h t' u G2 (sorted_any _)) as (r & Er & F' & S').
      assert (Ee : fn_is_empty n' = is_nil (elems_of t')).
      { unfold fn_is_empty. rewrite (repr_len _ _ R'). unfold n_len. now destruct (elems_of t'). }
      rewrite Ee. assert (X : exists r', (if u && is_nil (elems_of t') then fn_pop_child n' else Ok (Some n')) = Ok r'
                             /\ match r', r with Some a, Some b => repr a b | None, None => True | _, _ => False end).
      { destruct (u && is_nil (elems_of t')).
        - destruct (assert_ _); cbn [bind] in Er; [|discriminate]. injection Er as <-.
          destruct t' as [es ks], n' as [e d]. apply repr_iff in R' as [_ Rk]. cbn [kids_of]. unfold fn_pop_child. cbn [fn_kids].
          destruct d as [d|]; cbn in Rk.
          + destruct Rk as [Hn Rk]. destruct (exists_last Hn) as (ks' & c & ->).
            destruct (kd_pop_rep d ks' c Rk) as (nc & d' & -> & Rc & _). cbn [bind]. eexists. split; [reflexivity|].
            rewrite vec_pop_snoc. exact Rc.
          + subst ks. eexists. split; [reflexivity|]. exact Logic.I.
        - injection Er as <-. eexists. split; [reflexivity|]. auto. }
      destruct X as (r' & -> & X). cbn [bind]. eexists _, _, (flat t'). split; [reflexivity|]. split; auto. apply fany_iff. cbn [fm_len fm_root].
      split; [lia|]. destruct r' as [a|], r as [b|]; try contradiction; [|now rewrite <- F']. destruct S' as [h' S']. exists h', b. auto.
    - eexists _, _, (flat t'). split; [reflexivity|]. split; auto. apply fany_iff. cbn [fm_len fm_root]. split; [lia|]. eauto.
  Qed.
  Lemma f_remove_any m l q : shows m l ->
    exists m' r l', f_remove bor cmp small_key m q = Ok (m', r) /\ shows m' l' /\ any_remove_val bor cmp q l l' r.
  Proof.
    intros H. unfold f_remove. destruct (f_remove_entry_any m l q H) as (m' & r & l' & -> & H' & G). cbn [bind].
    exists m', (option_map snd r), l'. split; auto. split; auto. exists r. auto.
  Qed.
  Lemma f_extend_any ps : forall m l, shows m l ->
    exists m' l', f_extend bor cmp small_key m ps = Ok m' /\ shows m' l' /\ any_extend bor cmp ps l l'.
  Proof.
    induction ps as [|[k v] ps IH]; intros m l H; cbn [f_extend any_extend]; [eauto|].
    destruct (f_insert_any m l k v H) as (m1 & r & l1 & -> & H1 & A1). cbn [bind]. destruct (IH m1 l1 H1) as (m' & l' & E & H' & A'). exists m', l'. split; auto. split; auto. eauto.
  Qed.
End FixedAny.
