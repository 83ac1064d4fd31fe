(** The calls of the array-based B-tree map with any answers to the comparisons, which may change from one to the next and may panic. *)
From Coq Require Import List PeanoNat Bool Lia.
From Verif Require Import Base Spec SpecFacts Vec BTreeModel BTreeProofs BTreeProofs2 FixedModel FixedSpec FixedProofs FixedProofs2 FixedProofs3 FixedProofs4
  FixedShows AnyOrdSpec BTreeAnyProofs FixedAnyProofs FixedAskModel FixedAskProofs Ask AskSpec AskAnySpec AskAnyProofs.
Import ListNotations.
Local Open Scope nat_scope.

Section FixedAskAny.
  Context {K V Q : Type} (bor : K -> Q) (ask : nat -> Q -> Q -> option comparison) (small_key : bool).
  Notation bt := (bt K V).
  Notation fnode := (fnode K V).
  Notation entry := (K * V)%type.
  Notation MIN := MIN_OCCUPANCY.
  Notation flat := (@flat K V).
  Notation shape := (@shape K V MIN_OCCUPANCY).
  Notation arity := (@arity K V MIN_OCCUPANCY).
  Notation said := (said bor ask).
  Notation copes := (copes ask).
  Ltac wide := intros ? ?; apply said_mono; lia.

  (** ** Search *)
  Definition search_ok (n0 : nat) (q : Q) (es : list entry) (r : nat + nat) (n : nat) : Prop :=
    match r with inl i => exists e, nth_error es i = Some e /\ said n0 n q e | inr i => i <= length es end.
  Lemma search_wide n0 n1 q es r n : n0 <= n1 -> search_ok n1 q es r n -> search_ok n0 q es r n.
  Proof. destruct r; cbn; auto. intros L (e & E & T). exists e. split; auto. eapply said_mono; [| |exact T]; lia. Qed.
  Lemma lin_copes q (es : list entry) : forall j n0, copes n0 (lin_t bor ask q (map fst es) j n0)
    (fun _ r n => match r with
      | inl i => exists e, j <= i /\ nth_error es (i - j) = Some e /\ said n0 n q e
      | inr i => j <= i <= j + length es
      end) (fun _ => True).
  Proof.
    induction es as [|e es IH]; intros j n0; cbn [map lin_t length]; [apply copes_ret; lia|].
    apply copes_question; auto. intros c E. destruct c.
    - apply copes_ret; [lia|]. exists e. rewrite Nat.sub_diag. split; auto. split; auto. apply said_now; [lia|exact E].
    - apply copes_ret; lia.
    - eapply copes_weak; [apply (IH (S j))| |auto]. intros [] [i|i] n Hn G; [|lia].
      destruct G as (e' & L & E1 & T). exists e'. split; [lia|]. split; [|eapply said_mono; [| |exact T]; lia]. replace (i - j) with (S (i - S j)) by lia. exact E1.
  Qed.
  Lemma bin_copes q (es : list entry) : forall fuel l r n0, l <= r <= length es -> r - l <= fuel ->
    copes n0 (bin_t bor ask fuel q (map fst es) l r n0) (fun _ x n => search_ok n0 q es x n) (fun _ => True).
  Proof.
    induction fuel as [|fuel IH]; intros l r n0 Hr Hf; cbn [bin_t].
    - destruct (Nat.ltb_spec l r); [lia|]. apply copes_ret; [lia|]. cbn. lia.
    - destruct (Nat.ltb_spec l r) as [H|H]; [|apply copes_ret; [lia|]; cbn; lia].
      set (mid := l + Nat.div2 (r - l)). assert (Hm : l <= mid < r).
      { unfold mid. pose proof (Nat.div2_div (r - l)). pose proof (Nat.div_lt (r - l) 2 ltac:(lia) ltac:(lia)). lia. }
      cbv zeta. destruct (nth_error es mid) as [e|] eqn:E; [|apply nth_error_None in E; lia].
      rewrite nth_error_map, E. cbn [option_map]. apply copes_question; auto. intros c C. destruct c.
      + apply copes_ret; [lia|]. exists e. split; auto. apply said_now'; [lia|exact C].
      + eapply copes_weak; [apply (IH (mid + 1) r); lia| |auto]. intros [] x n Hn. apply search_wide. lia.
      + eapply copes_weak; [apply (IH l mid); lia| |auto]. intros [] x n Hn. apply search_wide. lia.
  Qed.
  Lemma search_copes q e es n0 : elems_are e es -> es <> [] ->
    copes n0 (search_t bor ask small_key q e n0) (fun _ r n => search_ok n0 q es r n) (fun _ => True).
  Proof.
    intros He Hn. destruct (el_live e es He Hn) as [E _]. unfold search_t. rewrite E. destruct small_key.
    - eapply copes_weak; [apply (lin_copes q es 0)| |auto]. intros [] [i|i] n L G; cbn.
      + destruct G as (e0 & _ & H & T). rewrite Nat.sub_0_r in H. eauto.
      + lia.
    - rewrite map_length. apply bin_copes; lia.
  Qed.
  Ltac searched He Hb := eapply copes_after; [eapply search_copes; [exact He|intros ->; cbn in Hb; lia]|auto|].

  (** ** Lookups *)
  Lemma fn_get_copes q h : forall mn x t n0, 1 <= mn -> shape mn h t -> repr x t ->
    copes n0 (fn_get_t bor ask small_key q x n0) (fun _ r n => match r with Some e => In e (flat t) /\ said n0 n q e | None => True end) (fun _ => True).
  Proof.
    pose proof min_pos as HN. induction h as [|h IH]; intros mn x t n0 Hm S R.
    - destruct (shape_0 _ _ _ S) as (es & -> & Hb). destruct x as [el d]. apply repr_iff in R as [He Hd].
      destruct d as [d|]; [destruct Hd; congruence|]. cbn [fn_get_t]. searched He Hb. intros [] [i|i] n Hn G; cbn [search_ok] in G.
      + destruct G as (e & E & T). rewrite (el_get_ok el _ _ e He E). apply copes_ret; [lia|]. rewrite flat_leaf. split; auto. eapply nth_error_In; eauto.
      + cbn [on_kids fchild]. now apply copes_ret.
    - destruct (shape_S _ _ _ _ S) as (es & ks & -> & Hb & Hk & HF).
      destruct x as [el d]. apply repr_iff in R as [He Hd].
      destruct d as [d|]; cbn in Hd; [|now subst]. destruct Hd as [_ Hd]. cbn [fn_get_t]. searched He Hb. intros [] [i|i] n Hn G; cbn [search_ok] in G.
      + destruct G as (e & E & T). rewrite (el_get_ok el _ _ e He E). apply copes_ret; [lia|]. split; auto.
        apply (in_weave es). eapply nth_error_In; eauto.
      + destruct (cut_at es ks i G Hk) as (es1 & es2 & ks1 & t & ks2 & -> & -> & L0 & L1 & L2).
        apply Forall_mid in HF as (_ & F & _).
        destruct (map_child (fn_get_t bor ask small_key q) d ks1 t ks2 i Hd) as (cn & -> & Rc & _); [lia|].
        eapply copes_weak; [apply (IH MIN cn t n HN F Rc)| |auto]. intros [] [e|] n' Hn' Gr; auto. destruct Gr as [Gr T]. split; [|eapply said_mono; [| |exact T]; lia].
        rewrite flat_branch by lia. apply in_or_app. right. apply in_or_app. now left.
  Qed.

  Lemma fn_get_mut_copes q w h : forall mn x t n0, 1 <= mn -> shape mn h t -> repr x t ->
    copes n0 (fn_get_mut_t bor ask small_key q w x n0)
      (fun x' r n => exists t', repr x' t' /\ shape mn h t' /\ may_get_mut (said n0 n) q w (flat t) (flat t') r) (fun x' => x' = x).
  Proof.
    pose proof min_pos as HN.
    assert (Set_ : forall (el : elems K V) es1 e es2, elems_are el (es1 ++ e :: es2) ->
      exists vs, live (el_vals el) (el_len el) = Ok vs /\ nth_error vs (length es1) = Some (snd e)
        /\ elems_are (Elems (el_keys el) (set_at (length es1) (Some (w (snd e))) (el_vals el)) (el_len el))
             (es1 ++ (fst e, w (snd e)) :: es2)).
    { intros el es1 e es2 He. destruct (el_live el _ He) as [_ E]; [now destruct es1|].
      eexists. split; [exact E|]. split.
      - rewrite nth_error_map, nth_mid by auto. reflexivity.
      - destruct He as (X1 & X2 & X3). split; [|split]; cbn [el_keys el_vals el_len].
        + rewrite map_app in *. exact X1.
        + rewrite map_app in *. cbn [map snd] in *. eapply set_arr; eauto. now rewrite map_length.
        + rewrite X3, !app_length. reflexivity. }
    induction h as [|h IH]; intros mn x t n0 Hm S R.
    - destruct (shape_0 _ _ _ S) as (es & -> & Hb). destruct x as [el d]. pose proof R as R0. apply repr_iff in R as [He Hd].
      destruct d as [d|]; [destruct Hd; congruence|]. cbn [fn_get_mut_t]. searched He Hb. intros [] [i|i] n Hn G; cbn [search_ok] in G.
      + destruct G as (e & E & T). destruct (nth_cut _ _ _ E) as (es1 & es2 & -> & <-). destruct (Set_ _ _ _ _ He) as (vs & -> & E1 & He'). cbn [bind]. rewrite E1. cbn [unwrap bind].
        apply copes_ret; [lia|]. exists (BN (es1 ++ (fst e, w (snd e)) :: es2) []). split; [apply repr_iff; split; [exact He'|reflexivity]|].
        split; [apply shape_iff; rewrite app_length in *; split; [exact Hb|reflexivity]|]. rewrite !flat_leaf. exists es1, e, es2. auto.
      + cbn [on_kids fchild]. apply copes_ret; [lia|]. exists (BN es []). split; auto. split; auto. reflexivity.
    - destruct (shape_S _ _ _ _ S) as (es & ks & -> & Hb & Hk & HF).
      destruct x as [el d]. apply repr_iff in R as [He Hd].
      destruct d as [d|]; cbn in Hd; [|now subst]. destruct Hd as [Hn Hd]. cbn [fn_get_mut_t]. searched He Hb. intros [] [i|i] n Hn' G; cbn [search_ok] in G.
      + destruct G as (e & E & T). destruct (cut_pivot es ks i e E Hk) as (es1 & es2 & ks1 & t & ks2 & -> & -> & <- & L1 & L2).
        destruct (Set_ _ _ _ _ He) as (vs & -> & E1 & He'). cbn [bind]. rewrite E1. cbn [unwrap bind].
        apply copes_ret; [lia|]. exists (BN (es1 ++ (fst e, w (snd e)) :: es2) (ks1 ++ t :: ks2)). split; [apply repr_iff; split; [exact He'|split; auto]|].
        split; [apply shape_iff; split; [rewrite app_length in *; auto|]; split; auto; rewrite !app_length in *; auto|].
        rewrite !flat_pivot by auto. exists (flat (BN es1 (ks1 ++ [t]))), e, (flat (BN es2 ks2)). auto.
      + destruct (cut_at es ks i G Hk) as (es1 & es2 & ks1 & t & ks2 & -> & -> & L0 & L1 & L2).
        apply Forall_mid in HF as (F1 & F & F2).
        destruct (map_child (fn_get_mut_t bor ask small_key q w) d ks1 t ks2 i Hd) as (cn & -> & Rc & Ek); [lia|].
        eapply copes_after; [apply (IH MIN cn t n HN F Rc)| |].
        { intros x' ->. now rewrite (fput_same _ _ _ Ek). }
        intros cn' r n' Hn2 (t' & Rc' & Sc & Gr). apply copes_ret; [lia|].
        destruct (fput_rep d ks1 t ks2 i cn' t' Hd) as (d1 & -> & Hd1); [lia|auto|].
        exists (BN (es1 ++ es2) (ks1 ++ t' :: ks2)). split; [apply repr_iff; split; auto; split; auto; now destruct ks1|].
        split; [apply shape_branch; auto; lia|]. rewrite !flat_branch by lia. apply get_mut_seg. eapply get_mut_mono; [|exact Gr]. wide.
  Qed.

  (** ** Insertion *)
  Definition ins_may (told : Q -> entry -> Prop) (mn h : nat) (k : K) (v : V) (l : list entry) (x' : fnode) (r : f_res K V) : Prop :=
    match r with
    | FAbsorbed => exists t', repr x' t' /\ shape mn h t' /\ may_insert bor told k v l (flat t') None
    | FReplaced k0 v0 => exists t', repr x' t' /\ shape mn h t' /\ may_insert bor told k v l (flat t') (Some v0)
    | FSplit (Some c) kv => exists lhs t', repr c lhs /\ repr x' t' /\ shape MIN h lhs /\ shape MIN h t'
                              /\ may_insert bor told k v l (flat lhs ++ kv :: flat t') None
    | FSplit None _ => False
    end.
  Lemma absorbed_may told mn h k v l l' x' r : absorbed mn h l' x' r -> may_insert bor told k v l l' None -> ins_may told mn h k v l x' r.
  Proof.
    intros A H. destruct r as [|k0 v0|[c|] kv]; cbn [absorbed ins_may] in *; try contradiction.
    - destruct A as (t' & A1 & A2 & <-). eauto.
    - destruct A as (lhs & t' & A1 & A2 & A3 & A4 & <-). exists lhs, t'. auto.
  Qed.

  Lemma fn_insert_copes k v h : forall mn x t n0, 1 <= mn -> shape mn h t -> repr x t ->
    copes n0 (fn_insert_t bor ask small_key (k, v) x n0) (fun x' r n => ins_may (said n0 n) mn h k v (flat t) x' r) (fun x' => x' = x).
  Proof.
    pose proof min_pos as HN. induction h as [|h IH]; intros mn x t n0 Hm S R.
    - destruct (shape_0 _ _ _ S) as (es & -> & Hb). destruct x as [el d]. pose proof R as R0. apply repr_iff in R as [He Hd].
      destruct d as [d|]; [destruct Hd; congruence|]. cbn [fn_insert_t fst]. searched He Hb. rewrite flat_leaf. intros [] [i|i] n Hn G; cbn [search_ok] in G.
      + destruct G as (e & E & T). destruct (nth_cut _ _ _ E) as (es1 & es2 & -> & <-).
        destruct (el_replace_ok el es1 es2 e (k, v) _ He eq_refl) as (el' & -> & He'). cbn [bind]. apply copes_plain; [lia|].
        eexists _, _. split; [reflexivity|]. exists (BN (es1 ++ (k, v) :: es2) []). split; [apply repr_iff; split; [auto|reflexivity]|]. split.
        * apply shape_iff. rewrite app_length in *. split; [exact Hb|reflexivity].
        * rewrite flat_leaf. exists es1, e, es2. auto.
      + cbn [on_kids fchild after]. apply copes_plain; [lia|].
        assert (Es : es = firstn i es ++ skipn i es) by (symmetry; apply firstn_skipn). set (es1 := firstn i es) in *. set (es2 := skipn i es) in *.
        assert (L1 : length es1 = i) by (unfold es1; rewrite firstn_length; lia).
        destruct (f_absorb_any mn 0 (FNode el None) es1 es2 [] [] [] None (k, v) i) as (n' & r & E & A); auto.
        { cbn [app]. now rewrite <- Es. } { rewrite <- Es. exact Hb. }
        exists n', r. split; auto. apply (absorbed_may _ _ _ _ _ _ _ _ _ A). cbn [app]. rewrite flat_leaf. exists es1, es2. auto.
    - destruct (shape_S _ _ _ _ S) as (es & ks & -> & Hb & Hk & HF).
      destruct x as [el d]. apply repr_iff in R as [He Hd].
      destruct d as [d|]; cbn in Hd; [|now subst]. destruct Hd as [Hn Hd]. cbn [fn_insert_t fst]. searched He Hb. intros [] [i|i] n Hn' G; cbn [search_ok] in G.
      + destruct G as (e & E & T). destruct (cut_pivot es ks i e E Hk) as (es1 & es2 & ks1 & t & ks2 & -> & -> & <- & L1 & L2).
        destruct (el_replace_ok el es1 es2 e (k, v) _ He eq_refl) as (el' & -> & He'). cbn [bind]. apply copes_plain; [lia|].
        eexists _, _. split; [reflexivity|]. exists (BN (es1 ++ (k, v) :: es2) (ks1 ++ t :: ks2)).
        split; [apply repr_iff; split; [auto|split; auto]|]. split.
        * apply shape_iff. split; [rewrite app_length in *; auto|]. split; auto. rewrite !app_length in *. auto.
        * rewrite !flat_pivot by auto. exists (flat (BN es1 (ks1 ++ [t]))), e, (flat (BN es2 ks2)). auto.
      + destruct (cut_at es ks i G Hk) as (es1 & es2 & ks1 & t & ks2 & -> & -> & L0 & L1 & L2).
        apply Forall_mid in HF as (F1 & F & F2).
        destruct (map_child (fn_insert_t bor ask small_key (k, v)) d ks1 t ks2 i Hd) as (cn & -> & Rc & Ek); [lia|].
        eapply copes_after with (ok1 := fun x1 r n' => exists cn', x1 = FNode el (fput (Some d) i cn') /\ ins_may (said n n') MIN h k v (flat t) cn' r) (un1 := fun x1 => x1 = FNode el (Some d)).
        { eapply copes_after; [apply (IH MIN cn t n HN F Rc)| |].
          - intros x' ->. now rewrite (fput_same _ _ _ Ek).
          - intros cn' r n' Hn2 Gr. apply copes_ret; [lia|]. eauto. }
        { auto. }
        intros x1 r n' Hn2 (cn' & -> & Gr). apply copes_plain; [lia|].
        assert (W : forall q (e : entry), said n n' q e -> said n0 n' q e) by wide.
        assert (Hput : forall t', repr cn' t' -> repr (FNode el (fput (Some d) i cn')) (BN (es1 ++ es2) (ks1 ++ t' :: ks2))).
        { intros t' Rt. destruct (fput_rep d ks1 t ks2 i cn' t' Hd) as (d1 & -> & Hd1); [lia|auto|].
          apply repr_iff. split; auto. split; auto. now destruct ks1. }
        rewrite flat_branch by lia.
        assert (Keep : forall t', shape MIN h t' -> shape mn (Datatypes.S h) (BN (es1 ++ es2) (ks1 ++ t' :: ks2))) by (intros t' St; apply shape_branch; auto; lia).
        destruct r as [|k0 v0|[c0|] kv1]; cbn [ins_may] in Gr.
        * destruct Gr as (t' & G2 & G3 & G4). eexists _, _. split; [reflexivity|]. exists (BN (es1 ++ es2) (ks1 ++ t' :: ks2)). split; auto. split; auto.
          rewrite flat_branch by lia. now apply insert_seg.
        * destruct Gr as (t' & G2 & G3 & G4). eexists _, _. split; [reflexivity|]. exists (BN (es1 ++ es2) (ks1 ++ t' :: ks2)). split; auto. split; auto.
          rewrite flat_branch by lia. apply insert_seg. eapply insert_mono; eauto.
        * destruct Gr as (lhs & t' & G2 & G3 & G4 & G5 & G6).
          destruct (f_absorb_any mn (Datatypes.S h) (FNode el (fput (Some d) i cn')) es1 es2 ks1 (t' :: ks2) [lhs] (Some c0) kv1 i) as (n2 & r & E & A); auto.
          { exists c0, lhs. cbn [length]. repeat split; auto; lia. }
          { cbn [app]. split; [rewrite !app_length in *; cbn [length] in *; lia|]. apply Forall_app. repeat constructor; auto. }
          exists n2, r. split; auto. apply (absorbed_may _ _ _ _ _ _ _ _ _ A). cbn [app].
          rewrite (flat_pivot es1 kv1 es2 ks1 lhs (t' :: ks2)) by lia.
          replace es1 with (es1 ++ []) at 2 by apply app_nil_r.
          rewrite (flat_branch es1 [] ks1 lhs []) by (cbn; lia).
          replace (BN es2 (t' :: ks2)) with (BN ([] ++ es2) ([] ++ t' :: ks2)) by reflexivity.
          rewrite (flat_branch [] es2 [] t' ks2) by (cbn; lia). cbn [map].
          rewrite zipl_nil, zipr_nil, app_nil_r. cbn [app].
          match goal with |- may_insert _ _ _ _ _ ?x _ => replace x with (zipl (map flat ks1) es1 ++ (flat lhs ++ kv1 :: flat t') ++ zipr es2 (map flat ks2)) end.
          { now apply insert_seg. } now rewrite <- !app_assoc.
        * destruct Gr.
  Qed.

  (** ** Removal *)
  Definition rem_may (told : Q -> entry -> Prop) (mn h : nat) (q : Q) (l : list entry) (t' : bt) (o : option (entry * bool)) : Prop :=
    may_remove told q l (flat t') (option_map fst o)
    /\ match o with Some (_, u) => left_ok MIN mn h t' u | None => shape mn h t' end.
  Lemma fn_remove_copes q h : forall mn x t n0, 1 <= mn <= MIN -> shape mn h t -> repr x t ->
    copes n0 (fn_remove_t bor ask small_key q x n0) (fun x' o n => exists t', repr x' t' /\ rem_may (said n0 n) mn h q (flat t) t' o) (fun x' => x' = x).
  Proof.
    pose proof min_pos as HN. induction h as [|h IH]; intros mn x t n0 Hm S R.
    - destruct (shape_0 _ _ _ S) as (es & -> & Hb). destruct x as [el d]. pose proof R as R0. apply repr_iff in R as [He Hd].
      destruct d as [d|]; [destruct Hd; congruence|]. cbn [fn_remove_t]. searched He Hb. rewrite flat_leaf. intros [] [i|i] n Hn G; cbn [search_ok] in G.
      + destruct G as (e & E & T). destruct (nth_cut _ _ _ E) as (es1 & es2 & -> & <-).
        destruct (el_remove_ok el es1 es2 e _ He eq_refl) as (el' & -> & He'). cbn [bind]. pose proof (proj2 (proj2 He')) as X3. rewrite X3. apply copes_ret; [lia|].
        exists (BN (es1 ++ es2) []). split; [apply repr_iff; split; [auto|reflexivity]|]. split.
        * cbn [option_map fst]. rewrite flat_leaf. exists es1, es2. auto.
        * apply (leaf_left MIN HN mn (es1 ++ e :: es2)); auto. rewrite !app_length. cbn. lia.
      + cbn [on_kids fchild]. apply copes_ret; [lia|]. exists (BN es []). split; auto. split; auto. apply flat_leaf.
    - destruct (shape_S _ _ _ _ S) as (es & ks & -> & Hb & Hk & HF).
      destruct x as [el d]. apply repr_iff in R as [He Hd].
      destruct d as [d|]; cbn in Hd; [|now subst]. destruct Hd as [_ Hd]. cbn [fn_remove_t]. searched He Hb. intros [] [i|i] n Hn G; cbn [search_ok] in G.
      + destruct G as (e & E & T). destruct (cut_pivot es ks i e E Hk) as (es1 & es2 & ks1 & t & ks2 & -> & -> & Li & L1 & L2).
        apply Forall_mid in HF as (F1 & F & F2). apply copes_plain; [lia|].
        destruct (n_pop_last_ok MIN HN MIN h t) as (c' & e' & u & E' & Gp & Fp); [lia|auto|].
        destruct (map_child fn_pop_greatest d ks1 t ks2 i Hd) as (cn & -> & Rc & _); [lia|]. cbn [bind unwrap].
        destruct (pop_sim h MIN cn t ltac:(lia) F Rc _ _ _ E') as (cn' & -> & Rc'). cbn [bind].
        destruct (el_replace_ok el es1 es2 e e' i He) as (el' & -> & He'); auto. cbn [bind].
        destruct (fput_rep d ks1 t ks2 i cn' c' Hd) as (d1 & -> & Hd1); [lia|auto|]. cbv zeta.
        assert (R1 : repr (FNode el' (Some d1)) (BN (es1 ++ e' :: es2) (ks1 ++ c' :: ks2))).
        { apply repr_iff. split; auto. split; auto. now destruct ks1. }
        assert (Hfl : may_remove (said n0 n) q (flat (BN (es1 ++ e :: es2) (ks1 ++ t :: ks2))) (flat (BN (es1 ++ e' :: es2) (ks1 ++ c' :: ks2))) (Some e)).
        { rewrite !flat_pivot by lia. exists (flat (BN es1 (ks1 ++ [t]))), (flat (BN es2 ks2)). split; auto. split; auto.
          replace es1 with (es1 ++ []) by apply app_nil_r. rewrite !(flat_branch es1 [] ks1 _ []) by (cbn; lia). rewrite Fp. cbn [map].
          rewrite zipr_nil, !app_nil_r, <- !app_assoc. reflexivity. }
        assert (B' : mn <= length (es1 ++ e' :: es2) <= MAX_OCC MIN) by (rewrite app_length in *; exact Hb).
        destruct u.
        * destruct (kid_fixed MIN HN mn h es1 (e' :: es2) ks1 c' ks2 i) as (t2 & u2 & Er & Lk & Fr); auto; try lia.
          subst i. destruct (rebal_sim h _ es1 (e' :: es2) ks1 c' ks2 t2 u2 R1) as (n' & E2 & R2); auto; try lia.
          rewrite E2. cbn [bind]. eexists _, _. split; [reflexivity|]. exists t2. split; auto. split; auto. cbn [option_map fst]. now rewrite Fr.
        * eexists _, _. split; [reflexivity|]. eexists. split; [exact R1|]. split; auto. apply (kid_kept MIN HN mn h es1 (e' :: es2) ks1 c' ks2); auto; try lia.
      + destruct (cut_at es ks i G Hk) as (es1 & es2 & ks1 & t & ks2 & -> & -> & L0 & L1 & L2).
        apply Forall_mid in HF as (F1 & F & F2).
        destruct (map_child (fn_remove_t bor ask small_key q) d ks1 t ks2 i Hd) as (cn & -> & Rc & Ek); [lia|].
        eapply copes_after; [apply (IH MIN cn t n ltac:(lia) F Rc)| |].
        { intros x' ->. now rewrite (fput_same _ _ _ Ek). }
        intros cn' o n' Hn2 (c' & Rc' & Gr & Gs). apply copes_plain; [lia|]. cbv zeta.
        destruct (fput_rep d ks1 t ks2 i cn' c' Hd) as (d1 & -> & Hd1); [lia|auto|].
        assert (R1 : repr (FNode el (Some d1)) (BN (es1 ++ es2) (ks1 ++ c' :: ks2))).
        { apply repr_iff. split; auto. split; auto. now destruct ks1. }
        assert (Hfl : may_remove (said n0 n') q (flat (BN (es1 ++ es2) (ks1 ++ t :: ks2))) (flat (BN (es1 ++ es2) (ks1 ++ c' :: ks2))) (option_map fst o)).
        { rewrite !flat_branch by lia. apply remove_seg. eapply remove_mono; [|exact Gr]. wide. }
        destruct o as [[kv [|]]|].
        * destruct (kid_fixed MIN HN mn h es1 es2 ks1 c' ks2 i) as (t2 & u2 & Er & Lk & Fr); auto; try lia.
          subst i. destruct (rebal_sim h _ es1 es2 ks1 c' ks2 t2 u2 R1) as (n2 & E2 & R2); auto; try lia.
          rewrite E2. cbn [bind]. eexists _, _. split; [reflexivity|]. exists t2. split; auto. split; auto. cbn [option_map fst] in *. now rewrite Fr.
        * eexists _, _. split; [reflexivity|]. eexists. split; [exact R1|]. split; auto. apply (kid_kept MIN HN mn h es1 es2 ks1 c' ks2); auto; try lia.
        * eexists _, _. split; [reflexivity|]. eexists. split; [exact R1|]. split; auto. apply shape_branch; auto; lia.
  Qed.

  (** ** Maps *)
  Notation shows := (@f_any K V).
  Lemma f_get_copes m l q n0 : shows m l -> copes n0 (f_get_t bor ask small_key m q n0) (fun _ r n => may_get (said n0 n) q l r) (fun _ => True).
  Proof.
    rewrite fany_iff. intros (L & R). unfold f_get_t. destruct (fm_root m) as [x|]; [|now apply copes_ret].
    destruct R as (h & t & R & S & <-). eapply copes_after; [apply (fn_get_copes q h 1 x t n0 (le_n 1) S R)|auto|]. intros [] o n Hn G. apply copes_ret; [lia|].
    destruct o as [e|]; cbn; auto. exists e. tauto.
  Qed.
  Lemma f_get_mut_copes m l q w n0 : shows m l ->
    copes n0 (f_get_mut_t bor ask small_key m q w n0) (fun m' r n => exists l', shows m' l' /\ may_get_mut (said n0 n) q w l l' r) (fun m' => m' = m).
  Proof.
    intros H. pose proof H as H0. rewrite fany_iff in H. destruct H as (L & R). unfold f_get_mut_t.
    destruct (fm_root m) as [x|] eqn:Em; [|apply copes_ret; [lia|]; exists l; split; auto; reflexivity].
    destruct R as (h & t & R & S & <-). eapply copes_after; [apply (fn_get_mut_copes q w h 1 x t n0 (le_n 1) S R)| |].
    - intros x' ->. destruct m. cbn in *. congruence.
    - intros x' r n Hn (t' & R' & S' & G). apply copes_ret; [lia|]. exists (flat t'). split; auto. apply fany_iff. cbn [fm_len fm_root]. split; eauto. rewrite L.
      symmetry. eapply len_get_mut; eauto.
  Qed.
  Lemma f_insert_copes m l k v n0 : shows m l ->
    copes n0 (f_insert_t bor ask small_key m k v n0) (fun m' r n => exists l', shows m' l' /\ may_insert bor (said n0 n) k v l l' r) (fun m' => m' = m).
  Proof.
    rewrite fany_iff. intros (L & R). unfold f_insert_t. destruct (fm_root m) as [x|] eqn:Em.
    - destruct R as (h & t & R & S & <-). eapply copes_after; [apply (fn_insert_copes k v h 1 x t n0 (le_n 1) S R)| |].
      { intros x' ->. destruct m. cbn in *. congruence. }
      intros x' r n Hn G. apply copes_plain; [lia|].
      destruct r as [|k0 v0|[c|] kv]; cbn [ins_may] in G.
      + destruct G as (t' & R' & S' & G). eexists _, _. split; [reflexivity|]. exists (flat t'). split; [|exact G]. apply fany_iff. cbn [fm_len fm_root]. split; eauto.
        rewrite (len_insert _ _ _ _ _ _ _ G). lia.
      + destruct G as (t' & R' & S' & G). eexists _, _. split; [reflexivity|]. exists (flat t'). split; [|exact G]. apply fany_iff. cbn [fm_len fm_root]. split; eauto.
        rewrite (len_insert _ _ _ _ _ _ _ G). lia.
      + destruct G as (lhs & t' & Rc & R' & Sl & S' & G). cbn [unwrap bind]. unfold fn_branch.
        destruct (el_push_ok el_new [] kv el_new_ok) as (e & -> & He); [cbn; unfold MAX_OCCUPANCY, max_occupancy; lia|]. cbn [bind].
        destruct (kd_push_rep kd_new [] c lhs kd_new_rep) as (d1 & -> & Hd1); [cbn; unfold MAX_KIDS, MAX_OCCUPANCY, max_occupancy; lia|exact Rc|]. cbn [bind app] in *.
        destruct (kd_push_rep d1 [lhs] x' t' Hd1) as (d2 & -> & Hd2); [cbn; unfold MAX_KIDS, MAX_OCCUPANCY, max_occupancy, MIN_OCCUPANCY; lia|exact R'|]. cbn [bind app] in *.
        eexists _, _. split; [reflexivity|]. exists (flat lhs ++ kv :: flat t'). split; [|exact G]. apply fany_iff. cbn [fm_len fm_root]. split; [rewrite (len_insert _ _ _ _ _ _ _ G); lia|].
        exists (Datatypes.S h), (BN [kv] [lhs; t']). split; [apply repr_iff; split; auto; split; [discriminate|auto]|]. split; [|cbn; now rewrite app_nil_r].
        constructor; auto. cbn. unfold MAX_OCC, MIN_OCCUPANCY. lia.
      + destruct G.
    - subst l. unfold fn_leaf. apply copes_plain; [lia|].
      destruct (el_push_ok el_new [] (k, v) el_new_ok) as (e & -> & He); [cbn; unfold MAX_OCCUPANCY, max_occupancy; lia|].
      cbn [bind app] in *. eexists _, _. split; [reflexivity|]. exists [(k, v)]. split; [|exists [], []; auto]. apply fany_iff. cbn [fm_len fm_root length]. split; auto.
      exists 0, (BN [(k, v)] []). split; [now constructor|]. split; [|reflexivity]. constructor. cbn. unfold MAX_OCC. lia.
  Qed.
  Lemma f_remove_copes m l q n0 : shows m l ->
    copes n0 (f_remove_t bor ask small_key m q n0) (fun m' r n => exists l', shows m' l' /\ may_remove_val (said n0 n) q l l' r) (fun m' => m' = m).
  Proof.
    intros H. pose proof H as H0. rewrite fany_iff in H. destruct H as (L & R). unfold f_remove_t.
    destruct (fm_root m) as [x|] eqn:Em; [|apply copes_ret; [lia|]; exists l; split; auto; exists None; split; reflexivity].
    destruct R as (h & t & R & S & <-). eapply copes_after; [apply (fn_remove_copes q h 1 x t n0); auto; unfold MIN_OCCUPANCY; lia| |].
    { intros x' ->. destruct m. cbn in *. congruence. }
    intros n' o n Hn (t' & R' & G & G2). apply copes_plain; [lia|].
    pose proof (len_remove _ _ _ _ _ G) as Hl. destruct o as [[kv u]|]; cbn [option_map fst] in *.
    - rewrite usize_sub_ok by lia. cbn [bind].
      destruct (left_root (fun _ => tt) (fun _ _ => Lt) MIN min_pos h t' u G2 (sorted_any _)) as (r & Er & F' & S').
      assert (Ee : fn_is_empty n' = is_nil (elems_of t')).
      { unfold fn_is_empty. rewrite (repr_len _ _ R'). unfold n_len. now destruct (elems_of t'). }
      rewrite Ee. assert (X : exists r', (if u && is_nil (elems_of t') then fn_pop_child n' else Ok (Some n')) = Ok r'
                             /\ match r', r with Some a, Some b => repr a b | None, None => True | _, _ => False end).
      { destruct (u && is_nil (elems_of t')).
        - destruct (assert_ _); cbn [bind] in Er; [|discriminate]. injection Er as <-.
          destruct t' as [es ks], n' as [e d]. apply repr_iff in R' as [_ Rk]. cbn [kids_of]. unfold fn_pop_child. cbn [fn_kids].
          destruct d as [d|]; cbn in Rk.
          + destruct Rk as [Hnk Rk]. destruct (exists_last Hnk) as (ks' & c & ->).
            destruct (kd_pop_rep d ks' c Rk) as (nc & d' & -> & Rc & _). cbn [bind]. eexists. split; [reflexivity|].
            rewrite vec_pop_snoc. exact Rc.
          + subst ks. eexists. split; [reflexivity|]. exact Logic.I.
        - injection Er as <-. eexists. split; [reflexivity|]. auto. }
      destruct X as (r' & -> & X). cbn [bind]. eexists _, _. split; [reflexivity|]. exists (flat t'). split; [|exists (Some kv); auto]. apply fany_iff. cbn [fm_len fm_root].
      split; [lia|]. destruct r' as [a|], r as [b|]; try contradiction; [|now rewrite <- F']. destruct S' as [h' S']. exists h', b. auto.
    - eexists _, None. split; [reflexivity|]. exists (flat t'). split; [|exists None; auto]. apply fany_iff. cbn [fm_len fm_root]. split; [lia|]. eauto.
  Qed.
End FixedAskAny.
