(** Every history of calls on AVL maps agrees with the specification. *)
From Coq Require Import List ZArith Bool Lia Sorted.
From Verif Require Import Base Spec MapSpec SpecFacts AvlModel AvlProofs AvlProofs2 AvlMapProofs
  AvlIterModel AvlIterProofs AvlHistModel.
Import ListNotations.

Section UnionFacts.
  Context {K V Q : Type} (bor : K -> Q) (cmp : Q -> Q -> comparison) (laws : order_laws cmp).
  Notation asc := (@ascending K V Q bor cmp).
  Notation fnd := (@s_find K V Q bor cmp).
  Notation key e := (bor (fst e)).

  Lemma find_extend q r : forall l, asc l -> asc r ->
    fnd q (s_extend bor cmp l r) = match fnd q r with Some e => Some e | None => fnd q l end.
  Proof.
    induction r as [|[k v] r IH]; intros l Al Ar; auto.
    apply (asc_cons_iff bor cmp) in Ar as [Ar Ha]. cbn [s_extend fold_left fst snd].
    fold (s_extend bor cmp (s_insert bor cmp k v l) r).
    rewrite IH by (auto using asc_insert).
    rewrite (find_insert bor cmp laws) by auto. unfold s_find. cbn [find].
    destruct (eq_q bor cmp q (k, v)) eqn:E.
    - apply eqq_iff in E. cbn [fst] in E.
      rewrite find_none_all.
      + now rewrite (cmp_eq_sym laws _ _ E).
      + intros x Hx. specialize (Ha x Hx). cbn [fst] in Ha.
        rewrite (cmp_eq_l _ laws _ _ (key x) E) in Ha. unfold eq_q.
        apply (cmp_lt_gt laws) in Ha. now rewrite Ha.
    - unfold eq_q in E. cbn [fst] in E. rewrite (cmp_opp _ laws q (bor k)) in E.
      destruct (cmp q (bor k)); [discriminate| |]; reflexivity.
  Qed.

  Lemma asc_union l r : asc l -> asc r -> asc (s_union bor cmp l r).
  Proof. intros Hl Hr. unfold s_union. now apply asc_extend. Qed.

  Lemma asc_symdiff l r : asc l -> asc r -> asc (s_symdiff bor cmp l r).
  Proof.
    intros Hl Hr. unfold s_symdiff. apply asc_extend; auto; now apply asc_filter.
  Qed.

  Lemma find_diff q l r : asc l ->
    fnd q (s_diff bor cmp l r) =
    match fnd q r with Some _ => None | None => fnd q l end.
  Proof.
    intros A. unfold s_diff. rewrite (find_filter_mem bor cmp laws); auto.
    - destruct (fnd q l) as [e|] eqn:E; [|now destruct (fnd q r)].
      rewrite (mem_eq_q bor cmp laws _ q) by (now apply fnd_key_eq in E).
      rewrite mem_find. now destruct (fnd q r).
    - intros a b Hab. now rewrite (mem_eq_q bor cmp laws _ _ r Hab).
  Qed.

  Lemma find_symdiff q l r : asc l -> asc r ->
    fnd q (s_symdiff bor cmp l r) =
    match fnd q l, fnd q r with
    | Some e, None => Some e
    | None, Some e => Some e
    | _, _ => None
    end.
  Proof.
    intros Al Ar. unfold s_symdiff.
    rewrite find_extend by (apply asc_filter; auto).
    rewrite !find_diff by auto. now destruct (fnd q l), (fnd q r).
  Qed.
End UnionFacts.

Section HistProofs.
  Context {K V Q : Type} (bor : K -> Q) (cmp : Q -> Q -> comparison) (laws : order_laws cmp).
  Context (keq : K -> K -> bool) (veq : V -> V -> bool).
  Context (kcmp : K -> K -> comparison) (vcmp : V -> V -> comparison).
  Notation amap := (avl_map K V).
  Notation valid := (@valid K V Q bor cmp).
  Notation asc := (@ascending K V Q bor cmp).
  Notation fnd := (@s_find K V Q bor cmp).

  Lemma small_fits2 (a b : list (K * V)) : small a -> small b -> fits (a ++ b).
  Proof. unfold small, fits. intros Ha Hb. rewrite app_length. lia. Qed.
  Lemma small_fits (a : list (K * V)) : small a -> fits a.
  Proof. unfold small, fits. lia. Qed.

  Lemma union_contents a b m : valid a -> valid b -> valid m ->
    (forall q, fnd q (contents m) =
       match fnd q (contents b) with Some e => Some e | None => fnd q (contents a) end) ->
    contents m = s_union bor cmp (contents a) (contents b).
  Proof.
    intros Ha Hb Hm E. apply (asc_find_ext bor cmp laws).
    - now apply valid_asc.
    - apply asc_union; auto; now apply valid_asc.
    - intros q. rewrite E. unfold s_union.
      rewrite (find_extend bor cmp laws); auto; now apply valid_asc.
  Qed.

  Lemma new_union_list a b : valid a -> valid b -> fits (contents a ++ contents b) ->
    exists m, avl_new_union bor cmp a b = Ok m /\ valid m
      /\ contents m = s_union bor cmp (contents a) (contents b).
  Proof.
    intros Ha Hb F. destruct (new_union_spec bor cmp laws a b Ha Hb F) as (m & E & Hv & Hq).
    exists m. repeat split; auto; try apply Hv. now apply union_contents.
  Qed.

  Lemma append_list a b : valid a -> valid b -> fits (contents a ++ contents b) ->
    exists a' b', avl_append bor cmp a b = Ok (a', b') /\ valid a' /\ valid b'
      /\ contents a' = s_union bor cmp (contents a) (contents b) /\ contents b' = [].
  Proof.
    intros Ha Hb F. destruct (append_spec bor cmp laws a b Ha Hb F) as (a' & b' & E & Hv & Hv' & Hc & Hq).
    exists a', b'. repeat split; auto; try apply Hv; try apply Hv'. now apply union_contents.
  Qed.

  Lemma new_sym_diff_list a b : valid a -> valid b -> fits (contents a ++ contents b) ->
    exists m, avl_new_sym_diff bor cmp a b = Ok m /\ valid m
      /\ contents m = s_symdiff bor cmp (contents a) (contents b).
  Proof.
    intros Ha Hb F. destruct (new_sym_diff_spec bor cmp laws a b Ha Hb F) as (m & E & Hv & Hq).
    exists m. repeat split; auto; try apply Hv. apply (asc_find_ext bor cmp laws).
    - now apply valid_asc.
    - apply asc_symdiff; auto; now apply valid_asc.
    - intros q. rewrite Hq. rewrite (find_symdiff bor cmp laws); auto; now apply valid_asc.
  Qed.

  (** *** Entry *)
  Lemma and_modify_spec m k f : valid m ->
    valid (entry_and_modify bor cmp m k f)
    /\ contents (entry_and_modify bor cmp m k f) = s_update bor cmp (bor k) f (contents m).
  Proof.
    intros Hv. unfold entry_and_modify. pose proof (get_mut_spec bor cmp laws m (bor k) f Hv) as H.
    destruct (avl_get_mut bor cmp m (bor k) f) as [m' o]. cbn [fst]. split; apply H.
  Qed.

  Lemma update_insert k v w (l : list (K * V)) :
    s_update bor cmp (bor k) w (s_insert bor cmp k v l) = s_insert bor cmp k (w v) l.
  Proof.
    unfold s_update, s_insert. rewrite map_app. cbn [map].
    unfold eq_q at 2. cbn [fst snd]. rewrite (cmp_refl laws). f_equal; [|f_equal].
    - rewrite <- (map_id (filter _ l)) at 2. apply map_ext_in. intros e He.
      apply filter_In in He as [_ He]. apply ltq_iff in He. unfold eq_q. now rewrite He.
    - rewrite <- (map_id (filter _ l)) at 2. apply map_ext_in. intros e He.
      apply filter_In in He as [_ He]. apply gtq_iff in He. unfold eq_q. now rewrite He.
  Qed.

  Lemma or_insert_with_spec {S} m k (f : S -> S * V) s w : valid m -> fits (contents m) ->
    exists m',
      entry_or_insert_with bor cmp m k f s w =
        Ok (match s_get bor cmp (bor k) (contents m) with
            | Some v => (m', s, v)
            | None => (m', fst (f s), snd (f s))
            end)
      /\ valid m'
      /\ contents m' = match s_get bor cmp (bor k) (contents m) with
                       | Some _ => s_update bor cmp (bor k) w (contents m)
                       | None => s_insert bor cmp k (w (snd (f s))) (contents m)
                       end.
  Proof.
    intros Hv F. unfold entry_or_insert_with. rewrite contains_key_spec by auto.
    rewrite mem_find. unfold s_get.
    destruct (fnd (bor k) (contents m)) as [[k0 v0]|] eqn:E; cbn [negb bind option_map snd].
    - pose proof (get_mut_spec bor cmp laws m (bor k) w Hv) as H.
      destruct (avl_get_mut bor cmp m (bor k) w) as [m2 o]. destruct H as (H1 & H2 & H3).
      unfold s_get in H3. rewrite E in H3. cbn [option_map snd] in H3. subst o. cbn [unwrap bind].
      exists m2. auto.
    - destruct (f s) as [s1 v]. cbn [fst snd].
      destruct (insert_spec bor cmp laws m k v Hv F) as (m1 & E1 & Hv1 & Hc1). rewrite E1. cbn [bind].
      pose proof (get_mut_spec bor cmp laws m1 (bor k) w Hv1) as H.
      destruct (avl_get_mut bor cmp m1 (bor k) w) as [m2 o]. destruct H as (H1 & H2 & H3).
      unfold s_get in H3. rewrite Hc1, (find_insert bor cmp laws) in H3 by (now apply valid_asc).
      rewrite (cmp_refl laws) in H3. cbn [option_map snd] in H3. subst o. cbn [unwrap bind].
      exists m2. split; auto. split; auto. rewrite H2, Hc1. apply update_insert.
  Qed.

  Lemma or_insert_spec m k v w : valid m -> fits (contents m) ->
    exists m',
      entry_or_insert bor cmp m k v w =
        Ok (m', match s_get bor cmp (bor k) (contents m) with Some x => x | None => v end)
      /\ valid m'
      /\ contents m' = match s_get bor cmp (bor k) (contents m) with
                       | Some _ => s_update bor cmp (bor k) w (contents m)
                       | None => s_insert bor cmp k (w v) (contents m)
                       end.
  Proof.
    intros Hv F.
    destruct (or_insert_with_spec m k (fun s : unit => (s, v)) tt w Hv F) as (m' & E & Hv' & Hc).
    exists m'. unfold entry_or_insert. rewrite E.
    destruct (s_get bor cmp (bor k) (contents m)); cbn [bind fst snd] in *; auto.
  Qed.

  (** *** Histories *)
  Definition rel (m : amap) (l : list (K * V)) : Prop := valid m /\ contents m = l.
  Definition rels (st : list amap) (sst : list (list (K * V))) : Prop := Forall2 rel st sst.

  Lemma rels_nth st sst h : rels st sst ->
    match nth_error st h, nth_error sst h with
    | Some m, Some l => rel m l
    | None, None => True
    | _, _ => False
    end.
  Proof.
    intros H. revert h. induction H as [|m l st sst Hm H IH]; intros [|h]; cbn; auto. apply IH.
  Qed.

  Lemma rels_set st sst h m l : rels st sst -> rel m l -> rels (set_nth h m st) (set_nth h l sst).
  Proof.
    intros H Hm. revert h. induction H as [|m0 l0 st sst H0 H IH]; intros [|h]; cbn; try constructor; auto.
    apply IH.
  Qed.
  Lemma rels_snoc st sst m l : rels st sst -> rel m l -> rels (st ++ [m]) (sst ++ [l]).
  Proof. intros H Hm. apply Forall2_app; auto. Qed.

  Lemma small_nth sst h (l : list (K * V)) : Forall small sst -> nth_error sst h = Some l -> small l.
  Proof. intros H E. apply nth_error_In in E. rewrite Forall_forall in H. auto. Qed.

  Notation step := (@step K V Q bor cmp keq veq kcmp vcmp).
  Notation s_step := (@s_step K V Q bor cmp keq veq kcmp vcmp).

  Lemma step_ok st sst o : rels st sst -> Forall small sst -> op_small o ->
    exists st', step st o = Ok (st', snd (s_step sst o)) /\ rels st' (fst (s_step sst o)).
  Proof.
    intros R Sm So.
    assert (on1_ok : forall h (f : amap -> res (list amap * obs K V)) (g : list (K * V) -> list (list (K * V)) * obs K V),
      (forall m, nth_error st h = Some m -> valid m -> small (contents m) ->
         exists st', f m = Ok (st', snd (g (contents m))) /\ rels st' (fst (g (contents m)))) ->
      exists st', on st h f = Ok (st', snd (match nth_error sst h with Some m => g m | None => (sst, RUnit) end))
        /\ rels st' (fst (match nth_error sst h with Some m => g m | None => (sst, RUnit) end))).
    { intros h f g Hf. unfold on. pose proof (rels_nth st sst h R) as Hn.
      destruct (nth_error st h) as [m|] eqn:E1, (nth_error sst h) as [l|] eqn:E2; try contradiction.
      - destruct Hn as [Hv <-]. apply Hf; auto. eapply small_nth; eauto.
      - exists st. auto. }
    assert (on2_ok : forall h1 h2 (f : amap -> amap -> res (list amap * obs K V)) (g : list (K * V) -> list (K * V) -> list (list (K * V)) * obs K V),
      (forall a b, valid a -> small (contents a) -> valid b -> small (contents b) ->
         exists st', f a b = Ok (st', snd (g (contents a) (contents b))) /\ rels st' (fst (g (contents a) (contents b)))) ->
      exists st', on2 st h1 h2 f = Ok (st', snd (match nth_error sst h1 with Some a => match nth_error sst h2 with Some b => g a b | None => (sst, RUnit) end | None => (sst, RUnit) end))
        /\ rels st' (fst (match nth_error sst h1 with Some a => match nth_error sst h2 with Some b => g a b | None => (sst, RUnit) end | None => (sst, RUnit) end))).
    { intros h1 h2 f g Hf. unfold on2.
      apply (on1_ok h1 (fun a => on st h2 (fun b => f a b))
               (fun a => match nth_error sst h2 with Some b => g a b | None => (sst, RUnit) end)).
      intros a _ Hv Hs. apply (on1_ok h2 (fun b => f a b) (fun b => g (contents a) b)).
      intros b _ Hv' Hs'. apply Hf; auto. }
    destruct o; cbn [step AvlHistModel.step s_step MapSpec.s_step];
      first [apply on2_ok; intros a b Hva Hsa Hvb Hsb; pose proof (small_fits2 _ _ Hsa Hsb) as F
            |apply on1_ok; intros m Em Hv Hs; pose proof (small_fits _ Hs) as F
            |idtac].
    - eexists. split; [reflexivity|]. apply rels_snoc; auto. split; [apply new_valid|reflexivity].
    - eexists. split; [reflexivity|]. apply rels_snoc; auto. now split.
    - destruct (from_iter_spec bor cmp laws ps) as (m & E & Hv & Hc); [now apply small_fits|].
      rewrite E. cbn [bind]. eexists. split; [reflexivity|]. apply rels_snoc; auto. now split.
    - destruct (insert_spec bor cmp laws m k v Hv F) as (m' & E & Hv' & Hc).
      rewrite E. cbn [bind]. eexists. split; [reflexivity|]. apply rels_set; auto. now split.
    - destruct (remove_spec bor cmp laws m q Hv F) as (m' & E & Hv' & Hc).
      rewrite E. cbn [bind]. eexists. split; [reflexivity|]. apply rels_set; auto. now split.
    - destruct (remove_entry_spec bor cmp laws m q Hv F) as (m' & E & Hv' & Hc).
      rewrite E. cbn [bind]. eexists. split; [reflexivity|]. apply rels_set; auto. now split.
    - rewrite (get_spec bor cmp laws) by auto. eauto.
    - rewrite (get_key_value_spec bor cmp laws) by auto. eauto.
    - rewrite (contains_key_spec bor cmp laws) by auto. eauto.
    - pose proof (get_mut_spec bor cmp laws m q w Hv) as H.
      destruct (avl_get_mut bor cmp m q w) as [m' x]. destruct H as (H1 & H2 & H3). subst x.
      eexists. split; [reflexivity|]. apply rels_set; auto. now split.
    - eexists. split; [reflexivity|]. apply rels_set; auto. now apply and_modify_spec.
    - destruct (or_insert_spec m k v w Hv F) as (m' & E & Hv' & Hc). rewrite E. cbn [bind].
      eexists. destruct (s_get bor cmp (bor k) (contents m)); (split; [reflexivity|]); apply rels_set; auto; now split.
    - rewrite first_spec. eauto.
    - rewrite last_spec. eauto.
    - destruct (pop_first_spec bor cmp m Hv F) as (m' & E & Hv' & Hc).
      rewrite E. cbn [bind]. eexists. split; [reflexivity|]. apply rels_set; auto. now split.
    - destruct (pop_last_spec bor cmp m Hv F) as (m' & E & Hv' & Hc).
      rewrite E. cbn [bind]. eexists. split; [reflexivity|]. apply rels_set; auto. now split.
    - rewrite (valid_len bor cmp) by auto. eauto.
    - rewrite (is_empty_spec bor cmp) by auto. eauto.
    - eexists. split; [reflexivity|]. apply rels_set; auto. split; [apply clear_spec|reflexivity].
    - destruct (extend_spec bor cmp laws ps m Hv) as (m' & E & Hv' & Hc); [now apply small_fits2|].
      rewrite E. cbn [bind]. eexists. split; [reflexivity|]. apply rels_set; auto. now split.
    - destruct (retain_pure_spec bor cmp laws g m Hv F) as (m' & E & Hv' & Hc).
      rewrite E. cbn [bind]. eexists. split; [reflexivity|]. apply rels_set; auto. now split.
    - destruct (split_off_spec bor cmp laws m q Hv F) as (m1 & m2 & E & Hv1 & Hv2 & Hc1 & Hc2).
      rewrite E. cbn [bind]. eexists. split; [reflexivity|].
      apply rels_snoc; [apply rels_set|]; auto; now split.
    - destruct (Nat.eqb h1 h2); [eauto|].
      destruct (append_list a b Hva Hvb F) as (a' & b' & E & Hv1 & Hv2 & Hc1 & Hc2).
      rewrite E. cbn [bind]. eexists. split; [reflexivity|].
      repeat apply rels_set; auto; now split.
    - destruct (new_union_list a b Hva Hvb F) as (m & E & Hv & Hc).
      rewrite E. cbn [bind]. eexists. split; [reflexivity|]. apply rels_snoc; auto. now split.
    - destruct (new_intersect_spec bor cmp laws a b Hva Hvb F) as (m & E & Hv & Hc).
      rewrite E. cbn [bind]. eexists. split; [reflexivity|]. apply rels_snoc; auto. now split.
    - destruct (new_diff_spec bor cmp laws a b Hva Hvb F) as (m & E & Hv & Hc).
      rewrite E. cbn [bind]. eexists. split; [reflexivity|]. apply rels_snoc; auto. now split.
    - destruct (new_sym_diff_list a b Hva Hvb F) as (m & E & Hv & Hc).
      rewrite E. cbn [bind]. eexists. split; [reflexivity|]. apply rels_snoc; auto. now split.
    - rewrite (iter_spec bor cmp) by auto. cbn [bind]. eauto.
    - destruct (range_run_spec bor cmp laws m lo hi cs Hv) as (it & extra & E & Hr).
      rewrite E. cbn [bind]. rewrite Hr. cbn [bind]. rewrite map_map. cbn [fst snd].
      eexists. split; [reflexivity|]. exact R.
    - rewrite (eq_spec bor cmp) by auto. cbn [bind]. eauto.
    - rewrite (cmp_spec bor cmp) by auto. cbn [bind]. eauto.
    - rewrite (check_spec bor cmp laws) by auto. cbn [bind]. eauto.
  Qed.

  Lemma run_ok os : forall st sst, rels st sst ->
    all_small bor cmp keq veq kcmp vcmp sst os ->
    exists st', run bor cmp keq veq kcmp vcmp st os
                = Ok (st', snd (s_run bor cmp keq veq kcmp vcmp sst os))
      /\ rels st' (fst (s_run bor cmp keq veq kcmp vcmp sst os)).
  Proof.
    induction os as [|o os IH]; intros st sst R Sm; cbn [run s_run].
    - exists st. auto.
    - cbn [all_small] in Sm. destruct Sm as (Sm & So & Sm').
      destruct (step_ok st sst o R Sm So) as (st1 & E & R1). rewrite E. cbn [bind].
      destruct (MapSpec.s_step bor cmp keq veq kcmp vcmp sst o) as [sst1 r]. cbn [fst snd] in *.
      destruct (IH st1 sst1 R1 Sm') as (st2 & E2 & R2). rewrite E2. cbn [bind].
      destruct (s_run bor cmp keq veq kcmp vcmp sst1 os) as [sst2 rs]. cbn [fst snd] in *.
      exists st2. auto.
  Qed.
End HistProofs.
