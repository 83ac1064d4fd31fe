(** The [AvlMap] methods of the value model satisfy the specification. *)
From Coq Require Import List ZArith Bool Lia Sorted Permutation.
From Verif Require Import Base Spec SpecFacts AvlModel AvlProofs AvlProofs2.
Import ListNotations.
Open Scope Z_scope.

Section AvlMapProofs.
  Context {K V Q : Type} (bor : K -> Q) (cmp : Q -> Q -> comparison).
  Context (laws : order_laws cmp).

  Notation tree := (tree K V).
  Notation amap := (avl_map K V).
  Notation asc := (@ascending K V Q bor cmp).
  Notation key e := (bor (fst e)).
  Notation fnd := (@s_find K V Q bor cmp).

  (** What iteration over the map shows. *)
  Definition contents (m : amap) : list (K * V) := elems (am_root m).

  (** The representation invariant. *)
  Definition valid (m : amap) : Prop :=
    avl (am_root m) /\ asc (contents m) /\ am_len m = length (contents m).

  Lemma valid_asc m : valid m -> asc (contents m).
  Proof. now intros (_ & H & _). Qed.

  Lemma valid_len m : valid m -> avl_len m = length (contents m).
  Proof. now intros (_ & _ & H). Qed.

  Lemma valid_ht m : valid m -> fits (contents m) -> ht (am_root m) <= 91.
  Proof. intros (H & _) F. now apply avl_ht_bound. Qed.

  Lemma new_valid : valid avl_new /\ contents avl_new = [].
  Proof. repeat split; auto. constructor. Qed.

  Lemma clear_spec m : valid (avl_clear m) /\ contents (avl_clear m) = [].
  Proof. apply new_valid. Qed.

  Lemma is_empty_spec m : valid m -> avl_is_empty m = match contents m with [] => true | _ => false end.
  Proof.
    intros (_ & _ & E). unfold avl_is_empty. rewrite E. now destruct (contents m).
  Qed.

  (** *** Lookups *)
  Lemma t_get_spec t q : asc (elems t) -> t_get bor cmp t q = fnd q (elems t).
  Proof.
    induction t as [|k v lh rh l IHl r IHr]; cbn [t_get elems]; intros A; auto.
    pose proof A as A'. apply (asc_pivot bor cmp laws) in A' as (Al & Ar & _).
    destruct (cmp q (bor k)) eqn:E.
    - now rewrite (fnd_pivot_eq bor cmp laws) by auto.
    - rewrite (fnd_pivot_lt bor cmp laws) by auto. auto.
    - rewrite (fnd_pivot_gt bor cmp laws) by auto. auto.
  Qed.

  Lemma get_key_value_spec m q : valid m -> avl_get_key_value bor cmp m q = fnd q (contents m).
  Proof. intros (_ & A & _). now apply t_get_spec. Qed.

  Lemma get_spec m q : valid m -> avl_get bor cmp m q = s_get bor cmp q (contents m).
  Proof. intros H. unfold avl_get. now rewrite get_key_value_spec. Qed.

  Lemma contains_key_spec m q : valid m -> avl_contains_key bor cmp m q = s_mem bor cmp q (contents m).
  Proof.
    intros H. unfold avl_contains_key. rewrite get_spec by auto.
    rewrite mem_find. unfold s_get. now destruct (fnd q (contents m)).
  Qed.

  Lemma t_get_mut_spec t q w : asc (elems t) ->
    let '(t', o) := t_get_mut bor cmp t q w in
    elems t' = s_update bor cmp q w (elems t) /\ o = s_get bor cmp q (elems t)
    /\ ht t' = ht t /\ (avl t -> avl t').
  Proof.
    induction t as [|k v lh rh l IHl r IHr]; cbn [t_get_mut elems]; intros A; auto.
    pose proof A as A'. apply (asc_pivot bor cmp laws) in A' as (Al & Ar & _).
    unfold s_get. destruct (cmp q (bor k)) eqn:E.
    - rewrite (fnd_pivot_eq bor cmp laws), (upd_pivot_eq bor cmp laws) by auto.
      cbn [elems]. repeat split; auto; apply H.
    - rewrite (fnd_pivot_lt bor cmp laws), (upd_pivot_lt bor cmp laws) by auto.
      specialize (IHl Al). destruct (t_get_mut bor cmp l q w) as [l' o].
      destruct IHl as (E1 & E2 & E3 & E4). cbn [elems ht avl]. rewrite E1, E3.
      repeat split; auto; try apply H. apply E4, H.
    - rewrite (fnd_pivot_gt bor cmp laws), (upd_pivot_gt bor cmp laws) by auto.
      specialize (IHr Ar). destruct (t_get_mut bor cmp r q w) as [r' o].
      destruct IHr as (E1 & E2 & E3 & E4). cbn [elems ht avl]. rewrite E1, E3.
      repeat split; auto; try apply H. apply E4, H.
  Qed.

  Lemma get_mut_spec m q w : valid m ->
    let '(m', o) := avl_get_mut bor cmp m q w in
    valid m' /\ contents m' = s_update bor cmp q w (contents m)
    /\ o = s_get bor cmp q (contents m).
  Proof.
    intros (H & A & L). unfold avl_get_mut.
    pose proof (t_get_mut_spec (am_root m) q w A) as Hs.
    destruct (t_get_mut bor cmp (am_root m) q w) as [t o].
    destruct Hs as (E1 & E2 & E3 & E4). unfold valid, contents. cbn [am_root am_len].
    rewrite E1. repeat split; auto.
    - now apply asc_update.
    - rewrite L. unfold contents, s_update. now rewrite map_length.
  Qed.

  (** *** Least and greatest *)
  Lemma t_first_spec (t : tree) : t_first t = hd_error (elems t).
  Proof.
    induction t as [|k v lh rh l IHl r IHr]; auto. cbn [t_first elems].
    destruct l as [|k' v' lh' rh' l' r']; auto. rewrite IHl.
    destruct (elems (Node k' v' lh' rh' l' r')) eqn:E; auto.
    now apply elems_node_nonnil in E.
  Qed.

  Lemma t_last_spec (t : tree) : t_last t = hd_error (rev (elems t)).
  Proof.
    induction t as [|k v lh rh l IHl r IHr]; auto. cbn [t_last elems].
    rewrite last_app_cons.
    destruct r as [|k' v' lh' rh' l' r']; auto. rewrite IHr.
    destruct (rev (elems (Node k' v' lh' rh' l' r'))) eqn:E; auto.
    apply (f_equal (@rev _)) in E. rewrite rev_involutive in E.
    now apply elems_node_nonnil in E.
  Qed.

  Lemma first_spec m : avl_first_key_value m = s_first (contents m).
  Proof. apply t_first_spec. Qed.
  Lemma last_spec m : avl_last_key_value m = s_last (contents m).
  Proof. apply t_last_spec. Qed.

  (** *** Updates *)
  Lemma insert_spec m k v : valid m -> fits (contents m) ->
    exists m',
      avl_insert bor cmp m k v = Ok (m', s_get bor cmp (bor k) (contents m))
      /\ valid m' /\ contents m' = s_insert bor cmp k v (contents m).
  Proof.
    intros Hv F. pose proof (valid_ht m Hv F) as Hb. destruct Hv as (H & A & L).
    destruct (ins_ok bor cmp laws (am_root m) k v) as (t' & old & tl & E & Ht' & _ & _ & He);
      auto; [lia|].
    destruct (He A) as [He1 He2]. unfold avl_insert. rewrite E. cbn [bind].
    unfold contents in *. rewrite <- He2. eexists. split; [reflexivity|].
    cbn [am_root]. split; [|exact He1]. unfold valid, contents. cbn [am_root am_len].
    split; [exact Ht'|]. rewrite He1. split; [now apply asc_insert|].
    rewrite (length_insert bor cmp laws) by auto. rewrite mem_find, He2, L.
    unfold s_get. destruct (fnd (bor k) (elems (am_root m))); cbn [option_map]; lia.
  Qed.

  Lemma remove_entry_spec m q : valid m -> fits (contents m) ->
    exists m',
      avl_remove_entry bor cmp m q = Ok (m', fnd q (contents m))
      /\ valid m' /\ contents m' = s_remove bor cmp q (contents m).
  Proof.
    intros Hv F. pose proof (valid_ht m Hv F) as Hb. destruct Hv as (H & A & L).
    destruct (rm_ok bor cmp laws (am_root m) q) as (t' & kv & s & E & Ht' & _ & He);
      auto; [lia|].
    destruct (He A) as [He1 He2]. unfold avl_remove_entry. rewrite E. cbn [bind].
    unfold contents in *. pose proof (length_remove bor cmp laws q _ A) as Hlen.
    rewrite mem_find in Hlen. rewrite <- He2 in *.
    destruct kv as [e|].
    - rewrite usize_sub_ok by lia. cbn [bind]. eexists. split; [reflexivity|].
      unfold valid, contents. cbn [am_root am_len]. rewrite He1.
      repeat split; auto; [now apply asc_remove|lia].
    - eexists. split; [reflexivity|].
      unfold valid, contents. cbn [am_root am_len]. rewrite He1.
      repeat split; auto; [now apply asc_remove|lia].
  Qed.

  Lemma remove_spec m q : valid m -> fits (contents m) ->
    exists m',
      avl_remove bor cmp m q = Ok (m', s_get bor cmp q (contents m))
      /\ valid m' /\ contents m' = s_remove bor cmp q (contents m).
  Proof.
    intros Hv F. destruct (remove_entry_spec m q Hv F) as (m' & E & Hv' & He).
    exists m'. unfold avl_remove. rewrite E. auto.
  Qed.

  Lemma pop_first_spec m : valid m -> fits (contents m) ->
    exists m',
      avl_pop_first m = Ok (m', s_first (contents m))
      /\ valid m' /\ contents m' = tl (contents m).
  Proof.
    intros Hv F. pose proof (valid_ht m Hv F) as Hb. destruct Hv as (H & A & L).
    destruct (rm_leftmost_ok (am_root m)) as (t' & kv & s & E & Ht' & _ & Hkv & He); auto; [lia|].
    unfold avl_pop_first. rewrite E. cbn [bind]. rewrite Hkv.
    unfold contents in *. unfold s_first. unfold valid, contents.
    destruct (elems (am_root m)) as [|e es] eqn:Ee; cbn [hd_error tl] in *.
    - eexists. split; [reflexivity|]. cbn [am_root am_len]. rewrite He.
      repeat split; auto.
    - rewrite usize_sub_ok by (rewrite L; cbn; lia). cbn [bind].
      eexists. split; [reflexivity|]. cbn [am_root am_len]. rewrite He.
      apply (asc_cons_iff bor cmp) in A as [A _].
      repeat split; auto. rewrite L. cbn. lia.
  Qed.

  Lemma removelast_asc l : asc l -> asc (removelast l).
  Proof.
    induction l as [|a l IH]; intros A; auto. cbn.
    apply (asc_cons_iff bor cmp) in A as [A Ha].
    destruct l as [|b l]; [constructor|]. apply (asc_cons_iff bor cmp). split; auto.
    intros y Hy. apply Ha.
    rewrite (app_removelast_last b) by discriminate. apply in_or_app. auto.
  Qed.

  Lemma removelast_length {A} (l : list A) : length (removelast l) = (length l - 1)%nat.
  Proof.
    induction l as [|a l IH]; auto. cbn. destruct l; auto. cbn [length] in *. rewrite IH. lia.
  Qed.

  Lemma pop_last_spec m : valid m -> fits (contents m) ->
    exists m',
      avl_pop_last m = Ok (m', s_last (contents m))
      /\ valid m' /\ contents m' = removelast (contents m).
  Proof.
    intros Hv F. pose proof (valid_ht m Hv F) as Hb. destruct Hv as (H & A & L).
    destruct (rm_rightmost_ok (am_root m)) as (t' & kv & s & E & Ht' & _ & Hkv & He); auto; [lia|].
    unfold avl_pop_last. rewrite E. cbn [bind]. rewrite Hkv.
    unfold contents in *. unfold s_last. unfold valid, contents.
    destruct (hd_error (rev (elems (am_root m)))) as [e|] eqn:Ee.
    - assert (elems (am_root m) <> []) as Hn by (intros En; rewrite En in Ee; discriminate).
      assert (length (elems (am_root m)) <> 0)%nat.
      { destruct (elems (am_root m)); cbn; [congruence|lia]. }
      rewrite usize_sub_ok by lia. cbn [bind].
      eexists. split; [reflexivity|]. cbn [am_root am_len]. rewrite He.
      repeat split; auto using removelast_asc. rewrite removelast_length. lia.
    - destruct (elems (am_root m)) as [|x xs] eqn:En.
      + eexists. split; [reflexivity|]. cbn [am_root am_len]. rewrite He.
        repeat split; auto.
      + exfalso. cbn in Ee. destruct (rev xs); discriminate.
  Qed.

  (** *** Set-like merges *)
  Lemma of_root_spec r t : r = Ok t -> avl t -> asc (elems t) ->
    exists m, avl_of_root r = Ok m /\ valid m /\ contents m = elems t.
  Proof.
    intros -> H A. eexists. split; [reflexivity|].
    repeat split; auto. cbn [am_len]. apply t_len_elems.
  Qed.

  Lemma merge_spec keepl keepr dec a b :
    dec_picks dec ->
    valid a -> valid b -> fits (contents a ++ contents b) ->
    exists t,
      merge bor cmp keepl keepr dec (am_root a) (am_root b) = Ok t /\ avl t /\ asc (elems t)
      /\ forall q, fnd q (elems t)
                   = merge_entry keepl keepr dec (fnd q (contents a)) (fnd q (contents b)).
  Proof.
    intros Hd (Ha & Aa & La) (Hb & Ab & Lb) F.
    apply (merge_ok bor cmp laws keepl keepr dec); auto.
  Qed.

  Lemma union_spec a b : valid a -> valid b -> fits (contents a ++ contents b) ->
    exists t, union bor cmp (am_root a) (am_root b) = Ok t /\ avl t /\ asc (elems t)
      /\ forall q, fnd q (elems t) =
           match fnd q (contents b) with Some e => Some e | None => fnd q (contents a) end.
  Proof.
    intros Hva Hvb F.
    destruct (merge_spec true true (fun _ rhs => Some rhs) a b) as (t & E & Ht & A & Hq); auto.
    { intros x y e [= ->]. auto. }
    exists t. repeat split; auto. intros q. rewrite Hq. unfold merge_entry.
    destruct (fnd q (contents a)), (fnd q (contents b)); reflexivity.
  Qed.

  Lemma append_spec a b : valid a -> valid b -> fits (contents a ++ contents b) ->
    exists a' b',
      avl_append bor cmp a b = Ok (a', b') /\ valid a' /\ valid b' /\ contents b' = []
      /\ forall q, fnd q (contents a') =
           match fnd q (contents b) with Some e => Some e | None => fnd q (contents a) end.
  Proof.
    intros Hva Hvb F. destruct (union_spec a b) as (t & E & Ht & A & Hq); auto.
    unfold avl_append. rewrite E. cbn [bind]. do 2 eexists. split; [reflexivity|].
    repeat split; auto; try constructor. cbn [am_len]. apply t_len_elems.
  Qed.

  Lemma new_union_spec a b : valid a -> valid b -> fits (contents a ++ contents b) ->
    exists m,
      avl_new_union bor cmp a b = Ok m /\ valid m
      /\ forall q, fnd q (contents m) =
           match fnd q (contents b) with Some e => Some e | None => fnd q (contents a) end.
  Proof.
    intros Hva Hvb F. destruct (union_spec a b) as (t & E & Ht & A & Hq); auto.
    destruct (of_root_spec _ t E) as (m & E' & Hv & Hc); auto.
    exists m. repeat split; auto; try apply Hv. intros q. now rewrite Hc.
  Qed.

  Lemma find_filter_mem q (f : K * V -> bool) l :
    asc l -> (forall a b, cmp (key a) (key b) = Eq -> f a = f b) ->
    fnd q (filter f l) = match fnd q l with Some e => if f e then Some e else None | None => None end.
  Proof.
    intros A Hf. induction l as [|a l IH]; auto.
    apply (asc_cons_iff bor cmp) in A as [A Ha]. specialize (IH A).
    unfold s_find in *. cbn [filter find].
    destruct (eq_q bor cmp q a) eqn:E.
    - destruct (f a) eqn:Ef; cbn [find]; rewrite ?E, ?Ef; auto.
      rewrite IH.
      rewrite find_none_all; auto. intros x Hx. apply eqq_iff in E.
      unfold eq_q. specialize (Ha x Hx).
      rewrite (cmp_eq_l _ laws _ _ (key x) E) in Ha.
      apply (cmp_lt_gt laws) in Ha. now rewrite Ha.
    - destruct (f a); cbn [find]; rewrite ?E; auto.
  Qed.

  Lemma mem_eq_q q q' (l : list (K * V)) : cmp q q' = Eq -> s_mem bor cmp q l = s_mem bor cmp q' l.
  Proof. intros E. rewrite !mem_find. now rewrite (fnd_eq_q bor cmp laws q q'). Qed.

  Lemma fnd_key_eq q (l : list (K * V)) e : fnd q l = Some e -> cmp (key e) q = Eq.
  Proof. intros H. now apply fnd_some in H. Qed.

  Lemma new_intersect_spec a b : valid a -> valid b -> fits (contents a ++ contents b) ->
    exists m,
      avl_new_intersect bor cmp a b = Ok m /\ valid m
      /\ contents m = s_inter bor cmp (contents a) (contents b).
  Proof.
    intros Hva Hvb F.
    destruct (merge_spec false false (fun lhs _ => Some lhs) a b) as (t & E & Ht & A & Hq); auto.
    { intros x y e [= ->]. auto. }
    destruct (of_root_spec _ t E) as (m & E' & Hv & Hc); auto.
    exists m. split; [exact E'|]. split; [exact Hv|]. rewrite Hc.
    apply (asc_find_ext bor cmp laws); auto.
    { apply asc_filter. now apply valid_asc. }
    intros q. rewrite Hq. unfold s_inter. rewrite find_filter_mem.
    - unfold merge_entry. destruct (fnd q (contents a)) as [e|] eqn:Ea.
      + rewrite (mem_eq_q _ q) by (now apply fnd_key_eq in Ea).
        rewrite mem_find. now destruct (fnd q (contents b)).
      + now destruct (fnd q (contents b)).
    - now apply valid_asc.
    - intros x y Hxy. now apply mem_eq_q.
  Qed.

  Lemma new_diff_spec a b : valid a -> valid b -> fits (contents a ++ contents b) ->
    exists m,
      avl_new_diff bor cmp a b = Ok m /\ valid m
      /\ contents m = s_diff bor cmp (contents a) (contents b).
  Proof.
    intros Hva Hvb F.
    destruct (merge_spec true false (fun _ _ => None) a b) as (t & E & Ht & A & Hq); auto.
    { intros x y e [=]. }
    destruct (of_root_spec _ t E) as (m & E' & Hv & Hc); auto.
    exists m. split; [exact E'|]. split; [exact Hv|]. rewrite Hc.
    apply (asc_find_ext bor cmp laws); auto.
    { apply asc_filter. now apply valid_asc. }
    intros q. rewrite Hq. unfold s_diff. rewrite find_filter_mem.
    - unfold merge_entry. destruct (fnd q (contents a)) as [e|] eqn:Ea.
      + rewrite (mem_eq_q _ q) by (now apply fnd_key_eq in Ea).
        rewrite mem_find. now destruct (fnd q (contents b)).
      + now destruct (fnd q (contents b)).
    - now apply valid_asc.
    - intros x y Hxy. now rewrite (mem_eq_q _ _ (contents b) Hxy).
  Qed.

  Lemma new_sym_diff_spec a b : valid a -> valid b -> fits (contents a ++ contents b) ->
    exists m,
      avl_new_sym_diff bor cmp a b = Ok m /\ valid m
      /\ forall q, fnd q (contents m) =
           match fnd q (contents a), fnd q (contents b) with
           | Some e, None => Some e
           | None, Some e => Some e
           | _, _ => None
           end.
  Proof.
    intros Hva Hvb F.
    destruct (merge_spec true true (fun _ _ => None) a b) as (t & E & Ht & A & Hq); auto.
    { intros x y e [=]. }
    destruct (of_root_spec _ t E) as (m & E' & Hv & Hc); auto.
    exists m. split; [exact E'|]. split; [exact Hv|]. intros q. rewrite Hc, Hq.
    unfold merge_entry. destruct (fnd q (contents a)), (fnd q (contents b)); reflexivity.
  Qed.

  Lemma hd_all_gt (l : list (K * V)) q : asc l ->
    (match hd_error l with None => True | Some e => cmp q (key e) = Lt end) ->
    all_gt bor cmp l q.
  Proof.
    destruct l as [|a l]; intros A H; [apply all_gt_nil|].
    apply (asc_cons_iff bor cmp) in A as [A Ha]. cbn in H. apply all_gt_cons. split; [exact H|].
    intros x Hx. apply (cmp_lt_trans _ laws _ (key a)); [exact H|now apply Ha].
  Qed.

  Lemma last_all_lt (l : list (K * V)) q : asc l ->
    (match hd_error (rev l) with None => True | Some e => cmp (key e) q = Lt end) ->
    all_lt bor cmp l q.
  Proof.
    induction l as [|a l IH] using rev_ind; intros A H; [apply all_lt_nil|].
    rewrite rev_app_distr in H. cbn in H.
    apply (asc_app_iff bor cmp) in A as (A & _ & Hx).
    apply all_lt_app. split; [|apply all_lt_cons; split; auto using all_lt_nil].
    intros x Hi. eapply (cmp_lt_trans _ laws); [apply Hx; auto; now left|auto].
  Qed.

  Lemma new_join_spec a k v b : valid a -> valid b -> fits (contents a ++ contents b) ->
    all_lt bor cmp (contents a) (bor k) -> all_gt bor cmp (contents b) (bor k) ->
    exists m,
      avl_new_join bor cmp a k v b = Ok m /\ valid m
      /\ contents m = contents a ++ (k, v) :: contents b.
  Proof.
    intros Hva Hvb F Hlt Hgt.
    assert (Fa : fits (contents a)) by (eapply fits_le; [|exact F]; rewrite app_length; lia).
    assert (Fb : fits (contents b)) by (eapply fits_le; [|exact F]; rewrite app_length; lia).
    pose proof (valid_ht a Hva Fa). pose proof (valid_ht b Hvb Fb).
    destruct Hva as (Ha & Aa & La), Hvb as (Hb & Ab & Lb).
    unfold avl_new_join. rewrite last_spec, first_spec. unfold s_last, s_first.
    assert (E1 : match hd_error (rev (contents a)) with
                 | None => true
                 | Some (ka, _) => match cmp (bor ka) (bor k) with Lt => true | _ => false end
                 end = true).
    { destruct (rev (contents a)) as [|[ka va] ra] eqn:Er; auto. cbn.
      assert (Hi : In (ka, va) (contents a)) by (apply in_rev; rewrite Er; now left).
      apply Hlt in Hi. cbn in Hi. now rewrite Hi. }
    assert (E2 : match hd_error (contents b) with
                 | None => true
                 | Some (kb, _) => match cmp (bor k) (bor kb) with Lt => true | _ => false end
                 end = true).
    { destruct (contents b) as [|[kb vb] rb] eqn:Er; auto. cbn.
      specialize (Hgt (kb, vb) (or_introl eq_refl)). cbn in Hgt. now rewrite Hgt. }
    rewrite E1, E2. cbn [assert_ bind].
    destruct (join_ok (am_root a) k v (am_root b)) as (t & E & Ht & _ & He); auto; try lia.
    rewrite E. cbn [bind]. eexists. split; [reflexivity|].
    unfold valid, contents in *. cbn [am_root am_len]. rewrite He. repeat split; auto.
    - apply (asc_pivot bor cmp laws). auto.
    - rewrite app_length. cbn. lia.
  Qed.

  (** Conversely [new_join] with its debug assertions rejects keys out of order. *)
  Lemma new_join_assert a k v b m : valid a -> valid b ->
    avl_new_join bor cmp a k v b = Ok m ->
    all_lt bor cmp (contents a) (bor k) /\ all_gt bor cmp (contents b) (bor k).
  Proof.
    intros (_ & Aa & _) (_ & Ab & _). unfold avl_new_join. rewrite last_spec, first_spec.
    unfold s_last, s_first. intros H.
    destruct (match hd_error (rev (contents a)) with None => true | Some _ => _ end) eqn:E1;
      [|discriminate].
    cbn [assert_ bind] in H.
    destruct (match hd_error (contents b) with None => true | Some _ => _ end) eqn:E2;
      [|discriminate].
    split.
    - apply last_all_lt; auto. destruct (hd_error (rev (contents a))) as [[ka va]|]; auto.
      cbn. destruct (cmp (bor ka) (bor k)); congruence.
    - apply hd_all_gt; auto. destruct (hd_error (contents b)) as [[kb vb]|]; auto.
      cbn. destruct (cmp (bor k) (bor kb)); congruence.
  Qed.

  (** *** split_off *)
  Lemma split_off_spec m q : valid m -> fits (contents m) ->
    exists m1 m2,
      avl_split_off bor cmp m q = Ok (m1, m2) /\ valid m1 /\ valid m2
      /\ contents m1 = filter (lt_q bor cmp q) (contents m)
      /\ contents m2 = filter (fun e => negb (lt_q bor cmp q e)) (contents m).
  Proof.
    intros (H & A & L) F.
    destruct (split_ok bor cmp laws (am_root m) q) as (l & kv & r & E & Hl & Hr & He & Hs); auto.
    destruct (Hs A) as (Hlt & Hgt & Hkv). unfold contents in *. rewrite He in A, L, F.
    pose proof A as A'. apply (asc_app_iff bor cmp) in A' as (Al & A' & _).
    apply (asc_app_iff bor cmp) in A' as (_ & Ar & _).
    rewrite !app_length in L.
    unfold avl_split_off. rewrite E. cbn [bind]. rewrite t_len_elems.
    rewrite usize_sub_ok by lia. cbn [bind].
    destruct (all_lt_filters bor cmp _ _ Hlt) as (El1 & _).
    destruct (all_gt_filters bor cmp laws _ _ Hgt) as (_ & El2 & _).
    assert (F1 : filter (lt_q bor cmp q) (elems (am_root m)) = elems l).
    { rewrite He, !filter_app, El1, El2, app_nil_r.
      replace (filter (lt_q bor cmp q) (olist kv)) with (@nil (K * V)); [now rewrite app_nil_r|].
      destruct kv as [e|]; auto. cbn. specialize (Hkv e eq_refl). unfold lt_q. now rewrite Hkv. }
    assert (Hnl : filter (fun e => negb (lt_q bor cmp q e)) (elems l) = []).
    { apply filter_none. intros x Hx. unfold lt_q. now rewrite (Hlt x Hx). }
    assert (Hnr : filter (fun e => negb (lt_q bor cmp q e)) (elems r) = elems r).
    { apply filter_all. intros x Hx. unfold lt_q. specialize (Hgt x Hx).
      apply (cmp_lt_gt laws) in Hgt. now rewrite Hgt. }
    destruct kv as [[k v]|].
    - specialize (Hkv (k, v) eq_refl). cbn [fst] in Hkv. cbn [olist app length] in *.
      assert (Fr : fits (elems r)).
      { eapply fits_le; [|exact F]. rewrite app_length. cbn. lia. }
      pose proof (avl_ht_bound _ Hr Fr).
      destruct (ins_ok bor cmp laws r k v) as (r' & old & tl & Ei & Hr' & _ & _ & Hei); auto; [lia|].
      rewrite Ei. cbn [bind]. destruct (Hei Ar) as [Er' _].
      assert (Er'' : elems r' = (k, v) :: elems r).
      { rewrite Er'. unfold s_insert.
        assert (Hg' : all_gt bor cmp (elems r) (bor k)).
        { eapply (all_gt_eq bor cmp laws); [exact Hgt|]. now apply (cmp_eq_sym laws). }
        destruct (all_gt_filters bor cmp laws _ _ Hg') as (E1 & E2 & _).
        rewrite E1, E2. reflexivity. }
      do 2 eexists. split; [reflexivity|].
      unfold valid, contents. cbn [am_root am_len]. rewrite F1, Er''.
      split; [now auto|]. split.
      { split; [exact Hr'|]. split; [|cbn [length]; lia].
        apply (asc_app_iff bor cmp) in A as (_ & A & _). exact A. }
      split; [reflexivity|].
      rewrite He, filter_app, Hnl. cbn [app filter].
      unfold lt_q at 1. cbn [fst]. rewrite Hkv. cbn [negb]. now rewrite Hnr.
    - cbn [olist app length] in *. cbn [bind].
      do 2 eexists. split; [reflexivity|].
      unfold valid, contents. cbn [am_root am_len]. rewrite F1.
      split; [now auto|]. split; [repeat split; auto; lia|].
      split; [reflexivity|]. rewrite He, filter_app, Hnl, Hnr. reflexivity.
  Qed.

  (** *** retain *)
  Lemma retain_spec {S} (f : S -> K -> V -> S * V * bool) m s : valid m -> fits (contents m) ->
    exists m' s' order outs,
      avl_retain f m s = Ok (m', s') /\ valid m'
      /\ Permutation order (contents m) /\ run_calls f s order = (outs, s')
      /\ forall k v', In (k, v') (contents m') <-> exists v, In ((k, v), v', true) outs.
  Proof.
    intros (H & A & L) F.
    destruct (retain_ok bor cmp laws f (am_root m) s) as (t' & n & s' & E & Ht' & A' & Hn & Hs & Hi & _);
      auto.
    unfold avl_retain. rewrite E. cbn [bind].
    exists (AvlMap n t'), s', (visit_order (am_root m)), (fst (run_calls f s (visit_order (am_root m)))).
    split; [reflexivity|]. split; [repeat split; auto|].
    split; [apply visit_order_perm|]. split; [|exact Hi].
    rewrite Hs. now destruct (run_calls f s (visit_order (am_root m))).
  Qed.

  (** For a predicate without state the result is a filter-map in key order. *)
  Lemma retain_pure_spec (g : K -> V -> V * bool) m : valid m -> fits (contents m) ->
    exists m',
      avl_retain (fun (s : unit) k v => (s, fst (g k v), snd (g k v))) m tt = Ok (m', tt)
      /\ valid m'
      /\ contents m' = map (fun e => (fst e, fst (g (fst e) (snd e))))
                           (filter (fun e => snd (g (fst e) (snd e))) (contents m)).
  Proof.
    intros Hv F.
    destruct (retain_spec (fun (s : unit) k v => (s, fst (g k v), snd (g k v))) m tt Hv F)
      as (m' & [] & order & outs & E & Hv' & Hp & Hr & Hi).
    exists m'. split; [exact E|]. split; [exact Hv'|].
    apply (asc_ext bor cmp laws).
    - now apply valid_asc.
    - apply asc_map_keys; auto. apply asc_filter. now apply valid_asc.
    - intros [k v']. rewrite Hi.
      assert (Ho : outs = map (fun e => (e, fst (g (fst e) (snd e)), snd (g (fst e) (snd e)))) order).
      { clear - Hr. revert outs Hr. induction order as [|[k v] es IH]; intros outs Hr; cbn in *.
        - congruence.
        - destruct (run_calls _ tt es) as [o []]. injection Hr as <-. f_equal. now apply IH. }
      subst outs. rewrite in_map_iff. split.
      + intros (v & Hv0). apply in_map_iff in Hv0 as ([k0 v0] & [= <- <- <- Hb] & Hin).
        exists (k0, v0). cbn [fst snd] in *. split; auto.
        apply filter_In. split; [eapply Permutation_in; eauto|auto].
      + intros ([k0 v0] & [= <- <-] & Hin). apply filter_In in Hin as [Hin Hb]. cbn [fst snd] in *.
        exists v0. apply in_map_iff. exists (k0, v0). cbn [fst snd]. rewrite Hb. split; auto.
        eapply Permutation_in; [symmetry; eauto|auto].
  Qed.

  (** *** Traversals *)
  Lemma for_each_spec {S} (g : S -> K -> V -> S) t s :
    for_each g t s = fold_left (fun s e => g s (fst e) (snd e)) (elems t) s.
  Proof.
    revert s. induction t as [|k v lh rh l IHl r IHr]; intros s; auto.
    cbn [for_each elems]. rewrite fold_left_app. cbn [fold_left fst snd].
    now rewrite IHr, IHl.
  Qed.

  Lemma map_state_app {S} (g : S -> K -> V -> S * V) xs ys s :
    map_state g (xs ++ ys) s =
    let '(xs', s1) := map_state g xs s in
    let '(ys', s2) := map_state g ys s1 in (xs' ++ ys', s2).
  Proof.
    revert s. induction xs as [|[k v] xs IH]; intros s; cbn [app map_state].
    - now destruct (map_state g ys s).
    - destruct (g s k v) as [s1 v']. rewrite IH.
      destruct (map_state g xs s1) as [xs' s2]. now destruct (map_state g ys s2).
  Qed.

  Lemma map_state_keys {S} (g : S -> K -> V -> S * V) es s :
    map fst (fst (map_state g es s)) = map fst es.
  Proof.
    revert s. induction es as [|[k v] es IH]; intros s; cbn [map_state]; auto.
    destruct (g s k v) as [s1 v']. specialize (IH s1). destruct (map_state g es s1).
    cbn in *. now rewrite IH.
  Qed.

  Lemma for_each_mut_spec {S} (g : S -> K -> V -> S * V) t s :
    let '(t', s') := for_each_mut g t s in
    map_state g (elems t) s = (elems t', s') /\ ht t' = ht t /\ (avl t -> avl t').
  Proof.
    revert s. induction t as [|k v lh rh l IHl r IHr]; intros s; [cbn; auto|].
    cbn [for_each_mut elems]. specialize (IHl s).
    destruct (for_each_mut g l s) as [l' s1]. destruct (g s1 k v) as [s2 v'] eqn:Eg.
    specialize (IHr s2). destruct (for_each_mut g r s2) as [r' s3].
    destruct IHl as (E1 & E2 & E3), IHr as (E4 & E5 & E6).
    cbn [elems ht avl]. rewrite map_state_app, E1. cbn [map_state]. rewrite Eg, E4, E2, E5.
    repeat split; auto; try (now apply H). apply E3, H. apply E6, H.
  Qed.

  Lemma asc_keys l l' : map fst l = map fst l' -> asc l -> asc l'.
  Proof.
    revert l'. induction l as [|a l IH]; intros [|b l'] E A; try discriminate; auto.
    injection E as Ek E. apply (asc_cons_iff bor cmp) in A as [A Ha].
    apply (asc_cons_iff bor cmp). split; [now apply IH|].
    intros y Hy. rewrite <- Ek. apply (in_map fst) in Hy. rewrite <- E in Hy.
    apply in_map_iff in Hy as (z & Ez & Hz). rewrite <- Ez. auto.
  Qed.

  Lemma avl_for_each_mut_spec {S} (g : S -> K -> V -> S * V) m s : valid m ->
    let '(m', s') := avl_for_each_mut g m s in
    valid m' /\ map_state g (contents m) s = (contents m', s').
  Proof.
    intros (H & A & L). unfold avl_for_each_mut, valid, contents in *.
    pose proof (for_each_mut_spec g (am_root m) s) as Hs.
    destruct (for_each_mut g (am_root m) s) as [t' s']. destruct Hs as (E & _ & Ha).
    cbn [am_root am_len]. split; auto.
    pose proof (map_state_keys g (elems (am_root m)) s) as Hk. rewrite E in Hk. cbn [fst] in Hk.
    split; [auto|]. split.
    - eapply asc_keys; [symmetry; exact Hk|auto].
    - rewrite L. apply (f_equal (@length _)) in Hk. rewrite !map_length in Hk. auto.
  Qed.

  (** *** extend *)
  Lemma length_insert_le k v (l : list (K * V)) : asc l ->
    (length (s_insert bor cmp k v l) <= S (length l))%nat.
  Proof. intros A. rewrite (length_insert bor cmp laws) by auto. destruct (s_mem _ _ _ _); lia. Qed.

  Lemma extend_spec ps m : valid m -> fits (contents m ++ ps) ->
    exists m', avl_extend bor cmp m ps = Ok m' /\ valid m'
      /\ contents m' = s_extend bor cmp (contents m) ps.
  Proof.
    revert m. induction ps as [|[k v] ps IH]; intros m Hv F; cbn [avl_extend].
    - exists m. auto.
    - destruct (insert_spec m k v Hv) as (m1 & E & Hv1 & Hc).
      { eapply fits_le; [|exact F]. rewrite app_length. lia. }
      rewrite E. cbn [bind]. destruct (IH m1 Hv1) as (m' & E' & Hv' & Hc').
      { eapply fits_le; [|exact F]. rewrite Hc, !app_length. cbn [length].
        pose proof (length_insert_le k v (contents m) (valid_asc m Hv)). lia. }
      exists m'. rewrite Hc', Hc. auto.
  Qed.

  Lemma from_iter_spec ps : fits ps ->
    exists m', avl_from_iter bor cmp ps = Ok m' /\ valid m'
      /\ contents m' = s_extend bor cmp [] ps.
  Proof. intros F. apply (extend_spec ps avl_new); auto. apply new_valid. Qed.

  (** *** The self check *)
  Lemma chk_ok t g : avl t -> ht t <= 100 -> asc (elems t) ->
    (forall k, g = Some k -> all_gt bor cmp (elems t) (bor k)) ->
    chk bor cmp t g =
    Ok (inl (length (elems t), match hd_error (rev (elems t)) with Some e => Some (fst e) | None => g end)).
  Proof.
    revert g. induction t as [|k v lh rh l IHl r IHr]; intros g H Hb A Hg; [reflexivity|].
    destruct H as (-> & -> & Hbal & Hl & Hr). cbn [ht elems] in *.
    pose proof (ht_nonneg l). pose proof (ht_nonneg r).
    apply (asc_pivot bor cmp laws) in A as (Al & Ar & Lt1 & Gt1). cbn [fst] in *.
    cbn [chk].
    assert (Eg : ge_key bor cmp g k = false).
    { destruct g as [g|]; auto. cbn. specialize (Hg g eq_refl).
      apply all_gt_app in Hg as [_ Hg]. apply all_gt_cons in Hg as [Hg _]. cbn in Hg. now rewrite Hg. }
    rewrite Eg, !height_ok by (auto; lia). cbn [bind].
    rewrite !Z.eqb_refl. cbn [negb orb].
    rewrite is_bal_ok by lia. cbn [bind].
    replace ((-1 <=? ht r - ht l) && (ht r - ht l <=? 1)) with true
      by (symmetry; apply andb_true_iff; rewrite !Z.leb_le; lia).
    cbn [negb]. rewrite IHl; auto; [|lia|].
    2:{ intros g' ->. specialize (Hg g' eq_refl). now apply all_gt_app in Hg as [Hg _]. }
    cbn [bind].
    assert (Eg2 : ge_key bor cmp (match hd_error (rev (elems l)) with Some e => Some (fst e) | None => g end) k = false).
    { destruct (rev (elems l)) as [|e es] eqn:Er; cbn; auto.
      assert (In e (elems l)) as Hi by (apply in_rev; rewrite Er; now left).
      apply Lt1 in Hi. now rewrite Hi. }
    rewrite Eg2. rewrite IHr; auto; [|lia|].
    2:{ intros g' [= <-]. exact Gt1. }
    cbn [bind]. rewrite app_length. cbn [length]. rewrite last_app_cons.
    f_equal. f_equal. f_equal; [lia|].
    now destruct (hd_error (rev (elems r))).
  Qed.

  Lemma check_spec m : valid m -> fits (contents m) -> avl_chk bor cmp m = Ok (inl tt).
  Proof.
    intros Hv F. pose proof (valid_ht m Hv F). destruct Hv as (H' & A & L).
    unfold avl_chk. rewrite chk_ok; auto; [|lia|discriminate]. cbn [bind].
    unfold contents in L. rewrite L, Nat.eqb_refl. reflexivity.
  Qed.

  Lemma i8_add_inv a b c : i8_add a b = Ok c -> c = a + b.
  Proof. unfold i8_add, i8_chk. destruct (_ && _); congruence. Qed.
  Lemma i8_sub_inv a b c : i8_sub a b = Ok c -> c = a - b.
  Proof. unfold i8_sub, i8_chk. destruct (_ && _); congruence. Qed.
  Lemma i8_add_range a b c : i8_add a b = Ok c -> -128 <= c <= 127.
  Proof.
    unfold i8_add, i8_chk. destruct (Z.leb_spec (-128) (a + b)), (Z.leb_spec (a + b) 127);
      cbn; intros [=]; lia.
  Qed.

  Lemma height_inv (t : tree) h : avl t -> height t = Ok h -> h = ht t.
  Proof.
    destruct t as [|k v lh rh l r]; cbn [height ht avl].
    - congruence.
    - intros (-> & -> & _) E. apply i8_add_inv in E. lia.
  Qed.

  Lemma is_bal_inv lh rh : is_bal lh rh = Ok true -> -1 <= rh - lh <= 1.
  Proof.
    unfold is_bal, bal. destruct (i8_sub rh lh) as [b|] eqn:E; [|discriminate]. cbn [bind].
    destruct (i8_add b 1) as [b1|] eqn:E1; [|discriminate]. cbn [bind].
    intros [= H]. apply Z.leb_le in H.
    pose proof (i8_add_range _ _ _ E1) as Hr.
    apply i8_sub_inv in E. apply i8_add_inv in E1. subst.
    destruct (Z_lt_le_dec (rh - lh + 1) 0) as [Hn|Hn].
    - rewrite <- (Z_mod_plus_full _ 1 256) in H. rewrite Z.mod_small in H by lia. lia.
    - rewrite Z.mod_small in H by lia. lia.
  Qed.

  (** Conversely: a tree that passes the check satisfies the invariant. *)
  Lemma chk_sound t : forall g n g',
    chk bor cmp t g = Ok (inl (n, g')) ->
    avl t /\ asc (elems t) /\ n = length (elems t)
    /\ g' = match hd_error (rev (elems t)) with Some e => Some (fst e) | None => g end
    /\ (forall k, g = Some k -> all_gt bor cmp (elems t) (bor k)).
  Proof.
    induction t as [|k v lh rh l IHl r IHr]; intros g n g' E.
    - cbn in E. injection E as <- <-. repeat split; auto; try constructor.
      intros ? ? ? [].
    - cbn [chk] in E. destruct (ge_key bor cmp g k) eqn:Eg; [discriminate|].
      destruct (height l) as [hl|] eqn:Ehl; [|discriminate].
      destruct (height r) as [hr|] eqn:Ehr; [|discriminate]. cbn [bind] in E.
      destruct (negb (hl =? lh) || negb (hr =? rh)) eqn:Eh; [discriminate|].
      destruct (is_bal lh rh) as [ib|] eqn:Eib; [|discriminate]. cbn [bind] in E.
      destruct ib; [|discriminate]. cbn [negb] in E.
      destruct (chk bor cmp l g) as [[[ll gl]|]|] eqn:El; try discriminate. cbn [bind] in E.
      destruct (ge_key bor cmp gl k) eqn:Eg2; [discriminate|].
      destruct (chk bor cmp r (Some k)) as [[[lr gr]|]|] eqn:Er; try discriminate. cbn [bind] in E.
      injection E as <- <-.
      destruct (IHl _ _ _ El) as (Hl & Al & -> & -> & Gl).
      destruct (IHr _ _ _ Er) as (Hr & Ar & -> & -> & Gr). clear IHl IHr.
      apply orb_false_iff in Eh as [Eh1 Eh2]. rewrite negb_false_iff in Eh1, Eh2.
      rewrite Z.eqb_eq in Eh1, Eh2. subst lh rh.
      apply height_inv in Ehl; auto. apply height_inv in Ehr; auto. subst hl hr.
      apply is_bal_inv in Eib.
      assert (Hlt : all_lt bor cmp (elems l) (bor k)).
      { apply last_all_lt; auto. destruct (hd_error (rev (elems l))) as [e|]; auto.
        cbn in Eg2. destruct (cmp (key e) (bor k)); congruence. }
      specialize (Gr k eq_refl).
      cbn [avl elems]. repeat split; auto; try lia.
      + apply (asc_pivot bor cmp laws). auto.
      + rewrite app_length. cbn. lia.
      + rewrite last_app_cons. now destruct (hd_error (rev (elems r))).
      + intros g' ->. specialize (Gl g' eq_refl). cbn in Eg.
        destruct (cmp (bor g') (bor k)) eqn:Ec; try discriminate.
        apply all_gt_app. split; auto. apply all_gt_cons. split; auto.
        eapply (all_gt_trans bor cmp laws); eauto.
  Qed.

  Lemma check_sound m : avl_chk bor cmp m = Ok (inl tt) -> valid m.
  Proof.
    unfold avl_chk. destruct (chk bor cmp (am_root m) None) as [[[n g]|]|] eqn:E;
      cbn [bind]; try discriminate.
    destruct (Nat.eqb_spec n (am_len m)); [|discriminate]. intros _.
    apply chk_sound in E as (H & A & -> & _). repeat split; auto.
  Qed.

  (** *** Equality of keys after an update, in terms of lookups *)
  Lemma find_insert q k v (l : list (K * V)) : asc l ->
    fnd q (s_insert bor cmp k v l) =
    match cmp q (bor k) with Eq => Some (k, v) | _ => fnd q l end.
  Proof.
    intros A. assert (A' : asc (s_insert bor cmp k v l)) by now apply asc_insert.
    destruct (cmp q (bor k)) eqn:E.
    - apply (fnd_iff bor cmp laws); auto. split.
      + apply in_insert_iff. now left.
      + now apply (cmp_eq_sym laws).
    - destruct (fnd q l) as [e|] eqn:Ef.
      + apply (fnd_iff bor cmp laws); auto. apply fnd_some in Ef as [Hi He]. split; auto.
        apply in_insert_iff. right. split; auto.
        rewrite (cmp_eq_l _ laws _ _ _ He). congruence.
      + apply fnd_none_iff. intros e He. apply in_insert_iff in He as [->|[He _]].
        * cbn. intros Hc. apply (cmp_eq_sym laws) in Hc. congruence.
        * eapply fnd_none; eauto.
    - destruct (fnd q l) as [e|] eqn:Ef.
      + apply (fnd_iff bor cmp laws); auto. apply fnd_some in Ef as [Hi He]. split; auto.
        apply in_insert_iff. right. split; auto.
        rewrite (cmp_eq_l _ laws _ _ _ He). congruence.
      + apply fnd_none_iff. intros e He. apply in_insert_iff in He as [->|[He _]].
        * cbn. intros Hc. apply (cmp_eq_sym laws) in Hc. congruence.
        * eapply fnd_none; eauto.
  Qed.
End AvlMapProofs.
