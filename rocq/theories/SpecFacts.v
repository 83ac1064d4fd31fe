(** Facts about the specification: how the list operations act on a list that is
    split at a pivot entry, preservation of order, lookup laws. *)
From Coq Require Import List Bool Sorted Lia PeanoNat.
From Verif Require Import Base Spec.
Import ListNotations.

Section SpecFacts.
  Context {K V Q : Type} (bor : K -> Q) (cmp : Q -> Q -> comparison).
  Context (laws : order_laws cmp).

  Notation entry := (K * V)%type.
  Notation key e := (bor (fst e)).
  Notation asc := (@ascending K V Q bor cmp).
  Notation ltq := (@lt_q K V Q bor cmp).
  Notation eqq := (@eq_q K V Q bor cmp).
  Notation gtq := (@gt_q K V Q bor cmp).
  Notation ins := (@s_insert K V Q bor cmp).
  Notation rem := (@s_remove K V Q bor cmp).
  Notation fnd := (@s_find K V Q bor cmp).
  Notation upd := (@s_update K V Q bor cmp).
  Notation mem := (@s_mem K V Q bor cmp).
  Notation rng := (@s_range K V Q bor cmp).

  Lemma asc_nil : asc [].
  Proof. constructor. Qed.

  Lemma asc_single e : asc [e].
  Proof. repeat constructor. Qed.

  Lemma asc_cons_iff e l :
    asc (e :: l) <-> asc l /\ (forall y, In y l -> cmp (key e) (key y) = Lt).
  Proof.
    split.
    - intros H. inversion H as [|? ? H1 H2]; subst. split; [exact H1|].
      intros y Hy. rewrite Forall_forall in H2. now apply H2.
    - intros [H1 H2]. constructor; [exact H1|]. apply Forall_forall. exact H2.
  Qed.

  Lemma asc_app_iff l r :
    asc (l ++ r) <->
    asc l /\ asc r /\ (forall x y, In x l -> In y r -> cmp (key x) (key y) = Lt).
  Proof.
    induction l as [|a l IH]; cbn [app].
    - split; [intros H; repeat split; auto using asc_nil; intros ? ? []|tauto].
    - rewrite !asc_cons_iff, IH. split.
      + intros [(Hl & Hr & Hx) Ha]. repeat split; auto.
        * intros y Hy. apply Ha, in_or_app. auto.
        * intros x y [->|Hxl] Hy; [apply Ha, in_or_app|]; auto.
      + intros ([Hl Ha] & Hr & Hx). repeat split; auto.
        * intros x y Hxl Hy. apply Hx; auto. now right.
        * intros y Hy. apply in_app_or in Hy as [Hy|Hy]; auto.
          apply Hx; auto. now left.
  Qed.

  Lemma asc_pivot_iff l e r :
    asc (l ++ e :: r) <->
    asc l /\ asc r /\ (forall x, In x l -> cmp (key x) (key e) = Lt)
    /\ (forall y, In y r -> cmp (key e) (key y) = Lt).
  Proof.
    rewrite asc_app_iff, asc_cons_iff. split.
    - intros (Hl & [Hr He] & Hx). repeat split; auto.
      intros x Hxl. apply Hx; auto. now left.
    - intros (Hl & Hr & Hle & Her). repeat split; auto.
      intros x y Hx [<-|Hy]; auto.
      eapply (cmp_lt_trans _ laws); eauto.
  Qed.

  Lemma asc_filter f l : asc l -> asc (filter f l).
  Proof.
    induction l as [|a l IH]; cbn; intros H; [constructor|].
    apply asc_cons_iff in H as [Hl Ha]. destruct (f a); auto.
    apply asc_cons_iff. split; auto.
    intros y Hy. apply Ha. now apply filter_In in Hy.
  Qed.

  (** *** Classifying entries *)
  Lemma ltq_iff q e : ltq q e = true <-> cmp (key e) q = Lt.
  Proof. unfold lt_q. destruct (cmp (key e) q); split; congruence. Qed.
  Lemma eqq_iff q e : eqq q e = true <-> cmp (key e) q = Eq.
  Proof. unfold eq_q. destruct (cmp (key e) q); split; congruence. Qed.
  Lemma gtq_iff q e : gtq q e = true <-> cmp (key e) q = Gt.
  Proof. unfold gt_q. destruct (cmp (key e) q); split; congruence. Qed.

  (** All of [l] below / above [q]. *)
  Definition all_lt (l : list entry) (q : Q) : Prop :=
    forall x, In x l -> cmp (key x) q = Lt.
  Definition all_gt (l : list entry) (q : Q) : Prop :=
    forall x, In x l -> cmp q (key x) = Lt.

  Lemma all_lt_trans l q q' :
    all_lt l q -> cmp q q' = Lt -> all_lt l q'.
  Proof. intros H Hq x Hx. eapply (cmp_lt_trans _ laws); eauto. Qed.
  Lemma all_gt_trans l q q' :
    all_gt l q -> cmp q' q = Lt -> all_gt l q'.
  Proof. intros H Hq x Hx. eapply (cmp_lt_trans _ laws); eauto. Qed.
  Lemma all_lt_eq l q q' :
    all_lt l q -> cmp q q' = Eq -> all_lt l q'.
  Proof. intros H Hq x Hx. eapply (cmp_lt_eq laws); eauto. Qed.
  Lemma all_gt_eq l q q' :
    all_gt l q -> cmp q q' = Eq -> all_gt l q'.
  Proof.
    intros H Hq x Hx. eapply (cmp_eq_lt laws); eauto. now apply (cmp_eq_sym laws).
  Qed.

  Lemma all_lt_app l r q : all_lt (l ++ r) q <-> all_lt l q /\ all_lt r q.
  Proof.
    unfold all_lt. split.
    - intros H. split; intros x Hx; apply H, in_or_app; auto.
    - intros [H1 H2] x Hx. apply in_app_or in Hx as [Hx|Hx]; auto.
  Qed.
  Lemma all_gt_app l r q : all_gt (l ++ r) q <-> all_gt l q /\ all_gt r q.
  Proof.
    unfold all_gt. split.
    - intros H. split; intros x Hx; apply H, in_or_app; auto.
    - intros [H1 H2] x Hx. apply in_app_or in Hx as [Hx|Hx]; auto.
  Qed.
  Lemma all_lt_cons e r q : all_lt (e :: r) q <-> cmp (key e) q = Lt /\ all_lt r q.
  Proof.
    unfold all_lt. split.
    - intros H. split; [apply H; now left|]. intros x Hx. apply H. now right.
    - intros [H1 H2] x [<-|Hx]; auto.
  Qed.
  Lemma all_gt_cons e r q : all_gt (e :: r) q <-> cmp q (key e) = Lt /\ all_gt r q.
  Proof.
    unfold all_gt. split.
    - intros H. split; [apply H; now left|]. intros x Hx. apply H. now right.
    - intros [H1 H2] x [<-|Hx]; auto.
  Qed.
  Lemma all_lt_nil q : all_lt [] q.
  Proof. intros ? []. Qed.
  Lemma all_gt_nil q : all_gt [] q.
  Proof. intros ? []. Qed.

  Lemma asc_pivot l e r :
    asc (l ++ e :: r) <->
    asc l /\ asc r /\ all_lt l (key e) /\ all_gt r (key e).
  Proof. exact (asc_pivot_iff l e r). Qed.

  Lemma all_lt_filters l q : all_lt l q ->
    filter (ltq q) l = l /\ filter (gtq q) l = [] /\ filter (eqq q) l = []
    /\ rem q l = l /\ fnd q l = None /\ mem q l = false /\ (forall f, upd q f l = l).
  Proof.
    intros H.
    assert (He : forall x, In x l -> eqq q x = false).
    { intros x Hx. unfold eq_q. now rewrite (H x Hx). }
    repeat split.
    - apply filter_all. intros x Hx. unfold lt_q. now rewrite (H x Hx).
    - apply filter_none. intros x Hx. unfold gt_q. now rewrite (H x Hx).
    - apply filter_none. exact He.
    - apply filter_all. intros x Hx. now rewrite He.
    - apply find_none_all. exact He.
    - unfold s_mem. clear H. induction l as [|a l IH]; cbn; auto.
      rewrite (He a (or_introl eq_refl)). cbn. apply IH. intros; apply He. now right.
    - intros f. unfold s_update. rewrite <- (map_id l) at 2. apply map_ext_in.
      intros x Hx. now rewrite He.
  Qed.

  Lemma all_gt_filters l q : all_gt l q ->
    filter (gtq q) l = l /\ filter (ltq q) l = [] /\ filter (eqq q) l = []
    /\ rem q l = l /\ fnd q l = None /\ mem q l = false /\ (forall f, upd q f l = l).
  Proof.
    intros H.
    assert (Hg : forall x, In x l -> cmp (key x) q = Gt).
    { intros x Hx. apply (cmp_gt_lt laws). now apply H. }
    assert (He : forall x, In x l -> eqq q x = false).
    { intros x Hx. unfold eq_q. now rewrite (Hg x Hx). }
    repeat split.
    - apply filter_all. intros x Hx. unfold gt_q. now rewrite (Hg x Hx).
    - apply filter_none. intros x Hx. unfold lt_q. now rewrite (Hg x Hx).
    - apply filter_none. exact He.
    - apply filter_all. intros x Hx. now rewrite He.
    - apply find_none_all. exact He.
    - unfold s_mem. clear H Hg. induction l as [|a l IH]; cbn; auto.
      rewrite (He a (or_introl eq_refl)). cbn. apply IH. intros; apply He. now right.
    - intros f. unfold s_update. rewrite <- (map_id l) at 2. apply map_ext_in.
      intros x Hx. now rewrite He.
  Qed.

  (** *** Pivot lemmas. [q] compared with the pivot as the code does it. *)
  Lemma ins_pivot_lt k v l e r :
    asc (l ++ e :: r) -> cmp (bor k) (key e) = Lt ->
    ins k v (l ++ e :: r) = ins k v l ++ e :: r.
  Proof.
    intros H Hk. apply asc_pivot in H as (_ & _ & _ & Hr).
    assert (Hr' : all_gt (e :: r) (bor k)).
    { apply all_gt_cons. split; auto. eapply all_gt_trans; eauto. }
    destruct (all_gt_filters _ _ Hr') as (E1 & E2 & _).
    unfold s_insert. rewrite !filter_app, E1, E2, app_nil_r.
    rewrite <- app_assoc. reflexivity.
  Qed.

  Lemma ins_pivot_gt k v l e r :
    asc (l ++ e :: r) -> cmp (bor k) (key e) = Gt ->
    ins k v (l ++ e :: r) = l ++ e :: ins k v r.
  Proof.
    intros H Hk. apply asc_pivot in H as (_ & _ & Hl & _).
    apply (cmp_gt_lt laws) in Hk.
    assert (Hl' : all_lt (l ++ [e]) (bor k)).
    { apply all_lt_app. split; [eapply all_lt_trans; eauto|].
      apply all_lt_cons. split; auto using all_lt_nil. }
    destruct (all_lt_filters _ _ Hl') as (E1 & E2 & _).
    replace (l ++ e :: r) with ((l ++ [e]) ++ r) by now rewrite <- app_assoc.
    unfold s_insert. rewrite !(filter_app _ (l ++ [e]) r), E1, E2.
    cbn [app]. rewrite <- !app_assoc. reflexivity.
  Qed.

  Lemma ins_pivot_eq k v l e r :
    asc (l ++ e :: r) -> cmp (bor k) (key e) = Eq ->
    ins k v (l ++ e :: r) = l ++ (k, v) :: r.
  Proof.
    intros H Hk. apply asc_pivot in H as (_ & _ & Hl & Hr).
    apply (cmp_eq_sym laws) in Hk.
    pose proof (all_lt_eq _ _ _ Hl Hk) as Hl'.
    pose proof (all_gt_eq _ _ _ Hr Hk) as Hr'.
    destruct (all_lt_filters _ _ Hl') as (E1 & E2 & _).
    destruct (all_gt_filters _ _ Hr') as (E3 & E4 & _).
    unfold s_insert. rewrite !filter_app. cbn [filter].
    unfold lt_q at 2, gt_q at 2. rewrite Hk, E1, E2, E3, E4.
    now rewrite app_nil_r.
  Qed.

  Lemma fnd_pivot_lt q l e r :
    asc (l ++ e :: r) -> cmp q (key e) = Lt -> fnd q (l ++ e :: r) = fnd q l.
  Proof.
    intros H Hk. apply asc_pivot in H as (_ & _ & _ & Hr).
    assert (Hr' : all_gt (e :: r) q).
    { apply all_gt_cons. split; auto. eapply all_gt_trans; eauto. }
    destruct (all_gt_filters _ _ Hr') as (_ & _ & _ & _ & E & _).
    unfold s_find in *. rewrite find_app, E. now destruct (find _ l).
  Qed.

  Lemma fnd_pivot_gt q l e r :
    asc (l ++ e :: r) -> cmp q (key e) = Gt -> fnd q (l ++ e :: r) = fnd q r.
  Proof.
    intros H Hk. apply asc_pivot in H as (_ & _ & Hl & _).
    apply (cmp_gt_lt laws) in Hk.
    assert (Hl' : all_lt (l ++ [e]) q).
    { apply all_lt_app. split; [eapply all_lt_trans; eauto|].
      apply all_lt_cons. split; auto using all_lt_nil. }
    destruct (all_lt_filters _ _ Hl') as (_ & _ & _ & _ & E & _).
    replace (l ++ e :: r) with ((l ++ [e]) ++ r) by now rewrite <- app_assoc.
    unfold s_find in *. now rewrite (find_app _ (l ++ [e]) r), E.
  Qed.

  Lemma fnd_pivot_eq q l e r :
    asc (l ++ e :: r) -> cmp q (key e) = Eq -> fnd q (l ++ e :: r) = Some e.
  Proof.
    intros H Hk. apply asc_pivot in H as (_ & _ & Hl & _).
    apply (cmp_eq_sym laws) in Hk.
    pose proof (all_lt_eq _ _ _ Hl Hk) as Hl'.
    destruct (all_lt_filters _ _ Hl') as (_ & _ & _ & _ & E & _).
    unfold s_find in *. rewrite find_app, E. cbn.
    unfold eq_q. now rewrite Hk.
  Qed.

  Lemma rem_pivot_lt q l e r :
    asc (l ++ e :: r) -> cmp q (key e) = Lt -> rem q (l ++ e :: r) = rem q l ++ e :: r.
  Proof.
    intros H Hk. apply asc_pivot in H as (_ & _ & _ & Hr).
    assert (Hr' : all_gt (e :: r) q).
    { apply all_gt_cons. split; auto. eapply all_gt_trans; eauto. }
    destruct (all_gt_filters _ _ Hr') as (_ & _ & _ & E & _).
    unfold s_remove in *. now rewrite filter_app, E.
  Qed.

  Lemma rem_pivot_gt q l e r :
    asc (l ++ e :: r) -> cmp q (key e) = Gt -> rem q (l ++ e :: r) = l ++ e :: rem q r.
  Proof.
    intros H Hk. apply asc_pivot in H as (_ & _ & Hl & _).
    apply (cmp_gt_lt laws) in Hk.
    assert (Hl' : all_lt (l ++ [e]) q).
    { apply all_lt_app. split; [eapply all_lt_trans; eauto|].
      apply all_lt_cons. split; auto using all_lt_nil. }
    destruct (all_lt_filters _ _ Hl') as (_ & _ & _ & E & _).
    replace (l ++ e :: r) with ((l ++ [e]) ++ r) by now rewrite <- app_assoc.
    unfold s_remove in *. rewrite (filter_app _ (l ++ [e]) r), E. now rewrite <- app_assoc.
  Qed.

  Lemma rem_pivot_eq q l e r :
    asc (l ++ e :: r) -> cmp q (key e) = Eq -> rem q (l ++ e :: r) = l ++ r.
  Proof.
    intros H Hk. apply asc_pivot in H as (_ & _ & Hl & Hr).
    apply (cmp_eq_sym laws) in Hk.
    pose proof (all_lt_eq _ _ _ Hl Hk) as Hl'.
    pose proof (all_gt_eq _ _ _ Hr Hk) as Hr'.
    destruct (all_lt_filters _ _ Hl') as (_ & _ & _ & E1 & _).
    destruct (all_gt_filters _ _ Hr') as (_ & _ & _ & E3 & _).
    unfold s_remove in *. rewrite !filter_app. cbn [filter].
    rewrite E1, E3. unfold eq_q. now rewrite Hk.
  Qed.

  Lemma upd_pivot_lt q f l e r :
    asc (l ++ e :: r) -> cmp q (key e) = Lt ->
    upd q f (l ++ e :: r) = upd q f l ++ e :: r.
  Proof.
    intros H Hk. apply asc_pivot in H as (_ & _ & _ & Hr).
    assert (Hr' : all_gt (e :: r) q).
    { apply all_gt_cons. split; auto. eapply all_gt_trans; eauto. }
    destruct (all_gt_filters _ _ Hr') as (_ & _ & _ & _ & _ & _ & E).
    unfold s_update in *. now rewrite map_app, E.
  Qed.

  Lemma upd_pivot_gt q f l e r :
    asc (l ++ e :: r) -> cmp q (key e) = Gt ->
    upd q f (l ++ e :: r) = l ++ e :: upd q f r.
  Proof.
    intros H Hk. apply asc_pivot in H as (_ & _ & Hl & _).
    apply (cmp_gt_lt laws) in Hk.
    assert (Hl' : all_lt (l ++ [e]) q).
    { apply all_lt_app. split; [eapply all_lt_trans; eauto|].
      apply all_lt_cons. split; auto using all_lt_nil. }
    destruct (all_lt_filters _ _ Hl') as (_ & _ & _ & _ & _ & _ & E).
    replace (l ++ e :: r) with ((l ++ [e]) ++ r) by now rewrite <- app_assoc.
    unfold s_update in *. rewrite (map_app _ (l ++ [e]) r), E. now rewrite <- app_assoc.
  Qed.

  Lemma upd_pivot_eq q f l e r :
    asc (l ++ e :: r) -> cmp q (key e) = Eq ->
    upd q f (l ++ e :: r) = l ++ (fst e, f (snd e)) :: r.
  Proof.
    intros H Hk. apply asc_pivot in H as (_ & _ & Hl & Hr).
    apply (cmp_eq_sym laws) in Hk.
    pose proof (all_lt_eq _ _ _ Hl Hk) as Hl'.
    pose proof (all_gt_eq _ _ _ Hr Hk) as Hr'.
    destruct (all_lt_filters _ _ Hl') as (_ & _ & _ & _ & _ & _ & E1).
    destruct (all_gt_filters _ _ Hr') as (_ & _ & _ & _ & _ & _ & E3).
    unfold s_update in *. rewrite !map_app. cbn [map].
    rewrite E1, E3. unfold eq_q. now rewrite Hk.
  Qed.

  (** *** Order is preserved *)
  Lemma asc_insert k v l : asc l -> asc (ins k v l).
  Proof.
    intros H. unfold s_insert. apply asc_pivot. repeat split.
    - now apply asc_filter.
    - now apply asc_filter.
    - intros x Hx. apply filter_In in Hx as [_ Hx]. now apply ltq_iff in Hx.
    - intros x Hx. apply filter_In in Hx as [_ Hx]. apply gtq_iff in Hx.
      now apply (cmp_gt_lt laws) in Hx.
  Qed.

  Lemma asc_remove q l : asc l -> asc (rem q l).
  Proof. apply asc_filter. Qed.

  Lemma asc_map_keys (f : entry -> entry) l :
    (forall e, fst (f e) = fst e) -> asc l -> asc (map f l).
  Proof.
    intros Hf. induction l as [|a l IH]; cbn; intros H; [constructor|].
    apply asc_cons_iff in H as [Hl Ha]. apply asc_cons_iff. split; auto.
    intros y Hy. apply in_map_iff in Hy as (z & <- & Hz). rewrite !Hf. auto.
  Qed.

  Lemma asc_update q f l : asc l -> asc (upd q f l).
  Proof.
    apply asc_map_keys. intros e. now destruct (eqq q e).
  Qed.

  Lemma asc_extend l ps : asc l -> asc (s_extend bor cmp l ps).
  Proof.
    revert l. induction ps as [|p ps IH]; cbn; intros l H; auto.
    apply IH. now apply asc_insert.
  Qed.

  (** *** Lookup laws *)
  Lemma mem_find q l : mem q l = match fnd q l with Some _ => true | None => false end.
  Proof.
    unfold s_mem, s_find. induction l as [|a l IH]; cbn; auto.
    destruct (eqq q a); auto.
  Qed.

  Lemma mem_iff q l : mem q l = true <-> exists e, In e l /\ cmp (key e) q = Eq.
  Proof.
    unfold s_mem. rewrite existsb_exists. split; intros (e & H1 & H2); exists e;
      split; auto; now apply eqq_iff.
  Qed.

  Lemma fnd_some q l e : fnd q l = Some e -> In e l /\ cmp (key e) q = Eq.
  Proof. intros H. apply find_some in H as [H1 H2]. split; auto. now apply eqq_iff. Qed.

  Lemma fnd_none q l : fnd q l = None -> forall e, In e l -> cmp (key e) q <> Eq.
  Proof.
    intros H e He Hq. pose proof (find_none _ _ H e He) as Hf. cbn in Hf.
    apply eqq_iff in Hq. congruence.
  Qed.

  Lemma fnd_none_iff q l : fnd q l = None <-> forall e, In e l -> cmp (key e) q <> Eq.
  Proof.
    split; [apply fnd_none|]. intros H. apply find_none_all. intros x Hx.
    destruct (eqq q x) eqn:E; auto. apply eqq_iff in E. now apply H in E.
  Qed.

  (** In an ascending list the keys are pairwise different. *)
  Lemma asc_key_inj l a b :
    asc l -> In a l -> In b l -> cmp (key a) (key b) = Eq -> a = b.
  Proof.
    induction l as [|x l IH]; cbn; intros H Ha Hb E; [tauto|].
    apply asc_cons_iff in H as [Hl Hx].
    destruct Ha as [->|Ha], Hb as [->|Hb]; auto.
    - rewrite (Hx b Hb) in E. discriminate.
    - apply (cmp_eq_sym laws) in E. rewrite (Hx a Ha) in E. discriminate.
  Qed.

  Lemma fnd_iff q l e :
    asc l -> (fnd q l = Some e <-> In e l /\ cmp (key e) q = Eq).
  Proof.
    intros H. split; [apply fnd_some|]. intros [Hi He].
    destruct (fnd q l) as [e'|] eqn:E.
    - apply fnd_some in E as [Hi' He']. f_equal. eapply asc_key_inj; eauto.
      eapply (cmp_eq_trans laws); eauto. now apply (cmp_eq_sym laws).
    - exfalso. eapply fnd_none; eauto.
  Qed.

  Lemma fnd_eq_q q q' l : cmp q q' = Eq -> fnd q l = fnd q' l.
  Proof.
    intros H. unfold s_find. induction l as [|a l IH]; cbn; auto.
    unfold eq_q at 1 3. rewrite (cmp_eq_r laws q q' _ H). rewrite IH. reflexivity.
  Qed.

  Lemma in_insert_iff k v l e :
    In e (ins k v l) <-> e = (k, v) \/ (In e l /\ cmp (key e) (bor k) <> Eq).
  Proof.
    unfold s_insert. rewrite in_app_iff. cbn. rewrite !filter_In.
    rewrite ltq_iff, gtq_iff. destruct (cmp (key e) (bor k)) eqn:E;
      intuition congruence.
  Qed.

  Lemma in_remove_iff q l e :
    In e (rem q l) <-> In e l /\ cmp (key e) q <> Eq.
  Proof.
    unfold s_remove. rewrite filter_In, negb_true_iff.
    destruct (eqq q e) eqn:E.
    - apply eqq_iff in E. intuition congruence.
    - split; intros [H1 H2]; split; auto. intros E'. apply eqq_iff in E'. congruence.
  Qed.

  Lemma length_insert k v l :
    asc l -> length (ins k v l) =
      (if mem (bor k) l then length l else S (length l)).
  Proof.
    intros H. destruct (mem (bor k) l) eqn:E.
    - apply mem_iff in E as (e & Hi & He). apply in_split in Hi as (l1 & l2 & ->).
      rewrite ins_pivot_eq; auto; [|now apply (cmp_eq_sym laws)].
      rewrite !app_length. reflexivity.
    - unfold s_insert. rewrite app_length. cbn [length].
      assert (Hn : forall e, In e l -> cmp (key e) (bor k) <> Eq).
      { intros e He Hc. assert (mem (bor k) l = true); [|congruence].
        apply mem_iff. eauto. }
      clear H E. induction l as [|a l IH]; cbn; auto.
      specialize (IH (fun e He => Hn e (or_intror He))).
      pose proof (Hn a (or_introl eq_refl)) as Ha.
      unfold lt_q at 1, gt_q at 1. destruct (cmp (key a) (bor k)) eqn:Ea; [congruence| |];
        cbn [length]; lia.
  Qed.

  Lemma length_remove q l :
    asc l -> length l = (length (rem q l) + if mem q l then 1 else 0)%nat.
  Proof.
    intros H. destruct (mem q l) eqn:E.
    - apply mem_iff in E as (e & Hi & He). apply in_split in Hi as (l1 & l2 & ->).
      rewrite rem_pivot_eq; auto; [|now apply (cmp_eq_sym laws)].
      rewrite !app_length. cbn. lia.
    - rewrite Nat.add_0_r. f_equal. unfold s_remove. symmetry. apply filter_all.
      intros x Hx. apply negb_true_iff. destruct (eqq q x) eqn:Ex; auto.
      assert (mem q l = true); [|congruence]. apply mem_iff. exists x.
      split; auto. now apply eqq_iff.
  Qed.

  (** Two ascending lists with the same entries are equal. *)
  Lemma asc_ext l r :
    asc l -> asc r -> (forall e, In e l <-> In e r) -> l = r.
  Proof.
    revert r. induction l as [|a l IH]; intros r Hl Hr H.
    - destruct r as [|b r]; auto. exfalso. apply (H b). now left.
    - destruct r as [|b r]; [exfalso; apply (H a); now left|].
      apply asc_cons_iff in Hl as [Hl Ha]. apply asc_cons_iff in Hr as [Hr Hb].
      assert (a = b) as <-.
      { destruct (proj1 (H a) (or_introl eq_refl)) as [E|E]; [now symmetry|].
        destruct (proj2 (H b) (or_introl eq_refl)) as [E'|E']; auto.
        pose proof (Hb a E) as H1. pose proof (Ha b E') as H2.
        pose proof (cmp_lt_trans _ laws _ _ _ H1 H2) as H3.
        now apply (cmp_lt_irrefl laws) in H3. }
      f_equal. apply IH; auto. intros e. split; intros He.
      + destruct (proj1 (H e) (or_intror He)) as [->|]; auto.
        pose proof (Ha e He) as H1. now apply (cmp_lt_irrefl laws) in H1.
      + destruct (proj2 (H e) (or_intror He)) as [->|]; auto.
        pose proof (Hb e He) as H1. now apply (cmp_lt_irrefl laws) in H1.
  Qed.

  (** An ascending list is determined by its lookups. *)
  Lemma asc_find_ext l r :
    asc l -> asc r -> (forall q, fnd q l = fnd q r) -> l = r.
  Proof.
    intros Hl Hr H. apply asc_ext; auto. intros e. split; intros He.
    - assert (E : fnd (key e) l = Some e).
      { apply fnd_iff; auto using (cmp_refl laws). }
      rewrite H in E. now apply fnd_some in E.
    - assert (E : fnd (key e) r = Some e).
      { apply fnd_iff; auto using (cmp_refl laws). }
      rewrite <- H in E. now apply fnd_some in E.
  Qed.
  (** Extending by larger keys in order appends. *)
  Lemma extend_asc_app l ps : asc (l ++ ps) -> s_extend bor cmp l ps = l ++ ps.
  Proof.
    revert l. induction ps as [|[k v] ps IH]; intros l A; [now rewrite app_nil_r|].
    cbn [s_extend fold_left fst snd]. fold (s_extend bor cmp (ins k v l) ps).
    assert (E : ins k v l = l ++ [(k, v)]).
    { apply asc_pivot in A as (_ & _ & A & _).
      destruct (all_lt_filters l (bor k) A) as (E1 & E2 & E3). unfold s_insert.
      rewrite ?E1, ?E2, ?E3. reflexivity. }
    rewrite E, IH; rewrite <- app_assoc; auto.
  Qed.
End SpecFacts.
