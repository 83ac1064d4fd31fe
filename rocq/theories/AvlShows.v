(** What a client sees of an AVL map: it passes its own check, and iterating it
    yields a list. The properties are stated in these terms. *)
From Coq Require Import List ZArith Bool Lia Sorted Permutation.
From Verif Require Import Base Spec MapSpec SpecFacts AvlModel AvlProofs AvlProofs2 AvlMapProofs
  AvlIterModel AvlIterProofs AvlHistModel AvlHistProofs.
Import ListNotations.

Section Shows.
  Context {K V Q : Type} (bor : K -> Q) (cmp : Q -> Q -> comparison).
  Notation amap := (avl_map K V).

  (** [check()] succeeds and [iter()] yields [l]. *)
  Definition shows (m : amap) (l : list (K * V)) : Prop :=
    avl_chk bor cmp m = Ok (inl tt) /\ avl_collect m = Ok l.

  (** The number of nodes on the longest path from the root. *)
  Fixpoint depth (t : tree K V) : nat :=
    match t with
    | Leaf => 0
    | Node _ _ _ _ l r => S (Nat.max (depth l) (depth r))
    end.

  Context (laws : order_laws cmp).
  Notation valid := (@valid K V Q bor cmp).
  Notation asc := (@ascending K V Q bor cmp).
  Notation fnd := (@s_find K V Q bor cmp).

  Lemma shows_valid m l : shows m l -> valid m /\ contents m = l.
  Proof.
    intros [H1 H2]. apply (check_sound bor cmp laws) in H1. split; auto.
    rewrite (avl_collect_spec bor cmp m H1) in H2. congruence.
  Qed.
  Lemma valid_shows m l : valid m -> contents m = l -> fits l -> shows m l.
  Proof.
    intros H <- F. split; [now apply check_spec|now apply (avl_collect_spec bor cmp)].
  Qed.

  Lemma shows_asc m l : shows m l -> asc l /\ avl_len m = length l.
  Proof.
    intros H. apply shows_valid in H as [Hv <-]. split; [now apply valid_asc|now apply (valid_len bor cmp)].
  Qed.

  Lemma shows_new : shows avl_new [].
  Proof. split; reflexivity. Qed.

  Lemma small_fits_S (l l' : list (K * V)) : small l -> (length l' <= S (length l))%nat -> fits l'.
  Proof. unfold small, fits. lia. Qed.

  Ltac start H := apply shows_valid in H as [?Hv ?Hc].

  Lemma insert_l m l k v : shows m l -> small l ->
    exists m', avl_insert bor cmp m k v = Ok (m', s_get bor cmp (bor k) l)
      /\ shows m' (s_insert bor cmp k v l).
  Proof.
    intros H Hs. apply shows_valid in H as [Hv <-].
    destruct (insert_spec bor cmp laws m k v Hv (small_fits _ Hs)) as (m' & E & Hv' & Hc').
    exists m'. split; auto. apply valid_shows; auto. eapply small_fits_S; eauto.
    apply (length_insert_le bor cmp laws). now apply valid_asc.
  Qed.

  Lemma len_remove q (l : list (K * V)) : (length (s_remove bor cmp q l) <= length l)%nat.
  Proof. apply filter_length_le. Qed.

  Lemma remove_entry_l m l q : shows m l -> small l ->
    exists m', avl_remove_entry bor cmp m q = Ok (m', fnd q l) /\ shows m' (s_remove bor cmp q l).
  Proof.
    intros H Hs. apply shows_valid in H as [Hv <-].
    destruct (remove_entry_spec bor cmp laws m q Hv (small_fits _ Hs)) as (m' & E & Hv' & Hc').
    exists m'. split; auto. apply valid_shows; auto. eapply small_fits_S; eauto.
    pose proof (len_remove q (contents m)). lia.
  Qed.
  Lemma remove_l m l q : shows m l -> small l ->
    exists m', avl_remove bor cmp m q = Ok (m', s_get bor cmp q l) /\ shows m' (s_remove bor cmp q l).
  Proof.
    intros H Hs. destruct (remove_entry_l m l q H Hs) as (m' & E & H').
    exists m'. unfold avl_remove. rewrite E. auto.
  Qed.

  Lemma lookup_l m l q : shows m l ->
    avl_get_key_value bor cmp m q = fnd q l
    /\ avl_get bor cmp m q = s_get bor cmp q l
    /\ avl_contains_key bor cmp m q = s_mem bor cmp q l
    /\ avl_index bor cmp m q = match s_get bor cmp q l with Some v => Ok v | None => Panic end.
  Proof.
    intros H. apply shows_valid in H as [Hv <-].
    rewrite (get_key_value_spec bor cmp laws), (get_spec bor cmp laws), (contains_key_spec bor cmp laws) by auto.
    repeat split; auto. unfold avl_index. rewrite (get_spec bor cmp laws) by auto. reflexivity.
  Qed.

  Lemma get_mut_l m l q w : shows m l -> small l ->
    exists m', avl_get_mut bor cmp m q w = (m', s_get bor cmp q l)
      /\ shows m' (s_update bor cmp q w l).
  Proof.
    intros H Hs. apply shows_valid in H as [Hv <-].
    pose proof (get_mut_spec bor cmp laws m q w Hv) as G.
    destruct (avl_get_mut bor cmp m q w) as [m' o]. destruct G as (G1 & G2 & ->).
    exists m'. split; auto. apply valid_shows; auto. eapply small_fits_S; eauto.
    unfold s_update. rewrite map_length. lia.
  Qed.

  Lemma ht_depth (t : tree K V) : ht t = Z.of_nat (depth t).
  Proof. induction t as [|k v lh rh l IHl r IHr]; cbn [ht depth]; lia. Qed.

  Lemma fib_pow2 n : (2 ^ Z.of_nat n <= fib (n + 2) * fib (n + 2))%Z /\ (2 ^ Z.of_nat (S n) <= fib (S n + 2) * fib (S n + 2))%Z.
  Proof.
    assert (G : forall n, (1 <= fib (n + 1))%Z).
    { intros m. replace (m + 1)%nat with (S m) by lia. transitivity (fib 1); [reflexivity|].
      apply (fib_mono 0 m). lia. }
    induction n as [|n [IH1 IH2]].
    - split; vm_compute; discriminate.
    - split; auto. rewrite !Nat2Z.inj_succ, Z.pow_succ_r, Z.pow_succ_r by lia.
      replace (S (S n) + 2)%nat with (S (S (n + 2))) by lia. rewrite fib_SS.
      replace (S (n + 2)) with (S n + 2)%nat by lia.
      assert (fib (n + 2) <= fib (S n + 2))%Z.
      { replace (n + 2)%nat with (S (n + 1)) by lia. replace (S n + 2)%nat with (S (S (n + 1))) by lia.
        apply fib_mono_S. }
      pose proof (G (n + 1)%nat). replace (n + 1 + 1)%nat with (n + 2)%nat in * by lia. nia.
  Qed.

  Lemma depth_l m l : shows m l ->
    (fib (depth (am_root m) + 2) <= Z.of_nat (length l) + 1)%Z
    /\ (2 ^ Z.of_nat (depth (am_root m)) <= (Z.of_nat (length l) + 1) ^ 2)%Z
    /\ ((Z.of_nat (length l) < 2 ^ 64)%Z -> (depth (am_root m) <= 91)%nat).
  Proof.
    intros H. apply shows_valid in H as [(Ha & _ & _) <-].
    pose proof (avl_fib _ Ha) as Hf. rewrite ht_depth, Nat2Z.id in Hf. split; [exact Hf|]. split.
    - destruct (fib_pow2 (depth (am_root m))) as [Hp _].
      assert (0 <= fib (depth (am_root m) + 2))%Z by (apply fib_nonneg).
      unfold contents. rewrite Z.pow_2_r. nia.
    - intros F. pose proof (avl_ht_bound _ Ha F) as Hb. rewrite ht_depth in Hb. lia.
  Qed.

  Lemma visits_depth (t : tree K V) q : (length (t_get_visits bor cmp t q) <= depth t)%nat.
  Proof.
    induction t as [|k v lh rh l IHl r IHr]; cbn [t_get_visits depth length]; auto.
    destruct (cmp q (bor k)); cbn [length]; lia.
  Qed.

  Lemma visits_l m l q : shows m l ->
    (2 ^ Z.of_nat (length (t_get_visits bor cmp (am_root m) q)) <= (Z.of_nat (length l) + 1) ^ 2)%Z.
  Proof.
    intros H. destruct (depth_l m l H) as (_ & H2 & _).
    etransitivity; [|exact H2]. apply Z.pow_le_mono_r; [lia|].
    pose proof (visits_depth (am_root m) q). lia.
  Qed.

  Lemma first_last_l m l : shows m l ->
    avl_first_key_value m = s_first l /\ avl_last_key_value m = s_last l
    /\ avl_len m = length l /\ avl_is_empty m = match l with [] => true | _ => false end.
  Proof.
    intros H. apply shows_valid in H as [Hv <-].
    rewrite first_spec, last_spec, (valid_len bor cmp), (is_empty_spec bor cmp); auto.
  Qed.

  Lemma pop_first_l m l : shows m l -> small l ->
    exists m', avl_pop_first m = Ok (m', s_first l) /\ shows m' (tl l).
  Proof.
    intros H Hs. apply shows_valid in H as [Hv <-].
    destruct (pop_first_spec bor cmp m Hv (small_fits _ Hs)) as (m' & E & Hv' & Hc').
    exists m'. split; auto. apply valid_shows; auto. eapply small_fits_S; eauto.
    destruct (contents m); cbn; lia.
  Qed.
  Lemma pop_last_l m l : shows m l -> small l ->
    exists m', avl_pop_last m = Ok (m', s_last l) /\ shows m' (removelast l).
  Proof.
    intros H Hs. apply shows_valid in H as [Hv <-].
    destruct (pop_last_spec bor cmp m Hv (small_fits _ Hs)) as (m' & E & Hv' & Hc').
    exists m'. split; auto. apply valid_shows; auto. eapply small_fits_S; eauto.
    rewrite removelast_length. lia.
  Qed.

  Lemma iter_l m l cs : shows m l ->
    run_ends norm_destr norm_size cs (avl_iter m) = Ok (s_ends cs l).
  Proof. intros H. apply shows_valid in H as [Hv <-]. now apply (iter_spec bor cmp). Qed.

  Lemma range_l m l lo hi cs : shows m l ->
    exists it extra, avl_range bor cmp m lo hi = Ok it
      /\ run_ends norm_destr norm_size cs it
         = Ok (map (fun x => (fst x, (snd x + extra)%nat)) (s_ends cs (s_range bor cmp lo hi l)))
      /\ range_size_hint it = (0%nat, Some (length (s_range bor cmp lo hi l) + extra)%nat).
  Proof.
    intros H. apply shows_valid in H as [Hv <-].
    destruct (range_spec bor cmp laws m lo hi Hv) as (it & E & D & L).
    exists it, (length (contents m) - length (s_range bor cmp lo hi (contents m)))%nat.
    pose proof (filter_length_le (fun e => above bor cmp lo e && below bor cmp hi e) (contents m)) as Hle.
    fold (s_range bor cmp lo hi (contents m)) in Hle.
    split; auto. split.
    - rewrite <- D. apply run_ends_ok with (1 := norm_flat) (2 := norm_sized). rewrite D, L. lia.
    - unfold range_size_hint. rewrite L. f_equal. f_equal. lia.
  Qed.

  Lemma fits_union a b (t : list (K * V)) : small a -> small b -> asc a -> asc b -> asc t ->
    (forall q, fnd q t = match fnd q b with Some e => Some e | None => fnd q a end) -> fits t.
  Proof.
    intros Sa Sb Aa Ab At E.
    assert (Hin : incl t (b ++ a)).
    { intros e He. apply in_or_app.
      assert (Hf : fnd (bor (fst e)) t = Some e).
      { apply (fnd_iff bor cmp laws); auto. split; auto. apply (cmp_refl laws). }
      rewrite E in Hf. destruct (fnd (bor (fst e)) b) eqn:Eb.
      - injection Hf as ->. left. now apply fnd_some in Eb.
      - right. now apply fnd_some in Hf. }
    apply NoDup_incl_length in Hin; [|now apply (asc_nodup bor cmp laws)].
    rewrite app_length in Hin. unfold fits, small in *. lia.
  Qed.

  Lemma new_union_l a b la lb : shows a la -> shows b lb -> small la -> small lb ->
    exists m l, avl_new_union bor cmp a b = Ok m /\ shows m l
      /\ forall q, fnd q l = match fnd q lb with Some e => Some e | None => fnd q la end.
  Proof.
    intros Ha Hb Sa Sb. apply shows_valid in Ha as [Hva <-]. apply shows_valid in Hb as [Hvb <-].
    destruct (new_union_spec bor cmp laws a b Hva Hvb (small_fits2 _ _ Sa Sb)) as (m & E & Hv & Hq).
    exists m, (contents m). split; auto. split; auto. apply valid_shows; auto.
    eapply (fits_union (contents a) (contents b)); eauto using valid_asc.
  Qed.
  Lemma append_l a b la lb : shows a la -> shows b lb -> small la -> small lb ->
    exists a' b' l, avl_append bor cmp a b = Ok (a', b') /\ shows a' l /\ shows b' []
      /\ forall q, fnd q l = match fnd q lb with Some e => Some e | None => fnd q la end.
  Proof.
    intros Ha Hb Sa Sb. apply shows_valid in Ha as [Hva <-]. apply shows_valid in Hb as [Hvb <-].
    destruct (append_spec bor cmp laws a b Hva Hvb (small_fits2 _ _ Sa Sb)) as (a' & b' & E & Hv & Hv' & Hc & Hq).
    exists a', b', (contents a'). split; auto. split; [|split; auto].
    - apply valid_shows; auto. eapply (fits_union (contents a) (contents b)); eauto using valid_asc.
    - apply valid_shows; auto. unfold fits. cbn. lia.
  Qed.
  Lemma new_intersect_l a b la lb : shows a la -> shows b lb -> small la -> small lb ->
    exists m, avl_new_intersect bor cmp a b = Ok m /\ shows m (s_inter bor cmp la lb).
  Proof.
    intros Ha Hb Sa Sb. apply shows_valid in Ha as [Hva <-]. apply shows_valid in Hb as [Hvb <-].
    destruct (new_intersect_spec bor cmp laws a b Hva Hvb (small_fits2 _ _ Sa Sb)) as (m & E & Hv & Hc).
    exists m. split; auto. apply valid_shows; auto. eapply small_fits_S; [exact Sa|].
    pose proof (filter_length_le (fun e => s_mem bor cmp (bor (fst e)) (contents b)) (contents a)).
    unfold s_inter. lia.
  Qed.
  Lemma new_diff_l a b la lb : shows a la -> shows b lb -> small la -> small lb ->
    exists m, avl_new_diff bor cmp a b = Ok m /\ shows m (s_diff bor cmp la lb).
  Proof.
    intros Ha Hb Sa Sb. apply shows_valid in Ha as [Hva <-]. apply shows_valid in Hb as [Hvb <-].
    destruct (new_diff_spec bor cmp laws a b Hva Hvb (small_fits2 _ _ Sa Sb)) as (m & E & Hv & Hc).
    exists m. split; auto. apply valid_shows; auto. eapply small_fits_S; [exact Sa|].
    pose proof (filter_length_le (fun e => negb (s_mem bor cmp (bor (fst e)) (contents b))) (contents a)).
    unfold s_diff. lia.
  Qed.
  Lemma new_sym_diff_l a b la lb : shows a la -> shows b lb -> small la -> small lb ->
    exists m l, avl_new_sym_diff bor cmp a b = Ok m /\ shows m l
      /\ forall q, fnd q l = match fnd q la, fnd q lb with
                             | Some e, None => Some e
                             | None, Some e => Some e
                             | _, _ => None
                             end.
  Proof.
    intros Ha Hb Sa Sb. apply shows_valid in Ha as [Hva <-]. apply shows_valid in Hb as [Hvb <-].
    destruct (new_sym_diff_spec bor cmp laws a b Hva Hvb (small_fits2 _ _ Sa Sb)) as (m & E & Hv & Hq).
    exists m, (contents m). split; auto. split; auto. apply valid_shows; auto.
    assert (Hin : incl (contents m) (contents b ++ contents a)).
    { intros e He. apply in_or_app.
      assert (Hf : fnd (bor (fst e)) (contents m) = Some e).
      { apply (fnd_iff bor cmp laws); auto using valid_asc. split; auto. apply (cmp_refl laws). }
      rewrite Hq in Hf. destruct (fnd (bor (fst e)) (contents a)) eqn:Ea, (fnd (bor (fst e)) (contents b)) eqn:Eb;
        try discriminate; injection Hf as ->.
      - right. now apply fnd_some in Ea.
      - left. now apply fnd_some in Eb. }
    apply NoDup_incl_length in Hin; [|now apply (asc_nodup bor cmp laws), valid_asc].
    rewrite app_length in Hin. unfold fits, small in *. lia.
  Qed.

  Lemma new_join_l a k v b la lb : shows a la -> shows b lb -> small la -> small lb ->
    (forall e, In e la -> cmp (bor (fst e)) (bor k) = Lt) ->
    (forall e, In e lb -> cmp (bor k) (bor (fst e)) = Lt) ->
    exists m, avl_new_join bor cmp a k v b = Ok m /\ shows m (la ++ (k, v) :: lb).
  Proof.
    intros Ha Hb Sa Sb Hl Hr. apply shows_valid in Ha as [Hva <-]. apply shows_valid in Hb as [Hvb <-].
    destruct (new_join_spec bor cmp laws a k v b Hva Hvb (small_fits2 _ _ Sa Sb) Hl Hr) as (m & E & Hv & Hc).
    exists m. split; auto. apply valid_shows; auto. unfold fits, small in *.
    rewrite app_length. cbn [length]. lia.
  Qed.
  Lemma new_join_rejects_l a k v b la lb : shows a la -> shows b lb ->
    (exists e, In e la /\ cmp (bor (fst e)) (bor k) <> Lt) \/ (exists e, In e lb /\ cmp (bor k) (bor (fst e)) <> Lt) ->
    avl_new_join bor cmp a k v b = Panic.
  Proof.
    intros Ha Hb Hex. apply shows_valid in Ha as [Hva <-]. apply shows_valid in Hb as [Hvb <-].
    destruct (avl_new_join bor cmp a k v b) as [m|] eqn:E; auto. exfalso.
    destruct (new_join_assert bor cmp laws a k v b m Hva Hvb E) as [H1 H2].
    destruct Hex as [(e & Hi & Hn)|(e & Hi & Hn)]; auto.
  Qed.

  Lemma split_off_l m l q : shows m l -> small l ->
    exists m1 m2, avl_split_off bor cmp m q = Ok (m1, m2)
      /\ shows m1 (filter (lt_q bor cmp q) l)
      /\ shows m2 (filter (fun e => negb (lt_q bor cmp q e)) l).
  Proof.
    intros H Hs. apply shows_valid in H as [Hv <-].
    destruct (split_off_spec bor cmp laws m q Hv (small_fits _ Hs)) as (m1 & m2 & E & Hv1 & Hv2 & Hc1 & Hc2).
    exists m1, m2. split; auto.
    split; apply valid_shows; auto; eapply small_fits_S; try exact Hs.
    - pose proof (filter_length_le (lt_q bor cmp q) (contents m)). lia.
    - pose proof (filter_length_le (fun e => negb (lt_q bor cmp q e)) (contents m)). lia.
  Qed.

  Lemma retain_l {S} (f : S -> K -> V -> S * V * bool) m l s : shows m l -> small l ->
    exists m' l' s' order outs,
      avl_retain f m s = Ok (m', s') /\ shows m' l'
      /\ Permutation order l /\ run_calls f s order = (outs, s')
      /\ forall k v', In (k, v') l' <-> exists v, In ((k, v), v', true) outs.
  Proof.
    intros H Hs. apply shows_valid in H as [Hv <-].
    destruct (retain_spec bor cmp laws f m s Hv (small_fits _ Hs)) as (m' & s' & order & outs & E & Hv' & Hp & Hr & Hi).
    exists m', (contents m'), s', order, outs. split; auto. split; [|auto].
    apply valid_shows; auto. eapply small_fits_S; [exact Hs|].
    assert (Hk : incl (map fst (contents m')) (map fst (contents m))).
    { intros k Hk. apply in_map_iff in Hk as ([k' v'] & <- & Hk). apply Hi in Hk as [v Hk].
      apply in_map_iff. exists (k', v). split; auto.
      eapply Permutation_in; [exact Hp|]. rewrite <- (run_calls_keys f s order), Hr. cbn [fst].
      apply in_map_iff. exists (k', v, v', true). auto. }
    apply NoDup_incl_length in Hk.
    - rewrite !map_length in Hk. lia.
    - pose proof (valid_asc bor cmp _ Hv') as A. clear - A laws.
      induction (contents m') as [|e es IH]; cbn; constructor.
      + apply (asc_cons_iff bor cmp) in A as [_ A]. intros Hi. apply in_map_iff in Hi as (x & Ex & Hx).
        specialize (A x Hx). rewrite Ex, (cmp_refl laws) in A. discriminate.
      + apply IH. now apply (asc_cons_iff bor cmp) in A as [A _].
  Qed.

  Lemma retain_pure_l (g : K -> V -> V * bool) m l : shows m l -> small l ->
    exists m', avl_retain (fun (s : unit) k v => (s, fst (g k v), snd (g k v))) m tt = Ok (m', tt)
      /\ shows m' (s_retain g l).
  Proof.
    intros H Hs. apply shows_valid in H as [Hv <-].
    destruct (retain_pure_spec bor cmp laws g m Hv (small_fits _ Hs)) as (m' & E & Hv' & Hc).
    exists m'. split; auto. apply valid_shows; auto. eapply small_fits_S; [exact Hs|].
    unfold s_retain. rewrite map_length.
    pose proof (filter_length_le (fun e => snd (g (fst e) (snd e))) (contents m)). lia.
  Qed.

  Lemma for_each_mut_l {S} (g : S -> K -> V -> S * V) m l s : shows m l -> small l ->
    exists m', avl_for_each_mut g m s = (m', snd (map_state g l s))
      /\ shows m' (fst (map_state g l s)).
  Proof.
    intros H Hs. apply shows_valid in H as [Hv <-].
    pose proof (avl_for_each_mut_spec bor cmp g m s Hv) as G.
    destruct (avl_for_each_mut g m s) as [m' s']. destruct G as [Hv' E]. rewrite E. cbn [fst snd].
    exists m'. split; auto. apply valid_shows; auto. eapply small_fits_S; [exact Hs|].
    pose proof (map_state_keys g (contents m) s) as Hk. rewrite E in Hk. cbn [fst] in Hk.
    apply (f_equal (@length _)) in Hk. rewrite !map_length in Hk. lia.
  Qed.

  Lemma iter_mut_l m l cs : shows m l ->
    exists refs, map snd refs = map fst l
      /\ run_ends mut_destr mut_size cs (avl_iter_mut m) = Ok (s_ends cs refs)
      /\ (small l -> forall i r w, nth_error refs i = Some r ->
            shows (avl_write r w m) (upd_nth i w l)
            /\ run_ends mut_destr mut_size cs (avl_iter_mut (avl_write r w m)) = Ok (s_ends cs refs)).
  Proof.
    intros H. apply shows_valid in H as [Hv <-]. exists (mrefs m).
    split; [apply mrefs_keys|]. split; [now apply (iter_mut_spec bor cmp)|].
    intros Hs i r w Hi. destruct (write_spec bor cmp m i r w Hv Hi) as (G1 & G2 & G3). split.
    - apply valid_shows; auto. eapply small_fits_S; [exact Hs|].
      rewrite <- (map_length fst (upd_nth i w (contents m))), upd_nth_keys, map_length. lia.
    - rewrite <- G3. now apply (iter_mut_spec bor cmp).
  Qed.

  Lemma range_mut_l m l lo hi cs : shows m l ->
    exists refs it extra, map snd refs = map fst l
      /\ avl_range_mut bor cmp m lo hi = Ok it
      /\ run_ends mut_destr mut_size cs it
         = Ok (map (fun x => (fst x, (snd x + extra)%nat))
                   (s_ends cs (filter (fun r => above bor cmp lo (snd r, tt) && below bor cmp hi (snd r, tt)) refs)))
      /\ (small l -> forall i r w, nth_error refs i = Some r -> shows (avl_write r w m) (upd_nth i w l)).
  Proof.
    intros H. apply shows_valid in H as [Hv <-].
    destruct (range_mut_spec bor cmp laws m lo hi Hv) as (it & E & D & L).
    assert (D' : den mflat (it_work it) =
      filter (fun r => above bor cmp lo (snd r, tt) && below bor cmp hi (snd r, tt)) (mrefs m)).
    { rewrite D. apply filter_ext. intros r. unfold inr_, i_above, i_below, above, below, lt_q, gt_q. cbn [fst].
      destruct lo as [|q|q], hi as [|q'|q']; auto;
        repeat match goal with |- context [cmp ?a ?b] => destruct (cmp a b) end; reflexivity. }
    exists (mrefs m), it, (length (contents m) - length (den mflat (it_work it)))%nat.
    split; [apply mrefs_keys|]. split; [exact E|]. split.
    - rewrite <- D'. apply run_ends_ok with (1 := mut_flat) (2 := mut_sized).
      rewrite L, D'.
      assert (aux : forall a b, (b <= a)%nat -> a = (b + (a - b))%nat) by (intros; lia).
      apply aux. etransitivity; [apply filter_length_le|]. apply Nat.eq_le_incl, refs_length.
    - intros Hs i r w Hi. destruct (write_spec bor cmp m i r w Hv Hi) as (G1 & G2 & G3).
      apply valid_shows; auto. eapply small_fits_S; [exact Hs|].
      rewrite <- (map_length fst (upd_nth i w (contents m))), upd_nth_keys, map_length. lia.
  Qed.

  Lemma eq_cmp_hash_l keq veq kcmp vcmp a b la lb : shows a la -> shows b lb ->
    avl_eq keq veq a b = Ok (seq_eqb keq veq la lb)
    /\ avl_cmp kcmp vcmp a b = Ok (seq_cmp kcmp vcmp la lb).
  Proof.
    intros Ha Hb. apply shows_valid in Ha as [Hva <-]. apply shows_valid in Hb as [Hvb <-].
    split; [now apply (eq_spec bor cmp)|now apply (cmp_spec bor cmp)].
  Qed.

  Lemma hash_l {H} (hlen : H -> nat -> H) hk hv m l s : shows m l ->
    avl_hash hlen hk hv m s
    = fold_left (fun s e => hv (hk s (fst e)) (snd e)) l (hlen s (length l)).
  Proof. intros Ha. apply shows_valid in Ha as [Hva <-]. now apply (hash_spec bor cmp). Qed.

  (** Equal maps hash equally, whatever [==] on keys and values is, as long as it
      implies equal hashes. *)
  Lemma eq_hash_l {H} (hlen : H -> nat -> H) hk hv keq veq a b la lb s :
    (forall s k1 k2, keq k1 k2 = true -> hk s k1 = hk s k2) ->
    (forall s v1 v2, veq v1 v2 = true -> hv s v1 = hv s v2) ->
    shows a la -> shows b lb -> avl_eq keq veq a b = Ok true ->
    avl_hash hlen hk hv a s = avl_hash hlen hk hv b s.
  Proof.
    intros Hk Hvv Ha Hb E. rewrite (hash_l hlen hk hv a la), (hash_l hlen hk hv b lb) by auto.
    destruct (eq_cmp_hash_l keq veq (fun _ _ => Eq) (fun _ _ => Eq) a b la lb Ha Hb) as [E' _].
    rewrite E' in E. injection E as E. clear - E Hk Hvv.
    assert (El : length la = length lb).
    { revert lb E. induction la as [|[k v] la IH]; intros [|[k' v'] lb] E; cbn in *; try discriminate; auto.
      apply andb_true_iff in E as [_ E]. f_equal. auto. }
    rewrite El. generalize (hlen s (length lb)) as s0. clear El.
    revert lb E. induction la as [|[k v] la IH]; intros [|[k' v'] lb] E s0; cbn in *; try discriminate; auto.
    apply andb_true_iff in E as [E E2]. apply andb_true_iff in E as [E0 E1].
    rewrite (Hk _ _ _ E0), (Hvv _ _ _ E1). auto.
  Qed.

  Lemma or_insert_with_l {S} m l k (f : S -> S * V) s w : shows m l -> small l ->
    exists m',
      entry_or_insert_with bor cmp m k f s w =
        Ok (match s_get bor cmp (bor k) l with
            | Some v => (m', s, v)
            | None => (m', fst (f s), snd (f s))
            end)
      /\ shows m' (match s_get bor cmp (bor k) l with
                   | Some _ => s_update bor cmp (bor k) w l
                   | None => s_insert bor cmp k (w (snd (f s))) l
                   end).
  Proof.
    intros H Hs. apply shows_valid in H as [Hv <-].
    destruct (or_insert_with_spec bor cmp laws m k f s w Hv (small_fits _ Hs)) as (m' & E & Hv' & Hc).
    exists m'. split; auto. apply valid_shows; auto. eapply small_fits_S; [exact Hs|].
    destruct (s_get bor cmp (bor k) (contents m)).
    - unfold s_update. rewrite map_length. lia.
    - apply (length_insert_le bor cmp laws). now apply valid_asc.
  Qed.
  Lemma and_modify_l m l k f : shows m l -> small l ->
    shows (entry_and_modify bor cmp m k f) (s_update bor cmp (bor k) f l).
  Proof.
    intros H Hs. apply shows_valid in H as [Hv <-].
    destruct (and_modify_spec bor cmp laws m k f Hv) as [Hv' Hc].
    apply valid_shows; auto. eapply small_fits_S; [exact Hs|]. unfold s_update. rewrite map_length. lia.
  Qed.
  Lemma end_entry_l m l : shows m l ->
    first_entry m = option_map fst (s_first l) /\ last_entry m = option_map fst (s_last l).
  Proof.
    intros H. destruct (first_last_l m l H) as (E1 & E2 & _). unfold first_entry, last_entry.
    now rewrite E1, E2.
  Qed.

  Lemma extend_length ps : forall l : list (K * V), asc l ->
    (length (s_extend bor cmp l ps) <= length l + length ps)%nat.
  Proof.
    induction ps as [|[k v] ps IH]; intros l A; cbn [s_extend fold_left length fst snd]; [lia|].
    fold (s_extend bor cmp (s_insert bor cmp k v l) ps).
    specialize (IH (s_insert bor cmp k v l) (asc_insert bor cmp laws k v l A)).
    pose proof (length_insert_le bor cmp laws k v l A). lia.
  Qed.

  Lemma extend_l m l ps : shows m l -> small l -> small ps ->
    exists m', avl_extend bor cmp m ps = Ok m' /\ shows m' (s_extend bor cmp l ps).
  Proof.
    intros H Hs Hp. apply shows_valid in H as [Hv <-].
    destruct (extend_spec bor cmp laws ps m Hv (small_fits2 _ _ Hs Hp)) as (m' & E & Hv' & Hc).
    exists m'. split; auto. apply valid_shows; auto.
    pose proof (extend_length ps (contents m) (valid_asc bor cmp m Hv)). unfold fits, small in *. lia.
  Qed.
  Lemma from_iter_l ps : small ps ->
    exists m', avl_from_iter bor cmp ps = Ok m' /\ shows m' (s_extend bor cmp [] ps).
  Proof. intros Hp. apply extend_l; auto using shows_new. unfold small. cbn. lia. Qed.

  (** The last pair for a key wins. *)
  Lemma extend_find ps : forall l q, asc l ->
    fnd q (s_extend bor cmp l ps) =
    match fnd q (rev ps) with Some e => Some e | None => fnd q l end.
  Proof.
    induction ps as [|[k v] ps IH]; intros l q A; cbn [s_extend fold_left fst snd rev]; auto.
    fold (s_extend bor cmp (s_insert bor cmp k v l) ps).
    rewrite IH by now apply asc_insert. unfold s_find. rewrite find_app.
    destruct (find (eq_q bor cmp q) (rev ps)) eqn:E; auto.
    fold (fnd q (s_insert bor cmp k v l)). rewrite (find_insert bor cmp laws) by auto.
    cbn [find]. unfold eq_q at 1. cbn [fst]. rewrite (cmp_opp _ laws q (bor k)).
    destruct (cmp q (bor k)); reflexivity.
  Qed.

  Lemma run_l keq veq kcmp vcmp os : all_small bor cmp keq veq kcmp vcmp [] os ->
    exists st', run bor cmp keq veq kcmp vcmp [] os
                = Ok (st', snd (s_run bor cmp keq veq kcmp vcmp [] os))
      /\ Forall2 shows st' (fst (s_run bor cmp keq veq kcmp vcmp [] os)).
  Proof.
    intros Sm. destruct (run_ok bor cmp laws keq veq kcmp vcmp os [] []) as (st' & E & R); auto.
    { constructor. }
    exists st'. split; auto.
    assert (Sf : Forall small (fst (s_run bor cmp keq veq kcmp vcmp [] os))).
    { clear - Sm. revert Sm. generalize (@nil (list (K * V))) as sst.
      induction os as [|o os IH]; intros sst Sm; cbn [all_small s_run] in *; [tauto|].
      destruct Sm as (_ & _ & Sm). destruct (s_step bor cmp keq veq kcmp vcmp sst o) as [sst1 r].
      cbn [fst] in Sm. specialize (IH _ Sm).
      destruct (s_run bor cmp keq veq kcmp vcmp sst1 os). exact IH. }
    clear - R Sf laws. induction R as [|m l st sst [Hv Hc] R IH]; constructor.
    - inversion Sf; subst. apply valid_shows; auto. now apply small_fits.
    - apply IH. now inversion Sf.
  Qed.

  Lemma run_check_l keq veq kcmp vcmp (os : list (op K V Q)) st' rs : all_small bor cmp keq veq kcmp vcmp [] os ->
    run bor cmp keq veq kcmp vcmp [] os = Ok (st', rs) ->
    Forall (fun m => avl_chk bor cmp m = Ok (inl tt)) st'.
  Proof.
    intros Sm E. destruct (run_l keq veq kcmp vcmp os Sm) as (st & E' & F).
    rewrite E' in E. injection E as <- _. clear E'. induction F as [|m l st sst [H _] F IH]; auto.
  Qed.
End Shows.
