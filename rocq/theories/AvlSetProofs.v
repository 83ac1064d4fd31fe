(** Facts about the [AvlSet] model. *)
From Coq Require Import List Bool Sorted ZArith Lia NArith.
From Verif Require Import Base Spec MapSpec SpecFacts SetSpec SetOpModel SetFacts AvlModel AvlProofs
  AvlProofs2 AvlMapProofs AvlIterModel AvlIterProofs AvlHistProofs AvlSetModel.
Import ListNotations.
Local Open Scope nat_scope.

Section XSet.
  Context {T Q : Type} (bor : T -> Q) (cmp : Q -> Q -> comparison) (laws : order_laws cmp).
  Notation xasc := (@x_ascending T Q bor cmp).
  Notation mem := (@x_mem T Q bor cmp).

  Lemma xmem_app q l r : mem q (l ++ r) = mem q l || mem q r.
  Proof. apply existsb_app. Qed.
  Lemma xmem_nil q : mem q [] = false.
  Proof. reflexivity. Qed.
  Lemma xmem_false q l : mem q l = false <-> forall x, In x l -> cmp (bor x) q <> Eq.
  Proof.
    split.
    - intros H x Hx E. assert (mem q l = true) by (apply xmem_iff; eauto). congruence.
    - intros H. destruct (mem q l) eqn:E; auto. apply xmem_iff in E as (x & Hx & E). now apply H in E.
  Qed.

  Lemma xlength_remove q l : xasc l -> length l = length (x_remove bor cmp q l) + if mem q l then 1 else 0.
  Proof.
    intros H. pose proof (length_remove bor cmp laws q (tag l)) as G.
    rewrite tag_length, tag_remove, tag_length, tag_mem in G. apply G. now apply tag_asc.
  Qed.

  Lemma xlength_extend xs : forall l, xasc l -> length (x_extend bor cmp l xs) <= length l + length xs.
  Proof.
    induction xs as [|x xs IH]; intros l H; cbn [x_extend fold_left length]; [lia|].
    fold (x_extend bor cmp (x_insert bor cmp x l) xs).
    assert (Hi : xasc (x_insert bor cmp x l)).
    { rewrite <- tag_asc, <- (tag_insert bor cmp x tt). apply (asc_insert bor cmp laws). now apply tag_asc. }
    specialize (IH _ Hi).
    pose proof (length_insert bor cmp laws x tt (tag l)) as G.
    rewrite (tag_insert bor cmp x tt), !tag_length in G. rewrite tag_asc in G. specialize (G H).
    destruct (s_mem bor cmp (bor x) (tag l)); lia.
  Qed.

  Lemma subset_length l : forall r, xasc l -> xasc r -> x_subset bor cmp l r = true -> length l <= length r.
  Proof.
    induction l as [|x l IH]; intros r Hl Hr H; cbn [length]; [lia|].
    cbn in H. apply andb_true_iff in H as [Hx H]. apply xasc_cons_iff in Hl as [Hl Hgt].
    pose proof (xlength_remove (bor x) r Hr) as G. rewrite Hx in G. rewrite G.
    assert (length l <= length (x_remove bor cmp (bor x) r)); [|lia].
    apply IH; auto; [now apply xasc_filter|].
    unfold x_subset in *. rewrite forallb_forall in *. intros y Hy.
    specialize (H y Hy). apply xmem_iff in H as (z & Hz & E). apply xmem_iff. exists z. split; auto.
    apply filter_In. split; auto. unfold x_eq. specialize (Hgt y Hy).
    destruct (cmp (bor z) (bor x)) eqn:F; auto.
    rewrite (cmp_eq_l _ laws _ _ (bor y) F) in E. congruence.
  Qed.

  Lemma x_retain_le {S} (f : S -> T -> S * bool) l : forall s, length (fst (x_retain f s l)) <= length l.
  Proof.
    induction l as [|x l IH]; intros s; cbn; auto. destruct (f s x) as [s1 k]. specialize (IH s1).
    destruct (x_retain f s1 l). cbn in *. rewrite app_length. destruct k; cbn; lia.
  Qed.
  Lemma x_retain_in {S} (f : S -> T -> S * bool) l y : forall s, In y (fst (x_retain f s l)) -> In y l.
  Proof.
    induction l as [|x l IH]; intros s; cbn; auto. destruct (f s x) as [s1 k]. specialize (IH s1).
    destruct (x_retain f s1 l). cbn in *. intros H. apply in_app_or in H as [H|H]; auto.
    destruct k; destruct H; auto; contradiction.
  Qed.
  Lemma x_retain_asc {S} (f : S -> T -> S * bool) l : forall s, xasc l -> xasc (fst (x_retain f s l)).
  Proof.
    induction l as [|x l IH]; intros s H; cbn; auto. apply xasc_cons_iff in H as [H Hx].
    destruct (f s x) as [s1 k]. specialize (IH s1 H). pose proof (fun y => x_retain_in f l y s1) as I.
    destruct (x_retain f s1 l). cbn in *. destruct k; auto. apply xasc_cons_iff. auto.
  Qed.
  Lemma x_retain_app {S} (f : S -> T -> S * bool) l r : forall s,
    x_retain f s (l ++ r) = let '(a, s1) := x_retain f s l in let '(b, s2) := x_retain f s1 r in (a ++ b, s2).
  Proof.
    induction l as [|x l IH]; intros s; cbn.
    - now destruct (x_retain f s r).
    - destruct (f s x) as [s1 k]. rewrite IH. destruct (x_retain f s1 l) as [a s2].
      destruct (x_retain f s2 r). now rewrite app_assoc.
  Qed.
  Lemma x_retain_pure (g : T -> bool) l : x_retain (fun (u : unit) x => (u, g x)) tt l = (filter g l, tt).
  Proof. induction l as [|x l IH]; cbn; auto. rewrite IH. now destruct (g x). Qed.
  Lemma x_extend_app l xs ys : x_extend bor cmp l (xs ++ ys) = x_extend bor cmp (x_extend bor cmp l xs) ys.
  Proof. apply fold_left_app. Qed.
  Lemma x_extend_asc l xs : xasc (l ++ xs) -> x_extend bor cmp l xs = l ++ xs.
  Proof.
    intros H. apply tag_inj. rewrite <- tag_extend. unfold tag at 3. rewrite map_app.
    apply (extend_asc_app bor cmp laws). rewrite <- map_app. now apply tag_asc.
  Qed.
End XSet.

Section AvlSetProofs.
  Context {T Q : Type} (bor : T -> Q) (cmp : Q -> Q -> comparison) (laws : order_laws cmp).
  Notation aset := (@aset T).
  Notation valid := (@valid T unit Q bor cmp).
  Notation xasc := (@x_ascending T Q bor cmp).
  Notation mem := (@x_mem T Q bor cmp).

  (** The set holds [l]. *)
  Definition holds (s : aset) (l : list T) : Prop := valid s /\ contents s = tag l.

  Lemma holds_asc s l : holds s l -> xasc l.
  Proof. intros [H E]. apply valid_asc in H. rewrite E in H. now apply (proj1 (tag_asc bor cmp l)). Qed.
  Lemma holds_len s l : holds s l -> as_len s = length l.
  Proof. intros [H E]. unfold as_len. rewrite (valid_len bor cmp) by auto. now rewrite E, tag_length. Qed.
  Lemma holds_empty s l : holds s l -> as_is_empty s = match l with [] => true | _ => false end.
  Proof. intros [H E]. unfold as_is_empty. rewrite (is_empty_spec bor cmp) by auto. rewrite E. now destruct l. Qed.
  Lemma holds_new : holds as_new [].
  Proof. split; [apply new_valid|reflexivity]. Qed.
  Lemma holds_untag s : valid s -> holds s (map fst (contents s)).
  Proof. intros H. split; auto. now rewrite untag. Qed.

  Lemma fits_tag (l : list T) : fits (tag l) <-> (Z.of_nat (length l) < 2 ^ 64)%Z.
  Proof. unfold fits. now rewrite tag_length. Qed.
  Lemma small_tag (l : list T) : x_small l -> fits (tag l).
  Proof. unfold x_small. rewrite fits_tag. lia. Qed.

  Lemma as_contains_ok s l q : holds s l -> as_contains bor cmp s q = mem q l.
  Proof. intros [H E]. unfold as_contains. rewrite (contains_key_spec bor cmp laws) by auto. now rewrite E, tag_mem. Qed.
  Lemma as_get_ok s l q : holds s l -> as_get bor cmp s q = x_find bor cmp q l.
  Proof. intros [H E]. unfold as_get. rewrite (get_key_value_spec bor cmp laws) by auto. now rewrite E, tag_find_fst. Qed.
  Lemma as_first_ok s l : holds s l -> as_first s = hd_error l.
  Proof. intros [H E]. unfold as_first. rewrite first_spec, E. apply tag_hd. Qed.
  Lemma as_last_ok s l : holds s l -> as_last s = hd_error (rev l).
  Proof. intros [H E]. unfold as_last. rewrite last_spec, E. unfold s_last. rewrite tag_rev. apply tag_hd. Qed.

  Lemma as_insert_ok s l x : holds s l -> fits (tag l) ->
    exists s', as_insert bor cmp s x = Ok (s', negb (mem (bor x) l)) /\ holds s' (x_insert bor cmp x l).
  Proof.
    intros [H E] F. rewrite <- E in F. destruct (insert_spec bor cmp laws s x tt H F) as (s' & E' & Hv & Hc).
    exists s'. unfold as_insert. rewrite E'. cbn [bind]. rewrite E in *. split.
    - unfold is_none. now rewrite tag_get.
    - split; auto. now rewrite Hc, tag_insert.
  Qed.
  Lemma as_remove_ok s l q : holds s l -> fits (tag l) ->
    exists s', as_remove bor cmp s q = Ok (s', mem q l) /\ holds s' (x_remove bor cmp q l).
  Proof.
    intros [H E] F. rewrite <- E in F. destruct (remove_spec bor cmp laws s q H F) as (s' & E' & Hv & Hc).
    exists s'. unfold as_remove. rewrite E'. cbn [bind]. rewrite E in *. split.
    - now rewrite tag_get.
    - split; auto. now rewrite Hc, tag_remove.
  Qed.
  Lemma as_take_ok s l q : holds s l -> fits (tag l) ->
    exists s', as_take bor cmp s q = Ok (s', x_find bor cmp q l) /\ holds s' (x_remove bor cmp q l).
  Proof.
    intros [H E] F. rewrite <- E in F. destruct (remove_entry_spec bor cmp laws s q H F) as (s' & E' & Hv & Hc).
    exists s'. rewrite E in *. split; [|split; auto; now rewrite Hc, tag_remove].
    unfold as_take. unfold avl_remove_entry in E'. rewrite tag_find in E'.
    destruct (rm bor cmp (am_root s) q) as [[[t o] b]|]; [|discriminate]. cbn [bind] in *.
    destruct o as [[k u]|].
    - destruct (usize_sub (am_len s) 1); [|discriminate]. cbn [bind] in *.
      destruct (x_find bor cmp q l); [|discriminate]. injection E' as <- <- _. reflexivity.
    - destruct (x_find bor cmp q l); [discriminate|]. injection E' as <-. reflexivity.
  Qed.
  Lemma as_replace_ok s l x : holds s l -> fits (tag l) ->
    exists s', as_replace bor cmp s x = Ok (s', x_find bor cmp (bor x) l) /\ holds s' (x_insert bor cmp x l).
  Proof.
    intros H F. unfold as_replace. destruct (as_take_ok s l (bor x) H F) as (s1 & E1 & H1).
    rewrite E1. cbn [bind].
    assert (F1 : fits (tag (x_remove bor cmp (bor x) l))).
    { apply fits_tag in F. apply fits_tag. unfold x_remove. pose proof (filter_length_le (fun y => negb (x_eq bor cmp (bor x) y)) l). lia. }
    destruct (as_insert_ok s1 _ x H1 F1) as (s2 & E2 & H2). rewrite E2. cbn [bind]. exists s2. split; auto.
    replace (x_insert bor cmp x l) with (x_insert bor cmp x (x_remove bor cmp (bor x) l)); auto.
    unfold x_insert, x_remove. f_equal; [|f_equal];
      (clear; induction l as [|y l IH]; cbn; auto; unfold x_lt, x_gt, x_eq in *;
       destruct (cmp (bor y) (bor x)) eqn:E; cbn; rewrite ?E, ?IH; auto).
  Qed.
  Lemma as_pop_first_ok s l : holds s l -> fits (tag l) ->
    exists s', as_pop_first s = Ok (s', hd_error l) /\ holds s' (tl l).
  Proof.
    intros [H E] F. rewrite <- E in F. destruct (pop_first_spec bor cmp s H F) as (s' & E' & Hv & Hc).
    exists s'. unfold as_pop_first. rewrite E'. cbn [bind]. rewrite E in *. unfold s_first. rewrite tag_hd.
    split; auto. split; auto. now rewrite Hc, tag_tl.
  Qed.
  Lemma as_pop_last_ok s l : holds s l -> fits (tag l) ->
    exists s', as_pop_last s = Ok (s', hd_error (rev l)) /\ holds s' (removelast l).
  Proof.
    intros [H E] F. rewrite <- E in F. destruct (pop_last_spec bor cmp s H F) as (s' & E' & Hv & Hc).
    exists s'. unfold as_pop_last. rewrite E'. cbn [bind]. rewrite E in *. unfold s_last. rewrite tag_rev, tag_hd.
    split; auto. split; auto. now rewrite Hc, tag_removelast.
  Qed.
  Lemma fits2 a b la lb : holds a la -> holds b lb -> (Z.of_nat (length la + length lb) < 2 ^ 64)%Z ->
    fits (contents a ++ contents b).
  Proof. intros [_ E1] [_ E2] F. unfold fits. now rewrite app_length, E1, E2, !tag_length. Qed.
  Lemma as_append_ok a b la lb : holds a la -> holds b lb -> (Z.of_nat (length la + length lb) < 2 ^ 64)%Z ->
    exists a' b', as_append bor cmp a b = Ok (a', b') /\ holds a' (x_union bor cmp la lb) /\ holds b' [].
  Proof.
    intros Ha Hb F. pose proof (fits2 a b la lb Ha Hb F) as F'. destruct Ha as [Ha Ea], Hb as [Hb Eb].
    destruct (append_list bor cmp laws a b Ha Hb F') as (a' & b' & E & Hv1 & Hv2 & Hc1 & Hc2).
    exists a', b'. split; auto. rewrite Ea, Eb, tag_union in Hc1. repeat split; auto; apply Hv1 || apply Hv2.
  Qed.
  Lemma as_new_union_ok a b la lb : holds a la -> holds b lb -> (Z.of_nat (length la + length lb) < 2 ^ 64)%Z ->
    exists s, as_new_union bor cmp a b = Ok s /\ holds s (x_union bor cmp la lb).
  Proof.
    intros Ha Hb F. pose proof (fits2 a b la lb Ha Hb F) as F'. destruct Ha as [Ha Ea], Hb as [Hb Eb].
    destruct (new_union_list bor cmp laws a b Ha Hb F') as (s & E & Hv & Hc).
    exists s. split; auto. rewrite Ea, Eb, tag_union in Hc. now split.
  Qed.
  Lemma as_new_inter_ok a b la lb : holds a la -> holds b lb -> (Z.of_nat (length la + length lb) < 2 ^ 64)%Z ->
    exists s, as_new_intersection bor cmp a b = Ok s /\ holds s (x_inter bor cmp la lb).
  Proof.
    intros Ha Hb F. pose proof (fits2 a b la lb Ha Hb F) as F'. destruct Ha as [Ha Ea], Hb as [Hb Eb].
    destruct (new_intersect_spec bor cmp laws a b Ha Hb F') as (s & E & Hv & Hc).
    exists s. split; auto. rewrite Ea, Eb, tag_inter in Hc. now split.
  Qed.
  Lemma as_new_diff_ok a b la lb : holds a la -> holds b lb -> (Z.of_nat (length la + length lb) < 2 ^ 64)%Z ->
    exists s, as_new_diff bor cmp a b = Ok s /\ holds s (x_diff bor cmp la lb).
  Proof.
    intros Ha Hb F. pose proof (fits2 a b la lb Ha Hb F) as F'. destruct Ha as [Ha Ea], Hb as [Hb Eb].
    destruct (new_diff_spec bor cmp laws a b Ha Hb F') as (s & E & Hv & Hc).
    exists s. split; auto. rewrite Ea, Eb, tag_diff in Hc. now split.
  Qed.
  Lemma as_new_sym_diff_ok a b la lb : holds a la -> holds b lb -> (Z.of_nat (length la + length lb) < 2 ^ 64)%Z ->
    exists s, as_new_sym_diff bor cmp a b = Ok s /\ holds s (x_symdiff bor cmp la lb).
  Proof.
    intros Ha Hb F. pose proof (fits2 a b la lb Ha Hb F) as F'. destruct Ha as [Ha Ea], Hb as [Hb Eb].
    destruct (new_sym_diff_list bor cmp laws a b Ha Hb F') as (s & E & Hv & Hc).
    exists s. split; auto. rewrite Ea, Eb, tag_symdiff in Hc. now split.
  Qed.
  Lemma as_split_off_ok s l q : holds s l -> fits (tag l) ->
    exists s1 s2, as_split_off bor cmp s q = Ok (s1, s2) /\ holds s1 (filter (x_lt bor cmp q) l)
      /\ holds s2 (filter (fun x => negb (x_lt bor cmp q x)) l).
  Proof.
    intros [H E] F. rewrite <- E in F.
    destruct (split_off_spec bor cmp laws s q H F) as (s1 & s2 & E' & Hv1 & Hv2 & Hc1 & Hc2).
    exists s1, s2. split; auto. rewrite E in *. rewrite tag_filter in Hc1, Hc2. split; split; auto.
  Qed.
  Lemma as_extend_ok xs : forall s l, holds s l -> (Z.of_nat (length l + length xs) < 2 ^ 64)%Z ->
    exists s', as_extend bor cmp s xs = Ok s' /\ holds s' (x_extend bor cmp l xs).
  Proof.
    induction xs as [|x xs IH]; intros s l H F; cbn [as_extend]; [eauto|]. cbn [length] in F.
    destruct (as_insert_ok s l x H) as (s1 & E1 & H1); [apply fits_tag; lia|]. rewrite E1. cbn [bind].
    apply (IH s1 _ H1).
    pose proof (xlength_extend bor cmp laws [x] l (holds_asc s l H)) as G. cbn in G.
    change (fold_left _ _ _) with (x_insert bor cmp x l) in G. lia.
  Qed.
  Lemma as_from_iter_ok xs : (Z.of_nat (length xs) < 2 ^ 64)%Z ->
    exists s', as_from_iter bor cmp xs = Ok s' /\ holds s' (x_extend bor cmp [] xs).
  Proof. intros F. apply as_extend_ok; auto. apply holds_new. Qed.

  Lemma retain_dfs_ok {S} (f : S -> T -> S * bool) t : forall s acc l,
    holds acc l -> (Z.of_nat (length l + length (elems t)) < 2 ^ 64)%Z ->
    exists acc', retain_dfs bor cmp f t s acc = Ok (snd (x_retain f s (map fst (elems t))), acc')
      /\ holds acc' (x_extend bor cmp l (fst (x_retain f s (map fst (elems t))))).
  Proof.
    induction t as [|k v lh rh tl IHl tr IHr]; intros s acc l H F; cbn [retain_dfs elems].
    - cbn. eauto.
    - cbn [elems] in F. rewrite app_length in F. cbn [length] in F.
      destruct (IHl s acc l H) as (acc1 & E1 & H1); [lia|]. rewrite E1. cbn [bind].
      rewrite map_app, x_retain_app. cbn [map fst x_retain].
      pose proof (x_retain_le f (map fst (elems tl)) s) as L1.
      pose proof (xlength_extend bor cmp laws (fst (x_retain f s (map fst (elems tl)))) l (holds_asc _ _ H)) as L2.
      rewrite map_length in L1.
      destruct (x_retain f s (map fst (elems tl))) as [ys s1]. cbn [fst snd] in *.
      destruct (f s1 k) as [s2 keep].
      set (l1 := x_extend bor cmp l ys) in *.
      assert (E2 : exists acc2, (if keep then '(m, _) <- avl_insert bor cmp acc1 k tt;; Ok m else Ok acc1) = Ok acc2
                     /\ holds acc2 (x_extend bor cmp l1 (if keep then [k] else []))
                     /\ length (x_extend bor cmp l1 (if keep then [k] else [])) <= Datatypes.S (length l1)).
      { pose proof (xlength_extend bor cmp laws (if keep then [k] else []) l1 (holds_asc _ _ H1)) as L3.
        destruct keep; cbn [length] in L3.
        - destruct (as_insert_ok acc1 l1 k H1) as (acc2 & E2 & H2); [apply fits_tag; lia|].
          unfold as_insert in E2. destruct (avl_insert bor cmp acc1 k tt) as [[m o]|]; [|discriminate].
          cbn [bind] in *. injection E2 as <- _. exists m. split; auto. split; auto. lia.
        - exists acc1. split; [auto|split; [exact H1|cbn; lia]]. }
      destruct E2 as (acc2 & E2 & H2 & L4). rewrite E2. cbn [bind].
      destruct (IHr s2 acc2 _ H2) as (acc3 & E3 & H3); [lia|].
      destruct (x_retain f s2 (map fst (elems tr))) as [zs s3]. cbn [fst snd] in *.
      exists acc3. split; auto. now rewrite !x_extend_app.
  Qed.

  Lemma as_retain_ok {S} (f : S -> T -> S * bool) x l s : holds x l -> fits (tag l) ->
    exists x', as_retain bor cmp f x s = Ok (x', snd (x_retain f s l)) /\ holds x' (fst (x_retain f s l)).
  Proof.
    intros H F. pose proof (holds_asc x l H) as A. unfold as_retain.
    destruct H as [Hv Hc]. unfold contents in Hc. destruct (am_root x) as [|k v lh rh tl tr] eqn:Er.
    - destruct l as [|y l]; [|discriminate]. exists x. split; auto. split; auto. unfold contents. now rewrite Er.
    - rewrite <- Er in *. apply fits_tag in F.
      destruct (retain_dfs_ok f (am_root x) s avl_new [] holds_new) as (acc & E & H').
      { rewrite Hc, tag_length. cbn. lia. }
      rewrite E. cbn [bind]. rewrite Hc, tag_fst in *. exists acc. split; auto.
      rewrite (x_extend_asc bor cmp laws) in H'; auto. now apply x_retain_asc.
  Qed.

  (** *** Iterators *)
  Lemma as_next_ok (i : @as_it T) (l : list T) : den nflat (it_work i) = tag l -> length l <= it_len i ->
    exists i', as_next i = Ok (hd_error l, i') /\ den nflat (it_work i') = tag (tl l)
      /\ it_len i' = it_len i - (if l then 0 else 1).
  Proof.
    intros D L. unfold as_next, avl_next.
    destruct (next_ok norm_destr norm_size nflat norm_flat norm_sized i) as (w' & E & Hd);
      [now rewrite D, tag_length|].
    rewrite E. cbn [bind]. rewrite D in *. rewrite tag_hd. eexists. split; [reflexivity|].
    cbn [it_work it_len]. split; [now rewrite Hd, tag_tl|]. now destruct l.
  Qed.
  Lemma as_iter_gives s l : holds s l -> gives as_next as_it_len l (as_iter s).
  Proof.
    intros [Hv Hc]. assert (G : forall (l : list T) (i : @as_it T), den nflat (it_work i) = tag l -> length l <= it_len i ->
      gives as_next as_it_len l i).
    { clear. induction l as [|x l IH]; intros i D L; cbn [gives]; (split; [exact L|]);
        destruct (as_next_ok i _ D L) as (i' & E & D' & L'); exists i'; split; auto.
      apply IH; auto. rewrite L'. cbn [length] in L. lia. }
    apply G; unfold as_iter; rewrite ?iter_den; auto. destruct Hv as (_ & _ & Hl). cbn [avl_iter it_len].
    now rewrite Hl, Hc, tag_length.
  Qed.
  Lemma as_nexts_ok n s l : holds s l -> as_nexts n (as_iter s) = Ok (s_ends (repeat Front n) l).
  Proof.
    intros [Hv Hc]. assert (G : forall (l : list T) (i : @as_it T), den nflat (it_work i) = tag l -> it_len i = length l ->
      as_nexts n i = Ok (s_ends (repeat Front n) l)).
    { clear. induction n as [|n IH]; intros l i D L; auto. cbn [as_nexts repeat s_ends].
      destruct (as_next_ok i _ D) as (i' & E & D' & L'); [lia|]. rewrite E. cbn [bind].
      assert (L'' : it_len i' = length (tl l)) by (destruct l; cbn [tl length] in *; lia).
      rewrite (IH (tl l) i') by auto. cbn [bind]. unfold as_it_len. now rewrite L''. }
    apply G; unfold as_iter; rewrite ?iter_den; auto. destruct Hv as (_ & _ & Hl). cbn [avl_iter it_len].
    now rewrite Hl, Hc, tag_length.
  Qed.
  Lemma as_range_ok s l lo hi cs : holds s l ->
    as_range bor cmp s lo hi cs = Ok (map fst (s_ends cs (x_range bor cmp lo hi l))).
  Proof.
    intros [Hv Hc]. unfold as_range.
    destruct (range_run_spec bor cmp laws s lo hi cs Hv) as (it & extra & E & Hr). rewrite E. cbn [bind].
    rewrite Hr. cbn [bind]. f_equal. rewrite Hc, tag_range, <- (tag_ends cs (x_range bor cmp lo hi l)), !map_map. reflexivity.
  Qed.

  Lemma pgives_new {I} (nxt : I -> res (option T * I)) left l i : gives nxt left l i -> pgives nxt left l (pk_new i).
  Proof. intros H. exact H. Qed.
  Lemma as_setop_ok P a b la lb n : holds a la -> holds b lb ->
    as_setop bor cmp P a b n = Ok (s_nexts n (kept bor cmp P la lb)).
  Proof.
    intros Ha Hb. unfold as_setop, merge_new. apply (setop_nexts_ok bor cmp as_next as_it_len P n la lb); apply pgives_new; now apply as_iter_gives.
  Qed.
  Lemma as_disjoint_ok a b la lb : holds a la -> holds b lb ->
    as_is_disjoint bor cmp a b = Ok (x_disjoint bor cmp la lb).
  Proof.
    intros Ha Hb. unfold as_is_disjoint, merge_new.
    destruct (setop_next_ok bor cmp as_next as_it_len p_intersection la lb (pk_new (as_iter a)) (pk_new (as_iter b)))
      as (p1 & p2 & l' & r' & E & _); try (apply pgives_new; now apply as_iter_gives).
    unfold tcmp. rewrite E. cbn [bind]. f_equal. rewrite (kept_inter bor cmp laws) by (eapply holds_asc; eauto).
    rewrite (disjoint_sym bor cmp laws), disjoint_inter. now destruct (x_inter bor cmp lb la).
  Qed.

  (** *** [is_subset] *)
  Section Subset.
    Context (same : tree T unit -> tree T unit -> bool) (sound : forall a b, same a b = true -> a = b).
    Definition keys (t : tree T unit) : list T := map fst (elems t).
    Definition w_den1 (x : tree T unit * bool) : list T :=
      match x with
      | (Leaf, _) => []
      | (Node k _ _ _ l r, done) => (if done : bool then [] else keys l) ++ k :: keys r
      end.
    Definition w_den (w : list (tree T unit * bool)) : list T := flat_map w_den1 w.
    Definition w_ok1 (x : tree T unit * bool) : Prop :=
      match x with
      | (Leaf, _) => False
      | (Node k _ _ _ l r, done) => done = false -> l <> Leaf
      end.
    Definition w_ok (w : list (tree T unit * bool)) : Prop := Forall w_ok1 w.
    Definition w_msr1 (x : tree T unit * bool) : nat :=
      match x with
      | (Leaf, _) => 0
      | (Node k _ _ _ l r, true) => 2 * t_len r + 1
      | (t, false) => 2 * t_len t
      end.
    Definition w_msr (w : list (tree T unit * bool)) : nat := fold_right (fun x s => w_msr1 x + s) 0 w.

    Lemma keys_node k v lh rh l r : keys (Node k v lh rh l r) = keys l ++ k :: keys r.
    Proof. unfold keys. cbn [elems]. now rewrite map_app. Qed.
    Lemma w_node_den t : w_den1 (w_node t) = keys t.
    Proof. destruct t as [|k v lh rh [|? ? ? ? ? ?] r]; auto; symmetry; apply keys_node. Qed.
    Lemma w_node_ok t : t <> Leaf -> w_ok1 (w_node t).
    Proof. destruct t as [|k v lh rh [|? ? ? ? ? ?] r]; auto; cbn; congruence. Qed.
    Lemma w_node_msr t : w_msr1 (w_node t) <= 2 * t_len t.
    Proof. destruct t as [|k v lh rh [|? ? ? ? ? ?] r]; cbn [w_node w_msr1 t_len]; lia. Qed.
    Lemma w_right_den k v lh rh l r w : w_den (w_right (Node k v lh rh l r) w) = keys r ++ w_den w.
    Proof.
      unfold w_right. destruct r as [|k' v' lh' rh' l' r']; auto.
      cbn [w_den flat_map]. now rewrite w_node_den.
    Qed.
    Lemma w_right_ok t w : w_ok w -> w_ok (w_right t w).
    Proof.
      intros H. unfold w_right. destruct t as [|k v lh rh l r]; auto. destruct r as [|? ? ? ? ? ?] eqn:E; auto. rewrite <- E.
      constructor; auto. apply w_node_ok. congruence.
    Qed.
    Lemma w_right_msr k v lh rh l r w : w_msr (w_right (Node k v lh rh l r) w) <= 2 * t_len r + w_msr w.
    Proof.
      unfold w_right. destruct r as [|k' v' lh' rh' l' r'] eqn:E; [cbn; lia|]. rewrite <- E. cbn [w_msr fold_right].
      fold (w_msr w). pose proof (w_node_msr r). lia.
    Qed.
    Lemma w_msr_size w : w_msr w <= w_size w.
    Proof.
      induction w as [|[t d] w IH]; cbn [w_msr w_size fold_right]; auto. fold (w_msr w) (w_size w).
      assert (w_msr1 (t, d) <= 2 * t_len (fst (t, d))); [|lia].
      destruct t as [|k v lh rh l r]; [destruct d; cbn; lia|]. destruct d; cbn [w_msr1 fst t_len]; lia.
    Qed.

    Lemma xasc_app l r : xasc (l ++ r) <-> xasc l /\ xasc r /\ forall x y, In x l -> In y r -> cmp (bor x) (bor y) = Lt.
    Proof.
      induction l as [|a l IH]; cbn [app].
      - split; [intros H; repeat split; auto; [constructor|intros x y []]|tauto].
      - rewrite !xasc_cons_iff, IH. split.
        + intros ((H1 & H2 & H3) & H4). repeat split; auto.
          * intros y Hy. apply H4, in_or_app. auto.
          * intros x y [<-|Hx] Hy; auto. apply H4, in_or_app. auto.
        + intros ((H1 & H2) & H3 & H4). repeat split; auto.
          * intros x y Hx Hy. apply H4; auto. now right.
          * intros y Hy. apply in_app_or in Hy as [Hy|Hy]; auto. apply H4; auto. now left.
    Qed.

    Definition le_k (x : T) (k : T) : Prop := cmp (bor x) (bor k) <> Gt.

    Lemma seek_ok fuel : forall k v lh rh ll lr w, let lhs := Node k v lh rh ll lr in
      xasc (w_den w) -> w_ok w -> w_msr w < fuel -> xasc (keys lhs) ->
      exists r w', seek bor cmp same fuel lhs k w = Ok (r, w') /\ w_ok w' /\
        match r with
        | SamePtr => exists pre, w_den w = pre ++ k :: keys lr ++ w_den w' /\ forall x, In x pre -> le_k x k
        | EqualKey => exists pre y, w_den w = pre ++ y :: w_den w' /\ cmp (bor k) (bor y) = Eq
                        /\ forall x, In x pre -> le_k x k
        | NoKey => mem (bor k) (w_den w) = false
        end.
    Proof.
      induction fuel as [|fuel IH]; intros k v lh rh ll lr w lhs A W M Al; [lia|]. cbn [seek].
      destruct w as [|[t d] w]; [exists NoKey, []; repeat split; auto|].
      inversion W as [|? ? W1 W2]; subst.
      destruct (same lhs t) eqn:Es.
      { apply sound in Es. subst t. exists SamePtr, w. split; auto. split; auto.
        unfold lhs. cbn [w_den flat_map w_den1]. fold (w_den w).
        exists (if d then [] else keys ll). rewrite <- app_assoc. cbn [app]. split; auto.
        intros x Hx. unfold lhs in Al. rewrite keys_node in Al. apply xasc_app in Al as (_ & _ & Al).
        destruct d; [destruct Hx|]. unfold le_k. rewrite (Al x k); [discriminate|auto|now left]. }
      destruct t as [|rk rv rlh rrh rl rr]; [destruct W1|]. cbn [w_ok1] in W1.
      cbn [w_den flat_map w_den1] in A |- *. fold (w_den w) in A |- *.
      cbn [w_msr fold_right] in M. fold (w_msr w) in M.
      rewrite <- app_assoc in A |- *. cbn [app] in A |- *.
      destruct (cmp (bor k) (bor rk)) eqn:Ec.
      - exists EqualKey. eexists. split; [reflexivity|]. split; [now apply w_right_ok|].
        exists (if d then [] else keys rl), rk. rewrite w_right_den. split; auto. split; auto.
        intros x Hx. destruct d; [destruct Hx|]. apply xasc_app in A as (_ & _ & A).
        unfold le_k. rewrite <- (cmp_eq_r laws _ _ (bor x) (cmp_eq_sym laws _ _ Ec)).
        rewrite (A x rk); [discriminate|auto|now left].
      - destruct d.
        + exists NoKey. eexists. split; [reflexivity|]. split; auto. cbn [app] in *.
          apply xmem_false. apply xasc_cons_iff in A as [_ A]. intros x [<-|Hx].
          * apply (cmp_lt_gt laws) in Ec. congruence.
          * pose proof (cmp_lt_trans _ laws _ _ _ Ec (A x Hx)) as G. apply (cmp_lt_gt laws) in G. congruence.
        + destruct rl as [|k1 v1 lh1 rh1 l1 r1] eqn:El; [now destruct (W1 eq_refl)|]. rewrite <- El in *.
          destruct (IH k v lh rh ll lr (w_node rl :: (Node rk rv rlh rrh rl rr, true) :: w)) as (r & w' & E & Hw & H); auto.
          * cbn [w_den flat_map]. rewrite w_node_den. cbn [w_den1 app]. exact A.
          * constructor; [apply w_node_ok; congruence|]. constructor; auto. cbn. congruence.
          * cbn [w_msr fold_right w_msr1]. fold (w_msr w). pose proof (w_node_msr rl).
            cbn [w_msr1 t_len] in M. lia.
          * exists r, w'. split; [exact E|]. split; auto.
            cbn [w_den flat_map] in H. rewrite w_node_den in H. cbn [w_den1 app] in H. exact H.
      - destruct (IH k v lh rh ll lr (w_right (Node rk rv rlh rrh rl rr) w)) as (r & w' & E & Hw & H); auto.
        + rewrite w_right_den. apply xasc_app in A as (_ & A & _). now apply xasc_cons_iff in A.
        + now apply w_right_ok.
        + pose proof (w_right_msr rk rv rlh rrh rl rr w). destruct d; cbn [w_msr1 t_len] in M; lia.
        + exists r, w'. split; [exact E|]. split; auto. rewrite w_right_den in H.
          apply (cmp_gt_lt laws) in Ec.
          assert (Hpre : forall x, In x ((if d then [] else keys rl) ++ [rk]) -> cmp (bor x) (bor k) = Lt).
          { intros x Hx. apply in_app_or in Hx as [Hx|[<-|[]]]; auto. destruct d; [destruct Hx|].
            apply xasc_app in A as (_ & _ & A). eapply (cmp_lt_trans _ laws); [apply (A x rk); auto; now left|auto]. }
          assert (Hpre' : forall x, In x ((if d then [] else keys rl) ++ [rk]) -> le_k x k).
          { intros x Hx. unfold le_k. rewrite Hpre; auto. discriminate. }
          assert (Happ : forall z, (if d then [] else keys rl) ++ rk :: z = ((if d then [] else keys rl) ++ [rk]) ++ z).
          { intros z. now rewrite <- app_assoc. }
          rewrite Happ.
          destruct r.
          * destruct H as (pre & E1 & H). rewrite E1.
            exists (((if d then [] else keys rl) ++ [rk]) ++ pre). rewrite <- (app_assoc _ pre). split; auto.
            intros x Hx. apply in_app_or in Hx as [Hx|Hx]; auto.
          * destruct H as (pre & y & E1 & Ey & H). rewrite E1.
            exists (((if d then [] else keys rl) ++ [rk]) ++ pre), y. rewrite <- (app_assoc _ pre). split; auto. split; auto.
            intros x Hx. apply in_app_or in Hx as [Hx|Hx]; auto.
          * rewrite xmem_app, H, orb_false_r. apply xmem_false. intros x Hx. rewrite Hpre; auto. discriminate.
    Qed.

    Lemma mem_skip x pre l (bnd : T) : (forall p, In p pre -> le_k p bnd) -> cmp (bor bnd) (bor x) = Lt ->
      mem (bor x) (pre ++ l) = mem (bor x) l.
    Proof.
      intros H Hb. rewrite xmem_app. replace (mem (bor x) pre) with false; auto. symmetry. apply xmem_false.
      intros p Hp E. specialize (H p Hp). unfold le_k in H. rewrite (cmp_eq_l _ laws _ _ (bor bnd) E) in H.
      apply (cmp_lt_gt laws) in Hb. congruence.
    Qed.

    Lemma has_all_ok t : forall w, t <> Leaf -> xasc (keys t) -> xasc (w_den w) -> w_ok w ->
      exists b w', has_all bor cmp same t w = Ok (b, w') /\ w_ok w' /\
        b = x_subset bor cmp (keys t) (w_den w) /\
        (b = true -> exists pre, w_den w = pre ++ w_den w' /\
           forall p, In p pre -> exists x, In x (keys t) /\ le_k p x).
    Proof.
      induction t as [|k v lh rh ll IHl lr IHr]; intros w Hn A Aw W; [congruence|]. clear Hn. cbn [has_all].
      pose proof A as A0. rewrite keys_node in A. apply xasc_app in A as (Al & Ar & Alr).
      apply xasc_cons_iff in Ar as [Ar Akr].
      (* the left part *)
      assert (L : exists b1 w1, match ll with Leaf => Ok (true, w) | _ => has_all bor cmp same ll w end = Ok (b1, w1)
        /\ w_ok w1 /\ b1 = x_subset bor cmp (keys ll) (w_den w) /\
        (b1 = true -> exists pre, w_den w = pre ++ w_den w1 /\
           forall p, In p pre -> exists x, In x (keys ll) /\ le_k p x)).
      { destruct ll as [|? ? ? ? ? ?] eqn:E.
        - exists true, w. repeat split; auto. intros _. exists []. split; auto. intros p [].
        - rewrite <- E in *. apply IHl; auto. congruence. }
      destruct L as (b1 & w1 & -> & W1 & -> & Hpre). cbn [bind]. rewrite keys_node.
      unfold x_subset at 1 2. rewrite forallb_app. fold (x_subset bor cmp (keys ll) (w_den w)).
      destruct (x_subset bor cmp (keys ll) (w_den w)) eqn:Sl; cbn [negb andb].
      2:{ exists false, w1. repeat split; auto. discriminate. }
      destruct (Hpre eq_refl) as (pre & Ew & Hp). clear Hpre.
      assert (Aw1 : xasc (w_den w1)) by (rewrite Ew in Aw; apply xasc_app in Aw; tauto).
      assert (Hpk : forall p, In p pre -> cmp (bor p) (bor k) = Lt).
      { intros p Hp'. destruct (Hp p Hp') as (x & Hx & Hle). specialize (Alr x k Hx (or_introl eq_refl)).
        unfold le_k in Hle. destruct (cmp (bor p) (bor x)) eqn:E; [|eapply (cmp_lt_trans _ laws); eauto|congruence].
        now rewrite (cmp_eq_l _ laws _ _ (bor k) E). }
      assert (Hpk' : forall p, In p pre -> le_k p k) by (intros p Hp'; unfold le_k; rewrite Hpk; auto; discriminate).
      destruct (seek_ok (Datatypes.S (w_size w1)) k v lh rh ll lr w1) as (r & w2 & E & W2 & H); auto.
      { pose proof (w_msr_size w1). lia. }
      cbn [forallb]. rewrite E. cbn [bind].
      destruct r.
      - destruct H as (pre2 & E2 & H2). exists true, w2. split; auto. split; auto.
        assert (S' : mem (bor k) (w_den w) && forallb (fun x => mem (bor x) (w_den w)) (keys lr) = true).
        { apply andb_true_iff. split.
          - apply xmem_iff. exists k. split; [|apply (cmp_refl laws)]. rewrite Ew, E2. apply in_or_app. right. apply in_or_app. right. now left.
          - apply forallb_forall. intros x Hx. apply xmem_iff. exists x. split; [|apply (cmp_refl laws)].
            rewrite Ew, E2. apply in_or_app. right. apply in_or_app. right. right. apply in_or_app. now left. }
        split; auto. intros _. exists (pre ++ pre2 ++ k :: keys lr).
        rewrite <- !app_assoc. cbn [app]. rewrite <- app_comm_cons || idtac. split; [now rewrite Ew, E2|].
        intros p Hp'. apply in_app_or in Hp' as [Hp'|Hp']; [exists k; split; auto; apply in_or_app; right; now left|].
        apply in_app_or in Hp' as [Hp'|[<-|Hp']].
        + exists k. split; auto. apply in_or_app; right; now left.
        + exists k. split; [apply in_or_app; right; now left|]. unfold le_k. rewrite (cmp_refl laws). discriminate.
        + exists p. split; [apply in_or_app; right; now right|]. unfold le_k. rewrite (cmp_refl laws). discriminate.
      - destruct H as (pre2 & y & E2 & Ey & H2).
        assert (Mk : mem (bor k) (w_den w) = true).
        { apply xmem_iff. exists y. split; [|now apply (cmp_eq_sym laws)]. rewrite Ew, E2.
          apply in_or_app. right. apply in_or_app. right. now left. }
        rewrite Mk. cbn [andb].
        assert (Hall : forall p, In p (pre ++ pre2 ++ [y]) -> le_k p k).
        { intros p Hp'. apply in_app_or in Hp' as [Hp'|Hp']; auto. apply in_app_or in Hp' as [Hp'|[<-|[]]]; auto.
          unfold le_k. rewrite (cmp_eq_sym laws _ _ Ey). discriminate. }
        assert (Ew2 : w_den w = (pre ++ pre2 ++ [y]) ++ w_den w2).
        { rewrite Ew, E2, <- !app_assoc. reflexivity. }
        assert (Aw2 : xasc (w_den w2)) by (rewrite Ew2 in Aw; apply xasc_app in Aw; tauto).
        assert (R : exists b3 w3, match lr with Leaf => Ok (true, w2) | _ => has_all bor cmp same lr w2 end = Ok (b3, w3)
          /\ w_ok w3 /\ b3 = x_subset bor cmp (keys lr) (w_den w2) /\
          (b3 = true -> exists pre, w_den w2 = pre ++ w_den w3 /\
             forall p, In p pre -> exists x, In x (keys lr) /\ le_k p x)).
        { destruct lr as [|? ? ? ? ? ?] eqn:Elr.
          - exists true, w2. repeat split; auto. intros _. exists []. split; auto. intros p [].
          - rewrite <- Elr in *. apply IHr; auto. congruence. }
        destruct R as (b3 & w3 & -> & W3 & -> & Hpre3).
        assert (Es : forallb (fun x => mem (bor x) (w_den w)) (keys lr) = x_subset bor cmp (keys lr) (w_den w2)).
        { unfold x_subset. apply forallb_ext_in || idtac. rewrite Ew2.
          assert (G : forall l, (forall x, In x l -> cmp (bor k) (bor x) = Lt) ->
            forallb (fun x => mem (bor x) ((pre ++ pre2 ++ [y]) ++ w_den w2)) l = forallb (fun x => mem (bor x) (w_den w2)) l).
          { induction l as [|x l IHx]; intros Hx; auto. cbn [forallb]. rewrite (mem_skip x _ _ k) by (auto; apply Hx; now left).
            rewrite IHx; auto. intros z Hz. apply Hx. now right. }
          apply G, Akr. }
        rewrite Es. exists (x_subset bor cmp (keys lr) (w_den w2)), w3. split; auto. split; auto. split; auto.
        intros Ht. destruct (Hpre3 Ht) as (pre3 & E3 & H3).
        exists ((pre ++ pre2 ++ [y]) ++ pre3). rewrite <- (app_assoc _ pre3), <- E3. split; auto.
        intros p Hp'. apply in_app_or in Hp' as [Hp'|Hp'].
        + exists k. split; auto. apply in_or_app; right; now left.
        + destruct (H3 p Hp') as (x & Hx & Hle). exists x. split; auto. apply in_or_app; right; now right.
      - exists false, w2. split; auto. split; auto.
        assert (Mk : mem (bor k) (w_den w) = false).
        { rewrite Ew, xmem_app, H, orb_false_r. apply xmem_false. intros p Hp'. rewrite Hpk; auto. discriminate. }
        rewrite Mk. split; auto. discriminate.
    Qed.

    Lemma as_subset_ok a b la lb : holds a la -> holds b lb ->
      as_is_subset bor cmp same a b = Ok (x_subset bor cmp la lb).
    Proof.
      intros Ha Hb. unfold as_is_subset. rewrite (holds_empty a la Ha).
      destruct la as [|x la0] eqn:Ela; auto. rewrite <- Ela in *.
      rewrite (holds_len a la Ha), (holds_len b lb Hb).
      pose proof (holds_asc a la Ha) as Aa. pose proof (holds_asc b lb Hb) as Ab.
      destruct (Nat.ltb_spec (length lb) (length la)) as [Hlt|Hle].
      - f_equal. symmetry. destruct (x_subset bor cmp la lb) eqn:E; auto.
        apply (subset_length bor cmp laws) in E; auto. lia.
      - destruct Ha as [Hva Eca], Hb as [Hvb Ecb]. unfold contents in Eca, Ecb.
        destruct (am_root a) as [|ak av alh arh al ar] eqn:Ra; [subst la; discriminate|].
        destruct (am_root b) as [|bk bv blh brh bl br] eqn:Rb.
        { destruct lb; [|discriminate]. subst la. cbn in Hle. lia. }
        rewrite <- Ra, <- Rb.
        destruct (has_all_ok (am_root a) [w_node (am_root b)]) as (r & w' & E & _ & Hr & _).
        + congruence.
        + unfold keys. rewrite Ra, Eca, tag_fst. exact Aa.
        + cbn [w_den flat_map]. rewrite app_nil_r, w_node_den. unfold keys. now rewrite Rb, Ecb, tag_fst.
        + constructor; [|constructor]. apply w_node_ok. congruence.
        + rewrite E. cbn [bind]. rewrite Hr. cbn [w_den flat_map]. rewrite app_nil_r, w_node_den.
          unfold keys. now rewrite Ra, Rb, Eca, Ecb, !tag_fst.
    Qed.
  End Subset.

  (** *** Comparison, hashing, the check *)
  Context (teq : T -> T -> bool) (ocmp : T -> T -> comparison).
  Lemma as_eq_ok a b la lb : holds a la -> holds b lb -> as_eq teq a b = Ok (x_seq_eqb teq la lb).
  Proof.
    intros [Ha Ea] [Hb Eb]. unfold as_eq. rewrite (eq_spec bor cmp) by auto. now rewrite Ea, Eb, tag_seq_eqb.
  Qed.
  Lemma as_cmp_ok a b la lb : holds a la -> holds b lb -> as_cmp ocmp a b = Ok (x_seq_cmp ocmp la lb).
  Proof.
    intros [Ha Ea] [Hb Eb]. unfold as_cmp. rewrite (cmp_spec bor cmp) by auto. now rewrite Ea, Eb, tag_seq_cmp.
  Qed.
  Lemma as_hash_ok {H} (hlen : H -> nat -> H) ht a l s : holds a l ->
    as_hash hlen ht a s = Ok (fold_left ht l (hlen s (length l))).
  Proof.
    intros Ha. pose proof (holds_len a l Ha) as Hl. unfold as_len, avl_len in Hl. unfold as_hash. rewrite Hl.
    assert (G : forall (l : list T) fuel i s, gives as_next as_it_len l i -> length l < fuel ->
      as_hash_loop fuel ht i s = Ok (fold_left ht l s)).
    { clear. induction l as [|x l IH]; intros [|fuel] i s Hg Hf; cbn [length] in Hf; try lia;
        destruct Hg as (_ & i' & E & Hg); cbn [as_hash_loop]; rewrite E; cbn [bind hd_error]; auto.
      rewrite (IH fuel i') by (auto; lia). reflexivity. }
    apply G; [now apply as_iter_gives|lia].
  Qed.
  Lemma as_check_ok a l : holds a l -> fits (tag l) -> as_check bor cmp a = Ok true.
  Proof.
    intros [Ha Ea] F. unfold as_check. rewrite (check_spec bor cmp laws) by (auto; now rewrite Ea). reflexivity.
  Qed.

  (** *** Histories *)
  Definition holdss (st : list aset) (sst : list (list T)) : Prop := Forall2 holds st sst.
  Notation as_step := (@as_step T Q bor cmp teq ocmp).
  Notation x_step := (@x_step T Q bor cmp teq ocmp (x_subset bor cmp) (x_inter bor cmp)).

  Lemma x_set_nth_0 {A} (x a : A) l : x_set_nth 0 x (a :: l) = x :: l.
  Proof. reflexivity. Qed.
  Lemma x_set_nth_S {A} n (x a : A) l : x_set_nth (Datatypes.S n) x (a :: l) = a :: x_set_nth n x l.
  Proof. reflexivity. Qed.
  Lemma x_set_nth_nil {A} n (x : A) : x_set_nth n x [] = [].
  Proof. now destruct n. Qed.

  Lemma step_ok same st sst o : (forall a b, same a b = true -> a = b) ->
    holdss st sst -> Forall x_small sst -> xop_small o ->
    exists st', as_step same st o = Ok (st', snd (x_step sst o)) /\ holdss st' (fst (x_step sst o)).
  Proof.
    intros Hsame R Sm So.
    assert (Hset : forall h m l st sst, holdss st sst -> holds m l -> holdss (x_set_nth h m st) (x_set_nth h l sst)).
    { intros h m l s1 s2 H Hm. revert h. induction H as [|m0 l0 s1 s2 H0 H IH]; intros [|h];
        rewrite ?x_set_nth_nil, ?x_set_nth_0, ?x_set_nth_S; constructor; auto. apply IH. }
    assert (Hsnoc : forall m l st sst, holdss st sst -> holds m l -> holdss (st ++ [m]) (sst ++ [l])).
    { intros m l s1 s2 H Hm. apply Forall2_app; auto. }
    assert (on1_ok : forall h (f : aset -> res (list aset * xobs T)) (g : list T -> list (list T) * xobs T),
      (forall m l, holds m l -> x_small l -> exists st', f m = Ok (st', snd (g l)) /\ holdss st' (fst (g l))) ->
      exists st', xon st h f = Ok (st', snd (match nth_error sst h with Some m => g m | None => (sst, XUnit) end))
        /\ holdss st' (fst (match nth_error sst h with Some m => g m | None => (sst, XUnit) end))).
    { intros h f g Hf. unfold xon.
      assert (Hn : match nth_error st h, nth_error sst h with
                   | Some m, Some l => holds m l | None, None => True | _, _ => False end).
      { clear - R. revert h. induction R as [|m l st sst Hm H IH]; intros [|h]; cbn; auto. apply IH. }
      destruct (nth_error st h) as [m|] eqn:E1, (nth_error sst h) as [l|] eqn:E2; try contradiction.
      - apply Hf; auto. apply nth_error_In in E2. rewrite Forall_forall in Sm. auto.
      - exists st. auto. }
    assert (on2_ok : forall h1 h2 (f : aset -> aset -> res (list aset * xobs T)) (g : list T -> list T -> list (list T) * xobs T),
      (forall a la b lb, holds a la -> x_small la -> holds b lb -> x_small lb ->
         exists st', f a b = Ok (st', snd (g la lb)) /\ holdss st' (fst (g la lb))) ->
      exists st', xon2 st h1 h2 f = Ok (st', snd (match nth_error sst h1 with Some a => match nth_error sst h2 with Some b => g a b | None => (sst, XUnit) end | None => (sst, XUnit) end))
        /\ holdss st' (fst (match nth_error sst h1 with Some a => match nth_error sst h2 with Some b => g a b | None => (sst, XUnit) end | None => (sst, XUnit) end))).
    { intros h1 h2 f g Hf. unfold xon2.
      apply (on1_ok h1 (fun a => xon st h2 (fun b => f a b))
               (fun a => match nth_error sst h2 with Some b => g a b | None => (sst, XUnit) end)).
      intros a la Ha Sa. apply (on1_ok h2 (fun b => f a b) (fun b => g la b)).
      intros b lb Hb Sb. apply Hf; auto. }
    destruct o; cbn [AvlSetModel.as_step SetSpec.x_step];
      first [apply on2_ok; intros a la b lb Ha Sa Hb Sb;
             assert (F : (Z.of_nat (length la + length lb) < 2 ^ 64)%Z) by (unfold x_small in *; lia)
            |apply on1_ok; intros m l Hm Sm1; pose proof (small_tag l Sm1) as F
            |idtac].
    - eexists. split; [reflexivity|]. apply Hsnoc; auto. apply holds_new.
    - eexists. split; [reflexivity|]. apply Hsnoc; auto.
    - destruct (as_from_iter_ok xs) as (m & E & H); [cbn in So; unfold x_small in So; lia|].
      rewrite E. cbn [bind]. eexists. split; [reflexivity|]. apply Hsnoc; auto.
    - destruct (as_insert_ok m l x Hm F) as (m' & E & H). rewrite E. cbn [bind].
      eexists. split; [reflexivity|]. apply Hset; auto.
    - destruct (as_remove_ok m l q Hm F) as (m' & E & H). rewrite E. cbn [bind].
      eexists. split; [reflexivity|]. apply Hset; auto.
    - destruct (as_take_ok m l q Hm F) as (m' & E & H). rewrite E. cbn [bind].
      eexists. split; [reflexivity|]. apply Hset; auto.
    - destruct (as_replace_ok m l x Hm F) as (m' & E & H). rewrite E. cbn [bind].
      eexists. split; [reflexivity|]. apply Hset; auto.
    - rewrite (as_get_ok m l) by auto. eauto.
    - rewrite (as_contains_ok m l) by auto. eauto.
    - rewrite (as_first_ok m l) by auto. eauto.
    - rewrite (as_last_ok m l) by auto. eauto.
    - destruct (as_pop_first_ok m l Hm F) as (m' & E & H). rewrite E. cbn [bind].
      eexists. split; [reflexivity|]. apply Hset; auto.
    - destruct (as_pop_last_ok m l Hm F) as (m' & E & H). rewrite E. cbn [bind].
      eexists. split; [reflexivity|]. apply Hset; auto.
    - rewrite (holds_len m l) by auto. eauto.
    - rewrite (holds_empty m l) by auto. eauto.
    - eexists. split; [reflexivity|]. apply Hset; auto. split; [apply clear_spec|reflexivity].
    - destruct (as_extend_ok xs m l Hm) as (m' & E & H); [cbn in So; unfold x_small in *; lia|].
      rewrite E. cbn [bind]. eexists. split; [reflexivity|]. apply Hset; auto.
    - destruct (as_retain_ok (fun u x => (u, g x)) m l tt Hm F) as (m' & E & H).
      rewrite E. cbn [bind]. rewrite x_retain_pure in H. eexists. split; [reflexivity|]. apply Hset; auto.
    - destruct (as_split_off_ok m l q Hm F) as (m1 & m2 & E & H1 & H2). rewrite E. cbn [bind].
      eexists. split; [reflexivity|]. apply Hsnoc; auto.
    - destruct (Nat.eqb h1 h2); [eauto|].
      destruct (as_append_ok a b la lb Ha Hb F) as (a' & b' & E & H1 & H2). rewrite E. cbn [bind].
      eexists. split; [reflexivity|]. repeat apply Hset; auto.
    - destruct (as_new_union_ok a b la lb Ha Hb F) as (m & E & H). rewrite E. cbn [bind].
      eexists. split; [reflexivity|]. apply Hsnoc; auto.
    - destruct (as_new_inter_ok a b la lb Ha Hb F) as (m & E & H). rewrite E. cbn [bind].
      eexists. split; [reflexivity|]. apply Hsnoc; auto.
    - destruct (as_new_diff_ok a b la lb Ha Hb F) as (m & E & H). rewrite E. cbn [bind].
      eexists. split; [reflexivity|]. apply Hsnoc; auto.
    - destruct (as_new_sym_diff_ok a b la lb Ha Hb F) as (m & E & H). rewrite E. cbn [bind].
      eexists. split; [reflexivity|]. apply Hsnoc; auto.
    - rewrite (as_setop_ok _ a b la lb) by auto. cbn [bind].
      rewrite (kept_union bor cmp laws) by (eapply holds_asc; eauto). eauto.
    - rewrite (as_setop_ok _ a b la lb) by auto. cbn [bind].
      rewrite (kept_inter bor cmp laws) by (eapply holds_asc; eauto). eauto.
    - rewrite (as_setop_ok _ a b la lb) by auto. cbn [bind].
      rewrite (kept_diff bor cmp laws) by (eapply holds_asc; eauto). eauto.
    - rewrite (as_setop_ok _ a b la lb) by auto. cbn [bind].
      rewrite (kept_symdiff bor cmp laws) by (eapply holds_asc; eauto). eauto.
    - rewrite (as_disjoint_ok a b la lb) by auto. cbn [bind]. eauto.
    - rewrite (as_subset_ok same Hsame a b la lb) by auto. cbn [bind]. eauto.
    - unfold as_is_superset. rewrite (as_subset_ok same Hsame b a lb la) by auto. cbn [bind]. eauto.
    - rewrite (as_nexts_ok n m l) by auto. cbn [bind]. eauto.
    - rewrite (as_range_ok m l) by auto. cbn [bind]. eauto.
    - rewrite (as_eq_ok a b la lb) by auto. cbn [bind]. eauto.
    - rewrite (as_cmp_ok a b la lb) by auto. cbn [bind]. eauto.
    - rewrite (as_check_ok m l) by auto. cbn [bind]. eauto.
  Qed.

  Lemma run_ok os : forall same st sst, (forall n a b, same n a b = true -> a = b) -> holdss st sst ->
    x_all_small bor cmp teq ocmp (x_subset bor cmp) (x_inter bor cmp) sst os ->
    exists st', as_run bor cmp teq ocmp same st os
                = Ok (st', snd (x_run bor cmp teq ocmp (x_subset bor cmp) (x_inter bor cmp) sst os))
      /\ holdss st' (fst (x_run bor cmp teq ocmp (x_subset bor cmp) (x_inter bor cmp) sst os)).
  Proof.
    induction os as [|o os IH]; intros same st sst Hs R Sm; cbn [as_run x_run].
    - exists st. auto.
    - cbn [x_all_small] in Sm. destruct Sm as (Sm & So & Sm').
      destruct (step_ok (same 0) st sst o (Hs 0) R Sm So) as (st1 & E & R1). rewrite E. cbn [bind].
      destruct (SetSpec.x_step bor cmp teq ocmp (x_subset bor cmp) (x_inter bor cmp) sst o) as [sst1 r]. cbn [fst snd] in *.
      destruct (IH (fun n => same (Datatypes.S n)) st1 sst1 (fun n => Hs (Datatypes.S n)) R1 Sm') as (st2 & E2 & R2).
      rewrite E2. cbn [bind].
      destruct (x_run bor cmp teq ocmp (x_subset bor cmp) (x_inter bor cmp) sst1 os) as [sst2 rs]. cbn [fst snd] in *.
      exists st2. auto.
  Qed.
End AvlSetProofs.
