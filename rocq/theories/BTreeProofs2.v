(** Proofs about the B-tree model: rotations, merging, removal, the map operations. *)
From Coq Require Import List PeanoNat Bool Lia.
From Verif Require Import Base Spec SpecFacts Vec BTreeModel BTreeProofs.
Import ListNotations.

Section BTreeProofs2.
  Context {K V Q : Type} (bor : K -> Q) (cmp : Q -> Q -> comparison).
  Context (laws : order_laws cmp).
  Context (N : nat) (HN : 1 <= N).
  Notation bt := (bt K V).
  Notation entry := (K * V)%type.
  Notation asc := (@ascending K V Q bor cmp).
  Notation rem := (@s_remove K V Q bor cmp).
  Notation fnd := (@s_find K V Q bor cmp).
  Notation key e := (bor (fst e)).
  Notation scan := (@scan K V Q bor cmp).
  Notation MAX := (MAX_OCC N).
  Notation shape := (@shape K V N).
  Notation arity := (@arity K V N).
  Notation flat := (@flat K V).

  (** Two nodes of one height with a separator make one. *)
  Lemma arity_join h a ka e b kb : arity h a ka -> arity h b kb -> arity h (a ++ e :: b) (ka ++ kb).
  Proof.
    destruct h; cbn.
    - intros -> ->. reflexivity.
    - intros [L1 F1] [L2 F2]. rewrite !app_length. cbn. split; [lia|]. apply Forall_app. auto.
  Qed.
  Lemma flat_join h a ka e b kb : arity h a ka -> arity h b kb ->
    flat (BN (a ++ e :: b) (ka ++ kb)) = flat (BN a ka) ++ e :: flat (BN b kb).
  Proof.
    destruct h; cbn [BTreeProofs.arity].
    - intros -> ->. reflexivity.
    - intros [L1 F1] [L2 F2]. destruct (snoc_cases ka) as [->|(ka' & c & ->)]; [discriminate|].
      rewrite <- app_assoc. cbn [app]. apply flat_pivot. rewrite app_length in L1. cbn in L1. lia.
  Qed.
  Lemma flat_branch2 es1 e es2 ks1 s c ks2 : length ks1 = length es1 -> length ks2 = length es2 ->
    flat (BN (es1 ++ e :: es2) (ks1 ++ s :: c :: ks2)) =
    zipl (map flat ks1) es1 ++ (flat s ++ e :: flat c) ++ zipr es2 (map flat ks2).
  Proof.
    intros H1 H2. rewrite flat_branch by (cbn; lia). cbn [map]. rewrite zipr_cons.
    now rewrite <- !app_assoc.
  Qed.

  (** A node that just lost an entry may be one short. *)
  Definition short h (t : bt) : Prop := shape (N - 1) h t /\ n_len t < N.

  Definition arity_of h (t : bt) := match t with BN es ks => arity h es ks end.
  Lemma shape_arity mn h t : shape mn h t -> arity_of h t.
  Proof. destruct t. intros H. now apply shape_iff in H. Qed.

  Lemma merge_kids_ok h es1 e es2 ks1 s c ks2 :
    length ks1 = length es1 -> length ks2 = length es2 ->
    Forall (shape N h) ks1 -> Forall (shape N h) ks2 ->
    arity_of h s -> arity_of h c -> N <= n_len s + 1 + n_len c <= MAX ->
    exists t', merge_kids (BN (es1 ++ e :: es2) (ks1 ++ s :: c :: ks2)) (length es1) = Ok t'
      /\ n_len t' = length (es1 ++ es2) /\ arity_of (S h) t'
      /\ flat t' = flat (BN (es1 ++ e :: es2) (ks1 ++ s :: c :: ks2)).
  Proof.
    intros L1 L2 F1 F2 As Ac Hn. destruct s as [s_es s_ks], c as [c_es c_ks]. cbn in As, Ac.
    unfold n_len in Hn. cbn [elems_of] in Hn.
    cbn [merge_kids]. rewrite !vec_remove_mid by auto. cbn [bind].
    rewrite nth_mid by auto. cbn [unwrap bind]. rewrite set_at_mid by auto.
    eexists. split; [reflexivity|]. split; [reflexivity|].
    rewrite <- app_assoc. cbn [app]. split.
    - cbn. rewrite !app_length. cbn. split; [lia|]. apply Forall_app. split; auto. constructor; auto.
      apply shape_iff. rewrite !app_length. cbn [length]. split; [lia|]. now apply arity_join.
    - rewrite flat_branch, flat_branch2 by auto. now rewrite (flat_join h).
  Qed.

  Lemma rot_rt_ok h es1 e es2 ks1 s c ks2 :
    length ks1 = length es1 -> length ks2 = length es2 ->
    Forall (shape N h) ks1 -> Forall (shape N h) ks2 ->
    shape N h s -> N < n_len s -> short h c ->
    exists t', rot_rt N (BN (es1 ++ e :: es2) (ks1 ++ s :: c :: ks2)) (length es1) = Ok t'
      /\ n_len t' = length (es1 ++ e :: es2) /\ arity_of (S h) t'
      /\ flat t' = flat (BN (es1 ++ e :: es2) (ks1 ++ s :: c :: ks2)).
  Proof.
    intros L1 L2 F1 F2 Ss Ls [Sc Lc]. destruct s as [s_es s_ks], c as [c_es c_ks].
    unfold n_len in *. cbn [elems_of] in *.
    apply shape_iff in Ss as [Bs As]. apply shape_iff in Sc as [Bc Ac].
    destruct (snoc_cases s_es) as [->|(s_es' & kv0 & ->)]; [cbn in Ls; lia|].
    rewrite app_length in *. cbn [length] in *.
    cbn [rot_rt]. unfold is_branch, is_leaf. cbn [kids_of].
    assert (is_nil (ks1 ++ BN (s_es' ++ [kv0]) s_ks :: BN c_es c_ks :: ks2) = false) as -> by now destruct ks1.
    cbn [negb assert_ bind]. rewrite nth_mid by auto. cbn [unwrap bind]. unfold assert_, MIN_OCC.
    rewrite app_length. cbn [length].
    destruct (Nat.ltb_spec N (length s_es' + 1)); [|lia]. cbn [bind].
    rewrite vec_pop_snoc. cbn [unwrap bind].
    assert (exists x s_ks', s_ks = s_ks' ++ match x with Some x => [x] | None => [] end
      /\ (match vec_pop s_ks with Some (x, l) => (Some x, l) | None => (None, s_ks) end) = (x, s_ks')
      /\ arity h s_es' s_ks' /\ arity h [] (match x with Some x => [x] | None => [] end))
      as (x & s_ks' & -> & -> & As' & Ax).
    { destruct h; cbn in As.
      - subst. exists None, []. repeat split; reflexivity.
      - destruct As as [Lk Fk]. destruct (snoc_cases s_ks) as [->|(s_ks' & x & ->)]; [discriminate|].
        exists (Some x), s_ks'. rewrite vec_pop_snoc. rewrite !app_length in Lk. cbn in Lk.
        apply Forall_app in Fk as [Fk Fx].
        refine (conj eq_refl (conj eq_refl (conj (conj _ Fk) (conj eq_refl Fx)))). lia. }
    rewrite !set_at_mid by auto.
    rewrite (nth_mid es1) by auto. cbn [unwrap bind].
    replace (ks1 ++ BN s_es' s_ks' :: BN c_es c_ks :: ks2)
      with ((ks1 ++ [BN s_es' s_ks']) ++ BN c_es c_ks :: ks2) by now rewrite <- app_assoc.
    rewrite nth_mid by (rewrite app_length; cbn; lia). cbn [unwrap bind vec_insert].
    assert (E1 : vec_insert 0 e c_es = Ok (e :: c_es)) by reflexivity. rewrite E1. cbn [bind].
    assert (E2 : match x with Some x0 => vec_insert 0 x0 c_ks | None => Ok c_ks end
      = Ok (match x with Some x => [x] | None => [] end ++ c_ks)) by (destruct x; reflexivity).
    rewrite E2. cbn [bind]. rewrite set_at_mid by (rewrite app_length; cbn; lia).
    rewrite <- app_assoc. cbn [app].
    set (X := match x with Some x => [x] | None => [] end) in *.
    eexists. split; [reflexivity|].
    split; [unfold n_len; cbn [elems_of]; rewrite !app_length; reflexivity|]. split.
    - cbn [arity_of BTreeProofs.arity]. rewrite !app_length. cbn [length]. split; [lia|].
      apply Forall_app. split; auto. constructor; [|constructor; auto]; apply shape_iff.
      + split; [lia|auto].
      + cbn [length]. split; [lia|]. exact (arity_join h [] X e c_es c_ks Ax Ac).
    - rewrite !flat_branch2 by auto. f_equal. f_equal.
      rewrite (flat_join h s_es' s_ks' kv0 [] X As' Ax).
      change (e :: c_es) with ([] ++ e :: c_es). rewrite (flat_join h [] X e c_es c_ks Ax Ac).
      now rewrite <- app_assoc.
  Qed.

  Lemma rot_lf_ok h es1 e es2 ks1 c s ks2 :
    length ks1 = length es1 -> length ks2 = length es2 ->
    Forall (shape N h) ks1 -> Forall (shape N h) ks2 ->
    shape N h s -> N < n_len s -> short h c ->
    exists t', rot_lf N (BN (es1 ++ e :: es2) (ks1 ++ c :: s :: ks2)) (length es1) = Ok t'
      /\ n_len t' = length (es1 ++ e :: es2) /\ arity_of (S h) t'
      /\ flat t' = flat (BN (es1 ++ e :: es2) (ks1 ++ c :: s :: ks2)).
  Proof.
    intros L1 L2 F1 F2 Ss Ls [Sc Lc]. destruct s as [s_es s_ks], c as [c_es c_ks].
    unfold n_len in *. cbn [elems_of] in *.
    apply shape_iff in Ss as [Bs As]. apply shape_iff in Sc as [Bc Ac].
    destruct s_es as [|kv2 s_es]; [cbn in Ls; lia|]. cbn [length] in *.
    cbn [rot_lf]. unfold is_branch, is_leaf. cbn [kids_of].
    assert (is_nil (ks1 ++ BN c_es c_ks :: BN (kv2 :: s_es) s_ks :: ks2) = false) as -> by now destruct ks1.
    cbn [negb assert_ bind].
    replace (ks1 ++ BN c_es c_ks :: BN (kv2 :: s_es) s_ks :: ks2)
      with ((ks1 ++ [BN c_es c_ks]) ++ BN (kv2 :: s_es) s_ks :: ks2) by now rewrite <- app_assoc.
    rewrite nth_mid by (rewrite app_length; cbn; lia). cbn [unwrap bind]. unfold assert_, MIN_OCC.
    cbn [length]. destruct (Nat.ltb_spec N (S (length s_es))); [|lia]. cbn [bind].
    assert (E0 : vec_remove 0 (kv2 :: s_es) = Ok (kv2, s_es)) by reflexivity. rewrite E0. cbn [bind].
    assert (exists x s_ks', s_ks = match x with Some x => [x] | None => [] end ++ s_ks'
      /\ (if is_nil s_ks then Ok (None, s_ks) else '(x, r) <- vec_remove 0 s_ks;; Ok (Some x, r)) = Ok (x, s_ks')
      /\ arity h s_es s_ks' /\ arity h [] (match x with Some x => [x] | None => [] end))
      as (x & s_ks' & -> & -> & As' & Ax).
    { destruct h; cbn in As.
      - subst. exists None, []. repeat split; reflexivity.
      - destruct As as [Lk Fk]. destruct s_ks as [|x s_ks']; [discriminate|].
        exists (Some x), s_ks'. inversion Fk; subst. cbn in Lk.
        refine (conj eq_refl (conj eq_refl (conj (conj _ _) (conj eq_refl _)))); auto. }
    cbn [bind]. rewrite set_at_mid by (rewrite app_length; cbn; lia).
    rewrite (nth_mid es1), (set_at_mid es1) by auto. cbn [unwrap bind].
    rewrite <- app_assoc. cbn [app].
    rewrite nth_mid by auto. cbn [unwrap bind].
    destruct (Nat.ltb_spec (length c_es) N); [|lia]. cbn [bind]. rewrite set_at_mid by auto.
    set (X := match x with Some x => [x] | None => [] end) in *.
    replace (match x with Some x0 => c_ks ++ [x0] | None => c_ks end) with (c_ks ++ X)
      by (subst X; destruct x; auto using app_nil_r).
    eexists. split; [reflexivity|].
    split; [unfold n_len; cbn [elems_of]; rewrite !app_length; reflexivity|]. split.
    - cbn [arity_of BTreeProofs.arity]. rewrite !app_length. cbn [length]. split; [lia|].
      apply Forall_app. split; auto. constructor; [|constructor; auto]; apply shape_iff.
      + rewrite app_length. cbn [length]. split; [lia|]. exact (arity_join h c_es c_ks e [] X Ac Ax).
      + split; [lia|auto].
    - rewrite <- app_assoc. cbn [app]. rewrite !flat_branch2 by auto. f_equal. f_equal.
      rewrite (flat_join h c_es c_ks e [] X Ac Ax).
      change (kv2 :: s_es) with ([] ++ kv2 :: s_es). rewrite (flat_join h [] X kv2 s_es s_ks' Ax As').
      now rewrite <- app_assoc.
  Qed.

  Lemma rebal_ok h es1 es2 ks1 c ks2 :
    length ks1 = length es1 -> length ks2 = length es2 -> 1 <= length (es1 ++ es2) <= MAX ->
    Forall (shape N h) ks1 -> Forall (shape N h) ks2 -> short h c ->
    exists t', rebal N (BN (es1 ++ es2) (ks1 ++ c :: ks2)) (length es1) = Ok (t', n_len t' <? N)
      /\ length (es1 ++ es2) - 1 <= n_len t' <= MAX /\ arity_of (S h) t'
      /\ flat t' = flat (BN (es1 ++ es2) (ks1 ++ c :: ks2)).
  Proof.
    intros L1 L2 B F1 F2 Sh. pose proof Sh as [Sc Lc]. pose proof (shape_len N _ _ _ Sc) as Bc.
    unfold rebal, is_branch, is_leaf. cbn [kids_of].
    assert (is_nil (ks1 ++ c :: ks2) = false) as -> by now destruct ks1. cbn [negb assert_ bind].
    unfold MIN_OCC. assert (Eth : MAX - N = N + 1) by (unfold MAX_OCC; lia). rewrite Eth.
    assert (X : exists t', (if 0 <? length es1 then
             s <- unwrap (nth_error (ks1 ++ c :: ks2) (length es1 - 1));;
             if N + 1 <? n_len s then rot_rt N (BN (es1 ++ es2) (ks1 ++ c :: ks2)) (length es1 - 1)
             else merge_kids (BN (es1 ++ es2) (ks1 ++ c :: ks2)) (length es1 - 1)
           else
             s <- unwrap (nth_error (ks1 ++ c :: ks2) (length es1 + 1));;
             if N + 1 <? n_len s then rot_lf N (BN (es1 ++ es2) (ks1 ++ c :: ks2)) (length es1)
             else merge_kids (BN (es1 ++ es2) (ks1 ++ c :: ks2)) (length es1)) = Ok t'
      /\ length (es1 ++ es2) - 1 <= n_len t' <= MAX /\ arity_of (S h) t'
      /\ flat t' = flat (BN (es1 ++ es2) (ks1 ++ c :: ks2))).
    { destruct (snoc_cases es1) as [->|(es1' & e & ->)].
      - destruct ks1; [|discriminate]. cbn [app length]. change (0 <? 0) with false. cbv match.
        destruct es2 as [|e es2]; [cbn in B; lia|]. destruct ks2 as [|s ks2]; [discriminate|].
        cbn in L2. inversion F2 as [|? ? Ss F2']; subst. pose proof (shape_len N _ _ _ Ss) as Bs.
        cbn [nth_error Nat.add unwrap bind].
        destruct (Nat.ltb_spec (N + 1) (n_len s)).
        + destruct (rot_lf_ok h [] e es2 [] c s ks2) as (t' & E & E1 & E2 & E3); auto; [lia|].
          cbn [app length] in *. exists t'. rewrite E, E1. (split; [reflexivity|]); (split; [cbn [length] in *; lia|]); auto.
        + destruct (merge_kids_ok h [] e es2 [] c s ks2) as (t' & E & E1 & E2 & E3); auto.
          { eapply shape_arity; eauto. }
          { eapply shape_arity; eauto. }
          { unfold MAX_OCC in *. lia. }
          cbn [app length] in *. exists t'. rewrite E, E1. (split; [reflexivity|]); (split; [cbn [length] in *; lia|]); auto.
      - destruct (snoc_cases ks1) as [->|(ks1' & s & ->)]; [rewrite app_length in L1; cbn in L1; lia|].
        rewrite !app_length in L1. cbn [length] in L1. assert (L1' : length ks1' = length es1') by lia.
        apply Forall_app in F1 as [F1 Fs]. inversion Fs as [|? ? Ss _]; subst.
        pose proof (shape_len N _ _ _ Ss) as Bs.
        rewrite app_length. cbn [length].
        destruct (Nat.ltb_spec 0 (length es1' + 1)); [|lia].
        replace (length es1' + 1 - 1) with (length es1') by lia.
        rewrite <- !app_assoc in *. cbn [app] in *. rewrite nth_mid by auto. cbn [unwrap bind].
        destruct (Nat.ltb_spec (N + 1) (n_len s)).
        + destruct (rot_rt_ok h es1' e es2 ks1' s c ks2) as (t' & E & E1 & E2 & E3); auto; [lia|].
          exists t'. rewrite E, E1. (split; [reflexivity|]); (split; [rewrite ?app_length in *; cbn [length] in *; lia|]); auto.
        + destruct (merge_kids_ok h es1' e es2 ks1' s c ks2) as (t' & E & E1 & E2 & E3); auto.
          { eapply shape_arity; eauto. }
          { eapply shape_arity; eauto. }
          { unfold MAX_OCC in *. lia. }
          exists t'. rewrite E, E1. rewrite !app_length in *. cbn [length] in *.
          (split; [reflexivity|]); (split; [rewrite ?app_length in *; cbn [length] in *; lia|]); auto. }
    destruct X as (t' & E & R). rewrite E. cbn [bind]. eauto.
  Qed.

  (** What a removal leaves: one short if the flag is set. *)
  Definition left_ok (mn h : nat) (t : bt) (under : bool) : Prop :=
    if under then shape (mn - 1) h t /\ n_len t < N else shape mn h t.

  Lemma kid_fixed mn h es1 es2 ks1 c ks2 i : 1 <= mn <= N -> i = length es1 ->
    length ks1 = length es1 -> length ks2 = length es2 -> mn <= length (es1 ++ es2) <= MAX ->
    Forall (shape N h) ks1 -> Forall (shape N h) ks2 -> left_ok N h c true ->
    exists t' u, rebal N (BN (es1 ++ es2) (ks1 ++ c :: ks2)) i = Ok (t', u)
      /\ left_ok mn (S h) t' u /\ flat t' = flat (BN (es1 ++ es2) (ks1 ++ c :: ks2)).
  Proof.
    intros Hm -> L1 L2 B F1 F2 C.
    destruct (rebal_ok h es1 es2 ks1 c ks2) as (t' & E & Bt & At & Ft); auto; [lia|].
    exists t', (n_len t' <? N). split; auto. split; auto.
    destruct t' as [es' ks']. cbn [arity_of] in At. unfold n_len in *. cbn [elems_of] in *.
    destruct (Nat.ltb_spec (length es') N); cbn [left_ok]; [split; auto|]; apply shape_iff; split; auto; lia.
  Qed.
  Lemma kid_kept mn h es1 es2 ks1 c ks2 :
    length ks1 = length es1 -> length ks2 = length es2 -> mn <= length (es1 ++ es2) <= MAX ->
    Forall (shape N h) ks1 -> Forall (shape N h) ks2 -> left_ok N h c false ->
    left_ok mn (S h) (BN (es1 ++ es2) (ks1 ++ c :: ks2)) false.
  Proof. intros. cbn in *. now apply shape_branch. Qed.
  Lemma leaf_left mn (es es' : list entry) : 1 <= mn <= N -> mn <= length es <= MAX -> length es = S (length es') ->
    left_ok mn 0 (BN es' []) (length es' <? N).
  Proof.
    intros Hm B L. unfold left_ok, n_len. cbn [elems_of].
    destruct (Nat.ltb_spec (length es') N); [split; auto|]; apply shape_iff; split; try reflexivity; lia.
  Qed.

  Lemma n_pop_first_ok mn h t : 1 <= mn <= N -> shape mn h t ->
    exists t' e u, n_pop_first N t = Ok (t', Some (e, u))
      /\ left_ok mn h t' u /\ flat t = e :: flat t'.
  Proof.
    revert mn t. induction h as [|h IH]; intros mn t Hm S.
    - destruct (shape_0 _ _ _ S) as (es & -> & Hb). destruct es as [|e es]; [cbn in Hb; lia|].
      cbn [n_pop_first map nth_error]. change (vec_remove 0 (e :: es)) with (Ok (e, es)). cbn [bind].
      eexists _, _, _. split; [reflexivity|]. split; [|reflexivity]. eapply leaf_left; eauto.
    - destruct (shape_S _ _ _ _ S) as (es & ks & -> & Hb & Hk & HF).
      destruct ks as [|c ks]; [discriminate|]. inversion HF as [|? ? Fc F]; subst. cbn in Hk.
      destruct (IH N c) as (c' & e & u & E & G & Fl); [lia|auto|].
      cbn [n_pop_first map nth_error]. rewrite E. cbn [bind].
      change (set_at 0 c' (c :: ks)) with (c' :: ks).
      assert (Efl : forall x, flat (BN es (x :: ks)) = flat x ++ zipr es (map flat ks)).
      { intros x. apply (flat_branch [] es [] x ks); auto. }
      destruct u.
      + destruct (kid_fixed mn h [] es [] c' ks 0) as (t' & u' & E' & G' & F'); auto.
        cbn [app] in *. rewrite E'. cbn [bind]. eexists _, _, _. split; [reflexivity|]. split; auto.
        rewrite F', !Efl, Fl. reflexivity.
      + eexists _, _, _. split; [reflexivity|]. split.
        * apply (kid_kept mn h [] es [] c' ks); auto.
        * rewrite !Efl, Fl. reflexivity.
  Qed.

  Lemma n_pop_last_ok mn h t : 1 <= mn <= N -> shape mn h t ->
    exists t' e u, n_pop_last N t = Ok (t', Some (e, u))
      /\ left_ok mn h t' u /\ flat t = flat t' ++ [e].
  Proof.
    revert mn t. induction h as [|h IH]; intros mn t Hm S.
    - destruct (shape_0 _ _ _ S) as (es & -> & Hb).
      destruct (snoc_cases es) as [->|(es' & e & ->)]; [cbn in Hb; lia|].
      cbn [n_pop_last map]. rewrite last_nil, vec_pop_snoc. cbn [unwrap bind].
      eexists _, _, _. split; [reflexivity|]. split; [|reflexivity]. eapply leaf_left; eauto.
      rewrite app_length. cbn. lia.
    - destruct (shape_S _ _ _ _ S) as (es & ks & -> & Hb & Hk & HF).
      destruct (snoc_cases ks) as [->|(ks' & c & ->)]; [discriminate|].
      apply Forall_mid in HF as (F & Fc & _). rewrite app_length in Hk. cbn in Hk.
      destruct (IH N c) as (c' & e & u & E & G & Fl); [lia|auto|].
      cbn [n_pop_last]. rewrite last_map_snoc, E. cbn [bind].
      rewrite set_at_mid by (rewrite app_length; cbn; lia).
      assert (Efl : forall x, flat (BN es (ks' ++ [x])) = zipl (map flat ks') es ++ flat x).
      { intros x. pose proof (flat_branch es [] ks' x []) as X. rewrite app_nil_r in X.
        rewrite X by (cbn; lia). cbn [map]. now rewrite zipr_nil, app_nil_r. }
      destruct u.
      + destruct (kid_fixed mn h es [] ks' c' [] (length es)) as (t' & u' & E' & G' & F'); auto;
          rewrite ?app_nil_r; auto; [lia|].
        rewrite app_nil_r in *. rewrite E'. cbn [bind]. eexists _, _, _. split; [reflexivity|]. split; auto.
        rewrite F', !Efl, Fl. now rewrite app_assoc.
      + eexists _, _, _. split; [reflexivity|]. split.
        * pose proof (kid_kept mn h es [] ks' c' []) as X. rewrite app_nil_r in X. apply X; auto; lia.
        * rewrite !Efl, Fl. now rewrite app_assoc.
  Qed.

  Lemma n_remove_ok mn h t q : 1 <= mn <= N -> shape mn h t -> asc (flat t) ->
    exists t' ret, n_remove bor cmp N q t = Ok (t', ret)
      /\ flat t' = rem q (flat t)
      /\ match ret with
         | Some (e, u) => fnd q (flat t) = Some e /\ left_ok mn h t' u
         | None => fnd q (flat t) = None /\ shape mn h t'
         end.
  Proof.
    revert mn t. induction h as [|h IH]; intros mn t Hm S A.
    - destruct (shape_0 _ _ _ S) as (es & -> & Hb). cbn [n_remove].
      destruct (scan q es) as [i c] eqn:E.
      destruct (scan_leaf bor cmp laws q es i c A E) as (es1 & es2 & -> & <- & H1 & H2).
      destruct c.
      + destruct H2 as (e & es3 & -> & He). cbn [is_leaf kids_of is_nil].
        rewrite vec_remove_mid by auto. cbn [bind]. rewrite flat_leaf in *.
        eexists _, _. split; [reflexivity|]. rewrite flat_leaf. split.
        * symmetry. now apply (rem_pivot_eq bor cmp laws).
        * split; [now apply (fnd_pivot_eq bor cmp laws)|].
          eapply leaf_left; eauto. rewrite !app_length. cbn. lia.
      + cbn [map]. rewrite nth_nil. destruct H2 as [_ H2]. eexists _, _. split; [reflexivity|].
        rewrite flat_leaf. split; [|split; auto].
        * symmetry. exact (rem_seg bor cmp laws q es1 [] es2 H1 H2).
        * exact (fnd_seg bor cmp laws q es1 [] es2 H1 H2).
      + subst. cbn [map]. rewrite last_nil. eexists _, _. split; [reflexivity|].
        rewrite flat_leaf. split; [|split; auto].
        * symmetry. exact (rem_seg bor cmp laws q es1 [] [] H1 (all_gt_nil bor cmp q)).
        * exact (fnd_seg bor cmp laws q es1 [] [] H1 (all_gt_nil bor cmp q)).
    - destruct (shape_S _ _ _ _ S) as (es & ks & -> & Hb & Hk & HF). cbn [n_remove].
      destruct (scan q es) as [i c] eqn:E.
      assert (Down : forall es1 es2 ks1 t ks2, es = es1 ++ es2 -> ks = ks1 ++ t :: ks2 ->
        length es1 = i -> length ks1 = i -> length ks2 = length es2 ->
        all_lt bor cmp (zipl (map flat ks1) es1) q -> all_gt bor cmp (zipr es2 (map flat ks2)) q ->
        asc (flat t) ->
        exists t' ret,
          ('(c', ret) <- n_remove bor cmp N q t;;
           let t1 := BN es (ks1 ++ c' :: ks2) in
           match ret with
           | None => Ok (t1, None)
           | Some (kv, true) => '(t2, u) <- rebal N t1 i;; Ok (t2, Some (kv, u))
           | Some (kv, false) => Ok (t1, Some (kv, false))
           end) = Ok (t', ret)
          /\ flat t' = rem q (flat (BN es ks))
          /\ match ret with
             | Some (e, u) => fnd q (flat (BN es ks)) = Some e /\ left_ok mn (Datatypes.S h) t' u
             | None => fnd q (flat (BN es ks)) = None /\ shape mn (Datatypes.S h) t'
             end).
      { intros es1 es2 ks1 t ks2 -> -> L0 L1 L2 Hl Hr At.
        apply Forall_mid in HF as (F1 & F & F2).
        destruct (IH N t) as (t' & ret & E' & Fl & G); auto; try lia. rewrite E'. cbn [bind].
        assert (Efl : flat (BN (es1 ++ es2) (ks1 ++ t' :: ks2)) = rem q (flat (BN (es1 ++ es2) (ks1 ++ t :: ks2)))).
        { rewrite !flat_branch, (rem_seg bor cmp laws), Fl by (auto; lia). reflexivity. }
        rewrite (flat_branch es1 es2 ks1 t ks2), (fnd_seg bor cmp laws) by (auto; lia).
        rewrite <- (flat_branch es1 es2 ks1 t ks2) by lia.
        destruct ret as [[e [|]]|].
        - destruct G as [G1 G2].
          destruct (kid_fixed mn h es1 es2 ks1 t' ks2 i) as (t2 & u & E2 & G3 & F3); auto; [lia|].
          cbv zeta. rewrite E2. cbn [bind]. eexists _, _. split; [reflexivity|]. split; [congruence|auto].
        - destruct G as [G1 G2]. eexists _, _. split; [reflexivity|]. split; auto. split; auto.
          apply kid_kept; auto; lia.
        - destruct G as [G1 G2]. eexists _, _. split; [reflexivity|]. split; auto. split; auto.
          apply shape_branch; auto; lia. }
      destruct c.
      + destruct (scan_branch_eq bor cmp laws N HN q es ks i Hk A E) as (es1 & e & es2 & ks1 & t & ks2 & -> & -> & Li & L1 & L2 & He).
        clear Down. apply Forall_mid in HF as (F1 & F & F2).
        assert (is_leaf (BN (es1 ++ e :: es2) (ks1 ++ t :: ks2)) = false) as ->
          by (unfold is_leaf; cbn; now destruct ks1).
        destruct (n_pop_last_ok N h t) as (t' & e' & u & E' & G & Fl); [lia|auto|].
        rewrite nth_map_mid by auto. cbn [unwrap bind]. rewrite E'. cbn [bind unwrap].
        rewrite nth_mid by auto. cbn [unwrap bind]. rewrite !set_at_mid by auto.
        assert (Efl : flat (BN (es1 ++ e' :: es2) (ks1 ++ t' :: ks2)) = rem q (flat (BN (es1 ++ e :: es2) (ks1 ++ t :: ks2)))).
        { rewrite !flat_pivot in * by lia. rewrite (rem_pivot_eq bor cmp laws q _ _ _ A He).
          replace es1 with (es1 ++ []) by apply app_nil_r.
          rewrite !(flat_branch es1 [] ks1 _ []) by (cbn; lia). rewrite Fl. cbn [map].
          rewrite zipr_nil, !app_nil_r, <- !app_assoc. reflexivity. }
        assert (Hf : fnd q (flat (BN (es1 ++ e :: es2) (ks1 ++ t :: ks2))) = Some e).
        { rewrite flat_pivot in * by lia. now apply (fnd_pivot_eq bor cmp laws). }
        assert (Bl : mn <= length (es1 ++ e' :: es2) <= MAX) by (rewrite app_length in *; auto).
        destruct u.
        * destruct (kid_fixed mn h es1 (e' :: es2) ks1 t' ks2 i) as (t2 & u2 & E2 & G2 & F3); auto; [lia|].
          cbv zeta. rewrite E2. cbn [bind]. eexists _, _. split; [reflexivity|]. split; [congruence|auto].
        * eexists _, _. split; [reflexivity|]. split; auto. split; auto.
          apply kid_kept; auto; lia.
      + destruct (scan_branch bor cmp laws N HN q es ks i Lt Hk A E) as (es1 & es2 & ks1 & t & ks2 & Ees & Eks & L0 & L1 & L2 & Hl & Hr & At & _); [discriminate|].
        destruct (Down es1 es2 ks1 t ks2 Ees Eks L0 L1 L2 Hl Hr At) as (t' & ret & E' & R).
        assert (H1 : nth_error (map (n_remove bor cmp N q) ks) i = Some (n_remove bor cmp N q t))
          by (rewrite Eks; now apply nth_map_mid).
        assert (H2 : forall c', set_at i c' ks = ks1 ++ c' :: ks2)
          by (intros c'; rewrite Eks; now apply set_at_mid).
        exists t', ret. split; auto. rewrite <- E', H1.
        destruct (n_remove bor cmp N q t) as [[c' r]|]; auto. cbn [bind]. now rewrite H2.
      + destruct (scan_branch bor cmp laws N HN q es ks i Gt Hk A E) as (es1 & es2 & ks1 & t & ks2 & Ees & Eks & L0 & L1 & L2 & Hl & Hr & At & Hg); [discriminate|].
        destruct (Down es1 es2 ks1 t ks2 Ees Eks L0 L1 L2 Hl Hr At) as (t' & ret & E' & R).
        destruct (Hg eq_refl) as (Hi & -> & ->).
        assert (H1 : last_opt (map (n_remove bor cmp N q) ks) = Some (n_remove bor cmp N q t))
          by (rewrite Eks; apply last_map_snoc).
        assert (H2 : forall c', set_at (length ks - 1) c' ks = ks1 ++ [c']).
        { intros c'; rewrite Eks; apply set_at_mid. rewrite app_length. cbn. lia. }
        exists t', ret. split; auto. rewrite <- E', H1.
        destruct (n_remove bor cmp N q t) as [[c' r]|]; auto. cbn [bind]. rewrite H2, Hi. reflexivity.
  Qed.

  (** *** First and last *)
  Lemma n_first_ok mn h t : 1 <= mn -> shape mn h t ->
    exists e l, n_first t = Ok e /\ flat t = e :: l.
  Proof.
    revert mn t. induction h as [|h IH]; intros mn t Hm S.
    - destruct (shape_0 _ _ _ S) as (es & -> & Hb). destruct es as [|e es]; [cbn in Hb; lia|].
      exists e, es. auto.
    - destruct (shape_S _ _ _ _ S) as (es & ks & -> & Hb & Hk & HF).
      destruct ks as [|c ks]; [discriminate|]. inversion HF as [|? ? Fc F]; subst. cbn in Hk.
      destruct (IH N c) as (e & l & E & Fl); auto.
      exists e, (l ++ zipr es (map flat ks)). cbn [n_first map nth_error]. split; auto.
      pose proof (flat_branch [] es [] c ks) as X. cbn [app] in X. rewrite X by auto. rewrite Fl. reflexivity.
  Qed.
  Lemma n_last_ok mn h t : 1 <= mn -> shape mn h t ->
    exists e l, n_last t = Some e /\ flat t = l ++ [e].
  Proof.
    revert mn t. induction h as [|h IH]; intros mn t Hm S.
    - destruct (shape_0 _ _ _ S) as (es & -> & Hb).
      destruct (snoc_cases es) as [->|(es' & e & ->)]; [cbn in Hb; lia|].
      exists e, es'. cbn [n_last map]. rewrite last_nil, last_snoc. auto.
    - destruct (shape_S _ _ _ _ S) as (es & ks & -> & Hb & Hk & HF).
      destruct (snoc_cases ks) as [->|(ks' & c & ->)]; [discriminate|].
      apply Forall_mid in HF as (F & Fc & _). rewrite app_length in Hk. cbn in Hk.
      destruct (IH N c) as (e & l & E & Fl); auto.
      exists e, (zipl (map flat ks') es ++ l). cbn [n_last]. rewrite last_map_snoc. split; auto.
      pose proof (flat_branch es [] ks' c []) as X. rewrite app_nil_r in X.
      rewrite X by (cbn; lia). cbn [map]. now rewrite zipr_nil, app_nil_r, Fl, app_assoc.
  Qed.

  (** ** The map *)
  Notation bmap := (bt_map K V).
  Definition contents (m : bmap) : list entry :=
    match bm_root m with None => [] | Some t => flat t end.
  Definition valid (m : bmap) : Prop :=
    asc (contents m) /\ bm_len m = length (contents m)
    /\ match bm_root m with None => True | Some t => exists h, shape 1 h t end.

  Lemma valid_new : valid b_new.
  Proof. repeat split. constructor. Qed.

  Lemma b_get_ok m q : valid m ->
    b_get_key_value bor cmp m q = fnd q (contents m)
    /\ b_contains_key bor cmp m q = s_mem bor cmp q (contents m).
  Proof.
    destruct m as [len [t|]]; unfold valid, contents, b_get_key_value, b_contains_key; cbn; [|auto].
    intros (A & _ & h & S). split; [eapply n_get_ok|eapply n_contains_ok]; eauto.
  Qed.
  Lemma b_get_mut_ok m q w : valid m ->
    exists m', b_get_mut bor cmp m q w = (m', s_get bor cmp q (contents m))
      /\ valid m' /\ contents m' = s_update bor cmp q w (contents m).
  Proof.
    destruct m as [len [t|]]; unfold b_get_mut, s_get; cbn [bm_root bm_len].
    - intros (A & L & h & S). cbn in A, L.
      destruct (n_get_mut_ok bor cmp laws N HN 1 h t q w S A) as (t' & E & S' & F).
      rewrite E. eexists. split; [reflexivity|]. unfold contents; cbn. split; auto.
      unfold valid, contents; cbn. rewrite F. split; [|split; eauto].
      + now apply asc_update.
      + unfold s_update. now rewrite map_length.
    - intros Hv. eexists. split; [reflexivity|]. split; auto.
  Qed.
  Lemma b_insert_ok m k v : valid m ->
    exists m', b_insert bor cmp N m k v = Ok (m', s_get bor cmp (bor k) (contents m))
      /\ valid m' /\ contents m' = s_insert bor cmp k v (contents m).
  Proof.
    destruct m as [len [t|]]; unfold b_insert, s_get; cbn [bm_root bm_len].
    - intros (A & L & h & S). unfold contents in *; cbn [bm_root bm_len] in A, L |- *.
      pose proof (length_insert bor cmp laws k v (flat t) A) as Hl.
      rewrite (mem_find bor cmp) in Hl.
      destruct (n_insert_ok bor cmp laws N HN 1 h t k v S A) as (t' & r & E & G).
      rewrite E. cbn [bind].
      assert (A' : asc (s_insert bor cmp k v (flat t))) by now apply asc_insert.
      destruct r as [old|[lhs|] k1 v1|]; cbn [ins_good] in G.
      + destruct G as (G1 & G2 & G3). destruct (fnd (bor k) (flat t)); [|discriminate]. cbn in G1 |- *. injection G1 as G1. rewrite G1.
        eexists. split; [reflexivity|]. unfold valid, contents; cbn. rewrite G3. repeat split; eauto. lia.
      + destruct G as (G1 & G2 & G3 & G4). rewrite G1 in *. cbn [unwrap bind].
        assert (EF : flat (BN [(k1, v1)] [lhs; t']) = s_insert bor cmp k v (flat t)).
        { rewrite <- G4. cbn. now rewrite app_nil_r. }
        eexists. split; [reflexivity|]. unfold valid, contents. cbn [bm_root bm_len]. rewrite EF.
        split; auto. split; auto. split; [lia|]. exists (Datatypes.S h).
        constructor; auto. cbn. unfold MAX_OCC. lia.
      + destruct G.
      + destruct G as (G1 & G2 & G3). rewrite G1 in *.
        eexists. split; [reflexivity|]. unfold valid, contents; cbn. rewrite G3. repeat split; eauto. lia.
    - intros Hv. eexists. split; [reflexivity|]. unfold valid, contents; cbn. repeat split; auto.
      + repeat constructor.
      + exists 0. constructor. cbn. unfold MAX_OCC. lia.
  Qed.

  Lemma left_root h t u : left_ok 1 h t u -> asc (flat t) ->
    exists r, (if u && is_nil (elems_of t)
               then _ <- assert_ (length (kids_of t) <=? 1);; Ok (option_map fst (vec_pop (kids_of t)))
               else Ok (Some t)) = Ok r
      /\ (match r with None => [] | Some t => flat t end) = flat t
      /\ match r with None => True | Some t => exists h, shape 1 h t end.
  Proof.
    intros G A. destruct t as [es ks]. cbn [elems_of kids_of].
    destruct u; cbn [andb left_ok] in G |- *; [|eauto].
    destruct G as [S L]. apply shape_iff in S as [B Ar]. destruct es as [|e es]; cbn [is_nil].
    - destruct h; cbn in Ar.
      + subst. cbn. eauto.
      + destruct Ar as [Lk F]. destruct ks as [|c [|? ?]]; try discriminate.
        inversion F; subst. cbn [length Nat.leb assert_ bind]. cbn [vec_pop rev app option_map fst].
        eexists. split; [reflexivity|]. split; [cbn; now rewrite app_nil_r|].
        exists h. now apply shape_weaken with N.
    - eexists. split; [reflexivity|]. split; auto. exists h. apply shape_iff. split; auto. cbn in *. lia.
  Qed.

  Lemma rm_and_rebal_ok m remover l' e :
    valid m -> length (contents m) = S (length l') -> asc l' ->
    (forall t h, bm_root m = Some t -> shape 1 h t -> exists t' u, remover t = Ok (t', Some (e, u))
       /\ left_ok 1 h t' u /\ flat t' = l') ->
    exists m', rm_and_rebal m remover = Ok (m', Some e) /\ valid m' /\ contents m' = l'.
  Proof.
    destruct m as [len [t|]]; unfold rm_and_rebal; cbn [bm_root bm_len]; intros (_ & L & Hv) Hl A H;
      unfold contents in *; cbn [bm_root bm_len] in *; [|discriminate].
    destruct Hv as [h S]. destruct (H t h eq_refl S) as (t' & u & E & G & F). rewrite E. cbn [bind].
    rewrite usize_sub_ok by lia. cbn [bind].
    destruct (left_root h t' u G) as (r & Er & F' & S'); [now rewrite F|].
    destruct (u && is_nil (elems_of t')).
    - destruct (assert_ _); cbn [bind] in *; [|discriminate]. injection Er as ->.
      eexists. split; [reflexivity|]. unfold valid, contents; cbn [bm_root bm_len]. rewrite F', F.
      repeat split; auto. lia.
    - injection Er as <-.
      eexists. split; [reflexivity|]. unfold valid, contents; cbn [bm_root bm_len]. rewrite F.
      repeat split; auto. lia.
  Qed.

  Lemma b_remove_ok m q : valid m ->
    exists m', b_remove bor cmp N m q = Ok (m', s_get bor cmp q (contents m))
      /\ valid m' /\ contents m' = rem q (contents m).
  Proof.
    intros Hv. unfold b_remove. rewrite (proj2 (b_get_ok m q Hv)), (mem_find bor cmp). unfold s_get.
    pose proof (length_remove bor cmp laws q (contents m) (proj1 Hv)) as Hl.
    rewrite (mem_find bor cmp) in Hl.
    destruct (fnd q (contents m)) as [e|] eqn:Hf; cbn [negb].
    - destruct (rm_and_rebal_ok m (n_remove bor cmp N q) (rem q (contents m)) e) as (m' & E & Hv' & Hc); auto.
      + assert (contents m <> []) by (intros X; rewrite X in Hf; discriminate).
        destruct (contents m); [congruence|cbn [length] in *; lia].
      + apply asc_remove, Hv.
      + intros t h Et S. destruct Hv as (A & _). unfold contents in *. rewrite Et in *.
        destruct (n_remove_ok 1 h t q) as (t' & ret & E & F & G); auto.
        rewrite Hf in G. destruct ret as [[e' u]|]; [|destruct G; discriminate].
        destruct G as [G1 G2]. injection G1 as <-. eauto.
      + rewrite E. cbn [bind]. eauto.
    - eexists. split; [reflexivity|]. split; auto. unfold s_remove. symmetry. apply filter_all.
      intros x Hx. pose proof (fnd_none bor cmp q (contents m) Hf x Hx) as Hne.
      unfold eq_q. destruct (cmp (key x) q); auto.
  Qed.

  Lemma b_pop_first_ok m : valid m ->
    exists m', b_pop_first N m = Ok (m', s_first (contents m)) /\ valid m' /\ contents m' = tl (contents m).
  Proof.
    intros Hv. unfold b_pop_first. destruct (bm_root m) as [t|] eqn:Et.
    - pose proof Hv as (A & _ & Hs). rewrite Et in Hs. destruct Hs as [h S].
      destruct (n_pop_first_ok 1 h t) as (t' & e & u & E & G & F); auto.
      assert (Ec : contents m = e :: flat t') by (unfold contents; now rewrite Et). rewrite Ec in *.
      destruct (rm_and_rebal_ok m (n_pop_first N) (flat t') e) as (m' & E' & Hv' & Hc); auto.
      + now rewrite Ec.
      + now apply (asc_cons_iff bor cmp) in A as [A _].
      + intros t0 h0 Et0 S0. rewrite Et in Et0. injection Et0 as <-.
        destruct (n_pop_first_ok 1 h0 t) as (t2 & e2 & u2 & E2 & G2 & F2); auto.
        rewrite E in E2. injection E2 as <- <- <-. eauto.
      + rewrite E'. eauto.
    - unfold rm_and_rebal, contents. rewrite Et. eexists. split; [reflexivity|]. split; auto.
      rewrite Et. reflexivity.
  Qed.
  Lemma b_pop_last_ok m : valid m ->
    exists m', b_pop_last N m = Ok (m', s_last (contents m)) /\ valid m' /\ contents m' = removelast (contents m).
  Proof.
    intros Hv. unfold b_pop_last, s_last. destruct (bm_root m) as [t|] eqn:Et.
    - pose proof Hv as (A & _ & Hs). rewrite Et in Hs. destruct Hs as [h S].
      destruct (n_pop_last_ok 1 h t) as (t' & e & u & E & G & F); auto.
      assert (Ec : contents m = flat t' ++ [e]) by (unfold contents; now rewrite Et). rewrite Ec in *.
      rewrite rev_app_distr, removelast_last. cbn [rev app hd_error].
      destruct (rm_and_rebal_ok m (n_pop_last N) (flat t') e) as (m' & E' & Hv' & Hc); auto.
      + rewrite Ec, app_length. cbn. lia.
      + now apply (asc_app_iff bor cmp) in A as [A _].
      + intros t0 h0 Et0 S0. rewrite Et in Et0. injection Et0 as <-.
        destruct (n_pop_last_ok 1 h0 t) as (t2 & e2 & u2 & E2 & G2 & F2); auto.
        rewrite E in E2. injection E2 as <- <- <-. eauto.
      + rewrite E'. eauto.
    - unfold rm_and_rebal, contents. rewrite Et. eexists. split; [reflexivity|]. split; auto.
      rewrite Et. reflexivity.
  Qed.

  Lemma b_first_last_ok m : valid m ->
    b_first_key_value m = Ok (s_first (contents m)) /\ b_last_key_value m = s_last (contents m).
  Proof.
    intros (A & _ & Hs). unfold b_first_key_value, b_last_key_value, contents, s_first, s_last.
    destruct (bm_root m) as [t|]; [|auto]. destruct Hs as [h S].
    destruct (n_first_ok 1 h t) as (e & l & E & F); auto.
    destruct (n_last_ok 1 h t) as (e' & l' & E' & F'); auto.
    rewrite E, E'. rewrite F at 1. rewrite F', rev_app_distr. auto.
  Qed.

  Lemma b_extend_ok m ps : valid m ->
    exists m', b_extend bor cmp N m ps = Ok m' /\ valid m' /\ contents m' = s_extend bor cmp (contents m) ps.
  Proof.
    revert m. induction ps as [|[k v] ps IH]; intros m Hv; cbn [b_extend].
    - eauto.
    - destruct (b_insert_ok m k v Hv) as (m1 & E & Hv1 & Hc). rewrite E. cbn [bind].
      destruct (IH m1 Hv1) as (m2 & E2 & Hv2 & Hc2). exists m2. split; auto. split; auto.
      rewrite Hc2, Hc. reflexivity.
  Qed.
End BTreeProofs2.
