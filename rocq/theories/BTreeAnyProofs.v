(** The calls of the B-tree map with any comparison function. *)
From Coq Require Import List PeanoNat Bool Lia Permutation.
From Verif Require Import Base Spec SpecFacts Vec BTreeModel BTreeProofs BTreeProofs2 BTreeShows AnyOrdSpec.
Import ListNotations.
Local Open Scope nat_scope.

Section AnyFacts.
  Context {K V Q : Type} (bor : K -> Q) (cmp : Q -> Q -> comparison).
  Notation entry := (K * V)%type.

  Lemma sorted_any (l : list entry) : ascending (fun _ => tt) (fun _ _ => Lt) l.
  Proof.
    unfold ascending. induction l as [|x l IH]; constructor; auto. clear. induction l; constructor; auto.
  Qed.
  (** With the constant answer [Gt], inserting puts in front. *)
  Definition always (_ _ : unit) : comparison := Gt.
  Lemma find_always (l : list entry) : s_find (fun _ => tt) always tt l = None.
  Proof. unfold s_find. induction l; cbn; auto. Qed.
  Lemma insert_always k v (l : list entry) : s_insert (fun _ => tt) always k v l = (k, v) :: l.
  Proof.
    unfold s_insert. assert (H : forall l : list entry, filter (lt_q (fun _ => tt) always tt) l = [] /\ filter (gt_q (fun _ => tt) always tt) l = l).
    { clear. induction l as [|x l [IH1 IH2]]; auto. cbn. rewrite IH2. auto. }
    destruct (H l) as [-> ->]. reflexivity.
  Qed.

  Lemma get_mut_seg q w (a b l l' : list entry) r : any_get_mut bor cmp q w l l' r -> any_get_mut bor cmp q w (a ++ l ++ b) (a ++ l' ++ b) r.
  Proof.
    destruct r; cbn; [|now intros ->]. intros (l1 & e & l2 & -> & -> & H). exists (a ++ l1), e, (l2 ++ b). now rewrite <- !app_assoc.
  Qed.
  Lemma nth_cut {A} (l : list A) i x : nth_error l i = Some x -> exists l1 l2, l = l1 ++ x :: l2 /\ length l1 = i.
  Proof. intros H. destruct (nth_error_split l i H) as (l1 & l2 & -> & L). eauto. Qed.
  Lemma insert_seg k v (a b l l' : list entry) r : any_insert bor cmp k v l l' r -> any_insert bor cmp k v (a ++ l ++ b) (a ++ l' ++ b) r.
  Proof.
    destruct r; cbn.
    - intros (l1 & e & l2 & -> & -> & H). exists (a ++ l1), e, (l2 ++ b). now rewrite <- !app_assoc.
    - intros (l1 & l2 & -> & ->). exists (a ++ l1), (l2 ++ b). now rewrite <- !app_assoc.
  Qed.
  Lemma remove_seg q (a b l l' : list entry) r : any_remove bor cmp q l l' r -> any_remove bor cmp q (a ++ l ++ b) (a ++ l' ++ b) r.
  Proof.
    destruct r; cbn; [|now intros ->]. intros (l1 & l2 & -> & -> & H). exists (a ++ l1), (l2 ++ b). now rewrite <- !app_assoc.
  Qed.
  Lemma len_insert k v (l l' : list entry) r : any_insert bor cmp k v l l' r -> length l' = (match r with None => 1 | Some _ => 0 end) + length l.
  Proof.
    destruct r; cbn.
    - intros (l1 & e & l2 & -> & -> & _). rewrite !app_length. reflexivity.
    - intros (l1 & l2 & -> & ->). rewrite !app_length. cbn. lia.
  Qed.
  Lemma len_remove q (l l' : list entry) r : any_remove bor cmp q l l' r -> length l = (match r with None => 0 | Some _ => 1 end) + length l'.
  Proof.
    destruct r; cbn; [|now intros ->]. intros (l1 & l2 & -> & -> & _). rewrite !app_length. cbn. lia.
  Qed.
  (** Cutting a branch at a place that the search gave. *)
  Lemma cut_at (es : list entry) (ks : list (bt K V)) i : i <= length es -> length ks = S (length es) ->
    exists es1 es2 ks1 t ks2, es = es1 ++ es2 /\ ks = ks1 ++ t :: ks2 /\ length es1 = i /\ length ks1 = i /\ length ks2 = length es2.
  Proof.
    intros Hi Hk. destruct (nth_error ks i) as [t|] eqn:E; [|apply nth_error_None in E; lia].
    destruct (nth_cut _ _ _ E) as (ks1 & ks2 & -> & L1). exists (firstn i es), (skipn i es), ks1, t, ks2.
    rewrite firstn_skipn, firstn_length, skipn_length. rewrite app_length in Hk. cbn in Hk. repeat split; auto; lia.
  Qed.
  Lemma cut_pivot (es : list entry) (ks : list (bt K V)) i e : nth_error es i = Some e -> length ks = S (length es) ->
    exists es1 es2 ks1 t ks2, es = es1 ++ e :: es2 /\ ks = ks1 ++ t :: ks2 /\ length es1 = i /\ length ks1 = i /\ length ks2 = S (length es2).
  Proof.
    intros E Hk. destruct (nth_cut _ _ _ E) as (es1 & es2 & -> & L). rewrite app_length in Hk. cbn [length] in Hk.
    destruct (nth_error ks i) as [t|] eqn:Et; [|apply nth_error_None in Et; lia]. destruct (nth_cut _ _ _ Et) as (ks1 & ks2 & -> & L1).
    exists es1, es2, ks1, t, ks2. rewrite app_length in Hk. cbn in Hk. repeat split; auto; lia.
  Qed.
End AnyFacts.

Section BTreeAny.
  Context {K V Q : Type} (bor : K -> Q) (cmp : Q -> Q -> comparison) (N : nat) (HN : 1 <= N).
  Notation bt := (bt K V).
  Notation entry := (K * V)%type.
  Notation flat := (@flat K V).
  Notation shape := (@shape K V N).
  Notation arity := (@arity K V N).
  Notation told := (told_eq bor cmp).
  Notation MAX := (MAX_OCC N).

  Lemma scan_any q (es : list entry) : forall i c, scan bor cmp q es = (i, c) ->
    match c with
    | Eq => exists e, nth_error es i = Some e /\ told q e
    | Lt => i <= length es
    | Gt => i = length es
    end.
  Proof.
    induction es as [|e es IH]; intros i c; cbn [scan].
    - intros [= <- <-]. reflexivity.
    - destruct (cmp q (bor (fst e))) eqn:E.
      + intros [= <- <-]. exists e. split; auto. now left.
      + intros [= <- <-]. lia.
      + destruct (scan bor cmp q es) as [j d]. intros [= <- <-]. specialize (IH j d eq_refl). destruct d; cbn [length nth_error]; auto; lia.
  Qed.

  Lemma n_get_any q h : forall mn t, shape mn h t ->
    match n_get bor cmp q t with Some e => In e (flat t) /\ told q e | None => True end.
  Proof.
    induction h as [|h IH]; intros mn t S.
    - destruct (shape_0 _ _ _ S) as (es & -> & Hb). cbn [n_get]. destruct (scan bor cmp q es) as [i c] eqn:E. apply scan_any in E. destruct c.
      + destruct E as (e & E & T). rewrite E. split; auto. rewrite flat_leaf. eapply nth_error_In; eauto.
      + cbn [map]. now rewrite nth_nil.
      + exact Logic.I.
    - destruct (shape_S _ _ _ _ S) as (es & ks & -> & Hb & Hk & HF). cbn [n_get]. destruct (scan bor cmp q es) as [i c] eqn:E. apply scan_any in E. destruct c.
      + destruct E as (e & E & T). rewrite E. split; auto.
        destruct (cut_pivot es ks i e E Hk) as (es1 & es2 & ks1 & t & ks2 & -> & -> & <- & L1 & L2). rewrite flat_pivot by auto. apply in_or_app. right. now left.
      + destruct (cut_at es ks i E Hk) as (es1 & es2 & ks1 & t & ks2 & -> & -> & L0 & L1 & L2). apply Forall_mid in HF as (_ & F & _).
        rewrite nth_map_mid by auto. specialize (IH _ _ F). destruct (n_get bor cmp q t); auto. destruct IH. split; auto.
        rewrite flat_branch by lia. apply in_or_app. right. apply in_or_app. now left.
      + destruct (cut_at es ks i ltac:(lia) Hk) as (es1 & es2 & ks1 & t & ks2 & -> & -> & L0 & L1 & L2). apply Forall_mid in HF as (_ & F & _).
        assert (es2 = []) as -> by (rewrite app_length in E; destruct es2; auto; cbn in E; lia). destruct ks2; [|discriminate].
        rewrite last_map_snoc by auto. specialize (IH _ _ F). destruct (n_get bor cmp q t); auto. destruct IH. split; auto.
        rewrite flat_branch by lia. apply in_or_app. right. apply in_or_app. now left.
  Qed.
  Lemma n_contains_any q h : forall mn t, shape mn h t -> n_contains bor cmp q t = true -> exists e, In e (flat t) /\ told q e.
  Proof.
    induction h as [|h IH]; intros mn t S.
    - destruct (shape_0 _ _ _ S) as (es & -> & Hb). cbn [n_contains]. destruct (scan bor cmp q es) as [i c] eqn:E. apply scan_any in E. destruct c; cbn [map]; rewrite ?nth_nil; try discriminate.
      destruct E as (e & E & T). exists e. split; auto. eapply nth_error_In; eauto.
    - destruct (shape_S _ _ _ _ S) as (es & ks & -> & Hb & Hk & HF). cbn [n_contains]. destruct (scan bor cmp q es) as [i c] eqn:E. apply scan_any in E.
      assert (Down : i <= length es -> match nth_error (map (n_contains bor cmp q) ks) i with Some r => r | None => false end = true -> exists e, In e (flat (BN es ks)) /\ told q e).
      { intros Hi. destruct (cut_at es ks i Hi Hk) as (es1 & es2 & ks1 & t & ks2 & -> & -> & L0 & L1 & L2). apply Forall_mid in HF as (_ & F & _).
        rewrite nth_map_mid by auto. intros X. destruct (IH _ _ F X) as (e & I1 & T). exists e. split; auto.
        rewrite flat_branch by lia. apply in_or_app. right. apply in_or_app. now left. }
      destruct c; [|auto|apply Down; lia]. intros _. destruct E as (e & E & T). exists e. split; auto.
      destruct (cut_pivot es ks i e E Hk) as (es1 & es2 & ks1 & t & ks2 & -> & -> & <- & L1 & L2). rewrite flat_pivot by auto. apply in_or_app. right. now left.
  Qed.
  Lemma n_get_mut_any q w h : forall mn t, shape mn h t ->
    exists t' r, n_get_mut bor cmp q w t = (t', r) /\ shape mn h t' /\ any_get_mut bor cmp q w (flat t) (flat t') (option_map snd r).
  Proof.
    induction h as [|h IH]; intros mn t S.
    - destruct (shape_0 _ _ _ S) as (es & -> & Hb). cbn [n_get_mut]. destruct (scan bor cmp q es) as [i c] eqn:E. apply scan_any in E. destruct c.
      + destruct E as (e & E & T). destruct (nth_cut _ _ _ E) as (es1 & es2 & -> & <-). rewrite nth_mid, set_at_mid by auto.
        eexists _, _. split; [reflexivity|]. split; [constructor; rewrite app_length in *; auto|]. rewrite !flat_leaf. exists es1, e, es2. auto.
      + cbn [map]. rewrite nth_nil. exists (BN es []), None. split; auto. split; auto. reflexivity.
      + cbn [map]. rewrite last_nil. exists (BN es []), None. split; auto. split; auto. reflexivity.
    - destruct (shape_S _ _ _ _ S) as (es & ks & -> & Hb & Hk & HF). cbn [n_get_mut]. destruct (scan bor cmp q es) as [i c] eqn:E. apply scan_any in E. destruct c.
      + destruct E as (e & E & T). destruct (cut_pivot es ks i e E Hk) as (es1 & es2 & ks1 & t & ks2 & -> & -> & <- & L1 & L2). rewrite nth_mid, set_at_mid by auto.
        eexists _, _. split; [reflexivity|]. split; [constructor; auto; rewrite !app_length in *; auto|]. rewrite !flat_pivot by auto. exists (flat (BN es1 (ks1 ++ [t]))), e, (flat (BN es2 ks2)). auto.
      + destruct (cut_at es ks i E Hk) as (es1 & es2 & ks1 & t & ks2 & -> & -> & L0 & L1 & L2). apply Forall_mid in HF as (F1 & F & F2).
        destruct (IH _ t F) as (t' & r & E' & S' & G). rewrite nth_map_mid, E', set_at_mid by auto.
        eexists _, _. split; [reflexivity|]. split; [apply shape_branch; auto; lia|]. rewrite !flat_branch by lia. now apply get_mut_seg.
      + destruct (cut_at es ks i ltac:(lia) Hk) as (es1 & es2 & ks1 & t & ks2 & -> & -> & L0 & L1 & L2). apply Forall_mid in HF as (F1 & F & F2).
        assert (es2 = []) as -> by (rewrite app_length in E; destruct es2; auto; cbn in E; lia). destruct ks2; [|discriminate].
        destruct (IH _ t F) as (t' & r & E' & S' & G). rewrite last_map_snoc, E', set_at_mid by (auto; rewrite app_length; cbn; lia).
        eexists _, _. split; [reflexivity|]. split; [apply shape_branch; auto; lia|]. rewrite !flat_branch by lia. now apply get_mut_seg.
  Qed.

  (** ** Insertion *)
  Definition ins_any (mn h : nat) (k : K) (v : V) (l : list entry) (t' : bt) (r : ins_res K V) : Prop :=
    match r with
    | Replaced old => shape mn h t' /\ any_insert bor cmp k v l (flat t') (Some old)
    | Absorbed => shape mn h t' /\ any_insert bor cmp k v l (flat t') None
    | Split None _ _ => False
    | Split (Some lhs) k' v' => shape N h lhs /\ shape N h t' /\ any_insert bor cmp k v l (flat lhs ++ (k', v') :: flat t') None
    end.
  Lemma absorb_any mn h es ks k v l : mn <= length es <= S MAX -> arity h es ks -> any_insert bor cmp k v l (flat (BN es ks)) None ->
    exists t' r, (if length es <=? MAX then Ok (BN es ks, Absorbed) else n_split N (BN es ks)) = Ok (t', r) /\ ins_any mn h k v l t' r.
  Proof.
    intros L A E. destruct (Nat.leb_spec (length es) MAX).
    - eexists _, _. split; [reflexivity|]. cbn [ins_any]. split; auto. apply shape_iff. split; [lia|auto].
    - destruct (n_split_ok N HN h es ks) as (lhs & k1 & v1 & t' & E1 & S1 & S2 & F); [lia|auto|].
      eexists _, _. split; [exact E1|]. cbn [ins_any]. rewrite F. auto.
  Qed.

  Lemma n_insert_any k v h : forall mn t, shape mn h t ->
    exists t' r, n_insert bor cmp N k v t = Ok (t', r) /\ ins_any mn h k v (flat t) t' r.
  Proof.
    induction h as [|h IH]; intros mn t S.
    - destruct (shape_0 _ _ _ S) as (es & -> & Hb). cbn [n_insert]. destruct (scan bor cmp (bor k) es) as [i c] eqn:E. apply scan_any in E. cbn [map].
      assert (Hins : i <= length es -> exists t' r,
        ('(ks1, r) <- Ok ([], Split None k v);;
         match r with
         | Split child k1 v1 =>
           es1 <- vec_insert i (k1, v1) es;;
           ks2 <- match child with Some rc => vec_insert i rc ks1 | None => Ok ks1 end;;
           if length es1 <=? MAX_OCC N then Ok (BN es1 ks2, Absorbed) else n_split N (BN es1 ks2)
         | _ => Ok (BN es ks1, r)
         end) = Ok (t', r) /\ ins_any mn 0 k v (flat (BN es [])) t' r).
      { intros Hi. cbn [bind]. rewrite <- (firstn_skipn i es). set (es1 := firstn i es). set (es2 := skipn i es).
        assert (L1 : length es1 = i) by (unfold es1; rewrite firstn_length; lia).
        assert (Es : es = es1 ++ es2) by (symmetry; apply firstn_skipn). rewrite vec_insert_mid by auto. cbn [bind]. rewrite flat_leaf. apply absorb_any.
        - rewrite Es in Hb. rewrite app_length in *. cbn [length]. lia.
        - reflexivity.
        - rewrite flat_leaf. exists es1, es2. auto. }
      destruct c.
      + destruct E as (e & E & T). destruct (nth_cut _ _ _ E) as (es1 & es2 & -> & <-). rewrite nth_mid, set_at_mid by auto. cbn [unwrap bind].
        eexists _, _. split; [reflexivity|]. cbn [ins_any]. rewrite !flat_leaf. split.
        * apply shape_iff. rewrite app_length in *. split; [exact Hb|reflexivity].
        * exists es1, e, es2. auto.
      + rewrite nth_nil. apply Hins. lia.
      + rewrite nth_nil. apply Hins. lia.
    - destruct (shape_S _ _ _ _ S) as (es & ks & -> & Hb & Hk & HF). cbn [n_insert]. destruct (scan bor cmp (bor k) es) as [i c] eqn:E. apply scan_any in E.
      assert (Hins : i <= length es -> exists t' r,
        ('(ks1, r) <- match nth_error (map (n_insert bor cmp N k v) ks) i with
                     | Some m => '(c', r) <- m;; Ok (set_at i c' ks, r)
                     | None => Ok (ks, Split None k v)
                     end;;
         match r with
         | Split child k1 v1 =>
           es1 <- vec_insert i (k1, v1) es;;
           ks2 <- match child with Some rc => vec_insert i rc ks1 | None => Ok ks1 end;;
           if length es1 <=? MAX_OCC N then Ok (BN es1 ks2, Absorbed) else n_split N (BN es1 ks2)
         | _ => Ok (BN es ks1, r)
         end) = Ok (t', r) /\ ins_any mn (Datatypes.S h) k v (flat (BN es ks)) t' r).
      { intros Hi. destruct (cut_at es ks i Hi Hk) as (es1 & es2 & ks1 & t & ks2 & -> & -> & L0 & L1 & L2). apply Forall_mid in HF as (F1 & F & F2).
        destruct (IH _ t F) as (t' & r & E' & G).
        rewrite nth_map_mid, E' by auto. cbn [bind]. rewrite set_at_mid by auto. rewrite flat_branch by lia.
        destruct r as [old|[lhs|] k1 v1|]; cbn [ins_any] in G.
        - destruct G as (G2 & G3). eexists _, _. split; [reflexivity|]. cbn [ins_any]. split; [apply shape_branch; auto; lia|].
          rewrite flat_branch by lia. now apply insert_seg.
        - destruct G as (G2 & G3 & G4). rewrite !vec_insert_mid by auto. cbn [bind]. apply absorb_any.
          + rewrite app_length in *. cbn [length]. lia.
          + split; [rewrite !app_length in *; cbn [length] in *; lia|]. apply Forall_app. repeat constructor; auto.
          + rewrite (flat_pivot es1 (k1, v1) es2 ks1 lhs (t' :: ks2)) by lia.
            replace es1 with (es1 ++ []) at 2 by apply app_nil_r.
            rewrite (flat_branch es1 [] ks1 lhs []) by (cbn; lia).
            replace (BN es2 (t' :: ks2)) with (BN ([] ++ es2) ([] ++ t' :: ks2)) by reflexivity.
            rewrite (flat_branch [] es2 [] t' ks2) by (cbn; lia). cbn [map].
            rewrite zipl_nil, zipr_nil, app_nil_r. cbn [app].
            match goal with |- any_insert _ _ _ _ _ ?x _ => replace x with (zipl (map flat ks1) es1 ++ (flat lhs ++ (k1, v1) :: flat t') ++ zipr es2 (map flat ks2)) end.
            { now apply insert_seg. } now rewrite <- !app_assoc.
        - destruct G.
        - destruct G as (G2 & G3). eexists _, _. split; [reflexivity|]. cbn [ins_any]. split; [apply shape_branch; auto; lia|].
          rewrite flat_branch by lia. now apply insert_seg. }
      destruct c.
      + destruct E as (e & E & T). destruct (cut_pivot es ks i e E Hk) as (es1 & es2 & ks1 & t & ks2 & -> & -> & <- & L1 & L2). rewrite nth_mid, set_at_mid by auto. cbn [unwrap bind].
        eexists _, _. split; [reflexivity|]. cbn [ins_any]. split.
        * apply shape_iff. split; [rewrite app_length in *; auto|]. split; auto. rewrite !app_length in *. auto.
        * rewrite !flat_pivot by auto. exists (flat (BN es1 (ks1 ++ [t]))), e, (flat (BN es2 ks2)). auto.
      + apply Hins. lia.
      + apply Hins. lia.
  Qed.

  (** ** Removal *)
  Definition rem_any (mn h : nat) (q : Q) (l : list entry) (t' : bt) (o : option (entry * bool)) : Prop :=
    any_remove bor cmp q l (flat t') (option_map fst o)
    /\ match o with Some (_, u) => left_ok N mn h t' u | None => shape mn h t' end.
  Lemma n_remove_any q h : forall mn t, 1 <= mn <= N -> shape mn h t ->
    exists t' o, n_remove bor cmp N q t = Ok (t', o) /\ rem_any mn h q (flat t) t' o.
  Proof.
    induction h as [|h IH]; intros mn t Hm S.
    - destruct (shape_0 _ _ _ S) as (es & -> & Hb). cbn [n_remove]. destruct (scan bor cmp q es) as [i c] eqn:E. apply scan_any in E. destruct c.
      + destruct E as (e & E & T). destruct (nth_cut _ _ _ E) as (es1 & es2 & -> & <-). cbn [is_leaf kids_of is_nil].
        rewrite vec_remove_mid by auto. cbn [bind]. eexists _, _. split; [reflexivity|]. split.
        * cbn [option_map fst]. rewrite !flat_leaf. exists es1, es2. auto.
        * apply (leaf_left N HN mn (es1 ++ e :: es2)); auto. rewrite !app_length. cbn. lia.
      + cbn [map]. rewrite nth_nil. eexists _, None. split; [reflexivity|]. split; auto. reflexivity.
      + cbn [map]. rewrite last_nil. eexists _, None. split; [reflexivity|]. split; auto. reflexivity.
    - destruct (shape_S _ _ _ _ S) as (es & ks & -> & Hb & Hk & HF). cbn [n_remove]. destruct (scan bor cmp q es) as [i c] eqn:E. apply scan_any in E.
      assert (Down : forall es1 es2 ks1 t ks2, es = es1 ++ es2 -> ks = ks1 ++ t :: ks2 ->
        length es1 = i -> length ks1 = i -> length ks2 = length es2 ->
        exists t' ret,
          ('(c', ret) <- n_remove bor cmp N q t;;
           let t1 := BN es (ks1 ++ c' :: ks2) in
           match ret with
           | None => Ok (t1, None)
           | Some (kv, true) => '(t2, u) <- rebal N t1 i;; Ok (t2, Some (kv, u))
           | Some (kv, false) => Ok (t1, Some (kv, false))
           end) = Ok (t', ret) /\ rem_any mn (Datatypes.S h) q (flat (BN es ks)) t' ret).
      { intros es1 es2 ks1 t ks2 -> -> L0 L1 L2. apply Forall_mid in HF as (F1 & F & F2).
        destruct (IH N t ltac:(lia) F) as (c' & o & -> & Gr & Gs). cbn [bind]. cbv zeta.
        assert (Hfl : any_remove bor cmp q (flat (BN (es1 ++ es2) (ks1 ++ t :: ks2))) (flat (BN (es1 ++ es2) (ks1 ++ c' :: ks2))) (option_map fst o)).
        { rewrite !flat_branch by lia. now apply remove_seg. }
        destruct o as [[kv [|]]|].
        - destruct (kid_fixed N HN mn h es1 es2 ks1 c' ks2 i) as (t2 & u2 & -> & Lk & Fr); auto; try lia. cbn [bind].
          eexists _, _. split; [reflexivity|]. split; auto. cbn [option_map fst] in *. now rewrite Fr.
        - eexists _, _. split; [reflexivity|]. split; auto. apply (kid_kept N HN mn h es1 es2 ks1 c' ks2); auto; try lia.
        - eexists _, _. split; [reflexivity|]. split; auto. apply shape_branch; auto; lia. }
      destruct c.
      + destruct E as (e & E & T). destruct (cut_pivot es ks i e E Hk) as (es1 & es2 & ks1 & t & ks2 & -> & -> & Li & L1 & L2).
        apply Forall_mid in HF as (F1 & F & F2). assert (is_leaf (BN (es1 ++ e :: es2) (ks1 ++ t :: ks2)) = false) as -> by (unfold is_leaf; cbn [kids_of]; now destruct ks1).
        destruct (n_pop_last_ok N HN N h t) as (c' & e' & u & E' & Gp & Fp); [lia|auto|].
        rewrite nth_map_mid, E' by auto. cbn [unwrap bind]. rewrite nth_mid, !set_at_mid by auto. cbn [unwrap bind]. cbv zeta.
        assert (Hfl : any_remove bor cmp q (flat (BN (es1 ++ e :: es2) (ks1 ++ t :: ks2))) (flat (BN (es1 ++ e' :: es2) (ks1 ++ c' :: ks2))) (Some e)).
        { rewrite !flat_pivot by lia. exists (flat (BN es1 (ks1 ++ [t]))), (flat (BN es2 ks2)). split; auto. split; auto.
          replace es1 with (es1 ++ []) by apply app_nil_r. rewrite !(flat_branch es1 [] ks1 _ []) by (cbn; lia). rewrite Fp. cbn [map].
          rewrite zipr_nil, !app_nil_r, <- !app_assoc. reflexivity. }
        assert (B' : mn <= length (es1 ++ e' :: es2) <= MAX_OCC N) by (rewrite app_length in *; exact Hb).
        destruct u.
        * destruct (kid_fixed N HN mn h es1 (e' :: es2) ks1 c' ks2 i) as (t2 & u2 & -> & Lk & Fr); auto; try lia. cbn [bind].
          eexists _, _. split; [reflexivity|]. split; auto. cbn [option_map fst]. now rewrite Fr.
        * eexists _, _. split; [reflexivity|]. split; auto. apply (kid_kept N HN mn h es1 (e' :: es2) ks1 c' ks2); auto; try lia.
      + destruct (cut_at es ks i E Hk) as (es1 & es2 & ks1 & t & ks2 & -> & -> & L0 & L1 & L2).
        rewrite nth_map_mid by auto. destruct (Down es1 es2 ks1 t ks2) as (t' & o & E1 & G); auto. exists t', o. split; auto.
        rewrite <- E1. destruct (n_remove bor cmp N q t) as [[c' o']|]; auto. cbn [bind]. now rewrite set_at_mid by auto.
      + destruct (cut_at es ks i ltac:(lia) Hk) as (es1 & es2 & ks1 & t & ks2 & -> & -> & L0 & L1 & L2).
        assert (es2 = []) as -> by (rewrite app_length in E; destruct es2; auto; cbn in E; lia). destruct ks2; [|discriminate].
        rewrite last_map_snoc by auto. destruct (Down es1 [] ks1 t []) as (t' & o & E1 & G); auto. exists t', o. split; auto.
        rewrite <- E1. destruct (n_remove bor cmp N q t) as [[c' o']|]; auto. cbn [bind]. rewrite set_at_mid by (rewrite app_length; cbn; lia). now rewrite <- E.
  Qed.

  (** ** Maps *)
  Notation shows := (@b_any K V N).
  Lemma any_iff (m : bt_map K V) l : shows m l <-> bm_len m = length l
    /\ match bm_root m with None => l = [] | Some t => exists h, shape 1 h t /\ flat t = l end.
  Proof.
    unfold b_any. destruct (bm_root m) as [t|]; [|tauto]. split; intros (L & h & S); split; auto; exists h.
    - now apply entries_shape.
    - destruct S as [S <-]. now apply shape_entries.
  Qed.
  Lemma b_get_any m l q : shows m l -> any_get bor cmp q l (b_get bor cmp m q).
  Proof.
    rewrite any_iff. intros (L & R). unfold b_get, b_get_key_value. destruct (bm_root m) as [t|]; [|exact Logic.I].
    destruct R as (h & S & <-). pose proof (n_get_any q h 1 t S) as H. destruct (n_get bor cmp q t) as [e|]; cbn; auto. exists e. tauto.
  Qed.
  Lemma b_contains_any m l q : shows m l -> b_contains_key bor cmp m q = true -> exists e, In e l /\ told q e.
  Proof.
    rewrite any_iff. intros (L & R). unfold b_contains_key. destruct (bm_root m) as [t|]; [|discriminate].
    destruct R as (h & S & <-). apply (n_contains_any q h 1 t S).
  Qed.
  Lemma b_get_mut_any m l q w : shows m l ->
    exists m' r l', b_get_mut bor cmp m q w = (m', r) /\ shows m' l' /\ any_get_mut bor cmp q w l l' r.
  Proof.
    intros H. pose proof H as H0. rewrite any_iff in H. destruct H as (L & R). unfold b_get_mut. destruct (bm_root m) as [t|]; [|exists m, None, l; split; auto; split; auto; reflexivity].
    destruct R as (h & S & <-). destruct (n_get_mut_any q w h 1 t S) as (t' & r & -> & S' & G).
    eexists _, _, (flat t'). split; [reflexivity|]. split; auto. apply any_iff. cbn [bm_len bm_root]. split; eauto. rewrite L. destruct r; cbn in G.
    - destruct G as (l1 & e & l2 & -> & -> & _). now rewrite !app_length.
    - now rewrite G.
  Qed.
  Lemma b_insert_any m l k v : shows m l ->
    exists m' r l', b_insert bor cmp N m k v = Ok (m', r) /\ shows m' l' /\ any_insert bor cmp k v l l' r.
  Proof.
    rewrite any_iff. intros (L & R). unfold b_insert. destruct (bm_root m) as [t|].
    - destruct R as (h & S & <-). destruct (n_insert_any k v h 1 t S) as (t' & r & -> & G). cbn [bind].
      destruct r as [old|[c|] k1 v1|]; cbn [ins_any] in G.
      + destruct G as (S' & G). eexists _, _, (flat t'). split; [reflexivity|]. split; [|exact G]. apply any_iff. cbn [bm_len bm_root]. split; eauto.
        rewrite (len_insert _ _ _ _ _ _ _ G). lia.
      + destruct G as (Sl & S' & G). cbn [unwrap bind].
        eexists _, _, (flat c ++ (k1, v1) :: flat t'). split; [reflexivity|]. split; [|exact G]. apply any_iff. cbn [bm_len bm_root]. split; [rewrite (len_insert _ _ _ _ _ _ _ G); lia|].
        exists (Datatypes.S h). split; [|cbn; now rewrite app_nil_r]. constructor; auto. cbn. unfold MAX_OCC. lia.
      + destruct G.
      + destruct G as (S' & G). eexists _, _, (flat t'). split; [reflexivity|]. split; [|exact G]. apply any_iff. cbn [bm_len bm_root]. split; eauto.
        rewrite (len_insert _ _ _ _ _ _ _ G). lia.
    - subst l. eexists _, _, [(k, v)]. split; [reflexivity|]. split; [|exists [], []; auto]. apply any_iff. cbn [bm_len bm_root length]. split; auto.
      exists 0. split; [|reflexivity]. constructor. cbn. unfold MAX_OCC. lia.
  Qed.
  (** The second search of [remove] need not agree with the first. *)
  Lemma rm_any m l q : shows m l ->
    exists m' r l', rm_and_rebal m (n_remove bor cmp N q) = Ok (m', r) /\ shows m' l' /\ any_remove bor cmp q l l' r.
  Proof.
    intros H. pose proof H as H0. rewrite any_iff in H. destruct H as (L & R). unfold rm_and_rebal. destruct (bm_root m) as [t|] eqn:Em; [|exists m, None, l; split; auto; split; auto; reflexivity].
    destruct R as (h & S & <-). destruct (n_remove_any q h 1 t) as (t' & o & -> & G & G2); auto. cbn [bind].
    pose proof (len_remove _ _ _ _ _ _ G) as Hl. destruct o as [[kv u]|]; cbn [option_map fst] in *.
    - rewrite usize_sub_ok by lia. cbn [bind].
      destruct (left_root (fun _ => tt) (fun _ _ => Lt) N HN h t' u G2 (sorted_any _)) as (r & Er & F' & S').
      assert (Fin : shows (BMap (bm_len m - 1) r) (flat t')).
      { apply any_iff. cbn [bm_len bm_root]. split; [lia|]. destruct r as [b|]; [|auto]. destruct S' as [h' S']. exists h'. auto. }
      destruct (u && is_nil (elems_of t')).
      + destruct (assert_ _); cbn [bind] in *; [|discriminate]. injection Er as ->. eexists _, _, (flat t'). split; [reflexivity|]. auto.
      + injection Er as <-. eexists _, _, (flat t'). split; [reflexivity|]. auto.
    - eexists _, None, (flat t'). split; [reflexivity|]. split; auto. apply any_iff. cbn [bm_len bm_root]. split; [lia|]. eauto.
  Qed.
  Lemma b_remove_any m l q : shows m l ->
    exists m' r l', b_remove bor cmp N m q = Ok (m', r) /\ shows m' l' /\ any_remove_val bor cmp q l l' r.
  Proof.
    intros H. unfold b_remove. destruct (negb _).
    - exists m, None, l. split; auto. split; auto. exists None. split; reflexivity.
    - destruct (rm_any m l q H) as (m' & r & l' & -> & H' & G). cbn [bind]. exists m', (option_map snd r), l'. split; auto. split; auto. exists r. auto.
  Qed.
  Lemma b_pops_any m l : shows m l ->
    (exists m', b_pop_first N m = Ok (m', hd_error l) /\ shows m' (tl l))
    /\ (exists m', b_pop_last N m = Ok (m', hd_error (rev l)) /\ shows m' (removelast l)).
  Proof.
    intros H. pose proof H as H0. rewrite any_iff in H. destruct H as (L & R). unfold b_pop_first, b_pop_last, rm_and_rebal. destruct (bm_root m) as [t|] eqn:Em.
    2:{ subst l. cbn. split; exists m; auto. }
    destruct R as (h & S & <-).
    assert (Root : forall t' (e : entry) u, left_ok N 1 h t' u -> length (flat t) = Datatypes.S (length (flat t')) -> exists m',
      (len <- usize_sub (bm_len m) 1;;
        if u && is_nil (elems_of t') then
          _ <- assert_ (length (kids_of t') <=? 1);;
          Ok (BMap len (option_map fst (vec_pop (kids_of t'))), Some e)
        else Ok (BMap len (Some t'), Some e)) = Ok (m', Some e) /\ shows m' (flat t')).
    { intros t' e u G Hl. rewrite usize_sub_ok by lia. cbn [bind].
      destruct (left_root (fun _ => tt) (fun _ _ => Lt) N HN h t' u G (sorted_any _)) as (r & Er & F' & S').
      assert (Fin : shows (BMap (bm_len m - 1) r) (flat t')).
      { apply any_iff. cbn [bm_len bm_root]. split; [lia|]. destruct r as [b|]; [|auto]. destruct S' as [h' S']. exists h'. auto. }
      destruct (u && is_nil (elems_of t')).
      - destruct (assert_ _); cbn [bind] in *; [|discriminate]. injection Er as ->. eexists. split; [reflexivity|]. auto.
      - injection Er as <-. eexists. split; [reflexivity|]. auto. }
    split.
    - destruct (n_pop_first_ok N HN 1 h t) as (t' & e & u & -> & G & F); auto. cbn [bind]. rewrite F. cbn [hd_error tl]. apply Root; auto. now rewrite F.
    - destruct (n_pop_last_ok N HN 1 h t) as (t' & e & u & -> & G & F); auto. cbn [bind]. rewrite F, rev_app_distr, removelast_last. cbn [rev app hd_error]. apply Root; auto.
      rewrite F, app_length. cbn. lia.
  Qed.
  Lemma b_extend_any ps : forall m l, shows m l ->
    exists m' l', b_extend bor cmp N m ps = Ok m' /\ shows m' l' /\ any_extend bor cmp ps l l'.
  Proof.
    induction ps as [|[k v] ps IH]; intros m l H; cbn [b_extend any_extend]; [eauto|].
    destruct (b_insert_any m l k v H) as (m1 & r & l1 & -> & H1 & A1). cbn [bind]. destruct (IH m1 l1 H1) as (m' & l' & E & H' & A'). exists m', l'. split; auto. split; auto. eauto.
  Qed.
End BTreeAny.
