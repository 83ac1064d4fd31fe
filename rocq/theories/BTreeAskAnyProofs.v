(** The calls of the B-tree map with any answers to the comparisons, which may change from one to the next and may panic. *)
From Coq Require Import List PeanoNat Bool Lia Permutation.
From Verif Require Import Base Spec SpecFacts BTreeIterModel AnyOrdShows Vec BTreeModel BTreeProofs BTreeProofs2 BTreeShows AnyOrdSpec BTreeAnyProofs BTreeAskModel
  Ask AskSpec AskAnySpec AskAnyProofs.
Import ListNotations.
Local Open Scope nat_scope.

Section BTreeAskAny.
  Context {K V Q : Type} (bor : K -> Q) (ask : nat -> Q -> Q -> option comparison) (N : nat) (HN : 1 <= N).
  Notation bt := (bt K V).
  Notation entry := (K * V)%type.
  Notation flat := (@flat K V).
  Notation shape := (@shape K V N).
  Notation arity := (@arity K V N).
  Notation MAX := (MAX_OCC N).
  Notation said := (said bor ask).
  Notation copes := (copes ask).
  Ltac wide := intros ? ?; apply said_mono; lia.

  Lemma scan_copes q (es : list entry) : forall n0, copes n0 (scan_t bor ask q es n0)
    (fun _ '(i, c) n => match c with
      | Eq => exists e, nth_error es i = Some e /\ said n0 n q e
      | Lt => i <= length es
      | Gt => i = length es
      end) (fun _ => True).
  Proof.
    induction es as [|e es IH]; intros n0; cbn [scan_t].
    - apply copes_ret; auto.
    - apply copes_question; auto. intros c E. destruct c.
      + apply copes_ret; [lia|]. exists e. split; auto. apply said_now; [lia|exact E].
      + apply copes_ret; [lia|]. lia.
      + eapply copes_after; [apply IH|auto|]. intros _ [j d] n Hn G. apply copes_ret; [lia|]. destruct d; cbn [length nth_error]; auto; try lia.
        destruct G as (e' & E' & T). exists e'. split; auto. eapply said_mono; [| |exact T]; lia.
  Qed.

  Lemma n_get_copes q h : forall mn t n0, shape mn h t ->
    copes n0 (n_get_t bor ask q t n0) (fun _ o n => match o with Some e => In e (flat t) /\ said n0 n q e | None => True end) (fun _ => True).
  Proof.
    induction h as [|h IH]; intros mn t n0 S.
    - destruct (shape_0 _ _ _ S) as (es & -> & Hb). cbn [n_get_t]. eapply copes_after; [apply scan_copes|auto|]. intros _ [i c] n Hn E. destruct c.
      + destruct E as (e & E & T). rewrite E. apply copes_ret; [lia|]. split; auto. rewrite flat_leaf. eapply nth_error_In; eauto.
      + cbn [map]. rewrite nth_nil. now apply copes_ret.
      + cbn [map]. rewrite last_nil. now apply copes_ret.
    - destruct (shape_S _ _ _ _ S) as (es & ks & -> & Hb & Hk & HF). cbn [n_get_t]. eapply copes_after; [apply scan_copes|auto|]. intros _ [i c] n Hn E.
      assert (Down : forall es1 es2 ks1 t ks2, es = es1 ++ es2 -> ks = ks1 ++ t :: ks2 -> length ks1 = length es1 -> length ks2 = length es2 ->
        copes n (n_get_t bor ask q t n) (fun _ o n => match o with Some e => In e (flat (BN es ks)) /\ said n0 n q e | None => True end) (fun _ => True)).
      { intros es1 es2 ks1 t ks2 -> -> L1 L2. apply Forall_mid in HF as (_ & F & _). eapply copes_weak; [apply (IH _ _ _ F)| |auto].
        intros [] [e|] n' Hn' G; auto. destruct G as [G1 G2]. split; [|eapply said_mono; [| |exact G2]; lia].
        rewrite flat_branch by lia. apply in_or_app. right. apply in_or_app. now left. }
      destruct c.
      + destruct E as (e & E & T). rewrite E. apply copes_ret; [lia|]. split; auto.
        destruct (cut_pivot es ks i e E Hk) as (es1 & es2 & ks1 & t & ks2 & -> & -> & <- & L1 & L2). rewrite flat_pivot by auto. apply in_or_app. right. now left.
      + destruct (cut_at es ks i E Hk) as (es1 & es2 & ks1 & t & ks2 & E1 & E2 & L0 & L1 & L2).
        assert (X : nth_error (map (n_get_t bor ask q) ks) i = Some (n_get_t bor ask q t)) by (rewrite E2; now apply nth_map_mid). rewrite X. eapply Down; eauto; lia.
      + destruct (cut_at es ks i ltac:(lia) Hk) as (es1 & es2 & ks1 & t & ks2 & E1 & E2 & L0 & L1 & L2).
        assert (es2 = []) as -> by (rewrite E1, app_length in E; destruct es2; auto; cbn in E; lia). destruct ks2; [|discriminate].
        assert (X : last_opt (map (n_get_t bor ask q) ks) = Some (n_get_t bor ask q t)) by (rewrite E2; now apply last_map_snoc). rewrite X. eapply Down; eauto; lia.
  Qed.
  Lemma n_contains_copes q h : forall mn t n0, shape mn h t ->
    copes n0 (n_contains_t bor ask q t n0) (fun _ b n => b = true -> exists e, In e (flat t) /\ said n0 n q e) (fun _ => True).
  Proof.
    induction h as [|h IH]; intros mn t n0 S.
    - destruct (shape_0 _ _ _ S) as (es & -> & Hb). cbn [n_contains_t]. eapply copes_after; [apply scan_copes|auto|]. intros _ [i c] n Hn E.
      destruct c; cbn [map]; rewrite ?nth_nil; apply copes_ret; auto; try discriminate.
      intros _. destruct E as (e & E & T). exists e. split; auto. rewrite flat_leaf. eapply nth_error_In; eauto.
    - destruct (shape_S _ _ _ _ S) as (es & ks & -> & Hb & Hk & HF). cbn [n_contains_t]. eapply copes_after; [apply scan_copes|auto|]. intros _ [i c] n Hn E.
      assert (Down : i <= length es -> copes n (match nth_error (map (n_contains_t bor ask q) ks) i with Some f => f n | None => Returned tt false n end)
        (fun _ b n => b = true -> exists e, In e (flat (BN es ks)) /\ said n0 n q e) (fun _ => True)).
      { intros Hi. destruct (cut_at es ks i Hi Hk) as (es1 & es2 & ks1 & t & ks2 & -> & -> & L0 & L1 & L2). apply Forall_mid in HF as (_ & F & _).
        rewrite nth_map_mid by auto. eapply copes_weak; [apply (IH _ _ _ F)| |auto]. intros [] b n' Hn' G Hb'. destruct (G Hb') as (e & I1 & T). exists e.
        split; [|eapply said_mono; [| |exact T]; lia]. rewrite flat_branch by lia. apply in_or_app. right. apply in_or_app. now left. }
      destruct c; [|auto|apply Down; lia]. apply copes_ret; [lia|]. intros _. destruct E as (e & E & T). exists e. split; auto.
      destruct (cut_pivot es ks i e E Hk) as (es1 & es2 & ks1 & t & ks2 & -> & -> & <- & L1 & L2). rewrite flat_pivot by auto. apply in_or_app. right. now left.
  Qed.
  Lemma n_get_mut_copes q w h : forall mn t n0, shape mn h t ->
    copes n0 (n_get_mut_t bor ask q w t n0)
      (fun t' r n => shape mn h t' /\ may_get_mut (said n0 n) q w (flat t) (flat t') (option_map snd r)) (fun t' => t' = t).
  Proof.
    induction h as [|h IH]; intros mn t n0 S.
    - destruct (shape_0 _ _ _ S) as (es & -> & Hb). cbn [n_get_mut_t]. eapply copes_after; [apply scan_copes|auto|]. intros _ [i c] n Hn E. destruct c.
      + destruct E as (e & E & T). destruct (nth_cut _ _ _ E) as (es1 & es2 & -> & <-). rewrite nth_mid, set_at_mid by auto.
        apply copes_ret; [lia|]. split; [constructor; rewrite app_length in *; auto|]. rewrite !flat_leaf. exists es1, e, es2. auto.
      + cbn [map]. rewrite nth_nil. apply copes_ret; [lia|]. split; auto. reflexivity.
      + cbn [map]. rewrite last_nil. apply copes_ret; [lia|]. split; auto. reflexivity.
    - destruct (shape_S _ _ _ _ S) as (es & ks & -> & Hb & Hk & HF). cbn [n_get_mut_t]. eapply copes_after; [apply scan_copes|auto|]. intros _ [i c] n Hn E.
      assert (Down : forall es1 es2 ks1 t ks2 j, es = es1 ++ es2 -> ks = ks1 ++ t :: ks2 -> length ks1 = length es1 -> length ks2 = length es2 -> length ks1 = j ->
        copes n (after (n_get_mut_t bor ask q w t n) (fun c' => BN es (set_at j c' ks)) (fun c' r n => Returned (BN es (set_at j c' ks)) r n))
        (fun t' r n => shape mn (Datatypes.S h) t' /\ may_get_mut (said n0 n) q w (flat (BN es ks)) (flat t') (option_map snd r)) (fun t' => t' = BN es ks)).
      { intros es1 es2 ks1 t ks2 j -> -> L1 L2 L3. apply Forall_mid in HF as (F1 & F & F2). eapply copes_after; [apply (IH _ _ _ F)| |].
        - intros t' ->. now rewrite set_at_mid by auto.
        - intros t' r n' Hn' (S' & G). apply copes_ret; [lia|]. rewrite set_at_mid by auto. split; [apply shape_branch; auto; lia|]. rewrite !flat_branch by lia.
          apply get_mut_seg. eapply get_mut_mono; [|exact G]. wide. }
      destruct c.
      + destruct E as (e & E & T). destruct (cut_pivot es ks i e E Hk) as (es1 & es2 & ks1 & t & ks2 & -> & -> & <- & L1 & L2). rewrite nth_mid, set_at_mid by auto.
        apply copes_ret; [lia|]. split; [constructor; auto; rewrite !app_length in *; auto|]. rewrite !flat_pivot by auto. exists (flat (BN es1 (ks1 ++ [t]))), e, (flat (BN es2 ks2)). auto.
      + destruct (cut_at es ks i E Hk) as (es1 & es2 & ks1 & t & ks2 & E1 & E2 & L0 & L1 & L2).
        assert (X : nth_error (map (n_get_mut_t bor ask q w) ks) i = Some (n_get_mut_t bor ask q w t)) by (rewrite E2; now apply nth_map_mid). rewrite X. eapply Down; eauto; lia.
      + destruct (cut_at es ks i ltac:(lia) Hk) as (es1 & es2 & ks1 & t & ks2 & E1 & E2 & L0 & L1 & L2).
        assert (es2 = []) as -> by (rewrite E1, app_length in E; destruct es2; auto; cbn in E; lia). destruct ks2; [|discriminate].
        assert (X : last_opt (map (n_get_mut_t bor ask q w) ks) = Some (n_get_mut_t bor ask q w t)) by (rewrite E2; now apply last_map_snoc). rewrite X.
        eapply Down; eauto; [lia|]. rewrite E2, app_length. cbn. lia.
  Qed.

  (** ** Insertion *)
  Definition ins_may (told : Q -> entry -> Prop) (mn h : nat) (k : K) (v : V) (l : list entry) (t' : bt) (r : ins_res K V) : Prop :=
    match r with
    | Replaced old => shape mn h t' /\ may_insert bor told k v l (flat t') (Some old)
    | Absorbed => shape mn h t' /\ may_insert bor told k v l (flat t') None
    | Split None _ _ => False
    | Split (Some lhs) k' v' => shape N h lhs /\ shape N h t' /\ may_insert bor told k v l (flat lhs ++ (k', v') :: flat t') None
    end.
  Lemma absorb_may told mn h es ks k v l : mn <= length es <= S MAX -> arity h es ks -> may_insert bor told k v l (flat (BN es ks)) None ->
    exists t' r, (if length es <=? MAX then Ok (BN es ks, Absorbed) else n_split N (BN es ks)) = Ok (t', r) /\ ins_may told mn h k v l t' r.
  Proof.
    intros L A E. destruct (Nat.leb_spec (length es) MAX).
    - eexists _, _. split; [reflexivity|]. cbn [ins_may]. split; auto. apply shape_iff. split; [lia|auto].
    - destruct (n_split_ok N HN h es ks) as (lhs & k1 & v1 & t' & E1 & S1 & S2 & F); [lia|auto|].
      eexists _, _. split; [exact E1|]. cbn [ins_may]. rewrite F. auto.
  Qed.

  Lemma n_insert_copes k v h : forall mn t n0, shape mn h t ->
    copes n0 (n_insert_t bor ask N k v t n0) (fun t' r n => ins_may (said n0 n) mn h k v (flat t) t' r) (fun t' => t' = t).
  Proof.
    induction h as [|h IH]; intros mn t n0 S.
    - destruct (shape_0 _ _ _ S) as (es & -> & Hb). cbn [n_insert_t]. eapply copes_after; [apply scan_copes|auto|]. intros _ [i c] n Hn E. cbn [map].
      assert (Hins : i <= length es ->
        copes n (after (Returned [] (Split None k v) n) (BN es) (fun ks1 r n => plain
         match r with
         | Split child k1 v1 =>
           es1 <- vec_insert i (k1, v1) es;;
           ks2 <- match child with Some rc => vec_insert i rc ks1 | None => Ok ks1 end;;
           if length es1 <=? MAX_OCC N then Ok (BN es1 ks2, Absorbed) else n_split N (BN es1 ks2)
         | _ => Ok (BN es ks1, r)
         end n)) (fun t' r n => ins_may (said n0 n) mn 0 k v (flat (BN es [])) t' r) (fun t' => t' = BN es [])).
      { intros Hi. cbn [after]. apply copes_plain; [lia|]. rewrite <- (firstn_skipn i es). set (es1 := firstn i es). set (es2 := skipn i es).
        assert (L1 : length es1 = i) by (unfold es1; rewrite firstn_length; lia).
        assert (Es : es = es1 ++ es2) by (symmetry; apply firstn_skipn). rewrite vec_insert_mid by auto. cbn [bind]. rewrite flat_leaf. apply absorb_may.
        - rewrite Es in Hb. rewrite app_length in *. cbn [length]. lia.
        - reflexivity.
        - rewrite flat_leaf. exists es1, es2. auto. }
      destruct c.
      + destruct E as (e & E & T). destruct (nth_cut _ _ _ E) as (es1 & es2 & -> & <-). apply copes_plain; [lia|]. rewrite nth_mid, set_at_mid by auto. cbn [unwrap bind].
        eexists _, _. split; [reflexivity|]. cbn [ins_may]. rewrite !flat_leaf. split.
        * apply shape_iff. rewrite app_length in *. split; [exact Hb|reflexivity].
        * exists es1, e, es2. auto.
      + rewrite nth_nil. apply Hins. lia.
      + rewrite nth_nil. apply Hins. lia.
    - destruct (shape_S _ _ _ _ S) as (es & ks & -> & Hb & Hk & HF). cbn [n_insert_t]. eapply copes_after; [apply scan_copes|auto|]. intros _ [i c] n Hn E.
      assert (Hins : i <= length es ->
        copes n (after (match nth_error (map (n_insert_t bor ask N k v) ks) i with
               | Some f => after (f n) (fun c' => set_at i c' ks) (fun c' r n => Returned (set_at i c' ks) r n)
               | None => Returned ks (Split None k v) n
               end) (BN es) (fun ks1 r n => plain
         match r with
         | Split child k1 v1 =>
           es1 <- vec_insert i (k1, v1) es;;
           ks2 <- match child with Some rc => vec_insert i rc ks1 | None => Ok ks1 end;;
           if length es1 <=? MAX_OCC N then Ok (BN es1 ks2, Absorbed) else n_split N (BN es1 ks2)
         | _ => Ok (BN es ks1, r)
         end n)) (fun t' r n => ins_may (said n0 n) mn (Datatypes.S h) k v (flat (BN es ks)) t' r) (fun t' => t' = BN es ks)).
      { intros Hi. destruct (cut_at es ks i Hi Hk) as (es1 & es2 & ks1 & t & ks2 & -> & -> & L0 & L1 & L2). apply Forall_mid in HF as (F1 & F & F2).
        rewrite nth_map_mid by auto.
        eapply copes_after with (ok1 := fun x r n => exists t', x = ks1 ++ t' :: ks2 /\ ins_may (said n0 n) N h k v (flat t) t' r) (un1 := fun x => x = ks1 ++ t :: ks2).
        { eapply copes_after; [apply (IH _ t n F)| |].
          - intros t' ->. now rewrite set_at_mid by auto.
          - intros t' r n' Hn' G. apply copes_ret; [lia|]. exists t'. rewrite set_at_mid by auto. split; auto.
            assert (W : forall q (e : entry), said n n' q e -> said n0 n' q e) by wide.
            destruct r as [old|[lhs|] k1 v1|]; cbn [ins_may] in *; [| |exact G|].
            + destruct G; split; auto. eapply insert_mono; eauto.
            + destruct G as (G1 & G2 & G3); split; [|split]; auto.
            + destruct G; split; auto. }
        { intros x ->. reflexivity. }
        intros x r n' Hn' (t' & -> & G). apply copes_plain; [lia|]. rewrite flat_branch by lia.
        destruct r as [old|[lhs|] k1 v1|]; cbn [ins_may] in G.
        - destruct G as (G2 & G3). eexists _, _. split; [reflexivity|]. cbn [ins_may]. split; [apply shape_branch; auto; lia|].
          rewrite flat_branch by lia. now apply insert_seg.
        - destruct G as (G2 & G3 & G4). rewrite !vec_insert_mid by auto. cbn [bind]. apply absorb_may.
          + rewrite app_length in *. cbn [length]. lia.
          + split; [rewrite !app_length in *; cbn [length] in *; lia|]. apply Forall_app. repeat constructor; auto.
          + rewrite (flat_pivot es1 (k1, v1) es2 ks1 lhs (t' :: ks2)) by lia.
            replace es1 with (es1 ++ []) at 2 by apply app_nil_r.
            rewrite (flat_branch es1 [] ks1 lhs []) by (cbn; lia).
            replace (BN es2 (t' :: ks2)) with (BN ([] ++ es2) ([] ++ t' :: ks2)) by reflexivity.
            rewrite (flat_branch [] es2 [] t' ks2) by (cbn; lia). cbn [map].
            rewrite zipl_nil, zipr_nil, app_nil_r. cbn [app].
            match goal with |- may_insert _ _ _ _ _ ?x _ => replace x with (zipl (map flat ks1) es1 ++ (flat lhs ++ (k1, v1) :: flat t') ++ zipr es2 (map flat ks2)) end.
            { now apply insert_seg. } now rewrite <- !app_assoc.
        - destruct G.
        - destruct G as (G2 & G3). eexists _, _. split; [reflexivity|]. cbn [ins_may]. split; [apply shape_branch; auto; lia|].
          rewrite flat_branch by lia. now apply insert_seg. }
      destruct c.
      + destruct E as (e & E & T). destruct (cut_pivot es ks i e E Hk) as (es1 & es2 & ks1 & t & ks2 & -> & -> & <- & L1 & L2). apply copes_plain; [lia|].
        rewrite nth_mid, set_at_mid by auto. cbn [unwrap bind].
        eexists _, _. split; [reflexivity|]. cbn [ins_may]. split.
        * apply shape_iff. split; [rewrite app_length in *; auto|]. split; auto. rewrite !app_length in *. auto.
        * rewrite !flat_pivot by auto. exists (flat (BN es1 (ks1 ++ [t]))), e, (flat (BN es2 ks2)). auto.
      + apply Hins. lia.
      + apply Hins. lia.
  Qed.

  (** ** Removal *)
  Definition rem_may (told : Q -> entry -> Prop) (mn h : nat) (q : Q) (l : list entry) (t' : bt) (o : option (entry * bool)) : Prop :=
    may_remove told q l (flat t') (option_map fst o)
    /\ match o with Some (_, u) => left_ok N mn h t' u | None => shape mn h t' end.
  Lemma n_remove_copes q h : forall mn t n0, 1 <= mn <= N -> shape mn h t ->
    copes n0 (n_remove_t bor ask N q t n0) (fun t' o n => rem_may (said n0 n) mn h q (flat t) t' o) (fun t' => t' = t).
  Proof.
    induction h as [|h IH]; intros mn t n0 Hm S.
    - destruct (shape_0 _ _ _ S) as (es & -> & Hb). cbn [n_remove_t]. eapply copes_after; [apply scan_copes|auto|]. intros _ [i c] n Hn E. destruct c.
      + destruct E as (e & E & T). destruct (nth_cut _ _ _ E) as (es1 & es2 & -> & <-). cbn [is_leaf kids_of is_nil]. apply copes_plain; [lia|].
        rewrite vec_remove_mid by auto. cbn [bind]. eexists _, _. split; [reflexivity|]. split.
        * cbn [option_map fst]. rewrite !flat_leaf. exists es1, es2. auto.
        * apply (leaf_left N HN mn (es1 ++ e :: es2)); auto. rewrite !app_length. cbn. lia.
      + cbn [map]. rewrite nth_nil. apply copes_ret; [lia|]. split; auto. reflexivity.
      + cbn [map]. rewrite last_nil. apply copes_ret; [lia|]. split; auto. reflexivity.
    - destruct (shape_S _ _ _ _ S) as (es & ks & -> & Hb & Hk & HF). cbn [n_remove_t]. eapply copes_after; [apply scan_copes|auto|]. intros _ [i c] n Hn E.
      assert (Down : forall es1 es2 ks1 t ks2 j, es = es1 ++ es2 -> ks = ks1 ++ t :: ks2 ->
        length es1 = i -> length ks1 = i -> length ks2 = length es2 -> j = i ->
        copes n (after (n_remove_t bor ask N q t n) (fun c' => BN es (set_at j c' ks)) (fun c' ret n => plain (
            let t1 := BN es (set_at j c' ks) in
            match ret with
            | None => Ok (t1, None)
            | Some (kv, true) => '(t2, u) <- rebal N t1 i;; Ok (t2, Some (kv, u))
            | Some (kv, false) => Ok (t1, Some (kv, false))
            end) n)) (fun t' o n => rem_may (said n0 n) mn (Datatypes.S h) q (flat (BN es ks)) t' o) (fun t' => t' = BN es ks)).
      { intros es1 es2 ks1 t ks2 j -> -> L0 L1 L2 ->. apply Forall_mid in HF as (F1 & F & F2).
        eapply copes_after; [apply (IH N t n ltac:(lia) F)| |].
        { intros t' ->. now rewrite set_at_mid by auto. }
        intros c' o n' Hn' (Gr & Gs). apply copes_plain; [lia|]. cbv zeta. rewrite set_at_mid by auto.
        assert (Hfl : may_remove (said n0 n') q (flat (BN (es1 ++ es2) (ks1 ++ t :: ks2))) (flat (BN (es1 ++ es2) (ks1 ++ c' :: ks2))) (option_map fst o)).
        { rewrite !flat_branch by lia. apply remove_seg. eapply remove_mono; [|exact Gr]. wide. }
        destruct o as [[kv [|]]|].
        - destruct (kid_fixed N HN mn h es1 es2 ks1 c' ks2 i) as (t2 & u2 & -> & Lk & Fr); auto; try lia. cbn [bind].
          eexists _, _. split; [reflexivity|]. split; auto. cbn [option_map fst] in *. now rewrite Fr.
        - eexists _, _. split; [reflexivity|]. split; auto. apply (kid_kept N HN mn h es1 es2 ks1 c' ks2); auto; try lia.
        - eexists _, _. split; [reflexivity|]. split; auto. apply shape_branch; auto; lia. }
      destruct c.
      + destruct E as (e & E & T). destruct (cut_pivot es ks i e E Hk) as (es1 & es2 & ks1 & t & ks2 & -> & -> & Li & L1 & L2).
        apply Forall_mid in HF as (F1 & F & F2). assert (is_leaf (BN (es1 ++ e :: es2) (ks1 ++ t :: ks2)) = false) as -> by (unfold is_leaf; cbn [kids_of]; now destruct ks1).
        destruct (n_pop_last_ok N HN N h t) as (c' & e' & u & E' & Gp & Fp); [lia|auto|]. apply copes_plain; [lia|].
        rewrite nth_map_mid, E' by auto. cbn [unwrap bind]. rewrite nth_mid, !set_at_mid by auto. cbn [unwrap bind]. cbv zeta.
        assert (Hfl : may_remove (said n0 n) q (flat (BN (es1 ++ e :: es2) (ks1 ++ t :: ks2))) (flat (BN (es1 ++ e' :: es2) (ks1 ++ c' :: ks2))) (Some e)).
        { rewrite !flat_pivot by lia. exists (flat (BN es1 (ks1 ++ [t]))), (flat (BN es2 ks2)). split; auto. split; auto.
          replace es1 with (es1 ++ []) by apply app_nil_r. rewrite !(flat_branch es1 [] ks1 _ []) by (cbn; lia). rewrite Fp. cbn [map].
          rewrite zipr_nil, !app_nil_r, <- !app_assoc. reflexivity. }
        assert (B' : mn <= length (es1 ++ e' :: es2) <= MAX_OCC N) by (rewrite app_length in *; exact Hb).
        destruct u.
        * destruct (kid_fixed N HN mn h es1 (e' :: es2) ks1 c' ks2 i) as (t2 & u2 & -> & Lk & Fr); auto; try lia. cbn [bind].
          eexists _, _. split; [reflexivity|]. split; auto. cbn [option_map fst]. now rewrite Fr.
        * eexists _, _. split; [reflexivity|]. split; auto. apply (kid_kept N HN mn h es1 (e' :: es2) ks1 c' ks2); auto; try lia.
      + destruct (cut_at es ks i E Hk) as (es1 & es2 & ks1 & t & ks2 & E1 & E2 & L0 & L1 & L2).
        assert (X : nth_error (map (n_remove_t bor ask N q) ks) i = Some (n_remove_t bor ask N q t)) by (rewrite E2; now apply nth_map_mid). rewrite X. eapply Down; eauto.
      + destruct (cut_at es ks i ltac:(lia) Hk) as (es1 & es2 & ks1 & t & ks2 & E1 & E2 & L0 & L1 & L2).
        assert (es2 = []) as -> by (rewrite E1, app_length in E; destruct es2; auto; cbn in E; lia). destruct ks2; [|discriminate].
        assert (X : last_opt (map (n_remove_t bor ask N q) ks) = Some (n_remove_t bor ask N q t)) by (rewrite E2; now apply last_map_snoc). rewrite X.
        rewrite <- E. eapply Down; eauto. rewrite E2, app_length. cbn. lia.
  Qed.

  (** ** Maps *)
  Notation shows := (@b_any K V N).
  Lemma b_get_copes m l q n0 : shows m l -> copes n0 (b_get_t bor ask m q n0) (fun _ r n => may_get (said n0 n) q l r) (fun _ => True).
  Proof.
    rewrite any_iff. intros (L & R). unfold b_get_t. destruct (bm_root m) as [t|]; [|now apply copes_ret].
    destruct R as (h & S & <-). eapply copes_after; [apply (n_get_copes q h 1 t n0 S)|auto|]. intros [] o n Hn H. apply copes_ret; [lia|].
    destruct o as [e|]; cbn; auto. exists e. tauto.
  Qed.
  Lemma b_contains_copes m l q n0 : shows m l ->
    copes n0 (b_contains_t bor ask m q n0) (fun _ b n => b = true -> exists e, In e l /\ said n0 n q e) (fun _ => True).
  Proof.
    rewrite any_iff. intros (L & R). unfold b_contains_t. destruct (bm_root m) as [t|]; [|now apply copes_ret].
    destruct R as (h & S & <-). apply (n_contains_copes q h 1 t n0 S).
  Qed.
  Lemma b_get_mut_copes m l q w n0 : shows m l ->
    copes n0 (b_get_mut_t bor ask m q w n0) (fun m' r n => exists l', shows m' l' /\ may_get_mut (said n0 n) q w l l' r) (fun m' => m' = m).
  Proof.
    intros H. pose proof H as H0. rewrite any_iff in H. destruct H as (L & R). unfold b_get_mut_t.
    destruct (bm_root m) as [t|] eqn:Em; [|apply copes_ret; [lia|]; exists l; split; auto; reflexivity].
    destruct R as (h & S & <-). eapply copes_after; [apply (n_get_mut_copes q w h 1 t n0 S)| |].
    - intros t' ->. destruct m. cbn in *. congruence.
    - intros t' r n Hn (S' & G). apply copes_ret; [lia|]. exists (flat t'). split; auto. apply any_iff. cbn [bm_len bm_root]. split; eauto. rewrite L.
      symmetry. eapply len_get_mut; eauto.
  Qed.
  Lemma b_insert_copes m l k v n0 : shows m l ->
    copes n0 (b_insert_t bor ask N m k v n0) (fun m' r n => exists l', shows m' l' /\ may_insert bor (said n0 n) k v l l' r) (fun m' => m' = m).
  Proof.
    rewrite any_iff. intros (L & R). unfold b_insert_t. destruct (bm_root m) as [t|] eqn:Em.
    - destruct R as (h & S & <-). eapply copes_after; [apply (n_insert_copes k v h 1 t n0 S)| |].
      { intros t' ->. destruct m. cbn in *. congruence. }
      intros t' r n Hn G. apply copes_plain; [lia|].
      destruct r as [old|[c|] k1 v1|]; cbn [ins_may] in G.
      + destruct G as (S' & G). eexists _, _. split; [reflexivity|]. exists (flat t'). split; [|exact G]. apply any_iff. cbn [bm_len bm_root]. split; eauto.
        rewrite (len_insert _ _ _ _ _ _ _ G). lia.
      + destruct G as (Sl & S' & G). cbn [unwrap bind].
        eexists _, _. split; [reflexivity|]. exists (flat c ++ (k1, v1) :: flat t'). split; [|exact G]. apply any_iff. cbn [bm_len bm_root]. split; [rewrite (len_insert _ _ _ _ _ _ _ G); lia|].
        exists (Datatypes.S h). split; [|cbn; now rewrite app_nil_r]. constructor; auto. cbn. unfold MAX_OCC. lia.
      + destruct G.
      + destruct G as (S' & G). eexists _, _. split; [reflexivity|]. exists (flat t'). split; [|exact G]. apply any_iff. cbn [bm_len bm_root]. split; eauto.
        rewrite (len_insert _ _ _ _ _ _ _ G). lia.
    - subst l. apply copes_ret; [lia|]. exists [(k, v)]. split; [|exists [], []; auto]. apply any_iff. cbn [bm_len bm_root length]. split; auto.
      exists 0. split; [|reflexivity]. constructor. cbn. unfold MAX_OCC. lia.
  Qed.
  (** The second search of [remove] need not agree with the first. *)
  Lemma b_remove_copes m l q n0 : shows m l ->
    copes n0 (b_remove_t bor ask N m q n0) (fun m' r n => exists l', shows m' l' /\ may_remove_val (said n0 n) q l l' r) (fun m' => m' = m).
  Proof.
    intros H. pose proof H as H0. rewrite any_iff in H. destruct H as (L & R). unfold b_remove_t.
    eapply copes_after; [apply (b_contains_copes m l q n0 H0)|auto|]. intros [] there n1 Hn1 _.
    destruct (negb there); [apply copes_ret; [lia|]; exists l; split; auto; exists None; split; reflexivity|].
    destruct (bm_root m) as [t|] eqn:Em; [|apply copes_ret; [lia|]; exists l; split; auto; exists None; split; reflexivity].
    destruct R as (h & S & <-). eapply copes_after; [apply (n_remove_copes q h 1 t n1); auto| |].
    { intros t' ->. destruct m. cbn in *. congruence. }
    intros t' o n Hn (G & G2). apply copes_plain; [lia|].
    assert (G' : may_remove (said n0 n) q (flat t) (flat t') (option_map fst o)) by (eapply remove_mono; [|exact G]; wide). clear G.
    pose proof (len_remove _ _ _ _ _ G') as Hl. destruct o as [[kv u]|]; cbn [option_map fst] in *.
    - rewrite usize_sub_ok by lia. cbn [bind].
      destruct (left_root (fun _ => tt) (fun _ _ => Lt) N HN h t' u G2 (sorted_any _)) as (r & Er & F' & S').
      assert (Fin : shows (BMap (bm_len m - 1) r) (flat t')).
      { apply any_iff. cbn [bm_len bm_root]. split; [lia|]. destruct r as [b|]; [|auto]. destruct S' as [h' S']. exists h'. auto. }
      assert (Val : may_remove_val (said n0 n) q (flat t) (flat t') (Some (snd kv))) by (exists (Some kv); auto).
      destruct (u && is_nil (elems_of t')).
      + destruct (assert_ _); cbn [bind] in *; [|discriminate]. injection Er as ->. eexists _, _. split; [reflexivity|]. eauto.
      + injection Er as <-. eexists _, _. split; [reflexivity|]. eauto.
    - eexists _, None. split; [reflexivity|]. exists (flat t'). split; [|exists None; auto]. apply any_iff. cbn [bm_len bm_root]. split; [lia|]. eauto.
  Qed.
  Lemma retain_copes {S} (f : S -> K -> V -> S * V * option bool) ps : forall acc la s n0, shows acc la ->
    match retain_t bor ask N f acc s ps n0 with
    | Returned _ (m', s') n => n0 <= n /\ exists outs l', run_calls (quiet f) s ps = (outs, s') /\ shows m' l' /\ may_extend bor (said n0 n) (kept outs) la l'
    | Unwound _ n => panicked ask n \/ exists s0 k v, In (k, v) ps /\ snd (f s0 k v) = None
    | Fault => False
    end.
  Proof.
    induction ps as [|[k v] ps IH]; intros acc la s n0 H; cbn [retain_t run_calls].
    - split; [lia|]. exists [], la. split; auto. split; auto. reflexivity.
    - unfold quiet at 1. destruct (f s k v) as [[s1 v1] [[|]|]] eqn:Ef.
      + pose proof (b_insert_copes acc la k v1 n0 H) as T. destruct (b_insert_t bor ask N acc k v1 n0) as [m1 r n1|m1 n1|]; cbn [after AskAnySpec.copes] in *; [| |contradiction].
        * destruct T as (L1 & l1 & H1 & I). specialize (IH m1 l1 s1 n1 H1). destruct (retain_t bor ask N f m1 s1 ps n1) as [[] [m2 s3] n2|[] n2|]; auto.
          -- destruct IH as (L2 & outs & l' & -> & H' & X). split; [lia|]. eexists _, l'. split; [reflexivity|]. split; auto. cbn. exists l1, r. split.
             ++ eapply insert_mono; [|exact I]. wide.
             ++ eapply extend_mono; [|exact X]. wide.
          -- destruct IH as [P|(s0 & k0 & v0 & I0 & E)]; auto. right. exists s0, k0, v0. split; [now right|auto].
        * destruct T as (_ & P & _). auto.
      + specialize (IH acc la s1 n0 H). destruct (retain_t bor ask N f acc s1 ps n0) as [[] [m2 s3] n2|[] n2|]; auto.
        * destruct IH as (L2 & outs & l' & -> & H' & X). split; auto. eexists _, l'. split; [reflexivity|]. auto.
        * destruct IH as [P|(s0 & k0 & v0 & I0 & E)]; auto. right. exists s0, k0, v0. split; [now right|auto].
      + right. exists s, k, v. split; [now left|]. now rewrite Ef.
  Qed.
  Lemma b_retain_copes {S} un (f : S -> K -> V -> S * V * option bool) m l s n0 : shows m l ->
    match b_retain_t bor ask N un f m s n0 with
    | Returned m' s' n => n0 <= n /\ exists outs l', run_calls (quiet f) s l = (outs, s') /\ shows m' l' /\ may_extend bor (said n0 n) (kept outs) [] l'
    | Unwound m' n => m' = b_new /\ (panicked ask n \/ exists s0 k v, In (k, v) l /\ snd (f s0 k v) = None)
    | Fault => False
    end.
  Proof.
    intros H. unfold b_retain_t. rewrite (b_list_any N HN un m l H). pose proof (retain_copes f l b_new [] s n0 (b_new_any N)) as T.
    destruct (retain_t bor ask N f b_new s l n0) as [[] [m2 s3] n2|[] n2|]; cbn [after]; auto.
  Qed.

  Lemma part_mono n1 n2 n1' n2' q (l : list entry) : n1' <= n1 -> n2 <= n2' -> forall lo hi, may_part bor ask n1 n2 q l lo hi -> may_part bor ask n1' n2' q l lo hi.
  Proof.
    intros L1 L2. induction l as [|e l IH]; intros lo hi; cbn [may_part]; auto. intros (i & c & Hi & E & H). exists i, c. split; [lia|]. split; auto.
    destruct c; destruct H as (x & -> & H); eauto.
  Qed.
  Lemma part_copes q ps : forall lo hi l1 l2 n0, shows lo l1 -> shows hi l2 ->
    copes n0 (part_t bor ask N q lo hi ps n0)
      (fun _ '(lo', hi') n => exists p1 p2 l1' l2', may_part bor ask n0 n q ps p1 p2
        /\ shows lo' l1' /\ may_extend bor (said n0 n) p1 l1 l1' /\ shows hi' l2' /\ may_extend bor (said n0 n) p2 l2 l2') (fun _ => True).
  Proof.
    induction ps as [|[k v] ps IH]; intros lo hi l1 l2 n0 H1 H2; cbn [part_t may_part].
    - apply copes_ret; [lia|]. exists [], [], l1, l2. split; [auto|]. split; [exact H1|]. split; [reflexivity|]. split; [exact H2|reflexivity].
    - apply copes_question; auto. intros c E. change (Datatypes.S n0) with (1 + n0).
      assert (Hi : c <> Gt -> copes (1 + n0) (after (b_insert_t bor ask N hi k v (1 + n0)) (fun _ => tt) (fun hi' _ n => part_t bor ask N q lo hi' ps n))
        (fun _ '(lo', hi') n => exists p1 p2 l1' l2', may_part bor ask n0 n q ((k, v) :: ps) p1 p2
          /\ shows lo' l1' /\ may_extend bor (said n0 n) p1 l1 l1' /\ shows hi' l2' /\ may_extend bor (said n0 n) p2 l2 l2') (fun _ => True)).
      { intros Hc. eapply copes_after; [apply (b_insert_copes hi l2 k v (1 + n0) H2)|auto|]. intros m1 r n1 L1 (l3 & H3 & I).
        eapply copes_weak; [apply (IH lo m1 l1 l3 n1 H1 H3)| |auto]. intros [] [lo' hi'] n2 L2 (p1 & p2 & l1' & l2' & P & Ha & Xa & Hb & Xb).
        exists p1, ((k, v) :: p2), l1', l2'. split; [|split; [exact Ha|split; [|split; [exact Hb|]]]].
        - cbn [may_part fst]. exists n0, c. split; [lia|]. split; auto. assert (P' : may_part bor ask n0 n2 q ps p1 p2) by (eapply part_mono; [| |exact P]; lia).
          destruct c; [eauto|eauto|congruence].
        - eapply extend_mono; [|exact Xa]. wide.
        - cbn [may_extend]. exists l3, r. split; [eapply insert_mono; [|exact I]; wide|eapply extend_mono; [|exact Xb]; wide]. }
      destruct c; [now apply Hi|now apply Hi|]. clear Hi.
      eapply copes_after; [apply (b_insert_copes lo l1 k v (1 + n0) H1)|auto|]. intros m1 r n1 L1 (l3 & H3 & I).
      eapply copes_weak; [apply (IH m1 hi l3 l2 n1 H3 H2)| |auto]. intros [] [lo' hi'] n2 L2 (p1 & p2 & l1' & l2' & P & Ha & Xa & Hb & Xb).
      exists ((k, v) :: p1), p2, l1', l2'. split; [|split; [exact Ha|split; [|split; [exact Hb|]]]].
      + cbn [may_part fst]. exists n0, Gt. split; [lia|]. split; auto. exists p1. split; auto. eapply part_mono; [| |exact P]; lia.
      + cbn [may_extend]. exists l3, r. split; [eapply insert_mono; [|exact I]; wide|eapply extend_mono; [|exact Xa]; wide].
      + eapply extend_mono; [|exact Xb]. wide.
  Qed.
  Lemma b_split_off_copes un m l q n0 : shows m l ->
    copes n0 (b_split_off_t bor ask N un m q n0)
      (fun m1 m2 n => exists p1 p2 l1 l2, may_part bor ask n0 n q l p1 p2
        /\ shows m1 l1 /\ may_extend bor (said n0 n) p1 [] l1 /\ shows m2 l2 /\ may_extend bor (said n0 n) p2 [] l2) (fun m' => m' = b_new).
  Proof.
    intros H. unfold b_split_off_t. rewrite (b_list_any N HN un m l H). eapply copes_after; [apply (part_copes q l b_new b_new [] [] n0); apply b_new_any|auto|].
    intros [] [lo hi] n Hn G. apply copes_ret; [lia|exact G].
  Qed.
End BTreeAskAny.
