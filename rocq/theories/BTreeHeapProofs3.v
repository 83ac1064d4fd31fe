(** Rebalancing and removal in shared B-trees. *)
From Coq Require Import List PeanoNat Bool Lia.
From Verif Require Import Base Spec Vec Heap HeapProofs BTreeModel BTreeProofs BTreeProofs2 BTreeHeapModel
  BTreeHeapSpec BTreeHeapProofs BTreeHeapProofs2.
Import ListNotations.
Local Open Scope nat_scope.

Section Remove.
  Context {K V Q : Type} (bor : K -> Q) (cmp : Q -> Q -> comparison) (N : nat).
  Variable bomb : nat -> bool.
  Notation pay := (list (K * V)).
  Notation heap := (heap pay).
  Notation bt := (bt K V).
  Notation scan := (@scan K V Q bor cmp).
  Notation rank := (@rank K V Q bor cmp).
  Notation hit := (@hit K V Q bor cmp).
  Notation near := (@near K V Q bor cmp).
  Notation loose := (@loose K V).
  Notation flat := (@flat K V).

  (** ** Loose trees, as values *)
  Lemma loose_join d a ka e b kb : loose d (BN a ka) -> loose d (BN b kb) -> loose d (BN (a ++ e :: b) (ka ++ kb)).
  Proof.
    intros H1 H2. apply loose_inv in H1 as [[-> ->]|(d' & -> & L1 & F1)]; apply loose_inv in H2 as [[? H2]|(d2 & E & L2 & F2)]; try discriminate.
    - subst. constructor.
    - injection E as <-. constructor; [|now apply Forall_app]. rewrite !app_length. cbn [length]. lia.
  Qed.
  Lemma loose_flat_join d a ka e b kb : loose d (BN a ka) -> loose d (BN b kb) ->
    flat (BN (a ++ e :: b) (ka ++ kb)) = flat (BN a ka) ++ e :: flat (BN b kb).
  Proof.
    intros H1 H2. apply loose_inv in H1 as [[-> ->]|(d' & -> & L1 & F1)]; apply loose_inv in H2 as [[? H2]|(d2 & E & L2 & F2)]; try discriminate.
    - subst. reflexivity.
    - destruct (snoc_cases ka) as [->|(ka' & c & ->)]; [discriminate|].
      rewrite <- app_assoc. cbn [app]. apply flat_pivot. rewrite app_length in L1. cbn in L1. lia.
  Qed.
  Lemma loose_pair d e1 m e2 t1 A B t2 : length e1 = length t1 -> loose (S d) (BN (e1 ++ m :: e2) (t1 ++ A :: B :: t2)) ->
    length e2 = length t2 /\ loose d A /\ loose d B
    /\ (forall m' A' B', loose d A' -> loose d B' -> loose (S d) (BN (e1 ++ m' :: e2) (t1 ++ A' :: B' :: t2)))
    /\ (forall C, loose d C -> loose (S d) (BN (e1 ++ e2) (t1 ++ C :: t2))).
  Proof.
    intros L H. inversion H as [|? ? ? Hl F]; subst. rewrite !app_length in Hl. cbn [length] in Hl.
    apply Forall_app in F as [F1 F2]. inversion F2 as [|? ? HA F3]; subst. inversion F3 as [|? ? HB F4]; subst.
    split; [lia|]. split; auto. split; auto. split.
    - intros m' A' B' HA' HB'. constructor; [rewrite !app_length; cbn [length]; lia|]. apply Forall_app. auto.
    - intros C HC. constructor; [rewrite !app_length; cbn [length]; lia|]. apply Forall_app. auto.
  Qed.
  Lemma flat_pair e1 m e2 t1 A B t2 : length e1 = length t1 -> length e2 = length t2 ->
    flat (BN (e1 ++ m :: e2) (t1 ++ A :: B :: t2)) = zipl (map flat t1) e1 ++ (flat A ++ m :: flat B) ++ zipr e2 (map flat t2).
  Proof.
    intros H1 H2. cbn [BTreeProofs.flat]. rewrite map_app. cbn [map].
    rewrite weave_split by (cbn [length]; rewrite ?map_length; cbn [length]; rewrite ?map_length; lia).
    rewrite zipr_cons. now rewrite <- !app_assoc.
  Qed.
  Lemma flat_one e1 e2 t1 C t2 : length e1 = length t1 -> length e2 = length t2 ->
    flat (BN (e1 ++ e2) (t1 ++ C :: t2)) = zipl (map flat t1) e1 ++ flat C ++ zipr e2 (map flat t2).
  Proof.
    intros H1 H2. cbn [BTreeProofs.flat]. rewrite map_app. cbn [map].
    now rewrite weave_split by (rewrite ?map_length; lia).
  Qed.

  (** ** Vectors side by side *)
  Lemma f2_snoc_inv {A B} (R : A -> B -> Prop) l m y : Forall2 R l (m ++ [y]) -> exists l' x, l = l' ++ [x] /\ Forall2 R l' m /\ R x y.
  Proof.
    intros F. apply Forall2_app_inv_r in F as (l1 & l2 & F1 & F2 & ->). inversion F2 as [|? ? ? ? D F3]; subst. inversion F3; subst. eauto.
  Qed.
  Lemma ns_peek (h : heap) a es ts : ns h a (BN es ts) -> peek h a = Ok es.
  Proof. intros D. apply ns_inv in D as (c & ks & G & _). unfold peek. now rewrite G. Qed.
  Lemma nl_app (h h1 h2 : heap) c1 c2 M : clones h1 = c1 ++ clones h -> clones h2 = c2 ++ clones h1 -> sub (c2 ++ c1) M -> none_lost h h2 M.
  Proof. intros E1 E2 S. exists (c2 ++ c1). split; auto. now rewrite E2, E1, app_assoc. Qed.
  Lemma keep_cls (h0 h : heap) R a ks X O es ts Y :
    sess h0 h (a :: R) (ks ++ X) O -> Forall2 (ns h) ks ts -> keep Y h (cls h a es ks).
  Proof. intros S F. destruct (sess_close h0 h R a ks X O es ts S F) as (_ & _ & Kc & _). intros q t _. apply Kc. Qed.

  Lemma nth_second {A'} (l1 : list A') x y l2 i : i = length l1 + 1 -> nth_error (l1 ++ x :: y :: l2) i = Some y.
  Proof. intros ->. change (l1 ++ x :: y :: l2) with (l1 ++ [x] ++ y :: l2). rewrite app_assoc. apply nth_mid. rewrite app_length. reflexivity. Qed.
  Lemma set_second {A'} (l1 : list A') x y z l2 i : i = length l1 + 1 -> set_at i z (l1 ++ x :: y :: l2) = l1 ++ x :: z :: l2.
  Proof. intros ->. change (l1 ++ x :: y :: l2) with (l1 ++ [x] ++ y :: l2). rewrite app_assoc, set_at_mid, <- app_assoc; auto. rewrite app_length. reflexivity. Qed.
  Lemma ks_not_nil {A'} (l1 : list A') x l2 : is_nil (l1 ++ x :: l2) = false.
  Proof. now destruct l1. Qed.


  (** The same values, in the same order. *)
  Lemma rot_rt_val d e1 m e2 t1 A B t2 idx t' : length e1 = length t1 -> loose (S d) (BN (e1 ++ m :: e2) (t1 ++ A :: B :: t2)) ->
    idx = length e1 -> rot_rt N (BN (e1 ++ m :: e2) (t1 ++ A :: B :: t2)) idx = Ok t' ->
    loose (S d) t' /\ flat t' = flat (BN (e1 ++ m :: e2) (t1 ++ A :: B :: t2)).
  Proof.
    intros L1 Lo -> E. destruct (loose_pair _ _ _ _ _ _ _ _ L1 Lo) as (L2 & LA & LB & LP & LC).
    destruct A as [ea ka]. destruct B as [eb kb].
    unfold rot_rt, is_branch, is_leaf, kids_of in E. rewrite ks_not_nil in *. cbn [negb assert_ bind] in *.
    rewrite nth_mid in * by lia. cbn [unwrap bind] in *.
    destruct (MIN_OCC N <? length ea) eqn:Em; cbn [assert_ bind] in *; [|discriminate].
    destruct (snoc_cases ea) as [->|(ea' & kv0 & ->)]; [apply Nat.ltb_lt in Em; cbn in Em; lia|].
    rewrite vec_pop_snoc in E. cbn [bind unwrap] in *. rewrite (nth_mid e1 m e2) in E by lia.
    apply loose_inv in LA as [[-> ->]|(d' & -> & La & Fa)].
    - apply loose_inv in LB as [[_ ->]|(? & ? & _)]; [|discriminate]. cbn [vec_pop rev] in E.
      rewrite (set_at_mid t1 _ _ _) in E by lia. rewrite (nth_second t1 _ _ t2) in E by lia. unfold vec_insert in E. cbn [unwrap bind Nat.leb firstn skipn app] in E.
      rewrite (set_at_mid e1 m kv0 e2) in E by lia. rewrite (set_second t1 _ _ _ t2) in E by lia. injection E as <-.
      split; [apply LP; constructor|]. rewrite !flat_pair by auto. cbn. now rewrite <- !app_assoc.
    - destruct (snoc_cases ka) as [->|(ts_a & tx & ->)]; [discriminate|]. rewrite vec_pop_snoc in E.
      rewrite (set_at_mid t1 _ _ _) in E by lia. rewrite (nth_second t1 _ _ t2) in E by lia. unfold vec_insert in E. cbn [unwrap bind Nat.leb firstn skipn app] in E.
      rewrite (set_at_mid e1 m kv0 e2) in E by lia. rewrite (set_second t1 _ _ _ t2) in E by lia. injection E as <-.
      apply Forall_app in Fa as [Fa Ft]. inversion Ft as [|? ? Ltx _]; subst. rewrite !app_length in La. cbn [length] in La.
      apply loose_inv in LB as [[? _]|(d2 & E2 & Lb & Fb)]; [discriminate|]. injection E2 as <-.
      split; [apply LP|].
      + constructor; auto. lia.
      + constructor; [cbn [length app]; lia|]. constructor; auto.
      + rewrite !flat_pair by auto. f_equal. f_equal.
        destruct (snoc_cases ts_a) as [->|(ts_a' & tl & ->)]; [cbn in La; lia|]. cbn [BTreeProofs.flat].
        rewrite !map_app. cbn [map]. rewrite <- app_assoc. cbn [app].
        rewrite app_length in La. cbn [length] in La.
        rewrite weave_app by (rewrite map_length; lia).
        cbn [weave concat app]. rewrite app_nil_r. rewrite <- app_assoc. cbn [app]. reflexivity.
  Qed.
  Lemma rot_lf_val d e1 m e2 t1 A B t2 idx t' : length e1 = length t1 -> loose (S d) (BN (e1 ++ m :: e2) (t1 ++ A :: B :: t2)) ->
    idx = length e1 -> rot_lf N (BN (e1 ++ m :: e2) (t1 ++ A :: B :: t2)) idx = Ok t' ->
    loose (S d) t' /\ flat t' = flat (BN (e1 ++ m :: e2) (t1 ++ A :: B :: t2)).
  Proof.
    intros L1 Lo -> E. destruct (loose_pair _ _ _ _ _ _ _ _ L1 Lo) as (L2 & LA & LB & LP & LC).
    destruct A as [ea ka]. destruct B as [eb kb].
    unfold rot_lf, is_branch, is_leaf, kids_of in E. rewrite ks_not_nil in *. cbn [negb assert_ bind] in *.
    rewrite nth_second in * by lia. cbn [unwrap bind] in *.
    destruct (MIN_OCC N <? length eb) eqn:Em; cbn [assert_ bind] in *; [|discriminate].
    destruct eb as [|kv2 eb]; [apply Nat.ltb_lt in Em; cbn in Em; lia|].
    change (vec_remove 0 (kv2 :: eb)) with (Ok (kv2, eb)) in E. cbn [bind unwrap] in *. rewrite (nth_mid e1 m e2) in E by lia.
    apply loose_inv in LB as [[-> ->]|(d' & -> & Lb & Fb)].
    - apply loose_inv in LA as [[_ ->]|(? & ? & _)]; [|discriminate]. cbn [is_nil bind] in E.
      rewrite (set_second t1 _ _ _) in E by lia. cbn [unwrap bind] in E. rewrite (nth_mid t1 _ _) in E by lia. cbn [unwrap bind] in E.
      destruct (length ea <? MIN_OCC N); cbn [assert_ bind] in E; [|discriminate].
      rewrite (set_at_mid e1 m kv2 e2) in E by lia. rewrite (set_at_mid t1 _ _ _) in E by lia. injection E as <-.
      split; [apply LP; constructor|]. rewrite !flat_pair by auto. cbn. now rewrite <- !app_assoc.
    - destruct kb as [|tx kb]; [discriminate|]. change (vec_remove 0 (tx :: kb)) with (Ok (tx, kb)) in E. cbn [is_nil bind] in E.
      rewrite (set_second t1 _ _ _) in E by lia. cbn [unwrap bind] in E. rewrite (nth_mid t1 _ _) in E by lia. cbn [unwrap bind] in E.
      destruct (length ea <? MIN_OCC N); cbn [assert_ bind] in E; [|discriminate].
      rewrite (set_at_mid e1 m kv2 e2) in E by lia. rewrite (set_at_mid t1 _ _ _) in E by lia. injection E as <-.
      inversion Fb as [|? ? Ltx Fb']; subst. cbn [length] in Lb.
      apply loose_inv in LA as [[? _]|(d2 & E2 & La & Fa)]; [discriminate|]. injection E2 as <-.
      split; [apply LP|].
      + constructor; [rewrite !app_length; cbn [length]; lia|]. apply Forall_app. auto.
      + constructor; [lia|auto].
      + rewrite !flat_pair by auto. f_equal. f_equal.
        destruct (snoc_cases ka) as [->|(ka' & tl & ->)]; [discriminate|]. cbn [BTreeProofs.flat].
        rewrite !map_app. cbn [map]. rewrite <- app_assoc. cbn [app]. rewrite app_length in La. cbn [length] in La.
        change (ea ++ [m]) with (ea ++ m :: []).
        rewrite weave_app by (rewrite map_length; lia).
        cbn [weave concat app]. rewrite app_nil_r. rewrite <- app_assoc. cbn [app]. reflexivity.
  Qed.
  Lemma merge_val d e1 m e2 t1 A B t2 idx t' : length e1 = length t1 -> loose (S d) (BN (e1 ++ m :: e2) (t1 ++ A :: B :: t2)) ->
    idx = length e1 -> merge_kids (BN (e1 ++ m :: e2) (t1 ++ A :: B :: t2)) idx = Ok t' ->
    loose (S d) t' /\ flat t' = flat (BN (e1 ++ m :: e2) (t1 ++ A :: B :: t2)).
  Proof.
    intros L1 Lo -> E. destruct (loose_pair _ _ _ _ _ _ _ _ L1 Lo) as (L2 & LA & LB & LP & LC).
    destruct A as [ea ka]. destruct B as [eb kb]. unfold merge_kids in E.
    rewrite (vec_remove_mid e1) in E by lia. cbn [bind] in E. rewrite (vec_remove_mid t1) in E by lia. cbn [bind] in E.
    rewrite nth_mid in E by lia. cbn [unwrap bind] in E. rewrite set_at_mid in E by lia. injection E as <-.
    rewrite <- app_assoc. cbn [app]. split; [apply LC, loose_join; auto|].
    rewrite flat_one, flat_pair by auto. f_equal. f_equal. eapply loose_flat_join; eauto.
  Qed.

  Section Pair.
    Variables (h0 h : heap) (R X O : list addr).
    Variables (e1 e2 : pay) (m : K * V) (k1 k2 : list addr) (a b : addr) (t1 t2 : list bt) (ea eb : pay) (ka kb : list bt) (d : nat).
    Notation A := (BN ea ka).
    Notation B := (BN eb kb).
    Hypothesis S : sess h0 h R ((k1 ++ a :: b :: k2) ++ X) O.
    Hypothesis F1 : Forall2 (ns h) k1 t1.
    Hypothesis DA : ns h a A.
    Hypothesis DB : ns h b B.
    Hypothesis F2 : Forall2 (ns h) k2 t2.
    Hypothesis L1 : length e1 = length t1.
    Hypothesis Lo : loose (Datatypes.S d) (BN (e1 ++ m :: e2) (t1 ++ A :: B :: t2)).
    Notation T := (BN (e1 ++ m :: e2) (t1 ++ A :: B :: t2)).
    Notation es := (e1 ++ m :: e2).
    Notation ks := (k1 ++ a :: b :: k2).

    Let Lk : length k1 = length t1.
    Proof. exact (f2_length _ _ _ F1). Qed.

    Definition reb_ok (M : list pay) (res_ : res (heap * pay * list addr * out unit)) (t' : bt) : Prop :=
      exists h1 es1 ks1 o, res_ = Ok (h1, es1, ks1, o) /\ sess h0 h1 R (ks1 ++ X) O /\ keep (X ++ O) h h1
        /\ none_lost h h1 M
        /\ match o with
           | Done _ => exists ts', t' = BN es1 ts' /\ Forall2 (ns h1) ks1 ts'
           | Unwound => (exists n, bomb n = true) /\ exists ts1, Forall2 (ns h1) ks1 ts1
                        /\ loose (Datatypes.S d) (BN es1 ts1) /\ sub (flat (BN es1 ts1)) (flat T)
           end.

    (** Nothing was changed. *)
    Lemma reb_same (M : list pay) (h1 : heap) t' : sess h0 h1 R (ks ++ X) O -> keep (ks ++ X ++ O) h h1 -> none_lost h h1 M ->
      (exists n, bomb n = true) -> reb_ok M (Ok (h1, es, ks, Unwound)) t'.
    Proof.
      intros S1 K1 NL Bb. eexists _, _, _, _. split; [reflexivity|]. split; auto. split; [eapply keep_incl; [|exact K1]; inc|].
      split; auto. split; auto. exists (t1 ++ A :: B :: t2). split; [|split; auto; apply sub_refl].
      eapply keep_f2; [exact K1|inc|]. apply f2_set; auto.
    Qed.

    Lemma h_rot_rt_ok idx t' : idx = length e1 -> unique h b = true -> rot_rt N T idx = Ok t' ->
      reb_ok [ea] (h_rot_rt N bomb h es ks idx) t'.
    Proof.
      intros -> U E. destruct (loose_pair _ _ _ _ _ _ _ _ L1 Lo) as (L2 & LA & LB & LP & LC).
      unfold rot_rt in E. unfold h_rot_rt. unfold is_branch, is_leaf, kids_of in E. rewrite (ks_not_nil t1) in E. rewrite (ks_not_nil k1). cbn [negb assert_ bind] in *.
      rewrite (nth_mid t1) in E by lia. rewrite (nth_mid k1) by lia. cbn [unwrap bind] in *. rewrite (ns_peek _ _ _ _ DA). cbn [bind].
      destruct (MIN_OCC N <? length ea) eqn:Em; cbn [assert_ bind] in *; [|discriminate].
      destruct (snoc_cases ea) as [Eea|(ea' & kv0 & Eea)]; [apply Nat.ltb_lt in Em; rewrite Eea in Em; cbn in Em; lia|].
      assert (S' : sess h0 h R (a :: k1 ++ b :: k2 ++ X) O) by perm.
      destruct (sess_open bomb h0 h R a (k1 ++ b :: k2 ++ X) O _ _ S' DA) as (h1 & o & Eo & P).
      rewrite Eo. rewrite Eea, vec_pop_snoc in E. cbn [bind unwrap] in *.
      destruct o as [[[a' ea1] ka1]|].
      - destruct P as (-> & S1 & Fk & K1 & Us & cs & C1 & Sc & _). rewrite Eea, vec_pop_snoc. cbn [unwrap bind].
        (* the child that moves *)
        assert (Mv : exists ka' kx ts_a tx,
          (match vec_pop ka1 with Some (x, l_ks') => (Some x, l_ks') | None => (None, ka1) end) = (kx, ka')
          /\ (match vec_pop ka with Some (x, l_ks') => (Some x, l_ks') | None => (None, ka) end) = (tx, ts_a)
          /\ ka1 = ka' ++ olist kx /\ ka = ts_a ++ (match tx with Some x => [x] | None => [] end)
          /\ Forall2 (ns h1) ka' ts_a /\ opt_ns h1 kx tx).
        { destruct (snoc_cases ka) as [Eka|(ts_a & tx & Eka)]; rewrite Eka in *.
          - inversion Fk; subst. exists [], None, [], None. cbn. auto 10.
          - apply f2_snoc_inv in Fk as (ka' & kx & -> & Fk & Dx). rewrite !vec_pop_snoc.
            exists ka', (Some kx), ts_a, (Some tx). cbn. auto 10. }
        destruct Mv as (ka' & kx & ts_a & tx & EM1 & EM2 & -> & Eka & Fa & Ox).
        rewrite EM1. rewrite EM2 in E. clear EM1 EM2.
        assert (S1' : sess h0 h1 (a' :: R) (ka' ++ olist kx ++ k1 ++ b :: k2 ++ X) O) by perm.
        destruct (sess_close h0 h1 R a' ka' (olist kx ++ k1 ++ b :: k2 ++ X) O ea' ts_a S1' Fa) as (S2 & D2 & K2 & _ & G2 & C2).
        rewrite (set_at_mid k1 a a' (b :: k2)) by lia. rewrite (set_at_mid t1 _ _ _) in E by lia.
        rewrite (nth_second k1 a' b k2) by lia. rewrite (nth_second t1 _ _ t2) in E by lia.
        rewrite (nth_mid e1 m e2) in * by lia. cbn [unwrap bind] in *.
        set (h2 := cls h1 a' ea' ka') in *.
        assert (Kb : forall q t, In q (k1 ++ b :: k2 ++ X ++ O) -> ns h q t -> ns h2 q t).
        { intros q t Hq Dq. apply K2, K1; auto. mem. }
        assert (Db2 : ns h2 b (BN eb kb)) by (apply Kb; [mem|auto]).
        assert (Hab : b <> a').
        { intros ->. destruct S1 as [_ _ _ _ Rs]. destruct (Rs a' (or_introl eq_refl)) as (G & _).
          specialize (Us a'). apply unique_get in U as U'. destruct U' as [n0 U'].
          assert (U1 : unique h1 a' = true) by (apply Us; [mem|auto]). apply unique_get in U1 as [n1 U1]. congruence. }
        assert (U2 : unique h2 b = true).
        { unfold unique. rewrite G2 by auto. apply Us; [mem|auto]. }
        assert (S2' : sess h0 h2 R (b :: a' :: olist kx ++ k1 ++ k2 ++ X) O) by perm.
        destruct (sess_open bomb h0 h2 R b (a' :: olist kx ++ k1 ++ k2 ++ X) O _ _ S2' Db2) as (h3 & o & Eo3 & P3).
        rewrite Eo3. cbn [bind]. destruct o as [[[b' eb3] kb3]|].
        2:{ destruct P3 as (_ & _ & _ & _ & _ & U3). congruence. }
        destruct P3 as (-> & S3 & Fb & K3 & _ & cs3 & C3 & _ & Cs3). rewrite (Cs3 U2) in C3. cbn [app] in C3.
        assert (Ea' : ns h3 a' (BN ea' ts_a)) by (apply K3; [mem|exact D2]).
        assert (Ox3 : opt_ns h3 kx tx).
        { destruct kx, tx; cbn [opt_ns] in *; auto. apply K3; [mem|]. apply K2. exact Ox. }
        assert (Fk1 : Forall2 (ns h3) k1 t1).
        { eapply keep_f2; [exact K3|inc|]. eapply keep_f2 with (O := k1); [|apply incl_refl|exact F1]. intros q t Hq. apply Kb. mem. }
        assert (Fk2 : Forall2 (ns h3) k2 t2).
        { eapply keep_f2; [exact K3|inc|]. eapply keep_f2 with (O := k2); [|apply incl_refl|exact F2]. intros q t Hq. apply Kb. mem. }
        assert (Ei : exists rk tk, match kx with Some x => vec_insert 0 x kb3 | None => Ok kb3 end = Ok rk
           /\ match tx with Some x => vec_insert 0 x kb | None => Ok kb end = Ok tk
           /\ rk = olist kx ++ kb3 /\ tk = (match tx with Some x => [x] | None => [] end) ++ kb /\ Forall2 (ns h3) rk tk).
        { destruct kx as [x|], tx as [x'|]; cbn [opt_ns] in Ox3; try contradiction; eexists _, _; repeat (split; [reflexivity|]); auto.
          cbn. constructor; auto. }
        destruct Ei as (rk & tk & -> & Et & -> & -> & Frk). rewrite Et in E. unfold vec_insert in E |- *. cbn [Nat.leb firstn skipn app bind] in E |- *.
        injection E as <-.
        rewrite (set_second k1 a' b b' k2) by lia. rewrite !(set_at_mid e1 m kv0 e2) by lia. rewrite (set_second t1 _ _ _ t2) by lia.
        assert (S3' : sess h0 h3 (b' :: R) ((olist kx ++ kb3) ++ a' :: k1 ++ k2 ++ X) O) by perm.
        destruct (sess_close h0 h3 R b' (olist kx ++ kb3) (a' :: k1 ++ k2 ++ X) O (m :: eb) _ S3' Frk) as (S4 & D4 & K4 & _ & _ & C4).
        eexists _, _, _, _. split; [reflexivity|]. split; [perm|]. split; [|split].
        + intros q t Hq Dq. apply K4, K3; [mem|]. apply Kb; auto. mem.
        + exists cs. split; [|first [exact Sc|rewrite <- Eea; exact Sc]]. rewrite C4, C3, C2. exact C1.
        + eexists. split; [reflexivity|]. apply f2_set; [|apply K4; exact Ea'|].
          * eapply keep_f2 with (O := k1); [|apply incl_refl|exact Fk1]. intros q t _. apply K4.
          * constructor; [exact D4|]. eapply keep_f2 with (O := k2); [|apply incl_refl|exact Fk2]. intros q t _. apply K4.
      - destruct P as (S1 & K1 & C1 & _ & Bb & _).
        apply reb_same; auto; [perm|eapply keep_incl; [|exact K1]; inc| |eauto].
        apply nl_one. exact C1.
    Qed.

    Lemma h_rot_lf_ok idx t' : idx = length e1 -> unique h a = true -> rot_lf N T idx = Ok t' ->
      reb_ok [eb] (h_rot_lf N bomb h es ks idx) t'.
    Proof.
      intros -> U E. destruct (loose_pair _ _ _ _ _ _ _ _ L1 Lo) as (L2 & LA & LB & LP & LC).
      unfold rot_lf in E. unfold h_rot_lf. unfold is_branch, is_leaf, kids_of in E. rewrite (ks_not_nil t1) in E. rewrite (ks_not_nil k1). cbn [negb assert_ bind] in *.
      rewrite (nth_second t1 _ _ t2) in E by lia. rewrite (nth_second k1 _ _ k2) by lia. cbn [unwrap bind] in *. rewrite (ns_peek _ _ _ _ DB). cbn [bind].
      destruct (MIN_OCC N <? length eb) eqn:Em; cbn [assert_ bind] in *; [|discriminate].
      assert (Eeb : exists kv2 eb', eb = kv2 :: eb').
      { revert Em. destruct eb; intros Em; [apply Nat.ltb_lt in Em; cbn in Em; lia|eauto]. }
      destruct Eeb as (kv2 & eb' & Eeb).
      assert (S' : sess h0 h R (b :: k1 ++ a :: k2 ++ X) O) by perm.
      destruct (sess_open bomb h0 h R b (k1 ++ a :: k2 ++ X) O _ _ S' DB) as (h1 & o & Eo & P).
      rewrite Eo. rewrite Eeb in E. change (vec_remove 0 (kv2 :: eb')) with (Ok (kv2, eb')) in E. cbn [bind unwrap] in *.
      destruct o as [[[b' eb1] kb1]|].
      - destruct P as (-> & S1 & Fk & K1 & Us & cs & C1 & Sc & _). rewrite Eeb. change (vec_remove 0 (kv2 :: eb')) with (Ok (kv2, eb')). cbn [unwrap bind].
        (* the child that moves *)
        assert (Mv : exists kb' kx ts_b tx,
          (if is_nil kb1 then Ok (None, kb1) else '(x, r_ks') <- vec_remove 0 kb1;; Ok (Some x, r_ks')) = Ok (kx, kb')
          /\ (if is_nil kb then Ok (None, kb) else '(x, r_ks') <- vec_remove 0 kb;; Ok (Some x, r_ks')) = Ok (tx, ts_b)
          /\ kb1 = olist kx ++ kb' /\ Forall2 (ns h1) kb' ts_b /\ opt_ns h1 kx tx).
        { destruct Fk as [|kx tx kb' ts_b Dx Fk].
          - exists [], None, [], None. cbn. auto 10.
          - exists kb', (Some kx), ts_b, (Some tx). cbn. auto 10. }
        destruct Mv as (kb' & kx & ts_b & tx & EM1 & EM2 & -> & Fb & Ox).
        rewrite EM1. rewrite EM2 in E. clear EM1 EM2. cbn [bind] in *.
        assert (S1' : sess h0 h1 (b' :: R) (kb' ++ olist kx ++ k1 ++ a :: k2 ++ X) O) by perm.
        destruct (sess_close h0 h1 R b' kb' (olist kx ++ k1 ++ a :: k2 ++ X) O eb' ts_b S1' Fb) as (S2 & D2 & K2 & _ & G2 & C2).
        rewrite (set_second k1 a b b' k2) by lia. rewrite (set_second t1 _ _ _ t2) in E by lia.
        rewrite (nth_mid k1 a (b' :: k2)) by lia. rewrite (nth_mid t1 _ _) in E by lia.
        rewrite (nth_mid e1 m e2) in * by lia. cbn [unwrap bind] in *.
        set (h2 := cls h1 b' eb' kb') in *.
        assert (Kb : forall q t, In q (k1 ++ a :: k2 ++ X ++ O) -> ns h q t -> ns h2 q t).
        { intros q t Hq Dq. apply K2, K1; auto. mem. }
        assert (Da2 : ns h2 a (BN ea ka)) by (apply Kb; [mem|auto]).
        assert (Hab : a <> b').
        { intros ->. destruct S1 as [_ _ _ _ Rs]. destruct (Rs b' (or_introl eq_refl)) as (G & _).
          assert (U1 : unique h1 b' = true) by (apply Us; [mem|auto]). apply unique_get in U1 as [n1 U1]. congruence. }
        assert (U2 : unique h2 a = true).
        { unfold unique. rewrite G2 by auto. apply Us; [mem|auto]. }
        rewrite (ns_peek _ _ _ _ Da2). cbn [bind].
        destruct (length ea <? MIN_OCC N) eqn:Em2; cbn [assert_ bind] in *; [|discriminate].
        assert (S2' : sess h0 h2 R (a :: b' :: olist kx ++ k1 ++ k2 ++ X) O) by perm.
        destruct (sess_open bomb h0 h2 R a (b' :: olist kx ++ k1 ++ k2 ++ X) O _ _ S2' Da2) as (h3 & o & Eo3 & P3).
        rewrite Eo3. cbn [bind]. destruct o as [[[a' ea3] ka3]|].
        2:{ destruct P3 as (_ & _ & _ & _ & _ & U3). congruence. }
        destruct P3 as (-> & S3 & Fa & K3 & _ & cs3 & C3 & _ & Cs3). rewrite (Cs3 U2) in C3. cbn [app] in C3.
        assert (Eb' : ns h3 b' (BN eb' ts_b)) by (apply K3; [mem|exact D2]).
        assert (Ox3 : opt_ns h3 kx tx).
        { destruct kx, tx; cbn [opt_ns] in *; auto. apply K3; [mem|]. apply K2. exact Ox. }
        assert (Fk1 : Forall2 (ns h3) k1 t1).
        { eapply keep_f2; [exact K3|inc|]. eapply keep_f2 with (O := k1); [|apply incl_refl|exact F1]. intros q t Hq. apply Kb. mem. }
        assert (Fk2 : Forall2 (ns h3) k2 t2).
        { eapply keep_f2; [exact K3|inc|]. eapply keep_f2 with (O := k2); [|apply incl_refl|exact F2]. intros q t Hq. apply Kb. mem. }
        assert (Ei : Forall2 (ns h3) (ka3 ++ olist kx) (match tx with Some x => ka ++ [x] | None => ka end)).
        { destruct kx as [x|], tx as [x'|]; cbn [opt_ns olist] in *; try contradiction.
          - apply f2_app; auto.
          - rewrite app_nil_r. auto. }
        rewrite !(set_at_mid e1 m kv2 e2) in * by lia. rewrite (set_at_mid k1 a a' (b' :: k2)) by lia. rewrite (set_at_mid t1) in E by lia.
        injection E as <-.
        assert (S3' : sess h0 h3 (a' :: R) ((ka3 ++ olist kx) ++ b' :: k1 ++ k2 ++ X) O) by perm.
        destruct (sess_close h0 h3 R a' (ka3 ++ olist kx) (b' :: k1 ++ k2 ++ X) O (ea ++ [m]) _ S3' Ei) as (S4 & D4 & K4 & _ & _ & C4).
        eexists _, _, _, _. split; [reflexivity|]. split; [perm|]. split; [|split].
        + intros q t Hq Dq. apply K4, K3; [mem|]. apply Kb; auto. mem.
        + exists cs. split; [|first [exact Sc|rewrite <- Eeb; exact Sc]]. rewrite C4, C3, C2. exact C1.
        + eexists. split; [reflexivity|]. apply f2_set; [|exact D4|].
          * eapply keep_f2 with (O := k1); [|apply incl_refl|exact Fk1]. intros q t _. apply K4.
          * constructor; [apply K4; exact Eb'|]. eapply keep_f2 with (O := k2); [|apply incl_refl|exact Fk2]. intros q t _. apply K4.
      - destruct P as (S1 & K1 & C1 & _ & Bb & _).
        apply reb_same; auto; [perm|eapply keep_incl; [|exact K1]; inc| |eauto].
        apply nl_one. exact C1.
    Qed.

    (** The separator and the left child of the pair are gone. *)
    Lemma reb_lost (M : list pay) (h1 : heap) t' : sess h0 h1 R ((k1 ++ b :: k2) ++ X) O -> keep (k1 ++ b :: k2 ++ X ++ O) h h1 ->
      none_lost h h1 M -> (exists n, bomb n = true) -> reb_ok M (Ok (h1, e1 ++ e2, k1 ++ b :: k2, Unwound)) t'.
    Proof.
      intros S1 K1 NL Bb. destruct (loose_pair _ _ _ _ _ _ _ _ L1 Lo) as (L2 & LA & LB & LP & LC).
      eexists _, _, _, _. split; [reflexivity|]. split; auto. split; [eapply keep_incl; [|exact K1]; inc|].
      split; auto. split; auto. exists (t1 ++ B :: t2). split; [|split; auto].
      - eapply keep_f2; [exact K1|inc|]. apply f2_set; auto.
      - rewrite flat_one, flat_pair by auto. apply sub_app; [apply sub_refl|].
        apply sub_app; [|apply sub_refl]. apply sub_app_r, AvlHeapSpec.sub_skip, sub_refl.
    Qed.

    Lemma h_merge_ok idx t' M : idx = length e1 ->
      (unique h a = true /\ M = [eb] \/ unique h b = true /\ M = [ea]) -> merge_kids T idx = Ok t' ->
      reb_ok M (h_merge_kids bomb h es ks idx) t'.
    Proof.
      intros -> U E. destruct (loose_pair _ _ _ _ _ _ _ _ L1 Lo) as (L2 & LA & LB & LP & LC).
      unfold merge_kids in E. unfold h_merge_kids.
      rewrite (vec_remove_mid e1) in * by lia. cbn [bind] in *. rewrite (vec_remove_mid t1) in E by lia. rewrite (vec_remove_mid k1) by lia. cbn [bind] in *.
      rewrite nth_mid in E by lia. cbn [unwrap bind] in E. rewrite set_at_mid in E by lia. injection E as <-.
      assert (S' : sess h0 h R (a :: (k1 ++ b :: k2) ++ X) O) by perm.
      destruct (sess_own bomb h0 h R a ((k1 ++ b :: k2) ++ X) O _ _ S' DA) as (h1 & o & Eo & K1 & P).
      rewrite Eo. cbn [bind]. destruct o as [[l_es l_ks]|].
      2:{ destruct P as (S1 & C1 & Bb & Ua). destruct U as [[U ->]|[U ->]]; [congruence|].
          apply reb_lost; auto; [eapply keep_incl; [|exact K1]; inc|apply nl_one; exact C1|eauto]. }
      destruct P as (-> & S1 & Fa & Us & cs & C1 & Sc & Cs). rewrite (nth_mid k1) by lia. cbn [unwrap bind].
      assert (Db1 : ns h1 b B) by (apply K1; [mem|auto]).
      assert (S1' : sess h0 h1 R (b :: l_ks ++ k1 ++ k2 ++ X) O) by perm.
      destruct (sess_open bomb h0 h1 R b (l_ks ++ k1 ++ k2 ++ X) O _ _ S1' Db1) as (h2 & o & Eo2 & P2).
      rewrite Eo2. cbn [bind]. destruct o as [[[b' r_es] r_ks]|].
      - destruct P2 as (-> & S2 & Fb & K2 & _ & cs2 & C2 & Sc2 & Cs2).
        assert (Fj : Forall2 (ns h2) (l_ks ++ r_ks) (ka ++ kb)).
        { apply f2_app; auto. eapply keep_f2; [exact K2|inc|exact Fa]. }
        assert (S2' : sess h0 h2 (b' :: R) ((l_ks ++ r_ks) ++ k1 ++ k2 ++ X) O) by perm.
        destruct (sess_close h0 h2 R b' (l_ks ++ r_ks) (k1 ++ k2 ++ X) O ((ea ++ [m]) ++ eb) _ S2' Fj) as (S3 & D3 & K3 & _ & _ & C3).
        rewrite (set_at_mid k1) by lia.
        eexists _, _, _, _. split; [reflexivity|]. split; [perm|]. split; [|split].
        + intros q t Hq Dq. apply K3, K2; [mem|]. apply K1; auto. mem.
        + destruct U as [[U ->]|[U ->]].
          * exists cs2. split; auto. rewrite C3, C2, C1, (Cs U). reflexivity.
          * exists cs. split; auto. rewrite C3, C2, C1. rewrite Cs2; auto. apply Us; auto. mem.
        + eexists. split; [reflexivity|]. apply f2_set; [|exact D3|].
          * eapply keep_f2 with (O := k1); [|apply incl_refl|exact F1]. intros q t Hq Dq. apply K3, K2; [mem|]. apply K1; auto. mem.
          * eapply keep_f2 with (O := k2); [|apply incl_refl|exact F2]. intros q t Hq Dq. apply K3, K2; [mem|]. apply K1; auto. mem.
      - destruct P2 as (S2 & K2 & C2 & _ & Bb & Ub). destruct U as [[U ->]|[U ->]].
        2:{ exfalso. rewrite (Us b) in Ub; [discriminate|mem|auto]. }
        assert (S2' : sess h0 h2 R (l_ks ++ b :: k1 ++ k2 ++ X) O) by perm.
        destruct (sess_drops h0 h2 R l_ks (b :: k1 ++ k2 ++ X) O S2') as (h3 & E3 & S3 & K3 & C3 & _).
        rewrite E3. cbn [bind]. apply reb_lost; auto; [perm| | |eauto].
        + intros q t Hq Dq. apply K3; [mem|]. apply K2; [mem|]. apply K1; auto. mem.
        + apply nl_one. rewrite C3, C2, C1, (Cs U). reflexivity.
    Qed.
  End Pair.

  Lemma two_cut {A} (l : list A) i x y : nth_error l i = Some x -> nth_error l (i + 1) = Some y ->
    exists l1 l2, l = l1 ++ x :: y :: l2 /\ length l1 = i.
  Proof.
    intros H1 H2. apply nth_cut in H1 as (l1 & l2 & -> & L). destruct l2 as [|z l2].
    - rewrite (proj2 (nth_error_None _ _)) in H2; [discriminate|]. rewrite app_length. cbn [length]. lia.
    - rewrite nth_second in H2 by lia. injection H2 as ->. eauto.
  Qed.
  Lemma es_cut d e t1 A B t2 : loose (S d) (BN e (t1 ++ A :: B :: t2)) -> exists e1 m e2, e = e1 ++ m :: e2 /\ length e1 = length t1.
  Proof.
    intros H. inversion H as [|? ? ? Hl F]; subst. rewrite app_length in Hl. cbn [length] in Hl.
    destruct (nth_error e (length t1)) as [m|] eqn:E; [|apply nth_error_None in E; lia].
    apply nth_cut in E as (e1 & e2 & -> & L). eauto.
  Qed.

  (** What [rebal] works on: two neighbours, the child and its sibling. *)
  Lemma rebal_inv d es ts at_ t' u c : loose (S d) (BN es ts) -> nth_error ts at_ = Some c -> rebal N (BN es ts) at_ = Ok (t', u) ->
    exists e1 m e2 t1 A B t2, es = e1 ++ m :: e2 /\ ts = t1 ++ A :: B :: t2 /\ length e1 = length t1
      /\ u = (n_len t' <? MIN_OCC N)
      /\ (at_ = S (length t1) /\ c = B /\ (if MAX_OCC N - MIN_OCC N <? n_len A then rot_rt N (BN es ts) (at_ - 1) else merge_kids (BN es ts) (at_ - 1)) = Ok t'
          \/ at_ = 0 /\ t1 = [] /\ c = A /\ (if MAX_OCC N - MIN_OCC N <? n_len B then rot_lf N (BN es ts) at_ else merge_kids (BN es ts) at_) = Ok t').
  Proof.
    intros L Hc E. unfold rebal in E. destruct (is_branch (BN es ts)); cbn [assert_ bind kids_of] in E; [|discriminate].
    destruct (0 <? at_) eqn:E0.
    - apply Nat.ltb_lt in E0. destruct (nth_error ts (at_ - 1)) as [A|] eqn:EA; cbn [unwrap bind] in E; [|discriminate].
      destruct (two_cut ts (at_ - 1) A c EA) as (t1 & t2 & -> & L1). { replace (at_ - 1 + 1) with at_ by lia. auto. }
      destruct (es_cut _ _ _ _ _ _ L) as (e1 & m & e2 & -> & L2).
      destruct (if _ <? _ then _ else _) as [t2'|] eqn:E2 in E; cbn [bind] in E; [|discriminate]. injection E as -> <-.
      exists e1, m, e2, t1, A, c, t2. split; auto. split; auto. split; auto. split; auto. left. split; [lia|]. auto.
    - apply Nat.ltb_ge in E0. assert (at_ = 0) as -> by lia. cbn [Nat.add] in E.
      destruct (nth_error ts 1) as [B|] eqn:EB; cbn [unwrap bind] in E; [|discriminate].
      destruct (two_cut ts 0 c B Hc EB) as (t1 & t2 & -> & L1). destruct t1; [|discriminate].
      destruct (es_cut _ _ _ _ _ _ L) as (e1 & m & e2 & -> & L2).
      destruct (if _ <? _ then _ else _) as [t2'|] eqn:E2 in E; cbn [bind] in E; [|discriminate]. injection E as -> <-.
      exists e1, m, e2, [], c, B, t2. split; auto. split; auto. split; auto. split; [reflexivity|]. right. auto.
  Qed.
  Lemma rebal_val d es ts at_ t' u c : loose (S d) (BN es ts) -> nth_error ts at_ = Some c -> rebal N (BN es ts) at_ = Ok (t', u) ->
    loose (S d) t' /\ flat t' = flat (BN es ts).
  Proof.
    intros L Hc E. destruct (rebal_inv _ _ _ _ _ _ _ L Hc E) as (e1 & m & e2 & t1 & A & B & t2 & -> & -> & L1 & _ & [(-> & -> & E1)|(-> & -> & -> & E1)]).
    - replace (S (length t1) - 1) with (length e1) in E1 by lia.
      destruct (_ <? _); [eapply rot_rt_val in E1|eapply merge_val in E1]; eauto.
    - destruct e1; [|discriminate]. destruct (_ <? _); [eapply (rot_lf_val _ [] m e2 []) in E1|eapply (merge_val _ [] m e2 []) in E1]; eauto.
  Qed.

  Lemma h_rebal_ok (h0 h : heap) R X O es ks ts at_ c d t' u :
    sess h0 h R (ks ++ X) O -> Forall2 (ns h) ks ts -> loose (S d) (BN es ts) ->
    nth_error ks at_ = Some c -> unique h c = true -> rebal N (BN es ts) at_ = Ok (t', u) ->
    exists h1 es1 ks1 o, h_rebal N bomb h es ks at_ = Ok (h1, es1, ks1, o) /\ sess h0 h1 R (ks1 ++ X) O /\ keep (X ++ O) h h1
      /\ none_lost h h1 (beside at_ ts)
      /\ match o with
         | Done u' => u' = u /\ exists ts', t' = BN es1 ts' /\ Forall2 (ns h1) ks1 ts'
         | Unwound => (exists n, bomb n = true) /\ exists ts1, Forall2 (ns h1) ks1 ts1
                      /\ loose (S d) (BN es1 ts1) /\ sub (flat (BN es1 ts1)) (flat (BN es ts))
         end.
  Proof.
    intros Se F L Hc U E.
    destruct (f2_at _ _ _ _ _ F Hc) as (kl & kr & tl & tc & tr & Ek & Et & Lk & Lt & Fl & Dc & Fr).
    assert (Htc : nth_error ts at_ = Some tc) by (rewrite Et, nth_mid; auto).
    destruct (rebal_inv _ _ _ _ _ _ _ L Htc E) as (e1 & m & e2 & t1 & A & B & t2 & -> & Et2 & L1 & -> & Cs).
    assert (exists k1 a b k2, ks = k1 ++ a :: b :: k2 /\ length k1 = length t1 /\ Forall2 (ns h) k1 t1 /\ ns h a A /\ ns h b B /\ Forall2 (ns h) k2 t2)
      as (k1 & a & b & k2 & Ek2 & Lk1 & Fk1 & Da & Db & Fk2).
    { rewrite Et2 in F. apply f2_cut_r in F as (k1 & a & k2 & -> & Lk1 & F1 & Da & F2). inversion F2 as [|b ? k3 ? Db F3]; subst.
      exists k1, a, b, k3. auto 10. }
    clear Ek Et Fl Fr Lk Lt. subst ks ts. destruct A as [ea ka]. destruct B as [eb kb].
    assert (G : exists res_ M, h_rebal N bomb h (e1 ++ m :: e2) (k1 ++ a :: b :: k2) at_ =
        ('(h1, es1, ks1, o) <- res_;; Ok (h1, es1, ks1, match o with Done _ => Done (length es1 <? MIN_OCC N) | Unwound => Unwound end))
      /\ reb_ok h0 h R X O e1 e2 m t1 t2 ea eb ka kb d M res_ t' /\ M = beside at_ (t1 ++ BN ea ka :: BN eb kb :: t2)).
    { unfold h_rebal. rewrite (ks_not_nil k1). cbn [negb assert_ bind]. unfold beside.
      destruct Cs as [(Ea & -> & E1)|(-> & -> & -> & E1)].
      - assert (0 <? at_ = true) as -> by (apply Nat.ltb_lt; lia). replace (at_ - 1) with (length e1) in * by lia.
        rewrite (nth_mid k1) by lia. rewrite (nth_mid t1) by lia. cbn [unwrap bind]. rewrite (ns_peek _ _ _ _ Da). cbn [bind].
        assert (U' : unique h b = true).
        { rewrite Ea in Hc. replace (S (length t1)) with (length k1 + 1) in Hc by lia. rewrite nth_second in Hc by lia. injection Hc as ->. auto. }
        change (n_len (BN ea ka)) with (length ea) in E1. destruct (MAX_OCC N - MIN_OCC N <? length ea); eexists _, _; (split; [reflexivity|]); split; eauto.
        + eapply h_rot_rt_ok; eauto.
        + eapply h_merge_ok; eauto.
      - destruct k1; [|discriminate]. destruct e1; [|discriminate]. change (0 <? 0) with false. cbn [Nat.add app nth_error] in *. cbn [unwrap bind]. rewrite (ns_peek _ _ _ _ Db). cbn [bind].
        injection Hc as ->.
        change (n_len (BN eb kb)) with (length eb) in E1. destruct (MAX_OCC N - MIN_OCC N <? length eb); eexists _, [eb]; (split; [reflexivity|]); (split; [|reflexivity]).
        + eapply (h_rot_lf_ok _ _ _ _ _ [] e2 m [] k2 c b [] t2); eauto.
        + eapply (h_merge_ok _ _ _ _ _ [] e2 m [] k2 c b [] t2); eauto. }
    destruct G as (res_ & M & -> & (h1 & es1 & ks1 & o & -> & S1 & K1 & NL & P) & ->). cbn [bind].
    eexists _, _, _, _. split; [reflexivity|]. split; auto. split; auto. split; auto.
    destruct o; [|exact P]. destruct P as (ts' & -> & F'). split; [reflexivity|]. eauto.
  Qed.

  (** The end of a call on an opened node. *)
  Lemma node_close (h0 h : heap) a ks ts es O : sess h0 h [a] (ks ++ []) O -> Forall2 (ns h) ks ts ->
    sound (cls h a es ks) (a :: O) /\ frame O h0 (cls h a es ks) /\ clones (cls h a es ks) = clones h
    /\ ns (cls h a es ks) a (BN es ts) /\ unique (cls h a es ks) a = true.
  Proof.
    intros S F. destruct (sess_close h0 h [] a ks [] O es ts S F) as (S4 & D4 & _ & U4 & _ & C4).
    apply sess_end in S4 as [S4 F4]. auto 10.
  Qed.
  Lemma nl_eq (h h1 h2 : heap) M : clones h2 = clones h1 -> none_lost h h1 M -> none_lost h h2 M.
  Proof. intros E (cs & E1 & Sb). exists cs. rewrite E. auto. Qed.

  Definition rm_ok (h : heap) (O : list addr) (d : nat) (t : bt) (M : list pay) (t' : bt) (r : option ((K * V) * bool))
      (res_ : res (heap * addr * out (option ((K * V) * bool)))) : Prop :=
    exists h' a' o, res_ = Ok (h', a', o) /\ sound h' (a' :: O) /\ frame O h h' /\ none_lost h h' M
      /\ match o with
         | Done r' => r' = r /\ ns h' a' t' /\ unique h' a' = true
         | Unwound => (exists n, bomb n = true) /\ exists t1, ns h' a' t1 /\ loose d t1 /\ sub (flat t1) (flat t)
         end.

  Lemma h_rebal_cls_ok (h0 h : heap) O a es ks ts at_ c d t t' u kv M :
    sess h0 h [a] (ks ++ []) O -> Forall2 (ns h) ks ts -> loose (S d) (BN es ts) ->
    nth_error ks at_ = Some c -> unique h c = true -> rebal N (BN es ts) at_ = Ok (t', u) ->
    sub (flat (BN es ts)) (flat t) -> none_lost h0 h M ->
    rm_ok h0 O (S d) t (beside at_ ts ++ M) t' (Some (kv, u)) (h_rebal_cls N bomb h a es ks at_ kv).
  Proof.
    intros Se F L Hc U E Sb NL.
    destruct (h_rebal_ok h0 h [a] [] O es ks ts at_ c d t' u Se F L Hc U E) as (h1 & es1 & ks1 & o & E1 & S1 & K1 & NL1 & P).
    unfold h_rebal_cls. rewrite E1. cbn [bind]. eexists _, _, _. split; [reflexivity|].
    destruct o as [u'|].
    - destruct P as (-> & ts' & -> & F'). destruct (node_close _ _ _ _ _ es1 _ S1 F') as (A1 & A2 & A3 & A4 & A5).
      split; auto. split; auto. split; auto. eapply nl_eq; [exact A3|]. eapply nl_trans; eauto.
    - destruct P as (Bb & ts1 & F' & L' & Sb'). destruct (node_close _ _ _ _ _ es1 _ S1 F') as (A1 & A2 & A3 & A4 & A5).
      split; auto. split; auto. split; [eapply nl_eq; [exact A3|]; eapply nl_trans; eauto|].
      split; auto. eexists. split; [exact A4|]. split; auto. eapply sub_trans; eauto.
  Qed.
End Remove.
