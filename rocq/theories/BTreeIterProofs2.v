(** Proofs about the B-tree iterators: by value, and on whole maps. *)
From Coq Require Import List PeanoNat Bool Lia.
From Verif Require Import Base Spec MapSpec SpecFacts Vec BTreeModel BTreeProofs BTreeProofs2
  BTreeIterModel BTreeIterProofs.
Import ListNotations.
Local Hint Constructors Forall2 Forall : core.

Section Into.
  Context {K V : Type} (unshared : bt K V -> bool).
  Notation bt := (bt K V).
  Notation entry := (K * V)%type.
  Notation erg := (erg K V).
  Notation borrowed := (@borrowed K V).
  Notation owning := (owning unshared).

  (** A node iterator of [into_iter] and the borrowed one in the same position. *)
  Inductive irel : into_node K V -> erg -> Prop :=
  | irel_owned g : irel (Owned g) g
  | irel_arc n e1 e2 e3 k1 k2 k3 le ue lk uk lf rt :
      elems_of n = e1 ++ e2 ++ e3 -> kids_of n = k1 ++ k2 ++ k3 ->
      le = length e1 -> ue = le + length e2 -> lk = length k1 -> uk = lk + length k2 ->
      irel (Arcked n le ue lk uk lf rt) (Erg e2 k2 lf rt).
  Definition crel (a : kid_item) (b : bt) : Prop := a = inl b \/ a = inr b.

  Lemma irel_empty a b : irel a b -> i_empty a = g_empty b.
  Proof.
    intros []; [reflexivity|]. cbn. unfold g_empty. cbn. subst.
    destruct e2, k2; cbn [is_nil length andb];
      repeat match goal with |- context [?a <=? ?b] => destruct (Nat.leb_spec a b); try lia end; reflexivity.
  Qed.
  Lemma irel_lf a b : irel a b -> i_lf a = g_lf b.
  Proof. now intros []. Qed.
  Lemma irel_rt a b : irel a b -> i_rt a = g_rt b.
  Proof. now intros []. Qed.
  Lemma irel_fuel a b : irel a b -> g_fuel b <= i_fuel a.
  Proof.
    intros [g|n e1 e2 e3 k1 k2 k3 le ue lk uk lf rt He Hk ? ? ? ?]; [reflexivity|]. unfold g_fuel. cbn [g_kids i_fuel].
    fold (max_levels k2). do 2 apply le_n_S. apply max_levels_le. intros c Hc.
    destruct n as [es ks]. cbn in Hk. rewrite levels_eq. apply le_S. apply max_levels_in. subst ks.
    apply in_or_app. right. apply in_or_app. now left.
  Qed.
  Lemma nth_mid3 {A} (l1 l2 l3 : list A) i j x l : l2 = x :: l -> i = length l1 -> j = i + 1 - 1 ->
    nth_error (l1 ++ l2 ++ l3) j = Some x.
  Proof. intros -> -> ->. cbn [app]. apply nth_mid. lia. Qed.

  Lemma irel_elem a b x b' : irel a b -> g_next_elem b = Ok (x, b') ->
    exists a', i_next_elem a = Ok (x, a') /\ irel a' b'.
  Proof.
    intros [g|n e1 e2 e3 k1 k2 k3 le ue lk uk lf rt He Hk Hle Hue Hlk Huk] E.
    - cbn [i_next_elem]. rewrite E. cbn [bind]. eexists. split; [reflexivity|constructor].
    - unfold g_next_elem in E. cbn [g_lf g_elems g_kids g_rt i_next_elem] in *. destruct lf; [discriminate|].
      cbn [negb assert_ bind] in *. injection E as <- <-.
      assert (Elf : (lk <? uk) = negb (is_nil k2)).
      { subst. destruct k2 as [|k k2]; cbn [is_nil negb length];
          [destruct (Nat.ltb_spec (length k1) (length k1 + 0))
          |destruct (Nat.ltb_spec (length k1) (length k1 + S (length k2)))]; auto; lia. }
      rewrite Elf. destruct e2 as [|e e2].
      + destruct (Nat.ltb_spec le ue); [cbn in Hue; lia|]. eexists. split; [reflexivity|].
        cbn [hd_error tl]. eapply irel_arc; eauto.
      + destruct (Nat.ltb_spec le ue); [|cbn in Hue; lia].
        rewrite He, (nth_mid3 e1 (e :: e2) e3 le _ e e2) by auto. cbn [unwrap bind hd_error tl].
        eexists. split; [reflexivity|]. apply (irel_arc n (e1 ++ [e]) e2 e3 k1 k2 k3); auto.
        * rewrite He, <- app_assoc. reflexivity.
        * rewrite app_length. cbn. lia.
        * cbn in Hue. lia.
  Qed.
  Lemma irel_kid a b c b' : irel a b -> g_next_kid b = Ok (c, b') ->
    exists ca a', i_next_kid unshared a = Ok (ca, a') /\ opt_rel crel ca c /\ irel a' b'.
  Proof.
    intros [g|n e1 e2 e3 k1 k2 k3 le ue lk uk lf rt He Hk Hle Hue Hlk Huk] E.
    - cbn [i_next_kid]. rewrite E. cbn [bind]. eexists _, _. split; [reflexivity|]. split; [|constructor].
      destruct c as [c|]; cbn; auto. unfold crel, try_unwrap. destruct (unshared c); auto.
    - unfold g_next_kid in E. cbn [g_lf g_elems g_kids g_rt i_next_kid] in *. destruct k2 as [|k k2].
      + cbn [is_nil orb assert_ bind] in *. injection E as <- <-. cbn in Huk.
        destruct (Nat.eqb_spec lk uk); [|lia]. rewrite orb_true_r. cbn [assert_ bind].
        destruct (Nat.ltb_spec lk uk); [lia|]. eexists _, _. split; [reflexivity|]. split; [exact I|].
        cbn [tl]. eapply irel_arc; eauto; cbn; lia.
      + cbn [is_nil orb] in E. destruct lf; [|discriminate]. cbn [orb assert_ bind] in *. injection E as <- <-.
        destruct (Nat.ltb_spec lk uk); [|cbn in Huk; lia].
        rewrite Hk, (nth_mid3 k1 (k :: k2) k3 lk _ k k2) by auto. cbn [unwrap bind hd_error tl].
        eexists _, _. split; [reflexivity|]. split; [now right|].
        apply (irel_arc n e1 e2 e3 (k1 ++ [k]) k2 k3); auto.
        * rewrite Hk, <- app_assoc. reflexivity.
        * rewrite app_length. cbn. lia.
        * cbn in Huk. lia.
  Qed.

  Lemma snoc_or {A} (l : list A) : {l = []} + {exists l' x, l = l' ++ [x]}.
  Proof. destruct l as [|a l]; [now left|right]. destruct (snoc_cases (a :: l)) as [X|X]; [discriminate|auto]. Qed.

  Lemma irel_back_elem a b x b' : irel a b -> g_next_back_elem b = Ok (x, b') ->
    exists a', i_next_back_elem a = Ok (x, a') /\ irel a' b'.
  Proof.
    intros [g|n e1 e2 e3 k1 k2 k3 le ue lk uk lf rt He Hk Hle Hue Hlk Huk] E.
    - cbn [i_next_back_elem]. rewrite E. cbn [bind]. eexists. split; [reflexivity|constructor].
    - unfold g_next_back_elem in E. cbn [g_lf g_elems g_kids g_rt i_next_back_elem] in *. destruct rt; [discriminate|].
      cbn [negb assert_ bind] in *. injection E as <- <-.
      assert (Elf : (lk <? uk) = negb (is_nil k2)).
      { subst. destruct k2 as [|k k2]; cbn [is_nil negb length];
          [destruct (Nat.ltb_spec (length k1) (length k1 + 0))
          |destruct (Nat.ltb_spec (length k1) (length k1 + S (length k2)))]; auto; lia. }
      rewrite Elf. destruct (snoc_or e2) as [->|X].
      + destruct (Nat.ltb_spec le ue); [cbn in Hue; lia|]. eexists. split; [reflexivity|].
        cbn [hd_error tl rev removelast]. eapply irel_arc; eauto.
      + destruct X as (e2' & e & ->). rewrite app_length in Hue. cbn in Hue.
        destruct (Nat.ltb_spec le ue); [|lia]. rewrite usize_sub_ok by lia. cbn [bind].
        assert (Hn : nth_error (elems_of n) (ue - 1) = Some e).
        { rewrite He, <- app_assoc, app_assoc. cbn [app]. apply nth_mid. rewrite app_length. lia. }
        rewrite Hn. cbn [unwrap bind]. rewrite rev_app_distr, removelast_last. cbn [rev app hd_error].
        eexists. split; [reflexivity|]. apply (irel_arc n e1 e2' (e :: e3) k1 k2 k3); auto.
        * rewrite He, <- app_assoc. reflexivity.
        * lia.
  Qed.
  Lemma irel_back_kid a b c b' : irel a b -> g_next_back_kid b = Ok (c, b') ->
    exists ca a', i_next_back_kid unshared a = Ok (ca, a') /\ opt_rel crel ca c /\ irel a' b'.
  Proof.
    intros [g|n e1 e2 e3 k1 k2 k3 le ue lk uk lf rt He Hk Hle Hue Hlk Huk] E.
    - cbn [i_next_back_kid]. rewrite E. cbn [bind]. eexists _, _. split; [reflexivity|]. split; [|constructor].
      destruct c as [c|]; cbn; auto. unfold crel, try_unwrap. destruct (unshared c); auto.
    - unfold g_next_back_kid in E. cbn [g_lf g_elems g_kids g_rt i_next_back_kid] in *.
      destruct (snoc_or k2) as [->|X].
      + cbn [is_nil orb assert_ bind] in *. injection E as <- <-. cbn in Huk.
        destruct (Nat.eqb_spec lk uk); [|lia]. rewrite orb_true_r. cbn [assert_ bind].
        destruct (Nat.ltb_spec lk uk); [lia|]. eexists _, _. split; [reflexivity|]. split; [exact I|].
        cbn [removelast]. eapply irel_arc; eauto; cbn; lia.
      + destruct X as (k2' & k & ->). rewrite app_length in Huk. cbn in Huk.
        assert (Hi : is_nil (k2' ++ [k]) = false) by now destruct k2'. rewrite Hi in E. cbn [orb] in E.
        destruct rt; [|discriminate]. cbn [orb assert_ bind] in *.
        rewrite rev_app_distr, removelast_last in E. cbn [rev app hd_error] in E. injection E as <- <-.
        destruct (Nat.ltb_spec lk uk); [|lia]. rewrite usize_sub_ok by lia. cbn [bind].
        assert (Hn : nth_error (kids_of n) (uk - 1) = Some k).
        { rewrite Hk, <- app_assoc, app_assoc. cbn [app]. apply nth_mid. rewrite app_length. lia. }
        rewrite Hn. cbn [unwrap bind]. eexists _, _. split; [reflexivity|]. split; [now right|].
        apply (irel_arc n e1 e2 e3 k1 k2' (k :: k3)); auto.
        * rewrite Hk, <- app_assoc. reflexivity.
        * lia.
  Qed.
  Lemma irel_make ca cb : crel ca cb -> irel (i_make ca) (g_make cb).
  Proof.
    intros [-> | ->]; destruct cb as [es ks]; cbn; [constructor|].
    apply (irel_arc (BN es ks) [] es [] [] ks []); cbn; rewrite ?app_nil_r; auto.
  Qed.

  Definition iter_rel (a : b_iter (into_node K V)) (b : b_iter erg) : Prop :=
    Forall2 irel (bi_work a) (bi_work b) /\ bi_len a = bi_len b.
  Lemma into_next a b x b' : iter_rel a b -> b_next borrowed b = Ok (x, b') ->
    exists a', b_next owning a = Ok (x, a') /\ iter_rel a' b'.
  Proof.
    intros [R L] E. unfold iter_rel.
    apply (next_sim owning borrowed irel crel irel_empty irel_lf irel_fuel irel_elem irel_kid irel_make a b x b' R L E).
  Qed.
  Lemma Forall2_rev' {A B} (R : A -> B -> Prop) l l' : Forall2 R l l' -> Forall2 R (rev l) (rev l').
  Proof. induction 1; cbn; auto. apply Forall2_app; auto. Qed.
  Lemma into_next_back a b x b' : iter_rel a b -> b_next_back borrowed b = Ok (x, b') ->
    exists a', b_next_back owning a = Ok (x, a') /\ iter_rel a' b'.
  Proof.
    intros [R L] E. rewrite next_back_eq in E. rewrite next_back_eq.
    destruct (b_next (swap borrowed) (BIter (rev (bi_work b)) (bi_len b))) as [[y c]|] eqn:E1; [|discriminate].
    cbn [bind] in E. injection E as <- <-.
    destruct (next_sim (swap owning) (swap borrowed) irel crel irel_empty irel_rt irel_fuel
                irel_back_elem irel_back_kid irel_make
                (BIter (rev (bi_work a)) (bi_len a)) (BIter (rev (bi_work b)) (bi_len b)) y c)
      as (a' & E' & R' & L'); auto.
    { cbn. now apply Forall2_rev'. }
    rewrite E'. cbn [bind]. eexists. split; [reflexivity|]. split; cbn; auto. now apply Forall2_rev'.
  Qed.

  Lemma into_run_ends cs a b l : iter_rel a b -> b_run_ends borrowed cs b = Ok l ->
    b_run_ends owning cs a = Ok l.
  Proof.
    revert a b l. induction cs as [|c cs IH]; intros a b l R E; cbn [b_run_ends] in *; auto.
    destruct c.
    - destruct (b_next borrowed b) as [[x b']|] eqn:E1; [|discriminate]. cbn [bind] in E.
      destruct (into_next a b x b' R E1) as (a' & E1' & R'). rewrite E1'. cbn [bind].
      destruct (b_run_ends borrowed cs b') as [l'|] eqn:E2; [|discriminate]. cbn [bind] in E.
      rewrite (IH a' b' l' R' E2). cbn [bind]. destruct R' as [_ ->]. exact E.
    - destruct (b_next_back borrowed b) as [[x b']|] eqn:E1; [|discriminate]. cbn [bind] in E.
      destruct (into_next_back a b x b' R E1) as (a' & E1' & R'). rewrite E1'. cbn [bind].
      destruct (b_run_ends borrowed cs b') as [l'|] eqn:E2; [|discriminate]. cbn [bind] in E.
      rewrite (IH a' b' l' R' E2). cbn [bind]. destruct R' as [_ ->]. exact E.
  Qed.
  Lemma into_items n a b l : iter_rel a b -> b_items borrowed n b = Ok l -> b_items owning n a = Ok l.
  Proof.
    revert a b l. induction n as [|n IH]; intros a b l R E; cbn [b_items] in *; [discriminate|].
    destruct (b_next borrowed b) as [[x b']|] eqn:E1; [|discriminate]. cbn [bind] in E.
    destruct (into_next a b x b' R E1) as (a' & E1' & R'). rewrite E1'. cbn [bind].
    destruct x as [x|]; auto.
    destruct (b_items borrowed n b') as [l'|] eqn:E2; [|discriminate]. cbn [bind] in E.
    rewrite (IH a' b' l' R' E2). exact E.
  Qed.
  Lemma into_start m : iter_rel (bt_into_iter unshared m) (bt_iter m).
  Proof.
    unfold bt_into_iter, bt_iter. destruct (bm_root m) as [t|]; split; cbn; auto.
    constructor; auto. apply irel_make. unfold crel, try_unwrap. destruct (unshared t); auto.
  Qed.
End Into.

(** ** Whole maps *)
Section MapIter.
  Context {K V Q : Type} (bor : K -> Q) (cmp : Q -> Q -> comparison) (laws : order_laws cmp).
  Context (N : nat) (HN : 1 <= N).
  Notation entry := (K * V)%type.
  Notation valid := (@valid K V Q bor cmp N).
  Notation bmap := (bt_map K V).
  Notation borrowed := (@borrowed K V).

  Lemma iter_start (m : bmap) : valid m ->
    Forall ok2 (bi_work (bt_iter m)) /\ dens (bi_work (bt_iter m)) = contents m
    /\ bi_len (bt_iter m) = length (contents m) /\ o_count (bm_root m) = length (contents m).
  Proof.
    intros (A & L & S). unfold bt_iter, contents, o_count in *. destruct (bm_root m) as [t|]; cbn.
    - destruct S as [h S]. apply shape_tidy in S; auto.
      pose proof (tidy_fwd t S) as F. destruct (make_ok t F) as (M1 & M2 & _).
      split; [constructor; auto; apply erg_ok2; auto; now apply make_bal|].
      unfold dens. cbn. rewrite app_nil_r. split; auto. split; auto. now apply fwd_count.
    - auto.
  Qed.

  Lemma iter_run (m : bmap) cs : valid m -> b_run_ends borrowed cs (bt_iter m) = Ok (s_ends cs (contents m)).
  Proof.
    intros Hv. destruct (iter_start m Hv) as (W & D & L & _). destruct (bt_iter m) as [w n]. cbn [bi_work bi_len] in *. subst n.
    rewrite <- D. destruct (run_ends_ok cs w (length (dens w))) as (l & E & _ & H); auto.
    rewrite E. f_equal. auto.
  Qed.
  Lemma into_run un (m : bmap) cs : valid m ->
    b_run_ends (owning un) cs (bt_into_iter un m) = Ok (s_ends cs (contents m)).
  Proof.
    intros Hv. eapply into_run_ends; [apply into_start|]. now apply iter_run.
  Qed.
  Lemma collect_ok (m : bmap) : valid m -> b_collect m = Ok (contents m).
  Proof.
    intros Hv. destruct (iter_start m Hv) as (W & D & L & C). unfold b_collect. rewrite C.
    destruct (bt_iter m) as [w n]. cbn [bi_work bi_len] in *. subst n. rewrite <- D. apply ok2s in W as [W _].
    rewrite items_ok; auto.
  Qed.
  Lemma into_list_ok un (m : bmap) : valid m -> b_into_list un m = Ok (contents m).
  Proof.
    intros Hv. unfold b_into_list. eapply into_items; [apply into_start|]. now apply collect_ok.
  Qed.

  (** *** Operations built on iteration *)
  Lemma append_ok un m other : valid m -> valid other ->
    exists m', b_append bor cmp N un m other = Ok (m', b_new) /\ valid m'
      /\ contents m' = s_union bor cmp (contents m) (contents other).
  Proof.
    intros Hm Ho. unfold b_append. rewrite into_list_ok by auto. cbn [bind].
    destruct (b_extend_ok bor cmp laws N HN m (contents other) Hm) as (m' & E & Hv & Hc).
    rewrite E. cbn [bind]. eauto.
  Qed.

  Lemma from_iter_ok ps : exists m', b_from_iter bor cmp N ps = Ok m' /\ valid m'
    /\ contents m' = s_extend bor cmp [] ps.
  Proof. apply (b_extend_ok bor cmp laws N HN b_new ps). apply valid_new. Qed.
  Lemma from_asc ps : ascending bor cmp ps -> exists m', b_from_iter bor cmp N ps = Ok m' /\ valid m'
    /\ contents m' = ps.
  Proof.
    intros A. destruct (from_iter_ok ps) as (m' & E & Hv & Hc). exists m'. split; auto. split; auto.
    rewrite Hc. apply (extend_asc_app bor cmp laws []). exact A.
  Qed.

  Lemma retain_list_spec {S} (f : S -> K -> V -> S * V * bool) ps : forall s,
    retain_list f s ps =
    (map (fun o => (fst (fst (fst o)), snd (fst o))) (filter (fun o => snd o) (fst (run_calls f s ps))),
     snd (run_calls f s ps)).
  Proof.
    induction ps as [|[k v] ps IH]; intros s; [reflexivity|]. cbn [retain_list run_calls].
    destruct (f s k v) as [[s1 v1] keep]. rewrite (IH s1). destruct (run_calls f s1 ps) as [outs s2].
    cbn [fst snd filter]. destruct keep; reflexivity.
  Qed.
  Lemma retain_keys {S} (f : S -> K -> V -> S * V * bool) ps : forall s,
    ascending bor cmp ps -> ascending bor cmp (fst (retain_list f s ps))
      /\ (forall e, In e (fst (retain_list f s ps)) -> exists e', In e' ps /\ fst e' = fst e).
  Proof.
    induction ps as [|[k v] ps IH]; intros s A; [split; [constructor|easy]|]. cbn [retain_list].
    apply (asc_cons_iff bor cmp) in A as [A H].
    destruct (f s k v) as [[s1 v1] keep]. destruct (IH s1 A) as [I1 I2].
    destruct (retain_list f s1 ps) as [rest s2]. cbn [fst] in *. destruct keep; cbn [fst].
    - split.
      + apply (asc_cons_iff bor cmp). split; auto. intros y Hy. destruct (I2 y Hy) as (e' & He & <-).
        cbn. apply (H e' He).
      + intros e [<-|He]; [exists (k, v); cbn; auto|]. destruct (I2 e He) as (e' & H1 & H2). exists e'. cbn. auto.
    - split; auto. intros e He. destruct (I2 e He) as (e' & H1 & H2). exists e'. cbn. auto.
  Qed.
  Lemma retain_ok {S} un (f : S -> K -> V -> S * V * bool) m s : valid m ->
    exists m', b_retain bor cmp N un f m s = Ok (m', snd (run_calls f s (contents m))) /\ valid m'
      /\ contents m' = map (fun o => (fst (fst (fst o)), snd (fst o)))
                           (filter (fun o => snd o) (fst (run_calls f s (contents m)))).
  Proof.
    intros Hv. unfold b_retain. rewrite into_list_ok by auto. cbn [bind].
    pose proof (retain_keys f (contents m) s (proj1 Hv)) as [A _]. rewrite (retain_list_spec f) in *. cbn [fst] in A.
    destruct (from_asc _ A) as (m' & E & Hv' & Hc). rewrite E. cbn [bind]. eauto.
  Qed.

  Lemma split_off_ok un m q : valid m ->
    exists a b, b_split_off bor cmp N un m q = Ok (a, b) /\ valid a /\ valid b
      /\ contents a = filter (lt_q bor cmp q) (contents m)
      /\ contents b = filter (fun e => negb (lt_q bor cmp q e)) (contents m).
  Proof.
    intros Hv. unfold b_split_off. rewrite into_list_ok by auto. cbn [bind].
    assert (Hlt : forall e : entry, match cmp q (bor (fst e)) with Gt => true | _ => false end = lt_q bor cmp q e).
    { intros e. unfold lt_q. rewrite (cmp_opp _ laws (bor (fst e)) q). now destruct (cmp (bor (fst e)) q). }
    rewrite (filter_ext _ _ Hlt).
    rewrite (filter_ext (fun e : entry => negb match cmp q (bor (fst e)) with Gt => true | _ => false end)
               (fun e => negb (lt_q bor cmp q e))) by (intros e; now rewrite Hlt).
    destruct (from_asc (filter (lt_q bor cmp q) (contents m))) as (a & Ea & Va & Ca).
    { apply asc_filter, Hv. }
    destruct (from_asc (filter (fun e => negb (lt_q bor cmp q e)) (contents m))) as (b & Eb & Vb & Cb).
    { apply asc_filter, Hv. }
    rewrite Ea. cbn [bind]. rewrite Eb. cbn [bind]. exists a, b. auto 8.
  Qed.

  (** *** Comparison *)
  Context (keq : K -> K -> bool) (veq : V -> V -> bool).
  Context (kcmp : K -> K -> comparison) (vcmp : V -> V -> comparison).
  Notation erg_ok := (@erg_ok K V).

  Fixpoint zip_all_list (l r : list entry) : bool :=
    match l, r with
    | (k1, v1) :: l', (k2, v2) :: r' => keq k1 k2 && veq v1 v2 && zip_all_list l' r'
    | _, _ => true
    end.
  Lemma zip_all_ok n wa la wb lb : Forall erg_ok wa -> Forall erg_ok wb ->
    length (dens wa) <= la -> length (dens wb) <= lb -> length (dens wa) < n ->
    b_zip_all keq veq n (BIter wa la) (BIter wb lb) = Ok (zip_all_list (dens wa) (dens wb)).
  Proof.
    revert wa la wb lb. induction n as [|n IH]; intros wa la wb lb Ha Hb La Lb Hn; [lia|]. cbn [b_zip_all].
    destruct (next_ok wa la Ha) as (wa' & E & Ha' & Hd & _); [destruct (dens wa); [easy|cbn in La; lia]|].
    rewrite E. cbn [bind]. destruct (dens wa) as [|[k1 v1] l]; [reflexivity|]. cbn [hd_error tl length] in *.
    destruct (next_ok wb lb Hb) as (wb' & E' & Hb' & Hd' & _); [destruct (dens wb); [easy|cbn in Lb; lia]|].
    rewrite E'. cbn [bind]. destruct (dens wb) as [|[k2 v2] r]; [reflexivity|]. cbn [hd_error tl length] in *.
    cbn [zip_all_list]. destruct (keq k1 k2 && veq v1 v2); [|reflexivity]. cbn [andb].
    rewrite IH; rewrite ?Hd, ?Hd'; auto; lia.
  Qed.
  Lemma zip_all_seq l r : length l = length r -> zip_all_list l r = seq_eqb keq veq l r.
  Proof.
    revert r. induction l as [|[k1 v1] l IH]; intros [|[k2 v2] r] H; try discriminate; [reflexivity|].
    cbn. rewrite IH by (cbn in H; lia). reflexivity.
  Qed.
  Lemma seq_eqb_len l r : length l <> length r -> seq_eqb keq veq l r = false.
  Proof.
    revert r. induction l as [|[k1 v1] l IH]; intros [|[k2 v2] r] H; cbn in *; try congruence.
    rewrite IH by lia. apply andb_false_r.
  Qed.
  Lemma eq_ok a b : valid a -> valid b -> b_eq keq veq a b = Ok (seq_eqb keq veq (contents a) (contents b)).
  Proof.
    intros Ha Hb. unfold b_eq, b_len.
    destruct (iter_start a Ha) as (Wa & Da & La & Ca). destruct (iter_start b Hb) as (Wb & Db & Lb & Cb).
    pose proof (proj1 (proj2 Ha)) as Na. pose proof (proj1 (proj2 Hb)) as Nb.
    destruct (Nat.eqb_spec (bm_len a) (bm_len b)).
    - rewrite Ca. destruct (bt_iter a) as [wa na], (bt_iter b) as [wb nb]. cbn [bi_work bi_len] in *. subst na nb.
      apply ok2s in Wa as [Wa _]. apply ok2s in Wb as [Wb _].
      rewrite zip_all_ok; rewrite ?Da, ?Db; auto. now rewrite zip_all_seq by congruence.
    - rewrite seq_eqb_len by congruence. reflexivity.
  Qed.

  Lemma iter_cmp_ok n wa la wb lb : Forall erg_ok wa -> Forall erg_ok wb ->
    length (dens wa) <= la -> length (dens wb) <= lb -> length (dens wa) < n ->
    b_iter_cmp kcmp vcmp n (BIter wa la) (BIter wb lb) = Ok (seq_cmp kcmp vcmp (dens wa) (dens wb)).
  Proof.
    revert wa la wb lb. induction n as [|n IH]; intros wa la wb lb Ha Hb La Lb Hn; [lia|]. cbn [b_iter_cmp].
    destruct (next_ok wa la Ha) as (wa' & E & Ha' & Hd & _); [destruct (dens wa); [easy|cbn in La; lia]|].
    destruct (next_ok wb lb Hb) as (wb' & E' & Hb' & Hd' & _); [destruct (dens wb); [easy|cbn in Lb; lia]|].
    rewrite E. cbn [bind]. destruct (dens wa) as [|[k1 v1] l]; cbn [hd_error tl length] in *.
    - rewrite E'. cbn [bind]. destruct (dens wb); reflexivity.
    - rewrite E'. cbn [bind]. destruct (dens wb) as [|[k2 v2] r]; [reflexivity|]. cbn [hd_error tl length seq_cmp] in *.
      unfold b_pair_cmp. cbn [fst snd]. destruct (kcmp k1 k2); auto. destruct (vcmp v1 v2); auto.
      rewrite IH; rewrite ?Hd, ?Hd'; auto; lia.
  Qed.
  Lemma cmp_ok a b : valid a -> valid b -> b_cmp kcmp vcmp a b = Ok (seq_cmp kcmp vcmp (contents a) (contents b)).
  Proof.
    intros Ha Hb. unfold b_cmp.
    destruct (iter_start a Ha) as (Wa & Da & La & Ca). destruct (iter_start b Hb) as (Wb & Db & Lb & Cb).
    rewrite Ca. destruct (bt_iter a) as [wa na], (bt_iter b) as [wb nb]. cbn [bi_work bi_len] in *. subst na nb.
    apply ok2s in Wa as [Wa _]. apply ok2s in Wb as [Wb _].
    rewrite iter_cmp_ok; rewrite ?Da, ?Db; auto.
  Qed.
End MapIter.
