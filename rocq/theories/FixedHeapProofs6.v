(** Removal on arrays follows removal on lists. *)
From Coq Require Import List PeanoNat Bool Lia.
From Verif Require Import Base Spec Vec Heap HeapProofs BTreeModel BTreeProofs BTreeHeapModel
  FixedModel FixedProofs FixedProofs2 FixedProofs3 FixedHeapModel FixedHeapProofs FixedHeapProofs2 FixedHeapProofs5.
Import ListNotations.
Local Open Scope nat_scope.

Section Sim.
  Context {K V Q : Type} (bor : K -> Q) (cmp : Q -> Q -> comparison) (small_key : bool).
  Variable bomb : nat -> bool.
  Notation elems := (elems K V).
  Notation okids := (option (kids addr)).
  Notation cell := (elems * okids)%type.
  Notation fheap := (heap cell).
  Notation pay := (list (K * V)).
  Notation er := (@er K V).
  Notation good := (@good K V).
  Notation crel := (@crel K V).
  Notation entry := (K * V)%type.
  Notation N := MIN_OCCUPANCY.
  Implicit Types (e : elems) (d : okids) (es : pay) (ks : list addr) (h : fheap).

  Ltac open_ E h1 G1 a1 es1 ks1 e1 d1 Cr :=
    let E0 := fresh "E" in let r := fresh "r" in let r' := fresh "r'" in let Or := fresh "Or" in
    match type of E with bind (opn _ (er ?h) ?a) _ = Ok _ =>
      destruct (opn bomb (er h) a) as [[? r]|] eqn:E0; cbn [bind] in E; [|discriminate E];
      match goal with G : good h |- _ => destruct (fopn_sim bomb _ _ _ _ G E0) as (h1 & r' & -> & <- & G1 & Or) end;
      cbn [bind]; destruct r as [[[a1 es1] ks1]|], r' as [[[? e1] d1]|]; cbn [orel] in Or; try contradiction;
      [destruct Or as [-> Cr]|]
    end.

  Lemma rot_lf_sim h e d es ks idx g es' ks' o : good h -> crel e d es ks ->
    g_rot_lf bomb (er h) es ks idx = Ok (g, es', ks', o) ->
    exists h' e' d', fh_rot_lf bomb h e d idx = Ok (h', e', d', o) /\ er h' = g /\ good h' /\ crel e' d' es' ks'.
  Proof.
    intros G Cr E. unfold g_rot_lf in E. unfold fh_rot_lf. rewrite (crel_some _ _ _ _ Cr).
    inv_bind E. cbn [bind]. rewrite (crel_child _ _ _ _ _ Cr). cbn [bind].
    inv_bind E. rename a into r. destruct (nth_error ks (idx + 1)) as [r0|] eqn:Er; [|discriminate]. injection E1 as ->.
    cbn [unwrap bind]. inv_bind E. rename a into res0. destruct (fpeek_sim _ _ _ G E1) as (re0 & _ & _ & _ & -> & (_ & _ & Hl) & _).
    cbn [bind]. inv_bind E. rewrite Hl. change (MIN_OCC N) with MIN_OCCUPANCY in E2. rewrite E2. cbn [bind].
    open_ E h1 G1 r' r_es r_ks re rd Cr1.
    2:{ injection E as <- <- <- <-. eexists _, _, _. split; [reflexivity|]. auto. }
    inv_bind E. destruct a as [kv2 r_es']. destruct (remove_sim _ _ _ _ _ (proj1 Cr1) E4) as (re' & -> & Hre'). cbn [bind].
    inv_bind E. destruct a as [kid r_ks']. inv_bind E. apply assert_true in E6.
    destruct (first_kid_sim _ _ _ _ _ _ _ _ Cr1 Hre' E5 E6) as (rd' & -> & Cr1'). cbn [bind].
    destruct (fcls_sim h1 r' _ _ _ _ G1 Cr1') as (h2 & -> & E2h & G2). cbn [bind]. cbv zeta in E. rewrite <- E2h in E.
    inv_bind E. rename a into kv1. destruct (nth_error es idx) as [kv1'|] eqn:En; [|discriminate]. injection E7 as ->.
    destruct (replace_sim e es idx kv1 kv2 (proj1 Cr) En) as (e1 & -> & He1). cbn [bind].
    pose proof (crel_put _ _ _ _ (idx + 1) r' r Cr Er) as Cr2. rewrite (crel_child _ _ _ _ _ Cr2). cbn [bind].
    inv_bind E. rename a into l. destruct (nth_error (set_at (idx + 1) r' ks) idx) as [l0|] eqn:El; [|discriminate]. injection E7 as ->.
    cbn [unwrap bind]. inv_bind E. rename a into les0. destruct (fpeek_sim _ _ _ G2 E7) as (le0 & _ & _ & _ & -> & (_ & _ & Hll) & _).
    cbn [bind]. inv_bind E. rewrite Hll. change (MIN_OCC N) with MIN_OCCUPANCY in E8. rewrite E8. cbn [bind].
    pose proof (crel_kids _ _ _ _ _ _ Cr2 He1) as Cr3.
    open_ E h3 G3 l' l_es l_ks lfe ld Cr4.
    2:{ inv_bind E. injection E as <- <- <- <-. destruct (drop_sim _ _ _ G3 E10) as (h4 & -> & <- & G4). cbn [bind].
        eexists _, _, _. split; [reflexivity|]. auto. }
    inv_bind E. inv_bind E. inv_bind E. apply assert_true in E10, E11, E12. apply Nat.ltb_lt in E10, E12. injection E as <- <- <- <-.
    destruct (el_push_ok _ _ kv1 (proj1 Cr4) E10) as (lfe' & -> & Hle'). cbn [bind].
    assert (X : exists ld', match kid with Some x => b <- unwrap ld;; b' <- kd_push b x;; Ok (Some b') | None => Ok ld end = Ok ld'
      /\ crel lfe' ld' (l_es ++ [kv1]) (l_ks ++ olist kid)).
    { destruct Cr4 as [_ Hd]. destruct kid as [x|].
      - destruct ld as [b|]; [|subst; discriminate]. destruct Hd as [Hn Hb]. cbn [unwrap bind].
        destruct (kd_push_ok b _ x Hb E12) as (b' & -> & Hb'). cbn [bind]. eexists. split; [reflexivity|].
        split; auto. split; auto. now destruct l_ks.
      - cbn [olist]. rewrite app_nil_r. eexists. split; [reflexivity|]. split; auto. }
    destruct X as (ld' & -> & Cr5). cbn [bind].
    destruct (fcls_sim h3 l' _ _ _ _ G3 Cr5) as (h4 & -> & <- & G4). cbn [bind].
    eexists _, _, _. split; [reflexivity|]. split; auto. split; auto. eapply crel_put; eauto.
  Qed.

  Lemma rot_rt_sim h e d es ks idx g es' ks' o : good h -> crel e d es ks ->
    g_rot_rt bomb (er h) es ks idx = Ok (g, es', ks', o) ->
    exists h' e' d', fh_rot_rt bomb h e d idx = Ok (h', e', d', o) /\ er h' = g /\ good h' /\ crel e' d' es' ks'.
  Proof.
    intros G Cr E. unfold g_rot_rt in E. unfold fh_rot_rt. rewrite (crel_some _ _ _ _ Cr).
    inv_bind E. cbn [bind]. rewrite (crel_child _ _ _ _ _ Cr). cbn [bind].
    inv_bind E. rename a into l. destruct (nth_error ks idx) as [l0|] eqn:El; [|discriminate]. injection E1 as ->.
    cbn [unwrap bind]. inv_bind E. rename a into les0. destruct (fpeek_sim _ _ _ G E1) as (le0 & _ & _ & _ & -> & (_ & _ & Hl) & _).
    cbn [bind]. inv_bind E. rewrite Hl. change (MIN_OCC N) with MIN_OCCUPANCY in E2. rewrite E2. cbn [bind].
    open_ E h1 G1 l' l_es l_ks lfe ld Cr1.
    2:{ injection E as <- <- <- <-. eexists _, _, _. split; [reflexivity|]. auto. }
    inv_bind E. destruct a as [kv0 l_es']. destruct (vec_pop l_es) as [p|] eqn:Ep; [|discriminate]. injection E4 as ->.
    destruct (pop_sim _ _ _ _ (proj1 Cr1) Ep) as (lfe' & -> & Hle'). cbn [bind].
    destruct (match vec_pop l_ks with Some (x, l_ks') => (Some x, l_ks') | None => (None, l_ks) end) as [kid l_ks'] eqn:E5.
    inv_bind E. apply assert_true in E4.
    destruct (last_kid_sim _ _ _ _ _ _ _ _ Cr1 Hle' E5 E4) as (ld' & -> & Cr1'). cbn [bind].
    destruct (fcls_sim h1 l' _ _ _ _ G1 Cr1') as (h2 & -> & E2h & G2). cbn [bind]. cbv zeta in E. rewrite <- E2h in E.
    inv_bind E. rename a into kv1. destruct (nth_error es idx) as [kv1'|] eqn:En; [|discriminate]. injection E6 as ->.
    destruct (replace_sim e es idx kv1 kv0 (proj1 Cr) En) as (e1 & -> & He1). cbn [bind].
    pose proof (crel_put _ _ _ _ idx l' l Cr El) as Cr2. rewrite (crel_child _ _ _ _ _ Cr2). cbn [bind].
    inv_bind E. rename a into r. destruct (nth_error (set_at idx l' ks) (idx + 1)) as [r0|] eqn:Er; [|discriminate]. injection E6 as ->.
    cbn [unwrap bind].
    pose proof (crel_kids _ _ _ _ _ _ Cr2 He1) as Cr3.
    open_ E h3 G3 r' r_es r_ks re rd Cr4.
    2:{ inv_bind E. injection E as <- <- <- <-. destruct (drop_sim _ _ _ G3 E7) as (h4 & -> & <- & G4). cbn [bind].
        eexists _, _, _. split; [reflexivity|]. auto. }
    inv_bind E. inv_bind E. inv_bind E. apply assert_true in E7, E8, E9. apply Nat.ltb_lt in E7, E9.
    change (vec_insert 0 kv1 r_es) with (Ok (kv1 :: r_es)) in E. cbn [bind] in E.
    destruct (el_insert_ok re [] r_es kv1 0 (proj1 Cr4) E7 eq_refl) as (re' & -> & Hre'). cbn [bind app] in *.
    inv_bind E. rename a into r_ks'. injection E as <- <- <- <-.
    assert (X : exists rd', match kid with Some x => b <- unwrap rd;; b' <- kd_insert b 0 x;; Ok (Some b') | None => Ok rd end = Ok rd'
      /\ crel re' rd' (kv1 :: r_es) r_ks').
    { destruct Cr4 as [_ Hd]. destruct kid as [x|].
      - destruct rd as [b|]; [|subst; discriminate]. destruct Hd as [Hn Hb]. cbn [unwrap bind].
        change (vec_insert 0 x r_ks) with (Ok (x :: r_ks)) in E10. injection E10 as <-.
        destruct (kd_insert_ok b [] r_ks x 0 Hb E9 eq_refl) as (b' & -> & Hb'). cbn [bind app] in *. eexists. split; [reflexivity|].
        split; auto. split; auto. discriminate.
      - injection E10 as <-. eexists. split; [reflexivity|]. split; auto. }
    destruct X as (rd' & -> & Cr5). cbn [bind].
    destruct (fcls_sim h3 r' _ _ _ _ G3 Cr5) as (h4 & -> & <- & G4). cbn [bind].
    eexists _, _, _. split; [reflexivity|]. split; auto. split; auto. eapply crel_put; eauto.
  Qed.

  Lemma merge_sim h e d es ks at_ g es' ks' o : good h -> crel e d es ks ->
    g_merge bomb (er h) es ks at_ = Ok (g, es', ks', o) ->
    exists h' e' d', fh_merge_kids bomb h e d at_ = Ok (h', e', d', o) /\ er h' = g /\ good h' /\ crel e' d' es' ks'.
  Proof.
    intros G [He Hd] E. unfold g_merge in E. unfold fh_merge_kids.
    inv_bind E. destruct a as [r ks1]. apply vec_remove_cut in E0 as (x1 & x2 & -> & -> & E0).
    destruct d as [b|]; [|now destruct x1]. destruct Hd as [_ Hb]. cbn [unwrap bind].
    destruct (kd_remove_ok b x1 x2 r (at_ + 1) Hb (eq_sym E0)) as (b1 & -> & Hb1). cbn [bind].
    inv_bind E. apply assert_true in E1. set (ks1 := x1 ++ x2) in *.
    assert (Hn1 : ks1 <> []) by (intros X; rewrite X in E1; discriminate).
    destruct (own bomb (er h) r) as [[g1 ow]|] eqn:Eo; cbn [bind] in E; [|discriminate].
    destruct (fown_sim bomb _ _ _ _ G Eo) as (h1 & ow' & -> & <- & G1 & Wr). cbn [bind].
    destruct ow as [[r_es r_ks]|], ow' as [[re rd]|]; cbn [owrel] in Wr; try contradiction.
    2:{ injection E as <- <- <- <-. eexists _, _, _. split; [reflexivity|]. split; auto. split; auto. split; auto. }
    inv_bind E. destruct a as [mid es1]. destruct (remove_sim _ _ _ _ _ He E2) as (e1 & -> & He1). cbn [bind].
    rewrite (kd_live b1 ks1 Hb1 Hn1). cbn [bind].
    inv_bind E. destruct (nth_error ks1 at_) as [l|] eqn:El; [|discriminate]. injection E3 as <-. cbn [unwrap bind].
    assert (Cr1 : crel e1 (Some b1) es1 ks1) by (split; auto; split; auto).
    open_ E h2 G2 l' l_es l_ks lfe ld Crl.
    2:{ inv_bind E. injection E as <- <- <- <-. rewrite (kid_ptrs_is _ _ _ _ Wr). cbn [bind].
        destruct (drops_sim _ _ _ G2 E4) as (h3 & -> & <- & G3). cbn [bind]. eexists _, _, _. split; [reflexivity|]. auto. }
    inv_bind E. inv_bind E. inv_bind E. inv_bind E. apply assert_true in E4, E5, E6, E7. apply Nat.leb_le in E4, E7.
    injection E as <- <- <- <-. destruct Crl as [Hle Hld], Wr as [Hre Hrd].
    destruct (el_push_ok lfe l_es mid Hle) as (le1 & -> & Hle1); [lia|]. cbn [bind].
    destruct (el_live le1 _ Hle1) as [-> ->]; [now destruct l_es|].
    destruct (el_live re _ Hre) as [-> ->]; [now intros ->|]. cbn [bind].
    assert (Hm : exists kk vs, slot_copy (el_keys re) 0 (el_keys le1) (el_len le1) (el_len re) = Ok kk
      /\ slot_copy (el_vals re) 0 (el_vals le1) (el_len le1) (el_len re) = Ok vs
      /\ elems_are (Elems kk vs (el_len le1 + el_len re)) (l_es ++ mid :: r_es)).
    { destruct Hle1 as (Hk1 & Hv1 & ->), Hre as (Hk2 & Hv2 & ->).
      destruct (copy_ok MAX_OCCUPANCY MAX_OCCUPANCY (el_keys re) [] (map fst r_es) [] (el_keys le1) (map fst (l_es ++ [mid])) []
        0 (length (l_es ++ [mid])) (length r_es)) as (kk & Ek & Hk);
        rewrite ?app_nil_r, ?map_length; auto; [rewrite ?app_length in *; cbn [length app] in *; lia|].
      destruct (copy_ok MAX_OCCUPANCY MAX_OCCUPANCY (el_vals re) [] (map snd r_es) [] (el_vals le1) (map snd (l_es ++ [mid])) []
        0 (length (l_es ++ [mid])) (length r_es)) as (vs & Ev & Hv);
        rewrite ?app_nil_r, ?map_length; auto; [rewrite ?app_length in *; cbn [length app] in *; lia|].
      exists kk, vs. split; auto. split; auto. change (mid :: r_es) with ([mid] ++ r_es). rewrite app_assoc.
      split; [|split]; cbn [el_keys el_vals el_len]; rewrite ?map_app in *; auto.
      now rewrite !app_length. }
    destruct Hm as (kk & vs & -> & -> & Hle2). cbn [bind].
    pose proof (elems_len _ _ Hle2) as Ll2. pose proof (proj2 (proj2 Hle2)) as El2. cbn [el_len] in *.
    destruct (Nat.leb_spec (el_len le1 + el_len re) MAX_OCCUPANCY); [|lia]. cbn [assert_ bind].
    assert (X : exists ld2 rd2, match ld with
             | Some lk =>
               rk <- unwrap rd;;
               ps <- slot_copy (kd_ptrs rk) 0 (kd_ptrs lk) (kd_len lk) (kd_len rk);;
               _ <- assert_ (kd_len lk + kd_len rk <=? MAX_KIDS);;
               Ok (Some (Kids ps (kd_len lk + kd_len rk)), Some (Kids (kd_ptrs rk) 0))
             | None => Ok (None, rd)
             end = Ok (ld2, rd2) /\ crel (Elems kk vs (el_len le1 + el_len re)) ld2 (l_es ++ mid :: r_es) (l_ks ++ r_ks)
             /\ kid_ptrs rd2 = Ok []).
    { destruct ld as [bl|].
      - destruct Hld as [Hnl [Hbl Ebl]]. destruct rd as [br|]; [|subst r_ks; destruct l_ks; [congruence|discriminate]].
        destruct Hrd as [Hnr [Hbr Ebr]]. cbn [unwrap bind].
        destruct (copy_ok MAX_KIDS MAX_KIDS (kd_ptrs br) [] r_ks [] (kd_ptrs bl) l_ks [] 0 (kd_len bl) (kd_len br))
          as (ps & -> & Hps); rewrite ?app_nil_r; auto. cbn [bind].
        rewrite Ebl, Ebr. destruct (Nat.leb_spec (length l_ks + length r_ks) MAX_KIDS); [|lia].
        cbn [assert_ bind]. eexists _, _. split; [reflexivity|]. split; [|reflexivity].
        split; auto. split; [now destruct l_ks|]. split; auto. cbn. now rewrite app_length.
      - subst l_ks. destruct rd as [br|]; [destruct Hrd; destruct r_ks; [congruence|discriminate]|]. subst r_ks.
        eexists _, _. split; [reflexivity|]. split; [|reflexivity]. split; auto. }
    destruct X as (ld2 & rd2 & -> & Cr2 & Ep). cbn [bind].
    destruct (fcls_sim h2 l' _ _ _ _ G2 Cr2) as (h3 & -> & <- & G3). cbn [bind].
    change (el_clear (Elems (el_keys re) (el_vals re) 0)) with (Ok ([] : pay, Elems (el_keys re) (el_vals re) 0)).
    cbn [bind is_nil assert_]. rewrite Ep. cbn [bind].
    eexists _, _, _. split; [reflexivity|]. split; auto. split; auto. eapply crel_put; eauto.
  Qed.

  Lemma rebal_sim h e d es ks at_ g es' ks' o : good h -> crel e d es ks ->
    g_rebal bomb (er h) es ks at_ = Ok (g, es', ks', o) ->
    exists h' e' d', fh_rebal bomb h e d at_ = Ok (h', e', d', o) /\ er h' = g /\ good h' /\ crel e' d' es' ks'.
  Proof.
    intros G Cr E. unfold g_rebal in E. unfold fh_rebal. rewrite (crel_some _ _ _ _ Cr).
    inv_bind E. cbn [bind]. rewrite !(crel_child _ _ _ _ _ Cr). cbn [bind].
    inv_bind E. destruct (nth_error ks at_) as [c|] eqn:Ec; [|discriminate]. injection E1 as <-. cbn [unwrap bind].
    inv_bind E. rename a into c_es. destruct (fpeek_sim _ _ _ G E1) as (ce & _ & _ & _ & -> & (_ & _ & Hl) & _). cbn [bind].
    inv_bind E. rewrite Hl, E2. cbn [bind]. cbv zeta in *. change (MAX_OCC N - MIN_OCC N) with (MAX_OCCUPANCY - MIN_OCCUPANCY) in E.
    inv_bind E. destruct a as [[[g1 es1] ks1] o1]. injection E as <- <- <- <-.
    match goal with |- exists _ _ _, (bind ?m _) = _ /\ _ =>
      assert (X : exists h' e' d', m = Ok (h', e', d', o1) /\ er h' = g1 /\ good h' /\ crel e' d' es1 ks1) end.
    { destruct (0 <? at_).
      - inv_bind E3. destruct (nth_error ks (at_ - 1)) as [s|] eqn:Es; [|discriminate]. injection E as <-. cbn [unwrap bind].
        inv_bind E3. destruct (fpeek_sim _ _ _ G E) as (se & _ & _ & _ & -> & (_ & _ & Hs) & _). cbn [bind]. rewrite Hs.
        destruct (_ <? _); [eapply rot_rt_sim; eauto|eapply merge_sim; eauto].
      - inv_bind E3. destruct (nth_error ks (at_ + 1)) as [s|] eqn:Es; [|discriminate]. injection E as <-. cbn [unwrap bind].
        inv_bind E3. destruct (fpeek_sim _ _ _ G E) as (se & _ & _ & _ & -> & (_ & _ & Hs) & _). cbn [bind]. rewrite Hs.
        destruct (_ <? _); [eapply rot_lf_sim; eauto|eapply merge_sim; eauto]. }
    destruct X as (h' & e' & d' & -> & <- & G' & Cr'). cbn [bind]. eexists _, _, _. split; [now rewrite (crel_len _ _ _ _ Cr')|].
    auto.
  Qed.

  Lemma rebal_cls_sim {B} (ret : bool -> B) h a e d es ks at_ kv g a' o : good h -> crel e d es ks ->
    g_rebal_cls bomb (er h) a es ks at_ kv = Ok (g, a', o) ->
    exists h' o', fh_rebal_cls bomb h a e d at_ ret = Ok (h', a', o') /\ er h' = g /\ good h'
      /\ match o, o' with
         | Done (Some (kv', u)), Done x => kv' = kv /\ x = ret u
         | Unwound, Unwound => True
         | _, _ => False
         end.
  Proof.
    intros G Cr E. unfold g_rebal_cls in E. unfold fh_rebal_cls. inv_bind E. destruct a0 as [[[g1 es1] ks1] o1].
    destruct (rebal_sim _ _ _ _ _ _ _ _ _ _ G Cr E0) as (h1 & e1 & d1 & -> & <- & G1 & Cr1). cbn [bind]. injection E as <- <- <-.
    destruct (fcls_sim h1 a _ _ _ _ G1 Cr1) as (h2 & -> & <- & G2). cbn [bind]. eexists _, _. split; [reflexivity|].
    split; auto. split; auto. destruct o1; auto.
  Qed.

  Theorem pop_greatest_sim : forall fuel h a g a' o, good h ->
    g_pop_last bomb fuel (er h) a = Ok (g, a', o) ->
    exists h' o', fh_pop_greatest bomb fuel h a = Ok (h', a', o') /\ er h' = g /\ good h'
      /\ o = match o' with Done x => Done (Some x) | Unwound => Unwound end.
  Proof.
    induction fuel as [|fuel IH]; intros h a g a' o G E; [discriminate|]. cbn [g_pop_last fh_pop_greatest] in *.
    open_ E h1 G1 a1 es ks e d Cr.
    2:{ injection E as <- <- <-. eexists _, _. split; [reflexivity|]. auto. }
    destruct (last_sim _ _ _ _ Cr) as [-> Ei]. cbn [bind]. destruct (last_opt ks) as [c|] eqn:Ec.
    - inv_bind E. destruct a0 as [[g2 c'] o1]. destruct (IH _ _ _ _ _ G1 E1) as (h2 & o' & -> & <- & G2 & ->). cbn [bind].
      rewrite Ei. pose proof (crel_put _ _ _ _ (length ks - 1) c' c Cr Ec) as Cr2.
      destruct o' as [[kv [|]]|].
      + rewrite (crel_len _ _ _ _ Cr).
        destruct (rebal_cls_sim (fun u => (kv, u)) _ _ _ _ _ _ _ _ _ _ _ G2 Cr2 E) as (h3 & o2 & -> & <- & G3 & Or).
        eexists _, _. split; [reflexivity|]. split; auto. split; auto.
        destruct o as [[[kv' u]|]|], o2 as [x|]; try contradiction; auto. destruct Or as [-> ->]. auto.
      + injection E as <- <- <-. destruct (fcls_sim h2 a1 _ _ _ _ G2 Cr2) as (h3 & -> & <- & G3). cbn [bind].
        eexists _, _. split; [reflexivity|]. auto.
      + injection E as <- <- <-. destruct (fcls_sim h2 a1 _ _ _ _ G2 Cr2) as (h3 & -> & <- & G3). cbn [bind].
        eexists _, _. split; [reflexivity|]. auto.
    - inv_bind E. destruct a0 as [kv es']. destruct (vec_pop es) as [p|] eqn:Ep; [|discriminate]. injection E1 as ->.
      injection E as <- <- <-. destruct (pop_sim _ _ _ _ (proj1 Cr) Ep) as (e' & -> & He'). cbn [bind].
      destruct (fcls_sim h1 a1 _ _ _ _ G1 (crel_kids _ _ _ _ _ _ Cr He')) as (h2 & -> & <- & G2). cbn [bind].
      eexists _, _. split; [reflexivity|]. split; auto. split; auto. now rewrite (proj2 (proj2 He')).
  Qed.

  Theorem remove_node_sim q : forall fuel h a g a' o, good h ->
    g_remove bor cmp small_key bomb fuel (er h) a q = Ok (g, a', o) ->
    exists h', fh_remove_node bor cmp small_key bomb fuel h a q = Ok (h', a', o) /\ er h' = g /\ good h'.
  Proof.
    induction fuel as [|fuel IH]; intros h a g a' o G E; [discriminate|]. cbn [g_remove fh_remove_node] in *.
    open_ E h1 G1 a1 es ks e d Cr.
    2:{ injection E as <- <- <-. eauto. }
    inv_bind E. rewrite (search_sim bor cmp small_key _ _ _ _ (proj1 Cr) E1). cbn [bind]. destruct a0 as [i|i].
    - rewrite (crel_some _ _ _ _ Cr). destruct (is_nil ks) eqn:Ek; cbn [negb].
      + inv_bind E. destruct a0 as [kv es']. injection E as <- <- <-.
        destruct (remove_sim _ _ _ _ _ (proj1 Cr) E2) as (e' & -> & He'). cbn [bind].
        destruct (fcls_sim h1 a1 _ _ _ _ G1 (crel_kids _ _ _ _ _ _ Cr He')) as (h2 & -> & <- & G2). cbn [bind].
        eexists. split; [now rewrite (proj2 (proj2 He'))|]. auto.
      + rewrite (crel_child _ _ _ _ _ Cr). cbn [bind].
        inv_bind E. destruct (nth_error ks i) as [c|] eqn:Ec; [|discriminate]. injection E2 as <-. cbn [unwrap bind].
        inv_bind E. destruct a0 as [[g2 c'] o1]. destruct (pop_greatest_sim _ _ _ _ _ _ G1 E2) as (h2 & o' & -> & <- & G2 & ->).
        cbn [bind]. pose proof (crel_put _ _ _ _ i c' c Cr Ec) as Cr2. destruct o' as [[kv under]|].
        * cbn [unwrap bind] in E. inv_bind E. destruct (nth_error es i) as [old|] eqn:En; [|discriminate]. injection E3 as <-.
          destruct (replace_sim e es i old kv (proj1 Cr) En) as (e1 & -> & He1). cbn [bind].
          pose proof (crel_kids _ _ _ _ _ _ Cr2 He1) as Cr3. cbv zeta in E. destruct under.
          -- destruct (rebal_cls_sim (fun u => Some (old, u)) _ _ _ _ _ _ _ _ _ _ _ G2 Cr3 E) as (h3 & o2 & -> & <- & G3 & Or).
             destruct o as [[[kv' u]|]|], o2 as [x|]; try contradiction; [destruct Or as [-> ->]|]; eauto.
          -- injection E as <- <- <-. destruct (fcls_sim h2 a1 _ _ _ _ G2 Cr3) as (h3 & -> & <- & G3). cbn [bind]. eauto.
        * injection E as <- <- <-. destruct (fcls_sim h2 a1 _ _ _ _ G2 Cr2) as (h3 & -> & <- & G3). cbn [bind]. eauto.
    - rewrite (crel_child _ _ _ _ _ Cr). cbn [bind]. destruct (nth_error ks i) as [c|] eqn:Ec.
      + inv_bind E. destruct a0 as [[g2 c'] o1]. destruct (IH _ _ _ _ _ G1 E2) as (h2 & -> & <- & G2). cbn [bind].
        pose proof (crel_put _ _ _ _ i c' c Cr Ec) as Cr2. cbv zeta in E.
        destruct o1 as [[[kv [|]]|]|];
          try (injection E as <- <- <-; destruct (fcls_sim h2 a1 _ _ _ _ G2 Cr2) as (h3 & -> & <- & G3); cbn [bind]; eauto; fail).
        destruct (rebal_cls_sim (fun u => Some (kv, u)) _ _ _ _ _ _ _ _ _ _ _ G2 Cr2 E) as (h3 & o2 & -> & <- & G3 & Or).
        destruct o as [[[kv' u]|]|], o2 as [x|]; try contradiction; [destruct Or as [-> ->]|]; eauto.
      + injection E as <- <- <-. destruct (fcls_sim h1 a1 _ _ _ _ G1 Cr) as (h2 & -> & <- & G2). cbn [bind]. eauto.
  Qed.
End Sim.
