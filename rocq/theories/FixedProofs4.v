(** The calls of the array-based B-tree map. *)
From Coq Require Import List PeanoNat Bool Lia.
From Verif Require Import Base Spec SpecFacts Vec BTreeModel BTreeProofs BTreeProofs2 FixedModel FixedProofs FixedProofs2 FixedProofs3.
Import ListNotations.

Section FixedMap.
  Context {K V Q : Type} (bor : K -> Q) (cmp : Q -> Q -> comparison).
  Context (laws : order_laws cmp) (small_key : bool).
  Notation fmap := (f_map K V).
  Notation MIN := MIN_OCCUPANCY.
  Notation fnd := (@s_find K V Q bor cmp).
  Notation valid := (valid bor cmp MIN).

  (** [m] represents the list-based map [a]. *)
  Definition frep (m : fmap) (a : bt_map K V) : Prop :=
    fm_len m = bm_len a
    /\ match fm_root m, bm_root a with
       | Some n, Some t => repr n t
       | None, None => True
       | _, _ => False
       end.
  Definition f_is (m : fmap) (l : list (K * V)) : Prop :=
    exists a, frep m a /\ valid a /\ contents a = l.

  Lemma f_is_asc m l : f_is m l -> ascending bor cmp l /\ fm_len m = length l.
  Proof. intros (a & [L _] & (A & La & _) & <-). split; auto. congruence. Qed.
  Lemma f_is_empty_map : f_is (FMap None 0) [].
  Proof. exists (BMap 0 None). split; [split; [reflexivity|exact I]|]. split; [apply valid_new|reflexivity]. Qed.

  Lemma f_get_ok m l q : f_is m l -> f_get bor cmp small_key m q = Ok (s_get bor cmp q l).
  Proof.
    intros (a & [L R] & Va & <-). unfold f_get, s_get. destruct m as [[n|] len], a as [la [t|]]; cbn [fm_root bm_root] in *; try easy.
    destruct Va as (A & _ & h & S). cbn in A. unfold contents in *; cbn [bm_root] in *.
    rewrite (get_sim bor cmp laws small_key q h 1 n t) by auto. cbn [bind].
    now rewrite (n_get_ok bor cmp laws MIN min_pos 1 h t q S A).
  Qed.
  Lemma f_get_mut_ok m l q w : f_is m l ->
    exists m', f_get_mut bor cmp small_key m q w = Ok (m', s_get bor cmp q l) /\ f_is m' (s_update bor cmp q w l).
  Proof.
    intros (a & [L R] & Va & <-). destruct (b_get_mut_ok bor cmp laws MIN min_pos a q w Va) as (a' & E & Va' & Ec).
    destruct m as [[n|] len], a as [la [t|]]; cbn [fm_root bm_root fm_len bm_len] in *; try easy.
    - destruct Va as (A & La & h & S). unfold contents in A, La; cbn [bm_root bm_len] in *.
      unfold b_get_mut in E. cbn [bm_root bm_len] in E. destruct (n_get_mut bor cmp q w t) as [t' r] eqn:En.
      destruct (get_mut_sim bor cmp laws small_key q w h 1 n t t' r) as (n' & E' & R'); auto.
      unfold f_get_mut. cbn [fm_root fm_len]. rewrite E'. cbn [bind]. injection E as <- <-.
      eexists. split; [reflexivity|]. eexists. split; [|split; [exact Va'|exact Ec]]. split; auto.
    - cbn. eexists. split; [reflexivity|]. exists (BMap la None). split; [split; auto|]. split; auto.
  Qed.

  Lemma f_insert_ok m l k v : f_is m l ->
    exists m', f_insert bor cmp small_key m k v = Ok (m', s_get bor cmp (bor k) l) /\ f_is m' (s_insert bor cmp k v l).
  Proof.
    intros (a & [L R] & Va & <-). destruct m as [[n|] len], a as [la [t|]]; cbn [fm_root bm_root fm_len bm_len] in *; try easy.
    - destruct Va as (A & La & h & S). unfold contents in *; cbn [bm_root bm_len] in *.
      pose proof (length_insert bor cmp laws k v (flat t) A) as Hl. rewrite (mem_find bor cmp) in Hl.
      assert (A' : ascending bor cmp (s_insert bor cmp k v (flat t))) by now apply asc_insert.
      destruct (fn_insert_ok bor cmp laws small_key k v h 1 n t) as (n' & r & E & G); auto.
      unfold f_insert, s_get. cbn [fm_root fm_len]. rewrite E. cbn [bind].
      destruct r as [|k0 v0|[c|] kv]; cbn [f_ins_good] in G.
      + destruct G as (G1 & t' & R' & S' & F'). rewrite G1 in *. eexists. split; [reflexivity|].
        exists (BMap (la + 1) (Some t')). split; [split; cbn; auto|]. unfold BTreeProofs2.valid, contents; cbn [bm_root bm_len].
        rewrite F'. split; auto. split; auto. split; eauto. lia.
      + destruct G as (G1 & t' & R' & S' & F'). rewrite G1 in *. eexists. split; [reflexivity|].
        exists (BMap la (Some t')). split; [split; cbn; auto|]. unfold BTreeProofs2.valid, contents; cbn [bm_root bm_len].
        rewrite F'. split; auto. split; auto. split; eauto. lia.
      + destruct G as (G1 & lhs & t' & Rc & R' & Sl & S' & F'). rewrite G1 in *. cbn [unwrap bind]. unfold fn_branch.
        destruct (el_push_ok el_new [] kv el_new_ok) as (e & -> & He); [cbn; unfold MAX_OCCUPANCY, max_occupancy; lia|]. cbn [bind].
        destruct (kd_push_rep kd_new [] c lhs kd_new_rep) as (d1 & -> & Hd1); [cbn; unfold MAX_KIDS, MAX_OCCUPANCY, max_occupancy; lia|exact Rc|]. cbn [bind app] in *.
        destruct (kd_push_rep d1 [lhs] n' t' Hd1) as (d2 & -> & Hd2); [cbn; unfold MAX_KIDS, MAX_OCCUPANCY, max_occupancy, MIN_OCCUPANCY; lia|exact R'|]. cbn [bind app] in *.
        eexists. split; [reflexivity|]. exists (BMap (la + 1) (Some (BN [kv] [lhs; t']))).
        assert (EF : flat (BN [kv] [lhs; t']) = s_insert bor cmp k v (flat t)).
        { rewrite <- F'. cbn. now rewrite app_nil_r. }
        split; [split; cbn [fm_len bm_len fm_root bm_root]; [lia|apply repr_iff; split; auto; split; [discriminate|auto]]|].
        unfold BTreeProofs2.valid, contents; cbn [bm_root bm_len]. rewrite EF. split; auto. split; auto. split; [lia|].
        exists (Datatypes.S h). constructor; auto. cbn. unfold MAX_OCC, MIN_OCCUPANCY. lia.
      + destruct G.
    - unfold f_insert, fn_leaf. cbn [fm_root].
      destruct (el_push_ok el_new [] (k, v) el_new_ok) as (e & -> & He); [cbn; unfold MAX_OCCUPANCY, max_occupancy; lia|].
      cbn [bind app] in *. eexists. split; [reflexivity|]. exists (BMap 1 (Some (BN [(k, v)] []))).
      split; [split; cbn; auto; now constructor|]. unfold BTreeProofs2.valid, contents; cbn.
      split; auto. split; [repeat constructor|]. split; auto. exists 0. constructor. cbn. unfold MAX_OCC. lia.
  Qed.

  Lemma f_remove_entry_ok m l q : f_is m l ->
    exists m', f_remove_entry bor cmp small_key m q = Ok (m', fnd q l) /\ f_is m' (s_remove bor cmp q l).
  Proof.
    intros (a & [L R] & Va & <-). destruct m as [[n|] len], a as [la [t|]]; cbn [fm_root bm_root fm_len bm_len] in *; try easy.
    - destruct Va as (A & La & h & S). unfold contents in *; cbn [bm_root bm_len] in *.
      pose proof (length_remove bor cmp laws q (flat t) A) as Hl. rewrite (mem_find bor cmp) in Hl.
      assert (A' : ascending bor cmp (s_remove bor cmp q (flat t))) by now apply asc_remove.
      destruct (n_remove_ok bor cmp laws MIN min_pos 1 h t q) as (t' & ret & E & F & G); auto; [unfold MIN_OCCUPANCY; lia|].
      destruct (remove_sim bor cmp laws small_key q h 1 n t) with (t' := t') (ret := ret) as (n' & E' & R'); auto; [unfold MIN_OCCUPANCY; lia|].
      unfold f_remove_entry. cbn [fm_root fm_len]. rewrite E'. cbn [bind].
      destruct ret as [[kv u]|].
      + destruct G as [G1 G2]. rewrite G1 in *. assert (Lf : 1 <= len).
        { destruct (flat t); [discriminate|cbn [length] in *; lia]. }
        rewrite usize_sub_ok by lia. cbn [bind].
        destruct (left_root bor cmp MIN min_pos h t' u G2) as (r & Er & F' & S'); [now rewrite F|].
        assert (Ee : fn_is_empty n' = is_nil (elems_of t')).
        { unfold fn_is_empty. rewrite (repr_len _ _ R'). unfold n_len. now destruct (elems_of t'). }
        rewrite Ee. assert (X : exists r', (if u && is_nil (elems_of t') then fn_pop_child n' else Ok (Some n')) = Ok r'
                             /\ frep (FMap r' (len - 1)) (BMap (len - 1) r)).
        { destruct (u && is_nil (elems_of t')).
          - destruct (assert_ _); cbn [bind] in Er; [|discriminate]. injection Er as <-.
            destruct t' as [es ks], n' as [e d]. apply repr_iff in R' as [_ Rk]. cbn [kids_of]. unfold fn_pop_child. cbn [fn_kids].
            destruct d as [d|]; cbn in Rk.
            + destruct Rk as [Hn Rk]. destruct (exists_last Hn) as (ks' & c & ->).
              destruct (kd_pop_rep d ks' c Rk) as (nc & d' & -> & Rc & _). cbn [bind]. eexists. split; [reflexivity|].
              split; auto. cbn [fm_root bm_root]. rewrite vec_pop_snoc. exact Rc.
            + subst ks. eexists. split; [reflexivity|]. split; [reflexivity|exact I].
          - injection Er as <-. eexists. split; [reflexivity|]. split; auto. }
        destruct X as (r' & -> & X). cbn [bind]. eexists. split; [reflexivity|]. eexists. split; [exact X|].
        unfold BTreeProofs2.valid, contents. cbn [bm_root bm_len]. rewrite F', F. repeat split; auto.
        destruct (flat t); [discriminate|cbn [length] in *; lia].
      + destruct G as [G1 G2]. rewrite G1 in *. eexists. split; [reflexivity|]. exists (BMap la (Some t')).
        split; [split; cbn; auto|]. unfold BTreeProofs2.valid, contents; cbn [bm_root bm_len]. rewrite F. repeat split; eauto. lia.
    - eexists. split; [reflexivity|]. exists (BMap la None). split; [split; auto|]. split; auto.
  Qed.

  Lemma f_extend_ok ps : forall m l, f_is m l ->
    exists m', f_extend bor cmp small_key m ps = Ok m' /\ f_is m' (s_extend bor cmp l ps).
  Proof.
    induction ps as [|[k v] ps IH]; intros m l H; cbn [f_extend s_extend fold_left]; [eauto|].
    destruct (f_insert_ok m l k v H) as (m1 & -> & H1). cbn [bind]. destruct (IH m1 _ H1) as (m' & E & H'). eauto.
  Qed.
End FixedMap.
