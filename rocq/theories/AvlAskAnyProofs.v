(** The calls of the AVL map with any answers to the comparisons, which may change from one to the next and may panic. *)
From Coq Require Import List ZArith Bool Lia Permutation.
From Verif Require Import Base Spec MapSpec SpecFacts AvlModel AvlProofs AvlProofs2 AvlMapProofs AvlIterModel AvlIterProofs AnyOrdSpec AvlAnyProofs
  Ask AskSpec AskAnySpec AskAnyProofs AvlAskModel.
Import ListNotations.
Local Open Scope Z_scope.

Section AvlAskAny.
  Context {K V Q : Type} (bor : K -> Q) (ask : nat -> Q -> Q -> option comparison).
  Notation tree := (tree K V).
  Notation amap := (avl_map K V).
  Notation entry := (K * V)%type.
  Notation said := (said bor ask).
  Notation copes := (copes ask).

  Ltac nonneg :=
    repeat match goal with
    | t : AvlModel.tree _ _ |- _ =>
      lazymatch goal with
      | _ : 0 <= ht t |- _ => fail
      | _ => pose proof (ht_nonneg t)
      end
    end.
  Ltac run1 :=
    match goal with
    | |- context [bal ?a ?b] => rewrite (bal_ok a b) by (cbn [ht] in *; lia)
    | |- context [i8_add ?a ?b] => rewrite (i8_add_ok a b) by (cbn [ht b2z] in *; lia)
    | |- context [i8_sub ?a ?b] => rewrite (i8_sub_ok a b) by (cbn [ht b2z] in *; lia)
    end; cbn [bind].
  Ltac run := repeat run1.
  Ltac wide := intros ? ?; apply said_mono; lia.

  Lemma ins_copes (t : tree) k v : forall n0, avl t -> ht t <= 110 ->
    copes n0 (ins_t bor ask t k v n0)
      (fun t' '(old, taller) n => avl t' /\ ht t' = ht t + b2z taller
         /\ (taller = true -> tbal t' <> 0 \/ ht t' = 1)
         /\ may_insert bor (said n0 n) k v (elems t) (elems t') old)
      (fun t' => t' = t).
  Proof.
    induction t as [|nk nv lh rh l IHl r IHr]; intros n0 Ht Hb.
    - cbn [ins_t]. apply copes_plain; [lia|]. do 2 eexists. split; [reflexivity|]. cbn. repeat split; auto; try lia. exists [], []. auto.
    - destruct Ht as (-> & -> & Hbal & Hl & Hr). cbn [ht] in Hb. nonneg.
      cbn [ins_t]. apply copes_question; [reflexivity|]. intros c Ec. destruct c.
      + apply copes_ret; [lia|]. cbn [avl ht b2z elems].
        repeat split; auto; try lia; try discriminate. exists (elems l), (nk, nv), (elems r). repeat split; auto. apply said_now; [lia|exact Ec].
      + eapply copes_after; [apply IHl; auto; lia| |].
        { intros l' ->. reflexivity. }
        intros l' [old taller] n Hn (Hl' & Hh' & Htb & Hel). apply copes_plain; [lia|].
        assert (Hlb : ht l' <= ht l + 1) by (destruct taller; cbn in *; lia).
        apply (ins_l bor _ k v (nk, nv) _ _ (elems r)) in Hel. apply (insert_mono bor _ (said n0 n)) in Hel; [|wide].
        rewrite (i8_add_ok (ht l)) by (destruct taller; cbn; lia). cbn [bind].
        rewrite <- Hh'. nonneg.
        destruct taller; cbn [b2z] in *.
        * run. destruct (Z.ltb_spec (ht r - ht l') (-1)) as [Hc|Hc].
          -- destruct (rebal_lf_to_rt_ok nk nv (ht l') (ht r) l' r)
               as (t' & s & E & Ht' & Hht & Hee & Hs); auto; try lia.
             rewrite E. cbn [bind]. do 2 eexists. split; [reflexivity|]. cbv beta iota.
             assert (s = true) as ->.
             { destruct (Htb eq_refl) as [Hz|Hz]; [|lia].
               rewrite Hs. destruct (Z.eqb_spec (tbal l') 0); auto; lia. }
             cbn [b2z ht elems] in *. rewrite Hee. repeat split; auto; try lia; try discriminate.
          -- do 2 eexists. split; [reflexivity|]. cbn [avl ht elems tbal].
             split; [repeat split; auto; lia|].
             destruct (Z.ltb_spec (ht r - ht l') 0); cbn [b2z].
             ++ split; [lia|]. split; [intros _; left; lia|]. exact Hel.
             ++ split; [lia|]. split; [discriminate|]. exact Hel.
        * do 2 eexists. split; [reflexivity|]. cbn [avl ht elems tbal b2z].
          repeat split; auto; try lia; try discriminate.
      + eapply copes_after; [apply IHr; auto; lia| |].
        { intros r' ->. reflexivity. }
        intros r' [old taller] n Hn (Hr' & Hh' & Htb & Hel). apply copes_plain; [lia|].
        assert (Hlb : ht r' <= ht r + 1) by (destruct taller; cbn in *; lia).
        apply (ins_r bor _ k v (nk, nv) (elems l)) in Hel. apply (insert_mono bor _ (said n0 n)) in Hel; [|wide].
        rewrite (i8_add_ok (ht r)) by (destruct taller; cbn; lia). cbn [bind].
        rewrite <- Hh'. nonneg.
        destruct taller; cbn [b2z] in *.
        * run. destruct (Z.ltb_spec 1 (ht r' - ht l)) as [Hc|Hc].
          -- destruct (rebal_rt_to_lf_ok nk nv (ht l) (ht r') l r')
               as (t' & s & E & Ht' & Hht & Hee & Hs); auto; try lia.
             rewrite E. cbn [bind]. do 2 eexists. split; [reflexivity|]. cbv beta iota.
             assert (s = true) as ->.
             { destruct (Htb eq_refl) as [Hz|Hz]; [|lia].
               rewrite Hs. destruct (Z.eqb_spec (tbal r') 0); auto; lia. }
             cbn [b2z ht elems] in *. rewrite Hee. repeat split; auto; try lia; try discriminate.
          -- do 2 eexists. split; [reflexivity|]. cbn [avl ht elems tbal].
             split; [repeat split; auto; lia|].
             destruct (Z.ltb_spec 0 (ht r' - ht l)); cbn [b2z].
             ++ split; [lia|]. split; [intros _; left; lia|]. exact Hel.
             ++ split; [lia|]. split; [discriminate|]. exact Hel.
        * do 2 eexists. split; [reflexivity|]. cbn [avl ht elems tbal b2z].
          repeat split; auto; try lia; try discriminate.
  Qed.

  Lemma rm_copes (t : tree) q : forall n0, avl t -> ht t <= 110 ->
    copes n0 (rm_t bor ask t q n0)
      (fun t' '(kv, s) n => avl t' /\ ht t = ht t' + b2z s /\ may_remove (said n0 n) q (elems t) (elems t') kv)
      (fun t' => t' = t).
  Proof.
    induction t as [|nk nv lh rh l IHl r IHr]; intros n0 Ht Hb.
    - cbn [rm_t]. apply copes_ret; [lia|]. cbn. auto.
    - destruct Ht as (-> & -> & Hbal & Hl & Hr). cbn [ht] in Hb. nonneg.
      cbn [rm_t]. apply copes_question; [reflexivity|]. intros c Ec. destruct c.
      + lazymatch goal with |- AskAnySpec.copes _ _ _ ?f _ => set (ok := f) end. apply copes_plain; [lia|].
        assert (Hdone : forall t' s, avl t' -> ht (Node nk nv (ht l) (ht r) l r) = ht t' + b2z s -> elems t' = elems l ++ elems r ->
          exists t'0 r0, Ok (t', (Some (nk, nv), s)) = Ok (t'0, r0) /\ ok t'0 r0 (1 + n0)%nat).
        { intros t' s Ht' Hh He. do 2 eexists. split; [reflexivity|]. unfold ok.
          split; [exact Ht'|]. split; [exact Hh|]. cbn [elems]. exists (elems l), (elems r). repeat split; auto. apply said_now; [lia|exact Ec]. }
        clearbody ok.
        destruct l as [|lk lv llh lrh ll lr], r as [|rk rv rlh rrh rl rr].
        * apply Hdone; cbn; auto.
        * apply Hdone; auto. cbn [ht] in *. nonneg. cbn [b2z]. lia.
        * apply Hdone; auto.
          -- cbn [ht] in *. nonneg. cbn [b2z]. lia.
          -- cbn [elems]. now rewrite app_nil_r.
        * set (l := Node lk lv llh lrh ll lr) in *. set (r := Node rk rv rlh rrh rl rr) in *.
          destruct (rm_leftmost_ok r) as (r' & kv & s & E & Hr' & Hh & Hkv & Hel); auto; [lia|].
          rewrite E. cbn [bind].
          assert (Hnn : elems r <> []) by apply elems_node_nonnil.
          destruct (elems r) as [|[sk sv] er] eqn:Er; [congruence|]. clear Hnn.
          cbn [hd_error tl] in *. subst kv. cbn [unwrap bind].
          destruct (after_rm_right_ok sk sv l r r' s)
            as (t' & s' & E' & Ht' & Hh' & Hel'); auto; try lia.
          rewrite E'. cbn [bind]. apply Hdone; auto. rewrite Hel', Hel. reflexivity.
      + eapply copes_after; [apply IHl; auto; lia| |].
        { intros l' ->. reflexivity. }
        intros l' [kv s] n Hn (Hl' & Hh & Hel). apply copes_plain; [lia|].
        destruct (after_rm_left_ok nk nv l l' r s)
          as (t' & s' & E' & Ht' & Hh' & Hel'); auto; try lia.
        rewrite E'. cbn [bind]. do 2 eexists. split; [reflexivity|].
        cbn [elems ht]. split; [exact Ht'|]. split; [exact Hh'|]. rewrite Hel'. apply rem_l. eapply remove_mono; [|exact Hel]. wide.
      + eapply copes_after; [apply IHr; auto; lia| |].
        { intros r' ->. reflexivity. }
        intros r' [kv s] n Hn (Hr' & Hh & Hel). apply copes_plain; [lia|].
        destruct (after_rm_right_ok nk nv l r r' s)
          as (t' & s' & E' & Ht' & Hh' & Hel'); auto; try lia.
        rewrite E'. cbn [bind]. do 2 eexists. split; [reflexivity|].
        cbn [elems ht]. split; [exact Ht'|]. split; [exact Hh'|]. rewrite Hel'. apply rem_r. eapply remove_mono; [|exact Hel]. wide.
  Qed.

  Lemma t_get_copes (t : tree) q : forall n0,
    copes n0 (t_get_t bor ask t q n0) (fun _ o n => match o with Some e => In e (elems t) /\ said n0 n q e | None => True end) (fun _ => True).
  Proof.
    induction t as [|k v lh rh l IHl r IHr]; intros n0; cbn [t_get_t elems]; [apply copes_ret; auto|].
    apply copes_question; auto. intros c E. destruct c.
    - apply copes_ret; [lia|]. split; [apply in_or_app; right; now left|]. apply said_now; [lia|exact E].
    - eapply copes_weak; [apply IHl| |auto]. cbv beta. intros _ [e|] n Hn; auto. intros [I1 I2]. split; [apply in_or_app; now left|].
      eapply said_mono; [| |exact I2]; lia.
    - eapply copes_weak; [apply IHr| |auto]. cbv beta. intros _ [e|] n Hn; auto. intros [I1 I2]. split; [apply in_or_app; right; now right|].
      eapply said_mono; [| |exact I2]; lia.
  Qed.
  Lemma t_get_mut_copes (t : tree) q w : forall n0,
    copes n0 (t_get_mut_t bor ask t q w n0)
      (fun t' o n => may_get_mut (said n0 n) q w (elems t) (elems t') o /\ ht t' = ht t /\ (avl t -> avl t'))
      (fun t' => t' = t).
  Proof.
    induction t as [|k v lh rh l IHl r IHr]; intros n0; cbn [t_get_mut_t elems]; [apply copes_ret; cbn; auto|].
    apply copes_question; auto. intros c E. destruct c.
    - apply copes_ret; [lia|]. split; [|auto]. cbn [elems]. exists (elems l), (k, v), (elems r). repeat split; auto. apply said_now; [lia|exact E].
    - eapply copes_after; [apply IHl| |]; [intros l' ->; reflexivity|]. intros l' o n Hn (E1 & E2 & E3). apply copes_ret; [lia|].
      cbn [elems ht avl]. rewrite E2. split; [apply mut_l; eapply get_mut_mono; [|exact E1]; wide|]. split; auto. tauto.
    - eapply copes_after; [apply IHr| |]; [intros r' ->; reflexivity|]. intros r' o n Hn (E1 & E2 & E3). apply copes_ret; [lia|].
      cbn [elems ht avl]. rewrite E2. split; [apply mut_r; eapply get_mut_mono; [|exact E1]; wide|]. split; auto. tauto.
  Qed.

  Lemma split_copes (t : tree) q : forall n0, avl t -> fits (elems t) ->
    copes n0 (split_t bor ask t q n0)
      (fun _ '(l, kv, r) n => avl l /\ avl r /\ elems t = elems l ++ olist kv ++ elems r /\ (forall e, kv = Some e -> said n0 n q e))
      (fun _ => True).
  Proof.
    induction t as [|nk nv lh rh l IHl r IHr]; intros n0 Ht Hf.
    - cbn [split_t]. apply copes_ret; [lia|]. repeat split; auto; easy.
    - destruct Ht as (-> & -> & Hb & Hl & Hr). cbn [elems] in *.
      assert (Hfl : fits (elems l)) by (eapply fits_le; [|exact Hf]; rewrite app_length; lia).
      assert (Hfr : fits (elems r)) by (eapply fits_le; [|exact Hf]; rewrite app_length; cbn; lia).
      cbn [split_t]. apply copes_question; auto. intros c Ec. destruct c.
      + apply copes_ret; [lia|]. cbn [olist app]. repeat split; auto. intros e [= <-]. apply said_now; [lia|exact Ec].
      + eapply copes_after; [apply IHl; auto|auto|]. intros _ [[l1 kv] r1] n Hn (Hl1 & Hr1 & He & Hs). apply copes_plain; [lia|].
        assert (ht l1 <= 91 /\ ht r1 <= 91 /\ ht r <= 91) as (B1 & B2 & B3).
        { repeat split; apply avl_ht_bound; auto; eapply fits_le; try exact Hfl; rewrite He, !app_length; lia. }
        destruct (join_ok r1 nk nv r) as (r1' & E' & Hr1' & _ & He'); auto; try lia.
        rewrite E'. cbn [bind]. do 2 eexists. split; [reflexivity|].
        split; [exact Hl1|]. split; [exact Hr1'|]. split; [rewrite He, He'; now rewrite <- !app_assoc|].
        intros e Ee. eapply said_mono; [| |apply (Hs e Ee)]; lia.
      + eapply copes_after; [apply IHr; auto|auto|]. intros _ [[l1 kv] r1] n Hn (Hl1 & Hr1 & He & Hs). apply copes_plain; [lia|].
        assert (ht l1 <= 91 /\ ht r1 <= 91 /\ ht l <= 91) as (B1 & B2 & B3).
        { repeat split; apply avl_ht_bound; auto; eapply fits_le; try exact Hfr; rewrite He, !app_length; lia. }
        destruct (join_ok l nk nv l1) as (l1' & E' & Hl1' & _ & He'); auto; try lia.
        rewrite E'. cbn [bind]. do 2 eexists. split; [reflexivity|].
        split; [exact Hl1'|]. split; [exact Hr1|]. split; [rewrite He, He'; now rewrite <- !app_assoc|].
        intros e Ee. eapply said_mono; [| |apply (Hs e Ee)]; lia.
  Qed.

  Lemma pair_mono n1 n1' n n' a b oa ob both : (n <= n1)%nat -> (n1' <= n')%nat ->
    may_pair bor (said n1 n1') a b oa ob both -> may_pair (V := V) bor (said n n') a b oa ob both.
  Proof.
    intros L L' (P1 & P2 & P3). split; auto. split; auto. eapply Forall_impl; [|exact P3]. intros p. now apply said_mono.
  Qed.
  Lemma merge_copes keepl keepr dec (t1 : tree) : forall t2 n0, avl t1 -> avl t2 -> fits (elems t1 ++ elems t2) ->
    copes n0 (merge_t bor ask keepl keepr dec t1 t2 n0)
      (fun _ t' n => avl t' /\ exists only_a only_b both,
        may_pair bor (said n0 n) (elems t1) (elems t2) only_a only_b both
        /\ Permutation (elems t') (merged keepl keepr dec only_a only_b both)
        /\ (length (elems t') <= length (elems t1) + length (elems t2))%nat)
      (fun _ => True).
  Proof.
    induction t1 as [|nk nv lh rh l IHl r IHr]; intros t2 n0 H1 H2 Hf.
    - cbn [merge_t]. apply copes_ret; [lia|]. split; [now destruct keepr|]. exists [], (elems t2), [].
      split; [|split].
      + unfold may_pair. cbn [map elems app]. rewrite app_nil_r. repeat split; auto.
      + unfold merged. cbn [flat_map]. destruct keepl, keepr; cbn [app elems]; rewrite ?app_nil_r; auto.
      + destruct keepr; cbn; lia.
    - destruct t2 as [|k2 v2 lh2 rh2 l2 r2].
      { cbn [merge_t]. apply copes_ret; [lia|]. split; [now destruct keepl|]. exists (elems (Node nk nv lh rh l r)), [], [].
        split; [|split].
        - unfold may_pair. cbn [map elems app]. rewrite app_nil_r. repeat split; auto.
        - unfold merged. cbn [flat_map]. destruct keepl, keepr; cbn [app elems]; rewrite ?app_nil_r; auto.
        - destruct keepl; cbn; lia. }
      cbn [merge_t]. remember (Node k2 v2 lh2 rh2 l2 r2) as t2 eqn:Et2. clear Et2.
      assert (Hf2 : fits (elems t2)) by (eapply fits_le; [|exact Hf]; rewrite app_length; lia).
      eapply copes_after; [apply split_copes; auto|auto|]. intros _ [[tl kv] tr] n1 L1 (Htl & Htr & He & Hs).
      destruct H1 as (-> & -> & Hb & Hl & Hr). cbn [elems] in *.
      assert (Hlen : length (elems t2) = (length (elems tl) + length (olist kv) + length (elems tr))%nat) by (rewrite He, !app_length; lia).
      assert (Hfl : fits (elems l ++ elems tl)) by (unfold fits in *; rewrite !app_length in *; cbn [length] in *; lia).
      assert (Hfr : fits (elems r ++ elems tr)) by (unfold fits in *; rewrite !app_length in *; cbn [length] in *; lia).
      eapply copes_after; [apply IHl; auto|auto|]. intros _ l' n2 L2 (Hl' & la & lb & lp & PL & Ll & Llen).
      eapply copes_after; [apply IHr; auto|auto|]. intros _ r' n3 L3 (Hr' & ra & rb & rp & PR & Rl & Rlen).
      clear IHl IHr. apply copes_plain; [lia|].
      apply (pair_mono _ _ n0 n3) in PL; [|lia|lia]. apply (pair_mono _ _ n0 n3) in PR; [|lia|lia].
      destruct PL as (La & Lb & Lp), PR as (Ra & Rb & Rp).
      assert (Bl : ht l' <= 91) by (apply avl_ht_bound; auto; unfold fits in *; rewrite app_length in *; lia).
      assert (Br : ht r' <= 91) by (apply avl_ht_bound; auto; unfold fits in *; rewrite app_length in *; lia).
      set (o := match kv with Some kv2 => dec (nk, nv) kv2 | None => if keepl then Some (nk, nv) else None end).
      cbv zeta.
      destruct (join2_ok l' o r') as (t' & Ej & Ht' & Hel); auto; try lia.
      change (match o with Some e => [e] | None => [] end) with (olist o) in Hel.
      exists tt, t'. split; [now rewrite Ej|]. split; [exact Ht'|].
      exists (match kv with Some _ => la ++ ra | None => (nk, nv) :: la ++ ra end), (lb ++ rb), (match kv with Some y => ((nk, nv), y) :: lp ++ rp | None => lp ++ rp end).
      split; [|split].
      + unfold may_pair. split; [|split].
        * rewrite <- Permutation_middle, La, Ra. destruct kv as [y|]; cbn [map fst app]; rewrite map_app.
          -- rewrite <- Permutation_middle. apply perm_skip. rewrite <- !app_assoc. apply Permutation_app_head. rewrite !app_assoc. apply Permutation_app_tail. apply Permutation_app_comm.
          -- apply perm_skip. rewrite <- !app_assoc. apply Permutation_app_head. rewrite !app_assoc. apply Permutation_app_tail. apply Permutation_app_comm.
        * rewrite He, Lb, Rb. destruct kv as [y|]; cbn [map snd app olist]; rewrite map_app.
          -- rewrite <- !Permutation_middle. apply perm_skip. rewrite <- !app_assoc. apply Permutation_app_head. rewrite !app_assoc. apply Permutation_app_tail. apply Permutation_app_comm.
          -- rewrite <- !app_assoc. apply Permutation_app_head. rewrite !app_assoc. apply Permutation_app_tail. apply Permutation_app_comm.
        * destruct kv as [y|]; [constructor; [cbn; eapply said_mono; [| |apply Hs; reflexivity]; lia|]|]; apply Forall_app; auto.
      + rewrite Hel, Ll, Rl. unfold merged. subst o. destruct kv as [y|].
        * cbn [flat_map fst snd]. rewrite flat_map_app. set (d := olist (dec (nk, nv) y)). set (fm := flat_map _ lp). set (fr := flat_map _ rp).
          rewrite (Permutation_app_swap_app _ d). rewrite (Permutation_app_swap_app (if keepr then _ else _) d), (Permutation_app_swap_app (if keepl then _ else _) d). apply Permutation_app_head.
          pose proof (perm_mid (if keepl then la else []) (if keepl then ra else []) (if keepr then lb else []) (if keepr then rb else []) fm fr) as X.
          rewrite X. destruct keepl, keepr; cbn [app]; auto.
        * rewrite flat_map_app. set (fm := flat_map _ lp). set (fr := flat_map _ rp).
          pose proof (perm_mid (if keepl then la else []) (if keepl then ra else []) (if keepr then lb else []) (if keepr then rb else []) fm fr) as X.
          destruct keepl; cbn [olist app].
          -- rewrite <- Permutation_middle. apply perm_skip. rewrite X. destruct keepr; cbn [app]; auto.
          -- rewrite X. destruct keepr; cbn [app]; auto.
      + rewrite Hel, !app_length. cbn [length]. assert (length (olist o) <= 1 + length (olist kv))%nat by (destruct o; cbn; lia). lia.
  Qed.

  (** ** The calls *)
  Lemma a_get_copes (m : amap) l q n0 : a_any m l -> copes n0 (a_get_t bor ask m q n0) (fun _ r n => may_get (said n0 n) q l r) (fun _ => True).
  Proof.
    intros H. apply aany_iff in H as (_ & <- & _). unfold a_get_t. eapply copes_after; [apply t_get_copes|auto|].
    intros [] o n Hn H. apply copes_ret; [lia|]. destruct o as [e|]; cbn; auto. exists e. tauto.
  Qed.
  Lemma a_contains_copes (m : amap) l q n0 : a_any m l ->
    copes n0 (a_contains_t bor ask m q n0) (fun _ b n => b = true -> exists e, In e l /\ said n0 n q e) (fun _ => True).
  Proof.
    intros H. unfold a_contains_t. eapply copes_after; [apply (a_get_copes m l q n0 H)|auto|].
    intros [] o n Hn G. apply copes_ret; [lia|]. destruct o as [v|]; [|discriminate]. intros _. destruct G as (e & I1 & I2 & _). eauto.
  Qed.
  Lemma a_get_mut_copes (m : amap) l q w n0 : a_any m l ->
    copes n0 (a_get_mut_t bor ask m q w n0) (fun m' r n => exists l', a_any m' l' /\ may_get_mut (said n0 n) q w l l' r) (fun m' => m' = m).
  Proof.
    intros H. apply aany_iff in H as (A & <- & L). unfold a_get_mut_t. eapply copes_after; [apply t_get_mut_copes| |].
    - intros t ->. now destruct m.
    - intros t o n Hn (X & _ & A'). apply copes_ret; [lia|]. exists (elems t). split; auto. apply aany_iff. cbn [am_root am_len].
      split; auto. split; auto. rewrite L. symmetry. eapply len_get_mut; eauto.
  Qed.
  Lemma a_insert_copes (m : amap) l k v n0 : a_any m l -> small l ->
    copes n0 (a_insert_t bor ask m k v n0) (fun m' r n => exists l', a_any m' l' /\ may_insert bor (said n0 n) k v l l' r) (fun m' => m' = m).
  Proof.
    intros H Hs. pose proof (any_ht m l H Hs). apply aany_iff in H as (A & <- & L). unfold a_insert_t.
    eapply copes_after; [apply ins_copes; auto; lia| |].
    - intros t ->. now destruct m.
    - intros t [old tl] n Hn (A' & _ & _ & I). apply copes_ret; [lia|]. exists (elems t). split; auto. apply aany_iff. cbn [am_root am_len].
      split; auto. split; auto. rewrite (len_insert _ _ _ _ _ _ _ I), L. lia.
  Qed.
  Lemma a_remove_entry_copes (m : amap) l q n0 : a_any m l -> small l ->
    copes n0 (a_remove_entry_t bor ask m q n0) (fun m' r n => exists l', a_any m' l' /\ may_remove (said n0 n) q l l' r) (fun m' => m' = m).
  Proof.
    intros H Hs. pose proof (any_ht m l H Hs). apply aany_iff in H as (A & <- & L). unfold a_remove_entry_t.
    eapply copes_after; [apply rm_copes; auto; lia| |].
    - intros t ->. now destruct m.
    - intros t [kv s] n Hn (A' & _ & I). pose proof (len_remove _ _ _ _ _ I) as L'. destruct kv as [e|].
      + apply copes_plain; [lia|]. rewrite usize_sub_ok by lia. cbn [bind]. do 2 eexists. split; [reflexivity|]. exists (elems t). split; auto.
        apply aany_iff. cbn [am_root am_len]. split; auto. split; auto. lia.
      + apply copes_ret; [lia|]. exists (elems t). split; auto. apply aany_iff. cbn [am_root am_len]. split; auto. split; auto. lia.
  Qed.
  Lemma a_remove_copes (m : amap) l q n0 : a_any m l -> small l ->
    copes n0 (a_remove_t bor ask m q n0) (fun m' r n => exists l', a_any m' l' /\ may_remove_val (said n0 n) q l l' r) (fun m' => m' = m).
  Proof.
    intros H Hs. unfold a_remove_t. eapply copes_after; [apply (a_remove_entry_copes m l q n0 H Hs)|auto|].
    intros m' o n Hn (l' & A & I). apply copes_ret; [lia|]. exists l'. split; auto. exists o. auto.
  Qed.
  Lemma a_merge_copes keepl keepr dec (a b : amap) la lb n0 : a_any a la -> a_any b lb -> small la -> small lb ->
    copes n0 (merge_t bor ask keepl keepr dec (am_root a) (am_root b) n0)
      (fun _ t n => exists only_a only_b both l, may_pair bor (said n0 n) la lb only_a only_b both
        /\ a_any (AvlMap (t_len t) t) l /\ Permutation l (merged keepl keepr dec only_a only_b both)) (fun _ => True).
  Proof.
    intros Ha Hb Sa Sb. apply aany_iff in Ha as (Aa & <- & _). apply aany_iff in Hb as (Ab & <- & _).
    eapply copes_weak; [apply merge_copes; auto using small_fit2| |auto]. intros [] t n Hn (A & oa & ob & both & P & X & _).
    exists oa, ob, both, (elems t). split; auto. split; auto. apply aany_iff. cbn [am_root am_len]. auto using t_len_elems.
  Qed.
  Lemma a_append_copes (a b : amap) la lb n0 : a_any a la -> a_any b lb -> small la -> small lb ->
    copes n0 (a_append_t bor ask a b n0)
      (fun '(a', b') _ n => a_any b' [] /\ exists only_a only_b both l, may_pair bor (said n0 n) la lb only_a only_b both
        /\ a_any a' l /\ Permutation l (only_a ++ lb))
      (fun '(a', b') => emptied a a' /\ emptied b b').
  Proof.
    intros Ha Hb Sa Sb. unfold a_append_t, union_t. eapply copes_after; [apply (a_merge_copes true true (fun _ r => Some r) a b la lb); auto| |].
    - intros _ _. split; split; reflexivity.
    - intros [] t n Hn (oa & ob & both & l & P & A & X). apply copes_ret; [lia|]. split; [apply aany_iff; cbn; auto|].
      exists oa, ob, both, l. split; auto. split; auto. rewrite X. unfold merged. rewrite flat_one. apply Permutation_app_head. symmetry. apply P.
  Qed.
  Lemma a_sets_copes (a b : amap) la lb n0 : a_any a la -> a_any b lb -> small la -> small lb ->
    let good t (f : list entry -> list entry -> list (entry * entry) -> list entry) :=
      copes n0 t (fun _ m n => exists only_a only_b both l, may_pair bor (said n0 n) la lb only_a only_b both
        /\ a_any m l /\ Permutation l (f only_a only_b both)) (fun _ : unit => True) in
    good (a_union_t bor ask a b n0) (fun only_a _ _ => only_a ++ lb)
    /\ good (a_intersect_t bor ask a b n0) (fun _ _ both => map fst both)
    /\ good (a_diff_t bor ask a b n0) (fun only_a _ _ => only_a)
    /\ good (a_sym_diff_t bor ask a b n0) (fun only_a only_b _ => only_a ++ only_b).
  Proof.
    intros Ha Hb Sa Sb good. unfold good, a_union_t, a_intersect_t, a_diff_t, a_sym_diff_t, a_of_root_t, union_t, intersect_t, diff_t, sym_diff_t.
    split; [|split; [|split]]; (eapply copes_after; [apply (a_merge_copes _ _ _ a b la lb); auto|auto|]);
      intros [] t n Hn (oa & ob & both & l & P & A & X); (apply copes_ret; [lia|]); exists oa, ob, both, l; (split; [auto|]); (split; [auto|]);
      rewrite X; unfold merged; rewrite ?flat_one, ?flat_none, ?app_nil_r; cbn [app]; auto.
    apply Permutation_app_head. symmetry. apply P.
  Qed.
  Lemma a_split_off_copes (m : amap) l q n0 : a_any m l -> small l ->
    copes n0 (a_split_off_t bor ask m q n0)
      (fun m1 m2 n => exists l1 mid l2, l = l1 ++ olist mid ++ l2 /\ a_any m1 l1
         /\ match mid with
            | None => a_any m2 l2
            | Some e => said n0 n q e /\ exists l2' r, may_insert bor (said n0 n) (fst e) (snd e) l2 l2' r
                     /\ (exists h, t_holds h (am_root m2) l2') /\ am_len m2 = Datatypes.S (length l2)
            end)
      (fun m' => emptied m m' \/ exists l1 e l2, l = l1 ++ e :: l2 /\ a_any m' l1).
  Proof.
    intros H Hs. apply aany_iff in H as (A & <- & L). unfold a_split_off_t.
    eapply copes_after; [apply split_copes; auto using small_fit| |].
    - intros _ _. left. split; reflexivity.
    - intros _ [[tl kv] tr] n1 L1 (Al & Ar & He & Hk). rewrite He, !app_length in L.
      cbv zeta. rewrite t_len_elems, usize_sub_ok by lia.
      assert (X1 : a_any (AvlMap (length (elems tl)) tl) (elems tl)) by (apply aany_iff; auto).
      destruct kv as [[k v]|].
      + assert (Hb : ht tr <= 91). { apply avl_ht_bound; auto. apply small_fit in Hs. eapply fits_le; [|exact Hs]. rewrite He, !app_length. lia. }
        eapply copes_after; [apply ins_copes; auto; lia| |].
        * intros _ _. right. exists (elems tl), (k, v), (elems tr). split; auto.
        * intros t' [old tall] n2 L2 (A' & _ & _ & I). apply copes_ret; [lia|].
          exists (elems tl), (Some (k, v)), (elems tr). split; auto. split; auto.
          split; [eapply said_mono; [| |apply (Hk _ eq_refl)]; lia|].
          exists (elems t'), old. split; [eapply insert_mono; [|exact I]; wide|]. cbn [am_root am_len olist length] in *. split; [exists (ht t'); now apply holds_avl|lia].
      + apply copes_ret; [lia|]. exists (elems tl), None, (elems tr). split; auto. split; auto.
        apply aany_iff. cbn [am_root am_len olist length] in *. split; auto. split; auto. lia.
  Qed.
End AvlAskAny.
