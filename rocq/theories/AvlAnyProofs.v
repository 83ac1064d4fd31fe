(** The calls of the AVL map with any comparison function. *)
From Coq Require Import List ZArith Bool Lia Permutation.
From Verif Require Import Base Spec MapSpec SpecFacts AvlModel AvlProofs AvlProofs2 AvlMapProofs AvlIterModel AvlIterProofs BTreeModel AnyOrdSpec BTreeAnyProofs.
Import ListNotations.
Local Open Scope Z_scope.

Section AvlAny.
  Context {K V Q : Type} (bor : K -> Q) (cmp : Q -> Q -> comparison).
  Notation tree := (tree K V).
  Notation amap := (avl_map K V).
  Notation entry := (K * V)%type.
  Notation told := (told_eq bor cmp).

  Ltac nonneg :=
    repeat match goal with
    | t : AvlModel.tree _ _ |- _ =>
      lazymatch goal with
      | _ : 0 <= ht t |- _ => fail
      | _ => pose proof (ht_nonneg t)
      end
    end.
  Ltac run1 :=
    match goal with
    | |- context [bal ?a ?b] => rewrite (bal_ok a b) by (cbn [ht] in *; lia)
    | |- context [i8_add ?a ?b] => rewrite (i8_add_ok a b) by (cbn [ht b2z] in *; lia)
    | |- context [i8_sub ?a ?b] => rewrite (i8_sub_ok a b) by (cbn [ht b2z] in *; lia)
    end; cbn [bind].
  Ltac run := repeat run1.

  Lemma holds_avl h (t : tree) l : t_holds h t l <-> avl t /\ ht t = h /\ elems t = l.
  Proof.
    split.
    - induction 1 as [|h1 h2 k v l r a b H1 (A1 & E1 & L1) H2 (A2 & E2 & L2) B]; cbn [avl ht elems]; [auto|]. subst. repeat split; auto; lia.
    - revert h l. induction t as [|k v lh rh l IHl r IHr]; cbn [avl ht elems]; intros h e.
      + intros (_ & <- & <-). constructor.
      + intros ((-> & -> & B & A1 & A2) & <- & <-). constructor; auto.
  Qed.
  Lemma aany_iff (m : amap) l : a_any m l <-> avl (am_root m) /\ elems (am_root m) = l /\ am_len m = length l.
  Proof.
    unfold a_any. split.
    - intros (L & h & H). apply holds_avl in H as (A & _ & E). auto.
    - intros (A & E & L). split; auto. exists (ht (am_root m)). now apply holds_avl.
  Qed.

  (** One side changes, the other does not. *)
  Lemma ins_l k v (e : entry) l l' r o : any_insert bor cmp k v l l' o -> any_insert bor cmp k v (l ++ e :: r) (l' ++ e :: r) o.
  Proof. exact (insert_seg bor cmp k v [] (e :: r) l l' o). Qed.
  Lemma ins_r k v (e : entry) l r r' o : any_insert bor cmp k v r r' o -> any_insert bor cmp k v (l ++ e :: r) (l ++ e :: r') o.
  Proof.
    intros H. pose proof (insert_seg bor cmp k v (l ++ [e]) [] r r' o H) as X. rewrite !app_nil_r, <- !app_assoc in X. exact X.
  Qed.
  Lemma rem_l q (e : entry) l l' r o : any_remove bor cmp q l l' o -> any_remove bor cmp q (l ++ e :: r) (l' ++ e :: r) o.
  Proof. exact (remove_seg bor cmp q [] (e :: r) l l' o). Qed.
  Lemma rem_r q (e : entry) l r r' o : any_remove bor cmp q r r' o -> any_remove bor cmp q (l ++ e :: r) (l ++ e :: r') o.
  Proof.
    intros H. pose proof (remove_seg bor cmp q (l ++ [e]) [] r r' o H) as X. rewrite !app_nil_r, <- !app_assoc in X. exact X.
  Qed.
  Lemma mut_l q w (e : entry) l l' r o : any_get_mut bor cmp q w l l' o -> any_get_mut bor cmp q w (l ++ e :: r) (l' ++ e :: r) o.
  Proof. exact (get_mut_seg bor cmp q w [] (e :: r) l l' o). Qed.
  Lemma mut_r q w (e : entry) l r r' o : any_get_mut bor cmp q w r r' o -> any_get_mut bor cmp q w (l ++ e :: r) (l ++ e :: r') o.
  Proof.
    intros H. pose proof (get_mut_seg bor cmp q w (l ++ [e]) [] r r' o H) as X. rewrite !app_nil_r, <- !app_assoc in X. exact X.
  Qed.

  Lemma ins_any_ok (t : tree) k v : avl t -> ht t <= 110 ->
    exists t' old taller, ins bor cmp t k v = Ok (t', old, taller)
      /\ avl t' /\ ht t' = ht t + b2z taller
      /\ (taller = true -> tbal t' <> 0 \/ ht t' = 1)
      /\ any_insert bor cmp k v (elems t) (elems t') old.
  Proof.
    induction t as [|nk nv lh rh l IHl r IHr]; intros Ht Hb.
    - cbn. do 3 eexists. split; [reflexivity|]. cbn. repeat split; auto; try lia. exists [], []. auto.
    - destruct Ht as (-> & -> & Hbal & Hl & Hr). cbn [ht] in Hb. nonneg.
      cbn [ins]. destruct (cmp (bor k) (bor nk)) eqn:Ec.
      + do 3 eexists. split; [reflexivity|]. cbn [avl ht b2z elems].
        repeat split; auto; try lia; try discriminate. exists (elems l), (nk, nv), (elems r). repeat split; auto. now left.
      + destruct IHl as (l' & old & taller & E & Hl' & Hh' & Htb & Hel); auto; [lia|].
        rewrite E. cbn [bind]. clear E.
        assert (Hlb : ht l' <= ht l + 1) by (destruct taller; cbn in *; lia).
        apply (ins_l k v (nk, nv) _ _ (elems r)) in Hel.
        rewrite (i8_add_ok (ht l)) by (destruct taller; cbn; lia). cbn [bind].
        rewrite <- Hh'. nonneg.
        destruct taller; cbn [b2z] in *.
        * run. destruct (Z.ltb_spec (ht r - ht l') (-1)) as [Hc|Hc].
          -- destruct (rebal_lf_to_rt_ok nk nv (ht l') (ht r) l' r)
               as (t' & s & E & Ht' & Hht & Hee & Hs); auto; try lia.
             rewrite E. cbn [bind]. do 3 eexists. split; [reflexivity|].
             assert (s = true) as ->.
             { destruct (Htb eq_refl) as [Hz|Hz]; [|lia].
               rewrite Hs. destruct (Z.eqb_spec (tbal l') 0); auto; lia. }
             cbn [b2z ht elems] in *. rewrite Hee. repeat split; auto; try lia; try discriminate.
          -- do 3 eexists. split; [reflexivity|]. cbn [avl ht elems tbal].
             split; [repeat split; auto; lia|].
             destruct (Z.ltb_spec (ht r - ht l') 0); cbn [b2z].
             ++ split; [lia|]. split; [intros _; left; lia|]. exact Hel.
             ++ split; [lia|]. split; [discriminate|]. exact Hel.
        * do 3 eexists. split; [reflexivity|]. cbn [avl ht elems tbal b2z].
          repeat split; auto; try lia; try discriminate.
      + destruct IHr as (r' & old & taller & E & Hr' & Hh' & Htb & Hel); auto; [lia|].
        rewrite E. cbn [bind]. clear E.
        assert (Hlb : ht r' <= ht r + 1) by (destruct taller; cbn in *; lia).
        apply (ins_r k v (nk, nv) (elems l)) in Hel.
        rewrite (i8_add_ok (ht r)) by (destruct taller; cbn; lia). cbn [bind].
        rewrite <- Hh'. nonneg.
        destruct taller; cbn [b2z] in *.
        * run. destruct (Z.ltb_spec 1 (ht r' - ht l)) as [Hc|Hc].
          -- destruct (rebal_rt_to_lf_ok nk nv (ht l) (ht r') l r')
               as (t' & s & E & Ht' & Hht & Hee & Hs); auto; try lia.
             rewrite E. cbn [bind]. do 3 eexists. split; [reflexivity|].
             assert (s = true) as ->.
             { destruct (Htb eq_refl) as [Hz|Hz]; [|lia].
               rewrite Hs. destruct (Z.eqb_spec (tbal r') 0); auto; lia. }
             cbn [b2z ht elems] in *. rewrite Hee. repeat split; auto; try lia; try discriminate.
          -- do 3 eexists. split; [reflexivity|]. cbn [avl ht elems tbal].
             split; [repeat split; auto; lia|].
             destruct (Z.ltb_spec 0 (ht r' - ht l)); cbn [b2z].
             ++ split; [lia|]. split; [intros _; left; lia|]. exact Hel.
             ++ split; [lia|]. split; [discriminate|]. exact Hel.
        * do 3 eexists. split; [reflexivity|]. cbn [avl ht elems tbal b2z].
          repeat split; auto; try lia; try discriminate.
  Qed.

  Lemma rm_any_ok (t : tree) q : avl t -> ht t <= 110 ->
    exists t' kv s, rm bor cmp t q = Ok (t', kv, s) /\ avl t' /\ ht t = ht t' + b2z s /\ any_remove bor cmp q (elems t) (elems t') kv.
  Proof.
    induction t as [|nk nv lh rh l IHl r IHr]; intros Ht Hb.
    - cbn. do 3 eexists. split; [reflexivity|]. cbn. auto.
    - destruct Ht as (-> & -> & Hbal & Hl & Hr). cbn [ht] in Hb. nonneg.
      cbn [rm]. destruct (cmp q (bor nk)) eqn:Ec.
      + assert (Hdone : forall t' s, avl t' -> ht (Node nk nv (ht l) (ht r) l r) = ht t' + b2z s -> elems t' = elems l ++ elems r ->
          exists t'0 kv0 s0, Ok (t', Some (nk, nv), s) = Ok (t'0, kv0, s0) /\ avl t'0
          /\ ht (Node nk nv (ht l) (ht r) l r) = ht t'0 + b2z s0
          /\ any_remove bor cmp q (elems (Node nk nv (ht l) (ht r) l r)) (elems t'0) kv0).
        { intros t' s Ht' Hh He. do 3 eexists. split; [reflexivity|].
          split; [exact Ht'|]. split; [exact Hh|]. cbn [elems]. exists (elems l), (elems r). repeat split; auto. now left. }
        destruct l as [|lk lv llh lrh ll lr], r as [|rk rv rlh rrh rl rr].
        * apply Hdone; cbn; auto.
        * apply Hdone; auto. cbn [ht] in *. nonneg. cbn [b2z]. lia.
        * apply Hdone; auto.
          -- cbn [ht] in *. nonneg. cbn [b2z]. lia.
          -- cbn [elems]. now rewrite app_nil_r.
        * set (l := Node lk lv llh lrh ll lr) in *. set (r := Node rk rv rlh rrh rl rr) in *.
          destruct (rm_leftmost_ok r) as (r' & kv & s & E & Hr' & Hh & Hkv & Hel); auto; [lia|].
          rewrite E. cbn [bind].
          assert (Hnn : elems r <> []) by apply elems_node_nonnil.
          destruct (elems r) as [|[sk sv] er] eqn:Er; [congruence|]. clear Hnn.
          cbn [hd_error tl] in *. subst kv. cbn [unwrap bind].
          destruct (after_rm_right_ok sk sv l r r' s)
            as (t' & s' & E' & Ht' & Hh' & Hel'); auto; try lia.
          rewrite E'. cbn [bind]. apply Hdone; auto. rewrite Hel', Hel. reflexivity.
      + destruct IHl as (l' & kv & s & E & Hl' & Hh & Hel); auto; [lia|].
        rewrite E. cbn [bind].
        destruct (after_rm_left_ok nk nv l l' r s)
          as (t' & s' & E' & Ht' & Hh' & Hel'); auto; try lia.
        rewrite E'. cbn [bind]. do 3 eexists. split; [reflexivity|].
        cbn [elems ht]. split; [exact Ht'|]. split; [exact Hh'|]. rewrite Hel'. now apply rem_l.
      + destruct IHr as (r' & kv & s & E & Hr' & Hh & Hel); auto; [lia|].
        rewrite E. cbn [bind].
        destruct (after_rm_right_ok nk nv l r r' s)
          as (t' & s' & E' & Ht' & Hh' & Hel'); auto; try lia.
        rewrite E'. cbn [bind]. do 3 eexists. split; [reflexivity|].
        cbn [elems ht]. split; [exact Ht'|]. split; [exact Hh'|]. rewrite Hel'. now apply rem_r.
  Qed.

  Lemma t_get_any (t : tree) q : match t_get bor cmp t q with Some e => In e (elems t) /\ told q e | None => True end.
  Proof.
    induction t as [|k v lh rh l IHl r IHr]; cbn [t_get elems]; auto. destruct (cmp q (bor k)) eqn:E.
    - split; [apply in_or_app; right; now left|now left].
    - destruct (t_get bor cmp l q); auto. destruct IHl. split; auto. apply in_or_app. now left.
    - destruct (t_get bor cmp r q); auto. destruct IHr. split; auto. apply in_or_app. right. now right.
  Qed.
  Lemma t_get_mut_any (t : tree) q w :
    let '(t', o) := t_get_mut bor cmp t q w in
    any_get_mut bor cmp q w (elems t) (elems t') o /\ ht t' = ht t /\ (avl t -> avl t').
  Proof.
    induction t as [|k v lh rh l IHl r IHr]; cbn [t_get_mut elems]; [cbn; auto|]. destruct (cmp q (bor k)) eqn:E.
    - split; [|auto]. cbn [elems]. exists (elems l), (k, v), (elems r). repeat split; auto. now left.
    - destruct (t_get_mut bor cmp l q w) as [l' o]. destruct IHl as (E1 & E2 & E3). cbn [elems ht avl]. rewrite E2.
      split; [now apply mut_l|]. split; auto. tauto.
    - destruct (t_get_mut bor cmp r q w) as [r' o]. destruct IHr as (E1 & E2 & E3). cbn [elems ht avl]. rewrite E2.
      split; [now apply mut_r|]. split; auto. tauto.
  Qed.

  Lemma split_any (t : tree) q : avl t -> fits (elems t) ->
    exists l kv r, split bor cmp t q = Ok (l, kv, r) /\ avl l /\ avl r /\ elems t = elems l ++ olist kv ++ elems r
      /\ (forall e, kv = Some e -> told q e).
  Proof.
    induction t as [|nk nv lh rh l IHl r IHr]; intros Ht Hf.
    - cbn. do 3 eexists. split; [reflexivity|]. repeat split; auto; easy.
    - destruct Ht as (-> & -> & Hb & Hl & Hr). cbn [elems] in *.
      assert (Hfl : fits (elems l)) by (eapply fits_le; [|exact Hf]; rewrite app_length; lia).
      assert (Hfr : fits (elems r)) by (eapply fits_le; [|exact Hf]; rewrite app_length; cbn; lia).
      cbn [split]. destruct (cmp q (bor nk)) eqn:Ec.
      + do 3 eexists. split; [reflexivity|]. cbn [olist app]. repeat split; auto. intros e [= <-]. now left.
      + destruct (IHl Hl Hfl) as (l1 & kv & r1 & E & Hl1 & Hr1 & He & Hs). rewrite E. cbn [bind].
        assert (ht l1 <= 91 /\ ht r1 <= 91 /\ ht r <= 91) as (B1 & B2 & B3).
        { repeat split; apply avl_ht_bound; auto; eapply fits_le; try exact Hfl; rewrite He, !app_length; lia. }
        destruct (join_ok r1 nk nv r) as (r1' & E' & Hr1' & _ & He'); auto; try lia.
        rewrite E'. cbn [bind]. do 3 eexists. split; [reflexivity|].
        split; [exact Hl1|]. split; [exact Hr1'|]. split; auto. rewrite He, He'. now rewrite <- !app_assoc.
      + destruct (IHr Hr Hfr) as (l1 & kv & r1 & E & Hl1 & Hr1 & He & Hs). rewrite E. cbn [bind].
        assert (ht l1 <= 91 /\ ht r1 <= 91 /\ ht l <= 91) as (B1 & B2 & B3).
        { repeat split; apply avl_ht_bound; auto; eapply fits_le; try exact Hfr; rewrite He, !app_length; lia. }
        destruct (join_ok l nk nv l1) as (l1' & E' & Hl1' & _ & He'); auto; try lia.
        rewrite E'. cbn [bind]. do 3 eexists. split; [reflexivity|].
        split; [exact Hl1'|]. split; [exact Hr1|]. split; auto. rewrite He, He'. now rewrite <- !app_assoc.
  Qed.

  (** ** Merging *)
  Definition merged (keepl keepr : bool) (dec : entry -> entry -> option entry) (only_a only_b : list entry) (both : list (entry * entry)) : list entry :=
    (if keepl then only_a else []) ++ (if keepr then only_b else []) ++ flat_map (fun p => olist (dec (fst p) (snd p))) both.

  Lemma perm_swap4 (x1 y1 x2 y2 : list entry) : Permutation ((x1 ++ y1) ++ x2 ++ y2) ((x1 ++ x2) ++ y1 ++ y2).
  Proof.
    rewrite <- !app_assoc. apply Permutation_app_head. rewrite !app_assoc. apply Permutation_app_tail, Permutation_app_comm.
  Qed.
  Lemma perm_mid (a1 a2 b1 b2 c1 c2 : list entry) : Permutation ((a1 ++ b1 ++ c1) ++ a2 ++ b2 ++ c2) ((a1 ++ a2) ++ (b1 ++ b2) ++ c1 ++ c2).
  Proof. rewrite perm_swap4. apply Permutation_app_head, perm_swap4. Qed.
  Lemma merge_any keepl keepr dec (t1 : tree) : forall t2, avl t1 -> avl t2 -> fits (elems t1 ++ elems t2) ->
    exists t' only_a only_b both, merge bor cmp keepl keepr dec t1 t2 = Ok t' /\ avl t'
      /\ any_pairs bor cmp (elems t1) (elems t2) only_a only_b both
      /\ Permutation (elems t') (merged keepl keepr dec only_a only_b both)
      /\ (length (elems t') <= length (elems t1) + length (elems t2))%nat.
  Proof.
    induction t1 as [|nk nv lh rh l IHl r IHr]; intros t2 H1 H2 Hf.
    - exists (if keepr then t2 else Leaf), [], (elems t2), []. cbn [merge]. split; [now destruct keepr|]. split; [now destruct keepr|].
      split; [|split].
      + unfold any_pairs. cbn [map elems app]. rewrite app_nil_r. repeat split; auto.
      + unfold merged. cbn [flat_map]. destruct keepl, keepr; cbn [app elems]; rewrite ?app_nil_r; auto.
      + destruct keepr; cbn; lia.
    - destruct t2 as [|k2 v2 lh2 rh2 l2 r2].
      { cbn [merge]. exists (if keepl then Node nk nv lh rh l r else Leaf), (elems (Node nk nv lh rh l r)), [], []. split; [now destruct keepl|]. split; [now destruct keepl|].
        split; [|split].
        - unfold any_pairs. cbn [map elems app]. rewrite app_nil_r. repeat split; auto.
        - unfold merged. cbn [flat_map]. destruct keepl, keepr; cbn [app elems]; rewrite ?app_nil_r; auto.
        - destruct keepl; cbn; lia. }
      cbn [merge]. remember (Node k2 v2 lh2 rh2 l2 r2) as t2 eqn:Et2. clear Et2.
      assert (Hf2 : fits (elems t2)) by (eapply fits_le; [|exact Hf]; rewrite app_length; lia).
      destruct (split_any t2 (bor nk)) as (tl & kv & tr & E & Htl & Htr & He & Hs); auto.
      rewrite E. cbn [bind]. destruct H1 as (-> & -> & Hb & Hl & Hr). cbn [elems] in *.
      assert (Hlen : length (elems t2) = (length (elems tl) + length (olist kv) + length (elems tr))%nat) by (rewrite He, !app_length; lia).
      assert (Hfl : fits (elems l ++ elems tl)) by (unfold fits in *; rewrite !app_length in *; cbn [length] in *; lia).
      assert (Hfr : fits (elems r ++ elems tr)) by (unfold fits in *; rewrite !app_length in *; cbn [length] in *; lia).
      destruct (IHl tl) as (l' & la & lb & lp & El & Hl' & (La & Lb & Lp) & Ll & Llen); auto.
      destruct (IHr tr) as (r' & ra & rb & rp & Er & Hr' & (Ra & Rb & Rp) & Rl & Rlen); auto.
      rewrite El, Er. cbn [bind]. clear IHl IHr El Er.
      assert (Bl : ht l' <= 91) by (apply avl_ht_bound; auto; unfold fits in *; rewrite app_length in *; lia).
      assert (Br : ht r' <= 91) by (apply avl_ht_bound; auto; unfold fits in *; rewrite app_length in *; lia).
      set (o := match kv with Some kv2 => dec (nk, nv) kv2 | None => if keepl then Some (nk, nv) else None end).
      destruct (join2_ok l' o r') as (t' & Ej & Ht' & Hel); auto; try lia.
      change (match o with Some e => [e] | None => [] end) with (olist o) in Hel.
      exists t', (match kv with Some _ => la ++ ra | None => (nk, nv) :: la ++ ra end), (lb ++ rb), (match kv with Some y => ((nk, nv), y) :: lp ++ rp | None => lp ++ rp end).
      split; [exact Ej|]. split; [exact Ht'|]. split; [|split].
      + unfold any_pairs. split; [|split].
        * rewrite <- Permutation_middle, La, Ra. destruct kv as [y|]; cbn [map fst app]; rewrite map_app.
          -- rewrite <- Permutation_middle. apply perm_skip. rewrite <- !app_assoc. apply Permutation_app_head. rewrite !app_assoc. apply Permutation_app_tail. apply Permutation_app_comm.
          -- apply perm_skip. rewrite <- !app_assoc. apply Permutation_app_head. rewrite !app_assoc. apply Permutation_app_tail. apply Permutation_app_comm.
        * rewrite He, Lb, Rb. destruct kv as [y|]; cbn [map snd app olist]; rewrite map_app.
          -- rewrite <- !Permutation_middle. apply perm_skip. rewrite <- !app_assoc. apply Permutation_app_head. rewrite !app_assoc. apply Permutation_app_tail. apply Permutation_app_comm.
          -- rewrite <- !app_assoc. apply Permutation_app_head. rewrite !app_assoc. apply Permutation_app_tail. apply Permutation_app_comm.
        * destruct kv as [y|]; [constructor; [cbn; now apply Hs|]|]; apply Forall_app; auto.
      + rewrite Hel, Ll, Rl. unfold merged. subst o. destruct kv as [y|].
        * cbn [flat_map fst snd]. rewrite flat_map_app. set (d := olist (dec (nk, nv) y)). set (fm := flat_map _ lp). set (fr := flat_map _ rp).
          rewrite (Permutation_app_swap_app _ d). rewrite (Permutation_app_swap_app (if keepr then _ else _) d), (Permutation_app_swap_app (if keepl then _ else _) d). apply Permutation_app_head.
          pose proof (perm_mid (if keepl then la else []) (if keepl then ra else []) (if keepr then lb else []) (if keepr then rb else []) fm fr) as X.
          rewrite X. destruct keepl, keepr; cbn [app]; auto.
        * rewrite flat_map_app. set (fm := flat_map _ lp). set (fr := flat_map _ rp).
          pose proof (perm_mid (if keepl then la else []) (if keepl then ra else []) (if keepr then lb else []) (if keepr then rb else []) fm fr) as X.
          destruct keepl; cbn [olist app].
          -- rewrite <- Permutation_middle. apply perm_skip. rewrite X. destruct keepr; cbn [app]; auto.
          -- rewrite X. destruct keepr; cbn [app]; auto.
      + rewrite Hel, !app_length. cbn [length]. assert (length (olist o) <= 1 + length (olist kv))%nat by (destruct o; cbn; lia). lia.
  Qed.

  Lemma retain_any {S} (f : S -> K -> V -> S * V * bool) (t : tree) s : avl t -> fits (elems t) ->
    exists t' s', retain f t s = Ok (t', length (elems t'), s') /\ avl t'
      /\ s' = snd (run_calls f s (visit_order t))
      /\ Permutation (elems t') (kept (fst (run_calls f s (visit_order t))))
      /\ (length (elems t') <= length (elems t))%nat.
  Proof.
    revert s. induction t as [|nk nv lh rh l IHl r IHr]; intros s H Hf.
    - exists Leaf, s. cbn. auto.
    - destruct H as (-> & -> & Hb & Hl & Hr). cbn [elems] in *.
      assert (Hfl : fits (elems l)) by (eapply fits_le; [|exact Hf]; rewrite app_length; lia).
      assert (Hfr : fits (elems r)) by (eapply fits_le; [|exact Hf]; rewrite app_length; cbn; lia).
      destruct (IHl s Hl Hfl) as (l' & s1 & El & Hl' & Hs1 & Il & Ll).
      destruct (IHr s1 Hr Hfr) as (r' & s2 & Er & Hr' & Hs2 & Ir & Lr).
      cbn [retain]. rewrite El. cbn [bind]. rewrite Er. cbn [bind].
      cbn [visit_order]. rewrite run_calls_app.
      destruct (run_calls f s (visit_order l)) as [o1 s1'] eqn:R1. cbn [fst snd] in *. subst s1'.
      rewrite run_calls_app.
      destruct (run_calls f s1 (visit_order r)) as [o2 s2'] eqn:R2. cbn [fst snd] in *. subst s2'.
      cbn [run_calls].
      destruct (f s2 nk nv) as [[s3 v3] b] eqn:Efn. cbn [fst snd].
      pose proof (avl_ht_bound _ Hl' (fits_le _ _ Ll Hfl)).
      pose proof (avl_ht_bound _ Hr' (fits_le _ _ Lr Hfr)).
      unfold kept in *. rewrite !flat_map_app.
      destruct b.
      + destruct (join_ok l' nk v3 r') as (t' & Ej & Ht' & _ & He); auto; try lia.
        rewrite Ej. cbn [bind]. exists t', s3. rewrite He. split.
        { repeat f_equal. rewrite app_length. cbn [length]. lia. }
        split; [exact Ht'|]. split; [reflexivity|]. split; [|rewrite !app_length; cbn [length]; lia].
        cbn [flat_map fst snd app]. rewrite Il, Ir. apply Permutation_app_head, Permutation_cons_append.
      + destruct (join2_ok l' None r') as (t' & Ej & Ht' & He); auto; try lia.
        rewrite Ej. cbn [bind]. exists t', s3. rewrite He. cbn [app]. split.
        { repeat f_equal. now rewrite app_length. }
        split; [exact Ht'|]. split; [reflexivity|]. split; [|rewrite !app_length; cbn [length]; lia].
        cbn [flat_map fst snd app]. rewrite app_nil_r, Il, Ir. auto.
  Qed.

  (** ** The calls *)
  Lemma small_fit (l : list entry) : small l -> fits l.
  Proof. unfold small, fits. lia. Qed.
  Lemma small_fit2 (l l' : list entry) : small l -> small l' -> fits (l ++ l').
  Proof. unfold small, fits. rewrite app_length. lia. Qed.
  Lemma any_ht (m : amap) l : a_any m l -> small l -> ht (am_root m) <= 91.
  Proof. intros H Hs. apply aany_iff in H as (A & E & _). apply avl_ht_bound; auto. rewrite E. now apply small_fit. Qed.

  Lemma a_get_kv_any (m : amap) l q : a_any m l -> match avl_get_key_value bor cmp m q with None => True | Some e => In e l /\ told q e end.
  Proof. intros H. apply aany_iff in H as (_ & <- & _). apply t_get_any. Qed.
  Lemma a_get_any (m : amap) l q : a_any m l -> any_get bor cmp q l (avl_get bor cmp m q).
  Proof.
    intros H. pose proof (a_get_kv_any m l q H) as X. unfold avl_get. destruct (avl_get_key_value bor cmp m q) as [e|]; cbn; auto.
    exists e. tauto.
  Qed.
  Lemma a_get_mut_any (m : amap) l q w : a_any m l ->
    exists m' r l', avl_get_mut bor cmp m q w = (m', r) /\ a_any m' l' /\ any_get_mut bor cmp q w l l' r.
  Proof.
    intros H. apply aany_iff in H as (A & <- & L). unfold avl_get_mut. pose proof (t_get_mut_any (am_root m) q w) as X.
    destruct (t_get_mut bor cmp (am_root m) q w) as [t o]. destruct X as (X & _ & A'). exists (AvlMap (am_len m) t), o, (elems t).
    split; auto. split; auto. apply aany_iff. cbn [am_root am_len]. split; auto. split; auto. rewrite L.
    unfold any_get_mut in X. destruct o; [|now rewrite X]. destruct X as (l1 & e & l2 & -> & -> & _). now rewrite !app_length.
  Qed.
  Lemma a_insert_any (m : amap) l k v : a_any m l -> small l ->
    exists m' r l', avl_insert bor cmp m k v = Ok (m', r) /\ a_any m' l' /\ any_insert bor cmp k v l l' r.
  Proof.
    intros H Hs. pose proof (any_ht m l H Hs). apply aany_iff in H as (A & <- & L).
    destruct (ins_any_ok (am_root m) k v A) as (t' & old & tl & E & A' & _ & _ & I); [lia|].
    unfold avl_insert. rewrite E. cbn [bind]. do 2 eexists. exists (elems t'). split; [reflexivity|]. split; auto.
    apply aany_iff. cbn [am_root am_len]. split; auto. split; auto. rewrite (len_insert _ _ _ _ _ _ _ I), L. lia.
  Qed.
  Lemma a_remove_entry_any (m : amap) l q : a_any m l -> small l ->
    exists m' r l', avl_remove_entry bor cmp m q = Ok (m', r) /\ a_any m' l' /\ any_remove bor cmp q l l' r.
  Proof.
    intros H Hs. pose proof (any_ht m l H Hs). apply aany_iff in H as (A & <- & L).
    destruct (rm_any_ok (am_root m) q A) as (t' & kv & s & E & A' & _ & I); [lia|].
    unfold avl_remove_entry. rewrite E. cbn [bind]. pose proof (len_remove _ _ _ _ _ _ I) as L'. destruct kv as [e|].
    - rewrite usize_sub_ok by lia. cbn [bind]. do 2 eexists. exists (elems t'). split; [reflexivity|]. split; auto.
      apply aany_iff. cbn [am_root am_len]. split; auto. split; auto. lia.
    - do 2 eexists. exists (elems t'). split; [reflexivity|]. split; auto. apply aany_iff. cbn [am_root am_len]. split; auto. split; auto. lia.
  Qed.
  Lemma a_remove_any (m : amap) l q : a_any m l -> small l ->
    exists m' r l', avl_remove bor cmp m q = Ok (m', r) /\ a_any m' l' /\ any_remove_val bor cmp q l l' r.
  Proof.
    intros H Hs. destruct (a_remove_entry_any m l q H Hs) as (m' & r & l' & E & A & I). exists m', (option_map snd r), l'.
    unfold avl_remove. rewrite E. split; auto. split; auto. exists r. auto.
  Qed.
  Lemma a_ends_any (m : amap) l : a_any m l -> avl_first_key_value m = s_first l /\ avl_last_key_value m = s_last l.
  Proof. intros H. apply aany_iff in H as (_ & <- & _). split; [apply t_first_spec|apply t_last_spec]. Qed.
  Lemma a_pops_any (m : amap) l : a_any m l -> small l ->
    (exists m', avl_pop_first m = Ok (m', s_first l) /\ a_any m' (tl l))
    /\ (exists m', avl_pop_last m = Ok (m', s_last l) /\ a_any m' (removelast l)).
  Proof.
    intros H Hs. pose proof (any_ht m l H Hs). apply aany_iff in H as (A & <- & L). split.
    - destruct (rm_leftmost_ok (am_root m)) as (t' & kv & s & E & Ht' & _ & Hkv & He); auto; [lia|].
      unfold avl_pop_first. rewrite E. cbn [bind]. rewrite Hkv. unfold s_first.
      destruct (elems (am_root m)) as [|e es] eqn:Ee; cbn [hd_error tl] in *.
      + eexists. split; [reflexivity|]. apply aany_iff. cbn [am_root am_len]. auto.
      + rewrite usize_sub_ok by (rewrite L; cbn; lia). cbn [bind]. eexists. split; [reflexivity|]. apply aany_iff. cbn [am_root am_len].
        split; auto. split; auto. rewrite L. cbn. lia.
    - destruct (rm_rightmost_ok (am_root m)) as (t' & kv & s & E & Ht' & _ & Hkv & He); auto; [lia|].
      unfold avl_pop_last. rewrite E. cbn [bind]. rewrite Hkv. unfold s_last.
      destruct (hd_error (rev (elems (am_root m)))) as [e|] eqn:Ee.
      + assert (length (elems (am_root m)) <> 0)%nat by (intros X; apply length_zero_iff_nil in X; rewrite X in Ee; discriminate).
        rewrite usize_sub_ok by lia. cbn [bind]. eexists. split; [reflexivity|]. apply aany_iff. cbn [am_root am_len].
        split; auto. split; auto. rewrite removelast_length. lia.
      + destruct (elems (am_root m)) as [|x xs] eqn:En; [|cbn in Ee; destruct (rev xs); discriminate].
        eexists. split; [reflexivity|]. apply aany_iff. cbn [am_root am_len]. auto.
  Qed.
  Lemma a_extend_any ps : forall (m : amap) l, a_any m l -> (Z.of_nat (length l + length ps) < 2 ^ 63) ->
    exists m' l', avl_extend bor cmp m ps = Ok m' /\ a_any m' l' /\ any_extend bor cmp ps l l'.
  Proof.
    induction ps as [|[k v] ps IH]; intros m l H Hs; cbn [avl_extend any_extend length] in *; [eauto|].
    destruct (a_insert_any m l k v H) as (m1 & r & l1 & E & H1 & I); [unfold small; lia|]. rewrite E. cbn [bind].
    pose proof (len_insert _ _ _ _ _ _ _ I). destruct (IH m1 l1 H1) as (m' & l' & E' & H' & X); [destruct r; lia|].
    exists m', l'. split; auto. split; auto. eauto.
  Qed.

  Lemma a_merge_any keepl keepr dec (a b : amap) la lb : a_any a la -> a_any b lb -> small la -> small lb ->
    exists t only_a only_b both, merge bor cmp keepl keepr dec (am_root a) (am_root b) = Ok t
      /\ any_pairs bor cmp la lb only_a only_b both
      /\ exists l, a_any (AvlMap (t_len t) t) l /\ Permutation l (merged keepl keepr dec only_a only_b both).
  Proof.
    intros Ha Hb Sa Sb. apply aany_iff in Ha as (Aa & <- & _). apply aany_iff in Hb as (Ab & <- & _).
    destruct (merge_any keepl keepr dec (am_root a) (am_root b)) as (t & oa & ob & both & E & A & P & X & _); auto using small_fit2.
    exists t, oa, ob, both. split; auto. split; auto. exists (elems t). split; auto. apply aany_iff. cbn [am_root am_len]. auto using t_len_elems.
  Qed.
  Lemma flat_one {A B} (g : A -> B) l : flat_map (fun p => olist (Some (g p))) l = map g l.
  Proof. now induction l. Qed.
  Lemma flat_none {A B} (l : list A) : flat_map (fun _ => @olist B None) l = [].
  Proof. induction l; cbn; auto. Qed.
  Lemma a_union_any (a b : amap) la lb : a_any a la -> a_any b lb -> small la -> small lb ->
    exists m l only_a only_b both, avl_new_union bor cmp a b = Ok m /\ avl_append bor cmp a b = Ok (m, avl_new) /\ a_any m l
      /\ any_pairs bor cmp la lb only_a only_b both /\ Permutation l (only_a ++ lb).
  Proof.
    intros Ha Hb Sa Sb. destruct (a_merge_any true true (fun _ r => Some r) a b la lb) as (t & oa & ob & both & E & P & l & A & X); auto.
    exists (AvlMap (t_len t) t), l, oa, ob, both. unfold avl_new_union, avl_append, avl_of_root, union. rewrite E. cbn [bind].
    split; auto. split; auto. split; auto. split; auto. rewrite X. unfold merged. rewrite flat_one. apply Permutation_app_head.
    symmetry. apply P.
  Qed.
  Lemma a_intersect_any (a b : amap) la lb : a_any a la -> a_any b lb -> small la -> small lb ->
    exists m l only_a only_b both, avl_new_intersect bor cmp a b = Ok m /\ a_any m l
      /\ any_pairs bor cmp la lb only_a only_b both /\ Permutation l (map fst both).
  Proof.
    intros Ha Hb Sa Sb. destruct (a_merge_any false false (fun l _ => Some l) a b la lb) as (t & oa & ob & both & E & P & l & A & X); auto.
    exists (AvlMap (t_len t) t), l, oa, ob, both. unfold avl_new_intersect, avl_of_root, intersect. rewrite E. cbn [bind].
    split; auto.
  Qed.
  Lemma a_diff_any (a b : amap) la lb : a_any a la -> a_any b lb -> small la -> small lb ->
    exists m only_a only_b both l, avl_new_diff bor cmp a b = Ok m /\ a_any m l
      /\ any_pairs bor cmp la lb only_a only_b both /\ Permutation l only_a.
  Proof.
    intros Ha Hb Sa Sb. destruct (a_merge_any true false (fun _ _ => None) a b la lb) as (t & oa & ob & both & E & P & l & A & X); auto.
    exists (AvlMap (t_len t) t), oa, ob, both, l. unfold avl_new_diff, avl_of_root, diff. rewrite E. cbn [bind].
    split; auto. split; auto. split; auto. rewrite X. unfold merged. now rewrite flat_none, !app_nil_r.
  Qed.
  Lemma a_sym_diff_any (a b : amap) la lb : a_any a la -> a_any b lb -> small la -> small lb ->
    exists m only_a only_b both l, avl_new_sym_diff bor cmp a b = Ok m /\ a_any m l
      /\ any_pairs bor cmp la lb only_a only_b both /\ Permutation l (only_a ++ only_b).
  Proof.
    intros Ha Hb Sa Sb. destruct (a_merge_any true true (fun _ _ => None) a b la lb) as (t & oa & ob & both & E & P & l & A & X); auto.
    exists (AvlMap (t_len t) t), oa, ob, both, l. unfold avl_new_sym_diff, avl_of_root, sym_diff. rewrite E. cbn [bind].
    split; auto. split; auto. split; auto. rewrite X. unfold merged. now rewrite flat_none, !app_nil_r.
  Qed.
  Lemma a_retain_any {S} (f : S -> K -> V -> S * V * bool) (m : amap) l s : a_any m l -> small l ->
    exists m' l' s' order outs, avl_retain f m s = Ok (m', s') /\ a_any m' l'
      /\ Permutation order l /\ run_calls f s order = (outs, s') /\ Permutation l' (kept outs).
  Proof.
    intros H Hs. apply aany_iff in H as (A & <- & L).
    destruct (retain_any f (am_root m) s A (small_fit _ Hs)) as (t' & s' & E & A' & Es & P & _).
    unfold avl_retain. rewrite E. cbn [bind]. exists (AvlMap (length (elems t')) t'), (elems t'), s', (visit_order (am_root m)), (fst (run_calls f s (visit_order (am_root m)))).
    split; auto. split; [apply aany_iff; auto|]. split; [apply visit_order_perm|]. split; auto. rewrite Es. now destruct (run_calls f s (visit_order (am_root m))).
  Qed.
  Lemma a_split_off_any (m : amap) l q : a_any m l -> small l ->
    exists m1 m2 l1 mid l2, avl_split_off bor cmp m q = Ok (m1, m2) /\ l = l1 ++ olist mid ++ l2 /\ a_any m1 l1
      /\ match mid with
         | None => a_any m2 l2
         | Some e => told q e /\ exists l2' r, any_insert bor cmp (fst e) (snd e) l2 l2' r
                     /\ (exists h, t_holds h (am_root m2) l2') /\ am_len m2 = Datatypes.S (length l2)
         end.
  Proof.
    intros H Hs. apply aany_iff in H as (A & <- & L).
    destruct (split_any (am_root m) q A (small_fit _ Hs)) as (tl & kv & tr & E & Al & Ar & He & Hk).
    rewrite He, !app_length in L. unfold avl_split_off. rewrite E. cbn [bind]. rewrite t_len_elems, usize_sub_ok by lia. cbn [bind].
    assert (X1 : a_any (AvlMap (length (elems tl)) tl) (elems tl)) by (apply aany_iff; auto).
    destruct kv as [[k v]|].
    - assert (Hb : ht tr <= 91). { apply avl_ht_bound; auto. apply small_fit in Hs. eapply fits_le; [|exact Hs]. rewrite He, !app_length. lia. }
      destruct (ins_any_ok tr k v Ar) as (t' & old & tall & E' & A' & _ & _ & I); [lia|]. rewrite E'. cbn [bind].
      do 2 eexists. exists (elems tl), (Some (k, v)), (elems tr). split; [reflexivity|]. split; auto. split; auto. split; auto.
      exists (elems t'), old. split; auto. cbn [am_root am_len olist length] in *. split; [exists (ht t'); now apply holds_avl|lia].
    - cbn [bind]. do 2 eexists. exists (elems tl), None, (elems tr). split; [reflexivity|]. split; auto. split; auto.
      apply aany_iff. cbn [am_root am_len olist length] in *. split; auto. split; auto. lia.
  Qed.
End AvlAny.
