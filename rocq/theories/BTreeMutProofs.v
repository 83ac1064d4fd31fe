(** Proofs about [iter_mut] and [range_mut]; the depth of a tree. *)
From Coq Require Import List PeanoNat Bool Lia Sorted.
From Verif Require Import Base Spec MapSpec SpecFacts Vec BTreeModel BTreeProofs BTreeProofs2
  BTreeIterModel BTreeIterProofs BTreeIterProofs2 BTreeRangeProofs.
Import ListNotations.
Local Hint Constructors Forall2 Forall : core.

Section Pos.
  Lemma mapi_nth {A B} (f : nat -> A -> B) l : forall i j,
    nth_error (mapi_from i f l) j = option_map (f (i + j)) (nth_error l j).
  Proof.
    induction l as [|x l IH]; intros i [|j]; cbn [mapi_from nth_error option_map]; auto.
    - now rewrite Nat.add_0_r.
    - rewrite IH. now replace (S i + j) with (i + S j) by lia.
  Qed.
  Lemma mapi_length {A B} (f : nat -> A -> B) l : forall i, length (mapi_from i f l) = length l.
  Proof. induction l; intros i; cbn; auto. Qed.
  Lemma mapi_app {A B} (f : nat -> A -> B) l r : forall i,
    mapi_from i f (l ++ r) = mapi_from i f l ++ mapi_from (i + length l) f r.
  Proof.
    induction l as [|x l IH]; intros i; cbn [app mapi_from length].
    - now rewrite Nat.add_0_r.
    - rewrite IH. now replace (S i + length l) with (i + S (length l)) by lia.
  Qed.
  Lemma mapi_map {A B C} (g : B -> C) (f : nat -> A -> B) (h : A -> C) l : forall i,
    (forall i x, In x l -> g (f i x) = h x) -> map g (mapi_from i f l) = map h l.
  Proof.
    induction l as [|x l IH]; intros i H; cbn; auto. rewrite H by (now left).
    f_equal. apply IH. intros j y Hy. apply H. now right.
  Qed.
  Lemma mapi_Forall {A B} (P : A -> Prop) (R : B -> Prop) (f : nat -> A -> B) l : forall i,
    (forall i x, P x -> R (f i x)) -> Forall P l -> Forall R (mapi_from i f l).
  Proof. intros i H F. revert i. induction F; intros i; cbn; auto. Qed.

  (** The i-th item of a woven list is a separator or an item of a child. *)
  Lemma upd_app1 {K V} (w : V -> V) (r : list (K * V)) : forall l i, i < length l -> upd_nth i w (l ++ r) = upd_nth i w l ++ r.
  Proof.
    induction l as [|[k v] l IH]; intros [|i] Hi; cbn in Hi; try lia; auto.
    cbn [app upd_nth]. f_equal. apply IH. lia.
  Qed.
  Lemma upd_app2 {K V} (w : V -> V) (r : list (K * V)) : forall l i, length l <= i -> upd_nth i w (l ++ r) = l ++ upd_nth (i - length l) w r.
  Proof.
    induction l as [|[k v] l IH]; intros i Hi; cbn [length app] in *.
    - now rewrite Nat.sub_0_r.
    - destruct i as [|i]; [lia|]. cbn [upd_nth]. f_equal. rewrite IH by lia. reflexivity.
  Qed.
  Lemma upd_keys {K V} (w : V -> V) : forall (l : list (K * V)) i, map fst (upd_nth i w l) = map fst l.
  Proof. induction l as [|[k v] l IH]; intros [|i]; cbn [upd_nth map]; auto. now rewrite IH. Qed.
  Lemma upd_len {K V} (w : V -> V) (l : list (K * V)) i : length (upd_nth i w l) = length l.
  Proof. now rewrite <- (map_length fst (upd_nth i w l)), upd_keys, map_length. Qed.
  Lemma upd_set_at {K V} (w : V -> V) : forall (l : list (K * V)) i e, nth_error l i = Some e ->
    set_at i (fst e, w (snd e)) l = upd_nth i w l.
  Proof.
    intros l i e E. destruct (cut_mid i l) as (l1 & x & l2 & -> & Hl).
    { apply nth_error_Some. congruence. }
    rewrite (nth_mid l1 x l2 i) in E by auto. injection E as ->. rewrite set_at_mid by auto.
    rewrite upd_app2 by lia. rewrite Hl, Nat.sub_diag. now destruct e.
  Qed.

  Lemma set_at_S {A} i (x y : A) l : set_at (S i) x (y :: l) = y :: set_at i x l.
  Proof. unfold set_at. cbn [skipn firstn]. now destruct (skipn i l). Qed.

  Lemma weave_at {K V} (es : list (K * V)) : forall L i x, length L = S (length es) ->
    nth_error (weave L es) i = Some x ->
    (exists j, nth_error es j = Some x
       /\ forall w, upd_nth i w (weave L es) = weave L (upd_nth j w es))
    \/ (exists j l i', nth_error L j = Some l /\ nth_error l i' = Some x
       /\ forall w, upd_nth i w (weave L es) = weave (set_at j (upd_nth i' w l) L) es).
  Proof.
    induction es as [|e es IH]; intros L i x HL E.
    - destruct L as [|l [|]]; try discriminate. cbn [weave concat] in *. rewrite app_nil_r in *.
      right. exists 0, l, i. repeat split; auto. intros w. cbn. now rewrite !app_nil_r.
    - destruct L as [|l L]; [discriminate|]. cbn in HL. cbn [weave] in *.
      destruct (Nat.lt_ge_cases i (length l)) as [Hi|Hi].
      + rewrite nth_error_app1 in E by auto. right. exists 0, l, i. repeat split; auto.
        intros w. rewrite upd_app1 by auto. reflexivity.
      + rewrite nth_error_app2 in E by auto.
        destruct (i - length l) as [|i1] eqn:Ei.
        * left. exists 0. split; auto. intros w. rewrite upd_app2, Ei by auto. now destruct e.
        * cbn [nth_error] in E. destruct (IH L i1 x) as [(j & E1 & E2)|(j & l' & i' & E1 & E2 & E3)]; auto.
          -- left. exists (S j). split; auto. intros w. rewrite upd_app2, Ei by auto.
             destruct e as [k v]. cbn [upd_nth]. now rewrite E2.
          -- right. exists (S j), l', i'. repeat split; auto. intros w. rewrite upd_app2, Ei by auto.
             destruct e as [k v]. cbn [upd_nth]. rewrite set_at_S. cbn [weave]. now rewrite E3.
  Qed.

  Lemma weave_map {A B} (f : A -> B) : forall L es, map f (weave L es) = weave (map (map f) L) (map f es).
  Proof.
    induction L as [|l L IH]; intros es; cbn [weave map]; auto. rewrite map_app. f_equal.
    destruct es as [|e es]; cbn [map]; [|now rewrite IH].
    now rewrite concat_map.
  Qed.
End Pos.

Lemma asc_qs {K V Q} (bor : K -> Q) cmp (l : list (K * V)) :
  ascending bor cmp l <-> StronglySorted (fun a b => cmp a b = Lt) (map (fun e => bor (fst e)) l).
Proof.
  unfold ascending. induction l as [|e l IH]; cbn [map]; [split; constructor|]. split; intros H; inversion H; subst.
  - constructor; [now apply IH|]. now apply Forall_map.
  - constructor; [now apply IH|]. now apply Forall_map in H3.
Qed.

Section BTreeMutProofs.
  Context {K V Q : Type} (bor : K -> Q) (cmp : Q -> Q -> comparison).
  Context (N : nat).
  Notation bt := (bt K V).
  Notation entry := (K * V)%type.
  Notation bref := (@bref K).
  Notation shape := (@shape K V N).
  Notation flat := (@flat K V).
  Notation valid := (@valid K V Q bor cmp N).

  Definition pos_of (p : list nat) (i : nat) (e : entry) : bref * V := (((p, i), fst e), snd e).
  Definition unpos (r : bref * V) : entry := (snd (fst r), snd r).

  Lemma with_pos_eq p es ks : with_pos p (BN es ks) =
    BN (mapi_from 0 (pos_of p) es) (mapi_from 0 (fun i c => with_pos (p ++ [i]) c) ks).
  Proof.
    cbn [with_pos]. f_equal. generalize 0. induction ks as [|c ks IH]; intros i; cbn [mapi_from]; auto.
    now rewrite IH.
  Qed.

  Lemma with_pos_ok h : forall mn t p, shape mn h t ->
    BTreeProofs.shape N mn h (with_pos p t) /\ map unpos (BTreeProofs.flat (with_pos p t)) = flat t.
  Proof.
    induction h as [|h IH]; intros mn t p S.
    - apply shape_0 in S as (es & -> & Hl). rewrite with_pos_eq. cbn [mapi_from]. split.
      + constructor. now rewrite mapi_length.
      + cbn. rewrite (mapi_map _ _ (fun e => e)), map_id; auto. now intros i [].
    - apply shape_S in S as (es & ks & -> & Hl & Hk & F). rewrite with_pos_eq. split.
      + constructor; rewrite ?mapi_length; auto. eapply mapi_Forall; [|exact F].
        intros i c Hc. apply (IH N c (p ++ [i]) Hc).
      + cbn [BTreeProofs.flat]. rewrite weave_map. f_equal.
        * rewrite map_map. rewrite (mapi_map _ _ flat); auto. intros i c Hc.
          apply (IH N). rewrite Forall_forall in F. auto.
        * rewrite (mapi_map _ _ (fun e => e)), map_id; auto. now intros i [].
  Qed.

  Lemma mapi_set {A B} (f : nat -> A -> B) l j x : j < length l ->
    mapi_from 0 f (set_at j x l) = set_at j (f j x) (mapi_from 0 f l).
  Proof.
    intros Hj. destruct (cut_mid j l) as (l1 & y & l2 & -> & Hl); auto.
    rewrite set_at_mid by auto. rewrite !mapi_app. cbn [mapi_from].
    rewrite set_at_mid by (now rewrite mapi_length). now rewrite Hl.
  Qed.
  Lemma mapi_upd p l j (w : V -> V) : mapi_from 0 (pos_of p) (upd_nth j w l) = upd_nth j w (mapi_from 0 (pos_of p) l).
  Proof.
    generalize 0. revert j. induction l as [|[k v] l IH]; intros [|j] i; cbn [upd_nth mapi_from]; auto.
    unfold pos_of at 1 3. cbn [fst snd]. now rewrite IH.
  Qed.
  Lemma map_set {A B} (f : A -> B) l j x : map f (set_at j x l) = set_at j (f x) (map f l).
  Proof.
    unfold set_at. rewrite skipn_map. destruct (skipn j l); cbn [map]; auto.
    now rewrite map_app, firstn_map.
  Qed.
  Lemma Forall_set {A} (P : A -> Prop) l j x : Forall P l -> P x -> Forall P (set_at j x l).
  Proof.
    intros F H. unfold set_at. destruct (skipn j l) as [|y r] eqn:E; auto.
    rewrite <- (firstn_skipn j l), E in F. apply Forall_app in F as [F1 F2]. inversion F2; subst.
    apply Forall_app. auto.
  Qed.

  Lemma write_ok h : forall mn t p i x, shape mn h t ->
    nth_error (BTreeProofs.flat (with_pos p t)) i = Some x ->
    exists q j, fst (fst x) = (p ++ q, j) /\ forall w, shape mn h (n_write q j w t)
      /\ BTreeProofs.flat (with_pos p (n_write q j w t)) = upd_nth i w (BTreeProofs.flat (with_pos p t)).
  Proof.
    induction h as [|h IH]; intros mn t p i x S E.
    - apply shape_0 in S as (es & -> & Hl). rewrite with_pos_eq in E. cbn [mapi_from BTreeProofs.flat map weave] in E.
      rewrite mapi_nth in E. cbn [Nat.add] in E.
      destruct (nth_error es i) as [e|] eqn:Ee; [|discriminate]. injection E as <-.
      exists [], i. rewrite app_nil_r. split; auto. intros w. cbn [n_write]. rewrite Ee.
      rewrite upd_set_at by auto. split.
      + constructor. now rewrite upd_len.
      + rewrite !with_pos_eq. cbn [mapi_from BTreeProofs.flat map weave]. apply mapi_upd.
    - apply shape_S in S as (es & ks & -> & Hl & Hk & F). rewrite with_pos_eq in *. cbn [BTreeProofs.flat] in *.
      apply weave_at in E; [|now rewrite map_length, !mapi_length].
      destruct E as [(j & E1 & E2)|(j & l & i' & E1 & E2 & E3)].
      + rewrite mapi_nth in E1. cbn [Nat.add] in E1. destruct (nth_error es j) as [e|] eqn:Ee; [|discriminate]. injection E1 as <-.
        exists [], j. rewrite app_nil_r. split; auto. intros w. cbn [n_write]. rewrite Ee.
        rewrite upd_set_at by auto. split.
        * constructor; rewrite ?upd_len; auto.
        * rewrite !with_pos_eq. cbn [BTreeProofs.flat]. rewrite E2. now rewrite mapi_upd.
      + rewrite nth_error_map, mapi_nth in E1. cbn [Nat.add] in E1.
        destruct (nth_error ks j) as [c|] eqn:Ec; [|discriminate]. cbn in E1. injection E1 as <-.
        assert (Sc : shape N h c). { rewrite Forall_forall in F. apply F. eapply nth_error_In; eauto. }
        assert (Hj : j < length ks) by (apply nth_error_Some; congruence).
        destruct (IH N c (p ++ [j]) i' x Sc E2) as (q & j' & Hx & Hw).
        exists (j :: q), j'. rewrite <- app_assoc in Hx. split; auto. intros w.
        cbn [n_write]. rewrite nth_error_map, Ec. cbn [option_map]. destruct (Hw w) as [S' Fw]. split.
        * constructor; rewrite ?set_at_length; auto. now apply Forall_set.
        * rewrite with_pos_eq. cbn [BTreeProofs.flat]. rewrite mapi_set by auto. rewrite E3, map_set, Fw. reflexivity.
  Qed.

  Notation mbor := (fun r : bref => bor (snd r)).
  Notation mvalid := (@BTreeProofs2.valid bref V Q mbor cmp N).

  Lemma unpos_keys (refs : list (bref * V)) : map bor (map fst (map unpos refs)) = map mbor (map fst refs).
  Proof. rewrite !map_map. reflexivity. Qed.
  Lemma asc_unpos (refs : list (bref * V)) : ascending bor cmp (map unpos refs) <-> ascending mbor cmp refs.
  Proof. rewrite !asc_qs, map_map. reflexivity. Qed.

  Lemma map_pos_ok m : valid m -> mvalid (map_pos m) /\ map unpos (contents (map_pos m)) = contents m.
  Proof.
    intros (A & L & S). unfold BTreeProofs2.valid, map_pos, contents in *. cbn [bm_root bm_len].
    destruct (bm_root m) as [t|]; cbn [option_map].
    - destruct S as [h S]. destruct (with_pos_ok h 1 t [] S) as [S' F]. split; auto. split; [|split; eauto].
      + apply asc_unpos. now rewrite F.
      + rewrite L, <- F. apply map_length.
    - repeat split; auto. constructor.
  Qed.

  Lemma b_write_ok m i x w : valid m -> nth_error (contents (map_pos m)) i = Some x ->
    valid (b_write (fst x) w m) /\ contents (b_write (fst x) w m) = upd_nth i w (contents m)
    /\ contents (map_pos (b_write (fst x) w m)) = upd_nth i w (contents (map_pos m)).
  Proof.
    intros Hv E. destruct m as [len [t|]]; unfold map_pos, contents in E; cbn [bm_root option_map] in E;
      [|now rewrite nth_nil in E].
    pose proof Hv as (A & L & h & S).
    destruct (write_ok h 1 t [] i x S E) as (q & j & Hx & Hw). destruct (Hw w) as [S' F']. cbn [app] in Hx.
    unfold b_write, map_pos. rewrite Hx. cbn [fst snd bm_root bm_len option_map].
    assert (F : flat (n_write q j w t) = upd_nth i w (flat t)).
    { rewrite <- (proj2 (with_pos_ok h 1 _ [] S')), F', <- (proj2 (with_pos_ok h 1 _ [] S)).
      generalize (BTreeProofs.flat (with_pos [] t)). clear. intros l. revert i.
      induction l as [|[r v] l IH]; intros [|i]; cbn [upd_nth map unpos]; auto. now rewrite IH. }
    split; [|split; auto]. unfold BTreeProofs2.valid, contents in *. cbn [bm_root bm_len] in *. rewrite F. split; [|split; eauto].
    - apply asc_qs. rewrite <- map_map, upd_keys, map_map. now apply asc_qs in A.
    - now rewrite upd_len.
  Qed.

  (** Any number of writes through the references of one iteration, in any order. *)
  Definition writes (refs : list (bref * V)) (ws : list (nat * (V -> V))) (m : bt_map K V) : bt_map K V :=
    fold_left (fun m iw => match nth_error refs (fst iw) with
                           | Some r => b_write (fst r) (snd iw) m
                           | None => m
                           end) ws m.

  Lemma nth_keys {A B} : forall (l l' : list (A * B)) i, map fst l = map fst l' ->
    option_map fst (nth_error l i) = option_map fst (nth_error l' i).
  Proof. intros l l' i E. rewrite <- !nth_error_map. now rewrite E. Qed.
  Lemma upd_none (w : V -> V) : forall (l : list entry) i, nth_error l i = None -> upd_nth i w l = l.
  Proof.
    induction l as [|[k v] l IH]; intros [|i] E; cbn in *; try discriminate; auto. now rewrite IH.
  Qed.

  Lemma writes_ok refs ws : forall m, valid m -> map fst refs = map fst (contents (map_pos m)) ->
    valid (writes refs ws m)
    /\ contents (writes refs ws m) = fold_left (fun l iw => upd_nth (fst iw) (snd iw) l) ws (contents m)
    /\ map fst refs = map fst (contents (map_pos (writes refs ws m))).
  Proof.
    induction ws as [|[i w] ws IH]; intros m Hv E; cbn [writes fold_left fst snd]; auto.
    fold (writes refs ws). pose proof (nth_keys _ _ i E) as En.
    destruct (nth_error refs i) as [r|] eqn:Er.
    - destruct (nth_error (contents (map_pos m)) i) as [x|] eqn:Ex; [|discriminate]. cbn in En. injection En as ->.
      destruct (b_write_ok m i x w Hv Ex) as (H1 & H2 & H3). rewrite <- H2. apply IH; auto.
      now rewrite H3, upd_keys.
    - destruct (nth_error (contents (map_pos m)) i) as [x|] eqn:Ex; [discriminate|].
      rewrite (upd_none w (contents m) i); [now apply IH|].
      rewrite <- (proj2 (map_pos_ok m Hv)), nth_error_map, Ex. reflexivity.
  Qed.

  (** *** Depth *)
  Lemma levels h : forall mn t, shape mn h t -> n_levels t = S h.
  Proof.
    induction h as [|h IH]; intros mn t S.
    - apply shape_0 in S as (es & -> & _). reflexivity.
    - apply shape_S in S as (es & ks & -> & _ & Hk & F). cbn [n_levels]. f_equal.
      destruct ks as [|c ks]; [discriminate|]. clear Hk.
      assert (G : forall ks, Forall (shape N h) ks -> fold_right (fun c s => Nat.max (n_levels c) s) 0 ks <= Datatypes.S h).
      { intros l Fl. induction Fl as [|x l Hx Fl IHl]; cbn; [lia|]. rewrite (IH _ _ Hx). lia. }
      inversion F; subst. cbn [fold_right]. rewrite (IH _ _ H1). specialize (G ks H2). lia.
  Qed.

  Lemma count_bounds h : forall mn t, shape mn h t ->
    (mn + 1) * (N + 1) ^ h <= length (flat t) + 1 <= (2 * N + 2) ^ (h + 1).
  Proof.
    induction h as [|h IH]; intros mn t S.
    - apply shape_0 in S as (es & -> & Hl). cbn [BTreeProofs.flat map weave]. unfold MAX_OCC in Hl.
      rewrite Nat.pow_0_r. change (0 + 1) with 1. rewrite Nat.pow_1_r. lia.
    - apply shape_S in S as (es & ks & -> & Hl & Hk & F). cbn [BTreeProofs.flat]. unfold MAX_OCC in Hl.
      rewrite weave_length by (rewrite map_length; lia).
      assert (G : length ks * ((N + 1) * (N + 1) ^ h) <= length (concat (map flat ks)) + length ks
                  <= length ks * (2 * N + 2) ^ (h + 1)).
      { clear Hk Hl. induction F as [|c ks Hc F IHF]; cbn [map concat length]; [lia|]. rewrite app_length.
        specialize (IH N c Hc). lia. }
      rewrite Nat.pow_succ_r' . replace (Datatypes.S h + 1) with (Datatypes.S (h + 1)) by lia. rewrite Nat.pow_succ_r'.
      rewrite Hk in G. set (a := (N + 1) * (N + 1) ^ h) in *. set (b := (2 * N + 2) ^ (h + 1)) in *.
      clearbody a b. clear IH F Hk. nia.
  Qed.
End BTreeMutProofs.
