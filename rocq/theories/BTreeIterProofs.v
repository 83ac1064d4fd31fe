(** Proofs about the B-tree iterators. *)
From Coq Require Import List PeanoNat Bool Lia.
From Verif Require Import Base Spec SpecFacts Vec BTreeModel BTreeProofs BTreeProofs2 BTreeIterModel.
Import ListNotations.
Local Hint Constructors Forall2 Forall : core.

(** ** One [InnerIter] simulating another *)
Section Sim.
  Context {EA CA EB CB I : Type} (A : node_iter EA CA I) (B : node_iter EB CB I).
  Context (RE : EA -> EB -> Prop) (RC : CA -> CB -> Prop).
  Definition opt_rel (x : option CA) (y : option CB) : Prop :=
    match x, y with Some a, Some b => RC a b | None, None => True | _, _ => False end.
  Context (H_empty : forall a b, RE a b -> ni_empty A a = ni_empty B b).
  Context (H_lf : forall a b, RE a b -> ni_lf A a = ni_lf B b).
  Context (H_fuel : forall a b, RE a b -> ni_fuel B b <= ni_fuel A a).
  Context (H_elem : forall a b x b', RE a b -> ni_next_elem B b = Ok (x, b') ->
    exists a', ni_next_elem A a = Ok (x, a') /\ RE a' b').
  Context (H_kid : forall a b c b', RE a b -> ni_next_kid B b = Ok (c, b') ->
    exists ca a', ni_next_kid A a = Ok (ca, a') /\ opt_rel ca c /\ RE a' b').
  Context (H_make : forall ca cb, RC ca cb -> RE (ni_make A ca) (ni_make B cb)).

  Lemma des_lf_sim f wb : forall f' wa wb', f <= f' -> Forall2 RE wa wb -> des_lf B f wb = Ok wb' ->
    exists wa', des_lf A f' wa = Ok wa' /\ Forall2 RE wa' wb'.
  Proof.
    revert wb. induction f as [|f IH]; intros wb f' wa wb' Hf R E; [discriminate|].
    destruct f' as [|f']; [lia|]. inversion R as [|a b wa0 wb0 Rab R0]; subst; [discriminate|].
    cbn [des_lf] in *. destruct (ni_next_kid B b) as [[c b']|] eqn:Ek; [|discriminate]. cbn [bind] in E.
    destruct (H_kid _ _ _ _ Rab Ek) as (ca & a' & Ek' & Rc & Ra). rewrite Ek'. cbn [bind].
    destruct c as [c|], ca as [ca|]; try contradiction.
    - eapply IH; [|  |exact E]; [lia|].
      constructor; [now apply H_make|]. rewrite (H_empty _ _ Ra). destruct (ni_empty B b'); auto using Forall2_cons.
    - injection E as <-. eauto using Forall2_cons.
  Qed.

  Lemma next_sim ia ib x ib' : Forall2 RE (bi_work ia) (bi_work ib) -> bi_len ia = bi_len ib ->
    b_next B ib = Ok (x, ib') ->
    exists ia', b_next A ia = Ok (x, ia') /\ Forall2 RE (bi_work ia') (bi_work ib') /\ bi_len ia' = bi_len ib'.
  Proof.
    destruct ia as [wa0 n], ib as [wb0 n']. cbn [bi_work bi_len]. intros R <- E.
    unfold b_next in *. cbn [bi_work bi_len] in *.
    destruct R as [|a b wa wb Rab R0].
    - injection E as <- <-. eexists. split; [reflexivity|]. cbn. auto.
    - rewrite (H_lf _ _ Rab).
      assert (G : forall wb1, (if ni_lf B b then des_lf B (ni_fuel B b) (b :: wb) else Ok (b :: wb)) = Ok wb1 ->
        exists wa1, (if ni_lf B b then des_lf A (ni_fuel A a) (a :: wa) else Ok (a :: wa)) = Ok wa1
          /\ Forall2 RE wa1 wb1).
      { intros wb1 E1. destruct (ni_lf B b).
        - eapply des_lf_sim; [|  |exact E1]; auto using Forall2_cons.
        - injection E1 as <-. eauto using Forall2_cons. }
      destruct (if ni_lf B b then des_lf B (ni_fuel B b) (b :: wb) else Ok (b :: wb)) as [wb1|]; [|discriminate].
      destruct (G wb1 eq_refl) as (wa1 & Ea1 & R1). rewrite Ea1. cbn [bind] in *.
      inversion R1 as [|a1 b1 wa2 wb2 Rab1 R2]; subst; [discriminate|].
      destruct (ni_next_elem B b1) as [[y b2]|] eqn:Ey; [|discriminate]. cbn [bind] in E.
      destruct (H_elem _ _ _ _ Rab1 Ey) as (a2 & Ey' & Ra2). rewrite Ey'. cbn [bind].
      destruct y as [y|]; [|discriminate]. cbn [assert_ bind] in *.
      destruct (usize_sub n 1) as [n1|]; [|discriminate]. cbn [bind] in *. injection E as <- <-.
      eexists. split; [reflexivity|]. cbn. rewrite (H_empty _ _ Ra2). destruct (ni_empty B b2); auto using Forall2_cons.
  Qed.
End Sim.

(** ** The back is the front of the reversed worklist *)
Section Swap.
  Context {E C I : Type} (ops : node_iter E C I).
  Definition swap : node_iter E C I :=
    NodeIter _ _ _ (ni_empty ops) (ni_next_back_elem ops) (ni_next_elem ops)
             (ni_next_back_kid ops) (ni_next_kid ops) (ni_rt ops) (ni_lf ops) (ni_make ops) (ni_fuel ops).

  Lemma des_rt_swap f w : des_rt ops f w = (w' <- des_lf swap f (rev w);; Ok (rev w')).
  Proof.
    revert w. induction f as [|f IH]; intros w; [reflexivity|].
    cbn [des_rt des_lf]. unfold vec_pop. destruct (rev w) as [|e r]; [reflexivity|].
    cbn [unwrap bind]. cbn [swap ni_next_kid]. destruct (ni_next_back_kid ops e) as [[c e1]|]; [|reflexivity].
    cbn [bind]. destruct c as [c|].
    - rewrite IH, rev_app_distr. cbn [rev app]. cbn [swap ni_empty ni_make].
      destruct (ni_empty ops e1); [now rewrite rev_involutive|].
      rewrite rev_app_distr, rev_involutive. reflexivity.
    - reflexivity.
  Qed.

  Lemma next_back_eq it : b_next_back ops it =
    ('(x, it') <- b_next swap (BIter (rev (bi_work it)) (bi_len it));;
     Ok (x, BIter (rev (bi_work it')) (bi_len it'))).
  Proof.
    unfold b_next, b_next_back. cbn [bi_work bi_len]. unfold vec_pop at 1.
    destruct (rev (bi_work it)) as [|e r] eqn:Er.
    - cbn. destruct it as [w n]. cbn in *.
      assert (w = []) as -> by (rewrite <- (rev_involutive w), Er; reflexivity). reflexivity.
    - cbn [swap ni_lf ni_fuel]. fold swap.
      replace (if ni_rt ops e then des_rt ops (ni_fuel ops e) (bi_work it) else Ok (bi_work it))
        with (w' <- (if ni_rt ops e then des_lf swap (ni_fuel ops e) (e :: r) else Ok (e :: r));; Ok (rev w')).
      2:{ destruct (ni_rt ops e); [now rewrite des_rt_swap, Er|]. cbn [bind]. now rewrite <- Er, rev_involutive. }
      destruct (if ni_rt ops e then des_lf swap (ni_fuel ops e) (e :: r) else Ok (e :: r)) as [w1|]; [|reflexivity].
      cbn [bind]. destruct w1 as [|e1 w1]; [reflexivity|]. cbn [rev]. rewrite vec_pop_snoc. cbn [unwrap bind].
      cbn [swap ni_next_elem ni_empty]. destruct (ni_next_back_elem ops e1) as [[y e2]|]; [|reflexivity].
      cbn [bind]. destruct (assert_ _); [|reflexivity]. cbn [bind].
      destruct (usize_sub (bi_len it) 1); [|reflexivity]. cbn [bind bi_work bi_len].
      destruct (ni_empty ops e2); reflexivity.
  Qed.
End Swap.

(** ** Borrowed iteration *)
Section Borrowed.
  Context {K V : Type}.
  Notation bt := (bt K V).
  Notation entry := (K * V)%type.
  Notation flat := (@flat K V).
  Notation erg := (erg K V).
  Notation borrowed := (@borrowed K V).

  (** Trees that can be iterated forwards; and from both ends. *)
  Inductive fwd : bt -> Prop :=
  | fwd_leaf es : es <> [] -> fwd (BN es [])
  | fwd_branch es ks : ks <> [] -> length ks <= S (length es) -> Forall fwd ks -> fwd (BN es ks).
  Inductive tidy : bt -> Prop :=
  | tidy_leaf es : es <> [] -> tidy (BN es [])
  | tidy_branch es ks : length ks = S (length es) -> Forall tidy ks -> tidy (BN es ks).

  Definition max_levels (ks : list bt) : nat := fold_right (fun c s => Nat.max (n_levels c) s) 0 ks.
  Lemma max_levels_in c ks : In c ks -> n_levels c <= max_levels ks.
  Proof.
    induction ks as [|a ks IH]; [easy|]. unfold max_levels in *. cbn [fold_right]. intros [->|H]; [lia|].
    specialize (IH H). lia.
  Qed.
  Lemma max_levels_le ks n : (forall c, In c ks -> n_levels c <= n) -> max_levels ks <= n.
  Proof.
    intros H. induction ks as [|a ks IH]; [cbn; lia|]. unfold max_levels in *. cbn [fold_right].
    pose proof (H a (or_introl eq_refl)). specialize (IH (fun c Hc => H c (or_intror Hc))). lia.
  Qed.
  Lemma levels_eq es ks : n_levels (BN es ks) = S (max_levels ks).
  Proof. reflexivity. Qed.

  Lemma tidy_fwd t : tidy t -> fwd t.
  Proof.
    remember (n_levels t) as n eqn:En. assert (Hn : n_levels t <= n) by lia. clear En. revert t Hn.
    induction n as [|n IH]; intros t Hn H; [destruct t; cbn in Hn; lia|].
    inversion H as [es He|es ks L F]; subst; constructor; auto; try lia.
    - destruct ks; [discriminate|easy].
    - rewrite Forall_forall in *. intros c Hc. apply IH; auto.
      rewrite levels_eq in Hn. pose proof (max_levels_in c ks Hc). lia.
  Qed.

  Lemma fwd_nonempty t : fwd t -> flat t <> [].
  Proof.
    remember (n_levels t) as n eqn:En. assert (Hn : n_levels t <= n) by lia. clear En. revert t Hn.
    induction n as [|n IH]; intros t Hn H; [destruct t; cbn in Hn; lia|].
    inversion H as [es He|es ks Hk L F]; subst; [exact He|].
    destruct ks as [|c ks]; [congruence|]. rewrite levels_eq in Hn.
    pose proof (max_levels_in c (c :: ks) (or_introl eq_refl)).
    cbn [BTreeProofs.flat map weave]. intros X. apply app_eq_nil in X as [X _].
    inversion F; subst. revert X. apply IH; auto. lia.
  Qed.
  Lemma fwd_count t : fwd t -> n_count t = length (flat t).
  Proof.
    remember (n_levels t) as n eqn:En. assert (Hn : n_levels t <= n) by lia. clear En. revert t Hn.
    induction n as [|n IH]; intros t Hn H; [destruct t; cbn in Hn; lia|].
    inversion H as [es He|es ks Hk L F]; subst.
    - cbn. lia.
    - cbn [n_count BTreeProofs.flat]. rewrite weave_length by (rewrite map_length; lia).
      rewrite levels_eq in Hn.
      assert (G : forall c, In c ks -> n_count c = length (flat c)).
      { intros c Hc. apply IH; [pose proof (max_levels_in c ks Hc); lia|]. rewrite Forall_forall in F. auto. }
      rewrite Nat.add_comm. f_equal. clear - G. induction ks as [|c ks IHk]; [reflexivity|].
      cbn [fold_right map concat]. rewrite app_length, <- (G c (or_introl eq_refl)).
      rewrite <- IHk; auto. intros c' Hc. apply G. now right.
  Qed.

  Lemma shape_tidy N mn h t : 1 <= N -> 1 <= mn -> shape N mn h t -> tidy t.
  Proof.
    intros HN. revert mn t. induction h as [|h IH]; intros mn t Hm S.
    - destruct (shape_0 _ _ _ S) as (es & -> & Hb). constructor. destruct es; [cbn in Hb; lia|easy].
    - destruct (shape_S _ _ _ _ S) as (es & ks & -> & Hb & Hk & HF). constructor; auto.
      rewrite Forall_forall in *. intros c Hc. eapply IH; [|eauto]. auto.
  Qed.

  (** What a node iterator will still yield. *)
  Definition den (g : erg) : list entry :=
    let ks := map flat (g_kids g) in
    if g_lf g then weave ks (g_elems g)
    else match g_elems g with [] => [] | e :: es => e :: weave ks es end.
  Definition dens (w : list erg) : list entry := concat (map den w).

  Definition erg_ok (g : erg) : Prop :=
    (g_kids g = [] /\ g_elems g <> []) \/
    (g_kids g <> [] /\ Forall fwd (g_kids g) /\ length (g_kids g) <= length (g_elems g) + Nat.b2n (g_lf g)).
  Definition bal (g : erg) : Prop :=
    g_kids g = [] \/
    (Forall tidy (g_kids g) /\
     length (g_kids g) + 1 = length (g_elems g) + Nat.b2n (g_lf g) + Nat.b2n (g_rt g)).

  Lemma den_leaf es l r : es <> [] -> den (Erg es [] l r) = es.
  Proof. intros H. unfold den. cbn. destruct l; auto. destruct es; congruence. Qed.
  Lemma den_nonempty g : erg_ok g -> den g <> [].
  Proof.
    destruct g as [es ks l r]. intros [[E1 E2]|(E1 & E2 & E3)]; cbn in *.
    - subst. now rewrite den_leaf.
    - unfold den. cbn. destruct ks as [|c ks]; [congruence|]. inversion E2; subst. destruct l.
      + cbn [map weave]. intros X. apply app_eq_nil in X as [X _]. now apply fwd_nonempty in X.
      + destruct es; [cbn in E3; lia|easy].
  Qed.

  Lemma make_ok t : fwd t -> erg_ok (g_make t) /\ den (g_make t) = flat t
    /\ (g_lf (g_make t) = true \/ g_kids (g_make t) = []).
  Proof.
    intros H. inversion H as [es He|es ks Hk L F]; subst.
    - split; [left; auto|]. split; [|right; reflexivity]. now apply den_leaf.
    - destruct ks as [|c ks]; [congruence|]. split; [|split; [reflexivity|left; reflexivity]].
      right. cbn in *. repeat split; auto. lia.
  Qed.
  Lemma make_bal t : tidy t -> bal (g_make t).
  Proof.
    intros H. inversion H as [es He|es ks L F]; subst; [now left|].
    right. destruct ks as [|c ks]; [discriminate|]. cbn in *. split; auto. lia.
  Qed.

  Lemma des_lf_ok f : forall g w, erg_ok g -> g_lf g = true \/ g_kids g = [] ->
    max_levels (g_kids g) < f -> Forall erg_ok w ->
    exists g' w', des_lf borrowed f (g :: w) = Ok (g' :: w')
      /\ erg_ok g' /\ g_lf g' = false /\ Forall erg_ok w' /\ dens (g' :: w') = dens (g :: w)
      /\ (bal g -> Forall bal w -> bal g' /\ Forall bal w').
  Proof.
    induction f as [|f IH]; intros [es ks l r] w Hg Hl Hf Hw; [lia|].
    cbn [g_kids g_lf] in *. cbn [des_lf]. cbn [borrowed BTreeIterModel.borrowed ni_next_kid].
    unfold g_next_kid. cbn [g_kids g_lf g_elems g_rt].
    destruct ks as [|c ks].
    - cbn [is_nil orb assert_ bind hd_error tl]. destruct Hg as [[_ He]|[X _]]; [|now cbn in X]. cbn in He.
      eexists _, _. split; [reflexivity|]. split; [left; auto|]. split; auto. split; auto. split.
      + unfold dens. cbn [map concat]. now rewrite !den_leaf.
      + intros _ Bw. split; [now left|auto].
    - destruct Hl as [->|X]; [|discriminate]. cbn [is_nil orb assert_ bind hd_error tl ni_empty ni_make].
      destruct Hg as [[X _]|(_ & F & L)]; [discriminate|]. cbn in F, L. inversion F as [|? ? Fc F']; subst.
      destruct (make_ok c Fc) as (M1 & M2 & M3).
      set (g1 := Erg es ks false r). fold g1.
      assert (Hfc : max_levels (g_kids (g_make c)) < f).
      { destruct c as [ces cks]. cbn [g_make g_kids].
        pose proof (max_levels_in (BN ces cks) (BN ces cks :: ks) (or_introl eq_refl)) as X.
        rewrite levels_eq in X. lia. }
      assert (Hd : den (Erg es (c :: ks) true r) = flat c ++ den g1).
      { unfold den, g1. cbn. destruct es as [|e es]; auto.
        cbn in L. destruct ks; [|cbn in L; lia]. reflexivity. }
      assert (Hw1 : Forall erg_ok (if g_empty g1 then w else g1 :: w)
                    /\ dens (if g_empty g1 then w else g1 :: w) = den g1 ++ dens w).
      { unfold g_empty. subst g1. cbn [g_elems g_kids].
        destruct es as [|e es]; [destruct ks as [|c2 ks]|]; cbn [is_nil andb].
        - split; auto.
        - cbn in L. lia.
        - split; [|reflexivity]. constructor; auto.
          destruct ks; [left; cbn; split; congruence|right; cbn in *; repeat split; auto; try congruence; lia]. }
      destruct Hw1 as [Hw1 Hd1].
      destruct (IH (g_make c) (if g_empty g1 then w else g1 :: w) M1 M3 Hfc Hw1)
        as (g' & w' & E & G1 & G2 & G3 & G4 & G5).
      exists g', w'. split; [exact E|]. split; auto. split; auto. split; auto. split.
      + rewrite G4. unfold dens in *. cbn [map concat]. rewrite M2, Hd, Hd1, <- app_assoc. reflexivity.
      + intros [X|[Bk Bl]] Bw; [discriminate|]. cbn in Bk, Bl. inversion Bk; subst.
        apply G5; [now apply make_bal|].
        destruct (g_empty g1); auto. constructor; auto. right. cbn. split; auto. lia.
  Qed.

  Lemma next_ok w len : Forall erg_ok w -> (dens w <> [] -> 1 <= len) ->
    exists w', b_next borrowed (BIter w len) =
        Ok (hd_error (dens w), BIter w' (len - match dens w with [] => 0 | _ => 1 end))
      /\ Forall erg_ok w' /\ dens w' = tl (dens w) /\ (Forall bal w -> Forall bal w').
  Proof.
    intros Hw Hl. destruct w as [|g w].
    - exists []. cbn. rewrite Nat.sub_0_r. auto.
    - inversion Hw as [|? ? Hg Hw']; subst.
      assert (G : exists g' w', (if g_lf g then des_lf borrowed (g_fuel g) (g :: w) else Ok (g :: w)) = Ok (g' :: w')
        /\ erg_ok g' /\ g_lf g' = false /\ Forall erg_ok w' /\ dens (g' :: w') = dens (g :: w)
        /\ (bal g -> Forall bal w -> bal g' /\ Forall bal w')).
      { destruct (g_lf g) eqn:El.
        - apply des_lf_ok; auto. unfold g_fuel. fold (max_levels (g_kids g)). lia.
        - exists g, w. auto 8. }
      destruct G as (g' & w1 & E & G1 & G2 & G3 & G4 & G5).
      assert (Hne : dens (g :: w) <> []).
      { unfold dens. cbn [map concat]. intros X. apply app_eq_nil in X as [X _]. now apply den_nonempty in X. }
      specialize (Hl Hne). unfold b_next. cbn [bi_work bi_len ni_lf ni_fuel].
      change (ni_lf borrowed g) with (g_lf g). change (ni_fuel borrowed g) with (g_fuel g).
      rewrite E. cbn [bind]. change (ni_next_elem borrowed g') with (g_next_elem g').
      unfold g_next_elem. rewrite G2. cbn [negb assert_ bind]. rewrite <- G4 in *. clear E G4.
      destruct g' as [es ks l r]. cbn [g_elems g_kids g_lf g_rt] in *. subst l.
      destruct es as [|e es].
      { exfalso. destruct G1 as [[_ X]|(X & _ & Y)]; cbn in *; [congruence|]. destruct ks; [congruence|cbn in Y; lia]. }
      cbn [hd_error tl assert_ bind]. rewrite usize_sub_ok by lia. cbn [bind].
      assert (Ed : dens (Erg (e :: es) ks false r :: w1) = e :: weave (map flat ks) es ++ dens w1) by reflexivity.
      rewrite Ed. cbn [hd_error tl].
      set (g1 := Erg es ks (negb (is_nil ks)) r). change (ni_empty borrowed g1) with (g_empty g1).
      eexists. split; [reflexivity|].
      assert (Hd1 : ks = [] /\ es = [] \/ (g_empty g1 = false /\ erg_ok g1 /\ den g1 = weave (map flat ks) es)).
      { destruct ks as [|c ks].
        - destruct es as [|e1 es]; auto. right. split; [reflexivity|]. split; [left; split; easy|]. now apply den_leaf.
        - right. split; [unfold g_empty; cbn; now destruct es|]. split; [|reflexivity].
          right. destruct G1 as [[X _]|(_ & F & L)]; [discriminate|]. cbn in *. repeat split; auto; [easy|lia]. }
      destruct Hd1 as [[-> ->]|(E1 & E2 & E3)].
      + cbn [g1 g_empty g_elems g_kids is_nil andb]. unfold g_empty. cbn [g1 g_elems g_kids is_nil andb].
        split; auto. split; auto. intros B. inversion B; subst. apply G5; auto.
      + rewrite E1. split; auto. split; [unfold dens; cbn [map concat]; now rewrite E3|].
        intros B. inversion B; subst. destruct G5 as [[X|[X Y]] Bw]; auto; constructor; auto.
        * cbn in X. left. exact X.
        * cbn in *. right. cbn. split; auto. destruct ks as [|c ks]; cbn in *; [|lia].
          exfalso. unfold g_empty in E1. cbn in E1. destruct es; [discriminate|cbn in Y; lia].
  Qed.

  Lemma items_ok n w len : Forall erg_ok w -> length (dens w) <= len -> length (dens w) < n ->
    b_items borrowed n (BIter w len) = Ok (dens w).
  Proof.
    revert w len. induction n as [|n IH]; intros w len Hw Hl Hn; [lia|]. cbn [b_items].
    destruct (next_ok w len Hw) as (w' & E & Hw' & Hd & _).
    { destruct (dens w); [easy|cbn in Hl; lia]. }
    rewrite E. cbn [bind]. destruct (dens w) as [|e l]; [reflexivity|]. cbn [hd_error tl length] in *.
    rewrite IH; rewrite ?Hd; auto; lia.
  Qed.

  (** *** The mirror image *)
  Fixpoint mirror (t : bt) : bt := match t with BN es ks => BN (rev es) (rev (map mirror ks)) end.
  Definition mirror_g (g : erg) : erg :=
    Erg (rev (g_elems g)) (rev (map mirror (g_kids g))) (g_rt g) (g_lf g).

  Lemma zipl_rev ks (es : list entry) : length ks = length es ->
    rev (zipl ks es) = zipr (rev es) (rev (map (@rev _) ks)).
  Proof.
    revert es. induction ks as [|k ks IH]; intros [|e es] H; try discriminate; [reflexivity|].
    rewrite zipl_cons. cbn [map rev]. rewrite rev_app_distr. cbn [rev]. rewrite IH by (cbn in H; lia).
    assert (X : forall a (b : list (list entry)) x y, length a = length b ->
      zipr (a ++ [x]) (b ++ [y]) = zipr a b ++ x :: y).
    { clear. induction a as [|a0 a IH]; intros [|b0 b] x y H; try discriminate.
      - cbn. now rewrite app_nil_r.
      - cbn [app]. rewrite !zipr_cons, IH by (cbn in H; lia). cbn [app]. now rewrite <- app_assoc. }
    rewrite X by (rewrite !rev_length, map_length; cbn in H; lia). now rewrite <- app_assoc.
  Qed.
  Lemma weave_rev ks (es : list entry) : length ks = S (length es) ->
    rev (weave ks es) = weave (rev (map (@rev _) ks)) (rev es).
  Proof.
    intros H. destruct (snoc_cases ks) as [->|(ks' & c & ->)]; [discriminate|].
    rewrite app_length in H. cbn in H. rewrite <- (app_nil_r es) at 1.
    rewrite weave_split by (cbn; lia). rewrite zipr_nil, app_nil_r, rev_app_distr, zipl_rev by lia.
    rewrite map_app, rev_app_distr. cbn [map rev app]. rewrite weave_zipr; auto.
    rewrite !rev_length, map_length. lia.
  Qed.

  Lemma mirror_levels t : n_levels (mirror t) = n_levels t.
  Proof.
    remember (n_levels t) as n eqn:En. assert (Hn : n_levels t <= n) by lia. rewrite En. clear En. revert t Hn.
    induction n as [|n IH]; intros t Hn; [destruct t; cbn in Hn; lia|].
    destruct t as [es ks]. cbn [mirror]. rewrite !levels_eq in *. f_equal.
    assert (G : forall c, In c ks -> n_levels (mirror c) = n_levels c).
    { intros c Hc. apply IH. pose proof (max_levels_in c ks Hc). lia. }
    apply Nat.le_antisymm; apply max_levels_le; intros c Hc.
    - apply in_rev, in_map_iff in Hc as (d & <- & Hd). rewrite G by auto. now apply max_levels_in.
    - rewrite <- G by auto. apply max_levels_in. apply -> in_rev. now apply in_map.
  Qed.
  Lemma mirror_tidy t : tidy t -> tidy (mirror t) /\ flat (mirror t) = rev (flat t).
  Proof.
    remember (n_levels t) as n eqn:En. assert (Hn : n_levels t <= n) by lia. clear En. revert t Hn.
    induction n as [|n IH]; intros t Hn H; [destruct t; cbn in Hn; lia|].
    inversion H as [es He|es ks L F]; subst.
    - cbn. split; [|reflexivity]. constructor. destruct es; [congruence|]. intros X.
      apply (f_equal (@length _)) in X. rewrite rev_length in X. discriminate.
    - rewrite levels_eq in Hn.
      assert (G : forall c, In c ks -> tidy (mirror c) /\ flat (mirror c) = rev (flat c)).
      { intros c Hc. apply IH; [pose proof (max_levels_in c ks Hc); lia|]. rewrite Forall_forall in F. auto. }
      cbn [mirror]. split.
      + constructor; [rewrite !rev_length, map_length; lia|].
        apply Forall_rev, Forall_forall. intros c Hc. apply in_map_iff in Hc as (d & <- & Hd). now apply G.
      + cbn [BTreeProofs.flat]. rewrite weave_rev by (now rewrite map_length).
        rewrite map_rev. f_equal. f_equal. rewrite !map_map. apply map_ext_in. intros c Hc. now apply G.
  Qed.

  Definition ok2 (g : erg) : Prop := bal g /\ g_empty g = false.
  Lemma ok2_erg_ok g : ok2 g -> erg_ok g.
  Proof.
    destruct g as [es ks l r]. intros [[X|[X Y]] He]; cbn in *; unfold g_empty in He; cbn in He.
    - subst. left. cbn. split; auto. now destruct es.
    - destruct ks as [|c ks].
      + left. cbn. split; auto. now destruct es.
      + right. cbn in *. split; [easy|]. split; [eapply Forall_impl; [|exact X]; apply tidy_fwd|].
        destruct r; cbn in *; lia.
  Qed.
  Lemma erg_ok2 g : erg_ok g -> bal g -> ok2 g.
  Proof.
    intros H B. split; auto. destruct g as [es ks l r]. unfold g_empty. destruct H as [[X Y]|(X & _)]; cbn in *.
    - destruct es; [congruence|reflexivity].
    - destruct ks; [congruence|now destruct es].
  Qed.
  Lemma ok2s w : Forall ok2 w <-> Forall erg_ok w /\ Forall bal w.
  Proof.
    rewrite !Forall_forall. split.
    - intros H. split; intros x Hx; [apply ok2_erg_ok|]; now apply H.
    - intros [H1 H2] x Hx. apply erg_ok2; auto.
  Qed.

  Lemma rev_nil {X} (l : list X) : is_nil (rev l) = is_nil l.
  Proof.
    destruct l as [|x l]; auto. cbn [is_nil]. destruct (rev (x :: l)) eqn:E; auto.
    apply (f_equal (@length _)) in E. rewrite rev_length in E. discriminate.
  Qed.
  Lemma map_nil {X Y} (f : X -> Y) (l : list X) : is_nil (map f l) = is_nil l.
  Proof. now destruct l. Qed.

  Lemma mirror_ok2 g : ok2 g -> ok2 (mirror_g g) /\ den (mirror_g g) = rev (den g).
  Proof.
    destruct g as [es ks l r]. intros [B E]. unfold mirror_g. cbn [g_elems g_kids g_lf g_rt].
    unfold g_empty in E. cbn [g_elems g_kids] in E. split.
    - split.
      + destruct B as [X|[X Y]]; cbn in *; [left; cbn; now subst|].
        right. cbn. rewrite !rev_length, map_length. split; [|lia].
        apply Forall_rev, Forall_forall. intros c Hc. apply in_map_iff in Hc as (d & <- & Hd).
        apply mirror_tidy. rewrite Forall_forall in X. auto.
      + unfold g_empty. cbn [g_elems g_kids]. now rewrite !rev_nil, map_nil.
    - assert (Leaf : forall es l r l' r', es <> [] -> den (Erg (rev es) [] l r) = rev (den (Erg es [] l' r'))).
      { intros es0 l0 r0 l1 r1 H. rewrite !den_leaf; auto. intros X. apply (f_equal is_nil) in X.
        rewrite rev_nil in X. now destruct es0. }
      destruct ks as [|c ks].
      { apply Leaf. now destruct es. }
      destruct B as [X|[X Y]]; [discriminate|]. cbn [g_elems g_kids g_lf g_rt] in X, Y.
      assert (Em : map flat (rev (map mirror (c :: ks))) = rev (map (@rev _) (map flat (c :: ks)))).
      { rewrite map_rev. f_equal. rewrite !map_map. apply map_ext_in. intros d Hd.
        apply mirror_tidy. rewrite Forall_forall in X. auto. }
      unfold den. cbn [g_elems g_kids g_lf g_rt]. rewrite Em.
      set (fl := map flat (c :: ks)) in *.
      assert (Lf : length fl = length (c :: ks)) by apply map_length.
      assert (Nf : fl <> []) by now subst fl. clearbody fl. clear Em E X.
      rewrite <- Lf in Y. clear c ks Lf.
      assert (Zr : forall ks (es : list entry) e, length ks = S (length es) -> weave ks (es ++ [e]) = zipl ks (es ++ [e])).
      { clear. intros ks es e H. destruct (snoc_cases ks) as [->|(ks' & c & ->)]; [discriminate|].
        rewrite app_length in H. cbn in H.
        rewrite (weave_app ks' c es e [] []) by lia. rewrite zipl_snoc by lia. cbn.
        rewrite <- (app_nil_r es) at 1. rewrite weave_split by (cbn; lia). rewrite zipr_nil, app_nil_r, <- app_assoc. reflexivity. }
      destruct l, r; cbn [Nat.b2n] in Y.
      + symmetry. apply weave_rev. lia.
      + (* lf, not rt: |ks| = |es| *)
        destruct (snoc_cases es) as [->|(es' & e & ->)]; [destruct fl; cbn in *; [congruence|lia]|].
        rewrite app_length in Y. cbn in Y. rewrite Zr by lia. rewrite zipl_rev by (rewrite app_length; cbn; lia).
        rewrite rev_app_distr. cbn [rev app].
        destruct (rev (map (@rev _) fl)) as [|k kr] eqn:Ek.
        { apply (f_equal (@length _)) in Ek. rewrite rev_length, map_length in Ek. cbn in Ek. lia. }
        assert (length (k :: kr) = length fl) by (now rewrite <- Ek, rev_length, map_length).
        cbn in H. rewrite zipr_cons, weave_zipr; auto. rewrite rev_length. lia.
      + (* rt, not lf: |ks| = |es| *)
        destruct es as [|e es]; [destruct fl; cbn in *; [congruence|lia]|]. cbn in Y.
        destruct fl as [|k fl]; [congruence|]. cbn in Y. rewrite weave_zipr by lia.
        cbn [rev]. rewrite Zr by (rewrite rev_length, !rev_length, map_length; cbn; lia).
        change (e :: k ++ zipr es fl) with (zipr (e :: es) (k :: fl)).
        pose proof (zipl_rev (rev (map (@rev _) (k :: fl))) (rev (e :: es))) as Z.
        rewrite rev_involutive, map_rev, rev_involutive, map_map in Z.
        replace (map (fun x : list entry => rev (rev x)) (k :: fl)) with (k :: fl) in Z
          by (rewrite <- (map_id (k :: fl)) at 1; apply map_ext; intros; symmetry; apply rev_involutive).
        rewrite <- (rev_involutive (zipl _ _)). cbn [rev map] in *. rewrite Z; [reflexivity|].
        rewrite !app_length, !rev_length, map_length. cbn. lia.
      + (* neither: |es| = |ks| + 1 *)
        destruct es as [|e es]; [cbn in Y; lia|]. cbn in Y.
        destruct (snoc_cases es) as [->|(es' & e2 & ->)]; [destruct fl; cbn in *; [congruence|lia]|].
        rewrite app_length in Y. cbn in Y. rewrite (Zr fl) by lia.
        cbn [rev]. rewrite rev_app_distr. cbn [rev app].
        rewrite Zr by (rewrite !rev_length, map_length; lia).
        rewrite (zipl_rev fl) by (rewrite app_length; cbn; lia). rewrite rev_app_distr. cbn [rev app].
        assert (ZZ : forall (es : list entry) ks e e2, length ks = S (length es) ->
          e2 :: zipl ks (es ++ [e]) = zipr (e2 :: es) ks ++ [e]).
        { clear. induction es as [|a es IH]; intros ks e e2 H; destruct ks as [|k ks]; try discriminate.
          - destruct ks; [|discriminate]. cbn. now rewrite !app_nil_r.
          - cbn [app]. rewrite zipl_cons, zipr_cons. cbn [app]. rewrite <- app_assoc. f_equal. f_equal.
            apply IH. cbn in H. lia. }
        rewrite ZZ by (rewrite !rev_length, map_length; lia). reflexivity.
  Qed.

  Lemma mirror_dens w : Forall ok2 w ->
    Forall ok2 (rev (map mirror_g w)) /\ dens (rev (map mirror_g w)) = rev (dens w).
  Proof.
    intros H. induction H as [|g w Hg Hw IH]; [split; constructor|].
    destruct IH as [IH1 IH2]. destruct (mirror_ok2 g Hg) as [M1 M2]. cbn [map rev]. split.
    - apply Forall_app. auto.
    - unfold dens in *. rewrite map_app, concat_app, IH2. cbn [map concat]. rewrite M2, app_nil_r, rev_app_distr.
      reflexivity.
  Qed.

  Lemma removelast_rev {X} (l : list X) : removelast l = rev (tl (rev l)).
  Proof.
    destruct (snoc_cases l) as [->|(l' & x & ->)]; auto.
    rewrite rev_app_distr. cbn. rewrite rev_involutive. apply removelast_last.
  Qed.
  Lemma mirror_mirror t : mirror (mirror t) = t.
  Proof.
    remember (n_levels t) as n eqn:En. assert (Hn : n_levels t <= n) by lia. clear En. revert t Hn.
    induction n as [|n IH]; intros t Hn; [destruct t; cbn in Hn; lia|].
    destruct t as [es ks]. rewrite levels_eq in Hn. cbn [mirror].
    rewrite map_rev, !rev_involutive, map_map. f_equal.
    rewrite <- (map_id ks) at 2. apply map_ext_in. intros c Hc. apply IH.
    pose proof (max_levels_in c ks Hc). lia.
  Qed.

  Definition mir (a b : erg) : Prop := b = mirror_g a.
  Lemma next_mirror ia ib x ib' : Forall2 mir (bi_work ia) (bi_work ib) -> bi_len ia = bi_len ib ->
    b_next borrowed ib = Ok (x, ib') ->
    exists ia', b_next (swap borrowed) ia = Ok (x, ia') /\ Forall2 mir (bi_work ia') (bi_work ib')
      /\ bi_len ia' = bi_len ib'.
  Proof.
    apply (next_sim (swap borrowed) borrowed mir (fun a b => b = mirror a)); unfold mir.
    - intros a b ->. cbn. unfold g_empty. cbn. now rewrite !rev_nil, map_nil.
    - intros a b ->. reflexivity.
    - intros a b ->. cbn. unfold g_fuel. cbn [mirror_g g_kids].
      fold (max_levels (rev (map mirror (g_kids a)))). fold (max_levels (g_kids a)).
      do 2 apply le_n_S. apply max_levels_le. intros c Hc. apply in_rev, in_map_iff in Hc as (d & <- & Hd).
      rewrite mirror_levels. now apply max_levels_in.
    - intros a b y b' ->. cbn. unfold g_next_elem, g_next_back_elem. cbn [mirror_g g_lf g_elems g_kids g_rt].
      destruct (g_rt a); [discriminate|]. cbn [negb assert_ bind]. intros H. injection H as <- <-.
      eexists. split; [reflexivity|]. unfold mirror_g. cbn. rewrite rev_nil, map_nil, removelast_rev, rev_involutive.
      reflexivity.
    - intros a b c b' ->. cbn. unfold g_next_kid, g_next_back_kid. cbn [mirror_g g_lf g_elems g_kids g_rt].
      rewrite rev_nil, map_nil. destruct (assert_ _); [|discriminate]. cbn [bind]. intros H. injection H as <- <-.
      eexists _, _. split; [reflexivity|]. rewrite removelast_rev. unfold mirror_g. cbn [g_elems g_kids g_lf g_rt].
      rewrite <- map_rev. split.
      + destruct (rev (g_kids a)); cbn; auto.
      + f_equal. rewrite <- map_rev, rev_involutive. now destruct (rev (g_kids a)).
    - intros ca cb ->. cbn. destruct ca as [es ks]. cbn [g_make mirror]. unfold mirror_g. cbn.
      now rewrite rev_nil, map_nil.
  Qed.

  Lemma next_back_ok w len : Forall ok2 w -> (dens w <> [] -> 1 <= len) ->
    exists w', b_next_back borrowed (BIter w len) =
        Ok (hd_error (rev (dens w)), BIter w' (len - match dens w with [] => 0 | _ => 1 end))
      /\ Forall ok2 w' /\ dens w' = removelast (dens w).
  Proof.
    intros Hw Hl. destruct (mirror_dens w Hw) as [M1 M2]. set (mw := rev (map mirror_g w)) in *.
    apply ok2s in M1 as [M1 M1'].
    destruct (next_ok mw len M1) as (mw' & E & H1 & H2 & H3).
    { intros X. apply Hl. intros Y. apply X. now rewrite M2, Y. }
    assert (Rw : Forall2 mir (bi_work (BIter (rev w) len)) (bi_work (BIter mw len))).
    { cbn. subst mw. rewrite <- map_rev. induction (rev w); cbn; constructor; auto. reflexivity. }
    destruct (next_mirror _ _ _ _ Rw eq_refl E) as (ia' & E' & R & L).
    exists (rev (bi_work ia')). rewrite next_back_eq. cbn [bi_work bi_len] in *. rewrite E'. cbn [bind].
    cbn [bi_work bi_len] in *. rewrite L, M2 in *.
    assert (Hwk : bi_work ia' = map mirror_g mw').
    { clear - R. induction R as [|a b la lb R0 R IH]; [reflexivity|]. cbn. rewrite IH. f_equal.
      unfold mir in R0. subst b. destruct a as [es ks l r]. unfold mirror_g. cbn.
      rewrite map_rev, !rev_involutive, map_map. f_equal. symmetry.
      rewrite <- (map_id ks) at 2. apply map_ext. apply mirror_mirror. }
    destruct (mirror_dens mw') as [D1 D2]; [apply ok2s; auto|].
    rewrite Hwk. split.
    - f_equal. f_equal. f_equal. f_equal. destruct (dens w) as [|x l]; [reflexivity|].
      cbn [rev]. destruct (rev l ++ [x]) eqn:X; [now apply app_eq_nil in X as [_ X]|reflexivity].
    - split; auto. rewrite D2, H2. symmetry. apply removelast_rev.
  Qed.

  Lemma run_ends_ok cs w len : Forall ok2 w -> length (dens w) <= len ->
    exists l, b_run_ends borrowed cs (BIter w len) = Ok l
      /\ map fst l = map fst (s_ends cs (dens w))
      /\ (len = length (dens w) -> l = s_ends cs (dens w)).
  Proof.
    revert w len. induction cs as [|c cs IH]; intros w len Hw Hl; cbn [b_run_ends].
    - exists []. auto.
    - assert (Hl1 : dens w <> [] -> 1 <= len) by (destruct (dens w); [easy|cbn in Hl; lia]).
      destruct c.
      + pose proof Hw as Hw0. apply ok2s in Hw0 as [W1 W2].
        destruct (next_ok w len W1 Hl1) as (w' & E & H1 & H2 & H3). rewrite E. cbn [bind].
        destruct (IH w' (len - match dens w with [] => 0 | _ => 1 end)) as (l & E' & G1 & G2).
        { apply ok2s. auto. }
        { rewrite H2. destruct (dens w); cbn in *; lia. }
        rewrite E'. cbn [bind bi_len]. eexists. split; [reflexivity|]. cbn [map fst s_ends].
        rewrite G1, H2. split; auto. intros ->. rewrite H2 in G2. rewrite G2 by (destruct (dens w); cbn; lia).
        f_equal. f_equal. destruct (dens w); cbn; lia.
      + destruct (next_back_ok w len Hw Hl1) as (w' & E & H1 & H2). rewrite E. cbn [bind].
        assert (Lr : length (removelast (dens w)) = length (dens w) - match dens w with [] => 0 | _ => 1 end).
        { rewrite removelast_rev, rev_length. destruct (snoc_cases (dens w)) as [->|(l' & x & ->)]; auto.
          rewrite rev_app_distr. cbn. rewrite rev_length, app_length. cbn.
          destruct (l' ++ [x]) eqn:X; [now apply app_eq_nil in X as [_ X]|lia]. }
        destruct (IH w' (len - match dens w with [] => 0 | _ => 1 end)) as (l & E' & G1 & G2); auto.
        { rewrite H2, Lr. destruct (dens w); cbn in *; lia. }
        rewrite E'. cbn [bind bi_len]. eexists. split; [reflexivity|]. cbn [map fst s_ends].
        rewrite G1, H2. split; auto. intros ->. rewrite H2 in G2. rewrite G2 by (rewrite Lr; reflexivity).
        f_equal. f_equal. now rewrite Lr.
  Qed.
End Borrowed.
