(** Correctness of the worklist iterators of the AVL map. *)
From Coq Require Import List ZArith Bool Lia Sorted.
From Verif Require Import Base Spec MapSpec SpecFacts AvlModel AvlProofs AvlProofs2 AvlMapProofs AvlIterModel.
Import ListNotations.

Lemma filter_length_le {A} (f : A -> bool) l : (length (filter f l) <= length l)%nat.
Proof. induction l as [|a l IH]; cbn; auto. destruct (f a); cbn; lia. Qed.

Section InnerProofs.
  Context {N I : Type} (destr : N -> option N * I * option N) (nsize : N -> nat).
  (** The items below a node. *)
  Context (flat : N -> list I).
  Definition oflat (o : option N) : list I := match o with Some n => flat n | None => [] end.
  Definition osize (o : option N) : nat := match o with Some n => nsize n | None => 0 end.
  Context (Hflat : forall n, let '(l, i, r) := destr n in flat n = oflat l ++ i :: oflat r).
  Context (Hsize : forall n, let '(l, _, r) := destr n in (osize l + osize r < nsize n)%nat).

  Notation work := (list (action N I)).
  Definition aden (a : action N I) : list I :=
    match a with Descend n => flat n | Return i => [i] end.
  Definition den (w : work) : list I := flat_map aden w.

  Lemma den_app v w : den (v ++ w) = den v ++ den w.
  Proof. apply flat_map_app. Qed.
  Lemma den_odesc o : den (odesc o) = oflat o.
  Proof. destruct o; cbn; rewrite ?app_nil_r; auto. Qed.
  Lemma wsize_app (v w : work) : wsize nsize (v ++ w) = (wsize nsize v + wsize nsize w)%nat.
  Proof. induction v as [|a v IH]; auto. unfold wsize in *. cbn [app fold_right]. rewrite IH. lia. Qed.
  Lemma wsize_cons a (w : work) : wsize nsize (a :: w) = (asize nsize a + wsize nsize w)%nat.
  Proof. reflexivity. Qed.
  Lemma wsize_odesc o : wsize nsize (odesc o : work) = osize o.
  Proof. destruct o; cbn; lia. Qed.

  Lemma rev_cases (w : work) : w = [] \/ exists w' a, w = w' ++ [a].
  Proof. destruct w using rev_ind; eauto. Qed.

  Lemma next_fuel_ok fuel w len :
    (wsize nsize w < fuel)%nat -> (length (den w) <= len)%nat ->
    exists w',
      next_fuel destr fuel w len
      = Ok (hd_error (den w), InnerIter w' (len - (if den w then 0 else 1))%nat)
      /\ den w' = tl (den w).
  Proof.
    revert w. induction fuel as [|fuel IH]; intros w Hf Hl; [lia|].
    destruct w as [|[n|i] w]; cbn [next_fuel].
    - exists []. cbn. rewrite Nat.sub_0_r. auto.
    - pose proof (Hflat n) as Hn. pose proof (Hsize n) as Hs.
      destruct (destr n) as [[l i] r].
      rewrite wsize_cons in Hf. cbn [asize] in Hf.
      assert (E : den (Descend n :: w) = den (odesc l ++ Return i :: odesc r ++ w)).
      { cbn [den flat_map aden]. fold (den w). rewrite Hn.
        rewrite den_app, den_odesc. cbn [den flat_map aden]. fold (den (odesc r ++ w)).
        rewrite den_app, den_odesc. rewrite <- app_assoc. reflexivity. }
      rewrite E in *. apply IH; auto.
      rewrite wsize_app, wsize_odesc, wsize_cons, wsize_app, wsize_odesc. cbn [asize]. lia.
    - cbn in Hl. rewrite usize_sub_ok by lia. cbn. exists w. auto.
  Qed.

  Lemma next_ok it : (length (den (it_work it)) <= it_len it)%nat ->
    exists w',
      next destr nsize it
      = Ok (hd_error (den (it_work it)),
            InnerIter w' (it_len it - (if den (it_work it) then 0 else 1))%nat)
      /\ den w' = tl (den (it_work it)).
  Proof. intros H. apply next_fuel_ok; auto. Qed.

  Lemma next_back_fuel_ok fuel w len :
    (wsize nsize w < fuel)%nat -> (length (den w) <= len)%nat ->
    exists w',
      next_back_fuel destr fuel w len
      = Ok (hd_error (rev (den w)), InnerIter w' (len - (if den w then 0 else 1))%nat)
      /\ den w' = removelast (den w).
  Proof.
    revert w. induction fuel as [|fuel IH]; intros w Hf Hl; [lia|].
    cbn [next_back_fuel].
    destruct (rev_cases w) as [->|(w' & [n|i] & ->)].
    - exists []. cbn. rewrite Nat.sub_0_r. auto.
    - rewrite rev_app_distr. cbn [rev app].
      pose proof (Hflat n) as Hn. pose proof (Hsize n) as Hs.
      destruct (destr n) as [[l i] r].
      rewrite wsize_app, wsize_cons in Hf. cbn [asize] in Hf.
      rewrite rev_involutive.
      assert (E : den (w' ++ [Descend n]) = den (w' ++ odesc l ++ Return i :: odesc r)).
      { rewrite !den_app. f_equal. cbn [den flat_map aden]. rewrite Hn, app_nil_r, den_odesc.
        fold (den (odesc r)). now rewrite den_odesc. }
      rewrite E in *. apply IH; auto.
      rewrite !wsize_app, wsize_odesc, wsize_cons, wsize_odesc. cbn [asize wsize fold_right] in *. lia.
    - rewrite rev_app_distr. cbn [rev app]. rewrite rev_involutive.
      rewrite den_app in *. cbn [den flat_map aden] in *. fold (den w') in *. rewrite app_nil_r in *.
      rewrite app_length in Hl. cbn in Hl. rewrite usize_sub_ok by lia. cbn [bind].
      exists w'. rewrite rev_app_distr. cbn [rev app hd_error].
      destruct (den w' ++ [i]) eqn:E; [now apply app_eq_nil in E as [_ E]|].
      rewrite <- E. split; [reflexivity|].
      change (den w' ++ [i]) with (den w' ++ i :: []). now rewrite removelast_app, app_nil_r.
  Qed.

  Lemma next_back_ok it : (length (den (it_work it)) <= it_len it)%nat ->
    exists w',
      next_back destr nsize it
      = Ok (hd_error (rev (den (it_work it))),
            InnerIter w' (it_len it - (if den (it_work it) then 0 else 1))%nat)
      /\ den w' = removelast (den (it_work it)).
  Proof. intros H. apply next_back_fuel_ok; auto. Qed.

  Lemma run_ends_ok cs it extra :
    it_len it = (length (den (it_work it)) + extra)%nat ->
    run_ends destr nsize cs it
    = Ok (map (fun x => (fst x, (snd x + extra)%nat)) (s_ends cs (den (it_work it)))).
  Proof.
    revert it. induction cs as [|c cs IH]; intros it Hl; auto.
    cbn [run_ends s_ends]. destruct c.
    - destruct (next_ok it) as (w' & E & Hd); [lia|]. rewrite E. cbn [bind].
      assert (Hl' : (it_len it - (if den (it_work it) then 0 else 1)
                     = length (den w') + extra)%nat).
      { rewrite Hd, Hl. destruct (den (it_work it)); cbn; lia. }
      rewrite IH by exact Hl'. cbn [bind map fst snd it_len it_work]. now rewrite Hl', Hd.
    - destruct (next_back_ok it) as (w' & E & Hd); [lia|]. rewrite E. cbn [bind].
      assert (Hl' : (it_len it - (if den (it_work it) then 0 else 1)
                     = length (den w') + extra)%nat).
      { rewrite Hd, Hl, removelast_length. destruct (den (it_work it)); cbn; lia. }
      rewrite IH by exact Hl'. cbn [bind map fst snd it_len it_work]. now rewrite Hl', Hd.
  Qed.

  (** *** range *)
  Section RangeProofs.
    Context {Q : Type} (ikey : I -> Q) (cmp : Q -> Q -> comparison) (laws : order_laws cmp).
    Context (lb ub : bound Q).

    Definition isorted (l : list I) : Prop :=
      StronglySorted (fun a b => cmp (ikey a) (ikey b) = Lt) l.
    Definition i_above (i : I) : bool :=
      match lb with
      | Unbounded => true
      | Included k => match cmp (ikey i) k with Lt => false | _ => true end
      | Excluded k => match cmp (ikey i) k with Gt => true | _ => false end
      end.
    Definition i_below (i : I) : bool :=
      match ub with
      | Unbounded => true
      | Included k => match cmp (ikey i) k with Gt => false | _ => true end
      | Excluded k => match cmp (ikey i) k with Lt => true | _ => false end
      end.
    Definition inr_ (i : I) : bool := i_above i && i_below i.

    Lemma contains_inr i : contains cmp lb ub (ikey i) = inr_ i.
    Proof.
      unfold contains, inr_, i_above, i_below. f_equal. destruct lb as [|k|k]; auto;
        rewrite (cmp_opp _ laws (ikey i) k); destruct (cmp (ikey i) k); reflexivity.
    Qed.

    Lemma above_mono i j : i_above i = true -> cmp (ikey i) (ikey j) = Lt -> i_above j = true.
    Proof.
      unfold i_above. destruct lb as [|k|k]; auto; intros H Hij.
      - destruct (cmp (ikey j) k) eqn:E; auto.
        rewrite (cmp_lt_trans _ laws _ _ _ Hij E) in H. discriminate.
      - destruct (cmp (ikey i) k) eqn:E; try discriminate.
        apply (cmp_gt_lt laws) in E. pose proof (cmp_lt_trans _ laws _ _ _ E Hij) as E'.
        apply (cmp_lt_gt laws) in E'. now rewrite E'.
    Qed.
    Lemma below_mono i j : i_below j = true -> cmp (ikey i) (ikey j) = Lt -> i_below i = true.
    Proof.
      unfold i_below. destruct ub as [|k|k]; auto; intros H Hij.
      - destruct (cmp (ikey i) k) eqn:E; auto.
        apply (cmp_gt_lt laws) in E. pose proof (cmp_lt_trans _ laws _ _ _ E Hij) as E'.
        apply (cmp_lt_gt laws) in E'. now rewrite E' in H.
      - destruct (cmp (ikey j) k) eqn:E; try discriminate.
        now rewrite (cmp_lt_trans _ laws _ _ _ Hij E).
    Qed.

    (** A pruned subtree holds nothing of the range. *)
    Lemma prune_lf_ok i j : prune_lf cmp lb (ikey i) = true -> cmp (ikey j) (ikey i) = Lt ->
      i_above j = false.
    Proof.
      unfold prune_lf, i_above. destruct lb as [|k|k]; try discriminate; intros H Hj;
        (destruct (cmp k (ikey i)) eqn:E; try discriminate;
         [apply (cmp_eq_sym laws) in E; rewrite <- (cmp_eq_r laws _ _ (ikey j) E), Hj
         |apply (cmp_gt_lt laws) in E; rewrite (cmp_lt_trans _ laws _ _ _ Hj E)]; reflexivity).
    Qed.
    Lemma prune_rt_ok i j : prune_rt cmp ub (ikey i) = true -> cmp (ikey i) (ikey j) = Lt ->
      i_below j = false.
    Proof.
      unfold prune_rt, i_below. destruct ub as [|k|k]; try discriminate; intros H Hj;
        (destruct (cmp k (ikey i)) eqn:E; try discriminate;
         [rewrite <- (cmp_eq_l _ laws _ _ (ikey j) E) in Hj
         |pose proof (cmp_lt_trans _ laws _ _ _ E Hj) as Hj'; clear Hj; rename Hj' into Hj];
         apply (cmp_lt_gt laws) in Hj; rewrite Hj; reflexivity).
    Qed.

    Lemma isorted_app_iff l r :
      isorted (l ++ r) <-> isorted l /\ isorted r /\
      (forall x y, In x l -> In y r -> cmp (ikey x) (ikey y) = Lt).
    Proof.
      unfold isorted. induction l as [|a l IH]; cbn [app].
      - split; [intros H; repeat split; auto; [constructor|intros ? ? []]|tauto].
      - split.
        + intros H. inversion H as [|? ? H1 H2]; subst. apply IH in H1 as (Hl & Hr & Hx).
          rewrite Forall_forall in H2. repeat split; auto.
          * constructor; auto. apply Forall_forall. intros x Hi. apply H2, in_or_app. auto.
          * intros x y [<-|Hi] Hy; auto. apply H2, in_or_app. auto.
        + intros (Hl & Hr & Hx). inversion Hl as [|? ? H1 H2]; subst.
          constructor.
          * apply IH. repeat split; auto. intros x y Hi Hy. apply Hx; auto. now right.
          * apply Forall_forall. intros x Hi. apply in_app_or in Hi as [Hi|Hi].
            -- rewrite Forall_forall in H2. auto.
            -- apply Hx; auto. now left.
    Qed.

    Notation exp_ := (expand destr ikey cmp lb ub).

    (** Expanding a node keeps the entries that are in the range, and only such
        entries are scheduled for return. *)
    Definition returns_in (w : work) : Prop :=
      forall i, In (Return i) w -> inr_ i = true.

    Lemma expand_ok n : isorted (flat n) ->
      filter inr_ (den (exp_ n)) = filter inr_ (flat n)
      /\ isorted (den (exp_ n)) /\ (forall x, In x (den (exp_ n)) -> In x (flat n))
      /\ returns_in (exp_ n) /\ (wsize nsize (exp_ n) < nsize n)%nat.
    Proof.
      intros Hs. pose proof (Hflat n) as Hn. pose proof (Hsize n) as Hz.
      unfold expand. destruct (destr n) as [[l i] r]. rewrite Hn in *.
      apply isorted_app_iff in Hs as (Sl & Sr & Sx).
      change (i :: oflat r) with ([i] ++ oflat r) in Sr.
      apply isorted_app_iff in Sr as (_ & Sr & Sy).
      assert (Hl : forall x, In x (oflat l) -> cmp (ikey x) (ikey i) = Lt).
      { intros x Hx. apply Sx; auto. now left. }
      assert (Hr : forall x, In x (oflat r) -> cmp (ikey i) (ikey x) = Lt).
      { intros x Hx. apply Sy; auto. now left. }
      assert (Hlr : forall x y, In x (oflat l) -> In y (oflat r) -> cmp (ikey x) (ikey y) = Lt).
      { intros x y Hx Hy. apply Sx; auto. now right. }
      rewrite !den_app. rewrite contains_inr.
      assert (DL : den (if prune_lf cmp lb (ikey i) then [] else odesc l)
                   = if prune_lf cmp lb (ikey i) then [] else oflat l).
      { destruct (prune_lf _ _ _); auto using den_odesc. }
      assert (DR : den (if prune_rt cmp ub (ikey i) then [] else odesc r)
                   = if prune_rt cmp ub (ikey i) then [] else oflat r).
      { destruct (prune_rt _ _ _); auto using den_odesc. }
      rewrite DL, DR.
      assert (DI : den (if inr_ i then [Return i] else []) = if inr_ i then [i] else []).
      { destruct (inr_ i); auto. }
      rewrite DI. split; [|split; [|split; [|split]]].
      - rewrite !filter_app. change (i :: oflat r) with ([i] ++ oflat r). rewrite filter_app.
        f_equal; [|f_equal].
        + destruct (prune_lf cmp lb (ikey i)) eqn:E; auto. symmetry. apply filter_none.
          intros x Hx. unfold inr_. now rewrite (prune_lf_ok i x E) by auto.
        + cbn [filter]. destruct (inr_ i) eqn:E; auto. cbn [filter]. now rewrite E.
        + destruct (prune_rt cmp ub (ikey i)) eqn:E; auto. symmetry. apply filter_none.
          intros x Hx. unfold inr_. rewrite (prune_rt_ok i x E) by auto. apply andb_false_r.
      - apply isorted_app_iff. split; [|split].
        + destruct (prune_lf _ _ _); auto. constructor.
        + apply isorted_app_iff. split; [|split].
          * destruct (inr_ i); repeat constructor.
          * destruct (prune_rt _ _ _); auto. constructor.
          * intros x y Hx Hy. destruct (inr_ i); [|destruct Hx]. destruct Hx as [<-|[]].
            destruct (prune_rt _ _ _); [destruct Hy|]. auto.
        + intros x y Hx Hy. destruct (prune_lf _ _ _); [destruct Hx|].
          apply in_app_or in Hy as [Hy|Hy].
          * destruct (inr_ i); [|destruct Hy]. destruct Hy as [<-|[]]. auto.
          * destruct (prune_rt _ _ _); [destruct Hy|]. auto.
      - intros x Hx. apply in_or_app. apply in_app_or in Hx as [Hx|Hx].
        + destruct (prune_lf _ _ _); [destruct Hx|]. auto.
        + right. apply in_app_or in Hx as [Hx|Hx].
          * destruct (inr_ i); [|destruct Hx]. destruct Hx as [<-|[]]. now left.
          * destruct (prune_rt _ _ _); [destruct Hx|]. now right.
      - intros j Hj. apply in_app_or in Hj as [Hj|Hj].
        + destruct (prune_lf _ _ _); [destruct Hj|]. destruct l; [|destruct Hj].
          destruct Hj as [Hj|[]]; discriminate.
        + apply in_app_or in Hj as [Hj|Hj].
          * destruct (inr_ i) eqn:E; [|destruct Hj]. destruct Hj as [[= <-]|[]]. auto.
          * destruct (prune_rt _ _ _); [destruct Hj|]. destruct r; [|destruct Hj].
            destruct Hj as [Hj|[]]; discriminate.
      - rewrite !wsize_app.
        assert (W1 : (wsize nsize (if prune_lf cmp lb (ikey i) then [] else odesc l : work) <= osize l)%nat).
        { destruct (prune_lf _ _ _); [cbn; lia|]. now rewrite wsize_odesc. }
        assert (W2 : (wsize nsize (if prune_rt cmp ub (ikey i) then [] else odesc r : work) <= osize r)%nat).
        { destruct (prune_rt _ _ _); [cbn; lia|]. now rewrite wsize_odesc. }
        assert (W3 : wsize nsize (if inr_ i then [Return i] else [] : work) = 0%nat).
        { destruct (inr_ i); reflexivity. }
        lia.
    Qed.

    Lemma prune_front_ok fuel w : (wsize nsize w < fuel)%nat ->
      isorted (den w) -> returns_in w ->
      exists w', prune_front destr ikey cmp lb ub fuel w = Ok w'
        /\ filter inr_ (den w') = filter inr_ (den w) /\ isorted (den w')
        /\ returns_in w' /\ (forall n w'', w' <> Descend n :: w'').
    Proof.
      revert w. induction fuel as [|fuel IH]; intros w Hf Hs Hr; [lia|].
      cbn [prune_front]. destruct w as [|[n|i] w].
      - exists []. repeat split; auto. discriminate.
      - cbn [den flat_map aden] in Hs. fold (den w) in Hs.
        apply isorted_app_iff in Hs as (Sn & Sw & Sx).
        destruct (expand_ok n Sn) as (E1 & E2 & E3 & E4 & E5).
        destruct (IH (exp_ n ++ w)) as (w' & E & F1 & F2 & F3 & F4).
        + rewrite wsize_app. rewrite wsize_cons in Hf. cbn [asize] in Hf. lia.
        + rewrite den_app. apply isorted_app_iff. repeat split; auto.
        + intros i Hi. apply in_app_or in Hi as [Hi|Hi]; [auto|]. apply Hr. now right.
        + exists w'. repeat split; auto. rewrite F1, den_app.
          cbn [den flat_map aden]. fold (den w). rewrite !filter_app. now rewrite E1.
      - exists (Return i :: w). repeat split; auto. discriminate.
    Qed.

    Lemma prune_back_ok fuel w : (wsize nsize w < fuel)%nat ->
      isorted (den w) -> returns_in w -> (forall n w'', w <> Descend n :: w'') ->
      exists w', prune_back destr ikey cmp lb ub fuel w = Ok w'
        /\ filter inr_ (den w') = filter inr_ (den w) /\ isorted (den w')
        /\ returns_in w' /\ (forall n w'', w' <> Descend n :: w'')
        /\ (forall n w'', w' <> w'' ++ [Descend n]).
    Proof.
      revert w. induction fuel as [|fuel IH]; intros w Hf Hs Hr Hnd; [lia|].
      cbn [prune_back]. destruct (rev_cases w) as [->|(w0 & [n|i] & ->)].
      - exists []. repeat split; auto. intros ? w'' H. now destruct w''.
      - rewrite rev_app_distr. cbn [rev app]. rewrite rev_involutive.
        rewrite den_app in Hs. cbn [den flat_map aden] in Hs. rewrite app_nil_r in Hs. fold (den w0) in Hs.
        apply isorted_app_iff in Hs as (Sw & Sn & Sx).
        destruct (expand_ok n Sn) as (E1 & E2 & E3 & E4 & E5).
        destruct (IH (w0 ++ exp_ n)) as (w' & E & F1 & F2 & F3 & F4 & F5).
        + rewrite wsize_app in *. cbn [wsize fold_right asize] in Hf.
          change (fold_right _ _ w0) with (wsize nsize w0) in Hf. lia.
        + rewrite den_app. apply isorted_app_iff. repeat split; auto.
        + intros i Hi. apply in_app_or in Hi as [Hi|Hi]; [|auto]. apply Hr, in_or_app. auto.
        + destruct w0 as [|[n0|i0] w0]; cbn [app] in *; try discriminate.
          * exfalso. eapply Hnd. reflexivity.
          * exfalso. eapply Hnd. reflexivity.
        + exists w'. repeat split; auto. rewrite F1, !den_app.
          cbn [den flat_map aden]. rewrite app_nil_r, !filter_app. now rewrite E1.
      - rewrite rev_app_distr. cbn [rev app].
        exists (w0 ++ [Return i]). repeat split; auto.
        intros n w'' H. apply app_inj_tail in H as [_ H]. discriminate.
    Qed.

    Lemma range_iter_ok root len : isorted (oflat root) ->
      exists w, range_iter destr nsize ikey cmp lb ub root len = Ok (InnerIter w len)
        /\ den w = filter inr_ (oflat root).
    Proof.
      intros Hs. unfold range_iter.
      destruct (prune_front_ok (S (wsize nsize (odesc root : work))) (odesc root)) as (w1 & E1 & F1 & S1 & R1 & N1);
        [lia|now rewrite den_odesc|..].
      { destruct root; intros i Hi; [destruct Hi as [Hi|[]]; discriminate|destruct Hi]. }
      rewrite E1. cbn [bind].
      destruct (prune_back_ok (S (wsize nsize w1)) w1) as (w2 & E2 & F2 & S2 & R2 & N2 & M2); auto.
      rewrite E2. cbn [bind]. exists w2. split; auto.
      rewrite <- den_odesc, <- F1, <- F2. symmetry. apply filter_all.
      (* everything left lies between two returns that are in the range *)
      destruct w2 as [|[n|i] w2]; [intros ? []|exfalso; eapply N2; reflexivity|].
      intros x Hx. apply andb_true_iff. split.
      - assert (Hi : inr_ i = true) by (apply R2; now left).
        apply andb_true_iff in Hi as [Hi _]. destruct Hx as [<-|Hx]; auto.
        eapply above_mono; [exact Hi|]. inversion S2 as [|? ? _ Hf]; subst.
        rewrite Forall_forall in Hf. now apply Hf.
      - destruct (rev_cases (Return i :: w2)) as [E|(w0 & [n|j] & E)]; [discriminate| |].
        + exfalso. eapply M2. exact E.
        + rewrite E in *. assert (Hj : inr_ j = true).
          { apply R2. apply in_or_app. right. now left. }
          apply andb_true_iff in Hj as [_ Hj].
          rewrite den_app in *. cbn [den flat_map aden app] in *. fold (den w0) in *.
          apply in_app_or in Hx as [Hx|[<-|[]]]; auto.
          apply isorted_app_iff in S2 as (_ & _ & Sx). eapply below_mono; [exact Hj|].
          apply Sx; auto. now left.
    Qed.
  End RangeProofs.
End InnerProofs.

Section AvlIterProofs.
  Context {K V Q : Type} (bor : K -> Q) (cmp : Q -> Q -> comparison).
  Context (laws : order_laws cmp).
  Notation tree := (tree K V).
  Notation amap := (avl_map K V).
  Notation valid := (@valid K V Q bor cmp).

  Definition nflat (n : @nnode K V) : list (K * V) := let '(e, l, r) := n in elems l ++ e :: elems r.

  Lemma nflat_mk t : oflat nflat (mk_nnode t) = elems t.
  Proof. destruct t; reflexivity. Qed.
  Lemma nsize_mk t : osize norm_size (@mk_nnode K V t) = t_len t.
  Proof. destruct t; reflexivity. Qed.

  Lemma norm_flat n : let '(l, i, r) := norm_destr n in nflat n = oflat nflat l ++ i :: oflat nflat r.
  Proof. destruct n as [[e l] r]. cbn. now rewrite !nflat_mk. Qed.
  Lemma norm_sized n : let '(l, _, r) := @norm_destr K V n in
    (osize norm_size l + osize norm_size r < norm_size n)%nat.
  Proof. destruct n as [[e l] r]. cbn. rewrite !nsize_mk. lia. Qed.

  Lemma iter_den (m : amap) : den nflat (it_work (avl_iter m)) = contents m.
  Proof. cbn [avl_iter it_work]. rewrite den_odesc, nflat_mk. reflexivity. Qed.

  Lemma iter_spec m cs : valid m ->
    run_ends norm_destr norm_size cs (avl_iter m) = Ok (s_ends cs (contents m)).
  Proof.
    intros (_ & _ & L).
    rewrite (run_ends_ok norm_destr norm_size nflat norm_flat norm_sized cs _ 0).
    - rewrite iter_den. f_equal. rewrite <- (map_id (s_ends cs (contents m))) at 2.
      apply map_ext. intros [x n]. cbn. now rewrite Nat.add_0_r.
    - rewrite iter_den. cbn. lia.
  Qed.

  Lemma collect_ok fuel it : (length (den nflat (it_work it)) < fuel)%nat ->
    (length (den nflat (it_work it)) <= it_len it)%nat ->
    collect fuel it = Ok (den nflat (it_work it)).
  Proof.
    revert it. induction fuel as [|fuel IH]; intros it Hf Hl; [lia|].
    cbn [collect]. unfold avl_next.
    destruct (next_ok norm_destr norm_size nflat norm_flat norm_sized it Hl) as (w' & E & Hd).
    rewrite E. cbn [bind]. destruct (den nflat (it_work it)) as [|e es] eqn:Ed; auto.
    cbn [hd_error tl] in *. rewrite IH; cbn [it_work it_len]; rewrite Hd; auto; cbn in *; lia.
  Qed.

  Lemma avl_collect_spec m : valid m -> avl_collect m = Ok (contents m).
  Proof.
    intros (_ & _ & L). unfold avl_collect. rewrite collect_ok; rewrite iter_den; auto; cbn; lia.
  Qed.

  (** *** range *)
  Lemma range_spec m lo hi : valid m ->
    exists it, avl_range bor cmp m lo hi = Ok it
      /\ den nflat (it_work it) = s_range bor cmp lo hi (contents m)
      /\ it_len it = length (contents m).
  Proof.
    intros (_ & A & L). unfold avl_range.
    destruct (range_iter_ok norm_destr norm_size nflat norm_flat norm_sized
                (fun e => bor (fst e)) cmp laws lo hi (mk_nnode (am_root m)) (avl_len m))
      as (w & E & D).
    { rewrite nflat_mk. exact A. }
    rewrite E. eexists. split; [reflexivity|]. cbn [it_work it_len]. split; auto.
    rewrite D, nflat_mk. unfold s_range, contents. apply filter_ext. intros e.
    unfold inr_, i_above, i_below, above, below, lt_q, gt_q.
    destruct lo as [|q|q], hi as [|q'|q']; auto;
      repeat match goal with |- context [cmp ?a ?b] => destruct (cmp a b) end; reflexivity.
  Qed.

  Lemma range_run_spec m lo hi cs : valid m ->
    exists it extra, avl_range bor cmp m lo hi = Ok it
      /\ run_ends norm_destr norm_size cs it
         = Ok (map (fun x => (fst x, (snd x + extra)%nat)) (s_ends cs (s_range bor cmp lo hi (contents m)))).
  Proof.
    intros Hv. destruct (range_spec m lo hi Hv) as (it & E & D & L).
    exists it, (length (contents m) - length (s_range bor cmp lo hi (contents m)))%nat.
    split; auto. rewrite <- D. apply run_ends_ok with (1 := norm_flat) (2 := norm_sized).
    rewrite D, L. unfold s_range.
    pose proof (filter_length_le (fun e => above bor cmp lo e && below bor cmp hi e) (contents m)).
    lia.
  Qed.

  (** *** Mutable iteration *)
  Fixpoint refs (p : path) (t : tree) : list (mref (K:=K)) :=
    match t with
    | Leaf => []
    | Node k _ _ _ l r => refs (p ++ [false]) l ++ (p, k) :: refs (p ++ [true]) r
    end.
  Definition mflat (n : @mnode K V) : list (mref (K:=K)) :=
    let '(p, k, l, r) := n in refs (p ++ [false]) l ++ (p, k) :: refs (p ++ [true]) r.

  Lemma mflat_mk p t : oflat mflat (mk_mnode p t) = refs p t.
  Proof. destruct t; reflexivity. Qed.
  Lemma msize_mk p t : osize mut_size (@mk_mnode K V p t) = t_len t.
  Proof. destruct t; reflexivity. Qed.
  Lemma mut_flat n : let '(l, i, r) := mut_destr n in mflat n = oflat mflat l ++ i :: oflat mflat r.
  Proof. destruct n as [[[p k] l] r]. cbn. now rewrite !mflat_mk. Qed.
  Lemma mut_sized n : let '(l, _, r) := @mut_destr K V n in
    (osize mut_size l + osize mut_size r < mut_size n)%nat.
  Proof. destruct n as [[[p k] l] r]. cbn. rewrite !msize_mk. lia. Qed.

  Lemma refs_keys p t : map snd (refs p t) = map fst (elems t).
  Proof.
    revert p. induction t as [|k v lh rh l IHl r IHr]; intros p; auto.
    cbn [refs elems]. rewrite !map_app. cbn [map snd fst]. now rewrite IHl, IHr.
  Qed.
  Lemma refs_length p t : length (refs p t) = length (elems t).
  Proof.
    transitivity (length (map snd (refs p t))); [symmetry; apply map_length|].
    rewrite refs_keys. apply map_length.
  Qed.

  Lemma upd_nth_app1 i (w : V -> V) (l r : list (K * V)) : (i < length l)%nat -> upd_nth i w (l ++ r) = upd_nth i w l ++ r.
  Proof.
    revert i. induction l as [|[k v] l IH]; intros i Hi; [cbn in Hi; lia|].
    destruct i; auto. cbn [app upd_nth]. f_equal. apply IH. cbn in Hi. lia.
  Qed.
  Lemma upd_nth_app2 i (w : V -> V) (l r : list (K * V)) : upd_nth (length l + i) w (l ++ r) = l ++ upd_nth i w r.
  Proof. induction l as [|[k v] l IH]; auto. cbn [app length Nat.add upd_nth]. now rewrite IH. Qed.

  Lemma refs_prefix p t r : In r (refs p t) -> exists s, fst r = p ++ s.
  Proof.
    revert p. induction t as [|k v lh rh l IHl rr IHr]; intros p; cbn [refs]; [intros []|].
    intros H. apply in_app_or in H as [H|[<-|H]].
    - apply IHl in H as [s ->]. exists ([false] ++ s). now rewrite app_assoc.
    - exists []. now rewrite app_nil_r.
    - apply IHr in H as [s ->]. exists ([true] ++ s). now rewrite app_assoc.
  Qed.

  (** Writing through the [i]-th reference changes the [i]-th entry's value and
      nothing else. *)
  Lemma write_at_ok w t : forall p i q k,
    nth_error (refs p t) i = Some (p ++ q, k) ->
    elems (write_at q w t) = upd_nth i w (elems t)
    /\ ht (write_at q w t) = ht t /\ (avl t -> avl (write_at q w t)).
  Proof.
    induction t as [|nk nv lh rh l IHl r IHr]; intros p i q k; cbn [refs].
    - now destruct i.
    - intros H. destruct (Nat.lt_ge_cases i (length (refs (p ++ [false]) l))) as [Hi|Hi].
      + rewrite nth_error_app1 in H by auto.
        destruct (refs_prefix _ _ _ (nth_error_In _ _ H)) as [s Hs]. cbn in Hs.
        rewrite <- app_assoc in Hs. apply app_inv_head in Hs. subst q.
        destruct (IHl (p ++ [false]) i s k) as (E1 & E2 & E3).
        { rewrite H, <- app_assoc. reflexivity. }
        cbn [app write_at elems ht avl]. rewrite E1, E2.
        rewrite upd_nth_app1 by (rewrite <- (refs_length (p ++ [false])); auto).
        repeat split; auto; try apply H0. apply E3, H0.
      + rewrite nth_error_app2 in H by auto.
        set (j := (i - length (refs (p ++ [false]) l))%nat) in *.
        assert (Ei : i = (length (elems l) + j)%nat).
        { rewrite <- (refs_length (p ++ [false])). lia. }
        destruct j as [|j].
        * cbn in H. injection H as H _. rewrite <- (app_nil_r p) in H at 1.
          apply app_inv_head in H. subst q.
          cbn [write_at elems ht avl]. rewrite Ei, upd_nth_app2. cbn [upd_nth].
          repeat split; auto; try apply H.
        * cbn [nth_error] in H.
          destruct (refs_prefix _ _ _ (nth_error_In _ _ H)) as [s Hs]. cbn in Hs.
          rewrite <- app_assoc in Hs. apply app_inv_head in Hs. subst q.
          destruct (IHr (p ++ [true]) j s k) as (E1 & E2 & E3).
          { rewrite H, <- app_assoc. reflexivity. }
          cbn [app write_at elems ht avl]. rewrite E1, E2, Ei, upd_nth_app2. cbn [upd_nth].
          repeat split; auto; try apply H0. apply E3, H0.
  Qed.

  (** The references of a map, in key order. *)
  Definition mrefs (m : amap) : list (mref (K:=K)) := refs [] (am_root m).

  Lemma iter_mut_spec m cs : valid m ->
    run_ends mut_destr mut_size cs (avl_iter_mut m) = Ok (s_ends cs (mrefs m)).
  Proof.
    intros (_ & _ & L).
    rewrite (run_ends_ok mut_destr mut_size mflat mut_flat mut_sized cs _ 0).
    - cbn [avl_iter_mut it_work]. rewrite den_odesc, mflat_mk. f_equal.
      rewrite <- (map_id (s_ends cs (mrefs m))).
      apply map_ext. intros [x n]. cbn. now rewrite Nat.add_0_r.
    - cbn [avl_iter_mut it_work it_len]. rewrite den_odesc, mflat_mk, refs_length, L, Nat.add_0_r. reflexivity.
  Qed.

  Lemma mrefs_keys m : map snd (mrefs m) = map fst (contents m).
  Proof. apply refs_keys. Qed.

  Lemma upd_nth_keys i (w : V -> V) (l : list (K * V)) : map fst (upd_nth i w l) = map fst l.
  Proof.
    revert i. induction l as [|[k v] l IH]; intros [|i]; auto. cbn. now rewrite IH.
  Qed.

  Lemma write_spec m i r w : valid m -> nth_error (mrefs m) i = Some r ->
    valid (avl_write r w m) /\ contents (avl_write r w m) = upd_nth i w (contents m)
    /\ mrefs (avl_write r w m) = mrefs m.
  Proof.
    intros (H & A & L) Hi. destruct r as [q k]. unfold mrefs in Hi.
    destruct (write_at_ok w (am_root m) [] i q k Hi) as (E1 & E2 & E3).
    assert (Ec : contents (avl_write (q, k) w m) = upd_nth i w (contents m)) by exact E1.
    split; [|split; [exact Ec|]].
    - split; [now apply E3|]. rewrite Ec. split.
      + eapply asc_keys; [symmetry; apply upd_nth_keys|exact A].
      + cbn [avl_write am_len]. rewrite L. rewrite <- (map_length fst (upd_nth _ _ _)), upd_nth_keys.
        now rewrite map_length.
    - unfold mrefs. cbn [avl_write am_root fst]. clear. generalize (@nil bool) as p.
      revert q. induction (am_root m) as [|nk nv lh rh l IHl r IHr]; intros q p; [reflexivity|].
      destruct q as [|[|] q]; cbn [write_at refs]; rewrite ?IHl, ?IHr; reflexivity.
  Qed.

  Lemma range_mut_spec m lo hi : valid m ->
    exists it, avl_range_mut bor cmp m lo hi = Ok it
      /\ den mflat (it_work it)
         = filter (fun r => inr_ (fun r => bor (snd r)) cmp lo hi r) (mrefs m)
      /\ it_len it = length (contents m).
  Proof.
    intros (_ & A & L). unfold avl_range_mut.
    destruct (range_iter_ok mut_destr mut_size mflat mut_flat mut_sized
                (fun r => bor (snd r)) cmp laws lo hi (mk_mnode [] (am_root m)) (avl_len m))
      as (w & E & D).
    { rewrite mflat_mk. unfold contents in A.
      assert (Ek := refs_keys [] (am_root m)). revert Ek A.
      generalize (refs [] (am_root m)) as rs. generalize (elems (am_root m)) as es. clear.
      induction es as [|e es IH]; intros [|r rs] Ek A; try discriminate; [constructor|].
      injection Ek as E1 E2. apply (asc_cons_iff bor cmp) in A as [A Ha].
      constructor; [now apply (IH rs)|]. apply Forall_forall. intros x Hx.
      apply (in_map snd) in Hx. rewrite E2 in Hx. apply in_map_iff in Hx as (y & Hy & Hin).
      rewrite E1, <- Hy. auto. }
    rewrite E. eexists. split; [reflexivity|]. cbn [it_work it_len]. split; auto.
    rewrite D, mflat_mk. reflexivity.
  Qed.

  (** *** Equality, ordering, hashing *)
  Context (keq : K -> K -> bool) (veq : V -> V -> bool).
  Context (kcmp : K -> K -> comparison) (vcmp : V -> V -> comparison).

  Notation dn it := (den nflat (it_work it)).
  Notation nx := (next_ok norm_destr norm_size nflat norm_flat norm_sized).

  Lemma zip_all_ok fuel a b : (length (dn a) < fuel)%nat ->
    (length (dn a) <= it_len a)%nat -> (length (dn b) <= it_len b)%nat ->
    length (dn a) = length (dn b) ->
    zip_all keq veq fuel a b = Ok (seq_eqb keq veq (dn a) (dn b)).
  Proof.
    revert a b. induction fuel as [|fuel IH]; intros a b Hf La Lb Hl; [lia|].
    cbn [zip_all]. unfold avl_next. destruct (nx a La) as (wa & Ea & Da).
    rewrite Ea. cbn [bind]. destruct (dn a) as [|[k1 v1] la] eqn:Na; cbn [hd_error tl] in *.
    - destruct (dn b); [reflexivity|discriminate].
    - destruct (nx b Lb) as (wb & Eb & Db). rewrite Eb. cbn [bind].
      destruct (dn b) as [|[k2 v2] lb] eqn:Nb; [discriminate|]. cbn [hd_error tl seq_eqb] in *.
      destruct (keq k1 k2 && veq v1 v2); auto. cbn [andb].
      rewrite IH; cbn [it_work it_len]; rewrite ?Da, ?Db; cbn in *; auto; lia.
  Qed.

  Lemma eq_spec a b : valid a -> valid b -> avl_eq keq veq a b = Ok (seq_eqb keq veq (contents a) (contents b)).
  Proof.
    intros (_ & _ & La) (_ & _ & Lb). unfold avl_eq, avl_len.
    destruct (Nat.eqb_spec (am_len a) (am_len b)) as [E|E].
    - rewrite zip_all_ok; rewrite ?iter_den; auto; cbn; lia.
    - f_equal. symmetry. rewrite La, Lb in E. clear - E. revert E.
      generalize (contents a), (contents b).
      induction l as [|[k1 v1] l IH]; intros [|[k2 v2] r] E; cbn in *; auto; [congruence|].
      rewrite IH by congruence. apply andb_false_r.
  Qed.

  Lemma iter_cmp_ok fuel a b : (length (dn a) < fuel)%nat ->
    (length (dn a) <= it_len a)%nat -> (length (dn b) <= it_len b)%nat ->
    iter_cmp kcmp vcmp fuel a b = Ok (seq_cmp kcmp vcmp (dn a) (dn b)).
  Proof.
    revert a b. induction fuel as [|fuel IH]; intros a b Hf La Lb; [lia|].
    cbn [iter_cmp]. unfold avl_next. destruct (nx a La) as (wa & Ea & Da).
    destruct (nx b Lb) as (wb & Eb & Db).
    rewrite Ea. cbn [bind]. destruct (dn a) as [|[k1 v1] la] eqn:Na; cbn [hd_error tl] in *.
    - rewrite Eb. cbn [bind]. destruct (dn b) as [|[k2 v2] lb]; reflexivity.
    - rewrite Eb. cbn [bind].
      destruct (dn b) as [|[k2 v2] lb] eqn:Nb; cbn [hd_error tl seq_cmp] in *; auto.
      unfold pair_cmp. cbn [fst snd].
      destruct (kcmp k1 k2); auto. destruct (vcmp v1 v2); auto.
      rewrite IH; cbn [it_work it_len]; rewrite ?Da, ?Db; cbn in *; auto; lia.
  Qed.

  Lemma cmp_spec a b : valid a -> valid b -> avl_cmp kcmp vcmp a b = Ok (seq_cmp kcmp vcmp (contents a) (contents b)).
  Proof.
    intros (_ & _ & La) (_ & _ & Lb). unfold avl_cmp.
    rewrite iter_cmp_ok; rewrite ?iter_den; auto; cbn; lia.
  Qed.

  Lemma hash_spec {H} (hlen : H -> nat -> H) hk hv m s : valid m ->
    avl_hash hlen hk hv m s
    = fold_left (fun s e => hv (hk s (fst e)) (snd e)) (contents m) (hlen s (length (contents m))).
  Proof.
    intros (_ & _ & L). unfold avl_hash. rewrite for_each_spec, L. reflexivity.
  Qed.
End AvlIterProofs.
