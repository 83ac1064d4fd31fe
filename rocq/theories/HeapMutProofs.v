(** Exclusive references stay exclusive. *)
From Coq Require Import List PeanoNat Bool Lia.
From Verif Require Import Base Heap HeapProofs HeapMut.
Import ListNotations.
Local Open Scope nat_scope.

Section HeapMutProofs.
  Context {P : Type} (bomb : nat -> bool).
  Notation heap := (heap P).
  Notation node := (node P).
  Notation vt := (vt P).

  Lemma held_start (h : heap) r p b : held h r p b -> exists n, get h r = Some (1, n).
  Proof. inversion 1; subst; eauto. Qed.
  Lemma held_end (h : heap) r p b : held h r p b -> exists n, get h b = Some (1, n).
  Proof. induction 1; eauto. Qed.
  Lemma held_det (h : heap) r p b : held h r p b -> forall b', held h r p b' -> b = b'.
  Proof.
    induction 1 as [a n G|a n j c p b G E H IH]; intros b' H'; inversion H'; subst; auto.
    apply IH. replace c with c0 by congruence. auto.
  Qed.
  Lemma held_snoc (h : heap) r p a n j c m : held h r p a -> get h a = Some (1, n) ->
    nth_error (nd_kids n) j = Some (Some c) -> get h c = Some (1, m) -> held h r (p ++ [j]) c.
  Proof.
    induction 1 as [a m0 G|a m0 i c0 p b G E0 H IH]; intros Gn E Gm; cbn [app].
    - econstructor; eauto. econstructor; eauto.
    - econstructor; eauto.
  Qed.
  Lemma held_last (h : heap) p : forall r b, p <> [] -> held h r p b ->
    exists q j a n, p = q ++ [j] /\ held h r q a /\ get h a = Some (1, n) /\ nth_error (nd_kids n) j = Some (Some b).
  Proof.
    induction p as [|i p IH]; intros r b Hp H; [congruence|]. inversion H as [|? n ? c ? ? G E H']; subst.
    destruct p as [|i' p].
    - inversion H'; subst. exists [], i, r, n. split; auto. split; [econstructor; eauto|auto].
    - destruct (IH c b) as (q & j & a & m & -> & Hq & Gm & Em); auto; [discriminate|].
      exists (i :: q), j, a, m. split; auto. split; [econstructor; eauto|auto].
  Qed.

  Lemma in_kids (ps : list ptr) j c : nth_error ps j = Some (Some c) -> In c (olists ps).
  Proof.
    intros E. unfold olists. apply in_flat_map. exists (Some c). split; [eapply nth_error_In; eauto|now left].
  Qed.
  Lemma cnt_twice (ps : list ptr) : forall i j c, i <> j -> nth_error ps i = Some (Some c) -> nth_error ps j = Some (Some c) ->
    2 <= cnt c (olists ps).
  Proof.
    induction ps as [|p ps IH]; intros [|i] [|j] c Hn Ei Ej; try lia; cbn [nth_error] in *; try discriminate;
      unfold olists; cbn [flat_map].
    - injection Ei as ->. cbn [olist app]. rewrite cnt_cons. apply in_kids, cnt_in in Ej. unfold olists in Ej. destruct (Nat.eq_dec c c); lia.
    - injection Ej as ->. cbn [olist app]. rewrite cnt_cons. apply in_kids, cnt_in in Ei. unfold olists in Ei. destruct (Nat.eq_dec c c); lia.
    - rewrite cnt_app. assert (Hn' : i <> j) by lia. specialize (IH i j c Hn' Ei Ej). unfold olists in IH. lia.
  Qed.
  Lemma cnt_one (h : heap) x c n b : get h x = Some (c, n) -> In b (olists (nd_kids n)) ->
    cnt b (olists (nd_kids n)) <= cnt b (ptrs h).
  Proof.
    intros G I. pose proof (cnt_put h x None b (get_lt _ _ _ G)) as E. rewrite G in E. cbn [out_ptrs] in E. rewrite cnt_nil in E. lia.
  Qed.
  Lemma cnt_two (h : heap) x y c n c' n' b : x <> y -> get h x = Some (c, n) -> get h y = Some (c', n') ->
    In b (olists (nd_kids n)) -> In b (olists (nd_kids n')) -> 2 <= cnt b (ptrs h).
  Proof.
    intros Hn Gx Gy Ix Iy. pose proof (cnt_put h x None b (get_lt _ _ _ Gx)) as E. rewrite Gx in E. cbn [out_ptrs] in E.
    assert (In b (ptrs (put h x None))).
    { eapply ptrs_in; [|exact Iy]. rewrite get_put_other; eauto. }
    apply cnt_in in H. apply cnt_in in Ix. rewrite cnt_nil in E. lia.
  Qed.

  (** The count of a held cell leaves room for the one pointer on its path only. *)
  Lemma held_once (h : heap) r O p b x c n : wf h (r :: O) -> held h r p b ->
    get h x = Some (c, n) -> In b (olists (nd_kids n)) ->
    exists q j, p = q ++ [j] /\ held h r q x /\ nth_error (nd_kids n) j = Some (Some b).
  Proof.
    intros W H G I. destruct (held_end _ _ _ _ H) as [m Gb]. pose proof (W b) as Wb. rewrite Gb in Wb. destruct Wb as [Wb _].
    cbn [app] in Wb. rewrite cnt_cons, cnt_app in Wb. pose proof (ptrs_in _ _ _ _ _ G I) as Ip. apply cnt_in in Ip.
    destruct p as [|i p].
    - inversion H; subst. destruct (Nat.eq_dec b b); lia.
    - destruct (held_last h (i :: p) r b) as (q & j & a & na & E & Hq & Ga & Ea); auto; [discriminate|]. rewrite E.
      destruct (Nat.eq_dec a x) as [->|Hn].
      + rewrite G in Ga. injection Ga as -> ->. eauto.
      + pose proof (cnt_two h a x _ _ _ _ b Hn Ga G (in_kids _ _ _ Ea) I). lia.
  Qed.
  Lemma held_out (h : heap) r O p b : wf h (r :: O) -> held h r p b -> ~ In b O.
  Proof.
    intros W H I. destruct (held_end _ _ _ _ H) as [m Gb]. pose proof (W b) as Wb. rewrite Gb in Wb. destruct Wb as [Wb _].
    cbn [app] in Wb. rewrite cnt_cons, cnt_app in Wb. apply cnt_in in I. destruct p as [|i p].
    - inversion H; subst. destruct (Nat.eq_dec b b); lia.
    - destruct (held_last h (i :: p) r b) as (q & j & a & na & E & Hq & Ga & Ea); auto; [discriminate|].
      pose proof (ptrs_in _ _ _ _ _ Ga (in_kids _ _ _ Ea)) as Ip. apply cnt_in in Ip. lia.
  Qed.
  Lemma held_path (h : heap) r O p : forall b q, wf h (r :: O) -> held h r p b -> held h r q b -> p = q.
  Proof.
    induction p as [|j p IH] using rev_ind; intros b q W H H'.
    - inversion H; subst. destruct q as [|i q]; auto. exfalso.
      destruct (held_last h (i :: q) b b) as (q' & j & a & na & E & Hq & Ga & Ea); auto; [discriminate|].
      destruct (held_once h b O [] b a 1 na W H Ga (in_kids _ _ _ Ea)) as (q1 & j1 & E1 & _). now destruct q1.
    - destruct (held_last h (p ++ [j]) r b) as (p' & j' & a & na & E & Hp & Ga & Ea); auto; [now destruct p|].
      apply app_inj_tail in E as [<- <-].
      destruct (held_once h r O q b a 1 na W H' Ga (in_kids _ _ _ Ea)) as (q1 & j1 & -> & Hq & Eq).
      rewrite (IH a q1 W Hp Hq). f_equal. f_equal. destruct (Nat.eq_dec j j1) as [|Hn]; auto. exfalso.
      pose proof (cnt_twice _ _ _ _ Hn Ea Eq) as C2. pose proof (cnt_one h a _ _ b Ga (in_kids _ _ _ Ea)) as C1.
      destruct (held_end _ _ _ _ H) as [m Gb]. pose proof (W b) as Wb. rewrite Gb in Wb. cbn [app] in Wb. rewrite cnt_cons, cnt_app in Wb. lia.
  Qed.

  Lemma dens_nth (h : heap) ps ts : dens h ps ts -> forall j,
    match nth_error ps j, nth_error ts j with
    | Some p, Some t => den h p t
    | None, None => True
    | _, _ => False
    end.
  Proof.
    revert ts. induction ps as [|p ps IH]; intros ts D [|j]; inversion D; subst; cbn; auto. now apply IH.
  Qed.
  Lemma dens_intro (h : heap) ps : forall ts, (forall j,
    match nth_error ps j, nth_error ts j with
    | Some p, Some t => den h p t
    | None, None => True
    | _, _ => False
    end) -> dens h ps ts.
  Proof.
    induction ps as [|p ps IH]; intros [|t ts] H; try (specialize (H 0); contradiction); constructor.
    - exact (H 0).
    - apply IH. intros j. exact (H (S j)).
  Qed.
  Lemma dens_upd (h : heap) ps ts : dens h ps ts -> forall j p t, den h p t -> dens h (upd j p ps) (upd j t ts).
  Proof.
    revert ts. induction ps as [|p ps IH]; intros ts D [|j] p' t' D'; inversion D; subst; cbn; constructor; auto.
  Qed.
  Lemma held_den (h : heap) r p b : held h r p b -> forall t, den h (Some r) t ->
    exists t', v_at t p = Some t' /\ den h (Some b) t'.
  Proof.
    induction 1 as [a n G|a n j c p b G E H IH]; intros t D; [cbn; eauto|].
    inversion D as [|? c' n' ts G' Ds]; subst. rewrite G in G'. injection G' as <- <-. cbn [v_at].
    pose proof (dens_nth _ _ _ Ds j) as Dj. rewrite E in Dj. destruct (nth_error ts j) as [tc|]; [|contradiction]. auto.
  Qed.

  Lemma den_exists (h h' : heap) :
    (forall b c n, get h b = Some (c, n) -> exists c' n', get h' b = Some (c', n') /\ nd_kids n' = nd_kids n) ->
    (forall p t, den h p t -> exists t', den h' p t') /\ (forall ps ts, dens h ps ts -> exists ts', dens h' ps ts').
  Proof.
    intros H. apply (den_dens_ind h (fun p _ => exists t', den h' p t') (fun ps _ => exists ts', dens h' ps ts')).
    - exists VN. constructor.
    - intros a c n ts G _ [ts' D]. destruct (H _ _ _ G) as (c' & n' & G' & E). exists (VT (nd_data n') ts'). econstructor; eauto. now rewrite E.
    - exists []. constructor.
    - intros p ps t ts _ [t' D] _ [ts' Ds]. exists (t' :: ts'). now constructor.
  Qed.

  (** *** Writing *)
  Lemma data_mut_ok (h : heap) r O p a f t : wf h (r :: O) -> acyclic h -> held h r p a -> den h (Some r) t ->
    exists h', data_mut h a f = Ok h'
      /\ wf h' (r :: O) /\ acyclic h' /\ frame O h h'
      /\ den h' (Some r) (v_upd f t p)
      /\ (forall q b, held h r q b -> held h' r q b)
      /\ clones h' = clones h /\ length (cells h') = length (cells h).
  Proof.
    intros W A H D. destruct (held_end _ _ _ _ H) as [n G]. pose proof (get_lt _ _ _ G) as L.
    unfold data_mut, excl. rewrite G. cbn [bind]. eexists. split; [reflexivity|].
    set (n' := Nd (f (nd_data n)) (nd_kids n)). set (h' := put h a (Some (1, n'))).
    assert (Gs : forall x, get h' x = if Nat.eq_dec a x then Some (1, n') else get h x) by (intros x; now apply get_put).
    assert (Ps : forall x, cnt x (ptrs h') = cnt x (ptrs h)).
    { intros x. pose proof (cnt_put h a (Some (1, n')) x L) as E. rewrite G in E. cbn [out_ptrs n' nd_kids] in E. fold h' in E. lia. }
    assert (Hh : forall q b, held h r q b -> held h' r q b).
    { clear - Gs G. intros q b H. induction H as [x m G'|x m j c p' b G' E H IH].
      - apply held_here with (n := if Nat.eq_dec a x then n' else m). rewrite Gs. destruct (Nat.eq_dec a x); auto.
      - destruct (Nat.eq_dec a x) as [->|Hn].
        + apply held_kid with (n := n') (c := c); auto; [rewrite Gs; destruct (Nat.eq_dec x x); congruence|].
          rewrite G in G'. injection G' as <-. auto.
        + apply held_kid with (n := m) (c := c); auto. rewrite Gs. destruct (Nat.eq_dec a x); congruence. }
    (* cells that are not on the path *)
    set (Off := fun x => ~ exists p1 p2, p = p1 ++ p2 /\ held h r p1 x).
    assert (Os : forall b c m, Off b -> get h b = Some (c, m) ->
              (exists c', get h' b = Some (c', m)) /\ forall k, In k (olists (nd_kids m)) -> Off k).
    { intros b c m Ob Gb. split.
      - exists c. rewrite Gs. destruct (Nat.eq_dec a b) as [<-|]; auto. exfalso. apply Ob. exists p, []. rewrite app_nil_r. auto.
      - intros k Hk (p1 & p2 & -> & H1). destruct (held_once _ _ _ _ _ _ _ _ W H1 Gb Hk) as (q & j & -> & Hq & _).
        apply Ob. exists q, ([j] ++ p2). rewrite app_assoc. auto. }
    destruct (den_sub h h' Off Os) as [Ds Dss].
    assert (Dr : forall p1 x t, held h r p1 x -> forall p2, p = p1 ++ p2 -> held h x p2 a -> den h (Some x) t -> den h' (Some x) (v_upd f t p2)).
    { intros p1 x t0 H1 p2 Ep H2. revert p1 t0 H1 Ep.
      induction p2 as [|j p2 IH] in x, H2 |- *; intros p1 t0 H1 Ep D0;
        inversion D0 as [|? cx m ts Gx Dx]; subst.
      - inversion H2; subst. cbn [v_upd]. rewrite G in Gx. injection Gx as <- <-.
        apply (den_node h' a 1 n' ts); [rewrite Gs; destruct (Nat.eq_dec a a); congruence|]. cbn [n' nd_kids].
        assert (Ok : forall b, In b (olists (nd_kids n)) -> Off b).
        { intros b Ib (q1 & q2 & Eq & Hq). destruct (held_once _ _ _ _ _ _ _ _ W Hq G Ib) as (q & j & -> & Hq' & _).
          pose proof (held_path _ _ _ _ _ _ W H1 Hq') as ->. apply (f_equal (@length nat)) in Eq. rewrite !app_length in Eq. cbn in Eq. lia. }
        now apply Dss.
      - inversion H2 as [|? m' ? c ? ? G2 E2 H2']; subst. rewrite Gx in G2. injection G2 as -> ->. cbn [v_upd].
        assert (Hc : held h r (p1 ++ [j]) c).
        { destruct (held_start _ _ _ _ H2') as [mc Gc]. eapply held_snoc; eauto. }
        pose proof (dens_nth _ _ _ Dx j) as Dj. rewrite E2 in Dj. destruct (nth_error ts j) as [tc|] eqn:Ej; [|contradiction].
        assert (Dc : den h' (Some c) (v_upd f tc p2)).
        { apply (IH c H2' (p1 ++ [j])); auto. now rewrite <- app_assoc. }
        assert (Hx : exists n1, get h' x = Some (1, n1) /\ nd_data n1 = nd_data m' /\ nd_kids n1 = nd_kids m').
        { exists m'. split; auto. rewrite Gs. destruct (Nat.eq_dec a x) as [<-|]; auto. exfalso.
          assert (Hp : held h r (p1 ++ j :: p2) a).
          { clear - H1 H2. induction H1; cbn [app]; auto. econstructor; eauto. }
          pose proof (held_path _ _ _ _ _ _ W H1 Hp) as E. apply (f_equal (@length nat)) in E. rewrite app_length in E. cbn in E. lia. }
        destruct Hx as (n1 & Gn1 & <- & Ek). apply (den_node h' x 1 n1); auto. rewrite Ek. apply dens_intro. intros i.
        destruct (Nat.eq_dec j i) as [<-|Hi].
        + rewrite E2. rewrite upd_same; auto. apply nth_error_Some. congruence.
        + rewrite upd_other by auto. pose proof (dens_nth _ _ _ Dx i) as Di.
          destruct (nth_error (nd_kids m') i) as [[k|]|] eqn:Ei, (nth_error ts i) as [ti|]; try contradiction; auto.
          * apply Ds; auto. intros b [<-|[]] (q1 & q2 & Eq & Hq).
            destruct (held_once _ _ _ _ _ _ _ _ W Hq Gx (in_kids _ _ _ Ei)) as (q & i' & -> & Hq' & Ei').
            pose proof (held_path _ _ _ _ _ _ W H1 Hq') as ->.
            rewrite <- app_assoc in Eq. apply app_inv_head in Eq. injection Eq as <- Eq.
            destruct (held_end _ _ _ _ Hq) as [mk Gk]. pose proof (held_snoc _ _ _ _ _ _ _ _ H1 Gx Ei Gk) as Hs.
            pose proof (held_path _ _ _ _ _ _ W Hs Hq) as E. apply app_inj_tail in E as [_ E]. congruence.
          * inversion Di; subst. constructor. }
    assert (Hr : held h r [] r). { destruct (held_start _ _ _ _ H). econstructor; eauto. }
    split; [|split; [|split; [|split; [|split; [|split]]]]].
    - intros x. pose proof (W x) as Wx. rewrite Gs, cnt_app, Ps, <- cnt_app. destruct (Nat.eq_dec a x) as [<-|]; auto. now rewrite G in Wx.
    - assert (Z : forall b c m, get h b = Some (c, m) -> exists c' m', get h' b = Some (c', m') /\ nd_kids m' = nd_kids m).
      { intros b c m Gb. rewrite Gs. destruct (Nat.eq_dec a b) as [<-|]; [|eauto]. rewrite G in Gb. injection Gb as <- <-. exists 1, n'. auto. }
      intros b c m Gb. assert (Gb' : exists c' m', get h b = Some (c', m')).
      { rewrite Gs in Gb. destruct (Nat.eq_dec a b) as [<-|]; eauto. }
      destruct Gb' as (c' & m' & Gb'). destruct (A _ _ _ Gb') as [tb Db]. now apply (proj1 (den_exists h h' Z) _ tb).
    - split; [|split].
      + intros q t0 Hq D0. apply Ds; auto. intros b Hb (p1 & p2 & -> & H1). apply (held_out _ _ _ _ _ W H1). auto.
      + intros x Gx _. rewrite Gs. destruct (Nat.eq_dec a x) as [<-|]; auto. congruence.
      + unfold h'. rewrite cells_put. auto.
    - apply (Dr [] r t Hr p); auto.
    - exact Hh.
    - reflexivity.
    - apply cells_put.
  Qed.

  (** *** [make_mut] of a child *)
  Lemma cnt_upd (ps : list ptr) : forall j c c' x, nth_error ps j = Some (Some c) ->
    cnt x (olists (upd j (Some c') ps)) + cnt x [c] = cnt x (olists ps) + cnt x [c'].
  Proof.
    induction ps as [|p ps IH]; intros [|j] c c' x E; cbn [nth_error] in E; try discriminate; unfold olists in *; cbn [upd flat_map].
    - injection E as ->. cbn [olist app]. rewrite !cnt_cons, !cnt_nil. lia.
    - rewrite !cnt_app. specialize (IH j c c' x E). lia.
  Qed.
  Lemma upd_comm {A} i j (x y : A) l : i <> j -> upd i x (upd j y l) = upd j y (upd i x l).
  Proof.
    revert i j. induction l as [|z l IH]; intros [|i] [|j] H; cbn; auto; try lia. f_equal. apply IH. lia.
  Qed.

  (** Replacing a pointer with one to a cell with equal contents. *)
  Lemma swap_ok (h : heap) a k n j c c' kc m O : wf h (c' :: O) -> acyclic h ->
    get h a = Some (k, n) -> nth_error (nd_kids n) j = Some (Some c) ->
    get h c = Some (kc, m) -> get h c' = Some (1, m) -> a <> c -> a <> c' ->
    let h' := put h a (Some (k, Nd (nd_data n) (upd j (Some c') (nd_kids n)))) in
    wf h' (c :: O) /\ acyclic h' /\ forall p t, den h p t -> den h' p t.
  Proof.
    intros W A G E Gc Gc' Hc Hc' h'. pose proof (get_lt _ _ _ G) as L.
    set (n' := Nd (nd_data n) (upd j (Some c') (nd_kids n))) in *.
    assert (Gs : forall x, get h' x = if Nat.eq_dec a x then Some (k, n') else get h x) by (intros x; now apply get_put).
    assert (D : forall p t, den h p t -> den h' p t).
    { apply (den_mut h (fun p t => den h' p t) (fun ps ts => dens h' ps ts)).
      - constructor.
      - intros x cx nx ts Gx _ D. destruct (Nat.eq_dec a x) as [<-|Hn].
        + rewrite G in Gx. injection Gx as <- <-. change (nd_data n) with (nd_data n').
          apply (den_node h' a k n'); [rewrite Gs; destruct (Nat.eq_dec a a); congruence|]. cbn [n' nd_kids].
          pose proof (dens_nth _ _ _ D j) as Dj. rewrite E in Dj. destruct (nth_error ts j) as [tc|] eqn:Ej; [|contradiction].
          replace ts with (upd j tc ts) by now apply upd_self. apply dens_upd; auto.
          inversion Dj as [|? kc' m' us Gx' Du]; subst. rewrite Gs in Gx'. destruct (Nat.eq_dec a c); [congruence|].
          rewrite Gc in Gx'. injection Gx' as <- <-. apply (den_node h' c' 1 m); auto. rewrite Gs. destruct (Nat.eq_dec a c'); congruence.
        + apply (den_node h' x cx nx); auto. rewrite Gs. destruct (Nat.eq_dec a x); congruence.
      - constructor.
      - intros p ps t ts _ D _ Ds. now constructor. }
    split; [|split; auto].
    - intros x. pose proof (W x) as Wx. pose proof (cnt_put h a (Some (k, n')) x L) as Ep. rewrite G in Ep. cbn [out_ptrs] in Ep. fold h' in Ep.
      pose proof (cnt_upd (nd_kids n) j c c' x E) as Eu. fold n' in Eu. cbn [n' nd_kids] in Ep.
      cbn [app] in *. rewrite cnt_cons, cnt_app in *. rewrite !cnt_cons, !cnt_nil in Eu. rewrite Gs.
      destruct (Nat.eq_dec a x) as [<-|]; [rewrite G in Wx|].
      + lia.
      + destruct (get h x) as [[cx nx]|]; lia.
    - intros x cx nx Gx. assert (exists cx nx, get h x = Some (cx, nx)) as (cx' & nx' & Gx').
      { rewrite Gs in Gx. destruct (Nat.eq_dec a x) as [<-|]; eauto. }
      destruct (A _ _ _ Gx') as [t Dt]. eauto.
  Qed.

  Lemma kid_mut_ok (h : heap) r O p a n j c : wf h (r :: O) -> acyclic h -> held h r p a ->
    get h a = Some (1, n) -> nth_error (nd_kids n) j = Some (Some c) ->
    exists h' x kc m, get h c = Some (kc, m) /\ kid_mut bomb h a j = Ok (h', x)
      /\ wf h' (r :: O) /\ acyclic h' /\ (forall q t, den h q t -> den h' q t)
      /\ (forall b, get h b = None -> b < length (cells h) -> get h' b = None)
      /\ length (cells h) <= length (cells h')
      /\ (forall q b, held h r q b -> held h' r q b)
      /\ match x with
         | None => kc <> 1 /\ bomb (length (clones h)) = true /\ clones h' = nd_data m :: clones h /\ cells h' = cells h
         | Some c' => held h' r (p ++ [j]) c' /\ clones h' = (if kc =? 1 then [] else [nd_data m]) ++ clones h
                      /\ (kc <> 1 -> bomb (length (clones h)) = false)
         end.
  Proof.
    intros W A H G E. pose proof (in_kids _ _ _ E) as Ic. pose proof (ptrs_in _ _ _ _ _ G Ic) as Ip.
    destruct (live_of_wf h (r :: O) c W) as (kc & m & Gc & Hk). { apply in_or_app. auto. }
    assert (Hac : a <> c).
    { intros <-. destruct (held_once _ _ _ _ _ _ _ _ W H G Ic) as (q & i & Ep & Hq & _).
      pose proof (held_path _ _ _ _ _ _ W H Hq) as ->. apply (f_equal (@length nat)) in Ep. rewrite app_length in Ep. cbn in Ep. lia. }
    unfold kid_mut, excl. rewrite G. cbn [bind]. rewrite E. cbn [unwrap bind]. unfold make_mut. rewrite Gc.
    destruct (Nat.eq_dec kc 1) as [->|Hn].
    { (* not shared *)
      cbn [bind]. rewrite G. cbn [bind]. exists h, (Some c), 1, m. split; auto.
      rewrite upd_self by auto. destruct n as [d ks]. cbn [nd_data nd_kids] in *.
      assert (Eh : put h a (Some (1, Nd d ks)) = h).
      { unfold put. rewrite upd_self; [now destruct h|]. unfold get in G. destruct (nth_error (cells h) a) as [[|]|]; congruence. }
      rewrite Eh. split; auto. repeat (split; auto); try congruence. eapply held_snoc; eauto. }
    destruct (bomb (length (clones h))) eqn:Eb.
    { exists (log h (nd_data m)), None, kc, m. split; auto. destruct (log_ok h (nd_data m) _ W A) as (W1 & A1 & S1 & S1' & L1 & _).
      split; [destruct kc as [|[|kc]]; try lia; reflexivity|]. split; auto. split; auto.
      split; [intros q t Dq; now apply (den_same _ _ S1)|]. repeat (split; auto).
      clear. intros q b H. induction H; econstructor; eauto. }
    destruct (log_ok h (nd_data m) _ W A) as (W0 & A0 & S0 & S0' & L0 & P0).
    destruct (incs_ok (nd_kids m) (log h (nd_data m)) _ W0 A0) as (h1 & E1 & W1 & A1 & S1 & S1' & P1 & L1 & C1).
    { intros x Hx. apply in_or_app. right. rewrite P0. eapply ptrs_in; eauto. }
    destruct (dens_of_wf h (r :: O) W A (nd_kids m)) as [ts Dk0].
    { intros x Hx. apply in_or_app. right. eapply ptrs_in; eauto. }
    assert (D1 : dens h1 (nd_kids m) ts) by (apply (den_same _ _ S1), (den_same _ _ S0); exact Dk0).
    destruct (alloc h1 m) as [h2 c'] eqn:E2.
    assert (E2' : alloc h1 (Nd (nd_data m) (nd_kids m)) = (h2, c')) by (destruct m; exact E2).
    destruct (alloc_ok h1 (nd_data m) (nd_kids m) ts (r :: O) W1 A1 D1 h2 c' E2')
      as (W2 & A2 & D2 & G2 & F2 & S2 & L2 & C2 & Ea & Gn).
    replace (Nd (nd_data m) (nd_kids m)) with m in G2 by (destruct m; auto).
    assert (SS : same_nodes h h2) by eauto using same_nodes_trans.
    assert (Hl : length (cells h2) = S (length (cells h))) by (rewrite L2, L1, L0; auto).
    assert (Hac' : a <> c'). { pose proof (get_lt _ _ _ G). lia. }
    assert (Hcc' : c <> c'). { pose proof (get_lt _ _ _ Gc). lia. }
    (* a cell with one pointer that the clone does not touch *)
    assert (Keep : forall x nx, get h x = Some (1, nx) -> ~ In x (olists (nd_kids m)) -> get h2 x = Some (1, nx)).
    { intros x nx Gx Nx. destruct (SS _ _ _ Gx) as [k' G']. pose proof (W2 x) as Wx. rewrite G' in Wx.
      pose proof (W x) as Wx0. rewrite Gx in Wx0.
      pose proof (ptrs_alloc h1 m) as Pa. rewrite E2 in Pa. cbn [fst] in Pa. rewrite Pa, P1, P0 in Wx.
      apply cnt_notin in Nx. cbn [app] in *. rewrite !cnt_cons in Wx. rewrite !cnt_app in Wx. rewrite !cnt_cons in Wx0. rewrite !cnt_app in Wx0.
      pose proof (get_lt _ _ _ Gx). destruct (Nat.eq_dec c' x); [lia|]. rewrite G'. f_equal. f_equal. lia. }
    assert (Hm : forall q x, held h r q x -> ~ In x (olists (nd_kids m))).
    { intros q x Hx I. destruct (held_once _ _ _ _ _ _ _ _ W Hx Gc I) as (q' & i & _ & Hq & _).
      destruct (held_end _ _ _ _ Hq) as [nq Gq]. congruence. }
    assert (Ga2 : get h2 a = Some (1, n)) by (apply Keep; eauto).
    destruct (SS _ _ _ Gc) as [kc2 Gc2].
    destruct (swap_ok h2 a 1 n j c c' kc2 m (r :: O) W2 A2 Ga2 E Gc2 G2 Hac Hac') as (W3 & A3 & D3).
    set (n' := Nd (nd_data n) (upd j (Some c') (nd_kids n))) in *. set (h3 := put h2 a (Some (1, n'))) in *.
    pose proof (get_lt _ _ _ Ga2) as La2.
    assert (Gs3 : forall x, get h3 x = if Nat.eq_dec a x then Some (1, n') else get h2 x) by (intros x; now apply get_put).
    assert (Gc3 : get h3 c = Some (kc2, m)). { rewrite Gs3. destruct (Nat.eq_dec a c); congruence. }
    assert (Hk2 : kc2 = kc).
    { pose proof (W2 c) as Wx. rewrite Gc2 in Wx. pose proof (W c) as Wx0. rewrite Gc in Wx0.
      pose proof (ptrs_alloc h1 m) as Pa. rewrite E2 in Pa. cbn [fst] in Pa. rewrite Pa, P1, P0 in Wx.
      assert (Nx : cnt c (olists (nd_kids m)) = 0).
      { apply cnt_notin. intros I. (* no cycle *)
        destruct (A _ _ _ Gc) as [tc Dc].
        inversion Dc as [|? c1 n1 us G1 Ds]; subst. rewrite Gc in G1. injection G1 as <- <-.
        apply in_olists in I. pose proof (vsize_kid h _ _ c _ Ds I Dc) as V. cbn [vsize] in V. lia. }
      cbn [app] in *. rewrite !cnt_cons in Wx. rewrite !cnt_app in Wx. rewrite !cnt_cons in Wx0. rewrite !cnt_app in Wx0.
      destruct (Nat.eq_dec c' c); [congruence|]. lia. }
    subst kc2.
    destruct (dec_ok h3 c kc m (r :: O) W3 A3 Gc3 Hn) as (h4 & E4 & W4 & A4 & S4 & S4' & L4 & C4 & O4).
    exists h4, (Some c'), kc, m. split; auto. split.
    { destruct kc as [|[|kc]]; try lia. rewrite E1. cbn [bind]. rewrite E2. unfold dec. rewrite Gc2. cbn [bind].
      rewrite get_put_other by auto. rewrite Ga2. cbn [bind]. unfold dec in E4. rewrite Gc3 in E4. injection E4 as <-.
      fold n'. f_equal. f_equal. unfold h3, put. cbn [cells clones]. f_equal. now apply upd_comm. }
    split; auto. split; auto. split.
    { intros q t Dq. apply (den_same _ _ S4), D3, (den_same _ _ SS), Dq. }
    split.
    { intros b Gb Lb. destruct (get h4 b) as [[kb nb]|] eqn:G4; auto. exfalso.
      destruct (S4' _ _ _ G4) as [kb' G3]. rewrite Gs3 in G3. destruct (Nat.eq_dec a b) as [<-|]; [congruence|].
      pose proof (get_alloc h1 m b) as Gal. rewrite E2 in Gal. cbn [fst] in Gal. rewrite Gal in G3.
      destruct (Nat.eq_dec (length (cells h1)) b); [rewrite L1, L0 in *; lia|].
      destruct (S1' _ _ _ G3) as [kb1 G1]. rewrite get_log in G1. congruence. }
    split. { rewrite L4. unfold h3. rewrite cells_put. lia. }
    assert (Hh : forall q b, held h r q b -> held h4 r q b).
    { intros q b Hq.
      assert (Z : forall q0 x, held h r q0 x -> forall q1, held h x q1 b -> held h4 x q1 b).
      { intros q0 x Hx q1. revert q0 x Hx. induction q1 as [|i q1 IH]; intros q0 x Hx H1; inversion H1 as [? nx Gx|? nx ? y ? ? Gx Ey Hy]; subst.
        - assert (G4 : get h2 b = Some (1, nx)) by eauto.
          assert (b <> c) by congruence. destruct (Nat.eq_dec a b) as [<-|Hb].
          + apply held_here with (n := n'). rewrite O4 by auto. rewrite Gs3. destruct (Nat.eq_dec a a); congruence.
          + apply held_here with (n := nx). rewrite O4 by auto. rewrite Gs3. destruct (Nat.eq_dec a b); congruence.
        - destruct (held_start _ _ _ _ Hy) as [ny Gy]. assert (Hy' : held h r (q0 ++ [i]) y) by (eapply held_snoc; eauto).
          specialize (IH _ _ Hy' Hy). assert (y <> c) by congruence. assert (x <> c) by congruence.
          assert (G4 : get h2 x = Some (1, nx)) by eauto. destruct (Nat.eq_dec a x) as [<-|Hb].
          + apply held_kid with (n := n') (c := y); auto.
            * rewrite O4 by auto. rewrite Gs3. destruct (Nat.eq_dec a a); congruence.
            * cbn [n' nd_kids]. rewrite G in Gx. injection Gx as <-. rewrite upd_other; auto. intros <-. congruence.
          + apply held_kid with (n := nx) (c := y); auto. rewrite O4 by auto. rewrite Gs3. destruct (Nat.eq_dec a x); congruence. }
      destruct (held_start _ _ _ _ H) as [nr Gr]. apply (Z [] r); auto. econstructor; eauto. }
    split; auto. split; [|split; auto].
    - apply held_snoc with (a := a) (n := n') (m := m); auto.
      + rewrite O4 by auto. rewrite Gs3. destruct (Nat.eq_dec a a); congruence.
      + cbn [n' nd_kids]. apply upd_same. apply nth_error_Some. congruence.
      + rewrite O4 by auto. rewrite Gs3. destruct (Nat.eq_dec a c'); congruence.
    - destruct (Nat.eqb_spec kc 1); [congruence|]. rewrite C4. unfold h3. cbn [put clones app]. rewrite C2, C1. reflexivity.
  Qed.

  (** [make_mut] of the pointer that is held outside. *)
  Lemma root_mut_ok (h : heap) r O : wf h (r :: O) -> acyclic h ->
    exists h' x kr m, get h r = Some (kr, m) /\ make_mut bomb h r = Ok (h', x)
      /\ acyclic h' /\ frame O h h' /\ (forall q t, den h q t -> den h' q t)
      /\ match x with
         | None => wf h' (r :: O) /\ kr <> 1 /\ bomb (length (clones h)) = true /\ clones h' = nd_data m :: clones h /\ cells h' = cells h
         | Some r' => wf h' (r' :: O) /\ held h' r' [] r' /\ (forall t, den h (Some r) t -> den h' (Some r') t)
                      /\ clones h' = (if kr =? 1 then [] else [nd_data m]) ++ clones h
                      /\ (kr = 1 -> h' = h /\ r' = r) /\ (kr <> 1 -> bomb (length (clones h)) = false)
         end.
  Proof.
    intros W A. destruct (live_of_wf h (r :: O) r W) as (kr & m & Gr & Hk). { now left. }
    destruct (dens_of_wf h (r :: O) W A (nd_kids m)) as [ts Dk]. { intros x Hx. apply in_or_app. right. eapply ptrs_in; eauto. }
    assert (Gr' : get h r = Some (kr, Nd (nd_data m) (nd_kids m))) by (rewrite Gr; destruct m; auto).
    destruct (make_mut_ok bomb h r kr _ _ ts O W A Gr' Dk) as (h' & x & E & F & A' & Z).
    exists h', x, kr, m. split; auto. split; auto. split; auto. split; auto.
    assert (Dr : forall t, den h (Some r) t -> t = VT (nd_data m) ts).
    { intros t Dt. inversion Dt as [|? k' m' us G' Du]; subst. rewrite Gr in G'. injection G' as <- <-. f_equal. eapply den_det; eauto. }
    destruct x as [r'|].
    - destruct Z as (W' & G' & D' & Z).
      assert (Dr' : forall t, den h (Some r) t -> den h' (Some r') t).
      { intros t Dt. rewrite (Dr t Dt). change (nd_data m) with (nd_data (Nd (nd_data m) (nd_kids m))). econstructor; eauto. }
      assert (Hh : held h' r' [] r') by (econstructor; eauto).
      destruct (Nat.eqb_spec kr 1) as [E1|Hn].
      + destruct Z as [-> ->]. split; auto. repeat (split; auto). congruence.
      + destruct Z as (C & _ & B & S & _). split; [intros q t Dq; now apply (den_same _ _ S)|].
        repeat (split; auto); congruence.
    - destruct Z as (Hn & B & W' & D' & C & Cc). split; auto. intros q t Dq.
      apply (den_same h h'); auto. intros y ky ny Gy. exists ky. unfold get in *. now rewrite Cc.
  Qed.
End HeapMutProofs.
