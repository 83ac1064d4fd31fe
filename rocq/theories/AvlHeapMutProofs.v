(** Proofs about [iter_mut] and [range_mut] of [AvlMap]s on shared nodes: the steps. *)
From Coq Require Import List PeanoNat Bool Lia.
From Verif Require Import Base Spec MapSpec Heap HeapProofs HeapMut HeapMutProofs AvlModel AvlIterModel AvlIterProofs
  AvlHeapModel AvlHeapSpec AvlHeapProofs MutSpec AvlHeapMutModel.
From Verif Require BTreeHeapMutProofs.
Import ListNotations.
Local Open Scope nat_scope.

Notation cut := BTreeHeapMutProofs.cut.
Notation prefix := BTreeHeapMutProofs.prefix.
Notation hden := Heap.den.

(** A path as child indices. *)
Definition side (b : bool) : nat := if b then 1 else 0.
Definition np (p : AvlIterModel.path) : list nat := map side p.

Section Tree.
  Context {K V : Type}.
  Notation tree := (tree K V).
  Notation pay := (pay K V).

  Definition kid (b : bool) (t : tree) : tree := match t with Leaf => Leaf | Node _ _ _ _ l r => if b then r else l end.
  Fixpoint t_at (t : tree) (p : AvlIterModel.path) : tree :=
    match p with [] => t | b :: p' => t_at (kid b t) p' end.
  Definition pays (t : tree) (ps : list AvlIterModel.path) : list pay := flat_map (fun p => root_pay (t_at t p)) ps.

  Lemma t_at_app p : forall (t : tree) q, t_at t (p ++ q) = t_at (t_at t p) q.
  Proof. induction p as [|b p IH]; intros t q; cbn [app t_at]; auto. Qed.
  Lemma t_at_leaf p : t_at Leaf p = Leaf.
  Proof. induction p as [|b p IH]; auto. Qed.
  Lemma np_snoc p b : np (p ++ [b]) = np p ++ [side b].
  Proof. unfold np. now rewrite map_app. Qed.
  Lemma np_inj p : forall q, np p = np q -> p = q.
  Proof.
    induction p as [|b p IH]; intros [|c q] E; try discriminate; auto. cbn [np map] in E. injection E as E1 E2.
    f_equal; [destruct b, c; cbn in E1; congruence|auto].
  Qed.
  Lemma v_at_t p : forall (t : tree) u, v_at (tv t) (np p) = Some u -> u = tv (t_at t p).
  Proof.
    induction p as [|b p IH]; intros t u E; cbn [np map v_at] in E; [now injection E|].
    destruct t as [|k v lh rh l r]; [discriminate|]. cbn [tv] in E. cbn [t_at kid]. destruct b; cbn [side nth_error] in E; now apply IH.
  Qed.

  (** The keys and the shape, without the values. *)
  Fixpoint skel (t : tree) : AvlModel.tree K unit :=
    match t with Leaf => Leaf | Node k _ lh rh l r => Node k tt lh rh (skel l) (skel r) end.
  Lemma skel_at p : forall t t', skel t = skel t' -> skel (t_at t p) = skel (t_at t' p).
  Proof.
    induction p as [|b p IH]; intros t t' E; cbn [t_at]; auto. apply IH. destruct t, t'; try discriminate; auto.
    cbn in E. injection E as _ _ _ E1 E2. now destruct b.
  Qed.
  Lemma skel_levels : forall t t', skel t = skel t' -> levels t = levels t'.
  Proof.
    induction t as [|k v lh rh l IHl r IHr]; intros [|k' v' lh' rh' l' r'] E; try discriminate; auto. cbn [skel] in E. injection E as _ _ _ El Er.
    cbn [levels]. now rewrite (IHl _ El), (IHr _ Er).
  Qed.
  Lemma skel_write q : forall w t, skel (write_at q w t) = skel t.
  Proof.
    intros w t. revert q. induction t as [|k v lh rh l IHl r IHr]; intros q; [reflexivity|].
    destruct q as [|[|] q]; cbn [write_at skel]; now rewrite ?IHl, ?IHr.
  Qed.
  Lemma v_upd_tv q : forall w t, t_at t q <> Leaf -> v_upd (fun d => set_val d (w (pv d))) (tv t) (np q) = tv (write_at q w t).
  Proof.
    intros w. induction q as [|b q IH]; intros t H; (destruct t as [|k v lh rh l r]; [reflexivity|]).
    - reflexivity.
    - cbn [np map tv v_upd write_at]. cbn [t_at kid] in H. fold (np q). destruct b; cbn [side nth_error upd]; rewrite IH by auto; reflexivity.
  Qed.
  Lemma at_write q w : forall (t : tree) p, p <> q -> root_pay (t_at (write_at q w t) p) = root_pay (t_at t p).
  Proof.
    intros t. revert q. induction t as [|k v lh rh l IHl r IHr]; intros q p Hp; [reflexivity|].
    destruct q as [|[|] q], p as [|[|] p]; cbn [write_at t_at kid]; auto; try congruence; (apply IHr || apply IHl); congruence.
  Qed.
  Lemma levels_at p : forall t : tree, levels (t_at t p) <= levels t.
  Proof.
    induction p as [|b p IH]; intros t; cbn [t_at]; auto. specialize (IH (kid b t)). destruct t; cbn [kid levels] in *; auto.
    destruct b; lia.
  Qed.
End Tree.

Section Steps.
  Context {K V : Type}.
  Variable bomb : nat -> bool.
  Notation tree := (tree K V).
  Notation pay := (pay K V).
  Notation heap := (heap pay).
  Notation path := AvlIterModel.path.

  (** The start: the heap [h0], the tree [t0]; the pointers [O] belong to others. *)
  Variables (h0 : heap) (t0 : tree) (O : list addr) (start : path -> Prop).

  (** Now: the map's root is [r], it shows the tree [t]; [ps] are the nodes that were cloned. *)
  Definition mst (h : heap) (r : addr) (t : tree) (ps : list path) : Prop :=
    wf h (r :: O) /\ acyclic h /\ hden h (Some r) (tv t) /\ skel t = skel t0 /\ frame O h0 h
    /\ clones h = pays t0 ps ++ clones h0 /\ NoDup ps
    /\ Forall (fun p => t_at t0 p <> Leaf /\ ~ start p) ps.
  Definition hh (h : heap) (r : addr) (p : path) : Prop := exists b, held h r (np p) b.
  Definition mheld (h : heap) (r : addr) (t : tree) (ps : list path) : Prop :=
    (forall p, root_pay (t_at t p) = root_pay (t_at t0 p) \/ hh h r p)
    /\ Forall (hh h r) ps
    /\ (forall p, start p -> hh h r p).
  Definition minv h r t ps := mst h r t ps /\ mheld h r t ps.
  Definition mono (h h' : heap) r := forall p b, held h r p b -> held h' r p b.

  Lemma mono_refl h r : mono h h r.
  Proof. intros p b H. exact H. Qed.
  Lemma mono_trans h1 h2 h3 r : mono h1 h2 r -> mono h2 h3 r -> mono h1 h3 r.
  Proof. intros A B p b H. apply B, A, H. Qed.
  Lemma hh_mono h h' r p : mono h h' r -> hh h r p -> hh h' r p.
  Proof. intros M [b H]. exists b. auto. Qed.

  Lemma den_node (h : heap) a k v lh rh l r : hden h (Some a) (tv (Node k v lh rh l r)) ->
    exists c pl pr, get h a = Some (c, Nd (Pay k v lh rh) [pl; pr]) /\ hden h pl (tv l) /\ hden h pr (tv r).
  Proof.
    intros D. cbn [tv] in D. inversion D as [|? c [d ks] ts G Ds]; subst. cbn [nd_data nd_kids] in *.
    inversion Ds as [|pl ? ps ? D1 Ds1]; subst. inversion Ds1 as [|pr ? ps' ? D2 Ds2]; subst. inversion Ds2; subst. eauto 6.
  Qed.
  Lemma den_leaf (h : heap) p (t : tree) : hden h p (tv t) -> t = Leaf <-> p = None.
  Proof. intros D. destruct t; cbn [tv] in D; inversion D; subst; split; intros; congruence. Qed.

  (** What is at a held cell. *)
  Lemma held_at h r t ps p a k v0 lh rh l0 r0 : minv h r t ps -> held h r (np p) a -> t_at t0 p = Node k v0 lh rh l0 r0 ->
    exists v l rr pl pr, t_at t p = Node k v lh rh l rr /\ get h a = Some (1, Nd (Pay k v lh rh) [pl; pr])
      /\ hden h pl (tv l) /\ hden h pr (tv rr) /\ skel l = skel l0 /\ skel rr = skel r0.
  Proof.
    intros [(W & A & D & E & _) _] H H0. pose proof (skel_at p _ _ E) as Ep. rewrite H0 in Ep.
    destruct (t_at t p) as [|k' v lh' rh' l rr] eqn:Et; [discriminate|]. cbn [skel] in Ep. injection Ep as -> -> -> El Er.
    destruct (held_den h r (np p) a H (tv t) D) as (u & Hu & Du). apply v_at_t in Hu. rewrite Et in Hu. subst u.
    destruct (den_node _ _ _ _ _ _ _ _ Du) as (c & pl & pr & G & D1 & D2). destruct (held_end _ _ _ _ H) as [n Gn]. rewrite Gn in G. injection G as <- ->.
    exists v, l, rr, pl, pr. auto 8.
  Qed.

  Lemma kid_leaf (b : bool) (x y : tree) : skel x = skel y -> x = Leaf <-> y = Leaf.
  Proof. destruct x, y; cbn; split; intros; try discriminate; auto. Qed.

  (** [make_mut] of a child, if there is one. *)
  Lemma kid_step h r t ps p a b k v lh rh l0 r0 : minv h r t ps -> held h r (np p) a -> t_at t0 p = Node k v lh rh l0 r0 ->
    exists h' o, am_kid bomb h a (side b) = Ok (h', o) /\ mono h h' r
      /\ match o with
         | Unwound => mst h' r t ((p ++ [b]) :: ps) /\ exists n, bomb n = true
         | Done None => h' = h /\ t_at t0 (p ++ [b]) = Leaf
         | Done (Some c) => exists nps, minv h' r t (nps ++ ps) /\ held h' r (np (p ++ [b])) c /\ t_at t0 (p ++ [b]) <> Leaf
                                        /\ (nps = [] \/ nps = [p ++ [b]])
         end.
  Proof.
    intros I H H0. destruct (held_at _ _ _ _ _ _ _ _ _ _ _ _ I H H0) as (v1 & l & rr & pl & pr & H1 & G & D1 & D2 & S1 & S2).
    set (n := Nd (Pay k v1 lh rh) [pl; pr]) in *.
    assert (Hat : t_at t0 (p ++ [b]) = if b then r0 else l0) by (rewrite t_at_app, H0; reflexivity).
    assert (Hat' : t_at t (p ++ [b]) = if b then rr else l) by (rewrite t_at_app, H1; reflexivity).
    unfold am_kid, excl. rewrite G. cbn [bind].
    assert (Ej : nth_error (nd_kids n) (side b) = Some (if b then pr else pl)) by (now destruct b). rewrite Ej. cbn [unwrap bind].
    set (q := if b then pr else pl) in *. set (u := if b then rr else l) in *. set (u0 := if b then r0 else l0) in *.
    assert (Du : hden h q (tv u)) by (unfold q, u; now destruct b). assert (Su : skel u = skel u0) by (unfold u, u0; now destruct b).
    destruct q as [c|] eqn:Eq.
    2:{ exists h, (Done None). split; auto. split; [apply mono_refl|]. split; auto. rewrite Hat. apply (kid_leaf b u u0 Su). now apply (den_leaf h None). }
    assert (Hne : t_at t0 (p ++ [b]) <> Leaf). { rewrite Hat. intros X. apply (kid_leaf b u u0 Su) in X. apply (den_leaf _ _ _ Du) in X. discriminate. }
    destruct I as [(W & A & D & E & Fr & Cl & Nd0 & In0) (T & Hp & Hs)].
    destruct (kid_mut_ok bomb h r O (np p) a n (side b) c W A H G Ej) as (h' & x & kc & m & Gc & Ek & W' & A' & D' & Dd & Ln & Hm & R).
    rewrite Ek. cbn [bind]. exists h'. eexists. split; [reflexivity|]. split; [exact Hm|].
    assert (Fr' : frame O h0 h').
    { eapply frame_trans; [exact Fr|]. split; [intros q' u' _; apply D'|auto]. }
    (* the data of the child is what it was at the start *)
    assert (Dt : kc <> 1 -> root_pay (t_at t0 (p ++ [b])) = [nd_data m] /\ ~ In (p ++ [b]) ps /\ ~ start (p ++ [b])).
    { intros Hk. assert (Hnot : ~ hh h r (p ++ [b])).
      { intros [y Hb]. rewrite np_snoc in Hb. destruct (held_last h (np p ++ [side b]) r y) as (q' & j' & a' & n' & Eq' & Hq & Ga & Ea); [now destruct (np p)|exact Hb|].
        apply app_inj_tail in Eq' as [<- <-]. pose proof (held_det _ _ _ _ H _ Hq) as <-. rewrite G in Ga. injection Ga as <-.
        rewrite Ej in Ea. injection Ea as <-. destruct (held_end _ _ _ _ Hb) as [n2 G2]. rewrite Gc in G2. injection G2 as -> _. congruence. }
      split; [|split].
      - destruct (T (p ++ [b])) as [Et|Hb]; [|now apply Hnot in Hb]. rewrite <- Et, Hat'. fold u.
        destruct u as [|k2 v2 lh2 rh2 l2 r2]; [inversion Du|]. destruct (den_node _ _ _ _ _ _ _ _ Du) as (c2 & pl2 & pr2 & G2 & _). rewrite Gc in G2. injection G2 as _ ->. reflexivity.
      - intros Hi. rewrite Forall_forall in Hp. now apply Hp in Hi.
      - intros Hst. now apply Hs in Hst. }
    assert (Base : forall nps, clones h' = pays t0 nps ++ clones h -> (nps = [] \/ (nps = [p ++ [b]] /\ kc <> 1)) -> mst h' r t (nps ++ ps)).
    { intros nps Ec' Hn. split; auto. split; auto. split; [apply D'; exact D|]. split; auto. split; auto. split; [|split].
      - unfold pays in *. rewrite Ec', Cl, flat_map_app, app_assoc. reflexivity.
      - destruct Hn as [->|[-> Hk]]; auto. cbn [app]. constructor; auto. now apply Dt.
      - destruct Hn as [->|[-> Hk]]; auto. cbn [app]. constructor; auto. split; [exact Hne|now apply Dt]. }
    destruct x as [c'|].
    - destruct R as (Hc' & Ec' & _). rewrite <- np_snoc in Hc'. set (nps := if kc =? 1 then [] else [p ++ [b]]).
      assert (Hn : nps = [] \/ (nps = [p ++ [b]] /\ kc <> 1)).
      { unfold nps. destruct (Nat.eqb_spec kc 1); auto. }
      exists nps. split; [split; [apply Base; auto|]|].
      + rewrite Ec'. unfold nps, pays. destruct (Nat.eqb_spec kc 1) as [|Hk]; cbn [flat_map app]; auto. now rewrite (proj1 (Dt Hk)).
      + split; [|split].
        * intros q'. destruct (T q') as [|Hb]; auto. right. eapply hh_mono; eauto.
        * apply Forall_app. split.
          -- destruct Hn as [->|[-> _]]; constructor; [now exists c'|constructor].
          -- eapply Forall_impl; [|exact Hp]. intros q' Hb. eapply hh_mono; eauto.
        * intros q' Hq. eapply hh_mono; eauto.
      + split; auto. split; auto. tauto.
    - destruct R as (Hk & Hb & Ec' & _). split; [|eauto]. apply (Base [p ++ [b]]); auto. rewrite Ec'. unfold pays. cbn [flat_map]. rewrite (proj1 (Dt Hk)). reflexivity.
  Qed.

  (** Reading and writing a value. *)
  Lemma write_step h r t ps p a k v0 lh rh l0 r0 w : minv h r t ps -> held h r (np p) a -> t_at t0 p = Node k v0 lh rh l0 r0 ->
    exists v l rr h', t_at t p = Node k v lh rh l rr /\ am_read h a = Ok (k, v) /\ am_write h a w = Ok h'
      /\ minv h' r (write_at p w t) ps /\ mono h h' r.
  Proof.
    intros I H H0. destruct (held_at _ _ _ _ _ _ _ _ _ _ _ _ I H H0) as (v1 & l & rr & pl & pr & H1 & G & D1 & D2 & S1 & S2).
    destruct I as [(W & A & D & E & Fr & Cl & Nd0 & In0) (T & Hp & Hs)].
    destruct (data_mut_ok h r O (np p) a (fun d => set_val d (w (pv d))) (tv t) W A H D) as (h' & Ed & W' & A' & F' & D' & Hm & C' & L').
    exists v1, l, rr, h'. split; auto. unfold am_read, excl. rewrite G. split; auto. split; [exact Ed|]. split; [|exact Hm].
    rewrite v_upd_tv in D' by (rewrite H1; discriminate). split.
    - split; auto. split; auto. split; auto. split; [now rewrite skel_write|]. split; [eapply frame_trans; eauto|]. split; [now rewrite C'|]. auto.
    - split; [|split].
      + intros q. destruct (list_eq_dec bool_dec q p) as [->|Hq]; [right; exists a; auto|]. rewrite at_write by auto.
        destruct (T q) as [|Hb]; auto. right. eapply hh_mono; eauto.
      + eapply Forall_impl; [|exact Hp]. intros q Hb. eapply hh_mono; eauto.
      + intros q Hq. eapply hh_mono; eauto.
  Qed.
End Steps.
