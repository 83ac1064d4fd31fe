(** Proofs about [iter_mut] and [range_mut] on shared nodes: the steps. *)
From Coq Require Import List PeanoNat Bool Lia.
From Verif Require Import Base Spec MapSpec Vec Heap HeapProofs HeapMut HeapMutProofs BTreeModel BTreeProofs BTreeIterModel
  BTreeMutProofs BTreeHeapModel BTreeHeapSpec BTreeHeapProofs MutSpec BTreeHeapMutModel.
From Verif Require BTreeIterProofs.
Import ListNotations.
Local Open Scope nat_scope.

Lemma f2_snoc {A B} (R : A -> B -> Prop) xs ys : Forall2 R xs ys ->
  (xs = [] /\ ys = []) \/ exists x xs0 y ys0, xs = xs0 ++ [x] /\ ys = ys0 ++ [y] /\ R x y /\ Forall2 R xs0 ys0.
Proof.
  intros F. destruct ys as [|y ys _] using rev_ind; [inversion F; auto|]. right.
  apply Forall2_app_inv_r in F as (xs0 & x1 & F0 & F1 & ->). inversion F1 as [|x ? ? ? D Fn]; subst. inversion Fn; subst. eauto 8.
Qed.

(** The part of a list between two indices. *)
Definition cut {A} (i j : nat) (l : list A) : list A := firstn (j - i) (skipn i l).
Definition prefix {A} (p q : list A) : Prop := exists s, q = p ++ s.

Section Cut.
  Context {A : Type}.
  Lemma cut_len i j (l : list A) : j <= length l -> length (cut i j l) = j - i.
  Proof. intros H. unfold cut. rewrite firstn_length, skipn_length. lia. Qed.
  Lemma cut_none i j (l : list A) : j <= i -> cut i j l = [].
  Proof. intros H. unfold cut. now replace (j - i) with 0 by lia. Qed.
  Lemma cut_all (l : list A) : cut 0 (length l) l = l.
  Proof. unfold cut. cbn [skipn]. rewrite Nat.sub_0_r. apply firstn_all. Qed.
  Lemma cut_nil i j (l : list A) : j <= length l -> is_nil (cut i j l) = (j - i =? 0).
  Proof. intros H. pose proof (cut_len i j l H) as E. destruct (cut i j l); cbn in *; rewrite <- E; reflexivity. Qed.
  Lemma cut_cons i j (l : list A) : i < j -> j <= length l ->
    exists x, nth_error l i = Some x /\ cut i j l = x :: cut (i + 1) j l.
  Proof.
    intros H Hj. destruct (cut_mid i l) as (l1 & x & l2 & -> & L); [lia|]. exists x. split; [apply nth_mid; lia|]. unfold cut.
    rewrite skipn_app, <- L, skipn_all, Nat.sub_diag. cbn [app skipn]. replace (length l1 + 1) with (length (l1 ++ [x])) by (rewrite app_length; reflexivity).
    replace (l1 ++ x :: l2) with ((l1 ++ [x]) ++ l2) by (now rewrite <- app_assoc). rewrite skipn_app, skipn_all, Nat.sub_diag. cbn [app skipn].
    rewrite app_length. cbn [length]. replace (j - length l1) with (S (j - (length l1 + 1))) by lia. reflexivity.
  Qed.
  Lemma cut_snoc i j (l : list A) : i < j -> j <= length l ->
    exists x, nth_error l (j - 1) = Some x /\ cut i j l = cut i (j - 1) l ++ [x].
  Proof.
    intros H Hj. destruct (cut_mid (j - 1) l) as (l1 & x & l2 & -> & L); [lia|]. exists x. split; [apply nth_mid; lia|]. unfold cut.
    rewrite skipn_app. rewrite !firstn_app, !skipn_length. replace (i - length l1) with 0 by lia. cbn [skipn].
    rewrite !firstn_all2 by (rewrite skipn_length; lia). replace (j - i - (length l1 - i)) with 1 by lia.
    replace (j - 1 - i - (length l1 - i)) with 0 by lia. 
    cbn [firstn]. rewrite app_nil_r, firstn_all2 by (rewrite skipn_length; lia). reflexivity.
  Qed.
  Lemma in_cut i j (l : list A) x : In x (cut i j l) -> In x l.
  Proof.
    intros H. rewrite <- (firstn_skipn i l). apply in_or_app. right. unfold cut in H.
    rewrite <- (firstn_skipn (j - i) (skipn i l)). apply in_or_app. now left.
  Qed.
  Lemma prefix_refl (p : list A) : prefix p p.
  Proof. exists []. now rewrite app_nil_r. Qed.
  Lemma prefix_trans (p q r : list A) : prefix p q -> prefix q r -> prefix p r.
  Proof. intros [s ->] [s' ->]. exists (s ++ s'). now rewrite app_assoc. Qed.
  Lemma prefix_snoc (p q : list A) x : prefix (p ++ [x]) q -> prefix p q.
  Proof. intros [s ->]. exists (x :: s). now rewrite <- app_assoc. Qed.
End Cut.

Section Tree.
  Context {K V : Type}.
  Notation bt := (bt K V).
  Notation pay := (list (K * V)).

  (** The node at a path. *)
  Fixpoint n_at (t : bt) (p : list nat) : option bt :=
    match p with
    | [] => Some t
    | j :: p' => match t with BN _ ks => match nth_error ks j with Some c => n_at c p' | None => None end end
    end.
  Definition pay_at (t : bt) (p : list nat) : pay := match n_at t p with Some c => elems_of c | None => [] end.

  Lemma n_at_snoc p : forall t es ks j, n_at t p = Some (BN es ks) -> n_at t (p ++ [j]) = nth_error ks j.
  Proof.
    induction p as [|i p IH]; intros t es ks j H; cbn [app n_at] in *.
    - injection H as ->. now destruct (nth_error ks j).
    - destruct t as [es' ks']. destruct (nth_error ks' i); [|discriminate]. eauto.
  Qed.
  Lemma v_at_tv p : forall t, v_at (tv t) p = option_map tv (n_at t p).
  Proof.
    induction p as [|j p IH]; intros [es ks]; cbn [v_at n_at tv option_map]; auto.
    rewrite nth_error_map. destruct (nth_error ks j); cbn; auto.
  Qed.

  (** The keys and the shape, without the values. *)
  Fixpoint skel (t : bt) : BTreeModel.bt K unit :=
    match t with BN es ks => BN (map (fun e => (fst e, tt)) es) (map skel ks) end.
  Lemma skel_at t t' p es ks : skel t = skel t' -> n_at t p = Some (BN es ks) ->
    exists es' ks', n_at t' p = Some (BN es' ks') /\ map fst es' = map fst es /\ length ks' = length ks /\ map skel ks' = map skel ks.
  Proof.
    revert t t'. induction p as [|j p IH]; intros [e1 k1] [e2 k2] E H.
    - cbn [n_at] in *. injection H as -> ->. cbn [skel] in E. injection E as E1 E2. exists e2, k2. split; auto. split; [|split; auto].
      + apply (f_equal (map fst)) in E1. rewrite !map_map in E1. cbn in E1. auto.
      + apply (f_equal (@length _)) in E2. now rewrite !map_length in E2.
    - cbn [n_at] in H |- *. cbn [skel] in E. injection E as E1 E2. destruct (nth_error k1 j) as [c|] eqn:Ec; [|discriminate].
      apply (f_equal (fun l => nth_error l j)) in E2. rewrite !nth_error_map, Ec in E2. destruct (nth_error k2 j) as [c'|]; [|discriminate].
      cbn in E2. injection E2 as E2. now apply (IH c c').
  Qed.
  Lemma skel_write q : forall j w t, skel (n_write q j w t) = skel t.
  Proof.
    induction q as [|i q IH]; intros j w [es ks]; cbn [n_write].
    - destruct (nth_error es j) as [e|] eqn:E; auto. rewrite (upd_set_at w es j e E). cbn [skel]. f_equal.
      rewrite <- (map_map fst (fun k => (k, tt))), upd_keys, map_map. reflexivity.
    - rewrite nth_error_map. destruct (nth_error ks i) as [c|] eqn:E; cbn [option_map]; auto. cbn [skel]. f_equal.
      rewrite map_set, IH. rewrite <- map_set. unfold set_at. destruct (cut_mid i ks) as (l1 & x & l2 & -> & L).
      { apply nth_error_Some. congruence. }
      rewrite (nth_mid l1 x l2 i) in E by auto. injection E as ->. rewrite skipn_app, <- L, skipn_all, Nat.sub_diag.
      cbn [app skipn]. rewrite firstn_app, firstn_all, Nat.sub_diag, app_nil_r. reflexivity.
  Qed.
  Lemma upd_set {A} i (x : A) l : upd i x l = set_at i x l.
  Proof.
    revert i. induction l as [|y l IH]; intros [|i]; cbn [upd]; auto. rewrite IH. now rewrite set_at_S.
  Qed.
  Lemma v_upd_tv q : forall j w t es ks, n_at t q = Some (BN es ks) -> j < length es ->
    v_upd (upd_nth j w) (tv t) q = tv (n_write q j w t).
  Proof.
    induction q as [|i q IH]; intros j w [es0 ks0] es ks H Hj; cbn [v_upd tv n_write n_at] in *.
    - injection H as -> ->. destruct (nth_error es j) as [e|] eqn:E; [|apply nth_error_None in E; lia].
      rewrite (upd_set_at w es j e E). reflexivity.
    - rewrite !nth_error_map. destruct (nth_error ks0 i) as [c|] eqn:E; [|discriminate]. cbn [option_map tv]. f_equal.
      rewrite (IH j w c es ks) by auto. rewrite upd_set. symmetry. apply map_set.
  Qed.
  Lemma n_at_write q j w t p : p <> q -> pay_at (n_write q j w t) p = pay_at t p.
  Proof.
    unfold pay_at. revert t p. induction q as [|i q IH]; intros [es ks] p Hp.
    - cbn [n_write]. destruct (nth_error es j); auto. destruct p as [|i p]; [congruence|]. reflexivity.
    - cbn [n_write]. rewrite nth_error_map. destruct (nth_error ks i) as [c|] eqn:E; cbn [option_map]; auto.
      destruct p as [|i' p]; [reflexivity|]. cbn [n_at]. rewrite <- upd_set. destruct (Nat.eq_dec i i') as [<-|Hi].
      + rewrite E. assert (E' : nth_error (upd i (n_write q j w c) ks) i = Some (n_write q j w c)).
        { clear - E. revert i E. induction ks as [|k ks IHk]; intros [|i] E; cbn in *; try discriminate; auto. }
        rewrite E'. apply IH. congruence.
      + assert (E' : nth_error (upd i (n_write q j w c) ks) i' = nth_error ks i').
        { clear - Hi. revert i i' Hi. induction ks as [|k ks IHk]; intros [|i] [|i'] Hi; cbn; auto; try lia. }
        rewrite E'. reflexivity.
  Qed.
  Lemma levels_at p : forall t c, n_at t p = Some c -> n_levels c <= n_levels t.
  Proof.
    induction p as [|j p IH]; intros [es ks] c H; cbn [n_at] in H; [injection H as <-; lia|].
    destruct (nth_error ks j) as [d|] eqn:E; [|discriminate]. specialize (IH _ _ H). apply nth_error_In in E.
    rewrite BTreeIterProofs.levels_eq. pose proof (BTreeIterProofs.max_levels_in d ks E). lia.
  Qed.
End Tree.

Lemma pos_levels {K V} : forall (t : bt K V) p, n_levels (with_pos p t) = n_levels t.
Proof.
  intros t. remember (n_levels t) as n eqn:En. assert (Hn : n_levels t <= n) by lia. rewrite En. clear En. revert t Hn.
  induction n as [|n IH]; intros [es ks] Hn p; [cbn in Hn; lia|]. rewrite with_pos_eq, !BTreeIterProofs.levels_eq in *. f_equal.
  assert (G : forall c, In c ks -> forall p, n_levels (with_pos p c) = n_levels c).
  { intros c Hc p'. apply IH. pose proof (BTreeIterProofs.max_levels_in c ks Hc). lia. }
  clear IH Hn. generalize 0. induction ks as [|c ks IHk]; intros i; [reflexivity|]. unfold BTreeIterProofs.max_levels in *. cbn [mapi_from fold_right].
  rewrite G by (now left). f_equal. apply IHk. intros d Hd. apply G. now right.
Qed.

Section Steps.
  Context {K V : Type}.
  Variable bomb : nat -> bool.
  Notation bt := (bt K V).
  Notation pay := (list (K * V)).
  Notation heap := (heap pay).
  Notation bref := (@bref K).
  Notation gerg := (erg bref V).
  Notation ns := (@ns K V).

  (** The start: the heap [h0], the tree [t0]; the pointers [O] belong to others. *)
  Variables (h0 : heap) (t0 : bt) (O : list addr) (start : list nat -> Prop).

  (** Now: the map's root is [r], it shows the tree [t]; [ps] are the nodes that were cloned. *)
  Definition mst (h : heap) (r : addr) (t : bt) (ps : list (list nat)) : Prop :=
    wf h (r :: O) /\ acyclic h /\ ns h r t /\ skel t = skel t0 /\ frame O h0 h
    /\ n_levels t0 <= length (cells h)
    /\ clones h = map (pay_at t0) ps ++ clones h0 /\ NoDup ps
    /\ Forall (fun p => n_at t0 p <> None /\ ~ start p) ps.
  Definition mheld (h : heap) (r : addr) (t : bt) (ps : list (list nat)) : Prop :=
    (forall p, pay_at t p = pay_at t0 p \/ exists b, held h r p b)
    /\ Forall (fun p => exists b, held h r p b) ps
    /\ (forall p, start p -> exists b, held h r p b).
  Definition minv h r t ps := mst h r t ps /\ mheld h r t ps.
  Definition mono (h h' : heap) r := forall p b, held h r p b -> held h' r p b.

  Lemma mono_trans h1 h2 h3 r : mono h1 h2 r -> mono h2 h3 r -> mono h1 h3 r.
  Proof. intros A B p b H. apply B, A, H. Qed.

  (** What is at a held cell. *)
  Lemma held_at h r t ps p a es0 ks0 : minv h r t ps -> held h r p a -> n_at t0 p = Some (BN es0 ks0) ->
    exists es ks cs, n_at t p = Some (BN es ks) /\ get h a = Some (1, Nd es (map Some cs)) /\ Forall2 (ns h) cs ks
      /\ length es = length es0 /\ length ks = length ks0 /\ length cs = length ks0.
  Proof.
    intros [(W & A & D & E & _) _] H H0. destruct (skel_at t0 t p es0 ks0 (eq_sym E) H0) as (es & ks & H1 & E1 & E2 & _).
    destruct (held_den h r p a H (tv t) D) as (u & Hu & Du). rewrite v_at_tv, H1 in Hu. injection Hu as <-.
    destruct (ns_inv h a es ks Du) as (c & cs & G & F). destruct (held_end _ _ _ _ H) as [n Gn]. rewrite Gn in G. injection G as <- ->.
    exists es, ks, cs. split; auto. split; auto. split; auto. apply (f_equal (@length _)) in E1. rewrite !map_length in E1.
    pose proof (f2_length _ _ _ F). lia.
  Qed.

  (** A [make_mut] of a child. *)
  Lemma kid_step h r t ps p a j es0 ks0 c0 : minv h r t ps -> held h r p a -> n_at t0 p = Some (BN es0 ks0) ->
    nth_error ks0 j = Some c0 ->
    exists h' x, kid_mut bomb h a j = Ok (h', x) /\ mono h h' r
      /\ match x with
         | None => mst h' r t ((p ++ [j]) :: ps) /\ exists n, bomb n = true
         | Some c' => exists nps, minv h' r t (nps ++ ps) /\ held h' r (p ++ [j]) c' /\ (nps = [] \/ nps = [p ++ [j]])
         end.
  Proof.
    intros I H H0 Hj. destruct (held_at _ _ _ _ _ _ _ _ I H H0) as (es & ks & cs & H1 & G & F & L1 & L2 & L3).
    assert (Hj' : j < length cs) by (rewrite L3; apply nth_error_Some; congruence).
    destruct (nth_error cs j) as [c|] eqn:Ec; [|apply nth_error_None in Ec; lia].
    assert (Ej : nth_error (nd_kids (Nd es (map Some cs))) j = Some (Some c)) by (cbn [nd_kids]; now rewrite nth_error_map, Ec).
    destruct I as [(W & A & D & E & Fr & Lv & Cl & Nd0 & In0) (T & Hp & Hs)].
    destruct (kid_mut_ok bomb h r O p a _ j c W A H G Ej) as (h' & x & kc & m & Gc & Ek & W' & A' & D' & Dd & Ln & Hm & R).
    exists h', x. split; auto. split; [exact Hm|].
    assert (Fr' : frame O h0 h').
    { eapply frame_trans; [exact Fr|]. split; [intros q u _; apply D'|auto]. }
    assert (Hat : n_at t0 (p ++ [j]) = Some c0) by (now rewrite (n_at_snoc p t0 es0 ks0 j H0)).
    (* the data of the child is what it was at the start *)
    assert (Dt : kc <> 1 -> nd_data m = pay_at t0 (p ++ [j]) /\ ~ In (p ++ [j]) ps /\ ~ start (p ++ [j])).
    { intros Hk. assert (Hnot : forall b, ~ held h r (p ++ [j]) b).
      { intros b Hb. destruct (held_last h (p ++ [j]) r b) as (q & j' & a' & n' & Eq & Hq & Ga & Ea); [now destruct p|exact Hb|].
        apply app_inj_tail in Eq as [<- <-]. pose proof (held_det _ _ _ _ H _ Hq) as <-. rewrite G in Ga. injection Ga as <-.
        rewrite Ej in Ea. injection Ea as <-. destruct (held_end _ _ _ _ Hb) as [n2 G2]. rewrite Gc in G2. injection G2 as -> _. congruence. }
      split; [|split].
      - destruct (T (p ++ [j])) as [Et|[b Hb]]; [|now apply Hnot in Hb]. rewrite <- Et. unfold pay_at.
        rewrite (n_at_snoc p t es ks j H1).
        destruct (nth_error ks j) as [u|] eqn:Eu; [|apply nth_error_None in Eu; lia].
        assert (Du : ns h c u). { revert Ec Eu. clear - F. revert j. induction F as [|x y l l' Hxy F IH]; intros [|j]; cbn [nth_error]; try discriminate; [intros [= ->] [= ->]; auto|apply IH]. }
        destruct u as [ues uks]. apply ns_inv in Du as (c1 & ks1 & G1 & _). rewrite Gc in G1. injection G1 as _ ->. reflexivity.
      - intros Hi. rewrite Forall_forall in Hp. destruct (Hp _ Hi) as [b Hb]. now apply Hnot in Hb.
      - intros Hst. destruct (Hs _ Hst) as [b Hb]. now apply Hnot in Hb. }
    assert (Base : forall nps, clones h' = map (pay_at t0) nps ++ clones h -> (nps = [] \/ (nps = [p ++ [j]] /\ kc <> 1)) -> mst h' r t (nps ++ ps)).
    { intros nps Ec' Hn. split; auto. split; auto. split; [apply D'; exact D|]. split; auto. split; auto. split; [lia|]. split; [|split].
      - rewrite Ec', Cl, map_app, app_assoc. reflexivity.
      - destruct Hn as [->|[-> Hk]]; auto. cbn [app]. constructor; auto. now apply Dt.
      - destruct Hn as [->|[-> Hk]]; auto. cbn [app]. constructor; auto. split; [congruence|now apply Dt]. }
    destruct x as [c'|].
    - destruct R as (Hc' & Ec' & _). set (nps := if kc =? 1 then [] else [p ++ [j]]).
      assert (Hn : nps = [] \/ (nps = [p ++ [j]] /\ kc <> 1)).
      { unfold nps. destruct (Nat.eqb_spec kc 1); auto. }
      exists nps. split; [split; [apply Base; auto|]|].
      + rewrite Ec'. unfold nps. destruct (Nat.eqb_spec kc 1) as [|Hk]; cbn [map app]; auto. now rewrite (proj1 (Dt Hk)).
      + split; [|split].
        * intros q. destruct (T q) as [|[b Hb]]; eauto.
        * apply Forall_app. split.
          -- destruct Hn as [->|[-> _]]; constructor; eauto.
          -- eapply Forall_impl; [|exact Hp]. intros q [b Hb]. eauto.
        * intros q Hq. destruct (Hs q Hq) as [b Hb]. eauto.
      + split; auto. tauto.
    - destruct R as (Hk & Hb & Ec' & _). split; [|eauto]. apply (Base [p ++ [j]]); auto. rewrite Ec'. cbn. now rewrite (proj1 (Dt Hk)).
  Qed.

  (** ** Work items *)
  Definition gsim (p : list nat) (le ue lk uk : nat) (lf rt : bool) (g : gerg) : Prop :=
    exists es ks, n_at t0 p = Some (BN es ks) /\ le <= ue <= length es /\ lk <= uk <= length ks
      /\ g = Erg (cut le ue (mapi_from 0 (pos_of p) es)) (cut lk uk (mapi_from 0 (fun i c => with_pos (p ++ [i]) c) ks)) lf rt.
  Definition wsim (h : heap) (r : addr) (p : list nat) (w : mwork) (g : gerg) : Prop :=
    let '(MW a le ue lk uk lf rt) := w in held h r p a /\ gsim p le ue lk uk lf rt g.
  Definition gpath (p : list nat) (g : gerg) : Prop := exists le ue lk uk lf rt, gsim p le ue lk uk lf rt g.
  Definition wsims (h : heap) (r : addr) := Forall2 (fun w g => exists p, wsim h r p w g).

  Lemma wsim_mono h h' r p w g : mono h h' r -> wsim h r p w g -> wsim h' r p w g.
  Proof. destruct w. intros M [H G]. split; auto. Qed.
  Lemma wsims_mono h h' r ws gs : mono h h' r -> wsims h r ws gs -> wsims h' r ws gs.
  Proof. intros M F. induction F as [|w g ws gs [p H] F IH]; constructor; auto. exists p. now apply (wsim_mono h h'). Qed.
  Lemma wsim_path h r p w g : wsim h r p w g -> gpath p g.
  Proof. destruct w as [a le ue lk uk lf rt]. intros [_ G]. now exists le, ue, lk, uk, lf, rt. Qed.
  Lemma wsim_flags h r p w g : wsim h r p w g -> mw_empty w = g_empty g /\ mw_lf w = g_lf g /\ mw_rt w = g_rt g
    /\ (mw_ue w - mw_le w) = length (g_elems g) /\ (mw_uk w - mw_lk w) = length (g_kids g).
  Proof.
    destruct w as [a le ue lk uk lf rt]. intros (_ & es & ks & _ & L1 & L2 & ->). unfold mw_empty, g_empty. cbn [mw_ue mw_le mw_uk mw_lk mw_lf mw_rt g_elems g_kids g_lf g_rt].
    rewrite !cut_nil, !cut_len by (rewrite mapi_length; lia). auto.
  Qed.
  Lemma wsim_fuel h r t ps p w g : minv h r t ps -> wsim h r p w g -> g_fuel g <= S (depth h).
  Proof.
    intros [(_ & _ & _ & _ & _ & Lv & _) _] W. destruct (wsim_path _ _ _ _ _ W) as (le & ue & lk & uk & lf & rt & es & ks & H & _ & _ & ->).
    unfold g_fuel, depth. cbn [g_kids]. apply le_n_S, le_n_S. apply BTreeIterProofs.max_levels_le. intros c Hc.
    apply in_cut in Hc. apply In_nth_error in Hc as [i Hi]. rewrite mapi_nth in Hi. destruct (nth_error ks i) as [d|] eqn:Ed; [|discriminate].
    injection Hi as <-. rewrite pos_levels. apply nth_error_In in Ed. pose proof (BTreeIterProofs.max_levels_in d ks Ed).
    pose proof (levels_at _ _ _ H) as L. rewrite BTreeIterProofs.levels_eq in L. lia.
  Qed.

  Lemma gsim_make p c0 : n_at t0 p = Some c0 ->
    gsim p 0 (length (elems_of c0)) 0 (length (kids_of c0)) (negb (length (kids_of c0) =? 0)) (negb (length (kids_of c0) =? 0)) (g_make (with_pos p c0)).
  Proof.
    destruct c0 as [es ks]. intros H. exists es, ks. split; auto. cbn [elems_of kids_of]. split; [lia|]. split; [lia|].
    rewrite with_pos_eq. cbn [g_make].
    replace (is_nil _) with (length ks =? 0) by (now destruct ks). f_equal.
    - now rewrite <- (mapi_length (pos_of p) es 0), cut_all.
    - now rewrite <- (mapi_length (fun i c => with_pos (p ++ [i]) c) ks 0), cut_all.
  Qed.

  Lemma make_kid h r t ps p a j es0 ks0 c0 : minv h r t ps -> held h r p a -> n_at t0 p = Some (BN es0 ks0) ->
    nth_error ks0 j = Some c0 ->
    exists h' x, mw_make bomb h (SKid a j) = Ok (h', x) /\ mono h h' r
      /\ match x with
         | None => mst h' r t ((p ++ [j]) :: ps) /\ exists n, bomb n = true
         | Some e => exists nps, minv h' r t (nps ++ ps) /\ wsim h' r (p ++ [j]) e (g_make (with_pos (p ++ [j]) c0))
                                 /\ (nps = [] \/ nps = [p ++ [j]])
         end.
  Proof.
    intros I H H0 Hj. destruct (kid_step _ _ _ _ _ _ _ _ _ _ I H H0 Hj) as (h' & x & E & M & R).
    unfold mw_make. cbn [slot_mut]. rewrite E. cbn [bind]. destruct x as [c'|]; [|eauto 6].
    destruct R as (nps & I' & Hc & Hn).
    assert (Hat : n_at t0 (p ++ [j]) = Some c0) by (now rewrite (n_at_snoc p t0 es0 ks0 j H0)).
    destruct c0 as [e0 k0]. destruct (held_at _ _ _ _ _ _ _ _ I' Hc Hat) as (es & ks & cs & _ & G & _ & L1 & L2 & L3).
    unfold excl. rewrite G. cbn [bind nd_kids nd_data]. rewrite map_length, L3, L1. eexists _, _. split; [reflexivity|]. split; auto.
    exists nps. split; auto. split; auto. split; auto. exact (gsim_make _ _ Hat).
  Qed.

  (** What a node iterator yields. *)
  Definition kid_sim (h : heap) (r : addr) (p : list nat) (s : option mslot) (c : option (BTreeModel.bt bref V)) : Prop :=
    match s, c with
    | Some (SKid a j), Some c => exists es ks c0, held h r p a /\ n_at t0 p = Some (BN es ks) /\ nth_error ks j = Some c0
                                                  /\ c = with_pos (p ++ [j]) c0
    | None, None => True
    | _, _ => False
    end.
  Definition ref_sim (h : heap) (r : addr) (p : list nat) (s : option mref) (x : option (bref * V)) : Prop :=
    match s, x with
    | Some (a, i), Some e => held h r p a /\ fst (fst e) = (p, i)
    | None, None => True
    | _, _ => False
    end.

  Lemma next_kid_m h r p w g c g1 : wsim h r p w g -> g_next_kid g = Ok (c, g1) ->
    exists s w1, mw_next_kid w = Ok (s, w1) /\ wsim h r p w1 g1 /\ kid_sim h r p s c.
  Proof.
    intros W E. destruct (wsim_flags _ _ _ _ _ W) as (_ & _ & _ & _ & Lk). destruct w as [a le ue lk uk lf rt]. cbn [mw_uk mw_lk] in Lk.
    destruct W as (H & es & ks & Hp & L1 & L2 & ->). unfold g_next_kid in E. unfold mw_next_kid. cbn [g_kids g_elems g_lf g_rt] in *.
    rewrite cut_nil in E by (rewrite mapi_length; lia). destruct ((uk - lk =? 0) || lf); [|discriminate]. cbn [assert_ bind] in *.
    injection E as <- <-. destruct (Nat.ltb_spec lk uk) as [Hl|Hl].
    - destruct (cut_cons lk uk (mapi_from 0 (fun i c => with_pos (p ++ [i]) c) ks)) as (x & Ex & Ec); [lia|rewrite mapi_length; lia|].
      rewrite Ec. cbn [hd_error tl]. rewrite mapi_nth in Ex. cbn [Nat.add] in Ex. destruct (nth_error ks lk) as [c0|] eqn:E0; [|discriminate]. injection Ex as <-.
      eexists _, _. split; [reflexivity|]. split; [split; auto; exists es, ks; split; auto; split; [auto|]; split; [lia|reflexivity]|].
      cbn [kid_sim]. exists es, ks, c0. auto.
    - rewrite (cut_none lk uk) by lia. cbn [hd_error tl]. eexists _, _. split; [reflexivity|]. split; [|exact I].
      split; auto. exists es, ks. split; auto. split; auto. split; auto. now rewrite (cut_none lk uk) by lia.
  Qed.

  Lemma next_back_kid_m h r p w g c g1 : wsim h r p w g -> g_next_back_kid g = Ok (c, g1) ->
    exists s w1, mw_next_back_kid w = Ok (s, w1) /\ wsim h r p w1 g1 /\ kid_sim h r p s c.
  Proof.
    intros W E. destruct (wsim_flags _ _ _ _ _ W) as (_ & _ & _ & _ & Lk). destruct w as [a le ue lk uk lf rt]. cbn [mw_uk mw_lk] in Lk.
    destruct W as (H & es & ks & Hp & L1 & L2 & ->). unfold g_next_back_kid in E. unfold mw_next_back_kid. cbn [g_kids g_elems g_lf g_rt] in *.
    rewrite cut_nil in E by (rewrite mapi_length; lia). destruct ((uk - lk =? 0) || rt); [|discriminate]. cbn [assert_ bind] in *.
    injection E as <- <-. destruct (Nat.ltb_spec lk uk) as [Hl|Hl].
    - destruct (cut_snoc lk uk (mapi_from 0 (fun i c => with_pos (p ++ [i]) c) ks)) as (x & Ex & Ec); [lia|rewrite mapi_length; lia|].
      rewrite Ec, rev_app_distr, removelast_last. cbn [rev app hd_error]. rewrite mapi_nth in Ex. cbn [Nat.add] in Ex. destruct (nth_error ks (uk - 1)) as [c0|] eqn:E0; [|discriminate]. injection Ex as <-.
      eexists _, _. split; [reflexivity|]. split; [split; auto; exists es, ks; split; auto; split; [auto|]; split; [lia|reflexivity]|].
      cbn [kid_sim]. exists es, ks, c0. auto.
    - rewrite (cut_none lk uk) by lia. cbn [rev removelast hd_error]. eexists _, _. split; [reflexivity|]. split; [|exact I].
      split; auto. exists es, ks. split; auto. split; auto. split; auto. now rewrite (cut_none lk uk) by lia.
  Qed.

  Lemma next_elem_m h r p w g x g1 : wsim h r p w g -> g_next_elem g = Ok (x, g1) ->
    exists s w1, mw_next_elem w = Ok (s, w1) /\ wsim h r p w1 g1 /\ ref_sim h r p s x.
  Proof.
    intros W E. destruct w as [a le ue lk uk lf rt].
    destruct W as (H & es & ks & Hp & L1 & L2 & ->). unfold g_next_elem in E. unfold mw_next_elem. cbn [g_kids g_elems g_lf g_rt] in *.
    rewrite cut_nil in E by (rewrite mapi_length; lia). destruct (negb lf); [|discriminate]. cbn [assert_ bind] in *.
    injection E as <- <-. destruct (Nat.ltb_spec le ue) as [Hl|Hl].
    - destruct (cut_cons le ue (mapi_from 0 (pos_of p) es)) as (x & Ex & Ec); [lia|rewrite mapi_length; lia|].
      rewrite Ec. cbn [hd_error tl]. rewrite mapi_nth in Ex. cbn [Nat.add] in Ex. destruct (nth_error es le) as [e|]; [|discriminate]. injection Ex as <-.
      eexists _, _. split; [reflexivity|]. split; [split; auto; exists es, ks; split; auto; split; [lia|]; split; [auto|reflexivity]|].
      cbn [ref_sim]. auto.
    - rewrite (cut_none le ue) by lia. cbn [hd_error tl]. eexists _, _. split; [reflexivity|]. split; [|exact I].
      split; auto. exists es, ks. split; auto. split; auto. split; auto. now rewrite (cut_none le ue) by lia.
  Qed.

  Lemma next_back_elem_m h r p w g x g1 : wsim h r p w g -> g_next_back_elem g = Ok (x, g1) ->
    exists s w1, mw_next_back_elem w = Ok (s, w1) /\ wsim h r p w1 g1 /\ ref_sim h r p s x.
  Proof.
    intros W E. destruct w as [a le ue lk uk lf rt].
    destruct W as (H & es & ks & Hp & L1 & L2 & ->). unfold g_next_back_elem in E. unfold mw_next_back_elem. cbn [g_kids g_elems g_lf g_rt] in *.
    rewrite cut_nil in E by (rewrite mapi_length; lia). destruct (negb rt); [|discriminate]. cbn [assert_ bind] in *.
    injection E as <- <-. destruct (Nat.ltb_spec le ue) as [Hl|Hl].
    - destruct (cut_snoc le ue (mapi_from 0 (pos_of p) es)) as (x & Ex & Ec); [lia|rewrite mapi_length; lia|].
      rewrite Ec, rev_app_distr, removelast_last. cbn [rev app hd_error]. rewrite mapi_nth in Ex. cbn [Nat.add] in Ex. destruct (nth_error es (ue - 1)) as [e|]; [|discriminate]. injection Ex as <-.
      eexists _, _. split; [reflexivity|]. split; [split; auto; exists es, ks; split; auto; split; [lia|]; split; [auto|reflexivity]|].
      cbn [ref_sim]. auto.
    - rewrite (cut_none le ue) by lia. cbn [rev removelast hd_error]. eexists _, _. split; [reflexivity|]. split; [|exact I].
      split; auto. exists es, ks. split; auto. split; auto. split; auto. now rewrite (cut_none le ue) by lia.
  Qed.

  (** ** Descents *)
  Lemma des_lf_path f : forall p g gs gs', gpath p g -> des_lf borrowed f (g :: gs) = Ok gs' ->
    exists g1 gs1 q, gs' = g1 :: gs1 /\ gpath q g1 /\ prefix p q.
  Proof.
    induction f as [|f IH]; intros p g gs gs' P E; [discriminate|]. cbn [des_lf] in E. cbn [borrowed ni_next_kid ni_empty ni_make] in E.
    destruct (g_next_kid g) as [[c g1]|] eqn:Ek; [|discriminate]. cbn [bind] in E.
    destruct P as (le & ue & lk & uk & lf & rt & es & ks & Hp & L1 & L2 & ->). unfold g_next_kid in Ek. cbn [g_kids g_elems g_lf g_rt] in Ek.
    rewrite cut_nil in Ek by (rewrite mapi_length; lia). destruct ((uk - lk =? 0) || lf); [|discriminate]. cbn [assert_ bind] in *.
    injection Ek as <- <-. destruct (Nat.lt_ge_cases lk uk) as [Hl|Hl].
    - destruct (cut_cons lk uk (mapi_from 0 (fun i c => with_pos (p ++ [i]) c) ks)) as (x & Ex & Ec); [lia|rewrite mapi_length; lia|].
      rewrite Ec in E. cbn [hd_error tl] in E. rewrite mapi_nth in Ex. cbn [Nat.add] in Ex. destruct (nth_error ks lk) as [c0|] eqn:E0; [|discriminate]. injection Ex as <-.
      apply (IH (p ++ [lk])) in E.
      + destruct E as (g1 & gs1 & q & -> & Pq & Hq). exists g1, gs1, q. split; auto. split; auto. eapply prefix_snoc; eauto.
      + do 6 eexists. apply gsim_make. now rewrite (n_at_snoc p t0 es ks lk Hp).
    - rewrite (cut_none lk uk) in E by lia. cbn [hd_error tl] in E. injection E as <-. eexists _, _, p. split; [reflexivity|]. split; [|apply prefix_refl].
      exists le, ue, lk, uk, false, rt, es, ks. rewrite (cut_none lk uk) by lia. auto.
  Qed.
  Lemma des_rt_path f : forall p g gs gs', gpath p g -> des_rt borrowed f (gs ++ [g]) = Ok gs' ->
    exists g1 gs1 q, gs' = gs1 ++ [g1] /\ gpath q g1 /\ prefix p q.
  Proof.
    induction f as [|f IH]; intros p g gs gs' P E; [discriminate|]. cbn [des_rt] in E. rewrite vec_pop_snoc in E. cbn [unwrap bind borrowed ni_next_back_kid ni_empty ni_make] in E.
    destruct (g_next_back_kid g) as [[c g1]|] eqn:Ek; [|discriminate]. cbn [bind] in E.
    destruct P as (le & ue & lk & uk & lf & rt & es & ks & Hp & L1 & L2 & ->). unfold g_next_back_kid in Ek. cbn [g_kids g_elems g_lf g_rt] in Ek.
    rewrite cut_nil in Ek by (rewrite mapi_length; lia). destruct ((uk - lk =? 0) || rt); [|discriminate]. cbn [assert_ bind] in *.
    injection Ek as <- <-. destruct (Nat.lt_ge_cases lk uk) as [Hl|Hl].
    - destruct (cut_snoc lk uk (mapi_from 0 (fun i c => with_pos (p ++ [i]) c) ks)) as (x & Ex & Ec); [lia|rewrite mapi_length; lia|].
      rewrite Ec, rev_app_distr, removelast_last in E. cbn [rev app hd_error] in E. rewrite mapi_nth in Ex. cbn [Nat.add] in Ex. destruct (nth_error ks (uk - 1)) as [c0|] eqn:E0; [|discriminate]. injection Ex as <-.
      apply (IH (p ++ [uk - 1])) in E.
      + destruct E as (g1 & gs1 & q & -> & Pq & Hq). exists g1, gs1, q. split; auto. split; auto. eapply prefix_snoc; eauto.
      + do 6 eexists. apply gsim_make. now rewrite (n_at_snoc p t0 es ks (uk - 1) Hp).
    - rewrite (cut_none lk uk) in E by lia. cbn [rev removelast hd_error] in E. injection E as <-. eexists _, _, p. split; [reflexivity|]. split; [|apply prefix_refl].
      exists le, ue, lk, uk, lf, false, es, ks. rewrite (cut_none lk uk) by lia. auto.
  Qed.

  Lemma des_lf_m f : forall f' h r t ps p w ws g gs gs', f <= f' -> minv h r t ps -> wsim h r p w g -> wsims h r ws gs ->
    des_lf borrowed f (g :: gs) = Ok gs' ->
    exists h' ws' o nps, hm_des_lf bomb f' h (w :: ws) = Ok (h', ws', o) /\ mono h h' r
      /\ match o with
         | Done _ => minv h' r t (nps ++ ps)
           /\ exists w1 ws1 g1 gs1 q, ws' = w1 :: ws1 /\ gs' = g1 :: gs1 /\ wsim h' r q w1 g1 /\ wsims h' r ws1 gs1
                                      /\ prefix p q /\ Forall (fun x => prefix x q) nps
         | Unwound => mst h' r t (nps ++ ps) /\ (exists n, bomb n = true) /\ nps <> []
           /\ exists g1 gs1 q, gs' = g1 :: gs1 /\ gpath q g1 /\ prefix p q /\ Forall (fun x => prefix x q) nps
         end.
  Proof.
    induction f as [|f IH]; intros f' h r t ps p w ws g gs gs' Hf I W Ws E; [discriminate|]. destruct f' as [|f']; [lia|].
    cbn [des_lf hm_des_lf] in *. cbn [borrowed ni_next_kid ni_empty ni_make] in E.
    destruct (g_next_kid g) as [[c g1]|] eqn:Ek; [|discriminate]. cbn [bind] in E.
    destruct (next_kid_m h r p w g c g1 W Ek) as (s & w1 & Es & W1 & Ks). rewrite Es. cbn [bind].
    destruct s as [[|a j]|], c as [c|]; cbn [kid_sim] in Ks; try contradiction.
    - destruct Ks as (es & ks & c0 & Ha & Hp & Hj & ->).
      destruct (make_kid h r t ps p a j es ks c0 I Ha Hp Hj) as (h1 & x & Em & M & R). rewrite Em. cbn [bind].
      destruct (wsim_flags _ _ _ _ _ W1) as (Ee & _). rewrite Ee. destruct x as [e|].
      + destruct R as (nps & I1 & We & Hn).
        destruct (IH f' h1 r t (nps ++ ps) (p ++ [j]) e (if g_empty g1 then ws else w1 :: ws) (g_make (with_pos (p ++ [j]) c0)) (if g_empty g1 then gs else g1 :: gs) gs')
          as (h2 & ws2 & o & nps2 & E2 & M2 & R2); auto; [lia| |].
        { apply (wsims_mono h h1); auto. destruct (g_empty g1); auto. constructor; auto. now exists p. }
        rewrite E2. exists h2, ws2, o, (nps2 ++ nps). split; auto. split; [eapply mono_trans; eauto|]. destruct o.
        * destruct R2 as (I2 & w2 & ws3 & g2 & gs2 & q & -> & -> & W2 & Ws2 & Pq & Fq). rewrite <- app_assoc. split; auto.
          exists w2, ws3, g2, gs2, q. split; auto. split; auto. split; auto. split; auto. split; [eapply prefix_snoc; eauto|].
          apply Forall_app. split; auto. destruct Hn as [->| ->]; auto.
        * destruct R2 as (S2 & B2 & Nn & g2 & gs2 & q & -> & Gq & Pq & Fq). rewrite <- app_assoc. split; auto. split; auto. split; [destruct nps2; [congruence|discriminate]|].
          exists g2, gs2, q. split; auto. split; auto. split; [eapply prefix_snoc; eauto|]. apply Forall_app. split; auto. destruct Hn as [->| ->]; auto.
      + destruct R as [S1 B]. exists h1, (if g_empty g1 then ws else w1 :: ws), Unwound, [p ++ [j]]. split; auto. split; auto. split; auto. split; auto. split; [discriminate|].
        apply (des_lf_path f (p ++ [j])) in E; [|do 6 eexists; apply gsim_make; now rewrite (n_at_snoc p t0 es ks j Hp)].
        destruct E as (g3 & gs3 & q3 & -> & Gq3 & Pq3). exists g3, gs3, q3. split; auto. split; auto. split; [eapply prefix_snoc; eauto|auto].
    - injection E as <-. exists h, (w1 :: ws), (Done tt), []. split; auto. split; [intros ? ? ?; auto|]. split; auto.
      exists w1, ws, g1, gs, p. split; auto. split; auto. split; auto. split; auto. split; [apply prefix_refl|constructor].
  Qed.
  Lemma des_rt_m f : forall f' h r t ps p w ws g gs gs', f <= f' -> minv h r t ps -> wsim h r p w g -> wsims h r ws gs ->
    des_rt borrowed f (gs ++ [g]) = Ok gs' ->
    exists h' ws' o nps, hm_des_rt bomb f' h (ws ++ [w]) = Ok (h', ws', o) /\ mono h h' r
      /\ match o with
         | Done _ => minv h' r t (nps ++ ps)
           /\ exists w1 ws1 g1 gs1 q, ws' = ws1 ++ [w1] /\ gs' = gs1 ++ [g1] /\ wsim h' r q w1 g1 /\ wsims h' r ws1 gs1
                                      /\ prefix p q /\ Forall (fun x => prefix x q) nps
         | Unwound => mst h' r t (nps ++ ps) /\ (exists n, bomb n = true) /\ nps <> []
           /\ exists g1 gs1 q, gs' = gs1 ++ [g1] /\ gpath q g1 /\ prefix p q /\ Forall (fun x => prefix x q) nps
         end.
  Proof.
    induction f as [|f IH]; intros f' h r t ps p w ws g gs gs' Hf I W Ws E; [discriminate|]. destruct f' as [|f']; [lia|].
    cbn [des_rt hm_des_rt] in *. rewrite vec_pop_snoc in E. rewrite vec_pop_snoc. cbn [unwrap bind borrowed ni_next_back_kid ni_empty ni_make] in E |- *.
    destruct (g_next_back_kid g) as [[c g1]|] eqn:Ek; [|discriminate]. cbn [bind] in E.
    destruct (next_back_kid_m h r p w g c g1 W Ek) as (s & w1 & Es & W1 & Ks). rewrite Es. cbn [bind].
    destruct s as [[|a j]|], c as [c|]; cbn [kid_sim] in Ks; try contradiction.
    - destruct Ks as (es & ks & c0 & Ha & Hp & Hj & ->).
      destruct (make_kid h r t ps p a j es ks c0 I Ha Hp Hj) as (h1 & x & Em & M & R). rewrite Em. cbn [bind].
      destruct (wsim_flags _ _ _ _ _ W1) as (Ee & _). rewrite Ee. destruct x as [e|].
      + destruct R as (nps & I1 & We & Hn).
        destruct (IH f' h1 r t (nps ++ ps) (p ++ [j]) e (if g_empty g1 then ws else ws ++ [w1]) (g_make (with_pos (p ++ [j]) c0)) (if g_empty g1 then gs else gs ++ [g1]) gs')
          as (h2 & ws2 & o & nps2 & E2 & M2 & R2); auto; [lia| |].
        { apply (wsims_mono h h1); auto. destruct (g_empty g1); auto. apply Forall2_app; auto. constructor; auto. now exists p. }
        rewrite E2. exists h2, ws2, o, (nps2 ++ nps). split; auto. split; [eapply mono_trans; eauto|]. destruct o.
        * destruct R2 as (I2 & w2 & ws3 & g2 & gs2 & q & -> & -> & W2 & Ws2 & Pq & Fq). rewrite <- app_assoc. split; auto.
          exists w2, ws3, g2, gs2, q. split; auto. split; auto. split; auto. split; auto. split; [eapply prefix_snoc; eauto|].
          apply Forall_app. split; auto. destruct Hn as [->| ->]; auto.
        * destruct R2 as (S2 & B2 & Nn & g2 & gs2 & q & -> & Gq & Pq & Fq). rewrite <- app_assoc. split; auto. split; auto. split; [destruct nps2; [congruence|discriminate]|].
          exists g2, gs2, q. split; auto. split; auto. split; [eapply prefix_snoc; eauto|]. apply Forall_app. split; auto. destruct Hn as [->| ->]; auto.
      + destruct R as [S1 B]. exists h1, (if g_empty g1 then ws else ws ++ [w1]), Unwound, [p ++ [j]]. split; auto. split; auto. split; auto. split; auto. split; [discriminate|].
        apply (des_rt_path f (p ++ [j])) in E; [|do 6 eexists; apply gsim_make; now rewrite (n_at_snoc p t0 es ks j Hp)].
        destruct E as (g3 & gs3 & q3 & -> & Gq3 & Pq3). exists g3, gs3, q3. split; auto. split; auto. split; [eapply prefix_snoc; eauto|auto].
    - injection E as <-. exists h, (ws ++ [w1]), (Done tt), []. split; auto. split; [intros ? ? ?; auto|]. split; auto.
      exists w1, ws, g1, gs, p. split; auto. split; auto. split; auto. split; auto. split; [apply prefix_refl|constructor].
  Qed.

  (** ** [next], [next_back] *)
  Lemma next_m h r t ps it vit x vit' : minv h r t ps -> wsims h r (mi_work it) (bi_work vit) -> mi_len it = bi_len vit ->
    b_next borrowed vit = Ok (x, vit') ->
    exists h' it' o nps, hm_next bomb h it = Ok (h', it', o) /\ mono h h' r
      /\ match o with
         | Done s => minv h' r t (nps ++ ps) /\ wsims h' r (mi_work it') (bi_work vit') /\ mi_len it' = bi_len vit'
                     /\ exists q, ref_sim h' r q s x /\ Forall (fun y => prefix y q) nps /\ (x = None -> nps = [])
         | Unwound => mst h' r t (nps ++ ps) /\ (exists n, bomb n = true) /\ nps <> []
                      /\ exists e q i, x = Some e /\ fst (fst e) = (q, i) /\ Forall (fun y => prefix y q) nps
         end.
  Proof.
    intros I Ws L E. destruct it as [ws n], vit as [gs n']. cbn [mi_work bi_work mi_len bi_len] in *. subst n'. unfold b_next, hm_next in *. cbn [mi_work bi_work mi_len bi_len] in *.
    destruct Ws as [|w g ws gs [p W] Ws].
    { injection E as <- <-. exists h, (MIter [] n), (Done None), []. split; auto. split; [intros ? ? ?; auto|]. split; auto. split; [constructor|]. split; auto.
      exists []. split; [exact Logic.I|auto]. }
    destruct (wsim_flags _ _ _ _ _ W) as (_ & Ef & _). rewrite Ef. change (ni_lf borrowed g) with (g_lf g) in E. change (ni_fuel borrowed g) with (g_fuel g) in E.
    assert (D : forall gs', (if g_lf g then des_lf borrowed (g_fuel g) (g :: gs) else Ok (g :: gs)) = Ok gs' ->
      exists h' ws' o nps, (if g_lf g then hm_des_lf bomb (S (depth h)) h (w :: ws) else Ok (h, w :: ws, Done tt)) = Ok (h', ws', o) /\ mono h h' r
      /\ match o with
         | Done _ => minv h' r t (nps ++ ps)
           /\ exists w1 ws1 g1 gs1 q, ws' = w1 :: ws1 /\ gs' = g1 :: gs1 /\ wsim h' r q w1 g1 /\ wsims h' r ws1 gs1
                                      /\ prefix p q /\ Forall (fun x => prefix x q) nps
         | Unwound => mst h' r t (nps ++ ps) /\ (exists n, bomb n = true) /\ nps <> []
           /\ exists g1 gs1 q, gs' = g1 :: gs1 /\ gpath q g1 /\ prefix p q /\ Forall (fun x => prefix x q) nps
         end).
    { intros gs' Eg. destruct (g_lf g).
      - apply (des_lf_m (g_fuel g) _ h r t ps p w ws g gs gs'); auto. eapply wsim_fuel; eauto.
      - injection Eg as <-. exists h, (w :: ws), (Done tt), []. split; auto. split; [intros ? ? ?; auto|]. split; auto.
        exists w, ws, g, gs, p. split; auto. split; auto. split; auto. split; auto. split; [apply prefix_refl|constructor]. }
    destruct (if g_lf g then des_lf borrowed (g_fuel g) (g :: gs) else Ok (g :: gs)) as [gs'|] eqn:Ed; [|discriminate]. cbn [bind] in E.
    destruct (D gs' eq_refl) as (h1 & ws' & o & nps & E1 & M & R). rewrite E1. cbn [bind]. clear D E1.
    destruct o as [u|].
    - destruct R as (I1 & w1 & ws1 & g1 & gs1 & q & -> & -> & W1 & Ws1 & Pq & Fq).
      change (ni_next_elem borrowed g1) with (g_next_elem g1) in E. destruct (g_next_elem g1) as [[y g2]|] eqn:Ee; [|discriminate]. cbn [bind] in E.
      destruct (next_elem_m h1 r q w1 g1 y g2 W1 Ee) as (s & w2 & Es & W2 & Rs). rewrite Es. cbn [bind].
      destruct y as [y|]; [|discriminate]. destruct s as [[a i]|]; [|contradiction]. cbn [assert_ bind] in *.
      destruct (usize_sub n 1) as [n1|]; [|discriminate]. cbn [bind] in *. injection E as <- <-.
      destruct (wsim_flags _ _ _ _ _ W2) as (Eem & _). rewrite Eem. change (ni_empty borrowed g2) with (g_empty g2).
      eexists _, _, _, nps. split; [reflexivity|]. split; auto. split; auto. cbn [mi_work bi_work mi_len bi_len]. split.
      { destruct (g_empty g2); auto. constructor; auto. now exists q. }
      split; auto. exists q. split; auto. split; auto. discriminate.
    - destruct R as (S1 & B & Nn & g1 & gs1 & q & -> & Gq & Pq & Fq). eexists _, _, _, nps. split; [reflexivity|]. split; auto. split; auto. split; auto. split; auto.
      change (ni_next_elem borrowed g1) with (g_next_elem g1) in E. destruct (g_next_elem g1) as [[y g2]|] eqn:Ee; [|discriminate]. cbn [bind] in E.
      destruct y as [y|]; [|discriminate]. cbn [assert_ bind] in *. destruct (usize_sub n 1) as [n1|]; [|discriminate]. cbn [bind] in *. injection E as <- <-.
      destruct Gq as (le & ue & lk & uk & lf & rt & es & ks & Hq & L1 & L2 & ->). unfold g_next_elem in Ee. cbn [g_elems g_lf] in Ee.
      destruct (negb lf); [|discriminate]. cbn [assert_ bind] in Ee. injection Ee as Ey _. exists y.
      destruct (Nat.lt_ge_cases le ue) as [Hl|Hl]; [|rewrite (cut_none le ue) in Ey by lia; discriminate].
      destruct (cut_cons le ue (mapi_from 0 (pos_of q) es)) as (z & Ez & Ec); [lia|rewrite mapi_length; lia|].
      rewrite Ec in Ey. cbn [hd_error] in Ey. injection Ey as ->. rewrite mapi_nth in Ez. destruct (nth_error es le) as [e|]; [|discriminate]. injection Ez as <-.
      exists q, le. auto.
  Qed.
  Lemma next_back_m h r t ps it vit x vit' : minv h r t ps -> wsims h r (mi_work it) (bi_work vit) -> mi_len it = bi_len vit ->
    b_next_back borrowed vit = Ok (x, vit') ->
    exists h' it' o nps, hm_next_back bomb h it = Ok (h', it', o) /\ mono h h' r
      /\ match o with
         | Done s => minv h' r t (nps ++ ps) /\ wsims h' r (mi_work it') (bi_work vit') /\ mi_len it' = bi_len vit'
                     /\ exists q, ref_sim h' r q s x /\ Forall (fun y => prefix y q) nps /\ (x = None -> nps = [])
         | Unwound => mst h' r t (nps ++ ps) /\ (exists n, bomb n = true) /\ nps <> []
                      /\ exists e q i, x = Some e /\ fst (fst e) = (q, i) /\ Forall (fun y => prefix y q) nps
         end.
  Proof.
    intros I Ws L E. destruct it as [ws n], vit as [gs n']. cbn [mi_work bi_work mi_len bi_len] in *. subst n'. unfold b_next_back, hm_next_back in *. cbn [mi_work bi_work mi_len bi_len] in *.
    apply f2_snoc in Ws as [[-> ->]|(w & ws0 & g & gs0 & -> & -> & [p W] & Ws)].
    { injection E as <- <-. exists h, (MIter [] n), (Done None), []. split; auto. split; [intros ? ? ?; auto|]. split; auto. split; [constructor|]. split; auto.
      exists []. split; [exact Logic.I|auto]. }
    rename ws0 into ws, gs0 into gs. rewrite vec_pop_snoc in E. rewrite vec_pop_snoc. destruct (wsim_flags _ _ _ _ _ W) as (_ & _ & Ef & _). rewrite Ef. change (ni_rt borrowed g) with (g_rt g) in E. change (ni_fuel borrowed g) with (g_fuel g) in E.
    assert (D : forall gs', (if g_rt g then des_rt borrowed (g_fuel g) (gs ++ [g]) else Ok (gs ++ [g])) = Ok gs' ->
      exists h' ws' o nps, (if g_rt g then hm_des_rt bomb (S (depth h)) h (ws ++ [w]) else Ok (h, ws ++ [w], Done tt)) = Ok (h', ws', o) /\ mono h h' r
      /\ match o with
         | Done _ => minv h' r t (nps ++ ps)
           /\ exists w1 ws1 g1 gs1 q, ws' = ws1 ++ [w1] /\ gs' = gs1 ++ [g1] /\ wsim h' r q w1 g1 /\ wsims h' r ws1 gs1
                                      /\ prefix p q /\ Forall (fun x => prefix x q) nps
         | Unwound => mst h' r t (nps ++ ps) /\ (exists n, bomb n = true) /\ nps <> []
           /\ exists g1 gs1 q, gs' = gs1 ++ [g1] /\ gpath q g1 /\ prefix p q /\ Forall (fun x => prefix x q) nps
         end).
    { intros gs' Eg. destruct (g_rt g).
      - apply (des_rt_m (g_fuel g) _ h r t ps p w ws g gs gs'); auto. eapply wsim_fuel; eauto.
      - injection Eg as <-. exists h, (ws ++ [w]), (Done tt), []. split; auto. split; [intros ? ? ?; auto|]. split; auto.
        exists w, ws, g, gs, p. split; auto. split; auto. split; auto. split; auto. split; [apply prefix_refl|constructor]. }
    destruct (if g_rt g then des_rt borrowed (g_fuel g) (gs ++ [g]) else Ok (gs ++ [g])) as [gs'|] eqn:Ed; [|discriminate]. cbn [bind] in E.
    destruct (D gs' eq_refl) as (h1 & ws' & o & nps & E1 & M & R). rewrite E1. cbn [bind]. clear D E1.
    destruct o as [u|].
    - destruct R as (I1 & w1 & ws1 & g1 & gs1 & q & -> & -> & W1 & Ws1 & Pq & Fq).
      rewrite vec_pop_snoc in E. rewrite vec_pop_snoc. cbn [unwrap bind] in E |- *.
      change (ni_next_back_elem borrowed g1) with (g_next_back_elem g1) in E. destruct (g_next_back_elem g1) as [[y g2]|] eqn:Ee; [|discriminate]. cbn [bind] in E.
      destruct (next_back_elem_m h1 r q w1 g1 y g2 W1 Ee) as (s & w2 & Es & W2 & Rs). rewrite Es. cbn [bind].
      destruct y as [y|]; [|discriminate]. destruct s as [[a i]|]; [|contradiction]. cbn [assert_ bind] in *.
      destruct (usize_sub n 1) as [n1|]; [|discriminate]. cbn [bind] in *. injection E as <- <-.
      destruct (wsim_flags _ _ _ _ _ W2) as (Eem & _). rewrite Eem. change (ni_empty borrowed g2) with (g_empty g2).
      eexists _, _, _, nps. split; [reflexivity|]. split; auto. split; auto. cbn [mi_work bi_work mi_len bi_len]. split.
      { destruct (g_empty g2); auto. apply Forall2_app; auto. constructor; auto. now exists q. }
      split; auto. exists q. split; auto. split; auto. discriminate.
    - destruct R as (S1 & B & Nn & g1 & gs1 & q & -> & Gq & Pq & Fq). eexists _, _, _, nps. split; [reflexivity|]. split; auto. split; auto. split; auto. split; auto.
      rewrite vec_pop_snoc in E. cbn [unwrap bind] in E.
      change (ni_next_back_elem borrowed g1) with (g_next_back_elem g1) in E. destruct (g_next_back_elem g1) as [[y g2]|] eqn:Ee; [|discriminate]. cbn [bind] in E.
      destruct y as [y|]; [|discriminate]. cbn [assert_ bind] in *. destruct (usize_sub n 1) as [n1|]; [|discriminate]. cbn [bind] in *. injection E as <- <-.
      destruct Gq as (le & ue & lk & uk & lf & rt & es & ks & Hq & L1 & L2 & ->). unfold g_next_back_elem in Ee. cbn [g_elems g_rt] in Ee.
      destruct (negb rt); [|discriminate]. cbn [assert_ bind] in Ee. injection Ee as Ey _. exists y.
      destruct (Nat.lt_ge_cases le ue) as [Hl|Hl]; [|rewrite (cut_none le ue) in Ey by lia; discriminate].
      destruct (cut_snoc le ue (mapi_from 0 (pos_of q) es)) as (z & Ez & Ec); [lia|rewrite mapi_length; lia|].
      rewrite Ec, rev_app_distr in Ey. cbn [rev app hd_error] in Ey. injection Ey as ->. rewrite mapi_nth in Ez. destruct (nth_error es (ue - 1)) as [e|]; [|discriminate]. injection Ez as <-.
      exists q, (ue - 1). auto.
  Qed.
End Steps.
