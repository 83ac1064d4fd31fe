(** Proofs about [iter_mut] and [range_mut] of [AvlMap]s on shared nodes: which nodes are cloned; whole maps. *)
From Coq Require Import List PeanoNat Bool Lia Sorted.
From Verif Require Import Base Spec MapSpec SpecFacts Heap HeapProofs HeapMut HeapMutProofs AvlModel AvlMapProofs AvlHistProofs AvlIterModel AvlIterProofs AvlShows
  AvlHeapModel AvlHeapSpec AvlHeapHistSpec AvlHeapProofs AvlHeapProofs2 AvlHeapProofs3 AvlHeapProofs4 AvlHeapProofs6 MutSpec AvlHeapMutModel AvlHeapMutSpec AvlHeapMutProofs AvlHeapMutProofs2 AvlHeapMutProofs3.
From Verif Require BTreeHeapMutProofs BTreeHeapMutProofs3 BTreeHeapMutProofs4 AvlProofs AvlProofs2.
Import ListNotations.
Local Open Scope nat_scope.

Section Way.
  Context {K V Q : Type} (bor : K -> Q) (cmp : Q -> Q -> comparison) (laws : order_laws cmp).
  Notation tree := (tree K V).
  Notation path := AvlIterModel.path.
  Notation asc := (ascending bor cmp).

  Lemma at_elem (q : path) : forall (t : tree) k v lh rh l r, t_at t q = Node k v lh rh l r -> In (k, v) (elems t).
  Proof.
    induction q as [|b q IH]; intros t k v lh rh l r E; cbn [t_at] in E.
    - subst t. cbn [elems]. apply in_or_app. right. now left.
    - destruct t as [|tk tv a c l0 r0]; [cbn [kid] in E; rewrite t_at_leaf in E; discriminate|]. cbn [kid elems] in *.
      apply IH in E. apply in_or_app. destruct b; [right; right|left]; exact E.
  Qed.

  (** The children of the nodes above an entry are around the way to its key. *)
  Lemma way_ok (p : path) : forall (t : tree) q b k v lh rh l r x, asc (elems t) -> t_at t q = Node k v lh rh l r -> prefix p q ->
    In x (root_pay (t_at t (p ++ [b]))) -> In x (around bor cmp (bor k) t).
  Proof.
    induction p as [|c p IH]; intros t q b k v lh rh l r x A E [s ->] Hx; (destruct t as [|tk tv a d l0 r0]; [rewrite t_at_leaf in E; discriminate|]); cbn [around];
      apply in_or_app; [left; apply in_or_app|right].
    - cbn [app t_at kid] in Hx. destruct b; auto.
    - cbn [app t_at kid elems] in *. pose proof (at_elem _ _ _ _ _ _ _ _ E) as I.
      apply (asc_app_iff bor cmp) in A as (A1 & A2 & A3). inversion A2 as [|? ? A4 A5]; subst.
      destruct c.
      + rewrite Forall_forall in A5. pose proof (A5 _ I) as C. cbn [fst] in C. apply (cmp_lt_gt laws) in C. rewrite C.
        apply (IH r0 (p ++ s) b k v lh rh l r x A4 E); [now exists s|exact Hx].
      + pose proof (A3 _ (tk, tv) I ltac:(now left)) as C. cbn [fst] in C. rewrite C.
        apply (IH l0 (p ++ s) b k v lh rh l r x A1 E); [now exists s|exact Hx].
  Qed.

  Definition sw (r : path * K) : K * path := (snd r, fst r).
  Lemma sw_keys (t : tree) : map fst (map sw (refs [] t)) = map fst (elems t).
  Proof. rewrite map_map. cbn [sw fst]. exact (refs_keys [] t). Qed.
  Lemma asc_sw_gen (l : list (K * V)) : forall rs : list (path * K), map snd rs = map fst l -> asc l -> ascending bor cmp (map sw rs).
  Proof.
    induction l as [|e l IH]; intros [|r rs] E A; try discriminate; [constructor|]. injection E as E1 E2. cbn [map].
    apply (asc_cons_iff bor cmp) in A as [A Ha]. apply SSorted_cons; [exact (IH _ E2 A)|]. apply Forall_forall. intros x Hx. cbn [sw fst].
    apply in_map_iff in Hx as (y & <- & Hy). cbn [sw fst]. apply (in_map snd) in Hy. rewrite E2 in Hy. apply in_map_iff in Hy as (z & Hz & Iz). rewrite E1, <- Hz. auto.
  Qed.
  Lemma asc_sw (t : tree) : asc (elems t) -> ascending bor cmp (map sw (refs [] t)).
  Proof. apply asc_sw_gen. apply refs_keys. Qed.

  (** Different nodes have different keys. *)
  Lemma pays_nodup (t : tree) ps : asc (elems t) -> NoDup ps -> Forall (fun p => t_at t p <> Leaf) ps -> NoDup (pays t ps).
  Proof.
    intros A Nd F. induction Nd as [|p ps H Nd IH]; [constructor|]. inversion F as [|? ? F1 F2]; subst. cbn [pays flat_map]. fold (pays t ps).
    destruct (t_at t p) as [|k v lh rh l r] eqn:E; [congruence|]. cbn [root_pay app]. constructor; auto.
    intros Hi. apply in_flat_map in Hi as (q & Hq & Hx). destruct (t_at t q) as [|k' v' lh' rh' l' r'] eqn:E'; [destruct Hx|].
    destruct Hx as [Hx|[]]. injection Hx as -> -> -> ->.
    pose proof (refs_in _ _ [] _ _ _ _ _ _ E) as I1. pose proof (refs_in _ _ [] _ _ _ _ _ _ E') as I2. cbn [app] in I1, I2.
    apply (in_map sw) in I1, I2. pose proof (BTreeHeapMutProofs4.asc_eq cmp laws (fun r : K * path => bor (fst r)) _ _ _ (asc_sw t A) I1 I2 eq_refl) as X.
    unfold sw in X. cbn [fst snd] in X. injection X as ->. contradiction.
  Qed.

  Lemma around_len (t : tree) q : length (around bor cmp q t) <= 2 * levels t.
  Proof.
    induction t as [|k v lh rh l IHl r IHr]; cbn [around levels]; [cbn; lia|]. rewrite !app_length.
    assert (X : length (root_pay l) <= 1 /\ length (root_pay r) <= 1) by (destruct l, r; cbn; lia). destruct (cmp q (bor k)); cbn [length]; lia.
  Qed.

  (** The window of a range. *)
  Lemma filter_keys {A B} (f : K * A -> bool) (g : K * B -> bool) : (forall k a b, f (k, a) = g (k, b)) ->
    forall l l', map fst l = map fst l' -> length (filter f l) = length (filter g l').
  Proof.
    intros H. induction l as [|[k a] l IH]; intros [|[k' b] l'] E; try discriminate; auto. cbn [map fst] in E. injection E as -> E. cbn [filter].
    rewrite (H _ a b). destruct (g (k', b)); cbn [length]; now rewrite (IH _ E).
  Qed.
  Lemma map_inj {A B} (f : A -> B) : (forall x y, f x = f y -> x = y) -> forall l l', map f l = map f l' -> l = l'.
  Proof. intros H. induction l as [|x l IH]; intros [|y l'] E; try discriminate; auto. cbn [map] in E. injection E as E1 E2. f_equal; auto. Qed.
  Lemma window_ok (t : tree) lo hi : asc (elems t) ->
    filter (inr_ (fun r : path * K => bor (snd r)) cmp lo hi) (refs [] t)
    = cut (s_lo bor cmp lo (elems t)) (s_hi bor cmp lo hi (elems t)) (refs [] t).
  Proof.
    intros A. apply (map_inj sw). { intros [? ?] [? ?] E. unfold sw in E. cbn in E. congruence. }
    pose proof (BTreeHeapMutProofs3.range_cut bor cmp laws lo hi _ (asc_sw t A)) as E.
    assert (E1 : s_lo bor cmp lo (map sw (refs [] t)) = s_lo bor cmp lo (elems t)) by (apply filter_keys; [destruct lo; reflexivity|apply sw_keys]).
    assert (E2 : s_hi bor cmp lo hi (map sw (refs [] t)) = s_hi bor cmp lo hi (elems t)).
    { unfold s_hi. rewrite E1. f_equal. apply filter_keys; [intros; destruct lo, hi; reflexivity|apply sw_keys]. }
    rewrite E1, E2 in E. transitivity (s_range bor cmp lo hi (map sw (refs [] t))).
    - unfold s_range. clear. induction (refs [] t) as [|x R IH]; auto. cbn [map filter].
      assert (X : above bor cmp lo (sw x) && below bor cmp hi (sw x) = inr_ (fun r : path * K => bor (snd r)) cmp lo hi x) by (
        destruct x as [xp xk]; unfold inr_, i_above, i_below, above, below, lt_q, gt_q, sw; cbn [fst snd];
        destruct lo as [|q|q], hi as [|q'|q']; auto; repeat match goal with |- context [cmp ?a ?b] => destruct (cmp a b) end; reflexivity).
      rewrite X. destruct (inr_ (fun r : path * K => bor (snd r)) cmp lo hi x); cbn [map]; now rewrite IH.
    - rewrite E. unfold BTreeHeapMutProofs.cut. now rewrite skipn_map, firstn_map.
  Qed.
End Way.

Section Whole.
  Context {K V Q : Type} (bor : K -> Q) (cmp : Q -> Q -> comparison) (laws : order_laws cmp).
  Variable bomb : nat -> bool.
  Notation tree := (tree K V).
  Notation pay := (pay K V).
  Notation heap := (heap pay).
  Notation path := AvlIterModel.path.
  Notation valid := (@valid K V Q bor cmp).
  Notation faulty := (exists n, bomb n = true).
  Notation hshows := (hshows bor cmp).
  Notation entries := (list (K * V)).

  (** Cloning the root, if need be. *)
  Lemma root_start (h : heap) a t O : wf h (a :: O) -> acyclic h -> hden h (Some a) (tv t) ->
    exists h1 x, make_mut bomb h a = Ok (h1, x)
      /\ match x with
         | None => mst h t O (hh h a) h1 a t [[]] /\ faulty
         | Some r => exists ps, minv h t O (hh h a) h1 r t ps /\ held h1 r [] r /\ (ps = [] \/ ps = [[]])
         end.
  Proof.
    intros W A D. destruct (root_mut_ok bomb h a O W A) as (h1 & x & kr & m & G & E & A1 & F1 & D1 & R).
    exists h1, x. split; auto. assert (Ht : t <> Leaf) by (intros ->; inversion D). destruct t as [|k v lh rh l r0]; [congruence|].
    destruct (den_node _ _ _ _ _ _ _ _ D) as (c & pl & pr & G' & _). rewrite G in G'. injection G' as <- ->. cbn [nd_data] in *.
    assert (Hs : kr <> 1 -> forall p, ~ hh h a p).
    { intros Hk p [b Hb]. inversion Hb as [? n Gn|? n ? ? ? ? Gn]; subst; rewrite G in Gn; injection Gn as -> _; congruence. }
    destruct x as [r|].
    - destruct R as (W1 & H1 & Dr & C1 & K1 & K2). specialize (Dr _ D). exists (if kr =? 1 then [] else [[]]).
      split; [|split; [auto|destruct (kr =? 1); auto]]. split.
      + split; auto. split; auto. split; auto. split; auto. split; auto. rewrite C1. destruct (Nat.eqb_spec kr 1) as [Hk|Hk].
        * split; [reflexivity|]. split; constructor.
        * split; [reflexivity|]. split; [repeat constructor; intros []|]. constructor; [|constructor]. split; [exact Ht|now apply Hs].
      + split; [auto|]. split; [destruct (kr =? 1); repeat constructor; exists r; exact H1|]. intros p [b Hb]. destruct (Nat.eq_dec kr 1) as [Hk|Hk].
        * destruct (K1 Hk) as [-> ->]. now exists b.
        * destruct (Hs Hk p). now exists b.
    - destruct R as (W1 & Hk & Hb & C1 & Cs). split; [|eauto].
      split; auto. split; auto. split; [exact (D1 _ _ D)|]. split; auto. split; auto. split; [exact C1|]. split; [repeat constructor; intros []|].
      constructor; [|constructor]. split; [exact Ht|now apply Hs].
  Qed.

  (** ** Maps that are not shared *)
  Lemma kid_in (b : bool) (x y : ptr) c : (if b then y else x) = Some c -> In c (olists [x; y]).
  Proof. intros E. unfold olists. cbn [flat_map]. rewrite app_nil_r. apply in_or_app. destruct b; rewrite E; [right|left]; now left. Qed.
  Lemma unshared_held (h : heap) (p : path) : forall (t : tree) a, hden h (Some a) (tv t) -> t_at t p <> Leaf -> unshared h (Some a) -> hh h a p.
  Proof.
    induction p as [|b p IH]; intros [|k v lh rh l r] a D H U; [inversion D| |inversion D|];
      destruct (den_node _ _ _ _ _ _ _ _ D) as (n & pl & pr & G & Dl & Dr); (assert (n = 1) as -> by (eapply U; [apply reach_root; now left|exact G])).
    - exists a. econstructor; eauto.
    - cbn [t_at kid] in H. assert (Hk : hden h (if b then pr else pl) (tv (if b then r else l))) by (now destruct b).
      destruct (if b then pr else pl) as [c|] eqn:Ec.
      2:{ apply (den_leaf h) in Hk. destruct Hk as [_ Hk]. specialize (Hk eq_refl). destruct b; rewrite Hk, t_at_leaf in H; congruence. }
      pose proof (kid_in b pl pr c Ec) as Hc.
      destruct (IH (if b then r else l) c Hk H) as [x Hx].
      { intros y cy ny Ry. apply U. clear - Ry G Hc. induction Ry as [y [<-|[]]|y cy n b Ry IHy Gy Hb].
        - eapply reach_kid; [apply reach_root; now left|exact G|exact Hc].
        - eapply reach_kid; eauto. }
      exists x. cbn [np map]. econstructor; [exact G| |exact Hx]. cbn [nd_kids]. destruct b; cbn [side nth_error]; now rewrite Ec.
  Qed.
  Lemma held_unshared (h : heap) r (t : tree) : hden h (Some r) (tv t) -> (forall p, t_at t p <> Leaf -> hh h r p) -> unshared h (Some r).
  Proof.
    intros D H. assert (G : forall a, reach h (Some r) a -> exists p, held h r (np p) a /\ hden h (Some a) (tv (t_at t p))).
    { intros a Ra. induction Ra as [a [<-|[]]|a c n b Ra (p & Hp & Da) Ga Hb].
      - exists []. split; [|exact D]. destruct (H []) as [b Hb]; [cbn; intros ->; inversion D|]. inversion Hb; subst. exact Hb.
      - destruct (t_at t p) as [|k v lh rh l rr] eqn:Et; [inversion Da|].
        destruct (den_node _ _ _ _ _ _ _ _ Da) as (c' & pl & pr & G' & Dl & Dr). rewrite Ga in G'. injection G' as <- ->. cbn [nd_kids] in Hb.
        assert (Hs : exists s : bool, (if s then pr else pl) = Some b).
        { unfold olists in Hb. cbn [flat_map] in Hb. rewrite app_nil_r in Hb. apply in_app_or in Hb as [Hb|Hb]; [exists false|exists true]; [destruct pl as [x|]|destruct pr as [x|]]; cbn in Hb; try contradiction; destruct Hb as [->|[]]; reflexivity. }
        destruct Hs as [s Es]. assert (Hd : t_at t (p ++ [s]) = if s then rr else l) by (rewrite t_at_app, Et; reflexivity).
        assert (Db : hden h (Some b) (tv (if s then rr else l))) by (rewrite <- Es; now destruct s).
        destruct (H (p ++ [s])) as [b' Hb']; [rewrite Hd; intros E; rewrite E in Db; inversion Db|]. exists (p ++ [s]). rewrite Hd. split; [|exact Db].
        rewrite np_snoc in Hb'. destruct (held_last h (np p ++ [side s]) r b') as (q & j' & a' & n' & Eq & Hq & Ga' & Ea); [now destruct (np p)|exact Hb'|].
        apply app_inj_tail in Eq as [<- <-]. pose proof (held_det _ _ _ _ Hp _ Hq) as <-. rewrite Ga in Ga'. injection Ga' as -> <-. cbn [nd_kids] in Ea.
        assert (b = b') as <- by (destruct s; cbn [side nth_error] in Ea; congruence). now rewrite np_snoc. }
    intros a c n Ra Ga. destruct (G a Ra) as (p & Hp & _). destruct (held_end _ _ _ _ Hp) as [n' G']. rewrite Ga in G'. now injection G'.
  Qed.

  (** ** Results *)
  Notation outs_t := (list (option (K * V) * nat)).
  Definition good_end (h : heap) (a : addr) (t : tree) len (O : list addr) (cs : list (mcall V)) (l : entries) (i k d : nat)
    (h' : heap) (r : addr) (outs : outs_t) (b : bool) (ps2 ps1 : list path) : Prop :=
    exists t', mst h t O (hh h a) h' r t' (ps2 ++ ps1)
      /\ shows_at bor cmp t len t' (s_final (firstn (length outs) cs) l i k)
      /\ outs = map (fun s => (fst s, snd s + d)) (s_outs (firstn (length outs) cs) l i k)
      /\ Forall (fun p => exists x, In x (s_taken (firstn (S (length outs)) cs) l i k) /\ on_way t p x) ps2
      /\ if b then length outs = length cs /\ mheld t (hh h a) h' r t' (ps2 ++ ps1) else faulty /\ ps2 ++ ps1 <> [].

  Lemma end_now h a t len O cs i k d h' r ps1 : valid (AvlMap len t) -> mst h t O (hh h a) h' r t ps1 -> faulty -> ps1 <> [] ->
    good_end h a t len O cs (elems t) i k d h' r [] false [] ps1.
  Proof. intros Hv M B Hn. exists t. split; auto. split; [split; auto|]. split; [reflexivity|]. split; [constructor|]. auto. Qed.

  Lemma cut_whole {A} (l : list A) : cut 0 (length l) l = l.
  Proof. unfold BTreeHeapMutProofs.cut. cbn [skipn]. rewrite Nat.sub_0_r. apply firstn_all. Qed.

  Lemma root_sim (h1 : heap) r t ps h a O : minv h t O (hh h a) h1 r t ps -> held h1 r [] r ->
    asims t h1 r [Descend r] (odesc (mk_mnode [] t)).
  Proof.
    intros [(_ & _ & D & _) _] Hr. destruct t as [|k v lh rh l rr]; [inversion D|]. cbn [mk_mnode odesc]. constructor; [|constructor].
    cbn [asim]. split; [exact Hr|]. cbn [t_at]. eauto.
  Qed.

  Lemma iter_core h a t len O cs : wf h (a :: O) -> acyclic h -> hden h (Some a) (tv t) -> valid (AvlMap len t) -> levels t < depth ->
    exists h' r outs b ps2 ps1, hm_iter_mut_calls bomb h (HMap len (Some a)) cs = Ok (h', HMap len (Some r), outs, b)
      /\ good_end h a t len O cs (elems t) 0 (length (elems t)) 0 h' r outs b ps2 ps1
      /\ (ps1 = [] \/ ps1 = [[]]).
  Proof.
    intros W A D Hv Lv. pose proof Hv as (_ & As & Ln). cbn [AvlModel.am_root am_len] in *. unfold contents in *. cbn [AvlModel.am_root] in *.
    destruct (root_start h a t O W A D) as (h1 & x & E & R).
    unfold hm_iter_mut_calls, hm_iter_mut, AvlHeapMutModel.am_root. cbn [hm_root hm_len]. rewrite E. cbn [bind]. destruct x as [r|]; cbn [bind am_client].
    - destruct R as (ps & I & Hr & Hps).
      assert (It : iter_ok t h1 r (InnerIter [Descend r] len) 0 (length (refs [] t)) 0).
      { exists (odesc (mk_mnode [] t)). split; [eapply root_sim; eauto|]. split; [rewrite den_odesc, mflat_mk; now rewrite cut_whole|]. split; [lia|].
        cbn [it_len]. rewrite refs_length. lia. }
      rewrite refs_length in It.
      destruct (run_ok bor cmp bomb h t O (hh h a) len Lv cs h1 r t (elems t) ps _ _ _ _ [] [] I (conj Hv (conj eq_refl eq_refl)) It (Forall2_nil _)) as (h' & it' & outs & b & nps & Er & Hran).
      rewrite Er. cbn [bind]. exists h', r, outs, b, nps, ps. split; auto.
    - destruct R as (M & B). exists h1, a, [], false, [], [[]]. split; auto. split; [|auto]. apply end_now; auto. discriminate.
  Qed.

  Lemma range_core h a t len O cs lo hi : wf h (a :: O) -> acyclic h -> hden h (Some a) (tv t) -> valid (AvlMap len t) -> levels t < depth ->
    exists h' r outs b ps2 ps1, hm_range_mut_calls bor cmp bomb h (HMap len (Some a)) lo hi cs = Ok (h', HMap len (Some r), outs, b)
      /\ good_end h a t len O cs (elems t) (s_lo bor cmp lo (elems t)) (s_hi bor cmp lo hi (elems t))
           (length (elems t) - length (s_range bor cmp lo hi (elems t))) h' r outs b ps2 ps1
      /\ length ps1 <= 1 + 4 * (levels t - 1).
  Proof.
    intros W A D Hv Lv. pose proof Hv as (_ & As & Ln). cbn [AvlModel.am_root am_len] in *. unfold contents in *. cbn [AvlModel.am_root] in *.
    destruct (root_start h a t O W A D) as (h1 & x & E & R).
    unfold hm_range_mut_calls, hm_range_mut, AvlHeapMutModel.am_root. cbn [hm_root hm_len]. rewrite E. cbn [bind]. destruct x as [r|]; cbn [bind am_client].
    2:{ destruct R as (M & B). exists h1, a, [], false, [], [[]]. split; auto. split; [apply end_now; auto; discriminate|cbn [length]; lia]. }
    destruct R as (ps & I & Hr & Hps). pose proof (root_sim _ _ _ _ _ _ _ I Hr) as S0.
    destruct (range_mut_spec bor cmp laws _ lo hi Hv) as (it & Ei & Di & Li). unfold avl_range_mut, range_iter in Ei. cbn [AvlModel.am_root] in Ei.
    destruct (prune_front _ _ _ _ _ _ _) as [g1|] eqn:E1 in Ei; [|discriminate]. cbn [bind] in Ei.
    destruct (prune_back _ _ _ _ _ _ _) as [g2|] eqn:E2 in Ei; [|discriminate]. cbn [bind] in Ei. injection Ei as <-. cbn [it_work] in Di.
    assert (Al0 : alt (odesc (mk_mnode [] t) : list (action (@mnode K V) (@mref K)))) by (destruct t; cbn; tauto).
    pose proof (prune_alt bor cmp laws (hh h a) lo hi _ _ _ E1 Al0) as Al1.
    assert (Lp0 : length ps <= 1) by (destruct Hps as [->| ->]; cbn; lia).
    destruct (prune_front_m bor cmp laws bomb h t O (hh h a) lo hi _ _ _ E1 Al0 depth h1 r t ps _ (Nat.le_lt_trans _ _ _ (asims_lv t h1 r _ _ S0) Lv) I S0) as (h2 & o2 & n2 & X2 & M2 & L2 & R2).
    pose proof (asims_lv t h1 r _ _ S0) as Lv1. rewrite X2. cbn [bind].
    assert (L2' : length n2 <= 2 * (levels t - 1)) by (eapply Nat.le_trans; [exact L2|]; eapply Nat.le_trans; [apply Nat.mul_le_mono_l, Nat.pred_le_mono, Lv1|lia]). clear L2.
    destruct o2 as [w2|].
    2:{ destruct R2 as (Ms & B & Hne). cbn [bind am_client]. exists h2, r, [], false, [], (n2 ++ ps). split; auto. split.
        - apply end_now; auto. destruct n2; [congruence|discriminate].
        - rewrite app_length. lia. }
    destruct R2 as [I2 S2]. pose proof (asims_lvb t h2 r _ _ S2) as Lv2.
    destruct (prune_back_m bor cmp laws bomb h t O (hh h a) lo hi _ _ _ E2 Al1 depth h2 r t (n2 ++ ps) _ (Nat.le_lt_trans _ _ _ Lv2 Lv) I2 S2) as (h3 & o3 & n3 & X3 & M3 & L3 & R3).
    rewrite X3. cbn [bind].
    assert (L3' : length n3 <= 2 * (levels t - 1)) by (eapply Nat.le_trans; [exact L3|]; eapply Nat.le_trans; [apply Nat.mul_le_mono_l, Nat.pred_le_mono, Lv2|lia]). clear L3.
    assert (Lp : length (n3 ++ n2 ++ ps) <= 1 + 4 * (levels t - 1)) by (rewrite !app_length; lia).
    destruct o3 as [w3|]; cbn [am_client].
    2:{ destruct R3 as (Ms & B & Hne). exists h3, r, [], false, [], (n3 ++ n2 ++ ps). split; auto. split; auto.
        apply end_now; auto. destruct n3; [congruence|discriminate]. }
    destruct R3 as [I3 S3].
    pose proof (BTreeHeapMutProofs3.hi_le bor cmp laws lo hi _ As) as Hle.
    assert (It : iter_ok t h3 r (InnerIter w3 len) (s_lo bor cmp lo (elems t)) (s_hi bor cmp lo hi (elems t)) (length (elems t) - length (s_range bor cmp lo hi (elems t)))).
    { exists g2. split; auto. split; [rewrite Di; exact (window_ok bor cmp laws t lo hi As)|]. rewrite refs_length. split; auto. cbn [it_len]. unfold s_hi in *. lia. }
    destruct (run_ok bor cmp bomb h t O (hh h a) len Lv cs h3 r t (elems t) _ _ _ _ _ [] [] I3 (conj Hv (conj eq_refl eq_refl)) It (Forall2_nil _)) as (h' & it' & outs & b & nps & Er & Hran).
    rewrite Er. cbn [bind]. exists h', r, outs, b, nps, (n3 ++ n2 ++ ps). split; auto.
  Qed.

  (** ** The statements *)
  Notation client_ok := (@client_ok K V Q bor cmp bomb).
  Notation on_paths := (@on_paths K V Q bor cmp).
  Lemma end_client h a t len O cs i k d h' r outs b ps2 ps1 : small (elems t) -> good_end h a t len O cs (elems t) i k d h' r outs b ps2 ps1 ->
    client_ok O h cs (elems t) i k d h' (HMap len (Some r)) outs b.
  Proof.
    intros Sm (t' & (W & A & D & Sk & F & _) & (Hv & Hc & Hf) & Fo & _ & Hb). split; [split; auto|]. split; [exact F|]. split.
    { apply (mapped_hshows bor cmp laws) with (a := AvlMap len t'); auto; [split; auto|]. apply small_fits. unfold small in *. rewrite <- Hc, <- (refs_length []), Hf, refs_length. exact Sm. }
    split; [exact Fo|]. destruct b; tauto.
  Qed.

  Lemma end_clones h a t len O cs i k d h' r outs b ps2 ps1 : valid (AvlMap len t) ->
    good_end h a t len O cs (elems t) i k d h' r outs b ps2 ps1 ->
    clones h' = pays t ps2 ++ pays t ps1 ++ clones h /\ NoDup (pays t ps2 ++ pays t ps1)
    /\ Forall (on_paths (firstn (S (length outs)) cs) (elems t) i k t) (pays t ps2).
  Proof.
    intros Hv (t' & (_ & _ & _ & _ & _ & C & Nd & Fn) & _ & _ & Fw & _). pose proof Hv as (_ & As & _). unfold contents in As. cbn [AvlModel.am_root] in As.
    assert (Ea : pays t (ps2 ++ ps1) = pays t ps2 ++ pays t ps1) by (unfold pays; apply flat_map_app).
    split; [now rewrite C, Ea, <- app_assoc|]. split.
    { rewrite <- Ea. apply (pays_nodup bor cmp laws); auto. eapply Forall_impl; [|exact Fn]. intros p [H _]. exact H. }
    apply Forall_forall. intros c Hc. apply in_flat_map in Hc as (p & Hp & Hc). rewrite Forall_forall in Fw.
    destruct (Fw p Hp) as (x & Hx & q & kk & Ex & p' & b' & -> & Pq).
    destruct (refs_at t [] x q kk Ex) as (s & v & lh & rh & l1 & r1 & -> & B1 & B2). cbn [app] in *.
    exists x, (kk, v). split; auto. split; auto. cbn [fst]. eapply (way_ok bor cmp laws); eauto.
  Qed.

  Lemma end_unshared h a t len O cs l i k d h' r outs b ps2 ps1 : hden h (Some a) (tv t) -> unshared h (Some a) ->
    good_end h a t len O cs l i k d h' r outs b ps2 ps1 -> clones h' = clones h /\ b = true /\ unshared h' (Some r).
  Proof.
    intros D U (t' & (_ & _ & D' & Sk & _ & C & _ & Fn) & _ & _ & _ & Hb).
    assert (St : forall p, t_at t p <> Leaf -> hh h a p) by (intros p Hp; eapply unshared_held; eauto).
    assert (E : ps2 ++ ps1 = []).
    { destruct (ps2 ++ ps1) as [|p ps]; auto. inversion Fn as [|? ? [H1 H2] _]; subst. destruct (H2 (St p H1)). }
    rewrite E in *. split; [exact C|]. destruct b; [|destruct Hb as [_ Hb]; congruence]. split; auto. destruct Hb as (_ & _ & _ & Hs).
    apply (held_unshared h' r t' D'). intros p Hp. apply Hs, St. intros Hl. apply Hp. pose proof (skel_at p _ _ Sk) as X. rewrite Hl in X. now destruct (t_at t' p).
  Qed.

  Lemma run_nil (cs : list (mcall V)) (h : heap) :
    am_run bomb cs h (InnerIter [] 0) [] = Ok (h, InnerIter [] 0, map (fun _ => (None, 0)) cs, true)
    /\ s_muts cs ([] : entries) 0 0 [] = (map (fun _ => (None, 0)) cs, [], []).
  Proof.
    induction cs as [|c cs [IH1 IH2]]; [auto|]. destruct c as [| |j w]; cbn [am_run s_muts].
    - replace (am_next bomb h (InnerIter [] 0)) with (Ok (h, @InnerIter addr addr [] 0, Done (@None addr))) by reflexivity. cbn [bind Nat.ltb Nat.leb]. rewrite IH1, IH2. auto.
    - replace (am_next_back bomb h (InnerIter [] 0)) with (Ok (h, @InnerIter addr addr [] 0, Done (@None addr))) by reflexivity. cbn [bind Nat.ltb Nat.leb]. rewrite IH1, IH2. auto.
    - replace (nth_error (@nil addr) j) with (@None addr) by (now destruct j). replace (nth_error (@nil nat) j) with (@None nat) by (now destruct j).
      rewrite IH1, IH2. auto.
  Qed.

  Lemma empty_iter h len O cs : valid (AvlMap len Leaf) -> sound h O ->
    hm_iter_mut_calls bomb h (HMap len None) cs = Ok (h, HMap len None, map (fun _ => (None, 0)) cs, true)
    /\ (forall lo hi, hm_range_mut_calls bor cmp bomb h (HMap len None) lo hi cs = Ok (h, HMap len None, map (fun _ => (None, 0)) cs, true))
    /\ client_ok O h cs [] 0 0 0 h (HMap len None) (map (fun _ => (None, 0)) cs) true.
  Proof.
    intros Hv S. pose proof Hv as (_ & _ & Ln). cbn in Ln. subst len. destruct (run_nil cs h) as [E1 E2].
    unfold hm_iter_mut_calls, hm_range_mut_calls, hm_iter_mut, hm_range_mut, AvlHeapMutModel.am_root. cbn [hm_root hm_len bind am_client]. rewrite E1. cbn [bind]. split; auto. split.
    { intros lo hi. replace (am_prune_front bor cmp bomb lo hi depth h []) with (Ok (h, Done (@nil (action addr addr)))) by reflexivity. cbn [bind].
      replace (am_prune_back bor cmp bomb lo hi depth h []) with (Ok (h, Done (@nil (action addr addr)))) by reflexivity. cbn [bind am_client]. now rewrite E1. }
    split; [exact S|]. split; [apply frame_refl|]. rewrite !map_length. rewrite firstn_all. unfold s_final, s_outs. rewrite E2. cbn [fst snd]. split.
    - apply (mapped_hshows bor cmp laws) with (a := AvlMap 0 Leaf); auto; [split; auto; constructor|]. unfold AvlProofs2.fits. vm_compute. reflexivity.
    - split; [|reflexivity]. rewrite map_map. reflexivity.
  Qed.

  Lemma cases (h : heap) m l O : sound h (olist (hm_root m) ++ O) -> hshows h m l -> small l ->
    exists a, hm_read h m = Ok a /\ elems (AvlModel.am_root a) = l /\
      match m, a with
      | HMap len (Some r), AvlMap len' t => len' = len /\ hden h (Some r) (tv t) /\ wf h (r :: O) /\ acyclic h /\ valid (AvlMap len t) /\ levels t < depth
      | HMap len None, AvlMap len' t => len' = len /\ t = Leaf /\ sound h O /\ valid (AvlMap len Leaf) /\ l = []
      end.
  Proof.
    intros So H Sm. apply (hshows_read bor cmp laws) in H as (a & E & [El D] & Hv & Ec). exists a. split; auto. split; auto.
    destruct a as [len' t], m as [len [r|]]; cbn [hm_len hm_root am_len AvlModel.am_root] in *; subst len'.
    - split; auto. split; auto. destruct So as [W A]. split; auto. split; auto. split; auto. apply low_levels, (valid_low bor cmp (AvlMap len t)); auto. rewrite Ec. now apply small_fits.
    - assert (t = Leaf) as -> by (now apply (den_leaf h None t D)). split; [auto|]. split; [auto|]. split; [exact So|]. split; [exact Hv|]. now rewrite <- Ec.
  Qed.

  Lemma iter_calls h m l cs O : sound h (olist (hm_root m) ++ O) -> hshows h m l -> small l ->
    exists h' m' outs f, hm_iter_mut_calls bomb h m cs = Ok (h', m', outs, f) /\ client_ok O h cs l 0 (length l) 0 h' m' outs f.
  Proof.
    intros So H Sm. destruct (cases h m l O So H Sm) as ([len' t] & _ & El & P). cbn [AvlModel.am_root] in El. destruct m as [len [a|]].
    - destruct P as (-> & D & W & A & Hv & Lv). subst l. destruct (iter_core h a t len O cs W A D Hv Lv) as (h' & r & outs & b & ps2 & ps1 & E & G & _).
      exists h', (HMap len (Some r)), outs, b. split; auto. eapply end_client; eauto.
    - destruct P as (-> & -> & S & Hv & ->). destruct (empty_iter h len O cs Hv S) as (E & _ & C). eauto 6.
  Qed.
  Lemma range_calls h m l lo hi cs O : sound h (olist (hm_root m) ++ O) -> hshows h m l -> small l ->
    exists h' m' outs f, hm_range_mut_calls bor cmp bomb h m lo hi cs = Ok (h', m', outs, f)
      /\ client_ok O h cs l (s_lo bor cmp lo l) (s_hi bor cmp lo hi l) (length l - length (s_range bor cmp lo hi l)) h' m' outs f.
  Proof.
    intros So H Sm. destruct (cases h m l O So H Sm) as ([len' t] & _ & El & P). cbn [AvlModel.am_root] in El. destruct m as [len [a|]].
    - destruct P as (-> & D & W & A & Hv & Lv). subst l. destruct (range_core h a t len O cs lo hi W A D Hv Lv) as (h' & r & outs & b & ps2 & ps1 & E & G & _).
      exists h', (HMap len (Some r)), outs, b. split; auto. eapply end_client; eauto.
    - destruct P as (-> & -> & S & Hv & ->). destruct (empty_iter h len O cs Hv S) as (_ & E & C). specialize (E lo hi). eauto 6.
  Qed.

  Lemma iter_lazy h m l a cs O : sound h (olist (hm_root m) ++ O) -> hshows h m l -> small l -> hm_read h m = Ok a ->
    exists h' m' outs f c2 c1, hm_iter_mut_calls bomb h m cs = Ok (h', m', outs, f) /\ clones h' = c2 ++ c1 ++ clones h
      /\ NoDup (c2 ++ c1) /\ (c1 = [] \/ c1 = root_pay (AvlModel.am_root a))
      /\ Forall (on_paths (firstn (S (length outs)) cs) l 0 (length l) (AvlModel.am_root a)) c2.
  Proof.
    intros So H Sm R. destruct (cases h m l O So H Sm) as (a' & R' & El & P). rewrite R in R'. injection R' as <-. destruct a as [len' t]. cbn [AvlModel.am_root] in *. destruct m as [len [a|]].
    - destruct P as (-> & D & W & A & Hv & Lv). subst l. destruct (iter_core h a t len O cs W A D Hv Lv) as (h' & r & outs & b & ps2 & ps1 & E & G & Hp).
      destruct (end_clones _ _ _ _ _ _ _ _ _ _ _ _ _ _ _ Hv G) as (C & Nd & F).
      exists h', (HMap len (Some r)), outs, b, (pays t ps2), (pays t ps1). repeat (split; [assumption|]). split; auto.
      destruct Hp as [->| ->]; [now left|right]. cbn [pays flat_map t_at]. apply app_nil_r.
    - destruct P as (-> & -> & S & Hv & ->). destruct (empty_iter h len O cs Hv S) as (E & _). exists h, (HMap len None). eexists _, _, [], []. split; [exact E|]. split; auto. split; [constructor|auto].
  Qed.
  Lemma range_lazy h m l a lo hi cs O : sound h (olist (hm_root m) ++ O) -> hshows h m l -> small l -> hm_read h m = Ok a ->
    exists h' m' outs f c2 c1, hm_range_mut_calls bor cmp bomb h m lo hi cs = Ok (h', m', outs, f) /\ clones h' = c2 ++ c1 ++ clones h
      /\ NoDup (c2 ++ c1) /\ length c1 <= 1 + 4 * (levels (AvlModel.am_root a) - 1)
      /\ Forall (on_paths (firstn (S (length outs)) cs) l (s_lo bor cmp lo l) (s_hi bor cmp lo hi l) (AvlModel.am_root a)) c2.
  Proof.
    intros So H Sm R. destruct (cases h m l O So H Sm) as (a' & R' & El & P). rewrite R in R'. injection R' as <-. destruct a as [len' t]. cbn [AvlModel.am_root] in *. destruct m as [len [a|]].
    - destruct P as (-> & D & W & A & Hv & Lv). subst l. destruct (range_core h a t len O cs lo hi W A D Hv Lv) as (h' & r & outs & b & ps2 & ps1 & E & G & Hp).
      destruct (end_clones _ _ _ _ _ _ _ _ _ _ _ _ _ _ _ Hv G) as (C & Nd & F).
      exists h', (HMap len (Some r)), outs, b, (pays t ps2), (pays t ps1). repeat (split; [assumption|]). split; auto.
      eapply Nat.le_trans; [|exact Hp]. clear. induction ps1 as [|p ps IH]; auto. cbn [pays flat_map]. rewrite app_length. fold (pays t ps). cbn [length]. destruct (t_at t p); cbn [root_pay length]; lia.
    - destruct P as (-> & -> & S & Hv & ->). destruct (empty_iter h len O cs Hv S) as (_ & E & _). specialize (E lo hi). exists h, (HMap len None). eexists _, _, [], []. split; [exact E|]. split; auto. split; [constructor|]. split; [cbn; lia|auto].
  Qed.

  Lemma muts_unshared (h : heap) m l cs O : sound h (olist (hm_root m) ++ O) -> hshows h m l -> small l -> unshared h (hm_root m) ->
    (exists (h' : heap) m' outs, hm_iter_mut_calls bomb h m cs = Ok (h', m', outs, true) /\ clones h' = clones h /\ unshared h' (hm_root m'))
    /\ forall lo hi, exists (h' : heap) m' outs, hm_range_mut_calls bor cmp bomb h m lo hi cs = Ok (h', m', outs, true) /\ clones h' = clones h /\ unshared h' (hm_root m').
  Proof.
    intros So H Sm U. destruct (cases h m l O So H Sm) as ([len' t] & _ & El & P). cbn [AvlModel.am_root] in El. destruct m as [len [a|]].
    - destruct P as (-> & D & W & A & Hv & Lv). subst l. split.
      + destruct (iter_core h a t len O cs W A D Hv Lv) as (h' & r & outs & b & ps2 & ps1 & E & G & _).
        destruct (end_unshared _ _ _ _ _ _ _ _ _ _ _ _ _ _ _ _ D U G) as (C & -> & U'). eauto 6.
      + intros lo hi. destruct (range_core h a t len O cs lo hi W A D Hv Lv) as (h' & r & outs & b & ps2 & ps1 & E & G & _).
        destruct (end_unshared _ _ _ _ _ _ _ _ _ _ _ _ _ _ _ _ D U G) as (C & -> & U'). eauto 6.
    - destruct P as (-> & -> & S & Hv & ->). destruct (empty_iter h len O cs Hv S) as (E1 & E2 & _). split; [eauto 6|]. intros lo hi. specialize (E2 lo hi). eauto 6.
  Qed.
End Whole.
