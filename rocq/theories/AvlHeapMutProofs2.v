(** Proofs about [iter_mut] and [range_mut] of [AvlMap]s on shared nodes: the calls. *)
From Coq Require Import List PeanoNat Bool Lia.
From Verif Require Import Base Spec MapSpec SpecFacts Heap HeapProofs HeapMut HeapMutProofs AvlModel AvlIterModel AvlIterProofs
  AvlHeapModel AvlHeapSpec AvlHeapProofs MutSpec AvlHeapMutModel AvlHeapMutProofs.
Import ListNotations.
Local Open Scope nat_scope.

Section Calls.
  Context {K V Q : Type} (bor : K -> Q) (cmp : Q -> Q -> comparison) (laws : order_laws cmp).
  Variable bomb : nat -> bool.
  Notation tree := (tree K V).
  Notation pay := (pay K V).
  Notation heap := (heap pay).
  Notation path := AvlIterModel.path.
  Notation mnode := (@mnode K V).
  Notation mref := (@mref K).
  Notation gact := (action mnode mref).
  Notation gden := (AvlIterProofs.den (@mflat K V)).
  Variables (h0 : heap) (t0 : tree) (O : list addr) (start : path -> Prop).
  Notation mst := (mst h0 t0 O start).
  Notation minv := (minv h0 t0 O start).
  Notation faulty := (exists n, bomb n = true).

  (** ** Work items *)
  Definition asim (h : heap) (r : addr) (w : action addr addr) (g : gact) : Prop :=
    match w, g with
    | Descend a, Descend (p, k, l, rr) => held h r (np p) a /\ exists v lh rh, t_at t0 p = Node k v lh rh l rr
    | Return a, Return (p, k) => held h r (np p) a /\ exists v lh rh l rr, t_at t0 p = Node k v lh rh l rr
    | _, _ => False
    end.
  Definition asims (h : heap) (r : addr) := Forall2 (asim h r).

  Lemma asim_mono h h' r w g : mono h h' r -> asim h r w g -> asim h' r w g.
  Proof. intros M. destruct w as [a|a], g as [[[[p k] l] rr]|[p k]]; cbn [asim]; auto; intros [H G]; auto. Qed.
  Lemma asims_mono h h' r ws gs : mono h h' r -> asims h r ws gs -> asims h' r ws gs.
  Proof. intros M F. induction F; constructor; auto. eapply asim_mono; eauto. Qed.

  Lemma side_step h r t ps a p k l rr b : minv h r t ps -> asim h r (Descend a) (Descend (p, k, l, rr)) ->
    exists h' o nps, am_kid bomb h a (side b) = Ok (h', o) /\ mono h h' r /\ Forall (fun c => c = p ++ [b]) nps
      /\ length nps <= Nat.min 1 (levels (if b then rr else l))
      /\ match o with
         | Unwound => mst h' r t (nps ++ ps) /\ faulty /\ nps <> []
         | Done c => minv h' r t (nps ++ ps) /\ asims h' r (odesc c) (odesc (mk_mnode (p ++ [b]) (if b then rr else l)))
         end.
  Proof.
    intros I [H (v & lh & rh & H0)]. destruct (kid_step bomb h0 t0 O start h r t ps p a b k v lh rh l rr I H H0) as (h' & o & E & M & R).
    assert (Hat : t_at t0 (p ++ [b]) = if b then rr else l) by (rewrite t_at_app, H0; reflexivity). rewrite Hat in R.
    set (u := if b then rr else l) in *. assert (Hlv : u <> Leaf -> 1 <= levels u) by (destruct u; cbn [levels]; [congruence|lia]).
    destruct o as [[c|]|].
    - destruct R as (nps & I' & Hc & Hne & Hn). exists h', (Done (Some c)), nps. split; auto. split; auto. split; [destruct Hn as [->| ->]; auto|].
      split; [destruct Hn as [->| ->]; cbn [length]; specialize (Hlv Hne); lia|]. split; auto.
      destruct u as [|k2 v2 lh2 rh2 l2 r2]; [congruence|]. cbn [odesc mk_mnode]. constructor; [|constructor]. cbn [asim]. split; auto. rewrite Hat. eauto.
    - destruct R as [-> ->]. exists h, (Done None), []. split; auto. split; auto. split; [constructor|]. split; [cbn; lia|]. split; auto. constructor.
    - destruct R as [R B]. exists h', Unwound, [p ++ [b]]. split; auto. split; auto. split; [repeat constructor|]. split; [|split; auto; split; auto; discriminate].
      cbn [length]. destruct R as (_ & _ & _ & _ & _ & _ & _ & F). inversion F as [|? ? [F1 _] _]; subst. rewrite Hat in F1. specialize (Hlv F1). lia.
  Qed.

  Lemma destr_step h r t ps a p k l rr : minv h r t ps -> asim h r (Descend a) (Descend (p, k, l, rr)) ->
    exists h' o nps, am_destr bomb h a = Ok (h', o) /\ mono h h' r /\ Forall (fun c => exists b, c = p ++ [b]) nps
      /\ match o with
         | Unwound => mst h' r t (nps ++ ps) /\ faulty /\ nps <> []
         | Done (lf, x, rt) => minv h' r t (nps ++ ps) /\ asims h' r (odesc lf) (odesc (mk_mnode (p ++ [false]) l))
             /\ asim h' r (Return x) (Return (p, k)) /\ asims h' r (odesc rt) (odesc (mk_mnode (p ++ [true]) rr))
         end.
  Proof.
    intros I A. unfold am_destr. destruct (side_step _ _ _ _ _ _ _ _ _ false I A) as (h1 & o1 & n1 & E1 & M1 & F1 & _ & R1).
    cbn [side] in E1. rewrite E1. cbn [bind].
    assert (F1' : Forall (fun c => exists b, c = p ++ [b]) n1) by (eapply Forall_impl; [|exact F1]; intros c ->; eauto).
    destruct o1 as [lf|].
    2:{ exists h1, Unwound, n1. auto. }
    destruct R1 as [I1 S1]. pose proof (asim_mono _ _ _ _ _ M1 A) as A1.
    destruct (side_step _ _ _ _ _ _ _ _ _ true I1 A1) as (h2 & o2 & n2 & E2 & M2 & F2 & _ & R2). cbn [side] in E2. rewrite E2. cbn [bind].
    assert (F2' : Forall (fun c => exists b, c = p ++ [b]) n2) by (eapply Forall_impl; [|exact F2]; intros c ->; eauto).
    destruct o2 as [rt|].
    - destruct R2 as [I2 S2]. exists h2, (Done (lf, a, rt)), (n2 ++ n1). split; auto. split; [eapply mono_trans; eauto|]. split; [apply Forall_app; auto|].
      rewrite <- app_assoc. split; auto. split; [eapply asims_mono; eauto|]. split; auto. pose proof (asim_mono _ _ _ _ _ M2 A1) as [X (v & lh & rh & Y)]. split; auto. eauto 6.
    - destruct R2 as (I2 & B & Hne). exists h2, Unwound, (n2 ++ n1). split; auto. split; [eapply mono_trans; eauto|]. split; [apply Forall_app; auto|].
      rewrite <- app_assoc. split; auto. split; auto. destruct n2; [congruence|discriminate].
  Qed.

  (** The levels below the first item. *)
  Definition lvf (gs : list gact) : nat :=
    match gs with Descend (_, _, l, rr) :: _ => S (Nat.max (levels l) (levels rr)) | _ => 0 end.
  Lemma lvf_odesc p u gs : lvf (odesc (mk_mnode p u) ++ gs) <= Nat.max (levels u) (lvf gs).
  Proof. destruct u; cbn [odesc mk_mnode app lvf levels]; lia. Qed.

  (** [c] is a child of a node on the path [q]. *)
  Definition below_path (q c : path) : Prop := exists p b, c = p ++ [b] /\ prefix p q.

  Lemma gden_nil w gs h r : asims h r w gs -> gden gs = [] -> gs = [] /\ w = [].
  Proof.
    intros F E. destruct F as [|x g w gs A F]; auto. exfalso. destruct g as [[[[p k] l] rr]|[p k]]; cbn [AvlIterProofs.den flat_map AvlIterProofs.aden mflat] in E;
      [|discriminate]. apply app_eq_nil in E as [E _]. apply app_eq_nil in E as [_ E]. discriminate.
  Qed.
  Lemma first_prefix (p : path) (k : K) (l rr : tree) (gs : list gact) : exists q k' (rest : list mref), gden ((Descend ((p, k, l, rr) : mnode) : gact) :: gs) = (q, k') :: rest /\ prefix p q.
  Proof.
    assert (G : forall (l : tree) p' x, exists q k' rest, refs (p ++ p') l ++ ((p, k) :: x) = (q, k') :: rest /\ prefix p q).
    { clear. induction l as [|lk lv llh lrh l1 IH1 l2 IH2]; intros p' x; cbn [refs app].
      - exists p, k, x. split; auto. exists []. now rewrite app_nil_r.
      - destruct (refs ((p ++ p') ++ [false]) l1) as [|[q k'] rest] eqn:E.
        + cbn [app]. exists (p ++ p'). do 2 eexists. split; [reflexivity|]. now exists p'.
        + exists q. do 2 eexists. split; [cbn [app]; reflexivity|]. assert (Hi : In (q, k') (refs ((p ++ p') ++ [false]) l1)) by (rewrite E; now left).
          apply refs_prefix in Hi as [s Hs]. cbn [fst] in Hs. subst q. exists (p' ++ [false] ++ s). now rewrite <- !app_assoc. }
    cbn [AvlIterProofs.den flat_map AvlIterProofs.aden mflat]. rewrite <- app_assoc. cbn [app]. apply G.
  Qed.
  Lemma last_prefix (p : path) (k : K) (l rr : tree) (gs : list gact) : exists q k' (rest : list mref), gden (gs ++ [Descend ((p, k, l, rr) : mnode) : gact]) = rest ++ [(q, k')] /\ prefix p q.
  Proof.
    assert (G : forall (rr : tree) p' x, exists q k' rest, x ++ (p, k) :: refs (p ++ p') rr = rest ++ [(q, k')] /\ prefix p q).
    { clear. intros rr. destruct rr as [|k' v lh rh l2 r2]; intros p' x.
      - exists p, k, x. split; auto. exists []. now rewrite app_nil_r.
      - set (T := Node k' v lh rh l2 r2). destruct (refs (p ++ p') T) as [|y ys] eqn:E.
        { destruct (refs (p ++ p' ++ [false]) l2) eqn:E2; cbn [T refs] in E; destruct (refs ((p ++ p') ++ [false]) l2); discriminate. }
        destruct (@exists_last _ (y :: ys)) as (rest & [q kk] & El); [discriminate|]. rewrite El. exists q, kk, (x ++ (p, k) :: rest).
        split; [rewrite <- app_assoc; reflexivity|]. assert (Hi : In (q, kk) (refs (p ++ p') T)) by (rewrite E, El; apply in_or_app; right; now left).
        apply refs_prefix in Hi as [s Hs]. cbn [fst] in Hs. subst q. exists (p' ++ s). now rewrite <- app_assoc. }
    unfold AvlIterProofs.den. rewrite flat_map_app. cbn [flat_map AvlIterProofs.aden mflat]. rewrite app_nil_r.
    destruct (G rr [true] (flat_map (AvlIterProofs.aden mflat) gs ++ refs (p ++ [false]) l)) as (q & k' & rest & E & P). exists q, k', rest. split; auto.
    etransitivity; [|exact E]. symmetry. rewrite app_assoc. reflexivity.
  Qed.

  (** ** [next] *)
  Lemma next_m fuel : forall h r t ps w gs len, minv h r t ps -> asims h r w gs -> lvf gs < fuel -> length (gden gs) <= len ->
    exists h' it' o nps, am_next_fuel bomb fuel h w len = Ok (h', it', o) /\ mono h h' r
      /\ match gden gs with
         | [] => o = Done None /\ it' = InnerIter [] len /\ h' = h /\ nps = []
         | (q, k) :: rest => Forall (below_path q) nps
           /\ match o with
              | Done (Some x) => minv h' r t (nps ++ ps) /\ held h' r (np q) x
                  /\ exists gs', asims h' r (it_work it') gs' /\ gden gs' = rest /\ it_len it' = len - 1
              | Done None => False
              | Unwound => mst h' r t (nps ++ ps) /\ faulty /\ nps <> []
              end
         end.
  Proof.
    induction fuel as [|fuel IH]; intros h r t ps w gs len I F Lv Ln; [lia|]. cbn [am_next_fuel]. destruct F as [|x g w gs A F].
    { exists h, (InnerIter [] len), (Done None), []. split; auto. split; [apply mono_refl|]. cbn. auto. }
    destruct x as [a|a], g as [[[[p k] l] rr]|[p k]]; try contradiction.
    - destruct (destr_step _ _ _ _ _ _ _ _ _ I A) as (h1 & o & n1 & E1 & M1 & F1 & R1). rewrite E1. cbn [bind].
      destruct (first_prefix p k l rr gs) as (q & k' & rest & Eqq & Pq).
      assert (F1' : Forall (below_path q) n1) by (eapply Forall_impl; [|exact F1]; intros c [b ->]; now exists p, b).
      rewrite Eqq. rewrite Eqq in Ln. destruct o as [[[lf i] rt]|].
      + destruct R1 as (I1 & S1 & S2 & S3). set (gs1 := odesc (mk_mnode (p ++ [false]) l) ++ Return (p, k) :: odesc (mk_mnode (p ++ [true]) rr) ++ gs).
        assert (Eg : gden gs1 = (q, k') :: rest).
        { rewrite <- Eqq. unfold gs1. rewrite den_app, den_odesc, mflat_mk. cbn [AvlIterProofs.den flat_map AvlIterProofs.aden].
          fold (gden (odesc (mk_mnode (p ++ [true]) rr) ++ gs)). rewrite den_app, den_odesc, mflat_mk. cbn [mflat]. rewrite <- app_assoc. reflexivity. }
        destruct (IH h1 r t (n1 ++ ps) (odesc lf ++ Return i :: odesc rt ++ w) gs1 len I1) as (h' & it' & o & n2 & E2 & M2 & R2).
        * unfold gs1. apply Forall2_app; auto. constructor; auto. apply Forall2_app; auto. exact (asims_mono _ _ _ _ _ M1 F).
        * cbn [lvf] in Lv. unfold gs1. eapply Nat.le_lt_trans; [apply lvf_odesc|]. cbn [lvf]. lia.
        * now rewrite Eg.
        * rewrite E2. exists h', it', o, (n2 ++ n1). split; auto. split; [eapply mono_trans; eauto|]. rewrite Eg in R2. destruct R2 as [R2 R3]. split; [apply Forall_app; auto|].
          rewrite <- app_assoc. destruct o as [[x|]|]; auto. destruct R3 as (R3 & R4 & R5). split; auto. split; auto. destruct n2; [congruence|discriminate].
      + exists h1, (InnerIter w len), Unwound, n1. auto.
    - cbn [AvlIterProofs.den flat_map AvlIterProofs.aden app] in *. cbn [length] in Ln. rewrite usize_sub_ok by lia. cbn [bind].
      exists h, (InnerIter w (len - 1)), (Done (Some a)), []. split; auto. split; [apply mono_refl|]. split; [constructor|]. split; auto. split; [apply A|]. exists gs. auto.
  Qed.

  Lemma next_back_m fuel : forall h r t ps w gs len, minv h r t ps -> asims h r w gs -> lvf (rev gs) < fuel -> length (gden gs) <= len ->
    exists h' it' o nps, am_next_back_fuel bomb fuel h w len = Ok (h', it', o) /\ mono h h' r
      /\ match rev (gden gs) with
         | [] => o = Done None /\ it' = InnerIter [] len /\ h' = h /\ nps = []
         | (q, k) :: rest => Forall (below_path q) nps
           /\ match o with
              | Done (Some x) => minv h' r t (nps ++ ps) /\ held h' r (np q) x
                  /\ exists gs', asims h' r (it_work it') gs' /\ gden gs' = rev rest /\ it_len it' = len - 1
              | Done None => False
              | Unwound => mst h' r t (nps ++ ps) /\ faulty /\ nps <> []
              end
         end.
  Proof.
    induction fuel as [|fuel IH]; intros h r t ps w gs len I F Lv Ln; [lia|]. cbn [am_next_back_fuel].
    destruct (BTreeHeapMutProofs.f2_snoc _ _ _ F) as [[-> ->]|(x & w1 & g & gs1 & -> & -> & A & F')].
    { exists h, (InnerIter [] len), (Done None), []. split; auto. split; [apply mono_refl|]. cbn. auto. }
    rewrite !rev_app_distr in *. cbn [rev app] in *. rewrite rev_involutive.
    destruct x as [a|a], g as [[[[p k] l] rr]|[p k]]; try contradiction.
    - destruct (destr_step _ _ _ _ _ _ _ _ _ I A) as (h1 & o & n1 & E1 & M1 & F1 & R1). rewrite E1. cbn [bind].
      destruct (last_prefix p k l rr gs1) as (q & k' & rest & Eqq & Pq).
      assert (F1' : Forall (below_path q) n1) by (eapply Forall_impl; [|exact F1]; intros c [b ->]; now exists p, b).
      rewrite Eqq. rewrite Eqq in Ln. rewrite rev_app_distr. cbn [rev app]. destruct o as [[[lf i] rt]|].
      + destruct R1 as (I1 & S1 & S2 & S3). set (gs2 := gs1 ++ odesc (mk_mnode (p ++ [false]) l) ++ Return (p, k) :: odesc (mk_mnode (p ++ [true]) rr)).
        assert (Eg : gden gs2 = rest ++ [(q, k')]).
        { rewrite <- Eqq. unfold gs2. rewrite !den_app. f_equal. rewrite den_odesc, mflat_mk. cbn [AvlIterProofs.den flat_map AvlIterProofs.aden].
          cbn [mflat]. rewrite app_nil_r. destruct rr; cbn [mk_mnode odesc flat_map AvlIterProofs.aden mflat refs]; rewrite ?app_nil_r; reflexivity. }
        destruct (IH h1 r t (n1 ++ ps) (w1 ++ odesc lf ++ Return i :: odesc rt) gs2 len I1) as (h' & it' & o & n2 & E2 & M2 & R2).
        * unfold gs2. apply Forall2_app; [exact (asims_mono _ _ _ _ _ M1 F')|]. apply Forall2_app; auto.
        * cbn [lvf] in Lv. unfold gs2. rewrite !rev_app_distr. cbn [rev].
          rewrite <- !app_assoc. cbn [app].
          clear - Lv. destruct rr; cbn [mk_mnode odesc rev app lvf levels] in *; lia.
        * now rewrite Eg.
        * rewrite E2. exists h', it', o, (n2 ++ n1). split; auto. split; [eapply mono_trans; eauto|]. rewrite Eg, rev_app_distr in R2. cbn [rev app] in R2.
          destruct R2 as [R2 R3]. split; [apply Forall_app; auto|].
          rewrite <- app_assoc. destruct o as [[x|]|]; auto. destruct R3 as (R3 & R4 & R5). split; auto. split; auto. destruct n2; [congruence|discriminate].
      + exists h1, (InnerIter w1 len), Unwound, n1. auto.
    - rewrite den_app in *. cbn [AvlIterProofs.den flat_map AvlIterProofs.aden app] in *. rewrite app_length in Ln. cbn [length] in Ln. rewrite usize_sub_ok by lia. cbn [bind].
      rewrite rev_app_distr. cbn [rev app].
      exists h, (InnerIter w1 (len - 1)), (Done (Some a)), []. split; auto. split; [apply mono_refl|]. split; [constructor|]. split; auto. split; [apply A|]. exists gs1.
      rewrite rev_involutive. auto.
  Qed.

  (** ** The loops of [range_mut] *)
  Section Range.
    Variables lb ub : bound Q.
    Notation ikey := (fun r : mref => bor (snd r)).
    Notation expand := (expand (@mut_destr K V) ikey cmp lb ub).

    Lemma both_contains q : prune_lf cmp lb q = false -> prune_rt cmp ub q = false -> contains cmp lb ub q = true.
    Proof.
      unfold prune_lf, prune_rt, contains. intros H1 H2. apply andb_true_iff. split.
      - destruct lb as [|k|k]; auto; destruct (cmp k q); auto; discriminate.
      - destruct ub as [|k|k]; auto; rewrite (cmp_opp _ laws k q) in *; destruct (cmp k q); cbn in *; auto; discriminate.
    Qed.

    Lemma prune_step h r t ps a p k l rr b : minv h r t ps -> asim h r (Descend a) (Descend (p, k, l, rr)) ->
      exists h' o nps, am_side cmp bomb lb ub h a b (bor k) = Ok (h', o) /\ mono h h' r
        /\ length nps <= Nat.min 1 (levels (if b then rr else l))
        /\ match o with
           | Unwound => mst h' r t (nps ++ ps) /\ faulty /\ nps <> []
           | Done c => minv h' r t (nps ++ ps)
               /\ asims h' r (odesc c) (if (if b then prune_rt cmp ub (bor k) else prune_lf cmp lb (bor k)) then [] else odesc (mk_mnode (p ++ [b]) (if b then rr else l)))
           end.
    Proof.
      intros I A. unfold am_side. destruct (if b then prune_rt cmp ub (bor k) else prune_lf cmp lb (bor k)).
      - exists h, (Done None), []. split; auto. split; [apply mono_refl|]. split; [cbn; lia|]. split; auto. constructor.
      - destruct (side_step _ _ _ _ _ _ _ _ _ b I A) as (h' & o & nps & E & M & _ & L & R). exists h', o, nps. auto.
    Qed.

    Definition isD (gs : list gact) : Prop := match gs with Descend _ :: _ => True | _ => False end.
    Fixpoint alt (gs : list gact) : Prop :=
      match gs with [] => True | g :: gs' => ~ (isD [g] /\ isD gs') /\ alt gs' end.
    Lemma alt_app u v : alt (u ++ v) <-> alt u /\ alt v /\ ~ (isD (rev u) /\ isD v).
    Proof.
      induction u as [|g u IH]; cbn [app alt rev].
      - cbn [isD]. tauto.
      - rewrite IH. destruct u as [|g' u].
        + cbn [app alt rev isD]. tauto.
        + assert (E : isD (rev (g' :: u) ++ [g]) <-> isD (rev (g' :: u))).
          { destruct (rev (g' :: u)) eqn:E; [|reflexivity]. apply (f_equal (@length _)) in E. rewrite rev_length in E. discriminate. }
          rewrite E. assert (E' : isD ((g' :: u) ++ v) <-> isD (g' :: u)) by reflexivity. rewrite E'. tauto.
    Qed.
    Lemma lvf_app u v : ~ isD v -> lvf (u ++ v) <= lvf u.
    Proof. intros H. destruct u as [|g u]; [|reflexivity]. cbn [app]. destruct v as [|[|] v]; cbn [lvf isD] in *; tauto || lia. Qed.

    Lemma expand_ok2 p k l rr : alt (expand (p, k, l, rr)) /\ lvf (expand (p, k, l, rr)) <= Nat.max (levels l) (levels rr)
      /\ lvf (rev (expand (p, k, l, rr))) <= Nat.max (levels l) (levels rr).
    Proof.
      unfold AvlIterModel.expand. cbn [mut_destr snd]. pose proof (both_contains (bor k)) as B.
      destruct (prune_lf cmp lb (bor k)), (prune_rt cmp ub (bor k)); try (rewrite B by reflexivity);
        try destruct (contains cmp lb ub (bor k)); destruct l, rr; cbn [mk_mnode odesc app alt isD lvf rev levels]; repeat split; try tauto; lia.
    Qed.

    Lemma front_alt p k l rr gs : alt (Descend (p, k, l, rr) :: gs) ->
      alt (expand (p, k, l, rr) ++ gs) /\ lvf (expand (p, k, l, rr) ++ gs) <= Nat.max (levels l) (levels rr).
    Proof.
      intros [N A]. destruct (expand_ok2 p k l rr) as (A1 & L1 & _). assert (Hn : ~ isD gs) by (cbn [isD] in N; tauto). split.
      - apply alt_app. split; auto. split; auto. tauto.
      - eapply Nat.le_trans; [apply lvf_app; exact Hn|exact L1].
    Qed.
    Lemma back_alt p k l rr gs : alt (gs ++ [Descend (p, k, l, rr)]) ->
      alt (gs ++ expand (p, k, l, rr)) /\ lvf (rev (gs ++ expand (p, k, l, rr))) <= Nat.max (levels l) (levels rr).
    Proof.
      intros A. apply alt_app in A as (A1 & _ & N). destruct (expand_ok2 p k l rr) as (A2 & _ & L2). assert (Hn : ~ isD (rev gs)) by (cbn [isD] in N; tauto). split.
      - apply alt_app. split; auto. split; auto. tauto.
      - rewrite rev_app_distr. eapply Nat.le_trans; [apply lvf_app; exact Hn|exact L2].
    Qed.
    Lemma prune_alt f : forall gs gs', prune_front (@mut_destr K V) ikey cmp lb ub f gs = Ok gs' -> alt gs -> alt gs'.
    Proof.
      induction f as [|f IH]; intros gs gs' E A; [discriminate|]. cbn [prune_front] in E. destruct gs as [|[[[[p k] l] rr]|i] gs]; [injection E as <-; auto| |injection E as <-; auto].
      apply IH in E; auto. now apply front_alt.
    Qed.

    (** Both children of a node that is split, in either order. *)
    Lemma split_step h r t ps a p k l rr b : minv h r t ps -> asim h r (Descend a) (Descend (p, k, l, rr)) ->
      exists h1 o1, am_side cmp bomb lb ub h a b (bor k) = Ok (h1, o1)
        /\ match o1 with
           | Unwound => exists nps, mono h h1 r /\ length nps <= 2 * Nat.min 1 (Nat.max (levels l) (levels rr)) /\ mst h1 r t (nps ++ ps) /\ faulty /\ nps <> []
           | Done c1 => exists h2 o2 nps, am_side cmp bomb lb ub h1 a (negb b) (bor k) = Ok (h2, o2) /\ mono h h2 r
               /\ length nps <= 2 * Nat.min 1 (Nat.max (levels l) (levels rr))
               /\ match o2 with
                  | Unwound => mst h2 r t (nps ++ ps) /\ faulty /\ nps <> []
                  | Done c2 => minv h2 r t (nps ++ ps)
                      /\ asims h2 r (odesc (if b then c2 else c1) ++ (if contains cmp lb ub (bor k) then [Return a] else []) ++ odesc (if b then c1 else c2))
                           (expand (p, k, l, rr))
                  end
           end.
    Proof.
      intros I A. destruct (prune_step _ _ _ _ _ _ _ _ _ b I A) as (h1 & o1 & n1 & E1 & M1 & L1 & R1). exists h1, o1. split; auto.
      destruct o1 as [c1|]; [|exists n1; repeat (split; [auto; destruct b; lia|]); auto].
      destruct R1 as [I1 S1]. pose proof (asim_mono _ _ _ _ _ M1 A) as A1.
      destruct (prune_step _ _ _ _ _ _ _ _ _ (negb b) I1 A1) as (h2 & o2 & n2 & E2 & M2 & L2 & R2). exists h2, o2, (n2 ++ n1). split; auto. split; [eapply mono_trans; eauto|].
      split; [rewrite app_length; destruct b; cbn [negb] in *; lia|]. rewrite <- app_assoc. destruct o2 as [c2|].
      - destruct R2 as [I2 S2]. split; auto. apply (asims_mono _ _ _ _ _ M2) in S1. apply (asim_mono _ _ _ _ _ M2) in A1 as [Ha (v & lh & rh & Hp)].
        unfold AvlIterModel.expand. cbn [mut_destr snd].
        assert (Sr : asims h2 r (if contains cmp lb ub (bor k) then [Return a] else []) (if contains cmp lb ub (bor k) then [Return (p, k)] else [])).
        { destruct (contains cmp lb ub (bor k)); constructor; [|constructor]. cbn [asim]. split; auto. eauto 6. }
        destruct b; cbn [negb] in *; (apply Forall2_app; [assumption|apply Forall2_app; assumption]).
      - destruct R2 as (R2 & B & Hne). split; auto. split; auto. destruct n2; [congruence|discriminate].
    Qed.

    Lemma prune_front_m f : forall gs gs', prune_front (@mut_destr K V) ikey cmp lb ub f gs = Ok gs' -> alt gs ->
      forall fuel h r t ps w, lvf gs < fuel -> minv h r t ps -> asims h r w gs ->
      exists h' o nps, am_prune_front bor cmp bomb lb ub fuel h w = Ok (h', o) /\ mono h h' r /\ length nps <= 2 * pred (lvf gs)
        /\ match o with
           | Unwound => mst h' r t (nps ++ ps) /\ faulty /\ nps <> []
           | Done w' => minv h' r t (nps ++ ps) /\ asims h' r w' gs'
           end.
    Proof.
      induction f as [|f IH]; intros gs gs' E Al [|fuel] h r t ps w Lv I F; try discriminate; [lia|].
      cbn [prune_front am_prune_front] in *.
      assert (Hdone : gs' = gs -> exists h' o nps, Ok (h, Done w) = Ok (h', o) /\ mono h h' r /\ length nps <= 2 * pred (lvf gs)
        /\ match o with
           | Unwound => mst h' r t (nps ++ ps) /\ faulty /\ nps <> []
           | Done w' => minv h' r t (nps ++ ps) /\ asims h' r w' gs'
           end).
      { intros ->. exists h, (Done w), []. split; auto. split; [apply mono_refl|]. split; [cbn; lia|]. auto. }
      destruct F as [|x g w gs A F]; [apply Hdone; congruence|].
      destruct x as [a|a], g as [n|i]; try (destruct n as [[[p k] l] rr]; contradiction); try (destruct i; contradiction); [|apply Hdone; congruence].
      clear Hdone. destruct n as [[[p k] l] rr]. pose proof A as [Ha (v & lh & rh & Hp)].
      destruct (held_at h0 t0 O start _ _ _ _ _ _ _ _ _ _ _ _ I Ha Hp) as (v1 & l1 & rr1 & pl & pr & _ & G & _).
      unfold excl. rewrite G. cbn [bind nd_data pk].
      destruct (split_step _ _ _ _ _ _ _ _ _ true I A) as (h1 & o1 & E1 & R1). rewrite E1. cbn [bind]. cbn [lvf] in *.
      destruct o1 as [rt|].
      2:{ destruct R1 as (nps & M & L & R1). exists h1, Unwound, nps. split; auto. split; auto. split; [lia|auto]. }
      destruct R1 as (h2 & o2 & n1 & E2 & M2 & L2 & R2). cbn [negb] in E2. rewrite E2. cbn [bind]. destruct o2 as [lf|].
      2:{ exists h2, Unwound, n1. split; auto. split; auto. split; [lia|auto]. }
      destruct R2 as [I2 S2]. destruct (front_alt _ _ _ _ _ Al) as [Al2 Lv2].
      destruct (IH _ _ E Al2 fuel h2 r t (n1 ++ ps) (odesc lf ++ (if contains cmp lb ub (bor k) then [Return a] else []) ++ odesc rt ++ w)) as (h' & o & n2 & E3 & M3 & L3 & R3); auto; [eapply Nat.le_lt_trans; [exact Lv2|lia]| |].
      { rewrite !app_assoc. rewrite <- (app_assoc (odesc lf)). apply Forall2_app; auto. exact (asims_mono _ _ _ _ _ M2 F). }
      rewrite E3. exists h', o, (n2 ++ n1). split; auto. split; [eapply mono_trans; eauto|]. split.
      { rewrite app_length. pose proof (Nat.le_trans _ _ _ L3 (Nat.mul_le_mono_l _ _ 2 (Nat.pred_le_mono _ _ Lv2))). lia. }
      rewrite <- app_assoc. destruct o; auto. destruct R3 as (R3 & B & Hne). split; auto. split; auto. destruct n2; [congruence|discriminate].
    Qed.

    Lemma prune_back_m f : forall gs gs', prune_back (@mut_destr K V) ikey cmp lb ub f gs = Ok gs' -> alt gs ->
      forall fuel h r t ps w, lvf (rev gs) < fuel -> minv h r t ps -> asims h r w gs ->
      exists h' o nps, am_prune_back bor cmp bomb lb ub fuel h w = Ok (h', o) /\ mono h h' r /\ length nps <= 2 * pred (lvf (rev gs))
        /\ match o with
           | Unwound => mst h' r t (nps ++ ps) /\ faulty /\ nps <> []
           | Done w' => minv h' r t (nps ++ ps) /\ asims h' r w' gs'
           end.
    Proof.
      induction f as [|f IH]; intros gs gs' E Al [|fuel] h r t ps w Lv I F; try discriminate; [lia|].
      cbn [prune_back am_prune_back] in *.
      assert (Hdone : gs' = gs -> exists h' o nps, Ok (h, Done w) = Ok (h', o) /\ mono h h' r /\ length nps <= 2 * pred (lvf (rev gs))
        /\ match o with
           | Unwound => mst h' r t (nps ++ ps) /\ faulty /\ nps <> []
           | Done w' => minv h' r t (nps ++ ps) /\ asims h' r w' gs'
           end).
      { intros ->. exists h, (Done w), []. split; auto. split; [apply mono_refl|]. split; [cbn; lia|]. auto. }
      destruct (BTreeHeapMutProofs.f2_snoc _ _ _ F) as [[-> ->]|(x & w1 & g & gs1 & -> & -> & A & F')]; [apply Hdone; cbn in E; congruence|].
      rewrite !rev_app_distr in *. cbn [rev app] in *. rewrite rev_involutive in *.
      destruct x as [a|a], g as [n|i]; try (destruct n as [[[p k] l] rr]; contradiction); try (destruct i; contradiction); [|apply Hdone; congruence].
      clear Hdone. destruct n as [[[p k] l] rr]. pose proof A as [Ha (v & lh & rh & Hp)].
      destruct (held_at h0 t0 O start _ _ _ _ _ _ _ _ _ _ _ _ I Ha Hp) as (v1 & l1 & rr1 & pl & pr & _ & G & _).
      unfold excl. rewrite G. cbn [bind nd_data pk].
      destruct (split_step _ _ _ _ _ _ _ _ _ false I A) as (h1 & o1 & E1 & R1). rewrite E1. cbn [bind]. cbn [lvf] in *.
      destruct o1 as [lf|].
      2:{ destruct R1 as (nps & M & L & R1). exists h1, Unwound, nps. split; auto. split; auto. split; [lia|auto]. }
      destruct R1 as (h2 & o2 & n1 & E2 & M2 & L2 & R2). cbn [negb] in E2. rewrite E2. cbn [bind]. destruct o2 as [rt|].
      2:{ exists h2, Unwound, n1. split; auto. split; auto. split; [lia|auto]. }
      destruct R2 as [I2 S2]. destruct (back_alt _ _ _ _ _ Al) as [Al2 Lv2].
      destruct (IH _ _ E Al2 fuel h2 r t (n1 ++ ps) (w1 ++ odesc lf ++ (if contains cmp lb ub (bor k) then [Return a] else []) ++ odesc rt)) as (h' & o & n2 & E3 & M3 & L3 & R3); auto; [eapply Nat.le_lt_trans; [exact Lv2|lia]| |].
      { apply Forall2_app; auto. exact (asims_mono _ _ _ _ _ M2 F'). }
      rewrite E3. exists h', o, (n2 ++ n1). split; auto. split; [eapply mono_trans; eauto|]. split.
      { rewrite app_length. pose proof (Nat.le_trans _ _ _ L3 (Nat.mul_le_mono_l _ _ 2 (Nat.pred_le_mono _ _ Lv2))). lia. }
      rewrite <- app_assoc. destruct o; auto. destruct R3 as (R3 & B & Hne). split; auto. split; auto. destruct n2; [congruence|discriminate].
    Qed.
  End Range.

  (** The items stay within the tree. *)
  Lemma asims_lv h r w gs : asims h r w gs -> lvf gs <= levels t0.
  Proof.
    intros F. destruct F as [|x g w gs A F]; [cbn; lia|]. destruct x as [a|a], g as [[[[p k] l] rr]|[p k]]; try contradiction; cbn [lvf]; [|lia].
    destruct A as [_ (v & lh & rh & Hp)]. pose proof (levels_at p t0) as L. rewrite Hp in L. exact L.
  Qed.
  Lemma asims_lvb h r w gs : asims h r w gs -> lvf (rev gs) <= levels t0.
  Proof.
    intros F. apply (asims_lv h r (rev w)). unfold asims in *. clear - F. induction F as [|x y l l' A F IH]; [constructor|]. cbn [rev]. apply Forall2_app; auto.
  Qed.
End Calls.
