(** Proofs about [range_mut] on shared nodes with comparisons that may answer anything and may panic: the worklist. *)
From Coq Require Import List PeanoNat Bool Lia.
From Verif Require Import Base Spec MapSpec Vec Heap HeapProofs HeapMut HeapMutProofs BTreeModel BTreeProofs BTreeProofs2
  BTreeIterModel BTreeMutProofs BTreeHeapModel BTreeHeapSpec BTreeHeapProofs MutSpec BTreeHeapMutModel
  BTreeHeapMutProofs BTreeHeapMutProofs2 Ask AskSpec BTreeRangeAskModel BTreeRangeAskProofs BTreeHeapRangeAskModel.
Import ListNotations.
Local Open Scope nat_scope.

Section Edges.
  Context {K V K' V' Q : Type} (bor : K -> Q) (bor' : K' -> Q) (ask : nat -> Q -> Q -> option comparison).
  Notation keys := (map (fun e : K * V => bor (fst e))).
  Notation keys' := (map (fun e : K' * V' => bor' (fst e))).
  Lemma left_keys_t lb : forall (es : list (K * V)) (es' : list (K' * V')) i n, keys es = keys' es' ->
    match left_edge_t bor ask lb i es n, left_edge_t bor' ask lb i es' n with
    | Returned _ (x, (j, rest)) n1, Returned _ (x', (j', rest')) n1' => x = x' /\ j = j' /\ n1 = n1' /\ keys rest = keys' rest'
    | Ask.Unwound _ n1, Ask.Unwound _ n1' => n1 = n1'
    | Fault, Fault => True
    | _, _ => False
    end.
  Proof.
    induction es as [|e es IH]; intros [|e' es'] i n E; try discriminate; [cbn; auto|]. cbn [left_edge_t]. pose proof E as E0. cbn [map] in E. injection E as E1 E2.
    rewrite E1. destruct (cmp_bd_t ask lb (bor' (fst e')) n) as [u o n1|u n1|]; cbn [after]; auto. destruct o; auto. now apply IH.
  Qed.
  Lemma right_keys_t ub len : forall (es : list (K * V)) (es' : list (K' * V')) i n, keys es = keys' es' ->
    right_edge_t bor ask ub len i es n = right_edge_t bor' ask ub len i es' n.
  Proof.
    induction es as [|e es IH]; intros [|e' es'] i n E; try discriminate; auto. cbn [right_edge_t]. cbn [map] in E. injection E as E1 E2.
    rewrite E1. destruct (cmp_bd_t ask ub (bor' (fst e')) n) as [u o n1|u n1|]; cbn [after]; auto. destruct o; auto.
  Qed.
  Lemma edges_keys_t lb ub (es : list (K * V)) (es' : list (K' * V')) n : keys es = keys' es' ->
    find_range_edges_t bor ask es lb ub n = find_range_edges_t bor' ask es' lb ub n.
  Proof.
    intros E. unfold find_range_edges_t. pose proof (left_keys_t lb es es' 0 n E) as H.
    assert (L : length es = length es') by (apply (f_equal (@length _)) in E; now rewrite !map_length in E).
    destruct (left_edge_t bor ask lb 0 es n) as [[] [x [j rest]] n1|[] n1|], (left_edge_t bor' ask lb 0 es' n) as [[] [x' [j' rest']] n1'|[] n1'|]; cbn [after]; try contradiction; [|now subst|auto].
    destruct H as (<- & <- & <- & Hk). rewrite L. now rewrite (right_keys_t ub (length es') rest rest' j n1 Hk).
  Qed.
End Edges.

Section Node.
  Context {K V Q : Type} (bor : K -> Q) (ask : nat -> Q -> Q -> option comparison).
  Lemma wt_bd1 (b : bound Q) : wt b = bd1 b.
  Proof. now destruct b. Qed.
  Lemma bd1_side s (b : bound Q) : bd1 (side s b) = bd1 b.
  Proof. now destruct b. Qed.
  (** The questions asked for one node, and where it is pruned. *)
  Lemma edges_asked (es : list (K * V)) lb ub n : es <> [] ->
    match find_range_edges_t bor ask es lb ub n with
    | Returned _ ((le, lk, lp), (ue, uk, rp)) n1 => n <= n1 <= n + (bd1 lb + bd1 ub) * length es /\ (lp = true -> bd1 lb = 1)
        /\ (rp = true -> bd1 ub = 1 \/ lp = true /\ lk = length es /\ uk = length es + 1)
    | Ask.Unwound _ n1 => n < n1 <= n + (bd1 lb + bd1 ub) * length es /\ panicked ask n1
    | Fault => False
    end.
  Proof.
    intros He. pose proof (edges_run bor ask (Lt, Lt) es lb ub n) as R. rewrite !wt_bd1 in R. unfold runs in R.
    destruct (find_range_edges_t bor ask es lb ub n) as [[] [[[le lk] lp] [[ue uk] rp]] n1|[] n1|]; [|exact R|].
    - destruct R as (L & es' & Ees & _ & E). injection E as E. split; [exact L|]. assert (Le : length es' = length es) by (now rewrite <- Ees, map_length).
      split.
      + intros Hl. rewrite <- (bd1_side false lb). eapply (prune_left bor' cmp' _ _ es'); [|symmetry; exact E|exact Hl]. intros ->. now destruct es.
      + intros Hr. rewrite <- (bd1_side true ub), <- Le. eapply (prune_right bor' cmp' _ _ es'); [symmetry; exact E|exact Hr].
    - destruct R as (n' & _ & es' & _ & _ & [=]).
  Qed.
End Node.

Section Work.
  Context {K V Q : Type} (bor : K -> Q) (ask : nat -> Q -> Q -> option comparison).
  Variable bomb : nat -> bool.
  Notation bt := (bt K V).
  Notation pay := (list (K * V)).
  Notation heap := (heap pay).
  Notation bref := (@bref K).
  Notation gerg := (erg bref V).
  Notation ns := (@ns K V).
  Notation outcome := (trial (heap * option addr) (halt (list mwork))).
  Variables (h0 : heap) (t0 : bt) (O : list addr) (start : list nat -> Prop).
  Notation mst := (mst h0 t0 O start).
  Notation minv := (minv h0 t0 O start).
  Notation wsims := (wsims t0).
  Notation mbor := (fun r : bref => bor (snd r)).
  Notation mt := (make_worklist_t mbor ask).
  Variable N : nat.
  Hypothesis HN : 1 <= N.
  Notation shape := (shape N).

  (** A call on heap [h] after [n] questions, next to the call [T] of the model without nodes. *)
  Definition kid_ok (A : option addr -> Prop) (h : heap) (r : addr) (t : bt) (ps : list (list nat)) (n most : nat) (T : trial unit (list gerg)) (res : outcome) : Prop :=
    match res with
    | Fault => False
    | Ask.Unwound (h', x) n' => A x /\ n < n' <= n + most /\ panicked ask n' /\ mono h h' r /\ exists nps, minv h' r t (nps ++ ps)
    | Returned (h', x) o n' => A x /\ n <= n' <= n + most /\ mono h h' r /\ exists nps,
        match o with
        | Made ws => minv h' r t (nps ++ ps) /\ exists gs, T = Returned tt gs n' /\ wsims h' r ws gs
        | Torn => mst h' r t (nps ++ ps) /\ exists k, bomb k = true
        | Broke => minv h' r t (nps ++ ps) /\ T = Fault
        end
    end.
  Definition is (a : addr) (x : option addr) : Prop := x = Some a.
  Definition any (_ : option addr) : Prop := True.

  Lemma then_ok A a h r t ps n m1 m2 m T1 (f' : list gerg -> nat -> trial unit (list gerg)) res1 f :
    kid_ok A h r t ps n m1 T1 res1 -> m1 + m2 <= m ->
    (forall h2 w1 g1 n2 nps, mono h h2 r -> minv h2 r t (nps ++ ps) -> wsims h2 r w1 g1 -> T1 = Returned tt g1 n2 ->
      kid_ok (is a) h2 r t (nps ++ ps) n2 m2 (f' g1 n2) (f h2 w1 n2)) ->
    kid_ok (is a) h r t ps n m (after T1 back (fun _ g n2 => f' g n2)) (then_w a res1 f).
  Proof.
    intros R Hm F. destruct res1 as [[h1 x] [w1| |] n1|[h1 x] n1|]; cbn [kid_ok then_w] in *; auto.
    - destruct R as (_ & L & M & nps & I & g1 & -> & Ws). cbn [after]. specialize (F h1 w1 g1 n1 nps M I Ws eq_refl).
      destruct (f h1 w1 n1) as [[h2 x2] o n2|[h2 x2] n2|]; cbn [kid_ok] in *; auto.
      + destruct F as (F1 & F2 & F3 & n3 & F4). split; auto. split; [lia|]. split; [eapply mono_trans; eauto|]. exists (n3 ++ nps). rewrite <- app_assoc. exact F4.
      + destruct F as (F1 & F2 & F3 & F4 & n3 & F5). split; auto. split; [lia|]. split; auto. split; [eapply mono_trans; eauto|]. exists (n3 ++ nps). rewrite <- app_assoc. exact F5.
    - destruct R as (_ & L & M & nps & R). split; [reflexivity|]. split; [lia|]. split; auto. exists nps. exact R.
    - destruct R as (_ & L & M & nps & I & ->). split; [reflexivity|]. split; [lia|]. split; auto. exists nps. auto.
    - destruct R as (_ & L & P & M & nps & I). split; [reflexivity|]. split; [lia|]. split; auto. split; auto. exists nps. auto.
  Qed.
  Lemma kid_weaken (A : option addr -> Prop) h r t ps n m m' T res : kid_ok A h r t ps n m T res -> m <= m' -> kid_ok A h r t ps n m' T res.
  Proof.
    intros R L. destruct res as [[h1 x] o n1|[h1 x] n1|]; cbn [kid_ok] in *; auto.
    - destruct R as (R1 & R2 & R3). split; auto. split; [lia|auto].
    - destruct R as (R1 & R2 & R3). split; auto. split; [lia|auto].
  Qed.

  (** A call for a slot before and after [make_mut]. *)
  Definition slot_ok (h h1 : heap) (a : addr) (r : addr) (t : bt) (ps : list (list nat)) (n most : nat) (T : trial unit (list gerg)) (res : outcome) : Prop :=
    (exists n', res = Ask.Unwound (h, None) n' /\ n < n' <= n + most /\ panicked ask n') \/ kid_ok (is a) h1 r t ps n most T res.

  Lemma work_kid_t ht fuel h r t ps p a j es0 ks0 c0 lb ub n most T : S ht <= fuel -> elems_of c0 <> [] -> (bd1 lb + bd1 ub) * length (elems_of c0) <= most ->
    (forall h h1 s c es ps a,
      slot_addr h s = Ok c -> peek h c = Ok es -> map fst es = map fst (elems_of c0) ->
      slot_mut bomb h s = Ok (h1, Some a) -> minv h1 r t ps -> held h1 r (p ++ [j]) a ->
      slot_ok h h1 a r t ps n most T (hm_worklist_t bor ask bomb fuel h s lb ub n)) ->
    minv h r t ps -> held h r p a -> n_at t0 p = Some (BN es0 ks0) -> nth_error ks0 j = Some c0 ->
    kid_ok any h r t ps n most T (hm_worklist_t bor ask bomb fuel h (SKid a j) lb ub n).
  Proof.
    intros Hf Hne Hm IH I Ha Hat Hj. destruct (held_at _ _ _ _ _ _ _ _ _ _ _ _ I Ha Hat) as (es & ks & cs & H1 & G & F & L1 & L2 & L3).
    destruct (nth_error ks j) as [u|] eqn:Eu; [|apply nth_error_None in Eu; assert (j < length ks0) by (apply nth_error_Some; congruence); lia].
    destruct (f2_nth _ _ _ _ _ F Eu) as (c & Ec & Du). destruct u as [ues uks].
    assert (E1 : slot_addr h (SKid a j) = Ok c).
    { cbn [slot_addr]. unfold excl. rewrite G. cbn [bind nd_kids]. rewrite nth_error_map, Ec. reflexivity. }
    destruct (ns_inv _ _ _ _ Du) as (kc & kk & Gc & _).
    assert (E2 : peek h c = Ok ues) by (unfold peek; now rewrite Gc).
    assert (Hat' : n_at t0 (p ++ [j]) = Some c0) by (now rewrite (n_at_snoc p t0 es0 ks0 j Hat)).
    assert (E3 : map fst ues = map fst (elems_of c0)).
    { destruct c0 as [e0 k0]. pose proof I as [(_ & _ & _ & Sk & _) _]. destruct (skel_at t0 t _ _ _ (eq_sym Sk) Hat') as (e1 & k1 & A1 & A2 & _).
      rewrite (n_at_snoc p t es ks j H1), Eu in A1. injection A1 as <- <-. exact A2. }
    destruct (kid_step bomb _ _ _ _ _ _ _ _ _ _ _ _ _ _ I Ha Hat Hj) as (h1 & x & Ek & M & R).
    destruct x as [c'|].
    - destruct R as (n1 & I1 & Hc' & Hn1). destruct (IH h h1 (SKid a j) c ues (n1 ++ ps) c' E1 E2 E3 Ek I1 Hc') as [(n' & -> & L & P)|R].
      + cbn [kid_ok]. split; [exact Logic.I|]. split; auto. split; auto. split; [intros q b; auto|]. exists []. exact I.
      + destruct (hm_worklist_t bor ask bomb fuel h (SKid a j) lb ub n) as [[h2 x2] o n2|[h2 x2] n2|]; cbn [kid_ok] in *; auto.
        * destruct R as (_ & F2 & F3 & n3 & F4). split; [exact Logic.I|]. split; auto. split; [eapply mono_trans; eauto|]. exists (n3 ++ n1). rewrite <- app_assoc. exact F4.
        * destruct R as (_ & F2 & F3 & F4 & n3 & F5). split; [exact Logic.I|]. split; auto. split; auto. split; [eapply mono_trans; eauto|]. exists (n3 ++ n1). rewrite <- app_assoc. exact F5.
    - destruct R as (R1 & R2). destruct fuel as [|fuel]; [lia|]. cbn [hm_worklist_t]. rewrite E1. cbn [bind]. rewrite E2.
      assert (Hue : ues <> []). { intros ->. destruct (elems_of c0); [congruence|discriminate]. }
      assert (Lu : length ues = length (elems_of c0)) by (apply (f_equal (@length _)) in E3; now rewrite !map_length in E3).
      pose proof (edges_asked bor ask ues lb ub n Hue) as R. rewrite Lu in R. destruct (find_range_edges_t bor ask ues lb ub n) as [[] [[[le lk] lp] [[ue uk] rp]] n1|[] n1|]; cbn [after]; [| |contradiction].
      + cbn [slot_mut]. rewrite Ek. cbn [kid_ok]. split; [exact Logic.I|]. split; [lia|]. split; auto. exists [p ++ [j]]. auto.
      + cbn [kid_ok]. split; [exact Logic.I|]. split; [lia|]. split; [apply R|]. split; [intros q b; auto|]. exists []. exact I.
  Qed.

  Notation M := (MAX_OCC N).
  Lemma work_t ht : forall mn c0 fuel h h1 s c es r t ps p a lb ub n,
    1 <= mn -> shape mn ht c0 -> S ht <= fuel ->
    n_at t0 p = Some c0 ->
    slot_addr h s = Ok c -> peek h c = Ok es -> map fst es = map fst (elems_of c0) ->
    slot_mut bomb h s = Ok (h1, Some a) -> minv h1 r t ps -> held h1 r p a ->
    slot_ok h h1 a r t ps n ((bd1 lb + bd1 ub) * (M * (ht + 1))) (mt (with_pos p c0) lb ub n) (hm_worklist_t bor ask bomb fuel h s lb ub n).
  Proof.
    induction ht as [ht IH0] using (well_founded_induction Wf_nat.lt_wf). intros mn [es0 ks0] fuel h h1 s c es r t ps p a lb ub n Hmn Sh Hf Hat Ec Ep Ek Es I Ha.
    destruct fuel as [|fuel]; [lia|]. cbn [hm_worklist_t]. rewrite Ec. cbn [bind]. rewrite Ep. cbn [elems_of] in *.
    rewrite with_pos_eq. cbn [make_worklist_t].
    assert (Ee : find_range_edges_t bor ask es lb ub n = find_range_edges_t mbor ask (mapi_from 0 (pos_of p) es0) lb ub n).
    { apply edges_keys_t. rewrite (mapi_map _ _ (fun e => bor (fst e))) by reflexivity. rewrite <- !(map_map fst bor). now rewrite Ek. }
    assert (Les : length es = length es0) by (apply (f_equal (@length _)) in Ek; now rewrite !map_length in Ek).
    assert (Ls : 1 <= length es <= M). { apply shape_len in Sh. unfold n_len in Sh. cbn [elems_of] in Sh. lia. }
    assert (Hes : es <> []) by (intros ->; cbn in Ls; lia).
    pose proof (edges_asked bor ask es lb ub n Hes) as R. rewrite Ee in *.
    destruct (find_range_edges_t mbor ask (mapi_from 0 (pos_of p) es0) lb ub n) as [[] [[[le lk] lp] [[ue uk] rp]] n1|[] n1|] eqn:Eg; cbn [after]; [| |contradiction].
    2:{ left. exists n1. split; auto. split; [nia|apply R]. }
    right. destruct R as (Ln & PL & PR). rewrite Es.
    destruct (held_at _ _ _ _ _ _ _ _ _ _ _ _ I Ha Hat) as (es1 & ks1 & cs & H1 & G & F & L1 & L2 & L3).
    unfold excl. rewrite G. cbn [nd_data nd_kids]. rewrite !slice_cut. rewrite mapi_length. rewrite L1.
    assert (Here : forall T, T = Fault -> kid_ok (is a) h1 r t ps n ((bd1 lb + bd1 ub) * (M * (ht + 1))) T (Returned (h1, Some a) Broke n1)).
    { intros T HT. cbn [kid_ok]. split; [reflexivity|]. split; [nia|]. split; [intros q b; auto|]. exists []. auto. }
    destruct ((le <=? ue) && (ue <=? length es0)) eqn:Hle; [|now apply Here].
    apply andb_prop in Hle as [Hle1 Hle2]. apply Nat.leb_le in Hle1, Hle2.
    rewrite map_length, L3. unfold slice_or_default. rewrite !slice_cut, !map_length, !mapi_length.
    set (KS := mapi_from 0 (fun i c => with_pos (p ++ [i]) c) ks0) in *.
    assert (LK : length KS = length ks0) by (apply mapi_length).
    assert (NK : forall j c, nth_error KS j = Some c -> exists c0, nth_error ks0 j = Some c0 /\ c = with_pos (p ++ [j]) c0).
    { intros j d Hd. unfold KS in Hd. rewrite mapi_nth in Hd. destruct (nth_error ks0 j); [|discriminate]. injection Hd as <-. eauto. }
    assert (X : exists lk0 uk0, (if (lk <=? uk) && (uk <=? length ks0) then (lk, uk) else (0, 0)) = (lk0, uk0)
      /\ lk0 <= uk0 <= length ks0 /\ (lk0 = lk /\ uk0 = uk \/ lk0 = 0 /\ uk0 = 0)
      /\ (forall A (l : list A), length l = length ks0 ->
           match (if (lk <=? uk) && (uk <=? length ks0) then Ok (cut lk uk l) else Panic) with Ok r => r | Panic => [] end = cut lk0 uk0 l)).
    { destruct ((lk <=? uk) && (uk <=? length ks0)) eqn:Hlk.
      - apply andb_prop in Hlk as [A1 A2]. apply Nat.leb_le in A1, A2. exists lk, uk. repeat split; auto.
      - exists 0, 0. repeat split; auto; try lia. }
    destruct X as (lk0 & uk0 & X1 & X2 & X3 & X4).
    rewrite !X4 by (rewrite ?map_length; auto).
    match goal with |- context [match ?m with Ok _ => (lk, uk) | Panic => (0, 0) end] =>
      replace (match m with Ok _ => (lk, uk) | Panic => (0, 0) end) with (lk0, uk0) by (rewrite <- X1; now destruct ((lk <=? uk) && (uk <=? length ks0))) end.
    cbv beta iota. rewrite !cut_map. rewrite cut_len by lia.
    set (EL := cut le ue (mapi_from 0 (pos_of p) es0)) in *.
    assert (LE : length EL = ue - le) by (apply cut_len; rewrite mapi_length; lia). rewrite LE.
    (* calls for children *)
    assert (KW : forall j c0 h2 ps2 lb' ub' n2, nth_error ks0 j = Some c0 -> minv h2 r t ps2 -> held h2 r p a ->
      1 <= ht /\ kid_ok any h2 r t ps2 n2 ((bd1 lb' + bd1 ub') * (M * ht)) (mt (with_pos (p ++ [j]) c0) lb' ub' n2) (hm_worklist_t bor ask bomb fuel h2 (SKid a j) lb' ub' n2)).
    { intros j c0 h2 ps2 lb' ub' n2 Hj I2 Ha2. destruct ht as [|ht].
      { apply shape_0 in Sh as (es2 & E2 & _). injection E2 as -> ->. now destruct j. }
      split; [lia|]. apply shape_S in Sh as (es2 & ks2 & E2 & _ & _ & Fk). injection E2 as <- <-.
      assert (Sc : shape N ht c0) by (rewrite Forall_forall in Fk; apply Fk; eapply nth_error_In; eauto).
      pose proof (shape_len _ _ _ _ Sc) as Lc. unfold n_len in Lc.
      apply (work_kid_t ht fuel h2 r t ps2 p a j es0 ks0 c0); auto; [lia|intros X; rewrite X in Lc; cbn in Lc; lia|nia|]. intros h3 h4 s3 c3 e3 ps3 a3 B1 B2 B3 B4 B5 B6.
      replace (S ht) with (ht + 1) by lia.
      apply (IH0 ht) with (mn := N) (c := c3) (es := e3); auto; try lia.
      now rewrite (n_at_snoc p t0 es0 ks0 j Hat). }
    set (W2 := fun lk2 uk2 => if (0 <? ue - le) || (0 <? uk2 - lk2)
      then [MW a le ue lk2 uk2 (negb lp && (le =? lk)) (negb rp && (ue <? uk))] else []).
    set (G2 := fun kids : list (BTreeModel.bt bref V) => if (0 <? ue - le) || (0 <? length kids)
      then [Erg EL kids (negb lp && (le =? lk)) (negb rp && (ue <? uk))] else []).
    assert (W2s : forall h2 lk2 uk2, held h2 r p a -> lk2 <= uk2 <= length ks0 -> wsims h2 r (W2 lk2 uk2) (G2 (cut lk2 uk2 KS))).
    { intros h2 lk2 uk2 Ha2 L. unfold W2, G2. rewrite cut_len by lia. destruct ((0 <? ue - le) || (0 <? uk2 - lk2)); constructor; [|constructor].
      exists p. split; auto. exists es0, ks0. repeat split; auto; lia. }
    (* the right side *)
    assert (ST2 : forall h2 ps2 lk1 lb1 w1 g1 n2, minv h2 r t ps2 -> held h2 r p a -> wsims h2 r w1 g1 -> lk1 <= uk0 ->
      kid_ok (is a) h2 r t ps2 n2 (if rp && (lk1 <? uk0) then (bd1 lb1 + bd1 ub) * (M * ht) else 0)
        (work_right_t lb1 ub ((le, lk, lp), (ue, uk, rp)) EL (cut lk1 uk0 KS) (map mt (cut lk1 uk0 KS)) g1 n2)
        (hm_right_t (hm_worklist_t bor ask bomb fuel) a ((le, lk, lp), (ue, uk, rp)) lk1 uk0 lb1 ub w1 h2 n2)).
    { intros h2 ps2 lk1 lb1 w1 g1 n2 I2 Ha2 F1 Hlk. unfold work_right_t, hm_right_t. rewrite LE. fold (W2 lk1 (uk0 - 1)). fold (W2 lk1 uk0).
      assert (Stop : forall kids m, kids = cut lk1 uk0 KS -> kid_ok (is a) h2 r t ps2 n2 m (Returned tt (g1 ++ G2 kids ++ []) n2) (Returned (h2, Some a) (Made (w1 ++ W2 lk1 uk0)) n2)).
      { intros kids m ->. cbn [kid_ok]. split; [reflexivity|]. split; [lia|]. split; [intros q b; auto|]. exists []. split; [exact I2|]. eexists. split; [reflexivity|].
        rewrite app_nil_r. apply Forall2_app; auto. apply W2s; auto. lia. }
      destruct rp; cbn [andb]; [destruct (Nat.ltb_spec lk1 uk0) as [Hl|Hl]|].
      - destruct (cut_snoc lk1 uk0 KS) as (d & Hd & Ecut); [lia..|]. rewrite Ecut. rewrite map_app, removelast_snoc. cbn [map]. rewrite last_snoc.
        cbv beta iota. destruct (NK _ _ Hd) as (d0 & Hd0 & ->).
        destruct (KW _ _ _ _ lb1 ub n2 Hd0 I2 Ha2) as (Hht & R).
        apply (then_ok any a h2 r t ps2 n2 _ 0 _ _ (fun w3 n3 => Returned tt (g1 ++ G2 (cut lk1 (uk0 - 1) KS) ++ w3) n3) _ _ R); [lia|].
        intros h3 w3 g3 n3 nps Mo I3 Ws _. cbn [kid_ok]. split; [reflexivity|]. split; [lia|]. split; [intros q b; auto|]. exists []. split; [exact I3|]. eexists. split; [reflexivity|].
        apply Forall2_app; [eapply wsims_mono; eauto|]. apply Forall2_app; auto. apply W2s; [now apply Mo|lia].
      - assert (Hc : cut lk1 uk0 KS = []) by (apply cut_none; lia). rewrite Hc. cbn [map removelast]. rewrite last_nil. cbn [after]. apply Stop. now rewrite Hc.
      - cbn [after]. now apply Stop. }
    assert (Hrp : rp = true -> bd1 ub = 1 \/ lp = true /\ uk0 <= lk0 + 1).
    { intros Hr. destruct (PR Hr) as [|(A1 & A2 & A3)]; auto. right. split; auto. lia. }
    assert (Shift : forall T res m, kid_ok (is a) h1 r t ps n1 m T res -> m <= (bd1 lb + bd1 ub) * (M * ht) -> kid_ok (is a) h1 r t ps n ((bd1 lb + bd1 ub) * (M * (ht + 1))) T res).
    { intros T res m R L. destruct res as [[h2 x] o n2|[h2 x] n2|]; cbn [kid_ok] in *; auto.
      - destruct R as (R1 & R2 & R3). split; auto. split; [nia|auto].
      - destruct R as (R1 & R2 & R3). split; auto. split; [nia|auto]. }
    clear IH0 PR X4 X1 X3 Eg Ee.
    destruct lp.
    - assert (Hlb : bd1 lb = 1) by auto.
      set (ubr := if (uk0 - lk0 =? 1) && rp then _ <- assert_ (ue - le =? 0);; Ok ub else Ok Unbounded) in *.
      destruct ubr as [ub'|] eqn:Eub; [|now apply Here].
      destruct (Nat.ltb_spec lk0 uk0) as [Hl|Hl].
      + destruct (cut_cons lk0 uk0 KS) as (d & Hd & Ecut); [lia..|]. rewrite Ecut. cbn [map tl]. destruct (NK _ _ Hd) as (d0 & Hd0 & ->).
        assert (Hub : bd1 ub' <= bd1 ub /\ (lk0 + 1 < uk0 -> bd1 ub' = 0)).
        { subst ubr. destruct (Nat.eqb_spec (uk0 - lk0) 1); cbn [andb] in Eub; [|injection Eub as <-; cbn; lia].
          destruct rp; [|injection Eub as <-; cbn; lia]. destruct (ue - le =? 0); [|discriminate]. injection Eub as <-. lia. }
        destruct (KW _ _ _ _ lb ub' n1 Hd0 I Ha) as (Hht & R).
        eapply Shift.
        * apply (then_ok any a h1 r t ps n1 _ (if rp && (lk0 + 1 <? uk0) then (bd1 (@Unbounded Q) + bd1 ub) * (M * ht) else 0) _ _
            (fun w1 n2 => work_right_t Unbounded ub ((le, lk, true), (ue, uk, rp)) EL (cut (lk0 + 1) uk0 KS) (map mt (cut (lk0 + 1) uk0 KS)) w1 n2) _ _ R); [apply le_n|].
          intros h2 w1 g1 n2 nps Mo I2 Ws _. apply ST2; [exact I2|now apply Mo|exact Ws|lia].
        * rewrite Hlb in *. cbn [bd1]. destruct rp; cbn [andb]; [destruct (Nat.ltb_spec (lk0 + 1) uk0)|].
          -- destruct (Hrp eq_refl) as [Hu|[_ Hu]]; [|lia]. rewrite Hu in *. rewrite (proj2 Hub) by lia. lia.
          -- rewrite Nat.add_0_r; apply Nat.mul_le_mono_r; lia.
          -- rewrite Nat.add_0_r; apply Nat.mul_le_mono_r; lia.
      + assert (Hc : cut lk0 uk0 KS = []) by (apply cut_none; lia). rewrite Hc. cbn [map tl after]. 
        eapply Shift; [pose proof (ST2 h1 ps lk0 Unbounded [] [] n1 I Ha (Forall2_nil _) ltac:(lia)) as R; rewrite Hc in R; exact R|].
        replace (lk0 <? uk0) with false by (symmetry; apply Nat.ltb_ge; lia). rewrite andb_false_r. lia.
    - eapply Shift; [apply (ST2 h1 ps lk0 lb [] [] n1 I Ha (Forall2_nil _)); lia|].
      destruct rp; cbn [andb]; [|lia]. destruct (lk0 <? uk0); lia.
  Qed.
End Work.
