(** Proofs about [iter_mut] and [range_mut] on shared nodes: writes, and the worklist of a range. *)
From Coq Require Import List PeanoNat Bool Lia Wf_nat.
From Verif Require Import Base Spec MapSpec Vec Heap HeapProofs HeapMut HeapMutProofs BTreeModel BTreeProofs BTreeIterModel
  BTreeMutProofs BTreeHeapModel BTreeHeapSpec BTreeHeapProofs MutSpec BTreeHeapMutModel BTreeHeapMutProofs.
From Verif Require BTreeIterProofs.
Import ListNotations.
Local Open Scope nat_scope.

Section Edges.
  Context {K V K' V' Q : Type} (bor : K -> Q) (bor' : K' -> Q) (cmp : Q -> Q -> comparison).
  Notation keys es := (map (fun e => bor (fst e)) es).
  Notation keys' es := (map (fun e => bor' (fst e)) es).

  Lemma left_edge_keys lb : forall (es : list (K * V)) (es' : list (K' * V')) i, keys es = keys' es' ->
    fst (left_edge bor cmp lb i es) = fst (left_edge bor' cmp lb i es')
    /\ fst (snd (left_edge bor cmp lb i es)) = fst (snd (left_edge bor' cmp lb i es'))
    /\ keys (snd (snd (left_edge bor cmp lb i es))) = keys' (snd (snd (left_edge bor' cmp lb i es'))).
  Proof.
    induction es as [|e es IH]; intros [|e' es'] i E; try discriminate; [cbn; auto|]. cbn [map] in E. injection E as E1 E2.
    cbn [left_edge]. rewrite E1. destruct (cmp_bd cmp lb (bor' (fst e'))); cbn [fst snd map]; rewrite ?E1, ?E2; auto.
  Qed.
  Lemma right_edge_keys ub n : forall (es : list (K * V)) (es' : list (K' * V')) i, keys es = keys' es' ->
    right_edge bor cmp ub n i es = right_edge bor' cmp ub n i es'.
  Proof.
    induction es as [|e es IH]; intros [|e' es'] i E; try discriminate; auto. cbn [map] in E. injection E as E1 E2.
    cbn [right_edge]. rewrite E1. destruct (cmp_bd cmp ub (bor' (fst e'))); auto.
  Qed.
  Lemma edges_keys lb ub (es : list (K * V)) (es' : list (K' * V')) : keys es = keys' es' ->
    find_range_edges bor cmp es lb ub = find_range_edges bor' cmp es' lb ub.
  Proof.
    intros E. unfold find_range_edges. destruct (left_edge_keys lb es es' 0 E) as (H1 & H2 & H3).
    assert (L : length es = length es') by (apply (f_equal (@length _)) in E; now rewrite !map_length in E).
    destruct (left_edge bor cmp lb 0 es) as [l [i rest]], (left_edge bor' cmp lb 0 es') as [l' [i' rest']]. cbn [fst snd] in *. subst l' i'. rewrite L.
    now rewrite (right_edge_keys ub (length es') rest rest' i H3).
  Qed.
End Edges.

Section EdgeFacts.
  Context {K V Q : Type} (bor : K -> Q) (cmp : Q -> Q -> comparison).
  Lemma left_stop lb : forall (es : list (K * V)) i l j rest, left_edge bor cmp lb i es = (Some l, (j, rest)) -> rest <> [] .
  Proof.
    induction es as [|e es IH]; intros i l j rest H; cbn [left_edge] in H; [discriminate|].
    destruct (cmp_bd cmp lb (bor (fst e))); try (injection H as _ _ <-; discriminate). eauto.
  Qed.
  Lemma left_unb : forall (es : list (K * V)) i, es <> [] -> left_edge bor cmp Unbounded i es = (Some (0, 0, false), (i, es)).
  Proof. intros [|e es] i H; [congruence|]. reflexivity. Qed.
  (** Pruning on a side happens at a bound on that side, or at the only child left. *)
  Lemma prune_left lb ub (es : list (K * V)) a b c d e f : es <> [] ->
    find_range_edges bor cmp es lb ub = ((a, b, c), (d, e, f)) -> c = true -> bd1 lb = 1.
  Proof.
    intros He H ->. destruct lb; auto. unfold find_range_edges in H. rewrite left_unb in H by auto. discriminate.
  Qed.
  Lemma prune_right lb ub (es : list (K * V)) a b c d e f :
    find_range_edges bor cmp es lb ub = ((a, b, c), (d, e, f)) -> f = true ->
    bd1 ub = 1 \/ (c = true /\ b = length es /\ e = length es + 1).
  Proof.
    intros H ->. destruct ub as [| |]; auto. right. unfold find_range_edges in H. destruct (left_edge bor cmp lb 0 es) as [[l|] [i rest]] eqn:El.
    - apply left_stop in El. destruct rest as [|x rest]; [congruence|]. cbn [right_edge cmp_bd] in H. discriminate.
    - assert (rest = []) as ->.
      { clear H. revert El. generalize 0. induction es as [|x es IH]; intros k El; cbn [left_edge] in El; [congruence|].
        destruct (cmp_bd cmp lb (bor (fst x))); try discriminate. eauto. }
      cbn [right_edge] in H. injection H as <- <- <- <- <-. auto.
  Qed.
End EdgeFacts.

Lemma slice_cut {A} i j (l : list A) : slice i j l = if (i <=? j) && (j <=? length l) then Ok (cut i j l) else Panic.
Proof. reflexivity. Qed.

Section Steps2.
  Context {K V Q : Type} (bor : K -> Q) (cmp : Q -> Q -> comparison).
  Variable bomb : nat -> bool.
  Notation bt := (bt K V).
  Notation pay := (list (K * V)).
  Notation heap := (heap pay).
  Notation bref := (@bref K).
  Notation gerg := (erg bref V).
  Notation ns := (@ns K V).
  Variables (h0 : heap) (t0 : bt) (O : list addr) (start : list nat -> Prop).
  Notation mst := (mst h0 t0 O start).
  Notation minv := (minv h0 t0 O start).
  Notation wsim := (wsim t0).
  Notation wsims := (wsims t0).

  (** ** Reading and writing through a reference *)
  Lemma write_step h r t ps q a j es0 ks0 w : minv h r t ps -> held h r q a -> n_at t0 q = Some (BN es0 ks0) -> j < length es0 ->
    exists e es ks h', n_at t q = Some (BN es ks) /\ nth_error es j = Some e /\ ref_read h (a, j) = Ok e
      /\ ref_write h (a, j) w = Ok h' /\ minv h' r (n_write q j w t) ps /\ mono h h' r.
  Proof.
    intros I H H0 Hj. destruct (held_at _ _ _ _ _ _ _ _ _ _ _ _ I H H0) as (es & ks & cs & H1 & G & F & L1 & L2 & L3).
    destruct (nth_error es j) as [e|] eqn:Ee; [|apply nth_error_None in Ee; lia].
    destruct I as [(W & A & D & E & Fr & Lv & Cl & Nd0 & In0) (T & Hp & Hs)].
    destruct (data_mut_ok h r O q a (upd_nth j w) (tv t) W A H D) as (h' & Ed & W' & A' & F' & D' & M & C' & L').
    assert (Er : ref_read h (a, j) = Ok e). { unfold ref_read, excl. cbn [fst snd]. rewrite G. cbn [bind nd_data]. now rewrite Ee. }
    exists e, es, ks, h'. split; auto. split; auto. split; auto. split; [unfold ref_write; rewrite Er; exact Ed|]. split; [|exact M].
    rewrite (v_upd_tv q j w t es ks) in D' by (auto; lia). split.
    - split; auto. split; auto. split; [exact D'|]. split; [now rewrite skel_write|]. split; [eapply frame_trans; eauto|]. split; [lia|].
      split; [congruence|auto].
    - split; [|split].
      + intros p. destruct (list_eq_dec Nat.eq_dec p q) as [->|Hpq]; [right; exists a; now apply M|]. rewrite n_at_write by auto.
        destruct (T p) as [|[b Hb]]; eauto.
      + eapply Forall_impl; [|exact Hp]. intros p [b Hb]. eauto.
      + intros p Hst. destruct (Hs p Hst) as [b Hb]. eauto.
  Qed.

  (** ** The worklist of a range *)
  Notation mbor := (fun r : bref => bor (snd r)).
  Variable N : nat.
  Hypothesis HN : 1 <= N.
  Notation shape := (shape N).

  Lemma f2_nth {A B} (R : A -> B -> Prop) xs ys j y : Forall2 R xs ys -> nth_error ys j = Some y ->
    exists x, nth_error xs j = Some x /\ R x y.
  Proof.
    intros F. revert j. induction F as [|a b l l' Hab F IH]; intros [|j] H; try discriminate; cbn [nth_error] in *.
    - injection H as <-. eauto.
    - eauto.
  Qed.
  Lemma cut_map {A B} (f : A -> B) i j l : cut i j (map f l) = map f (cut i j l).
  Proof. unfold cut. now rewrite <- firstn_map, skipn_map. Qed.
  Lemma removelast_snoc {A} (l : list A) x : removelast (l ++ [x]) = l.
  Proof. rewrite removelast_app by discriminate. cbn. apply app_nil_r. Qed.

  Definition wl_ok (h1 : heap) (r : addr) (t : bt) (ps : list (list nat)) (gs : list gerg) (k : nat)
    (h' : heap) (o : out (list mwork)) (nps : list (list nat)) : Prop :=
    mono h1 h' r /\ length nps <= k
    /\ match o with
       | Done ws => minv h' r t (nps ++ ps) /\ wsims h' r ws gs
       | Unwound => mst h' r t (nps ++ ps) /\ (exists k, bomb k = true) /\ nps <> []
       end.

  (** A call for a child, given that calls for the children's nodes are right. *)
  Lemma work_kid ht fuel h r t ps p a j es0 ks0 c0 lb ub gs : S ht <= fuel ->
    (forall h h1 s c es ps a,
      slot_addr h s = Ok c -> peek h c = Ok es -> map fst es = map fst (elems_of c0) ->
      slot_mut bomb h s = Ok (h1, Some a) -> minv h1 r t ps -> held h1 r (p ++ [j]) a ->
      exists h' o nps, hm_worklist bor cmp bomb fuel h s lb ub = Ok (h', Some a, o)
        /\ wl_ok h1 r t ps gs ((bd1 lb + bd1 ub) * ht) h' o nps) ->
    minv h r t ps -> held h r p a -> n_at t0 p = Some (BN es0 ks0) -> nth_error ks0 j = Some c0 ->
    exists h' x o nps, hm_worklist bor cmp bomb fuel h (SKid a j) lb ub = Ok (h', x, o)
      /\ wl_ok h r t ps gs (1 + (bd1 lb + bd1 ub) * ht) h' o nps.
  Proof.
    intros Hf IH I Ha Hat Hj. destruct (held_at _ _ _ _ _ _ _ _ _ _ _ _ I Ha Hat) as (es & ks & cs & H1 & G & F & L1 & L2 & L3).
    destruct (nth_error ks j) as [u|] eqn:Eu; [|apply nth_error_None in Eu; assert (j < length ks0) by (apply nth_error_Some; congruence); lia].
    destruct (f2_nth _ _ _ _ _ F Eu) as (c & Ec & Du). destruct u as [ues uks].
    assert (E1 : slot_addr h (SKid a j) = Ok c).
    { cbn [slot_addr]. unfold excl. rewrite G. cbn [bind nd_kids]. rewrite nth_error_map, Ec. reflexivity. }
    destruct (ns_inv _ _ _ _ Du) as (kc & kk & Gc & _).
    assert (E2 : peek h c = Ok ues) by (unfold peek; now rewrite Gc).
    assert (Hat' : n_at t0 (p ++ [j]) = Some c0) by (now rewrite (n_at_snoc p t0 es0 ks0 j Hat)).
    assert (E3 : map fst ues = map fst (elems_of c0)).
    { destruct c0 as [e0 k0]. pose proof I as [(_ & _ & _ & Sk & _) _]. destruct (skel_at t0 t _ _ _ (eq_sym Sk) Hat') as (e1 & k1 & A1 & A2 & _).
      rewrite (n_at_snoc p t es ks j H1), Eu in A1. injection A1 as <- <-. exact A2. }
    destruct (kid_step bomb _ _ _ _ _ _ _ _ _ _ _ _ _ _ I Ha Hat Hj) as (h1 & x & Ek & M & R).
    destruct x as [c'|].
    - destruct R as (n1 & I1 & Hc' & Hn1). destruct (IH h h1 (SKid a j) c ues (n1 ++ ps) c' E1 E2 E3 Ek I1 Hc') as (h' & o & nps & Ew & M' & Ln & R').
      exists h', (Some c'), o, (nps ++ n1). split; auto. split; [eapply mono_trans; eauto|]. split.
      { rewrite app_length. destruct Hn1 as [->| ->]; cbn [length]; lia. }
      destruct o as [ws|]; [now rewrite <- app_assoc|]. rewrite <- app_assoc. destruct R' as (R1 & R2 & R3). split; auto. split; auto.
      destruct nps; [congruence|discriminate].
    - destruct R as (R1 & R2). destruct fuel as [|fuel]; [lia|]. exists h1, None, Unwound, [p ++ [j]]. split.
      { cbn [hm_worklist]. rewrite E1. cbn [bind]. rewrite E2. cbn [bind]. destruct (find_range_edges bor cmp ues lb ub) as [[[? ?] ?] [[? ?] ?]].
        cbn [slot_mut]. rewrite Ek. reflexivity. }
      split; auto. split; [cbn [length]; lia|]. split; auto. split; auto. discriminate.
  Qed.

  Lemma wl_none h r t ps : minv h r t ps -> wl_ok h r t ps [] 0 h (Done []) [].
  Proof. intros I. split; [intros q b; auto|]. split; auto. split; auto. constructor. Qed.

  Lemma work_m ht : forall mn c0 fuel h h1 s c es r t ps p a lb ub gs,
    1 <= mn -> shape mn ht c0 -> S ht <= fuel ->
    n_at t0 p = Some c0 ->
    slot_addr h s = Ok c -> peek h c = Ok es -> map fst es = map fst (elems_of c0) ->
    slot_mut bomb h s = Ok (h1, Some a) -> minv h1 r t ps -> held h1 r p a ->
    make_worklist mbor cmp (with_pos p c0) lb ub = Ok gs ->
    exists h' o nps, hm_worklist bor cmp bomb fuel h s lb ub = Ok (h', Some a, o)
      /\ wl_ok h1 r t ps gs ((bd1 lb + bd1 ub) * ht) h' o nps.
  Proof.
    induction ht as [ht IH0] using (well_founded_induction Wf_nat.lt_wf). intros mn [es0 ks0] fuel h h1 s c es r t ps p a lb ub gs Hmn Sh Hf Hat Ec Ep Ek Es I Ha E.
    destruct fuel as [|fuel]; [lia|]. cbn [hm_worklist]. rewrite Ec. cbn [bind]. rewrite Ep. cbn [bind elems_of] in *.
    rewrite with_pos_eq in E. cbn [make_worklist] in E.
    assert (Ee : find_range_edges bor cmp es lb ub = find_range_edges mbor cmp (mapi_from 0 (pos_of p) es0) lb ub).
    { apply edges_keys. rewrite (mapi_map _ _ (fun e => bor (fst e))) by reflexivity. rewrite <- !(map_map fst bor). now rewrite Ek. }
    assert (Les : length es = length es0) by (apply (f_equal (@length _)) in Ek; now rewrite !map_length in Ek).
    assert (Hes : es <> []). { apply shape_len in Sh. unfold n_len in Sh. cbn [elems_of] in Sh. destruct es; [cbn in *; lia|discriminate]. }
    pose proof (fun a b c d e f => prune_left bor cmp lb ub es a b c d e f Hes) as PL. pose proof (prune_right bor cmp lb ub es) as PR.
    rewrite Ee in *. destruct (find_range_edges mbor cmp (mapi_from 0 (pos_of p) es0) lb ub) as [[[le lk] lp] [[ue uk] rp]] eqn:Eg.
    specialize (PL _ _ _ _ _ _ eq_refl). specialize (PR _ _ _ _ _ _ eq_refl). cbv beta iota.
    rewrite Es. cbn [bind].
    destruct (held_at _ _ _ _ _ _ _ _ _ _ _ _ I Ha Hat) as (es1 & ks1 & cs & H1 & G & F & L1 & L2 & L3).
    unfold excl. rewrite G. cbn [bind nd_data nd_kids]. rewrite !slice_cut in *. rewrite mapi_length in E. rewrite L1.
    destruct ((le <=? ue) && (ue <=? length es0)) eqn:Hle; [|discriminate]. cbn [bind] in *.
    apply andb_prop in Hle as [Hle1 Hle2]. apply Nat.leb_le in Hle1, Hle2.
    rewrite map_length, L3. unfold slice_or_default in E. rewrite !slice_cut, !map_length, !mapi_length in E.
    set (KS := mapi_from 0 (fun i c => with_pos (p ++ [i]) c) ks0) in *.
    assert (LK : length KS = length ks0) by (apply mapi_length).
    assert (NK : forall j c, nth_error KS j = Some c -> exists c0, nth_error ks0 j = Some c0 /\ c = with_pos (p ++ [j]) c0).
    { intros j d Hd. unfold KS in Hd. rewrite mapi_nth in Hd. destruct (nth_error ks0 j); [|discriminate]. injection Hd as <-. eauto. }
    (* one name for the slices *)
    assert (X : exists lk0 uk0, (if (lk <=? uk) && (uk <=? length ks0) then (lk, uk) else (0, 0)) = (lk0, uk0)
      /\ lk0 <= uk0 <= length ks0 /\ (lk0 = lk /\ uk0 = uk \/ lk0 = 0 /\ uk0 = 0)
      /\ (forall A (l : list A), length l = length ks0 ->
           match (if (lk <=? uk) && (uk <=? length ks0) then Ok (cut lk uk l) else Panic) with Ok r => r | Panic => [] end = cut lk0 uk0 l)).
    { destruct ((lk <=? uk) && (uk <=? length ks0)) eqn:Hlk.
      - apply andb_prop in Hlk as [A1 A2]. apply Nat.leb_le in A1, A2. exists lk, uk. repeat split; auto.
      - exists 0, 0. repeat split; auto; try lia. }
    destruct X as (lk0 & uk0 & X1 & X2 & X3 & X4).
    rewrite !X4 in E by (rewrite ?map_length; auto).
    match goal with |- context [match ?m with Ok _ => (lk, uk) | Panic => (0, 0) end] =>
      replace (match m with Ok _ => (lk, uk) | Panic => (0, 0) end) with (lk0, uk0) by (rewrite <- X1; now destruct ((lk <=? uk) && (uk <=? length ks0))) end.
    cbv beta iota. rewrite !cut_map in E. rewrite cut_len in E by lia.
    replace (length (cut le ue (mapi_from 0 (pos_of p) es0))) with (ue - le) in E by (symmetry; apply cut_len; rewrite mapi_length; lia).
    (* calls for children *)
    assert (KW : forall j c0 h2 ps2 lb' ub' ws, nth_error ks0 j = Some c0 -> minv h2 r t ps2 -> held h2 r p a ->
      make_worklist mbor cmp (with_pos (p ++ [j]) c0) lb' ub' = Ok ws ->
      1 <= ht /\ exists h' x o nps, hm_worklist bor cmp bomb fuel h2 (SKid a j) lb' ub' = Ok (h', x, o)
        /\ wl_ok h2 r t ps2 ws (1 + (bd1 lb' + bd1 ub') * (ht - 1)) h' o nps).
    { intros j c0 h2 ps2 lb' ub' ws Hj I2 Ha2 Ew. destruct ht as [|ht].
      { apply shape_0 in Sh as (es2 & E2 & _). injection E2 as -> ->. now destruct j. }
      split; [lia|]. replace (S ht - 1) with ht by lia. apply shape_S in Sh as (es2 & ks2 & E2 & _ & _ & Fk). injection E2 as <- <-.
      apply (work_kid ht fuel h2 r t ps2 p a j es0 ks0 c0 lb' ub' ws); auto; [lia|]. intros h3 h4 s3 c3 e3 ps3 a3 B1 B2 B3 B4 B5 B6.
      apply (IH0 ht) with (mn := N) (c0 := c0) (c := c3) (es := e3) (p := p ++ [j]); auto; try lia.
      - rewrite Forall_forall in Fk. apply Fk. eapply nth_error_In; eauto.
      - now rewrite (n_at_snoc p t0 es0 ks0 j Hat). }
    set (W2 := fun lk2 uk2 => if (0 <? ue - le) || (0 <? uk2 - lk2)
      then [MW a le ue lk2 uk2 (negb lp && (le =? lk)) (negb rp && (ue <? uk))] else []) in *.
    set (G2 := fun kids : list (BTreeModel.bt bref V) => if (0 <? ue - le) || (0 <? length kids)
      then [Erg (cut le ue (mapi_from 0 (pos_of p) es0)) kids (negb lp && (le =? lk)) (negb rp && (ue <? uk))] else []) in *.
    assert (W2s : forall h2 lk2 uk2, held h2 r p a -> lk2 <= uk2 <= length ks0 -> wsims h2 r (W2 lk2 uk2) (G2 (cut lk2 uk2 KS))).
    { intros h2 lk2 uk2 Ha2 L. unfold W2, G2. rewrite cut_len by lia. destruct ((0 <? ue - le) || (0 <? uk2 - lk2)); constructor; [|constructor].
      exists p. split; auto. exists es0, ks0. repeat split; auto; lia. }
    (* the right side *)
    assert (ST2 : forall h2 ps2 lk1 lb1 w1 g1, minv h2 r t ps2 -> held h2 r p a -> wsims h2 r w1 g1 -> lk1 <= uk0 ->
      (let '(kids0, to_prune) := if rp then (removelast (cut lk1 uk0 KS), last_opt (map (make_worklist mbor cmp) (cut lk1 uk0 KS))) else (cut lk1 uk0 KS, None) in
       w3 <- match to_prune with Some c => c lb1 ub | None => Ok [] end;; Ok (g1 ++ G2 kids0 ++ w3)) = Ok gs ->
      exists h3 o n2,
        (let '(to_prune, uk1) := if rp && (lk1 <? uk0) then (Some (SKid a (uk0 - 1)), uk0 - 1) else (None, uk0) in
         '(h3, o3) <- match to_prune with
                      | Some s0 => '(h3, _, o0) <- hm_worklist bor cmp bomb fuel h2 s0 lb1 ub;; Ok (h3, o0)
                      | None => Ok (h2, Done [])
                      end;;
         Ok (h3, Some a, match o3 with Done w3 => Done (w1 ++ W2 lk1 uk1 ++ w3) | Unwound => Unwound end)) = Ok (h3, Some a, o)
        /\ wl_ok h2 r t ps2 gs (if rp && (lk1 <? uk0) then 1 + (bd1 lb1 + bd1 ub) * (ht - 1) else 0) h3 o n2
        /\ (rp && (lk1 <? uk0) = true -> 1 <= ht)).
    { intros h2 ps2 lk1 lb1 w1 g1 I2 Ha2 F1 Hlk E2.
      destruct rp; cbn [andb] in *; [destruct (Nat.ltb_spec lk1 uk0) as [Hl|Hl]|].
      - destruct (cut_snoc lk1 uk0 KS) as (d & Hd & Ecut); [lia..|]. rewrite Ecut in E2. rewrite map_app, removelast_snoc in E2. cbn [map] in E2. rewrite last_snoc in E2.
        cbv beta iota in E2. destruct (NK _ _ Hd) as (d0 & Hd0 & ->).
        destruct (make_worklist mbor cmp (with_pos (p ++ [uk0 - 1]) d0) lb1 ub) as [w3|] eqn:Ew3; [|discriminate]. cbn [bind] in E2. injection E2 as <-.
        destruct (KW _ _ _ _ _ _ _ Hd0 I2 Ha2 Ew3) as (Hht & h3 & x & o & nps & E3 & M & Ln & R). cbv beta iota. rewrite E3. cbn [bind].
        eexists _, _, nps. split; [reflexivity|]. split; [|auto]. split; auto. split; auto. destruct o as [ws|]; auto. destruct R as [R1 R2]. split; auto.
        apply Forall2_app; [eapply wsims_mono; eauto|]. apply Forall2_app; auto. apply W2s; [now apply M|lia].
      - rewrite cut_none in E2 by lia. cbn [map removelast] in E2. rewrite last_nil in E2. cbn [bind] in E2. injection E2 as <-. cbn [bind].
        eexists _, _, []. split; [reflexivity|]. split; [|discriminate]. split; [intros q b; auto|]. split; auto. split; auto.
        apply Forall2_app; auto. apply Forall2_app; [|constructor]. rewrite <- (cut_none lk1 uk0 KS) by lia. apply W2s; auto. lia.
      - cbn [bind] in E2. injection E2 as <-. cbn [bind].
        eexists _, _, []. split; [reflexivity|]. split; [|discriminate]. split; [intros q b; auto|]. split; auto. split; auto.
        apply Forall2_app; auto. apply Forall2_app; [|constructor]. apply W2s; auto. lia. }
    assert (Hrp : rp = true -> bd1 ub = 1 \/ lp = true /\ uk0 <= lk0 + 1).
    { intros Hr. destruct (PR Hr) as [|(A1 & A2 & A3)]; auto. right. split; auto. lia. }
    clear IH0 PR X4 X1 X3 Eg Ee.
    destruct lp.
    - assert (Hlb : bd1 lb = 1) by auto. destruct (Nat.ltb_spec lk0 uk0) as [Hl|Hl].
      + destruct (cut_cons lk0 uk0 KS) as (d & Hd & Ecut); [lia..|]. rewrite Ecut in E. cbn [map tl] in E. destruct (NK _ _ Hd) as (d0 & Hd0 & ->).
        set (ubr := if (uk0 - lk0 =? 1) && rp then _ <- assert_ (ue - le =? 0);; Ok ub else Ok Unbounded) in *.
        destruct ubr as [ub'|] eqn:Eub; [|discriminate]. cbn [bind] in *.
        assert (Hub : bd1 ub' <= bd1 ub /\ (lk0 + 1 < uk0 -> bd1 ub' = 0)).
        { subst ubr. destruct (Nat.eqb_spec (uk0 - lk0) 1); cbn [andb] in Eub; [|injection Eub as <-; cbn; lia].
          destruct rp; [|injection Eub as <-; cbn; lia]. destruct (ue - le =? 0); [|discriminate]. injection Eub as <-. lia. }
        destruct (make_worklist mbor cmp (with_pos (p ++ [lk0]) d0) lb ub') as [g1|] eqn:Eg1; [|discriminate]. cbn [bind] in E.
        destruct (KW _ _ _ _ _ _ _ Hd0 I Ha Eg1) as (Hht & h2 & x & o1 & n1 & E1 & M1 & Ln1 & R1). rewrite E1. cbn [bind].
        destruct o1 as [w1|].
        * destruct R1 as [I2 F1]. destruct (ST2 h2 _ (lk0 + 1) Unbounded w1 g1 I2 (M1 _ _ Ha) F1) as (h3 & o & n2 & E3 & (M2 & Ln2 & R2) & _); [lia|exact E|].
          exists h3, o, (n2 ++ n1). split; [exact E3|]. split; [eapply mono_trans; eauto|]. split.
          { rewrite app_length. cbn [bd1] in Ln2. destruct rp; cbn [andb] in Ln2; [destruct (Nat.ltb_spec (lk0 + 1) uk0)|].
            - destruct (Hrp eq_refl) as [Hu|[_ Hu]]; [|lia]. rewrite Hu in *. rewrite (proj2 Hub) in Ln1 by lia. rewrite Hlb in *. lia.
            - rewrite Hlb in *. destruct Hub as [Hub _]. destruct ht as [|ht']; [lia|]. replace (S ht' - 1) with ht' in * by lia. nia.
            - rewrite Hlb in *. destruct Hub as [Hub _]. destruct ht as [|ht']; [lia|]. replace (S ht' - 1) with ht' in * by lia. nia. }
          rewrite <- app_assoc. destruct o as [ws|]; auto. destruct R2 as (A1 & A2 & A3). split; auto. split; auto. destruct n2; [congruence|discriminate].
        * eexists _, _, n1. split; [reflexivity|]. split; auto. split; auto.
          rewrite Hlb in *. destruct Hub as [Hub _]. destruct ht as [|ht']; [lia|]. replace (S ht' - 1) with ht' in * by lia. nia.
      + rewrite cut_none in E by lia. cbn [map tl] in E.
        set (ubr := if (uk0 - lk0 =? 1) && rp then _ <- assert_ (ue - le =? 0);; Ok ub else Ok Unbounded) in *.
        destruct ubr as [ub'|] eqn:Eub; [|discriminate]. cbn [bind] in *.
        destruct (ST2 h1 ps lk0 Unbounded [] [] I Ha) as (h3 & o & n2 & E3 & (M2 & Ln2 & R2) & _); [constructor|lia| |].
        { rewrite cut_none by lia. exact E. }
        exists h3, o, n2. split; [exact E3|]. split; auto. split; auto.
        replace (lk0 <? uk0) with false in Ln2 by (symmetry; apply Nat.ltb_ge; lia). rewrite andb_false_r in Ln2. lia.
    - cbn [bind] in *. destruct (ST2 h1 ps lk0 lb [] [] I Ha) as (h3 & o & n2 & E3 & (M2 & Ln2 & R2) & Hht); [constructor|lia|exact E|].
      exists h3, o, n2. split; [exact E3|]. split; auto. split; auto. destruct rp; [|cbn [andb] in Ln2; lia]. destruct (Hrp eq_refl) as [Hu|[? _]]; [|discriminate].
      rewrite Hu in *. destruct (true && (lk0 <? uk0)); [|lia]. specialize (Hht eq_refl). destruct ht as [|ht']; [lia|].
      replace (S ht' - 1) with ht' in * by lia. nia.
  Qed.
End Steps2.
