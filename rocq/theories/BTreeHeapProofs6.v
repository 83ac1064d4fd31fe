(** Owning iteration over shared [BTreeMap]s follows the borrowed iteration over their trees. *)
From Coq Require Import List PeanoNat Bool Lia.
From Verif Require Import Base Spec Vec Heap HeapProofs BTreeModel BTreeProofs BTreeProofs2 BTreeIterModel BTreeIterProofs
  BTreeHistModel BTreeHeapModel BTreeHeapSpec BTreeHeapProofs BTreeHeapProofs2 BTreeHeapProofs3 BTreeHeapProofs4 BTreeHeapProofs5.
Import ListNotations.
Local Open Scope nat_scope.

Section Owning.
  Context {K V : Type}.
  Variable bomb : nat -> bool.
  Notation pay := (list (K * V)).
  Notation entry := (K * V)%type.
  Notation heap := (heap pay).
  Notation bt := (bt K V).
  Notation erg := (erg K V).
  Notation hwork := (@hwork K V).
  Notation borrowed := (@borrowed K V).
  Notation wps := (flat_map (@w_ptrs K V)).

  (** What a node iterator over shared nodes stands for. *)
  Definition wrel (h : heap) (w : hwork) (g : erg) : Prop :=
    match w with
    | HOwned es ks lf rt => exists ts, g = Erg es ts lf rt /\ Forall2 (ns h) ks ts
    | HArc a le ue lk uk lf rt => exists e1 es e2 t1 ts t2,
        g = Erg es ts lf rt /\ ns h a (BN (e1 ++ es ++ e2) (t1 ++ ts ++ t2))
        /\ le = length e1 /\ ue = length e1 + length es /\ lk = length t1 /\ uk = length t1 + length ts
    end.

  Lemma wrel_keep O (h h' : heap) w g : keep O h h' -> incl (w_ptrs w) O -> wrel h w g -> wrel h' w g.
  Proof.
    intros Kp I. destruct w as [a le ue lk uk lf rt|es ks lf rt]; cbn [wrel w_ptrs] in *.
    - intros (e1 & es & e2 & t1 & ts & t2 & E & D & P). exists e1, es, e2, t1, ts, t2. split; auto. split; auto. apply Kp; auto. apply I. now left.
    - intros (ts & E & F). exists ts. split; auto. eapply keep_f2; eauto.
  Qed.
  Lemma wrels_keep O (h h' : heap) ws gs : keep O h h' -> incl (wps ws) O -> Forall2 (wrel h) ws gs -> Forall2 (wrel h') ws gs.
  Proof.
    intros Kp I F. induction F as [|w g ws gs D F IH]; constructor.
    - eapply wrel_keep; eauto. intros x Hx. apply I. cbn. apply in_or_app. auto.
    - apply IH. intros x Hx. apply I. cbn. apply in_or_app. auto.
  Qed.
  Lemma wrel_flags (h : heap) w g : wrel h w g -> w_empty w = g_empty g /\ w_lf w = g_lf g /\ w_rt w = g_rt g.
  Proof.
    destruct w as [a le ue lk uk lf rt|es ks lf rt]; cbn [wrel w_empty w_lf w_rt].
    - intros (e1 & es & e2 & t1 & ts & t2 & -> & _ & -> & -> & -> & ->). cbn [g_empty g_elems g_kids g_lf g_rt]. split; auto.
      unfold g_empty. cbn [g_elems g_kids]. f_equal.
      + destruct es; cbn [is_nil length]; [apply Nat.leb_le|apply Nat.leb_gt]; lia.
      + destruct ts; cbn [is_nil length]; [apply Nat.leb_le|apply Nat.leb_gt]; lia.
    - intros (ts & -> & F). split; auto. unfold g_empty. cbn [g_elems g_kids]. f_equal. destruct F; auto.
  Qed.

  Lemma sess_inc (h0 h : heap) R c X O : sess h0 h R X O -> In c ((X ++ O) ++ ptrs h) ->
    exists h', inc h (Some c) = Ok h' /\ sess h0 h' R (c :: X) O /\ (forall q t, ns h q t -> ns h' q t) /\ clones h' = clones h.
  Proof.
    intros [W A F Nd Rs] Hi. destruct (inc_ok h (Some c) (X ++ O) W A) as (h' & E & W' & A' & S1 & S2 & _ & Lc & C).
    { intros x [<-|[]]. exact Hi. }
    assert (Hn : forall a, get h a = None -> get h' a = None).
    { intros a Ga. destruct (get h' a) as [[c' n]|] eqn:G; auto. apply S2 in G as [c'' G]. congruence. }
    exists h'. split; auto. split; [|split; auto].
    - split; auto.
      + eapply frame_trans; [exact F|]. apply same_frame; auto; lia.
      + intros a Ha. destruct (Rs a Ha) as (G & L & P). split; [auto|]. split; [lia|auto].
    - intros q t. now apply den_same.
  Qed.
  Lemma sess_log (h0 h : heap) R d X O : sess h0 h R X O -> sess h0 (log h d) R X O /\ (forall q t, ns h q t -> ns (log h d) q t).
  Proof.
    intros [W A F Nd Rs]. destruct (log_ok h d (X ++ O) W A) as (W' & A' & S1 & S2 & Lc & _). split.
    - split; auto.
      eapply frame_trans; [exact F|]. apply same_frame; auto; lia.
    - intros q t. now apply den_same.
  Qed.
  Lemma node_at_ns (h : heap) a es ts : ns h a (BN es ts) -> exists ks, node_at h a = Ok (es, ks) /\ Forall2 (ns h) ks ts
    /\ forall k, In k ks -> In k (ptrs h).
  Proof.
    intros D. apply ns_inv in D as (c & ks & G & F). exists ks. unfold node_at. rewrite G. cbn [nd_data nd_kids]. rewrite olists_some.
    split; auto. split; auto. intros k Hk. eapply ptrs_in; [exact G|]. cbn [nd_kids]. now rewrite olists_some.
  Qed.
  Lemma w_shared_rel (h : heap) a t : ns h a t -> exists w, w_shared h a = Ok w /\ wrel h w (g_make t) /\ w_ptrs w = [a].
  Proof.
    intros D. destruct t as [es ts]. destruct (node_at_ns _ _ _ _ D) as (ks & E & F & _). unfold w_shared. rewrite E. cbn [bind].
    eexists. split; [reflexivity|]. split; [|reflexivity]. cbn [wrel g_make]. exists [], es, [], [], ts, []. rewrite !app_nil_r. cbn [app length].
    rewrite <- (f2_length _ _ _ F). split; [|auto 10]. f_equal; destruct F; auto.
  Qed.
  Lemma w_try_unwrap_ok (h0 h : heap) R a t X O : sess h0 h R (a :: X) O -> ns h a t ->
    exists h' w, w_try_unwrap h a = Ok (h', w) /\ sess h0 h' R (w_ptrs w ++ X) O /\ wrel h' w (g_make t) /\ keep (X ++ O) h h'
      /\ clones h' = clones h.
  Proof.
    intros S D. unfold w_try_unwrap. destruct (unique h a) eqn:U.
    - destruct t as [es ts]. destruct (sess_take h0 h R a X O es ts S D U) as (h1 & ks & E & S1 & F1 & K1 & C1 & _).
      rewrite E. cbn [bind nd_kids nd_data]. rewrite olists_some. eexists _, _. split; [reflexivity|]. cbn [w_ptrs].
      split; [eapply sess_forget; eauto|]. split; [|auto]. cbn [wrel g_make]. exists ts. split; auto. f_equal; destruct F1; auto.
    - destruct (w_shared_rel h a t D) as (w & E & Wr & P). rewrite E. cbn [bind]. eexists _, _. split; [reflexivity|]. rewrite P.
      split; auto. split; auto. split; [apply keep_refl|auto].
  Qed.

  Definition kid_rel (h : heap) (k : option hwork) (c : option bt) : Prop :=
    match k, c with None, None => True | Some w, Some t => wrel h w (g_make t) | _, _ => False end.
  Definition okid (k : option hwork) : list addr := match k with Some w => w_ptrs w | None => [] end.

  Lemma next_kid_sim (h0 h : heap) R w X O g c g' : sess h0 h R (w_ptrs w ++ X) O -> wrel h w g -> g_next_kid g = Ok (c, g') ->
    exists h' w' k, w_next_kid h w = Ok (h', w', k) /\ sess h0 h' R (okid k ++ w_ptrs w' ++ X) O /\ wrel h' w' g' /\ kid_rel h' k c
      /\ keep (X ++ O) h h' /\ clones h' = clones h.
  Proof.
    intros S Wr E. destruct w as [a le ue lk uk lf rt|es ks lf rt]; cbn [wrel w_ptrs w_next_kid] in *.
    - destruct Wr as (e1 & es & e2 & t1 & ts & t2 & -> & D & -> & -> & -> & ->).
      unfold g_next_kid in E. cbn [g_elems g_kids g_lf g_rt] in E.
      destruct ts as [|t ts]; cbn [is_nil orb assert_ bind hd_error tl] in E.
      + injection E as <- <-. cbn [length]. rewrite Nat.add_0_r, Nat.eqb_refl, orb_true_r. cbn [assert_ bind]. rewrite Nat.ltb_irrefl.
        eexists _, _, _. split; [reflexivity|]. cbn [okid w_ptrs app]. split; auto. split; [|split; [exact I|split; [apply keep_refl|auto]]].
        cbn [wrel]. exists e1, es, e2, t1, [], t2. cbn [length]. auto 10.
      + destruct lf; [|discriminate]. cbn [assert_ bind orb] in *. injection E as <- <-.
        assert (Hlt : length t1 <? length t1 + length (t :: ts) = true) by (apply Nat.ltb_lt; cbn [length]; lia). rewrite Hlt.
        destruct (node_at_ns _ _ _ _ D) as (ks & En & F & Ip). rewrite En. cbn [bind].
        rewrite Nat.add_sub. pose proof F as F'. cbn [app] in F'. apply f2_cut_r in F' as (k1 & k & k2 & -> & L1 & _ & Dk & _).
        replace (nth_error (k1 ++ k :: k2) (length t1)) with (Some k) by (rewrite <- L1, nth_error_app2, Nat.sub_diag by lia; auto). cbn [unwrap bind].
        destruct (sess_inc h0 h R k ([a] ++ X) O S) as (h1 & E1 & S1 & K1 & C1). { apply in_or_app. right. apply Ip. mem. }
        rewrite E1. cbn [bind]. destruct (w_shared_rel h1 k t (K1 _ _ Dk)) as (w & E2 & Wr2 & P2). rewrite E2. cbn [bind].
        eexists _, _, _. split; [reflexivity|]. cbn [okid w_ptrs]. rewrite P2. split; [exact S1|]. split; [|split; [exact Wr2|split; [intros q u _; apply K1|auto]]].
        cbn [wrel]. exists e1, es, e2, (t1 ++ [t]), ts, t2. split; auto. split; [rewrite <- app_assoc; apply K1; exact D|].
        rewrite app_length. cbn [length]. repeat split; lia.
    - destruct Wr as (ts & -> & F). unfold g_next_kid in E. cbn [g_elems g_kids g_lf g_rt] in E.
      assert (Hn : is_nil ks = is_nil ts) by (destruct F; auto). rewrite Hn.
      destruct (is_nil ts || lf); [|discriminate]. cbn [assert_ bind] in *. injection E as <- <-. destruct F as [|k t ks ts D F].
      + eexists _, _, _. split; [reflexivity|]. cbn [okid w_ptrs app hd_error tl kid_rel wrel]. split; auto. split; [exists []; auto|]. split; auto. split; [apply keep_refl|auto].
      + destruct (w_try_unwrap_ok h0 h R k t (ks ++ X) O S D) as (h1 & w & E1 & S1 & W1 & K1 & C1).
        rewrite E1. cbn [bind]. eexists _, _, _. split; [reflexivity|]. cbn [okid w_ptrs hd_error tl kid_rel wrel]. split; auto.
        split; [exists ts; split; auto; eapply keep_f2; [exact K1|inc|auto]|]. split; auto. split; [|auto]. eapply keep_incl; [|exact K1]. inc.
  Qed.

  Lemma next_back_kid_sim (h0 h : heap) R w X O g c g' : sess h0 h R (w_ptrs w ++ X) O -> wrel h w g -> g_next_back_kid g = Ok (c, g') ->
    exists h' w' k, w_next_back_kid h w = Ok (h', w', k) /\ sess h0 h' R (okid k ++ w_ptrs w' ++ X) O /\ wrel h' w' g' /\ kid_rel h' k c
      /\ keep (X ++ O) h h' /\ clones h' = clones h.
  Proof.
    intros S Wr E. destruct w as [a le ue lk uk lf rt|es ks lf rt]; cbn [wrel w_ptrs w_next_back_kid] in *.
    - destruct Wr as (e1 & es & e2 & t1 & ts & t2 & -> & D & -> & -> & -> & ->).
      unfold g_next_back_kid in E. cbn [g_elems g_kids g_lf g_rt] in E.
      destruct ts as [|t ts _] using rev_ind; cbn [is_nil orb assert_ bind hd_error rev removelast] in E.
      + injection E as <- <-. cbn [length]. rewrite Nat.add_0_r, Nat.eqb_refl, orb_true_r. cbn [assert_ bind]. rewrite Nat.ltb_irrefl.
        eexists _, _, _. split; [reflexivity|]. cbn [okid w_ptrs app]. split; auto. split; [|split; [exact I|split; [apply keep_refl|auto]]].
        cbn [wrel]. exists e1, es, e2, t1, [], t2. cbn [length]. auto 10.
      + assert (Hn : is_nil (ts ++ [t]) = false) by (destruct ts; auto). rewrite Hn in E.
        destruct rt; [|discriminate]. cbn [assert_ bind orb] in *. rewrite rev_app_distr, removelast_last in E. cbn [rev app hd_error] in E. injection E as <- <-.
        rewrite app_length. cbn [length].
        assert (Hlt : length t1 <? length t1 + (length ts + 1) = true) by (apply Nat.ltb_lt; lia). rewrite Hlt.
        rewrite usize_sub_ok by lia. cbn [bind].
        destruct (node_at_ns _ _ _ _ D) as (ks & En & F & Ip). rewrite En. cbn [bind].
        pose proof F as F'. replace (t1 ++ (ts ++ [t]) ++ t2) with ((t1 ++ ts) ++ t :: t2) in F' by (now rewrite <- !app_assoc).
        apply f2_cut_r in F' as (k1 & k & k2 & -> & L1 & _ & Dk & _). rewrite app_length in L1.
        replace (length t1 + (length ts + 1) - 1) with (length k1) by lia. rewrite nth_error_app2, Nat.sub_diag by lia. cbn [nth_error unwrap bind].
        destruct (sess_inc h0 h R k ([a] ++ X) O S) as (h1 & E1 & S1 & K1 & C1). { apply in_or_app. right. apply Ip. mem. }
        rewrite E1. cbn [bind]. destruct (w_shared_rel h1 k t (K1 _ _ Dk)) as (w & E2 & Wr2 & P2). rewrite E2. cbn [bind].
        eexists _, _, _. split; [reflexivity|]. cbn [okid w_ptrs]. rewrite P2. split; [exact S1|]. split; [|split; [exact Wr2|split; [intros q u _; apply K1|auto]]].
        cbn [wrel]. exists e1, es, e2, t1, ts, (t :: t2). split; auto. split; [|repeat split; lia].
        apply K1. rewrite <- app_assoc in D. exact D.
    - destruct Wr as (ts & -> & F). unfold g_next_back_kid in E. cbn [g_elems g_kids g_lf g_rt] in E.
      assert (Hn : is_nil ks = is_nil ts) by (destruct F; auto). rewrite Hn.
      destruct (is_nil ts || rt); [|discriminate]. cbn [assert_ bind] in *. injection E as <- <-.
      destruct ts as [|t ts _] using rev_ind.
      + inversion F; subst. eexists _, _, _. split; [reflexivity|]. cbn [okid w_ptrs app hd_error rev removelast kid_rel wrel]. split; auto. split; [exists []; auto|]. split; auto. split; [apply keep_refl|auto].
      + apply Forall2_app_inv_r in F as (ks0 & k1 & F0 & F1 & ->). inversion F1 as [|k ? ? ? D Fn]; subst. inversion Fn; subst.
        rewrite vec_pop_snoc, rev_app_distr, removelast_last. cbn [rev app hd_error].
        assert (S' : sess h0 h R (k :: ks0 ++ X) O) by perm.
        destruct (w_try_unwrap_ok h0 h R k t (ks0 ++ X) O S' D) as (h1 & w & E1 & S1 & W1 & K1 & C1).
        rewrite E1. cbn [bind]. eexists _, _, _. split; [reflexivity|]. cbn [okid w_ptrs kid_rel wrel]. split; auto.
        split; [exists ts; split; auto; eapply keep_f2; [exact K1|inc|auto]|]. split; auto. split; [|auto]. eapply keep_incl; [|exact K1]. inc.
  Qed.

  Definition cl_of (x : option entry) (cs : list pay) : Prop := cs = [] \/ exists e, x = Some e /\ cs = [[e]].

  Lemma next_elem_sim (h0 h : heap) R w X O g x g' : sess h0 h R (w_ptrs w ++ X) O -> wrel h w g -> g_next_elem g = Ok (x, g') ->
    exists h' w' o, w_next_elem bomb h w = Ok (h', w', o) /\ sess h0 h' R (w_ptrs w' ++ X) O
      /\ (forall q t, ns h q t -> ns h' q t) /\ wrel h' w' g' /\ (exists cs, clones h' = cs ++ clones h /\ cl_of x cs)
      /\ match o with Done y => y = x | Unwound => x <> None /\ bomb (length (clones h)) = true end.
  Proof.
    intros S Wr E. destruct w as [a le ue lk uk lf rt|es ks lf rt]; cbn [wrel w_ptrs w_next_elem] in *.
    - destruct Wr as (e1 & es & e2 & t1 & ts & t2 & -> & D & -> & -> & -> & ->).
      unfold g_next_elem in E. cbn [g_elems g_kids g_lf g_rt] in E. destruct lf; [discriminate|]. cbn [negb assert_ bind] in *. injection E as <- <-.
      assert (Hlf : (length t1 <? length t1 + length ts) = negb (is_nil ts)).
      { destruct ts; cbn [length is_nil negb]; [apply Nat.ltb_ge|apply Nat.ltb_lt]; lia. }
      rewrite Hlf. destruct es as [|e es]; cbn [length hd_error tl].
      + rewrite Nat.add_0_r, Nat.ltb_irrefl. eexists _, _, _. split; [reflexivity|]. split; auto. split; auto. split; [|split; [exists []; split; auto; now left|auto]].
        cbn [wrel]. exists e1, [], e2, t1, ts, t2. cbn [length]. auto 10.
      + assert (Hlt : length e1 <? length e1 + Datatypes.S (length es) = true) by (apply Nat.ltb_lt; lia). rewrite Hlt.
        destruct (node_at_ns _ _ _ _ D) as (ks & En & F & Ip). rewrite En. cbn [bind]. rewrite Nat.add_sub.
        rewrite nth_error_app2, Nat.sub_diag by lia. cbn [app nth_error unwrap bind]. unfold clone_entry. cbv beta iota zeta.
        destruct (sess_log h0 h R [e] ([a] ++ X) O S) as (S1 & K1).
        eexists _, _, _. split; [reflexivity|]. split; [exact S1|]. split; auto. split; [|split].
        * cbn [wrel]. exists (e1 ++ [e]), es, e2, t1, ts, t2. split; auto. split; [rewrite <- app_assoc; apply K1; exact D|]. rewrite app_length. cbn [length]. repeat split; lia.
        * exists [[e]]. split; auto. right. eauto.
        * destruct (bomb (length (clones h))); split; congruence.
    - destruct Wr as (ts & -> & F). unfold g_next_elem in E. cbn [g_elems g_kids g_lf g_rt] in E. destruct (negb lf); [|discriminate]. cbn [assert_ bind] in *. injection E as <- <-.
      assert (Hn : is_nil ks = is_nil ts) by (destruct F; auto). rewrite Hn. eexists _, _, _. split; [reflexivity|]. split; auto. split; auto.
      split; [cbn [wrel]; eauto|]. split; auto. exists []. split; auto. now left.
  Qed.
  Lemma next_back_elem_sim (h0 h : heap) R w X O g x g' : sess h0 h R (w_ptrs w ++ X) O -> wrel h w g -> g_next_back_elem g = Ok (x, g') ->
    exists h' w' o, w_next_back_elem bomb h w = Ok (h', w', o) /\ sess h0 h' R (w_ptrs w' ++ X) O
      /\ (forall q t, ns h q t -> ns h' q t) /\ wrel h' w' g' /\ (exists cs, clones h' = cs ++ clones h /\ cl_of x cs)
      /\ match o with Done y => y = x | Unwound => x <> None /\ bomb (length (clones h)) = true end.
  Proof.
    intros S Wr E. destruct w as [a le ue lk uk lf rt|es ks lf rt]; cbn [wrel w_ptrs w_next_back_elem] in *.
    - destruct Wr as (e1 & es & e2 & t1 & ts & t2 & -> & D & -> & -> & -> & ->).
      unfold g_next_back_elem in E. cbn [g_elems g_kids g_lf g_rt] in E. destruct rt; [discriminate|]. cbn [negb assert_ bind] in *. injection E as <- <-.
      assert (Hlf : (length t1 <? length t1 + length ts) = negb (is_nil ts)).
      { destruct ts; cbn [length is_nil negb]; [apply Nat.ltb_ge|apply Nat.ltb_lt]; lia. }
      rewrite Hlf. destruct es as [|e es _] using rev_ind; cbn [length hd_error rev removelast].
      + rewrite Nat.add_0_r, Nat.ltb_irrefl. eexists _, _, _. split; [reflexivity|]. split; auto. split; auto. split; [|split; [exists []; split; auto; now left|auto]].
        cbn [wrel]. exists e1, [], e2, t1, ts, t2. cbn [length]. auto 10.
      + rewrite app_length, rev_app_distr, removelast_last. cbn [length rev app hd_error].
        assert (Hlt : length e1 <? length e1 + (length es + 1) = true) by (apply Nat.ltb_lt; lia). rewrite Hlt.
        rewrite usize_sub_ok by lia. cbn [bind].
        destruct (node_at_ns _ _ _ _ D) as (ks & En & F & Ip). rewrite En. cbn [bind].
        replace (e1 ++ (es ++ [e]) ++ e2) with ((e1 ++ es) ++ e :: e2) by (now rewrite <- !app_assoc).
        replace (length e1 + (length es + 1) - 1) with (length (e1 ++ es)) by (rewrite app_length; lia).
        rewrite nth_error_app2, Nat.sub_diag by lia. cbn [nth_error unwrap bind]. unfold clone_entry. cbv beta iota zeta.
        destruct (sess_log h0 h R [e] ([a] ++ X) O S) as (S1 & K1).
        eexists _, _, _. split; [reflexivity|]. split; [exact S1|]. split; auto. split; [|split].
        * cbn [wrel]. exists e1, es, (e :: e2), t1, ts, t2. split; auto. split; [|rewrite app_length; auto 10]. rewrite <- app_assoc in D. apply K1; exact D.
        * exists [[e]]. split; auto. right. eauto.
        * destruct (bomb (length (clones h))); split; congruence.
    - destruct Wr as (ts & -> & F). unfold g_next_back_elem in E. cbn [g_elems g_kids g_lf g_rt] in E. destruct (negb rt); [|discriminate]. cbn [assert_ bind] in *. injection E as <- <-.
      assert (Hn : is_nil ks = is_nil ts) by (destruct F; auto). rewrite Hn. eexists _, _, _. split; [reflexivity|]. split; auto. split; auto.
      split; [cbn [wrel]; eauto|]. split; auto. exists []. split; auto. now left.
  Qed.

  Lemma sess_wdrop (h0 h : heap) R w X O : sess h0 h R (w_ptrs w ++ X) O ->
    exists h', w_drop h w = Ok h' /\ sess h0 h' R X O /\ keep (X ++ O) h h' /\ clones h' = clones h.
  Proof. intros S. destruct (sess_drops h0 h R (w_ptrs w) X O S) as (h' & E & P1 & P2 & P3 & _). exists h'. auto. Qed.

  (** ** Descents *)
  Lemma des_lf_heap f : forall f' (h0 h : heap) R ws gs gs' X O, f <= f' -> Forall2 (wrel h) ws gs -> sess h0 h R (wps ws ++ X) O ->
    des_lf borrowed f gs = Ok gs' ->
    exists h' ws', h_des_lf f' h ws = Ok (h', ws') /\ sess h0 h' R (wps ws' ++ X) O /\ Forall2 (wrel h') ws' gs'
      /\ keep (X ++ O) h h' /\ clones h' = clones h.
  Proof.
    induction f as [|f IH]; intros f' h0 h R ws gs gs' X O Hf F S E; [discriminate|]. destruct f' as [|f']; [lia|].
    cbn [des_lf h_des_lf] in *. destruct F as [|w g ws gs Wr F]; [discriminate|].
    cbn [borrowed BTreeIterModel.borrowed ni_next_kid] in E. destruct (g_next_kid g) as [[c g1]|] eqn:Ek; [|discriminate]. cbn [bind] in E.
    assert (S0 : sess h0 h R (w_ptrs w ++ wps ws ++ X) O) by (cbn [flat_map] in S; perm).
    destruct (next_kid_sim h0 h R w (wps ws ++ X) O g c g1 S0 Wr Ek) as (h1 & w1 & k & E1 & S1 & W1 & Kr & K1 & C1). rewrite E1. cbn [bind].
    assert (F1 : Forall2 (wrel h1) ws gs) by (eapply wrels_keep; [exact K1|inc|exact F]).
    destruct k as [kw|], c as [c|]; cbn [kid_rel okid app] in *; try contradiction.
    - destruct (wrel_flags _ _ _ W1) as (Ee & _). rewrite Ee. change (ni_make borrowed c) with (g_make c) in E. change (ni_empty borrowed g1) with (g_empty g1) in E. destruct (g_empty g1).
      + assert (S1' : sess h0 h1 R (w_ptrs w1 ++ (w_ptrs kw ++ wps ws ++ X)) O) by perm.
        destruct (sess_wdrop h0 h1 R w1 _ O S1') as (h2 & E2 & S2 & K2 & C2). rewrite E2. cbn [bind].
        destruct (IH f' h0 h2 R (kw :: ws) (g_make c :: gs) gs' X O) as (h3 & ws3 & E3 & S3 & F3 & K3 & C3); [lia| | |exact E|].
        { constructor; [eapply wrel_keep; [exact K2|inc|exact Kr]|]. eapply wrels_keep; [exact K2|inc|exact F1]. }
        { cbn [flat_map]. perm. }
        rewrite E3. eexists _, _. split; [reflexivity|]. split; auto. split; auto. split; [|congruence].
        eapply keep_trans; [eapply keep_incl; [|exact K1]; inc|]. eapply keep_trans; [eapply keep_incl; [|exact K2]; inc|auto].
      + destruct (IH f' h0 h1 R (kw :: w1 :: ws) (g_make c :: g1 :: gs) gs' X O) as (h3 & ws3 & E3 & S3 & F3 & K3 & C3); [lia|auto| |exact E|].
        { cbn [flat_map]. perm. }
        rewrite E3. eexists _, _. split; [reflexivity|]. split; auto. split; auto. split; [|congruence].
        eapply keep_trans; [eapply keep_incl; [|exact K1]; inc|auto].
    - injection E as <-. eexists _, _. split; [reflexivity|]. cbn [flat_map]. split; [perm|]. split; auto. split; [|auto].
      eapply keep_incl; [|exact K1]; inc.
  Qed.
  Lemma f2_snoc {A B} (R : A -> B -> Prop) xs ys : Forall2 R xs ys ->
    (xs = [] /\ ys = []) \/ exists x xs0 y ys0, xs = xs0 ++ [x] /\ ys = ys0 ++ [y] /\ R x y /\ Forall2 R xs0 ys0.
  Proof.
    intros F. destruct ys as [|y ys _] using rev_ind; [inversion F; auto|]. right.
    apply Forall2_app_inv_r in F as (xs0 & x1 & F0 & F1 & ->). inversion F1 as [|x ? ? ? D Fn]; subst. inversion Fn; subst. eauto 8.
  Qed.
  Lemma f2_snoc_intro {A B} (R : A -> B -> Prop) xs ys x y : Forall2 R xs ys -> R x y -> Forall2 R (xs ++ [x]) (ys ++ [y]).
  Proof. intros F D. apply Forall2_app; auto. Qed.
  Lemma wps_snoc ws w : wps (ws ++ [w]) = wps ws ++ w_ptrs w.
  Proof. rewrite flat_map_app. cbn. now rewrite app_nil_r. Qed.
  Lemma des_rt_heap f : forall f' (h0 h : heap) R ws gs gs' X O, f <= f' -> Forall2 (wrel h) ws gs -> sess h0 h R (wps ws ++ X) O ->
    des_rt borrowed f gs = Ok gs' ->
    exists h' ws', h_des_rt f' h ws = Ok (h', ws') /\ sess h0 h' R (wps ws' ++ X) O /\ Forall2 (wrel h') ws' gs'
      /\ keep (X ++ O) h h' /\ clones h' = clones h.
  Proof.
    induction f as [|f IH]; intros f' h0 h R ws gs gs' X O Hf F S E; [discriminate|]. destruct f' as [|f']; [lia|].
    cbn [des_rt h_des_rt] in *. apply f2_snoc in F as [[-> ->]|(w & ws0 & g & gs0 & -> & -> & Wr & F)]; [discriminate|].
    rewrite vec_pop_snoc in E. rewrite vec_pop_snoc. cbn [unwrap bind] in *. rewrite wps_snoc in S. rename ws0 into ws, gs0 into gs.
    cbn [borrowed BTreeIterModel.borrowed ni_next_back_kid] in E. destruct (g_next_back_kid g) as [[c g1]|] eqn:Ek; [|discriminate]. cbn [bind] in E.
    assert (S0 : sess h0 h R (w_ptrs w ++ wps ws ++ X) O) by perm.
    destruct (next_back_kid_sim h0 h R w (wps ws ++ X) O g c g1 S0 Wr Ek) as (h1 & w1 & k & E1 & S1 & W1 & Kr & K1 & C1). rewrite E1. cbn [bind].
    assert (F1 : Forall2 (wrel h1) ws gs) by (eapply wrels_keep; [exact K1|inc|exact F]).
    destruct k as [kw|], c as [c|]; cbn [kid_rel okid app] in *; try contradiction.
    - destruct (wrel_flags _ _ _ W1) as (Ee & _). rewrite Ee. change (ni_make borrowed c) with (g_make c) in E. change (ni_empty borrowed g1) with (g_empty g1) in E. destruct (g_empty g1).
      + assert (S1' : sess h0 h1 R (w_ptrs w1 ++ (w_ptrs kw ++ wps ws ++ X)) O) by perm.
        destruct (sess_wdrop h0 h1 R w1 _ O S1') as (h2 & E2 & S2 & K2 & C2). rewrite E2. cbn [bind].
        destruct (IH f' h0 h2 R (ws ++ [kw]) (gs ++ [g_make c]) gs' X O) as (h3 & ws3 & E3 & S3 & F3 & K3 & C3); [lia| | |exact E|].
        { apply f2_snoc_intro; [|eapply wrel_keep; [exact K2|inc|exact Kr]]. eapply wrels_keep; [exact K2|inc|exact F1]. }
        { rewrite wps_snoc. perm. }
        rewrite E3. eexists _, _. split; [reflexivity|]. split; auto. split; auto. split; [|congruence].
        eapply keep_trans; [eapply keep_incl; [|exact K1]; inc|]. eapply keep_trans; [eapply keep_incl; [|exact K2]; inc|auto].
      + destruct (IH f' h0 h1 R (ws ++ [w1; kw]) ((gs ++ [g1]) ++ [g_make c]) gs' X O) as (h3 & ws3 & E3 & S3 & F3 & K3 & C3); [lia| | |exact E|].
        { rewrite <- app_assoc. apply Forall2_app; [auto|constructor; [auto|constructor; auto]]. }
        { rewrite flat_map_app. cbn [flat_map]. perm. }
        rewrite E3. eexists _, _. split; [reflexivity|]. split; auto. split; auto. split; [|congruence].
        eapply keep_trans; [eapply keep_incl; [|exact K1]; inc|auto].
    - injection E as <-. eexists _, _. split; [reflexivity|]. rewrite wps_snoc. split; [perm|]. split; [now apply f2_snoc_intro|]. split; [|auto].
      eapply keep_incl; [|exact K1]; inc.
  Qed.

  Lemma wrel_fuel (h : heap) w g : wrel h w g -> g_fuel g <= S (depth h).
  Proof.
    intros Wr. unfold g_fuel, depth. fold (max_levels (g_kids g)). apply le_n_S, le_n_S. apply max_levels_le. intros c Hc.
    destruct w as [a le ue lk uk lf rt|es ks lf rt]; cbn [wrel] in Wr.
    - destruct Wr as (e1 & es & e2 & t1 & ts & t2 & -> & D & _). cbn [g_kids] in Hc. destruct (node_at_ns _ _ _ _ D) as (ks & _ & F & _).
      assert (Hi : In c (t1 ++ ts ++ t2)) by (apply in_or_app; right; apply in_or_app; now left).
      apply in_split in Hi as (u1 & u2 & Eu). rewrite Eu in F. apply f2_cut_r in F as (k1 & k & k2 & _ & _ & _ & Dk & _). eapply levels_depth; eauto.
    - destruct Wr as (ts & -> & F). cbn [g_kids] in Hc. apply in_split in Hc as (u1 & u2 & ->).
      apply f2_cut_r in F as (k1 & k & k2 & _ & _ & _ & Dk & _). eapply levels_depth; eauto.
  Qed.

  (** ** [next] and [next_back] *)
  Lemma next_heap (h0 h : heap) R it gs x gs' len' X O : Forall2 (wrel h) (hi_work it) gs -> sess h0 h R (wps (hi_work it) ++ X) O ->
    b_next borrowed (BIter gs (hi_len it)) = Ok (x, BIter gs' len') ->
    exists h' it' o, h_next bomb h it = Ok (h', it', o) /\ sess h0 h' R (wps (hi_work it') ++ X) O /\ keep (X ++ O) h h'
      /\ (exists cs, clones h' = cs ++ clones h /\ cl_of x cs)
      /\ match o with
         | Done y => y = x /\ Forall2 (wrel h') (hi_work it') gs' /\ hi_len it' = len'
         | Unwound => x <> None /\ exists n, bomb n = true
         end.
  Proof.
    destruct it as [ws len]. cbn [hi_work hi_len]. intros F S E. unfold b_next, h_next in *. cbn [bi_work bi_len hi_work hi_len] in *.
    destruct F as [|w g ws gs Wr F].
    { injection E as <- <- <-. eexists _, _, _. split; [reflexivity|]. cbn [hi_work hi_len]. split; auto. split; [apply keep_refl|]. split; auto. exists []. split; auto. now left. }
    destruct (wrel_flags _ _ _ Wr) as (_ & El & _). rewrite El.
    change (ni_lf borrowed g) with (g_lf g) in E. change (ni_fuel borrowed g) with (g_fuel g) in E.
    assert (G : forall gs1, (if g_lf g then des_lf borrowed (g_fuel g) (g :: gs) else Ok (g :: gs)) = Ok gs1 ->
      exists h1 ws1, (if g_lf g then h_des_lf (Datatypes.S (depth h)) h (w :: ws) else Ok (h, w :: ws)) = Ok (h1, ws1)
        /\ sess h0 h1 R (wps ws1 ++ X) O /\ Forall2 (wrel h1) ws1 gs1 /\ keep (X ++ O) h h1 /\ clones h1 = clones h).
    { intros gs1 E1. destruct (g_lf g).
      - eapply des_lf_heap; [|  | |exact E1]; auto. eapply wrel_fuel; eauto.
      - injection E1 as <-. eexists _, _. split; [reflexivity|]. split; auto. split; auto. split; [apply keep_refl|auto]. }
    destruct (if g_lf g then des_lf borrowed (g_fuel g) (g :: gs) else Ok (g :: gs)) as [gs1|]; [|discriminate].
    destruct (G gs1 eq_refl) as (h1 & ws1 & Ea & S1 & F1 & K1 & C1). rewrite Ea. cbn [bind] in *. clear Ea G.
    destruct F1 as [|w1 g1 ws1 gs1 Wr1 F1]; [discriminate|].
    change (ni_next_elem borrowed g1) with (g_next_elem g1) in E. destruct (g_next_elem g1) as [[y g2]|] eqn:Ey; [|discriminate]. cbn [bind] in E.
    assert (S1' : sess h0 h1 R (w_ptrs w1 ++ wps ws1 ++ X) O) by (cbn [flat_map] in S1; perm).
    destruct (next_elem_sim h0 h1 R w1 _ O g1 y g2 S1' Wr1 Ey) as (h2 & w2 & o & E2 & S2 & K2 & Wr2 & (cs & C2 & Cl) & P). rewrite E2. cbn [bind].
    destruct y as [y|]; [|discriminate]. cbn [assert_ bind] in *. destruct (usize_sub len 1) as [len1|]; [|discriminate]. cbn [bind] in *. injection E as <- <- <-.
    assert (K2' : keep (X ++ O) h h2) by (eapply keep_trans; [exact K1|intros q t _; apply K2]).
    destruct o as [z|].
    - subst z. cbn [assert_ bind]. destruct (wrel_flags _ _ _ Wr2) as (Ee & _). rewrite Ee. change (ni_empty borrowed g2) with (g_empty g2).
      assert (F2 : Forall2 (wrel h2) ws1 gs1) by (eapply wrels_keep; [intros q t _; apply K2|apply incl_refl|exact F1]).
      destruct (g_empty g2).
      + destruct (sess_wdrop h0 h2 R w2 _ O S2) as (h3 & E3 & S3 & K3 & C3). rewrite E3. cbn [bind]. eexists _, _, _. split; [reflexivity|]. cbn [hi_work hi_len].
        split; auto. split; [eapply keep_trans; [exact K2'|eapply keep_incl; [|exact K3]; inc]|]. split; [exists cs; split; auto; congruence|].
        split; auto. split; auto. eapply wrels_keep; [exact K3|inc|exact F2].
      + eexists _, _, _. split; [reflexivity|]. cbn [hi_work hi_len flat_map]. split; [perm|]. split; auto. split; [exists cs; split; auto; congruence|]. auto.
    - destruct P as [P1 P2]. eexists _, _, _. split; [reflexivity|]. cbn [hi_work hi_len flat_map]. split; [perm|]. split; auto. split; [exists cs; split; auto; congruence|]. eauto.
  Qed.
  Lemma next_back_heap (h0 h : heap) R it gs x gs' len' X O : Forall2 (wrel h) (hi_work it) gs -> sess h0 h R (wps (hi_work it) ++ X) O ->
    b_next_back borrowed (BIter gs (hi_len it)) = Ok (x, BIter gs' len') ->
    exists h' it' o, h_next_back bomb h it = Ok (h', it', o) /\ sess h0 h' R (wps (hi_work it') ++ X) O /\ keep (X ++ O) h h'
      /\ (exists cs, clones h' = cs ++ clones h /\ cl_of x cs)
      /\ match o with
         | Done y => y = x /\ Forall2 (wrel h') (hi_work it') gs' /\ hi_len it' = len'
         | Unwound => x <> None /\ exists n, bomb n = true
         end.
  Proof.
    destruct it as [ws len]. cbn [hi_work hi_len]. intros F S E. unfold b_next_back, h_next_back in *. cbn [bi_work bi_len hi_work hi_len] in *.
    pose proof F as F'. apply f2_snoc in F' as [[-> ->]|(w & ws0 & g & gs0 & Ew & Eg & Wr & _)].
    { injection E as <- <- <-. eexists _, _, _. split; [reflexivity|]. cbn [hi_work hi_len]. split; auto. split; [apply keep_refl|]. split; auto. exists []. split; auto. now left. }
    replace (vec_pop ws) with (Some (w, ws0)) by (rewrite Ew, vec_pop_snoc; auto).
    replace (vec_pop gs) with (Some (g, gs0)) in E by (rewrite Eg, vec_pop_snoc; auto). clear Ew Eg ws0 gs0.
    destruct (wrel_flags _ _ _ Wr) as (_ & _ & El). rewrite El.
    change (ni_rt borrowed g) with (g_rt g) in E. change (ni_fuel borrowed g) with (g_fuel g) in E.
    assert (G : forall gs1, (if g_rt g then des_rt borrowed (g_fuel g) gs else Ok gs) = Ok gs1 ->
      exists h1 ws1, (if g_rt g then h_des_rt (Datatypes.S (depth h)) h ws else Ok (h, ws)) = Ok (h1, ws1)
        /\ sess h0 h1 R (wps ws1 ++ X) O /\ Forall2 (wrel h1) ws1 gs1 /\ keep (X ++ O) h h1 /\ clones h1 = clones h).
    { intros gs1 E1. destruct (g_rt g).
      - eapply des_rt_heap; [|  | |exact E1]; auto. eapply wrel_fuel; eauto.
      - injection E1 as <-. eexists _, _. split; [reflexivity|]. split; auto. split; auto. split; [apply keep_refl|auto]. }
    destruct (if g_rt g then des_rt borrowed (g_fuel g) gs else Ok gs) as [gs1|]; [|discriminate].
    destruct (G gs1 eq_refl) as (h1 & ws1 & Ea & S1 & F1 & K1 & C1). rewrite Ea. cbn [bind] in *. clear Ea G.
    apply f2_snoc in F1 as [[-> ->]|(w1 & ws2 & g1 & gs2 & -> & -> & Wr1 & F1)]; [discriminate|]. rewrite vec_pop_snoc in E. rewrite vec_pop_snoc. cbn [unwrap bind] in *.
    change (ni_next_back_elem borrowed g1) with (g_next_back_elem g1) in E. destruct (g_next_back_elem g1) as [[y g2]|] eqn:Ey; [|discriminate]. cbn [bind] in E.
    assert (S1' : sess h0 h1 R (w_ptrs w1 ++ wps ws2 ++ X) O) by (rewrite wps_snoc in S1; perm).
    destruct (next_back_elem_sim h0 h1 R w1 _ O g1 y g2 S1' Wr1 Ey) as (h2 & w2 & o & E2 & S2 & K2 & Wr2 & (cs & C2 & Cl) & P). rewrite E2. cbn [bind].
    destruct y as [y|]; [|discriminate]. cbn [assert_ bind] in *. destruct (usize_sub len 1) as [len1|]; [|discriminate]. cbn [bind] in *. injection E as <- <- <-.
    assert (K2' : keep (X ++ O) h h2) by (eapply keep_trans; [exact K1|intros q t _; apply K2]).
    destruct o as [z|].
    - subst z. cbn [assert_ bind]. destruct (wrel_flags _ _ _ Wr2) as (Ee & _). rewrite Ee. change (ni_empty borrowed g2) with (g_empty g2).
      assert (F2 : Forall2 (wrel h2) ws2 gs2) by (eapply wrels_keep; [intros q t _; apply K2|apply incl_refl|exact F1]).
      destruct (g_empty g2).
      + destruct (sess_wdrop h0 h2 R w2 _ O S2) as (h3 & E3 & S3 & K3 & C3). rewrite E3. cbn [bind]. eexists _, _, _. split; [reflexivity|]. cbn [hi_work hi_len].
        split; auto. split; [eapply keep_trans; [exact K2'|eapply keep_incl; [|exact K3]; inc]|]. split; [exists cs; split; auto; congruence|].
        split; auto. split; auto. eapply wrels_keep; [exact K3|inc|exact F2].
      + eexists _, _, _. split; [reflexivity|]. cbn [hi_work hi_len]. split; [rewrite wps_snoc; perm|]. split; auto. split; [exists cs; split; auto; congruence|].
        split; auto. split; auto. now apply f2_snoc_intro.
    - destruct P as [P1 P2]. eexists _, _, _. split; [reflexivity|]. cbn [hi_work hi_len]. split; [rewrite wps_snoc; perm|]. split; auto. split; [exists cs; split; auto; congruence|]. eauto.
  Qed.
End Owning.
