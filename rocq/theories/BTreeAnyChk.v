(** [check] of the B-tree map with any comparison function: it returns, and finds a descent wherever two neighbours are
    told not to ascend. *)
From Coq Require Import List PeanoNat Bool Lia Sorted.
From Verif Require Import Base Spec MapSpec Vec BTreeModel BTreeProofs BTreeProofs2 BTreeChkProofs BTreeAnyProofs AnyOrdSpec AvlAnyHist.
Import ListNotations.
Local Open Scope nat_scope.

Section AnyChk.
  Context {K V Q : Type} (bor : K -> Q) (cmp : Q -> Q -> comparison).
  Context (N : nat) (HN : 1 <= N).
  Notation entry := (K * V)%type.
  Notation flat := (@flat K V).
  Notation shape := (@shape K V N).
  Notation chk := (@n_chk K V Q bor cmp N).
  Notation before := (fun x y : K => cmp (bor x) (bor y) = Lt).
  Notation keys := (map (@fst K V)).
  Notation opt g := (match g with Some k => [k] | None => [] end).
  Notation lst p l := (hd_error (rev (opt p ++ l))).

  Definition copes (f : option K -> res (@check K + bt_err)) (l : list entry) : Prop :=
    forall p, exists r, f p = Ok r
      /\ forall c, r = inl c -> Sorted before (opt p ++ keys l) /\ ck_greatest c = lst p (keys l).

  Lemma last_app (a : list K) x b : hd_error (rev (a ++ x :: b)) = hd_error (rev (x :: b)).
  Proof. rewrite rev_app_distr. cbn [rev]. now destruct (rev b). Qed.
  Lemma last_some (x : K) b : exists g, hd_error (rev (x :: b)) = Some g.
  Proof. cbn [rev]. destruct (rev b); cbn; eauto. Qed.
  Lemma sorted_glue (a b : list K) x : Sorted before (x :: a) -> Sorted before (opt (hd_error (rev (x :: a))) ++ b) -> Sorted before (x :: a ++ b).
  Proof.
    revert x. induction a as [|y a IH]; intros x Sa Sb; [exact Sb|]. inversion Sa as [|? ? Sa' Hd]; subst. cbn [app]. constructor.
    - apply IH; auto. change (x :: y :: a) with ([x] ++ y :: a) in Sb. now rewrite last_app in Sb.
    - inversion Hd. now constructor.
  Qed.
  Lemma last_glue (a b : list K) x : hd_error (rev (opt (hd_error (rev (x :: a))) ++ b)) = hd_error (rev (x :: a ++ b)).
  Proof.
    destruct (last_some x a) as [g E]. rewrite E. destruct b as [|y b].
    - cbn [app]. now rewrite app_nil_r, E.
    - change (x :: a ++ y :: b) with ((x :: a) ++ y :: b). now rewrite !last_app.
  Qed.

  Lemma loop_copes kid ht : forall es L i len p, length L = length es ->
    (forall j l, nth_error L j = Some l -> copes (chk_child kid (i + j)) l) ->
    exists r, chk_loop bor cmp kid i es ht len (Some p) = Ok r
      /\ forall len' p', r = inl (len', p') -> Sorted before (p :: keys (zipl L es)) /\ p' = hd_error (rev (p :: keys (zipl L es))).
  Proof.
    induction es as [|[k v] es IH]; intros [|l L] i len p HL HC; try discriminate; cbn [chk_loop].
    - eexists. split; [reflexivity|]. intros ? ? [= <- <-]. cbn. auto.
    - destruct (HC 0 l eq_refl (Some p)) as (r & E & Hr). rewrite Nat.add_0_r in E. rewrite E. cbn [bind].
      destruct r as [c|]; [|eexists; split; [reflexivity|discriminate]]. destruct (Hr _ eq_refl) as [S1 G1]. cbn [app] in S1, G1.
      destruct (negb _); [eexists; split; [reflexivity|discriminate]|].
      destruct (last_some p (keys l)) as [g Eg]. rewrite Eg in G1. rewrite G1. cbn [unwrap bind].
      destruct (key_ge bor cmp g k) eqn:Ek; [eexists; split; [reflexivity|discriminate]|]. apply key_ge_lt in Ek.
      destruct (IH L (S i) (len + ck_len c) k) as (r & E2 & Hr2); [cbn in HL; lia| |].
      { intros j l' Hj. rewrite Nat.add_succ_l, <- Nat.add_succ_r. now apply HC. }
      rewrite E2. exists r. split; auto. intros len' p' ->. destruct (Hr2 _ _ eq_refl) as [S2 G2]. rewrite zipl_cons, map_app. cbn [map fst].
      change (p :: keys l ++ k :: keys (zipl L es)) with ((p :: keys l) ++ k :: keys (zipl L es)). split.
      + apply sorted_join; auto. intros y Hy. congruence.
      + now rewrite last_app.
  Qed.

  Lemma body_copes kid last es L prev : es <> [] -> length L = S (length es) ->
    (forall j l, j < length es -> nth_error L j = Some l -> copes (chk_child kid j) l) ->
    (forall l, last_opt L = Some l -> copes last l) ->
    exists r, body bor cmp kid last es prev = Ok r
      /\ forall c, r = inl c -> Sorted before (opt prev ++ keys (weave L es)) /\ ck_greatest c = lst prev (keys (weave L es)).
  Proof.
    intros He HL HC HZ. destruct es as [|[k0 v0] es]; [congruence|]. destruct L as [|l0 L]; [discriminate|].
    cbn in HL. destruct (snoc_cases L) as [->|(L' & lz & ->)]; [discriminate|].
    rewrite app_length in HL. cbn in HL. assert (HL' : length L' = length es) by lia.
    rewrite weave_ends by auto. unfold body. destruct (HC 0 l0) with (p := prev) as (r0 & E0 & H0); [cbn; lia|reflexivity|]. rewrite E0. cbn [bind].
    destruct r0 as [c0|]; [|eexists; split; [reflexivity|discriminate]]. destruct (H0 _ eq_refl) as [S0 G0]. cbn [nth_error unwrap bind skipn].
    destruct (match ck_greatest c0 with Some g => key_ge bor cmp g k0 | None => false end) eqn:Eg; [eexists; split; [reflexivity|discriminate]|].
    destruct (loop_copes kid (ck_ht c0) es L' 1 (ck_len c0) k0 HL') as (r1 & E1 & H1).
    { intros j l Hj. apply HC; [|cbn [nth_error Nat.add]; rewrite nth_error_app1; auto].
      + assert (j < length L') by (apply nth_error_Some; congruence). cbn. lia.
      + apply nth_error_Some; congruence. }
    rewrite E1. cbn [bind]. destruct r1 as [[len p']|]; [|eexists; split; [reflexivity|discriminate]]. destruct (H1 _ _ eq_refl) as [S1 G1].
    destruct (HZ lz) with (p := p') as (r2 & E2 & H2). { change (l0 :: L' ++ [lz]) with ((l0 :: L') ++ [lz]). apply last_snoc. }
    rewrite E2. cbn [bind]. destruct r2 as [c2|]; [|eexists; split; [reflexivity|discriminate]]. destruct (H2 _ eq_refl) as [S2 G2].
    destruct (negb _); [eexists; split; [reflexivity|discriminate]|]. eexists. split; [reflexivity|]. intros c [= <-]. cbn [ck_greatest].
    rewrite map_app. cbn [map fst]. rewrite map_app, app_assoc. split.
    - apply sorted_join; auto.
      + apply sorted_glue; auto. now rewrite <- G1.
      + intros y Hy. rewrite Hy in G0. rewrite G0 in Eg. now apply key_ge_lt.
    - rewrite G2, G1, last_glue. symmetry. apply last_app.
  Qed.

  Lemma chk_copes h : forall mn t, (mn = 1 \/ mn = N) -> shape mn h t -> copes (chk mn t) (flat t).
  Proof.
    induction h as [|h IH]; intros mn t Hm S p.
    - apply shape_0 in S as (es & -> & Hl). rewrite n_chk_body.
      replace ((mn =? 1) || (mn =? N)) with true
        by (symmetry; apply orb_true_iff; destruct Hm; subst; rewrite Nat.eqb_refl; auto).
      cbn [assert_ bind]. destruct (Nat.ltb_spec (length es) mn); [lia|].
      destruct (Nat.ltb_spec (MAX_OCC N) (length es)); [lia|]. cbn [BTreeProofs.flat map weave] in *.
      pose proof (body_copes (fun i pred => nth_error (map (fun c => chk N c pred) []) i)
        (fun pred => match last_opt (map (fun c => chk N c pred) []) with Some r => r | None => chk_none pred end)
        es (repeat [] (Datatypes.S (length es))) p) as B.
      rewrite weave_nils in B.
      assert (Nn : copes chk_none []).
      { intros q. eexists. split; [reflexivity|]. intros c [= <-]. destruct q; cbn; auto. }
      apply B; auto.
      + intros ->. cbn in *. lia.
      + apply repeat_length.
      + intros j l _ Hj. apply nth_error_In, repeat_spec in Hj. subst l. intros q.
        unfold chk_child. cbn [map]. rewrite nth_nil. apply Nn.
      + intros l Hl'. unfold last_opt in Hl'. apply nth_error_In, repeat_spec in Hl'. subst l. exact Nn.
    - apply shape_S in S as (es & ks & -> & Hl & Hk & HF). rewrite n_chk_body.
      replace ((mn =? 1) || (mn =? N)) with true
        by (symmetry; apply orb_true_iff; destruct Hm; subst; rewrite Nat.eqb_refl; auto).
      cbn [assert_ bind]. destruct (Nat.ltb_spec (length es) mn); [lia|].
      destruct (Nat.ltb_spec (MAX_OCC N) (length es)); [lia|].
      rewrite Forall_forall in HF. cbn [BTreeProofs.flat] in *.
      apply body_copes; auto.
      + destruct es; [cbn in *; lia|easy].
      + now rewrite map_length.
      + intros j l Hj Hn. rewrite nth_error_map in Hn. destruct (nth_error ks j) as [c|] eqn:Ec; [|discriminate].
        cbn in Hn. injection Hn as <-. intros q. unfold chk_child. rewrite nth_error_map, Ec. cbn [option_map].
        apply IH; auto. apply HF. eapply nth_error_In; eauto.
      + intros l Hn. destruct (snoc_cases ks) as [->|(ks' & c & ->)]; [discriminate|].
        rewrite map_app in Hn. cbn [map] in Hn. rewrite last_snoc in Hn. injection Hn as <-.
        intros q. rewrite map_app. cbn [map]. rewrite last_snoc. apply IH; auto. apply HF, in_elt.
  Qed.

  Lemma b_chk_any (m : bt_map K V) l : b_any N m l -> exists r, b_chk bor cmp N m = Ok r
    /\ (r = inl tt -> Sorted (fun x y : entry => cmp (bor (fst x)) (bor (fst y)) = Lt) l).
  Proof.
    intros H. apply any_iff in H as (L & R). unfold b_chk. destruct (bm_root m) as [t|].
    - destruct R as (h & S & <-). destruct (chk_copes h 1 t (or_introl eq_refl) S None) as (r & E & Hr). rewrite E. cbn [bind].
      destruct r as [c|]; [|eexists; split; [reflexivity|discriminate]]. destruct (Hr _ eq_refl) as [Sd _].
      destruct (_ =? _); eexists; (split; [reflexivity|]); [|discriminate]. intros _. now apply sorted_keys.
    - subst l. cbn [chk_none bind ck_len]. rewrite L. eexists. split; [reflexivity|]. intros _. constructor.
  Qed.
End AnyChk.
