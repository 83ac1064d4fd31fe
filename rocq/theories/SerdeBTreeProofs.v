(** The halves of [btree.rs] meet the conditions of the visitor, for [N >= 1]. *)
From Coq Require Import List NArith PeanoNat Wf_nat Bool Lia.
From Verif Require Import Base Vec Spec MapSpec SpecFacts BTreeModel BTreeProofs BTreeProofs2
  BTreeIterModel BTreeIterProofs BTreeIterProofs2 BTreeChkProofs BTreeShows SerdeModel SerdeProofs.
Import ListNotations.
Local Open Scope nat_scope.

(** ** Height and root length of the tree that is built for [s] entries *)
Section Rank.
  Context (N : nat) (HN : 1 <= N).

  Definition comb (a b : nat * nat) : nat * nat :=
    if fst b <? fst a then (fst a, snd a + 1)
    else if snd a + 1 + snd b <? 2 * N + 1 then (fst a, snd a + 1 + snd b) else (fst a + 1, 1).
  Fixpoint rk_ (fuel s : nat) : nat * nat :=
    match fuel with
    | 0 => (0, 0)
    | S f => if s <=? 2 * N + 2 then (1, s - 1) else comb (rk_ f (s - s / 2)) (rk_ f (s / 2))
    end.
  Definition rk (s : nat) : nat * nat := rk_ (S s) s.

  Lemma half_le s : s / 2 <= s - s / 2 <= s / 2 + 1.
  Proof. pose proof (Nat.div_mod s 2 ltac:(lia)). pose proof (Nat.mod_upper_bound s 2 ltac:(lia)). lia. Qed.
  Lemma rk_fuel f : forall s, s < f -> rk_ f s = rk s.
  Proof.
    unfold rk. enough (G : forall f g s, s < f -> s < g -> rk_ f s = rk_ g s) by (intros; apply G; lia).
    clear f. induction f as [|f IH]; intros [|g] s H1 H2; try lia. cbn [rk_].
    destruct (Nat.leb_spec s (2 * N + 2)); auto. pose proof (half_le s).
    rewrite (IH g), (IH g (s / 2)) by lia. reflexivity.
  Qed.
  Lemma rk_leaf s : s <= 2 * N + 2 -> rk s = (1, s - 1).
  Proof. intros H. unfold rk. cbn [rk_]. destruct (Nat.leb_spec s (2 * N + 2)); [reflexivity|lia]. Qed.
  Lemma rk_comb s1 s2 : s2 <= s1 <= s2 + 1 -> 2 * N + 2 < s1 + s2 -> rk (s1 + s2) = comb (rk s1) (rk s2).
  Proof.
    intros H1 H2. unfold rk at 1. cbn [rk_]. destruct (Nat.leb_spec (s1 + s2) (2 * N + 2)); [lia|].
    pose proof (half_le (s1 + s2)). replace ((s1 + s2) / 2) with s2 by lia.
    replace (s1 + s2 - s2) with s1 by lia. now rewrite !rk_fuel by lia.
  Qed.

  Definition stepped (a b : nat * nat) : Prop :=
    fst b = fst a /\ snd a <= snd b <= snd a + 1 \/ fst b = S (fst a) /\ snd b = 1 /\ N <= snd a.
  Definition bounded (a : nat * nat) : Prop :=
    1 <= fst a /\ 1 <= snd a <= 2 * N + 1 /\ (2 <= fst a -> snd a <= 2 * N).

  Lemma comb_eq h1 e1 h2 e2 : comb (h1, e1) (h2, e2) =
    if h2 <? h1 then (h1, e1 + 1) else if e1 + 1 + e2 <? 2 * N + 1 then (h1, e1 + 1 + e2) else (h1 + 1, 1).
  Proof. reflexivity. Qed.

  Lemma rk_step s : 2 <= s -> bounded (rk s) /\ stepped (rk s) (rk (S s)).
  Proof.
    induction s as [s IH] using (well_founded_induction Wf_nat.lt_wf). intros Hs.
    destruct (Nat.le_gt_cases s (2 * N + 2)) as [L|L].
    - rewrite (rk_leaf s) by auto. split; [unfold bounded; cbn; lia|].
      destruct (Nat.le_gt_cases s (2 * N + 1)) as [L'|L'].
      + rewrite rk_leaf by lia. left. cbn. lia.
      + assert (S s = (N + 2) + (N + 1)) as -> by lia. rewrite rk_comb by lia.
        rewrite !rk_leaf by lia. rewrite comb_eq. rewrite Nat.ltb_irrefl.
        destruct (Nat.ltb_spec (N + 2 - 1 + 1 + (N + 1 - 1)) (2 * N + 1)); [lia|]. right. cbn. lia.
    - pose proof (half_le s) as Hh. set (m := s / 2) in *. clearbody m.
      destruct (IH m ltac:(lia) ltac:(lia)) as [Bm Sm].
      destruct (Nat.eq_dec s (m + m)) as [->|Hne].
      + replace (S (m + m)) with (S m + m) by lia. rewrite !rk_comb by lia.
        destruct (rk m) as [h e], (rk (S m)) as [h' e']. rewrite !comb_eq. unfold stepped, bounded in *. cbn [fst snd] in *.
        rewrite Nat.ltb_irrefl.
        destruct (Nat.ltb_spec (e + 1 + e) (2 * N + 1)); destruct (Nat.ltb_spec h h');
          destruct (Nat.ltb_spec (e' + 1 + e) (2 * N + 1)); cbn [fst snd]; lia.
      + assert (s = S m + m) as -> by lia. replace (S (S m + m)) with (S m + S m) by lia. rewrite !rk_comb by lia.
        destruct (rk m) as [h e], (rk (S m)) as [h' e']. rewrite !comb_eq. unfold stepped, bounded in *. cbn [fst snd] in *.
        rewrite Nat.ltb_irrefl.
        destruct (Nat.ltb_spec (e' + 1 + e') (2 * N + 1)); destruct (Nat.ltb_spec h h');
          destruct (Nat.ltb_spec (e' + 1 + e) (2 * N + 1)); cbn [fst snd]; lia.
  Qed.

  Definition lex (a b : nat * nat) : Prop := fst a < fst b \/ fst a = fst b /\ snd a <= snd b.
  Lemma lex_refl a : lex a a.
  Proof. right. auto. Qed.
  Lemma lex_trans a b c : lex a b -> lex b c -> lex a c.
  Proof. unfold lex. lia. Qed.
  Lemma rk_mono s s' : 2 <= s -> s <= s' -> lex (rk s) (rk s').
  Proof.
    intros H. induction 1 as [|s' H' IH]; [apply lex_refl|]. eapply lex_trans; [exact IH|].
    destruct (rk_step s' ltac:(lia)) as [_ St]. unfold stepped, lex in *. lia.
  Qed.
  Lemma comb_lower h1 e1 b : lex (h1, e1 + 1) (comb (h1, e1) b).
  Proof.
    destruct b as [h2 e2]. rewrite comb_eq. unfold lex.
    destruct (h2 <? h1); [|destruct (_ <? _)]; cbn [fst snd]; lia.
  Qed.
  (** Two halves that differ by at most one. *)
  Lemma rk_halves s1 s2 : s2 <= s1 <= s2 + 1 -> 2 * N + 2 < s1 + s2 ->
    bounded (rk s1) /\ bounded (rk s2) /\ stepped (rk s2) (rk s1).
  Proof.
    intros H1 H2. destruct (rk_step s2 ltac:(lia)) as [B St]. destruct (rk_step s1 ltac:(lia)) as [B' _].
    split; auto. split; auto. destruct (Nat.eq_dec s1 s2) as [->|Hn].
    - left. lia.
    - replace s1 with (S s2) by lia. auto.
  Qed.
End Rank.

Section SerdeBTree.
  Context {K V Q : Type} (bor : K -> Q) (cmp : Q -> Q -> comparison) (laws : order_laws cmp).
  Context (N : nat) (HN : 1 <= N).
  Notation entry := (K * V)%type.
  Notation bt := (bt K V).
  Notation half := (@b_half K V).
  Notation asc := (@ascending K V Q bor cmp).
  Notation flat := (@flat K V).
  Notation shape := (@shape K V N).
  Notation chk := (@n_chk K V Q bor cmp N).
  Notation sound := (@sound K V Q bor cmp).
  Notation check := (@check K).

  (** Trees in which a branch may lack its last child. *)
  Inductive near : bt -> Prop :=
  | near_leaf es : es <> [] -> near (BN es [])
  | near_branch es ks : ks <> [] -> length ks = length es \/ length ks = S (length es) ->
      Forall near ks -> near (BN es ks).

  Lemma near_fwd t : near t -> fwd t.
  Proof.
    remember (n_levels t) as n eqn:En. assert (Hn : n_levels t <= n) by lia. clear En. revert t Hn.
    induction n as [|n IH]; intros t Hn H; [destruct t; cbn in Hn; lia|].
    inversion H as [es He|es ks Hk L F]; subst; [now constructor|]. apply fwd_branch; auto; [lia|].
    rewrite Forall_forall in *. intros c Hc. apply IH; auto. rewrite levels_eq in Hn. apply max_levels_in in Hc. lia.
  Qed.
  Lemma shape_near mn h t : 1 <= mn -> shape mn h t -> near t.
  Proof.
    revert mn t. induction h as [|h IH]; intros mn t Hm S.
    - apply shape_0 in S as (es & -> & L). constructor. intros ->. cbn in L. lia.
    - apply shape_S in S as (es & ks & -> & L & Hk & HF). apply near_branch; auto.
      + now destruct ks.
      + rewrite Forall_forall in *. eauto.
  Qed.

  (** *** [chk] never panics *)
  Definition total (P : bt_err -> Prop) (H : nat -> Prop) (f : option K -> res (check + bt_err)) : Prop :=
    forall p, exists r, f p = Ok r
      /\ match r with inl c => H (ck_ht c) /\ (p <> None -> ck_greatest c <> None) | inr e => P e end.

  Lemma loop_total (P : bt_err -> Prop) (H : nat -> Prop) kid ht : P BTreeModel.Unsorted ->
    (P BTreeModel.Imbalanced \/ forall a b, H a -> H b -> a = b) -> H ht ->
    forall (es : list entry) i len p, (forall j, i <= j < i + length es -> total P H (chk_child kid j)) ->
    exists r, chk_loop bor cmp kid i es ht len (Some p) = Ok r
      /\ match r with inl (_, g) => g <> None | inr e => P e end.
  Proof.
    intros PU PI Hh. induction es as [|[k v] es IH]; intros i len p T; cbn [chk_loop].
    - eexists. split; [reflexivity|]. cbv beta iota. discriminate.
    - destruct (T i ltac:(cbn; lia) (Some p)) as (r & -> & R). cbn [bind]. destruct r as [c|e].
      2:{ eexists. split; [reflexivity|]. exact R. }
      destruct R as [R1 R2]. destruct (Nat.eqb_spec ht (ck_ht c)) as [E|E]; cbn [negb].
      2:{ eexists. split; [reflexivity|]. destruct PI as [PI|PI]; auto. elim E. auto. }
      destruct (ck_greatest c) as [g|]; [|elim R2; auto; discriminate]. cbn [unwrap bind].
      destruct (key_ge bor cmp g k).
      { eexists. split; [reflexivity|]. exact PU. }
      apply IH. intros j Hj. apply T. cbn. lia.
  Qed.
  Lemma body_total (P : bt_err -> Prop) (H : nat -> Prop) kid last (es : list entry) : P BTreeModel.Unsorted ->
    (P BTreeModel.Imbalanced \/ forall a b, H a -> H b -> a = b) -> es <> [] ->
    (forall j, j < length es -> total P H (chk_child kid j)) -> total P H last ->
    total P (fun h => exists h', h = h' + 1 /\ H h') (body bor cmp kid last es).
  Proof.
    intros PU PI He T TL p. unfold body. destruct es as [|[k0 v0] es]; [congruence|].
    destruct (T 0 ltac:(cbn; lia) p) as (r & -> & R). cbn [bind]. destruct r as [first|e].
    2:{ eexists. split; [reflexivity|]. exact R. }
    destruct R as [R1 R2]. cbn [nth_error unwrap bind skipn].
    destruct (match ck_greatest first with Some g => key_ge bor cmp g k0 | None => false end).
    { eexists. split; [reflexivity|]. exact PU. }
    destruct (loop_total P H kid (ck_ht first) PU PI R1 es 1 (ck_len first) k0) as (r & -> & R).
    { intros j Hj. apply T. cbn. lia. }
    cbn [bind]. destruct r as [[len pred]|e].
    2:{ eexists. split; [reflexivity|]. exact R. }
    destruct (TL pred) as (r & -> & R'). cbn [bind]. destruct r as [curr|e].
    2:{ eexists. split; [reflexivity|]. exact R'. }
    destruct R' as [R3 R4]. destruct (Nat.eqb_spec (ck_ht first) (ck_ht curr)) as [E|E]; cbn [negb].
    2:{ eexists. split; [reflexivity|]. destruct PI as [PI|PI]; auto. elim E. auto. }
    eexists. split; [reflexivity|]. cbn [ck_ht ck_greatest]. split; eauto.
  Qed.
  Lemma none_total P (H : nat -> Prop) : H 0 -> total P H (@chk_none K).
  Proof. intros Hh p. eexists. split; [reflexivity|]. cbn. auto. Qed.
  Lemma total_weaken P (H H' : nat -> Prop) f : (forall n, H n -> H' n) -> total P H f -> total P H' f.
  Proof. intros HH T p. destruct (T p) as (r & E & R). exists r. split; auto. destruct r; auto. destruct R; auto. Qed.

  Definition not_len (e : bt_err) : Prop := match e with BTreeModel.BadLen _ => False | _ => True end.
  Lemma chk_total n : forall mn t, n_levels t <= n -> mn = 1 \/ mn = N -> total not_len (fun _ => True) (chk mn t).
  Proof.
    induction n as [|n IH]; intros mn [es ks] Hn Hm p; [cbn in Hn; lia|]. rewrite n_chk_body.
    replace ((mn =? 1) || (mn =? N)) with true
      by (symmetry; apply orb_true_iff; destruct Hm; subst; rewrite Nat.eqb_refl; auto).
    cbn [assert_ bind]. destruct (Nat.ltb_spec (length es) mn).
    { eexists. split; [reflexivity|]. exact I. }
    destruct (Nat.ltb_spec (MAX_OCC N) (length es)).
    { eexists. split; [reflexivity|]. exact I. }
    assert (HK : forall c, In c ks -> total not_len (fun _ => True) (chk N c)).
    { intros c Hc. apply IH; auto. rewrite levels_eq in Hn. apply max_levels_in in Hc. lia. }
    refine ((_ : total not_len (fun _ => True) (body bor cmp _ _ es)) p).
    apply (total_weaken _ (fun h => exists h', h = h' + 1 /\ True)); [auto|].
    apply body_total.
    - exact I.
    - left. exact I.
    - intros ->. cbn in *. lia.
    - intros j _ q. unfold chk_child. rewrite nth_error_map. destruct (nth_error ks j) as [c|] eqn:Ec; cbn [option_map].
      + apply HK. eapply nth_error_In; eauto.
      + exact (none_total not_len (fun _ => True) I q).
    - intros q. destruct (snoc_cases ks) as [->|(ks' & z & ->)]; [exact (none_total not_len (fun _ => True) I q)|].
      rewrite map_app. cbn [map]. rewrite last_snoc. apply HK, in_elt.
  Qed.
  Lemma chk_shape h : forall mn t, mn = 1 \/ mn = N -> shape mn h t ->
    total (fun e => e = BTreeModel.Unsorted) (eq (S h)) (chk mn t).
  Proof.
    induction h as [|h IH]; intros mn t Hm S p.
    - apply shape_0 in S as (es & -> & L). rewrite n_chk_body.
      replace ((mn =? 1) || (mn =? N)) with true
        by (symmetry; apply orb_true_iff; destruct Hm; subst; rewrite Nat.eqb_refl; auto).
      cbn [assert_ bind]. destruct (Nat.ltb_spec (length es) mn); [lia|].
      destruct (Nat.ltb_spec (MAX_OCC N) (length es)); [lia|].
      refine ((_ : total (fun e => e = BTreeModel.Unsorted) (eq 1) (body bor cmp _ _ es)) p).
      apply (total_weaken _ (fun h => exists h', h = h' + 1 /\ 0 = h')); [intros ? (? & -> & <-); lia|].
      apply body_total; auto.
      + right. congruence.
      + intros ->. cbn in *. lia.
      + intros j _ q. unfold chk_child. cbn [map]. rewrite nth_nil. exact (none_total (fun e => e = BTreeModel.Unsorted) (eq 0) eq_refl q).
      + exact (none_total (fun e => e = BTreeModel.Unsorted) (eq 0) eq_refl).
    - apply shape_S in S as (es & ks & -> & L & Hk & HF). rewrite n_chk_body.
      replace ((mn =? 1) || (mn =? N)) with true
        by (symmetry; apply orb_true_iff; destruct Hm; subst; rewrite Nat.eqb_refl; auto).
      cbn [assert_ bind]. destruct (Nat.ltb_spec (length es) mn); [lia|].
      destruct (Nat.ltb_spec (MAX_OCC N) (length es)); [lia|].
      rewrite Forall_forall in HF.
      refine ((_ : total (fun e => e = BTreeModel.Unsorted) (eq (Datatypes.S (Datatypes.S h))) (body bor cmp _ _ es)) p).
      apply (total_weaken _ (fun h' => exists h1, h' = h1 + 1 /\ Datatypes.S h = h1)); [intros ? (? & -> & <-); lia|].
      apply body_total; auto.
      + right. congruence.
      + intros ->. cbn in *. lia.
      + intros j Hj q. unfold chk_child. rewrite nth_error_map. destruct (nth_error ks j) as [c|] eqn:Ec; cbn [option_map].
        * apply IH; auto. apply HF. eapply nth_error_In; eauto.
        * apply nth_error_None in Ec. lia.
      + intros q. destruct (snoc_cases ks) as [->|(ks' & z & ->)]; [discriminate|].
        rewrite map_app. cbn [map]. rewrite last_snoc. apply IH; auto. apply HF, in_elt.
  Qed.

  (** *** If [chk] of such a tree succeeds then no child was lacking *)
  Lemma chk_near n : forall mn t, n_levels t <= n -> near t ->
    sound (chk mn t) (fun ht => exists h, ht = S h /\ shape mn h t) (flat t).
  Proof.
    induction n as [|n IH]; intros mn t Hn Hm p c E; [destruct t; cbn in Hn; lia|].
    inversion Hm as [es He|es ks Hk HL F]; subst.
    { apply (chk_sound bor cmp laws N HN (S n) mn (BN es []) Hn eq_refl p c E). }
    rewrite n_chk_body in E. destruct ((mn =? 1) || (mn =? N)); [|discriminate]. cbn [assert_ bind] in E.
    destruct (Nat.ltb_spec (length es) mn) as [|H1]; [discriminate|].
    destruct (Nat.ltb_spec (MAX_OCC N) (length es)) as [|H2]; [discriminate|].
    rewrite Forall_forall in F.
    assert (HK : forall x, In x ks -> sound (chk N x) (fun ht => exists h, ht = S h /\ shape N h x) (flat x)).
    { intros x Hx. apply IH; auto. rewrite levels_eq in Hn. apply max_levels_in in Hx. lia. }
    destruct (snoc_cases ks) as [X|(ks' & z & Ez)]; [congruence|].
    assert (HL' : exists L, length ks = length es /\ L = map flat ks ++ [flat z]
                        \/ length ks = S (length es) /\ L = map flat ks) by (destruct HL; eauto).
    clear HL. destruct HL' as [L HL].
    apply (body_sound bor cmp laws N HN _ _ (fun j ht => forall x, nth_error ks j = Some x -> exists h, ht = S h /\ shape N h x)
             (fun ht => forall x, last_opt ks = Some x -> exists h, ht = S h /\ shape N h x) es L) in E.
    - destruct E as (X1 & X2 & X3 & X4 & ht & X5 & X6 & X7). destruct HL as [[HL ->]|[HL ->]].
      + (* the last child was checked twice *)
        exfalso. destruct (snoc_cases es) as [->|(es' & e & ->)]; [rewrite Ez, app_length in HL; cbn in HL; lia|].
        rewrite Ez, map_app in X1. cbn [map] in X1. rewrite <- app_assoc in X1. cbn [app] in X1.
        rewrite weave_app in X1 by (rewrite map_length; rewrite Ez, !app_length in HL; cbn in HL; lia).
        assert (Z : flat z <> []) by (apply fwd_nonempty, near_fwd, F; rewrite Ez; apply in_elt).
        destruct (flat z) as [|y r] eqn:Ey; [congruence|].
        apply (asc_pivot bor cmp laws) in X1 as (_ & _ & A1 & A2).
        assert (C1 : cmp (bor (fst y)) (bor (fst e)) = Lt).
        { apply A1. rewrite <- (app_nil_r es'), weave_split by (rewrite ?map_length; auto; rewrite Ez, !app_length in HL; cbn in HL; lia).
          apply in_or_app. right. now left. }
        assert (C2 : cmp (bor (fst e)) (bor (fst y)) = Lt).
        { apply A2. cbn [weave app]. now left. }
        rewrite (cmp_opp _ laws), C1 in C2. discriminate.
      + cbn [BTreeProofs.flat]. repeat (split; [auto|]).
        destruct (X6 z) as (h & -> & Sz); [rewrite Ez; apply last_snoc|].
        exists (S h). split; [lia|]. constructor; auto. rewrite Forall_forall. intros x Hx.
        apply In_nth_error in Hx as [j Hj].
        destruct (Nat.lt_ge_cases j (length es)) as [Hl|Hl].
        * destruct (X7 j Hl x Hj) as (h' & E' & Sx). injection E' as <-. exact Sx.
        * assert (j < length ks) by (apply nth_error_Some; congruence).
          assert (j = length ks') as -> by (rewrite Ez, app_length in *; cbn in *; lia).
          rewrite Ez, nth_mid in Hj by auto. congruence.
    - destruct HL as [[HL ->]|[HL ->]]; rewrite ?app_length, map_length; cbn; lia.
    - intros j l Hj Hl q d Eq.
      assert (Hl' : nth_error (map flat ks) j = Some l).
      { destruct HL as [[HL ->]|[HL ->]]; auto. rewrite nth_error_app1 in Hl; auto. rewrite map_length. lia. }
      rewrite nth_error_map in Hl'. destruct (nth_error ks j) as [x|] eqn:Ex; [|discriminate].
      cbn in Hl'. injection Hl' as <-. unfold chk_child in Eq. rewrite nth_error_map, Ex in Eq. cbn [option_map] in Eq.
      destruct (HK x (nth_error_In _ _ Ex) q d Eq) as (Y1 & Y2 & Y3 & Y4 & Y5). repeat (split; [auto|]).
      intros y Hy. injection Hy as <-. auto.
    - intros l Hl q d Eq. assert (l = flat z) as ->.
      { destruct HL as [[HL ->]|[HL ->]].
        - rewrite last_snoc in Hl. congruence.
        - rewrite Ez, map_app in Hl. cbn [map] in Hl. rewrite last_snoc in Hl. congruence. }
      rewrite Ez, map_app in Eq. cbn [map] in Eq. rewrite last_snoc in Eq.
      destruct (HK z ltac:(rewrite Ez; apply in_elt) q d Eq) as (Y1 & Y2 & Y3 & Y4 & Y5). repeat (split; [auto|]).
      intros y Hy. rewrite Ez, last_snoc in Hy. injection Hy as <-. auto.
  Qed.

  (** *** Halves *)
  Notation rk := (rk N).
  Definition kids_of (t : bt) : list bt := match t with BN _ ks => ks end.
  Definition b_full (s : BinNums.N) (h : half) (l : list entry) : Prop :=
    let '(o, k, v) := h in
    N.of_nat (length l) = s /\
    match o with
    | None => l = [(k, v)]
    | Some (t, ht) => exists h, ht = S h /\ shape 1 h t /\ l = flat t ++ [(k, v)] /\ rk (length l) = (ht, n_len t)
    end.
  Definition b_part (s : BinNums.N) (h : half) (l : list entry) : Prop :=
    let '(o, k, v) := h in
    match o with
    | None => l = [(k, v)]
    | Some (t, ht) => near t /\ l = flat t ++ [(k, v)] /\ 1 <= ht /\ (ht = 1 <-> kids_of t = [])
                      /\ lex (ht, n_len t) (rk (N.to_nat s)) /\ (2 <= s)%N
    end.
  Definition b_rep (m : bt_map K V) (l : list entry) : Prop := b_shows bor cmp N m (s_extend bor cmp [] l).

  Lemma shape_kids h t : shape 1 h t -> (S h = 1 <-> kids_of t = []).
  Proof.
    intros S. inversion S as [mn es L|mn h' es ks L Hk HF]; subst; cbn [kids_of]; split; auto; try lia.
    intros ->. discriminate.
  Qed.
  Lemma shape_len h t : shape 1 h t -> 1 <= n_len t <= 2 * N + 1.
  Proof. intros S. inversion S; subst; unfold n_len; cbn [elems_of]; unfold MAX_OCC in *; lia. Qed.
  Lemma full_two s t ht k v l : b_full s (Some (t, ht), k, v) l -> (2 <= s)%N.
  Proof.
    intros (<- & h & -> & S & -> & _).
    pose proof (fwd_nonempty t (near_fwd t (shape_near 1 h t (le_n 1) S))) as X.
    rewrite app_length. destruct (flat t); [congruence|]. cbn [length]. clear. lia.
  Qed.
  Lemma full_part s s' h l : b_full s h l -> (s <= s')%N -> b_part s' h l.
  Proof.
    destruct h as [[[[t ht]|] k] v]; intros F Hs; [|exact (proj2 F)].
    pose proof (full_two _ _ _ _ _ _ F) as H2. destruct F as (Hl & h & -> & S & -> & R).
    split; [now apply (shape_near 1 h)|]. split; auto. split; [lia|]. split; [now apply shape_kids|].
    split; [|lia]. rewrite <- R. apply (rk_mono N HN); lia.
  Qed.

  Lemma s_extend_asc_b (l : list entry) : asc l -> s_extend bor cmp [] l = l.
  Proof. intros A. now apply (extend_asc_app bor cmp laws). Qed.
  Lemma extend_snoc_b (l : list entry) k v :
    s_extend bor cmp [] (l ++ [(k, v)]) = s_insert bor cmp k v (s_extend bor cmp [] l).
  Proof. unfold s_extend. now rewrite fold_left_app. Qed.
  Lemma b_rep_insert m l k v : b_rep m l ->
    exists m' o, b_insert bor cmp N m k v = Ok (m', o) /\ b_rep m' (l ++ [(k, v)]).
  Proof.
    intros R. destruct (b_insert_l bor cmp N laws HN m _ k v R) as (m' & E & R').
    exists m'. eexists. split; [exact E|]. unfold b_rep. now rewrite extend_snoc_b.
  Qed.

  Lemma into_any un (t : bt) len : near t -> length (flat t) <= len ->
    b_into_list un (BMap len (Some t)) = Ok (flat t).
  Proof.
    intros H L. apply near_fwd in H. unfold b_into_list. eapply into_items; [apply into_start|].
    destruct (make_ok t H) as (M1 & M2 & _). unfold bt_iter. cbn [bm_root bm_len].
    assert (D : dens [g_make t] = flat t) by (unfold dens; cbn; now rewrite app_nil_r).
    rewrite items_ok; rewrite ?D; auto. cbn [o_count bm_root]. rewrite fwd_count by auto. lia.
  Qed.

  Lemma b_whole un s h l : b_part s h l -> (N.of_nat (length l) <= s)%N ->
    exists m, b_make_whole bor cmp N un h s = Ok m /\ b_rep m l.
  Proof.
    destruct h as [[o k] v]. intros P Hl.
    assert (X : exists l', l = l' ++ [(k, v)] /\ length l' <= N.to_nat (N.pred s) /\
      match o with None => l' = [] | Some (t, _) => near t /\ flat t = l' end).
    { destruct o as [[t ht]|].
      - destruct P as (P1 & -> & _). rewrite app_length in Hl. cbn [length] in Hl.
        exists (flat t). split; auto. split; [lia|auto].
      - cbn [b_part] in P. subst l. exists []. split; auto. split; [cbn; lia|auto]. }
    clear P. destruct X as (l' & -> & Hl' & Ho). unfold b_make_whole.
    set (root := option_map fst o). set (m := BMap (N.to_nat (N.pred s)) root).
    assert (X : exists m1, (c <- b_chk bor cmp N m;;
       match c with
       | inr (BTreeModel.BadLen correct_len) => Ok (BMap correct_len root)
       | inr _ => l <- b_into_list un m;; b_extend bor cmp N b_new l
       | inl _ => Ok m
       end) = Ok m1 /\ b_rep m1 l').
    { unfold b_chk. cbn [bm_root bm_len m]. destruct o as [[t ht]|]; cbn [option_map fst root].
      - destruct Ho as [Hn Hf]. subst l'.
        assert (B : exists m1, (l <- b_into_list un (BMap (N.to_nat (N.pred s)) (Some t));; b_extend bor cmp N b_new l) = Ok m1
                   /\ b_rep m1 (flat t)).
        { rewrite into_any by auto. cbn [bind].
          destruct (b_extend_l bor cmp N laws HN b_new [] (flat t)) as (m1 & E1 & R1); [apply b_shows_new|eauto]. }
        destruct (chk_total (n_levels t) 1 t (le_n _) (or_introl eq_refl) None) as (r & Er & R).
        rewrite Er. cbn [bind]. destruct r as [c|e].
        + destruct (chk_near (n_levels t) 1 t (le_n _) Hn None c Er) as (A & _ & L & _ & h & _ & S).
          assert (W : b_rep (BMap (ck_len c) (Some t)) (flat t)).
          { unfold b_rep. rewrite s_extend_asc_b by auto. apply (b_valid_shows bor cmp N laws HN); auto.
            split; [exact A|]. split; [exact L|]. exists h. exact S. }
          destruct (Nat.eqb_spec (ck_len c) (N.to_nat (N.pred s))) as [E|E]; cbn [bind].
          * eexists. split; [reflexivity|]. unfold m, root. cbn [option_map fst]. now rewrite <- E.
          * eexists. split; [reflexivity|]. exact W.
        + cbn [bind]. destruct e; try exact B. elim R.
      - subst l'. cbn [chk_none bind]. 
        destruct (Nat.eqb_spec (@ck_len K (Check 0 0 None)) (N.to_nat (N.pred s))) as [E|E]; cbn [bind].
        + eexists. split; [reflexivity|]. unfold m, root. cbn [option_map]. cbn [ck_len] in E. rewrite <- E. apply b_shows_new.
        + eexists. split; [reflexivity|]. apply b_shows_new. }
    destruct X as (m1 & E1 & R1). destruct (b_rep_insert m1 l' k v R1) as (m2 & x & E2 & R2).
    exists m2. split; auto. fold root. fold m. destruct (b_chk bor cmp N m) as [c|]; [|discriminate]. cbn [bind] in *.
    rewrite E1. cbn [bind]. now rewrite E2.
  Qed.

  Lemma flat_join (es : list entry) (ks : list bt) x es2 ks2 : length ks = S (length es) ->
    flat (BN (es ++ x :: es2) (ks ++ ks2)) = flat (BN es ks) ++ x :: flat (BN es2 ks2).
  Proof.
    intros H. destruct (snoc_cases ks) as [->|(ks' & c & ->)]; [discriminate|].
    rewrite app_length in H. cbn [length] in H. rewrite <- app_assoc. cbn [app].
    cbn [BTreeProofs.flat]. rewrite !map_app. cbn [map]. apply weave_app. rewrite map_length. lia.
  Qed.
  Lemma flat_leaves (es : list entry) x es2 :
    flat (BN (es ++ x :: es2) []) = flat (BN es []) ++ x :: flat (BN es2 []).
  Proof. reflexivity. Qed.
  Lemma flat_two (x : entry) l r : flat (BN [x] [l; r]) = flat l ++ x :: flat r.
  Proof. cbn. now rewrite !app_nil_r. Qed.

  Lemma uneven_nat NB_ s1 s2 l1 l2 :
    uneven (@b_impl K V Q bor cmp N NB_) s1 s2 -> N.of_nat (length l1) = s1 -> N.of_nat (length l2) = s2 ->
    @length entry l2 <= @length entry l1 <= length l2 + 1 /\ 2 * N + 2 < length l1 + length l2.
  Proof.
    intros (U1 & U2 & _) <- <-. cbn [b_impl mi_max_half_len] in U2. unfold MAX_OCC in U2. lia.
  Qed.

  Lemma stitch_full (un : bt -> bool) s1 s2 h1 h2 l1 l2 : uneven (b_impl bor cmp N un) s1 s2 -> b_full s1 h1 l1 -> b_full s2 h2 l2 ->
    exists h, b_stitch N h1 h2 = Ok h /\ b_full (s1 + s2) h (l1 ++ l2).
  Proof.
    intros U F1 F2.
    assert (L1 : N.of_nat (length l1) = s1) by (destruct h1 as [[? ?] ?]; apply F1).
    assert (L2 : N.of_nat (length l2) = s2) by (destruct h2 as [[? ?] ?]; apply F2).
    destruct (uneven_nat _ _ _ _ _ U L1 L2) as [U1 U2].
    destruct (rk_halves N HN _ _ U1 U2) as (B1 & B2 & St).
    pose proof (rk_comb N HN _ _ U1 U2) as Rc. rewrite <- app_length in Rc.
    destruct h1 as [[[[[les lks] ht1]|] k1] v1]; destruct F1 as [_ F1]; [|cbv beta iota in F1; subst l1; cbn [length] in *; lia].
    destruct h2 as [[[[[res rks] ht2]|] k2] v2]; destruct F2 as [_ F2]; [|cbv beta iota in F2; subst l2; cbn [length] in *; lia].
    destruct F1 as (h1 & -> & S1 & E1 & R1). destruct F2 as (h2 & -> & S2 & E2 & R2).
    rewrite R1, R2 in *. rewrite comb_eq in Rc. unfold stepped, bounded in *. unfold n_len in *; cbn [fst snd elems_of] in *.
    assert (Hlen : N.of_nat (length (l1 ++ l2)) = (s1 + s2)%N) by (rewrite app_length; lia).
    unfold b_stitch. destruct (Nat.ltb_spec 0 (S h2)); [|lia]. cbn [assert_ bind].
    destruct (Nat.leb_spec (S h2) (S h1)) as [Hle|]; [|lia]. cbn [assert_ bind].
    destruct (Nat.ltb_spec (S h2) (S h1)) as [Hlt|Hge].
    - (* the right half becomes the last child of the left one *)
      assert (h1 = S h2) as -> by lia.
      eexists. split; [reflexivity|]. split; [exact Hlen|]. exists (S h2). split; auto.
      apply shape_S in S1 as (es' & ks' & Heq & Lb & Lk & HF). injection Heq as <- <-.
      split; [|split].
      + constructor.
        * unfold MAX_OCC. rewrite app_length. cbn [length]. lia.
        * rewrite !app_length. cbn [length]. lia.
        * rewrite Forall_app. split; auto. constructor; auto. apply shape_strengthen with (mn := 1); auto. unfold n_len; cbn [elems_of]. lia.
      + subst l1 l2. change (lks ++ [BN res rks]) with (lks ++ [BN res rks]). rewrite flat_join by auto.
        rewrite <- !app_assoc. cbn [app]. f_equal. f_equal. cbn [BTreeProofs.flat map]. cbn [weave]. cbn [concat]. now rewrite app_nil_r.
      + rewrite Rc. unfold n_len; cbn [elems_of]. rewrite app_length. reflexivity.
    - assert (h1 = h2) as -> by lia. destruct (Nat.ltb_spec (S h2) (S h2)); [lia|]. unfold MAX_OCC.
      destruct (Nat.ltb_spec (length les + 1 + length res) (2 * N + 1)) as [Hs|Hs].
      + eexists. split; [reflexivity|]. split; [exact Hlen|]. exists h2. split; auto. cbn [app]. split; [|split].
        * destruct h2 as [|h2].
          -- apply shape_0 in S1 as (? & X & _), S2 as (? & Y & _). injection X as -> ->. injection Y as -> ->.
             constructor. unfold MAX_OCC. rewrite app_length. cbn [length]. lia.
          -- apply shape_S in S1 as (? & ? & X & _ & Lk1 & HF1), S2 as (? & ? & Y & _ & Lk2 & HF2).
             injection X as <- <-. injection Y as <- <-. constructor.
             ++ unfold MAX_OCC. rewrite app_length. cbn [length]. lia.
             ++ rewrite !app_length. cbn [length]. lia.
             ++ now rewrite Forall_app.
        * subst l1 l2. rewrite <- !app_assoc. cbn [app]. rewrite app_comm_cons, app_assoc. f_equal.
          destruct h2 as [|h2].
          -- apply shape_0 in S1 as (? & X & _), S2 as (? & Y & _). injection X as -> ->. injection Y as -> ->.
             symmetry. apply flat_leaves.
          -- apply shape_S in S1 as (? & ? & X & _ & Lk1 & HF1). injection X as <- <-. symmetry. now apply flat_join.
        * rewrite Rc. unfold n_len; cbn [elems_of]. rewrite app_length. cbn [length]. f_equal. lia.
      + unfold MIN_OCC. destruct (Nat.leb_spec N (length les)); [|lia]. cbn [assert_ bind].
        eexists. split; [reflexivity|]. split; [exact Hlen|]. exists (S h2). split; [lia|]. split; [|split].
        * constructor; [unfold MAX_OCC; cbn; lia|reflexivity|].
          constructor; [|constructor; [|constructor]]; (apply shape_strengthen with (mn := 1); auto; unfold n_len; cbn [elems_of]; lia).
        * subst l1 l2. rewrite flat_two, <- !app_assoc. reflexivity.
        * rewrite Rc. reflexivity.
  Qed.

  Lemma part_len s h l : b_part s h l -> exists k v l', l = l' ++ [(k, v)].
  Proof. destruct h as [[[[t ht]|] k] v]; [intros (_ & -> & _); eauto|]. intros ->. exists k, v, []. reflexivity. Qed.

  Lemma stitch_part (un : bt -> bool) s1 s2 h1 h2 l1 l2 : uneven (b_impl bor cmp N un) s1 s2 -> b_full s1 h1 l1 -> b_part s2 h2 l2 ->
    exists h, b_stitch N h1 h2 = Ok h /\ b_part (s1 + s2) h (l1 ++ l2).
  Proof.
    intros U F1 F2.
    assert (L1 : N.of_nat (length l1) = s1) by (destruct h1 as [[? ?] ?]; apply F1).
    destruct U as (Ua & Ub & _). cbn [b_impl mi_max_half_len] in Ub. unfold MAX_OCC in Ub.
    assert (U1 : N.to_nat s2 <= length l1 <= N.to_nat s2 + 1) by lia.
    assert (U2 : 2 * N + 2 < length l1 + N.to_nat s2) by lia.
    destruct (rk_halves N HN _ _ U1 U2) as (B1 & B2 & St).
    pose proof (rk_comb N HN _ _ U1 U2) as Rc. replace (length l1 + N.to_nat s2) with (N.to_nat (s1 + s2)) in Rc by lia.
    destruct h1 as [[[[[les lks] ht1]|] k1] v1]; destruct F1 as [_ F1]; [|cbv beta iota in F1; subst l1; cbn [length] in *; lia].
    destruct F1 as (h1 & -> & S1 & E1 & R1). rewrite R1 in *. unfold n_len in *; cbn [elems_of] in *.
    assert (H12 : (2 <= s1 + s2)%N) by lia.
    pose proof (shape_near 1 h1 _ (le_n 1) S1) as N1.
    pose proof (comb_lower N HN (S h1) (length les) (rk (N.to_nat s2))) as Lc. rewrite <- Rc in Lc.
    destruct h2 as [[[[[res rks] ht2]|] k2] v2].
    - destruct F2 as (N2 & E2 & H2 & Hk2 & Lx & Hs2). destruct (rk (N.to_nat s2)) as [h2 e2] eqn:R2.
      unfold stepped, bounded, lex in *. unfold n_len in *; cbn [fst snd elems_of kids_of] in *.
      unfold b_stitch. destruct (Nat.ltb_spec 0 ht2); [|lia]. cbn [assert_ bind].
      destruct (Nat.leb_spec ht2 (S h1)) as [Hle|]; [|lia]. cbn [assert_ bind].
      destruct (Nat.ltb_spec ht2 (S h1)) as [Hlt|Hge].
      + destruct h1 as [|h1]; [lia|]. apply shape_S in S1 as (? & ? & X & Lb & Lk1 & HF1). injection X as <- <-.
        eexists. split; [reflexivity|]. split; [|split; [|split; [|split; [|split]]]]; auto.
        * apply near_branch; [now destruct lks|rewrite !app_length; cbn [length]; lia|].
          inversion N1 as [|? ? ? ? HF]; subst; [discriminate|]. rewrite Forall_app. auto.
        * subst l1 l2. rewrite flat_join by auto.
          rewrite <- !app_assoc. cbn [app]. f_equal. f_equal. cbn [BTreeProofs.flat map]. cbn [weave]. cbn [concat]. now rewrite app_nil_r.
        * lia.
        * cbn [kids_of]. split; [lia|]. now destruct lks.
        * unfold n_len; cbn [elems_of]. rewrite app_length. exact Lc.
      + assert (ht2 = S h1) as -> by lia. assert (h2 = S h1) as -> by lia. unfold MAX_OCC.
        rewrite comb_eq in Rc. destruct (Nat.ltb_spec (S h1) (S h1)); [lia|].
        destruct (Nat.ltb_spec (length les + 1 + length res) (2 * N + 1)) as [Hs|Hs].
        * eexists. split; [reflexivity|]. cbn [app]. cbn [b_part].
          assert (Hcase : h1 = 0 /\ lks = [] /\ rks = [] \/ h1 <> 0 /\ length lks = S (length les) /\ lks <> [] /\ rks <> []).
          { destruct h1 as [|h1].
            - left. apply shape_0 in S1 as (? & X & _). injection X as -> ->. split; auto. split; auto. now apply Hk2.
            - right. apply shape_S in S1 as (? & ? & X & Lb & Lk1 & HF1). injection X as <- <-. split; [lia|].
              split; auto. split; [now destruct lks|]. intros ->. assert (S (S h1) = 1) by (now apply Hk2). lia. }
          split; [|split; [|split; [|split; [|split]]]]; auto.
          -- destruct Hcase as [(-> & -> & ->)|(Hh & Lk & Hl & Hr)].
             ++ cbn [app]. constructor. now destruct les.
             ++ inversion N1 as [|? ? ? ? HF]; subst; [congruence|].
                inversion N2 as [|? ? ? X2 HF2]; subst; [congruence|]. apply near_branch.
                ** now destruct lks.
                ** rewrite !app_length. cbn [length]. lia.
                ** now rewrite Forall_app.
          -- subst l1 l2. rewrite <- !app_assoc. cbn [app]. rewrite app_comm_cons, app_assoc. f_equal.
             destruct Hcase as [(-> & -> & ->)|(Hh & Lk & Hl & Hr)]; symmetry; [apply flat_leaves|now apply flat_join].
          -- cbn [kids_of]. destruct Hcase as [(-> & -> & ->)|(Hh & Lk & Hl & Hr)]; [split; auto|].
             split; [lia|]. now destruct lks.
          -- unfold n_len; cbn [elems_of]. rewrite app_length. cbn [length]. rewrite Rc. unfold lex.
             destruct (Nat.ltb_spec (length les + 1 + e2) (2 * N + 1)); cbn [fst snd]; lia.
        * unfold MIN_OCC. destruct (Nat.leb_spec N (length les)); [|lia]. cbn [assert_ bind].
          eexists. split; [reflexivity|]. cbn [b_part].
          split; [|split; [|split; [|split; [|split]]]]; auto.
          -- apply near_branch; [easy|cbn; lia|]. auto.
          -- subst l1 l2. rewrite flat_two, <- !app_assoc. reflexivity.
          -- lia.
          -- cbn [kids_of]. split; [lia|discriminate].
          -- rewrite Rc. destruct (Nat.ltb_spec (length les + 1 + e2) (2 * N + 1)); [lia|]. right. cbn. lia.
    - cbn [b_part] in F2. subst l2. unfold b_stitch, split_root. unfold n_len; cbn [elems_of]. rewrite app_length. cbn [length].
      destruct (Nat.ltb_spec (MAX_OCC N) (length les + 1)) as [Ho|Ho]; unfold MAX_OCC in Ho.
      + assert (h1 = 0) as -> by (unfold bounded in B1; cbn [fst snd] in B1; lia).
        apply shape_0 in S1 as (? & X & Lb). injection X as -> ->.
        destruct (n_split_ok N HN 0 (x ++ [(k1, v1)]) []) as (lhs & k & v & t' & Es & Sl & Sr & Hf).
        { rewrite app_length. cbn [length]. unfold MAX_OCC in *. lia. } { reflexivity. }
        rewrite Es. cbn [bind unwrap]. eexists. split; [reflexivity|]. cbn [b_part].
        split; [|split; [|split; [|split; [|split]]]]; auto.
        * apply near_branch; [easy|cbn; lia|].
          constructor; [|constructor; [|constructor]]; now apply (shape_near N 0).
        * subst l1. rewrite flat_two, Hf. reflexivity.
        * cbn [kids_of]. split; [lia|discriminate].
        * unfold n_len; cbn [elems_of length]. rewrite Rc. destruct (rk (N.to_nat s2)) as [h2 e2]. rewrite comb_eq.
          unfold stepped, bounded in *. cbn [fst snd] in *.
          destruct (Nat.ltb_spec h2 1); [lia|]. unfold MAX_OCC in *.
          destruct (Nat.ltb_spec (length x + 1 + e2) (2 * N + 1)); [lia|]. right. cbn. lia.
      + cbn [bind]. eexists. split; [reflexivity|]. cbn [b_part].
        split; [|split; [|split; [|split; [|split]]]]; auto.
        * inversion N1 as [|? ? HL ? HF]; subst; [constructor; now destruct les|].
          destruct h1 as [|h1]; [inversion S1; subst; congruence|].
          apply shape_S in S1 as (? & ? & X & Lb & Lk1 & HF1). injection X as <- <-.
          apply near_branch; auto. rewrite app_length. cbn [length]. lia.
        * subst l1. destruct h1 as [|h1].
          -- apply shape_0 in S1 as (? & X & Lb). injection X as -> ->. reflexivity.
          -- apply shape_S in S1 as (? & ? & X & Lb & Lk1 & HF1). injection X as <- <-.
             pose proof (flat_join les lks (k1, v1) [] [] Lk1) as J. rewrite app_nil_r in J. now rewrite J.
        * lia.
        * cbn [kids_of]. apply (shape_kids _ _ S1).
        * unfold n_len; cbn [elems_of]. rewrite app_length. exact Lc.
  Qed.

  Lemma btree_visitor_ok un : visitor_ok (b_impl bor cmp N un) b_full b_part b_rep (fun _ => True).
  Proof.
    constructor; cbn [b_impl mi_max_half_len mi_new mi_insert mi_make_half mi_make_whole mi_stitch mi_check_half].
    - unfold MAX_OCC. lia.
    - intros s [[o k] v] l (H & _). exact H.
    - intros l H1 H2. destruct (snoc_cases l) as [->|(l' & [k v] & ->)]; [congruence|].
      unfold b_make_half. rewrite app_length in *. cbn [length] in *.
      destruct (Nat.leb_spec 1 (length l' + 1)); [|lia]. destruct (Nat.leb_spec (length l' + 1) (MAX_OCC N + 1)); [|lia].
      cbn [andb assert_ bind]. rewrite vec_pop_snoc. cbn [unwrap bind fst snd].
      destruct l' as [|e l0]; cbn [is_nil].
      + eexists. split; [reflexivity|]. split; auto.
      + eexists. split; [reflexivity|]. split; [now rewrite app_length|]. exists 0. split; auto. split; [|split].
        * constructor. cbn [length] in *. lia.
        * reflexivity.
        * rewrite app_length. unfold n_len in *; cbn [length elems_of] in *. unfold MAX_OCC in *. rewrite rk_leaf by lia. f_equal. lia.
    - apply full_part.
    - intros s s' [[[[t ht]|] k] v] l P Hs; [|exact P]. destruct P as (P1 & P2 & P3 & P4 & P5 & P6).
      split; auto. split; auto. split; auto. split; auto. split; [|lia].
      eapply (lex_trans N HN); [exact P5|]. apply (rk_mono N HN); lia.
    - apply stitch_full.
    - apply stitch_part.
    - intros s [[[[t ht]|] k] v] l F _ _.
      + destruct F as (Hl & h & -> & S & -> & _). unfold b_check_half.
        destruct (chk_shape h 1 t (or_introl eq_refl) S None) as (r & Er & R). rewrite Er. cbn [bind].
        destruct r as [c|e].
        * destruct (chk_near (n_levels t) 1 t (le_n _) (shape_near 1 h t (le_n _) S) None c Er) as (_ & _ & L & _).
          destruct (match ck_greatest c with Some g => key_ge bor cmp g k | None => false end).
          -- eexists. split; [reflexivity|]. reflexivity.
          -- eexists. split; [reflexivity|]. cbv beta iota. rewrite app_length in Hl. cbn [length] in Hl. lia.
        * rewrite R. eexists. split; [reflexivity|]. reflexivity.
      + destruct F as (Hl & ->). eexists. split; [reflexivity|]. cbv beta iota. rewrite <- Hl. reflexivity.
    - intros s h l P _ Hl _. now apply b_whole.
    - apply b_shows_new.
    - intros m l k v R _. destruct (b_rep_insert m l k v R) as (m' & o & E & R'). rewrite E. cbn [bind]. eauto.
    - auto.
  Qed.
End SerdeBTree.
