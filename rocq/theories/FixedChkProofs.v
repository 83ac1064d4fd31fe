(** [chk] of the array-based B-tree accepts exactly the well-formed maps. *)
From Coq Require Import List PeanoNat Bool Lia.
From Verif Require Import Base Spec SpecFacts Vec BTreeModel BTreeProofs BTreeProofs2 BTreeIterModel BTreeIterProofs BTreeChkProofs
  FixedModel FixedIterModel FixedSpec FixedProofs FixedProofs2 FixedProofs4 FixedShows.
Import ListNotations.

Section Chk.
  Context {K V Q : Type} (bor : K -> Q) (cmp : Q -> Q -> comparison) (laws : order_laws cmp).
  Notation entry := (K * V)%type.
  Notation fnode := (fnode K V).
  Notation bt := (bt K V).
  Notation asc := (@ascending K V Q bor cmp).
  Notation above_p := (@above_p K V Q bor cmp).
  Notation lt_p := (@lt_p K Q bor cmp).
  Notation gk := (@gk K V).
  Notation MIN := MIN_OCCUPANCY.
  Notation shape := (@shape K V MIN).

  (** [l] is ascending and above [p]. *)
  Definition chain (p : option K) (l : list entry) : Prop := asc l /\ above_p p l.
  Lemma chain_cons p e l : chain p (e :: l) <-> lt_p p (fst e) /\ chain (Some (fst e)) l.
  Proof.
    unfold chain. rewrite asc_cons_iff, above_cons. cbn [BTreeChkProofs.above_p]. split; [tauto|].
    intros (H1 & H2 & H3). split; [tauto|]. split; auto. now apply (above_gt bor cmp laws p e).
  Qed.
  Lemma chain_app l : forall p r, chain p (l ++ r) <-> chain p l /\ chain (gk p l) r.
  Proof.
    induction l as [|e l IH]; intros p r; cbn [app].
    - rewrite gk_nil. unfold chain at 2. split; [|tauto]. intros H. split; auto. split; [constructor|]. destruct p; cbn; auto. intros ? [].
    - rewrite !chain_cons, IH, gk_cons. tauto.
  Qed.
  Lemma chain_nil p : chain p [].
  Proof. split; [constructor|]. destruct p; cbn; auto. intros ? []. Qed.
  Lemma greater_iff g k : assert_ (match g with Some g => key_lt bor cmp g k | None => true end) = Ok tt <-> lt_p g k.
  Proof.
    destruct g as [g|]; cbn; [|tauto]. unfold key_lt. destruct (cmp (bor g) (bor k)); cbn; split; congruence.
  Qed.

  (** What a walk over [l] returns. *)
  Definition walk (f : option K -> res (option K * nat * nat)) (H : nat -> Prop) (l : list entry) : Prop :=
    forall p g ht len, f p = Ok (g, ht, len) <-> chain p l /\ H ht /\ g = gk p l /\ len = length l.

  Lemma loop_leaf : forall (es : list entry) i g ht len g' len',
    f_chk_loop bor cmp (fun _ _ => Ok None) i (map fst es) g ht len = Ok (g', len')
    <-> chain g es /\ g' = gk g es /\ len' = len + length es.
  Proof.
    induction es as [|e es IH]; intros i g ht len g' len'; cbn [map f_chk_loop].
    - rewrite gk_nil. split.
      + intros X. injection X as <- <-. split; [apply chain_nil|]. cbn. auto.
      + intros (_ & -> & ->). cbn. now rewrite Nat.add_0_r.
    - rewrite chain_cons, gk_cons, <- greater_iff. destruct (assert_ _) as [[]|]; cbn [bind].
      + rewrite IH. cbn [length]. split; [intros (?&?&?)|intros ((?&?)&?&?)]; (split; [tauto|split; [auto|lia]]).
      + split; [discriminate|]. intros ((X & _) & _). discriminate.
  Qed.

  Lemma loop_branch kid ht : forall (es : list entry) fs Hs L i g len g' len',
    length L = length es -> length fs = length es -> length Hs = length es ->
    (forall j f, nth_error fs j = Some f -> forall p, kid (S (i + j)) p = Ok (Some (f p))) ->
    (forall j f H l, nth_error fs j = Some f -> nth_error Hs j = Some H -> nth_error L j = Some l -> walk f H l) ->
    f_chk_loop bor cmp kid i (map fst es) g ht len = Ok (g', len')
    <-> Forall (fun H : nat -> Prop => H ht) Hs /\ chain g (zipr es L) /\ g' = gk g (zipr es L) /\ len' = len + length (zipr es L).
  Proof.
    induction es as [|e es IH]; intros [|f fs] [|H Hs] [|l L] i g len g' len' L1 L2 L3 Hk Hw; try discriminate; cbn [map f_chk_loop].
    - rewrite zipr_nil, gk_nil. split.
      + intros X. injection X as <- <-. split; auto. split; [apply chain_nil|]. cbn. auto.
      + intros (_ & _ & -> & ->). cbn. now rewrite Nat.add_0_r.
    - rewrite zipr_cons, chain_cons, gk_cons, <- greater_iff. destruct (assert_ _) as [[]|]; cbn [bind].
      2:{ split; [discriminate|]. intros (_ & (X & _) & _). discriminate. }
      pose proof (Hk 0 f eq_refl (Some (fst e))) as E. rewrite Nat.add_0_r in E. rewrite E. cbn [bind].
      pose proof (Hw 0 f H l eq_refl eq_refl eq_refl (Some (fst e))) as W.
      assert (IH' : forall g1 len1 g2 len2, f_chk_loop bor cmp kid (S i) (map fst es) g1 ht len1 = Ok (g2, len2)
        <-> Forall (fun H : nat -> Prop => H ht) Hs /\ chain g1 (zipr es L) /\ g2 = gk g1 (zipr es L) /\ len2 = len1 + length (zipr es L)).
      { intros. apply (IH fs); try (cbn in *; lia).
        - intros j f' Hj p. replace (S (S i + j)) with (S (i + S j)) by lia. now apply Hk.
        - intros j f' H' l' ? ? ?. now apply (Hw (S j)). }
      rewrite chain_app, gk_app. cbn [length]. rewrite app_length. split.
      + destruct (f (Some (fst e))) as [[[g1 h1] l1]|]; cbn [bind]; [|discriminate].
        destruct (proj1 (W g1 h1 l1) eq_refl) as (C & Hh & -> & ->). destruct (Nat.eqb_spec h1 ht); cbn [assert_ bind]; [|discriminate].
        subst h1. rewrite IH'. intros (F & C' & -> & ->). split; [auto|]. split; [auto|]. split; [auto|lia].
      + intros (F & (_ & C1 & C2) & -> & ->). inversion F; subst.
        rewrite (proj2 (W (gk (Some (fst e)) l) ht (length l))) by auto. cbn [bind]. rewrite Nat.eqb_refl. cbn [assert_ bind].
        apply IH'. split; [auto|]. split; [auto|]. split; [auto|lia].
  Qed.

  Lemma Forall2_nth {A B} (R : A -> B -> Prop) l1 l2 : Forall2 R l1 l2 -> forall i x y,
    nth_error l1 i = Some x -> nth_error l2 i = Some y -> R x y.
  Proof. induction 1; intros [|i] a b; cbn; try discriminate; [intros [=<-] [=<-]; auto|eauto]. Qed.

  Definition ht_of (t : bt) (ht : nat) : Prop := exists h, ht = S h /\ shape MIN h t.

  Lemma fn_chk_iff s : forall t n mn, n_levels t <= s -> repr n t -> 1 <= mn ->
    walk (fn_chk bor cmp mn n) (fun ht => exists h, ht = S h /\ shape mn h t) (flat t).
  Proof.
    induction s as [|s IH]; intros [es ks] [e d] mn Ls R Hm p g ht len; [cbn in Ls; lia|].
    apply repr_iff in R as [He Hd]. cbn [fn_chk]. pose proof He as (Hk & Hv & Hl). rewrite Hl.
    pose proof (elems_len _ _ He) as Le.
    assert (Bd : forall h, shape mn h (BN es ks) -> mn <= length es).
    { intros h S. apply shape_len in S. unfold n_len in S. cbn in S. lia. }
    destruct (Nat.leb_spec mn (length es)) as [Lm|Lm]; cbn [assert_ bind].
    2:{ split; [discriminate|]. intros (_ & (h & _ & S) & _). apply Bd in S. lia. }
    destruct (Nat.leb_spec (length es) MAX_OCCUPANCY); [|lia]. cbn [assert_ bind].
    assert (Hn : es <> []) by (intros ->; cbn in Lm; lia).
    assert (Em : length es <= MAX_OCC MIN) by (rewrite max_is; auto).
    destruct d as [d|]; cbn [okids_rep] in Hd.
    - destruct Hd as (Hks & ns & Hns & F). pose proof (Forall2_len _ _ _ F) as Lns.
      rewrite (proj2 Hns). destruct (Nat.eqb_spec (length ns) (length es + 1)) as [Lk|Lk]; cbn [assert_ bind].
      2:{ split; [discriminate|]. intros (_ & (h & _ & S) & _). inversion S; subst; try congruence. lia. }
      assert (Hn0 : ns <> []) by (intros ->; cbn in Lk; lia).
      assert (Hkid : forall i p c, nth_error ns i = Some c ->
                fchild (on_kids (fun c => fn_chk bor cmp MIN c p) (Some d)) i = Ok (Some (fn_chk bor cmp MIN c p))).
      { intros i p0 c Hc. rewrite (fchild_map _ d ns i Hns Hn0). now rewrite (map_nth_error _ _ _ Hc). }
      destruct ns as [|c0 ns]; [congruence|]. destruct ks as [|t0 ks]; [congruence|]. inversion F as [|? ? ? ? R0 F']; subst.
      rewrite (Hkid 0 p c0 eq_refl). cbn [bind]. cbn [length] in Lk, Lns.
      assert (Lv : forall t, In t (t0 :: ks) -> n_levels t <= s).
      { intros t Ht. rewrite levels_eq in Ls. pose proof (max_levels_in t _ Ht). lia. }
      pose proof (IH t0 c0 MIN (Lv t0 (or_introl eq_refl)) R0 min_pos p) as W0.
      assert (Efl : flat (BN es (t0 :: ks)) = flat t0 ++ zipr es (map flat ks)).
      { cbn [flat map]. apply weave_zipr. rewrite map_length. lia. }
      rewrite Efl, chain_app, gk_app, app_length.
      destruct (el_live e es He Hn) as (Elk & _). rewrite Hl in Elk. rewrite Elk. cbn [bind].
      pose proof (loop_branch (fun i g => fchild (on_kids (fun c => fn_chk bor cmp MIN c g) (Some d)) i)) as LB.
      assert (LB' : forall ht g len g' len', f_chk_loop bor cmp (fun i g => fchild (on_kids (fun c => fn_chk bor cmp MIN c g) (Some d)) i) 0 (map fst es) g ht len = Ok (g', len')
        <-> Forall (fun H : nat -> Prop => H ht) (map ht_of ks) /\ chain g (zipr es (map flat ks))
            /\ g' = gk g (zipr es (map flat ks)) /\ len' = len + length (zipr es (map flat ks))).
      { intros. apply (LB ht0 es (map (fn_chk bor cmp MIN) ns) (map ht_of ks)); try (rewrite map_length; lia).
        - intros j f Hj p0. rewrite nth_error_map in Hj. destruct (nth_error ns j) as [c|] eqn:Hc; [|discriminate]. injection Hj as <-.
          exact (Hkid (S j) p0 c Hc).
        - intros j f H' l Hj HH HL. rewrite nth_error_map in Hj, HH, HL.
          destruct (nth_error ns j) as [c|] eqn:Hc; [|discriminate]. injection Hj as <-.
          destruct (nth_error ks j) as [t|] eqn:Ht; [|discriminate]. injection HH as <-. injection HL as <-.
          apply (IH t c MIN); [|exact (Forall2_nth _ _ _ F' j c t Hc Ht)|apply min_pos].
          apply Lv. right. eapply nth_error_In; eauto. }
      split.
      + destruct (fn_chk bor cmp MIN c0 p) as [[[g0 h0] l0]|]; cbn [bind]; [|discriminate].
        destruct (proj1 (W0 g0 h0 l0) eq_refl) as (C0 & (hh & -> & S0) & -> & ->).
        destruct (f_chk_loop _ _ _ _ _ _ _ _) as [[g2 l2]|] eqn:EL; cbn [bind]; [|discriminate].
        apply LB' in EL as (FH & C2 & -> & ->). intros X. injection X as <- <- <-.
        split; auto. split; [|split; auto]. exists (S hh). split; [lia|].
        constructor; [lia|cbn [length]; lia|]. constructor; auto. rewrite Forall_map in FH. rewrite Forall_forall in FH |- *.
        intros t Ht. destruct (FH t Ht) as (h' & [=<-] & S'). auto.
      + intros ((C1 & C2) & (h & -> & S) & -> & ->). inversion S as [|? hh ? ? B Lk' FS]; subst. inversion FS as [|? ? S0 FS']; subst.
        rewrite (proj2 (W0 (gk p (flat t0)) (Datatypes.S hh) (length (flat t0)))) by (split; [auto|split; eauto]).
        cbn [bind]. match goal with |- bind ?x _ = _ => destruct x as [[g2 l2]|] eqn:EL end.
        * apply LB' in EL as (_ & _ & -> & ->). cbn [bind]. now rewrite Nat.add_1_r.
        * exfalso. assert (X : Panic = Ok (gk (gk p (flat t0)) (zipr es (map flat ks)), length (flat t0) + length (zipr es (map flat ks)))); [|discriminate].
          rewrite <- EL. apply LB'. split; [|auto]. rewrite Forall_map. eapply Forall_impl; [|exact FS'].
          intros t St. exists hh. auto.
    - subst ks. cbn [assert_ bind on_kids fchild]. destruct (el_live e es He Hn) as (Elk & _). rewrite Hl in Elk. rewrite Elk. cbn [bind].
      rewrite flat_leaf. destruct (f_chk_loop _ _ _ _ _ _ _ _) as [[g2 l2]|] eqn:EL; cbn [bind].
      + apply loop_leaf in EL as (C & -> & ->). split.
        * intros X. injection X as <- <- <-. split; auto. split; [|auto]. exists 0. split; auto. constructor. lia.
        * intros (_ & (h & -> & S) & -> & ->). inversion S; subst; [reflexivity|]. discriminate.
      + split; [discriminate|]. intros (C & (h & -> & S) & -> & ->).
        assert (X : Panic = Ok (gk p es, 0 + length es)); [|discriminate]. rewrite <- EL. apply loop_leaf. auto.
  Qed.

  (** ** What [chk] finds out about the slots *)
  Lemma all_init_inv {A} (s : list (option A)) : forall l, all_init s = Ok l -> s = map Some l.
  Proof.
    induction s as [|[x|] s IH]; intros l; cbn; [intros [=<-]; auto| |discriminate].
    destruct (all_init s) as [l'|]; cbn; [|discriminate]. intros [=<-]. cbn. now rewrite (IH l').
  Qed.
  Lemma live_inv {A} n (s : list (option A)) len l : length s = n -> live s len = Ok l -> arr n s l /\ len = length l.
  Proof.
    intros Hn. unfold live. destruct (slot_read s 0); cbn [bind]; [|discriminate].
    destruct (Nat.leb_spec len (length s)); cbn [assert_ bind]; [|discriminate].
    intros H1. apply all_init_inv in H1. assert (L : len = length l).
    { apply (f_equal (@length _)) in H1. rewrite map_length, firstn_length in H1. lia. }
    split; auto. apply begins_arr. split; auto. now rewrite <- L.
  Qed.
  Lemma somes_inv {A} n (s : list (option A)) len : length s = n -> len <= n -> forallb is_some (firstn len s) = true ->
    exists l, arr n s l /\ length l = len.
  Proof.
    intros Hn Hl H. assert (X : exists l, firstn len s = map Some l).
    { clear Hn Hl. induction (firstn len s) as [|[x|] r IH]; [exists []; auto| |discriminate].
      destruct IH as [l ->]; auto. now exists (x :: l). }
    destruct X as [l E]. assert (L : length l = len).
    { apply (f_equal (@length _)) in E. rewrite map_length, firstn_length in E. lia. }
    exists l. split; auto. apply begins_arr. split; auto. now rewrite L.
  Qed.
  Lemma live_map_inv {A B} (f : A -> B) n (s : list (option A)) len l : length s = n ->
    live (map (fun o => match o with Some c => Some (f c) | None => None end) s) len = Ok l ->
    exists ns, arr n s ns /\ len = length ns.
  Proof.
    intros Hn H. destruct (live_inv n _ len l (eq_trans (map_length _ _) Hn) H) as [Ha ->].
    apply begins_arr in Ha as [_ E]. rewrite firstn_map in E.
    destruct (somes_inv n s (length l) Hn) as (ns & Hns & L).
    - apply (f_equal (@length _)) in E. rewrite !map_length, firstn_length in E. lia.
    - apply forallb_forall. intros o Ho. destruct o as [x|]; auto. exfalso.
      apply (in_map (fun o => match o with Some c => Some (f c) | None => None end)) in Ho. rewrite E in Ho.
      apply in_map_iff in Ho as (y & Hy & _). discriminate.
    - exists ns. split; auto.
  Qed.

  Lemma loop_kids kid : forall ks i g ht len x, f_chk_loop bor cmp kid i ks g ht len = Ok x ->
    forall j r, j < length ks -> (forall p, kid (S (i + j)) p = Ok (Some (r p))) -> exists p y, r p = Ok y.
  Proof.
    induction ks as [|k ks IH]; intros i g ht len x; cbn [f_chk_loop length]; [intros _ j r Hj; lia|].
    destruct (assert_ _); cbn [bind]; [|discriminate].
    destruct (kid (S i) (Some k)) as [c|] eqn:Ek; cbn [bind]; [|discriminate].
    intros H [|j] r Hj Hr.
    - rewrite Nat.add_0_r in Hr. rewrite Hr in Ek. injection Ek as <-. destruct (r (Some k)) as [y|] eqn:Er; [eauto|discriminate].
    - assert (Y : exists g' len', f_chk_loop bor cmp kid (S i) ks g' ht len' = Ok x).
      { destruct c as [[[[g1 h1] l1]|]|]; cbn [bind] in H; [|discriminate|eauto].
        destruct (assert_ _); cbn [bind] in H; [eauto|discriminate]. }
      destruct Y as (g' & len' & Y). eapply (IH _ _ _ _ _ Y j r); [lia|]. intros p.
      replace (S (S i + j)) with (S (i + S j)) by lia. apply Hr.
  Qed.

  Lemma fn_size_kid ps k e (c : fnode) : In (Some c) ps -> fn_size c < fn_size (FNode e (Some (Kids ps k))).
  Proof.
    intros H. cbn [fn_size]. apply Nat.lt_succ_r. induction ps as [|o ps IH]; [destruct H|]. cbn [fold_right].
    destruct H as [->|H]; [lia|]. apply IH in H. lia.
  Qed.

  Lemma typed_repr s : forall n : fnode, fn_size n <= s -> fn_typed n = true -> forall mn p x, 1 <= mn ->
    fn_chk bor cmp mn n p = Ok x -> exists t, repr n t.
  Proof.
    induction s as [|s IH]; intros [e d] Hs Ht mn p x Hm; [cbn in Hs; lia|]. cbn [fn_chk fn_typed] in *.
    destruct (Nat.leb_spec mn (el_len e)) as [L1|]; cbn [assert_ bind]; [|discriminate].
    destruct (Nat.leb_spec (el_len e) MAX_OCCUPANCY) as [L2|]; cbn [assert_ bind]; [|discriminate].
    apply andb_prop in Ht as [Ht Hd]. apply andb_prop in Ht as [Ht Hv]. apply andb_prop in Ht as [Hk1 Hv1].
    apply Nat.eqb_eq in Hk1, Hv1. change 11 with MAX_OCCUPANCY in Hk1, Hv1.
    destruct (somes_inv _ _ _ Hv1 L2 Hv) as (vs & Hvs & Lvs).
    assert (G : forall ks, live (el_keys e) (el_len e) = Ok ks -> exists es, elems_are e es).
    { intros ks E. apply (live_inv _ _ _ _ Hk1) in E as [Hks Lks]. exists (combine ks vs).
      assert (L : length ks = length vs) by lia.
      assert (E1 : map fst (combine ks vs) = ks).
      { clear -L. revert vs L. induction ks; intros [|v vs] L; cbn in *; try discriminate; auto. f_equal. apply IHks. lia. }
      assert (E2 : map snd (combine ks vs) = vs).
      { clear -L. revert vs L. induction ks; intros [|v vs] L; cbn in *; try discriminate; auto. f_equal. apply IHks. lia. }
      split; [now rewrite E1|]. split; [now rewrite E2|]. rewrite combine_length. lia. }
    destruct d as [[ps k]|].
    - apply andb_prop in Hd as [Hp Hd]. apply Nat.eqb_eq in Hp. change 12 with MAX_KIDS in Hp. cbn [kd_len].
      destruct (Nat.eqb_spec k (el_len e + 1)) as [Lk|]; cbn [assert_ bind]; [|discriminate].
      intros H. destruct (fchild (on_kids (fun c => fn_chk bor cmp MIN c p) (Some (Kids ps k))) 0) as [o0|] eqn:E0;
        cbn [bind] in H; [|discriminate].
      assert (X : exists ns, arr MAX_KIDS ps ns /\ k = length ns).
      { cbn [on_kids fchild kd_ptrs kd_len] in E0. destruct (live _ k) as [l0|] eqn:El; [|discriminate].
        exact (live_map_inv _ _ ps k l0 Hp El). }
      destruct X as (ns & Hns & ->).
      assert (Hkd : kids_are (Kids ps (length ns)) ns) by (split; auto).
      assert (Hn0 : ns <> []) by (intros ->; cbn in Lk; lia).
      assert (Hkid : forall i p c, nth_error ns i = Some c ->
                fchild (on_kids (fun c => fn_chk bor cmp MIN c p) (Some (Kids ps (length ns)))) i = Ok (Some (fn_chk bor cmp MIN c p))).
      { intros i p0 c Hc. rewrite (fchild_map _ _ ns i Hkd Hn0). now rewrite (map_nth_error _ _ _ Hc). }
      destruct ns as [|c0 ns]; [congruence|]. rewrite (Hkid 0 p c0 eq_refl) in E0. injection E0 as <-.
      destruct (fn_chk bor cmp MIN c0 p) as [[[g0 h0] ln0]|] eqn:F0; cbn [bind] in H; [|discriminate].
      destruct (live (el_keys e) (el_len e)) as [ks|] eqn:Ekeys; cbn [bind] in H; [|discriminate].
      destruct (G ks eq_refl) as (es & He).
      destruct (f_chk_loop _ _ _ _ _ _ _ _) as [y|] eqn:EL; cbn [bind] in H; [|discriminate].
      assert (Hks : length ks = length ns).
      { apply (live_inv _ _ _ _ Hk1) in Ekeys as [_ X]. cbn [length] in Lk. lia. }
      assert (Hr : Forall (fun c => exists t, repr c t) (c0 :: ns)).
      { apply Forall_forall. intros c Hc.
        assert (Hin : In (Some c) ps).
        { apply begins_arr in Hns as [_ X]. rewrite <- (firstn_skipn (length (c0 :: ns)) ps), X. apply in_or_app. left. now apply in_map. }
        assert (Htc : fn_typed c = true).
        { rewrite forallb_forall in Hd. apply Hd. rewrite firstn_map. apply begins_arr in Hns as [_ X]. rewrite X.
          apply in_map_iff. exists (Some c). split; auto. now apply in_map. }
        assert (Hsz : fn_size c <= s).
        { pose proof (fn_size_kid ps (length (c0 :: ns)) e c Hin) as X. cbn [length] in X, Hs. lia. }
        assert (Hx : exists p' y', fn_chk bor cmp MIN c p' = Ok y').
        { destruct Hc as [<-|Hc]; [exists p; eexists; exact F0|].
          apply In_nth_error in Hc as [j Hj].
          apply (loop_kids _ _ _ _ _ _ _ EL j (fun p => fn_chk bor cmp MIN c p)).
          - rewrite Hks. apply nth_error_Some. congruence.
          - intros p'. apply Hkid. exact Hj. }
        destruct Hx as (p' & y' & Hx). apply (IH c Hsz Htc MIN p' y' min_pos Hx). }
      assert (X : exists ts, Forall2 repr (c0 :: ns) ts).
      { clear -Hr. induction Hr as [|c l [t Ht] _ [ts IH]]; [exists []; auto|]. exists (t :: ts). auto. }
      destruct X as [ts X]. exists (BN es ts). apply repr_iff. split; auto. split; [intros ->; inversion X|]. eexists. split; eauto.
    - cbn [assert_ bind on_kids fchild]. destruct (live (el_keys e) (el_len e)) as [ks|]; cbn [bind]; [|discriminate].
      intros _. destruct (G ks eq_refl) as [es He]. exists (BN es []). now constructor.
  Qed.

  Lemma repr_typed s : forall t (n : fnode), n_levels t <= s -> repr n t -> fn_typed n = true.
  Proof.
    induction s as [|s IH]; intros [es ks] [e d] Ls R; [cbn in Ls; lia|].
    apply repr_iff in R as [(Hk & Hv & Hl) Hd]. cbn [fn_typed].
    rewrite (proj1 Hk), (proj1 Hv). change (MAX_OCCUPANCY =? 11) with true. cbn [andb].
    assert (E : forallb is_some (firstn (el_len e) (el_vals e)) = true).
    { apply begins_arr in Hv as [_ Hv]. rewrite map_length in Hv. rewrite Hl, Hv. apply forallb_forall.
      intros o Ho. apply in_map_iff in Ho as (y & <- & _). reflexivity. }
    rewrite E. cbn [andb]. destruct d as [[ps k]|]; [|reflexivity]. destruct Hd as (_ & ns & [Hp Hkl] & F). cbn in Hp, Hkl.
    rewrite (proj1 Hp). change (MAX_KIDS =? 12) with true. cbn [andb]. apply begins_arr in Hp as [_ Hp].
    rewrite firstn_map, Hkl, Hp, map_map. apply forallb_forall. intros b Hb. apply in_map_iff in Hb as (c & <- & Hc).
    apply In_nth_error in Hc as [j Hj]. destruct (nth_error ks j) as [t|] eqn:Ht.
    - apply (IH t c); [|exact (Forall2_nth _ _ _ F j c t Hj Ht)]. rewrite levels_eq in Ls.
      pose proof (max_levels_in t ks (nth_error_In _ _ Ht)). lia.
    - apply nth_error_None in Ht. rewrite <- (Forall2_len _ _ _ F) in Ht. assert (j < length ns) by (apply nth_error_Some; congruence). lia.
  Qed.

  Lemma f_chk_exact (m : f_map K V) : (f_typed m = true /\ f_chk bor cmp m = Ok tt) <-> exists l, f_shows bor cmp m l.
  Proof.
    destruct m as [[n|] len]; unfold f_typed, f_chk, f_shows; cbn [fm_root fm_len].
    - split.
      + intros [Ht Hc]. destruct (fn_chk bor cmp 1 n None) as [[[g h] l]|] eqn:E; cbn [bind] in Hc; [|discriminate].
        destruct (typed_repr (fn_size n) n (le_n _) Ht 1 None _ (le_n _) E) as [t R].
        apply (fn_chk_iff (n_levels t) t n 1 (le_n _) R (le_n _)) in E as ((A & _) & (h' & _ & S) & _ & ->).
        exists (flat t). split; auto. destruct (Nat.eqb_spec (length (flat t)) len); [|discriminate]. split; auto.
        exists h'. apply holds_iff. eauto.
      + intros (l & A & L & h & H). apply holds_iff in H as (t & R & S & <-).
        split; [exact (repr_typed _ t n (le_n _) R)|].
        rewrite (proj2 (fn_chk_iff (n_levels t) t n 1 (le_n _) R (le_n _) None (gk None (flat t)) (Datatypes.S h) (length (flat t)))).
        * cbn [bind]. rewrite L, Nat.eqb_refl. reflexivity.
        * split; [split; [auto|exact I]|]. split; eauto.
    - split.
      + intros [_ H]. destruct (Nat.eqb_spec len 0); [|discriminate]. subst len. exists []. split; [constructor|auto].
      + intros (l & _ & -> & ->). auto.
  Qed.
End Chk.
