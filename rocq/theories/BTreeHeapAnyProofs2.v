(** Histories of calls on shared [BTreeMap]s, with any comparison function in every call. *)
From Coq Require Import List PeanoNat Bool Lia Sorted.
From Verif Require Import Base Spec MapSpec BTreeSpec SpecFacts Vec Heap HeapProofs BTreeModel BTreeProofs BTreeProofs2 BTreeIterModel
  BTreeIterProofs BTreeIterProofs2 BTreeHistModel BTreeHistProofs BTreeShows BTreeHeapModel BTreeHeapSpec BTreeHeapHistModel BTreeHeapHistSpec
  BTreeHeapProofs BTreeHeapProofs2 BTreeHeapProofs3 BTreeHeapProofs4 BTreeHeapProofs5 BTreeHeapProofs6 BTreeHeapProofs7
  AnyOrdSpec BTreeAnyProofs AnyOrdShows BTreeAnyChk AnyHeapSpec BAnyHeapSpec BTreeHeapAnyProofs.
From Verif Require BTreeHeapProofs8 BTreeHeapProofs9 BTreeMutProofs AvlHeapProofs5.
Import ListNotations.
Local Open Scope nat_scope.

Section AnyRuns.
  Context {K V Q : Type} (bor : K -> Q) (N : nat) (HN : 1 <= N).
  Context (keq : K -> K -> bool) (veq : V -> V -> bool).
  Context (kcmp : K -> K -> comparison) (vcmp : V -> V -> comparison).
  Variable bomb : nat -> bool.
  Variable fbomb : K -> V -> bool.
  Notation heap := (heap (list (K * V))).
  Notation op := (op K V Q).
  Notation ord := (Q -> Q -> comparison).
  Notation bmap := (bt_map K V).
  Notation nob := (fun _ : K => tt).
  Notation noc := (fun _ _ : unit => Lt).
  Notation hbany := (@hbany K V N).
  Notation hb_step cmp := (hb_step bor cmp N keq veq kcmp vcmp bomb fbomb).
  Notation hb_calls := (hb_calls bor N keq veq kcmp vcmp bomb fbomb).
  Notation bany_did := (bany_did bor keq veq kcmp vcmp).
  Notation bany_unwound := (bany_unwound bor).
  Notation bany_follows := (bany_follows bor keq veq kcmp vcmp).
  Notation faults := (BTreeHeapProofs8.faults bomb fbomb).
  Notation sound_equiv := BTreeHeapProofs8.sound_equiv.
  Notation broots_app := BTreeHeapProofs8.broots_app.
  Notation nth_split_set := BTreeHeapProofs8.nth_split_set.
  Notation frame_z := BTreeHeapProofs8.frame_z.
  Notation reads := (@BTreeHeapProofs8.reads K V Q).

  (** The maps [ms], which show [sst], and the pointers [X] hold everything. *)
  Definition held (h : heap) (ms : list hbmap) (sst : list (list (K * V))) (X : list addr) : Prop :=
    sound h (broots ms ++ X) /\ Forall2 (hbany h) ms sst.

  Lemma shows_frame Z (h h' : heap) ms sst : frame Z h h' -> incl (broots ms) Z -> Forall2 (hbany h) ms sst -> Forall2 (hbany h') ms sst.
  Proof.
    intros F I H. induction H as [|m l ms sst H Hs IH]; constructor.
    - eapply (hbany_keep N); [apply frame_keep; exact F| |exact H]. intros x Hx. apply I. cbn [broots flat_map]. apply in_or_app. auto.
    - apply IH. intros x Hx. apply I. cbn [broots flat_map]. apply in_or_app. auto.
  Qed.

  Lemma focus (h : heap) ms sst X i m : held h ms sst X -> nth_error ms i = Some m ->
    exists l Z, nth_error sst i = Some l /\ hbany h m l /\ sound h (olist (hb_root m) ++ Z ++ X)
      /\ forall h' m' l' X', frame Z h h' -> sound h' (olist (hb_root m') ++ Z ++ X') -> hbany h' m' l' ->
           held h' (set_nth i m' ms) (set_nth i l' sst) X'.
  Proof.
    intros [So F] E. apply nth_split_set in E as (a & b & -> & Hi & Es). apply Forall2_app_inv_l in F as (sa & sb & Fa & Fb & ->).
    inversion Fb as [|? l ? sb' Hl Fb' Eq1 Eq2]; subst. assert (Ha : length a = length sa) by (clear - Fa; induction Fa; cbn; auto).
    exists l, (broots a ++ broots b). split; [rewrite Ha, nth_error_app2, Nat.sub_diag by lia; reflexivity|]. split; auto.
    rewrite broots_app in So. cbn [broots flat_map] in So. fold (broots b) in So.
    split; [eapply sound_equiv; [|exact So]; intros x; rewrite !cnt_app; lia|].
    intros h' m' l' X' Fr So' Sh. rewrite Es.
    replace (set_nth (length a) l' (sa ++ l :: sb')) with (sa ++ l' :: sb').
    2:{ unfold set_nth. rewrite Ha, firstn_app, skipn_app, firstn_all, skipn_all, Nat.sub_diag. cbn. now rewrite app_nil_r. }
    split.
    - rewrite broots_app. cbn [broots flat_map]. fold (broots b). eapply sound_equiv; [|exact So']. intros x; rewrite !cnt_app; lia.
    - apply Forall2_app; [|constructor; auto]; (eapply shows_frame; [exact Fr| |eassumption]); intros x Hx; apply in_or_app; auto.
  Qed.
  Lemma push (h : heap) ms sst X m l : held h ms sst (olist (hb_root m) ++ X) -> hbany h m l -> held h (ms ++ [m]) (sst ++ [l]) X.
  Proof.
    intros [So F] H. split; [|apply Forall2_app; auto]. rewrite broots_app. cbn [broots flat_map]. rewrite app_nil_r, <- app_assoc. exact So.
  Qed.
  Lemma held_len (h : heap) ms sst X : held h ms sst X -> length ms = length sst.
  Proof. intros [_ F]. induction F; cbn; auto. Qed.
  Lemma held_none (h : heap) ms sst X i : held h ms sst X -> nth_error ms i = None -> nth_error sst i = None.
  Proof. intros H E. apply nth_error_None. apply nth_error_None in E. now rewrite <- (held_len _ _ _ _ H). Qed.

  (** ** Reads *)
  Lemma pick (h : heap) ms sst i : Forall2 (hbany h) ms sst ->
    match nth_error ms i with
    | Some m => exists b l, nth_error sst i = Some l /\ hb_read h m = Ok b /\ b_any N b l
    | None => nth_error sst i = None
    end.
  Proof. intros F. revert i. induction F as [|m l ms sst (b & E & A) F IH]; intros [|i]; cbn; eauto. apply IH. Qed.
  Lemma b_get_kv_any cmp (m : bmap) l q : b_any N m l ->
    forall e, b_get_key_value bor cmp m q = Some e -> In e l /\ told_eq bor cmp q e.
  Proof.
    intros H e E. apply any_iff in H as (L & R). unfold b_get_key_value in E. destruct (bm_root m) as [t|]; [|discriminate].
    destruct R as (h & S & <-). pose proof (n_get_any bor cmp N HN q h 1 t S) as X. rewrite E in X. tauto.
  Qed.
  Lemma reads_any cmp (h : heap) ms sst X (o : op) : held h ms sst X -> b_tame o -> reads o ->
    exists r, hb_step cmp (h, ms) o = Ok ((h, ms), Done r) /\ bany_did cmp sst o r sst.
  Proof.
    intros [_ F] T Hr. destruct o; try contradiction; cbn [BTreeHeapHistModel.hb_step BAnyHeapSpec.bany_did AnyHeapSpec.any_did]; cbv zeta;
      match goal with |- context [match nth_error ms ?i with _ => _ end] => pose proof (pick h ms sst i F) as P; destruct (nth_error ms i) as [m|];
      [destruct P as (b & l & El & Er & A); rewrite El|rewrite P; eexists; now auto] end; try (rewrite Er; cbn [bind]).
    - eexists. split; [reflexivity|]. split; auto. eexists. split; [reflexivity|]. now apply (b_get_any bor cmp N HN).
    - eexists. split; [reflexivity|]. split; auto. eexists. split; [reflexivity|]. now apply b_get_kv_any.
    - eexists. split; [reflexivity|]. split; auto. eexists. split; [reflexivity|]. now apply (b_contains_any bor cmp N HN).
    - apply any_valid in A as [Va <-]. destruct (b_first_last_ok nob noc N HN b Va) as [-> _]. cbn [bind]. eexists. split; [reflexivity|]. auto.
    - apply any_valid in A as [Va <-]. destruct (b_first_last_ok nob noc N HN b Va) as [_ ->]. eexists. split; [reflexivity|]. auto.
    - destruct A as [L _]. eexists. split; [reflexivity|]. split; [reflexivity|]. unfold b_len. now rewrite L.
    - destruct A as [L _]. eexists. split; [reflexivity|]. split; [reflexivity|]. unfold b_is_empty, b_len. now rewrite L.
    - destruct (b_iter_any N HN (fun _ => true) b l cs A) as [-> _]. cbn [bind]. eexists. split; [reflexivity|]. auto.
    - match goal with |- context [match nth_error ms ?i with _ => _ end] => pose proof (pick h ms sst i F) as P; destruct (nth_error ms i) as [m'|];
        [destruct P as (b' & l' & El' & Er' & A'); rewrite El'|rewrite P; eexists; now auto] end.
      rewrite Er'. cbn [bind]. apply any_valid in A as [Va <-]. apply any_valid in A' as [Va' <-].
      rewrite (eq_ok nob noc N HN keq veq b b' Va Va'). cbn [bind]. eexists. split; [reflexivity|]. auto.
    - match goal with |- context [match nth_error ms ?i with _ => _ end] => pose proof (pick h ms sst i F) as P; destruct (nth_error ms i) as [m'|];
        [destruct P as (b' & l' & El' & Er' & A'); rewrite El'|rewrite P; eexists; now auto] end.
      rewrite Er'. cbn [bind]. apply any_valid in A as [Va <-]. apply any_valid in A' as [Va' <-].
      rewrite (cmp_ok nob noc N HN kcmp vcmp b b' Va Va'). cbn [bind]. eexists. split; [reflexivity|]. auto.
    - destruct (b_chk_any bor cmp N HN b l A) as (r & -> & Hr'). cbn [bind]. eexists. split; [reflexivity|]. split; auto.
      eexists. split; [reflexivity|]. destruct r as [[]|]; [auto|discriminate].
  Qed.

  Definition stepped cmp (h : heap) ms (sst : list (list (K * V))) (o : op) : Prop :=
    exists h' ms' r, hb_step cmp (h, ms) o = Ok ((h', ms'), r) /\ exists sst', held h' ms' sst' []
      /\ match r with
         | Done x => bany_did cmp sst o x sst'
         | Unwound => faults /\ bany_unwound cmp sst o sst'
         end.

  Lemma step_any cmp (h : heap) ms sst (o : op) : held h ms sst [] -> b_tame o -> stepped cmp h ms sst o.
  Proof.
    intros H T.
    assert (Rd : reads o -> stepped cmp h ms sst o).
    { intros Hr. destruct (reads_any cmp h ms sst [] o H T Hr) as (r & E1 & E2). exists h, ms, (Done r). split; auto. exists sst. auto. }
    destruct o; try (apply Rd; exact I); try contradiction; clear Rd; unfold stepped;
      cbn [BTreeHeapHistModel.hb_step BAnyHeapSpec.bany_did AnyHeapSpec.any_did BAnyHeapSpec.bany_unwound]; cbv zeta;
      try (match goal with |- context [match nth_error ms ?i with _ => _ end] => destruct (nth_error ms i) as [m|] eqn:Em;
             [destruct (focus h ms sst [] i m H Em) as (l & Z & El & Sh & So1 & Cl); rewrite El
             | rewrite (held_none _ _ _ _ _ H Em); eexists _, _, _; split; [reflexivity|]; exists sst; now auto]
           end).
    - (* new *) eexists _, _, _. split; [reflexivity|]. exists (sst ++ [[]]). split; [apply push; [exact H|apply (hbany_new N)]|]. eauto.
    - (* clone *) destruct (clone_a N h m l _ So1 Sh) as (h1 & E & S1 & F1 & Sh1 & _). rewrite E. cbn [bind]. eexists _, _, _. split; [reflexivity|].
      exists (sst ++ [l]). split; [|eauto]. eapply push; eauto.
      replace ms with (set_nth h0 m ms) by (now apply AvlHeapProofs5.set_nth_same). replace sst with (set_nth h0 l sst) by (now apply AvlHeapProofs5.set_nth_same).
      apply Cl; auto. { eapply frame_incl; [|exact F1]. intros x Hx. apply in_or_app. right. apply in_or_app. auto. }
      eapply sound_equiv; [|exact S1]. intros x. rewrite !cnt_app. lia.
    - (* from_iter *) destruct H as [S0 F0]. rewrite app_nil_r in S0. destruct (from_iter_a bor cmp N HN bomb h ps _ S0) as (h1 & o & E & F1 & P). rewrite E. cbn [bind].
      assert (F0' : Forall2 (hbany h1) ms sst) by (eapply shows_frame; [exact F1|apply incl_refl|exact F0]).
      destruct o as [m|].
      + destruct P as [S1 (l' & X & Sh)]. eexists _, _, _. split; [reflexivity|]. exists (sst ++ [l']). split; [|eauto]. apply push; auto. split; auto.
        eapply sound_equiv; [|exact S1]. intros x. rewrite !cnt_app. cbn. lia.
      + destruct P as [S1 Bb]. eexists _, _, _. split; [reflexivity|]. exists sst. split; [|split; [now left|auto]]. split; auto. now rewrite app_nil_r.
    - (* insert *) destruct (insert_a bor cmp N HN bomb h m l k v _ So1 Sh) as (h1 & m1 & o & E & S1 & F1 & P). rewrite E. cbn [bind].
      apply frame_z in F1. destruct o as [x|].
      + destruct P as (l' & X & P). eexists _, _, _. split; [reflexivity|]. exists (set_nth h0 l' sst). split; [auto|]. exists l'. split; auto. exists x. auto.
      + destruct P as [P Bb]. eexists _, _, _. split; [reflexivity|]. exists sst. split; [|split; [now left|auto]].
        replace sst with (set_nth h0 l sst) by (now apply AvlHeapProofs5.set_nth_same). auto.
    - (* remove *) destruct (remove_a bor cmp N HN bomb h m l q _ So1 Sh) as (h1 & m1 & o & E & S1 & F1 & P). rewrite E. cbn [bind].
      destruct o as [x|].
      + destruct P as (l' & X & P). apply frame_z in F1. eexists _, _, _. split; [reflexivity|]. exists (set_nth h0 l' sst). split; [auto|]. exists l'. split; auto. exists x. auto.
      + destruct P as [_ Bb]. destruct (hb_clear_ok h1 m1 _ S1) as (h2 & E2 & S2 & F2 & _). rewrite E2. cbn [bind].
        eexists _, _, _. split; [reflexivity|]. eexists. split; [|split; [now left|reflexivity]].
        apply Cl; auto; [|apply (hbany_new N)]. eapply frame_z, frame_trans; eauto.
    - (* get_mut *) destruct (get_mut_a bor cmp N HN bomb h m l q w _ So1 Sh) as (h1 & m1 & o & E & S1 & F1 & P). rewrite E. cbn [bind].
      apply frame_z in F1. destruct o as [x|].
      + destruct P as (l' & X & P). eexists _, _, _. split; [reflexivity|]. exists (set_nth h0 l' sst). split; [auto|]. exists l'. split; auto. exists x. auto.
      + destruct P as [P Bb]. eexists _, _, _. split; [reflexivity|]. exists sst. split; [|split; [now left|auto]].
        replace sst with (set_nth h0 l sst) by (now apply AvlHeapProofs5.set_nth_same). auto.
    - (* and_modify *) destruct (get_mut_a bor cmp N HN bomb h m l (bor k) w _ So1 Sh) as (h1 & m1 & o & E & S1 & F1 & P). rewrite E. cbn [bind].
      apply frame_z in F1. destruct o as [x|].
      + destruct P as (l' & X & P). eexists _, _, _. split; [reflexivity|]. exists (set_nth h0 l' sst). split; [auto|]. split; auto. exists l'. split; auto. exists x. auto.
      + destruct P as [P Bb]. eexists _, _, _. split; [reflexivity|]. exists sst. split; [|split; [now left|auto]].
        replace sst with (set_nth h0 l sst) by (now apply AvlHeapProofs5.set_nth_same). auto.
    - (* pop_first *) destruct (pop_first_a N HN bomb h m l _ So1 Sh) as (h1 & m1 & o & E & S1 & F1 & P). rewrite E. cbn [bind].
      destruct o as [x|].
      + destruct P as [-> P]. apply frame_z in F1. eexists _, _, _. split; [reflexivity|]. eexists. split; [|split; reflexivity]. auto.
      + destruct P as [_ Bb]. destruct (hb_clear_ok h1 m1 _ S1) as (h2 & E2 & S2 & F2 & _). rewrite E2. cbn [bind].
        eexists _, _, _. split; [reflexivity|]. eexists. split; [|split; [now left|reflexivity]].
        apply Cl; auto; [|apply (hbany_new N)]. eapply frame_z, frame_trans; eauto.
    - (* pop_last *) destruct (pop_last_a N HN bomb h m l _ So1 Sh) as (h1 & m1 & o & E & S1 & F1 & P). rewrite E. cbn [bind].
      destruct o as [x|].
      + destruct P as [-> P]. apply frame_z in F1. eexists _, _, _. split; [reflexivity|]. eexists. split; [|split; reflexivity]. auto.
      + destruct P as [_ Bb]. destruct (hb_clear_ok h1 m1 _ S1) as (h2 & E2 & S2 & F2 & _). rewrite E2. cbn [bind].
        eexists _, _, _. split; [reflexivity|]. eexists. split; [|split; [now left|reflexivity]].
        apply Cl; auto; [|apply (hbany_new N)]. eapply frame_z, frame_trans; eauto.
    - (* clear *) destruct (hb_clear_ok h m _ So1) as (h2 & E2 & S2 & F2 & _). rewrite E2. cbn [bind]. apply frame_z in F2.
      eexists _, _, _. split; [reflexivity|]. eexists. split; [|split; reflexivity]. apply Cl; auto. apply (hbany_new N).
    - (* extend *) destruct (extend_a bor cmp N HN bomb ps h m l _ So1 Sh) as (h1 & m1 & o & E & S1 & F1 & P). rewrite E. cbn [bind].
      apply frame_z in F1. destruct o as [x|].
      + destruct P as (l' & X & P). eexists _, _, _. split; [reflexivity|]. exists (set_nth h0 l' sst). split; [auto|]. split; auto. exists l'. auto.
      + destruct P as [(dn & rest & l' & -> & X & P) Bb]. eexists _, _, _. split; [reflexivity|]. exists (set_nth h0 l' sst). split; [auto|]. split; [now left|].
        exists l, dn, rest, l'. auto.
    - (* retain *) destruct (retain_a bor cmp N HN bomb (fun s k v => (s, fst (g k v), snd (g k v))) (fun _ k v => fbomb k v) h m l tt _ So1 Sh)
        as (h1 & m1 & o & E & S1 & F1 & P). rewrite E. cbn [bind]. apply frame_z in F1. destruct o as [x|].
      + destruct P as [(l' & X & P) _]. rewrite BTreeHeapProofs8.kept_retain in X. eexists _, _, _. split; [reflexivity|]. exists (set_nth h0 l' sst). split; [auto|]. split; auto. exists l'. auto.
      + destruct P as [P Bb]. eexists _, _, _. split; [reflexivity|]. eexists. split; [|split; [eapply BTreeHeapProofs8.fails_faults; eauto; exact (fun s _ v => (s, v, true))|reflexivity]].
        auto.
    - (* split_off *) destruct (split_off_a bor cmp N HN bomb h m l q _ So1 Sh) as (h1 & m1 & o & E & F1 & P). rewrite E. cbn [bind].
      apply frame_z in F1. destruct o as [m2|].
      + destruct P as (S1 & (l1 & X1 & Sh1) & (l2 & X2 & Sh2)). eexists _, _, _. split; [reflexivity|]. exists (set_nth h0 l1 sst ++ [l2]).
        split; [|split; auto; exists l1, l2; auto]. apply push; auto. apply Cl; auto.
        eapply sound_equiv; [|exact S1]. intros x. rewrite !cnt_app. lia.
      + destruct P as (S1 & Sh1 & Bb). eexists _, _, _. split; [reflexivity|]. eexists. split; [|split; [now left|reflexivity]]. auto.
    - (* append *) destruct (nth_error ms h2) as [m2|] eqn:Em2.
      2:{ rewrite (held_none _ _ _ _ _ H Em2). eexists _, _, _. split; [reflexivity|]. exists sst. auto. }
      destruct (focus h ms sst [] h2 m2 H Em2) as (l2 & Z2 & El2 & Sh2 & So2 & Cl2). rewrite El2.
      destruct (Nat.eqb h1 h2) eqn:Ei; [eexists _, _, _; split; [reflexivity|]; exists sst; auto|]. apply Nat.eqb_neq in Ei.
      assert (H2 : held h (set_nth h2 hb_new ms) (set_nth h2 [] sst) (olist (hb_root m2))).
      { apply Cl2; [apply frame_refl| |apply (hbany_new N)]. cbn [hb_root hb_new olist app].
        eapply sound_equiv; [|exact So2]. intros x. rewrite !cnt_app. cbn. lia. }
      assert (Em' : nth_error (set_nth h2 hb_new ms) h1 = Some m) by (rewrite AvlHeapProofs5.set_nth_other; auto).
      destruct (focus h _ _ _ h1 m H2 Em') as (l' & Z' & El' & Sh' & So1' & Cl'). rewrite AvlHeapProofs5.set_nth_other in El' by auto.
      assert (l' = l) by congruence. subst l'. clear Sh So1 Cl Z. rename Sh' into Sh, So1' into So1, Cl' into Cl, Z' into Z.
      assert (S' : sound h (olist (hb_root m) ++ olist (hb_root m2) ++ Z)).
      { eapply sound_equiv; [|exact So1]. intros x. rewrite !cnt_app. lia. }
      destruct (append_a bor cmp N HN bomb h m m2 l l2 Z S' Sh Sh2) as (h' & a' & o & E & S1 & F1 & P). rewrite E. cbn [bind].
      rewrite (AvlHeapProofs5.set_nth_comm h2) by auto. destruct o as [x|].
      + destruct P as (l' & X & P). eexists _, _, _. split; [reflexivity|]. exists (set_nth h2 [] (set_nth h1 l' sst)). split; [|split; auto; exists l'; auto].
        rewrite (AvlHeapProofs5.set_nth_comm h2) by auto. apply Cl; auto. now rewrite app_nil_r.
      + destruct P as [(dn & rest & l' & -> & X & P) Bb]. eexists _, _, _. split; [reflexivity|]. exists (set_nth h2 [] (set_nth h1 l' sst)).
        split; [|split; [now left|]; split; auto; exists l, (dn ++ rest), dn, rest, l'; auto].
        rewrite (AvlHeapProofs5.set_nth_comm h2) by auto. apply Cl; auto. now rewrite app_nil_r.
  Qed.

  (** ** Histories *)
  Lemma calls_inv os : forall (h : heap) ms sst, held h ms sst [] -> (forall cmp o, In (cmp, o) os -> b_tame o) ->
    exists h' ms' rs sst', hb_calls (h, ms) os = Ok ((h', ms'), rs) /\ bany_follows sst os rs sst' /\ held h' ms' sst' [] /\ (In Unwound rs -> faults).
  Proof.
    induction os as [|[cmp o] os IH]; intros h ms sst H T; cbn [BAnyHeapSpec.hb_calls].
    - exists h, ms, [], sst. split; auto. split; [reflexivity|]. split; auto. intros [].
    - destruct (step_any cmp h ms sst o H) as (h1 & ms1 & r & E1 & sst1 & H1 & P1); [eapply T; now left|]. rewrite E1. cbn [bind].
      destruct (IH h1 ms1 sst1 H1) as (h' & ms' & rs & sst' & E & F & H' & U'); [intros; eapply T; right; eauto|]. rewrite E. cbn [bind].
      exists h', ms', (r :: rs), sst'. split; auto. split; [destruct r as [x|]; cbn [BAnyHeapSpec.bany_follows]; exists sst1; tauto|]. split; auto.
      intros [->|?]; [tauto|auto].
  Qed.
  Lemma held_out (h : heap) ms sst : held h ms sst [] -> sound h (broots ms) /\ Forall2 (hbany h) ms sst.
  Proof. intros [S F]. rewrite app_nil_r in S. auto. Qed.
  Lemma held_in (h : heap) ms sst : sound h (broots ms) -> Forall2 (hbany h) ms sst -> held h ms sst [].
  Proof. intros S F. split; auto. now rewrite app_nil_r. Qed.
  Lemma calls_any os : (forall cmp o, In (cmp, o) os -> b_tame o) ->
    exists h ms rs st, hb_calls (empty_heap, []) os = Ok ((h, ms), rs) /\ bany_follows [] os rs st
      /\ sound h (broots ms) /\ Forall2 (hbany h) ms st /\ (In Unwound rs -> faults)
      /\ exists h', hb_drop_all h ms = Ok h' /\ forall a, get h' a = None.
  Proof.
    intros T. destruct (calls_inv os empty_heap [] []) as (h & ms & rs & st & E & F & H & U); auto. { split; [exact empty_ok|constructor]. }
    apply held_out in H as [? ?]. exists h, ms, rs, st. repeat (split; [assumption|]). now apply BTreeHeapProofs8.drop_all_none.
  Qed.
  Lemma call_any cmp (h : heap) ms ls (o : op) : sound h (broots ms) -> Forall2 (hbany h) ms ls -> b_tame o ->
    exists h' ms' r, hb_step cmp (h, ms) o = Ok ((h', ms'), r) /\ sound h' (broots ms')
      /\ match r with
         | Done ob => exists ls', bany_did cmp ls o ob ls' /\ Forall2 (hbany h') ms' ls'
         | Unwound => exists ls', bany_unwound cmp ls o ls' /\ Forall2 (hbany h') ms' ls'
                      /\ ((exists n, bomb n = true) \/ exists k v, fbomb k v = true)
         end.
  Proof.
    intros S F T. destruct (step_any cmp h ms ls o (held_in _ _ _ S F) T) as (h' & ms' & r & E & ls' & H & P). apply held_out in H as [S' F'].
    exists h', ms', r. split; auto. split; auto. destruct r as [x|]; [eauto|]. destruct P. eauto.
  Qed.

  Lemma between_nil (ls : list (list (K * V))) : between ls [] = concat ls.
  Proof. induction ls as [|l ls IH]; cbn; [|rewrite IH]; reflexivity. Qed.
  Lemma between_weave (ls : list (list (K * V))) : forall es, between ls es = weave ls es.
  Proof. induction ls as [|l ls IH]; intros [|e es]; cbn; [reflexivity..|now rewrite between_nil|now rewrite IH]. Qed.
  Lemma in_order_flat : forall t : bt K V, in_order t = flat t.
  Proof.
    fix IH 1. intros [es ks]. cbn [in_order flat]. rewrite between_weave. f_equal.
    induction ks as [|k ks IHk]; cbn [map]; [reflexivity|]. f_equal; [apply IH|exact IHk].
  Qed.
  Lemma any_in_order (b : bmap) l t : b_any N b l -> bm_root b = Some t -> l = in_order t.
  Proof. intros A R. apply any_valid in A as [_ <-]. unfold contents. now rewrite R, in_order_flat. Qed.
  (** ** What is cloned *)
  Section Lazy.
    Variable cmp : ord.
    Notation top b f := (match bm_root b with Some t => f t | None => [] end).
    Lemma insert_lazy (h : heap) m b l k v O : sound h (olist (hb_root m) ++ O) -> hb_read h m = Ok b -> b_any N b l ->
      exists h' m' o cs, hb_insert bor cmp N bomb h m k v = Ok (h', m', o) /\ sound h' (olist (hb_root m') ++ O) /\ frame O h h'
        /\ clones h' = cs ++ clones h /\ sub cs (top b (BTreeHeapSpec.path bor cmp (bor k)))
        /\ match o with
           | Done x => exists l', any_insert bor cmp k v l l' x /\ hbany h' m' l'
           | Unwound => hbany h' m' l /\ exists n, bomb n = true
           end.
    Proof.
      intros S E A. destruct (insert_a bor cmp N HN bomb h m l k v O S) as (h' & m' & o & E1 & S1 & F1 & P1); [now exists b|].
      assert (Hb : hbm h m b) by now apply read_iff. pose proof (any_valid N _ _ A) as [Va _].
      destruct (b_insert_any bor cmp N HN b l k v A) as (b' & r & l' & Eb & _).
      destruct (hb_insert_ok bor cmp N bomb h m b k v b' r O (valid_loose nob noc N b Va) S Hb Eb) as (h2 & m2 & o2 & E2 & _ & _ & (cs & C & Sb) & _).
      rewrite E1 in E2. injection E2 as <- <- <-. exists h', m', o, cs. auto 8.
    Qed.
    Lemma get_mut_lazy (h : heap) m b l q w O : sound h (olist (hb_root m) ++ O) -> hb_read h m = Ok b -> b_any N b l ->
      exists h' m' o cs, hb_get_mut bor cmp bomb h m q w = Ok (h', m', o) /\ sound h' (olist (hb_root m') ++ O) /\ frame O h h'
        /\ clones h' = cs ++ clones h /\ sub cs (top b (BTreeHeapSpec.path bor cmp q))
        /\ match o with
           | Done x => exists l', any_get_mut bor cmp q w l l' x /\ hbany h' m' l'
           | Unwound => hbany h' m' l /\ exists n, bomb n = true
           end.
    Proof.
      intros S E A. destruct (get_mut_a bor cmp N HN bomb h m l q w O S) as (h' & m' & o & E1 & S1 & F1 & P1); [now exists b|].
      assert (Hb : hbm h m b) by now apply read_iff. pose proof (any_valid N _ _ A) as [Va _].
      destruct (hb_get_mut_ok bor cmp bomb h m b q w O (valid_loose nob noc N b Va) S Hb) as (h2 & m2 & o2 & E2 & _ & _ & (cs & C & Sb) & _).
      rewrite E1 in E2. injection E2 as <- <- <-. exists h', m', o, cs. auto 8.
    Qed.
    Lemma remove_lazy (h : heap) m b l q O : sound h (olist (hb_root m) ++ O) -> hb_read h m = Ok b -> b_any N b l ->
      exists h' m' o cs, hb_remove bor cmp N bomb h m q = Ok (h', m', o) /\ sound h' (olist (hb_root m') ++ O) /\ frame O h h'
        /\ clones h' = cs ++ clones h /\ sub cs (if b_contains_key bor cmp b q then top b (BTreeHeapSpec.near bor cmp q) else [])
        /\ match o with
           | Done x => exists l', any_remove_val bor cmp q l l' x /\ hbany h' m' l'
           | Unwound => (exists t, hb_read h' m' = Ok (BMap (length l) (Some t)) /\ sub (in_order t) l) /\ exists n, bomb n = true
           end.
    Proof.
      intros S E A. destruct (remove_a bor cmp N HN bomb h m l q O S) as (h' & m' & o & E1 & S1 & F1 & P1); [now exists b|].
      assert (Hb : hbm h m b) by now apply read_iff. pose proof (any_valid N _ _ A) as [Va _].
      destruct (b_remove_any bor cmp N HN b l q A) as (b' & r & l' & Eb & _).
      destruct (hb_remove_ok bor cmp N bomb h m b q b' r O (valid_loose nob noc N b Va) S Hb Eb) as (h2 & m2 & o2 & E2 & _ & _ & (cs & C & Sb) & _).
      rewrite E1 in E2. injection E2 as <- <- <-. exists h', m', o, cs. do 5 (split; [assumption|]).
      destruct o; auto. destruct P1 as [(t & d & Et & _ & Sl) Bb]. rewrite <- in_order_flat in Sl. eauto.
    Qed.
    Lemma pops_lazy (h : heap) m b l O : sound h (olist (hb_root m) ++ O) -> hb_read h m = Ok b -> b_any N b l ->
      (exists h' m' o cs, hb_pop_first N bomb h m = Ok (h', m', o) /\ sound h' (olist (hb_root m') ++ O) /\ frame O h h'
        /\ clones h' = cs ++ clones h /\ sub cs (top b near_first)
        /\ match o with
           | Done x => x = s_first l /\ hbany h' m' (tl l)
           | Unwound => (exists t, hb_read h' m' = Ok (BMap (length l) (Some t)) /\ sub (in_order t) l) /\ exists n, bomb n = true
           end)
      /\ exists h' m' o cs, hb_pop_last N bomb h m = Ok (h', m', o) /\ sound h' (olist (hb_root m') ++ O) /\ frame O h h'
        /\ clones h' = cs ++ clones h /\ sub cs (top b near_last)
        /\ match o with
           | Done x => x = s_last l /\ hbany h' m' (removelast l)
           | Unwound => (exists t, hb_read h' m' = Ok (BMap (length l) (Some t)) /\ sub (in_order t) l) /\ exists n, bomb n = true
           end.
    Proof.
      intros S E A. assert (Hb : hbm h m b) by now apply read_iff. pose proof (any_valid N _ _ A) as [Va _].
      destruct (b_pops_any N HN b l A) as [(b1 & Eb1 & _) (b2 & Eb2 & _)]. split.
      - destruct (pop_first_a N HN bomb h m l O S) as (h' & m' & o & E1 & S1 & F1 & P1); [now exists b|].
        destruct (hb_pop_first_ok N bomb h m b b1 _ O (valid_loose nob noc N b Va) S Hb Eb1) as (h2 & m2 & o2 & E2 & _ & _ & (cs & C & Sb) & _).
        rewrite E1 in E2. injection E2 as <- <- <-. exists h', m', o, cs. do 5 (split; [assumption|]).
        destruct o; auto. destruct P1 as [(t & d & Et & _ & Sl) Bb]. rewrite <- in_order_flat in Sl. eauto.
      - destruct (pop_last_a N HN bomb h m l O S) as (h' & m' & o & E1 & S1 & F1 & P1); [now exists b|].
        destruct (hb_pop_last_ok N bomb h m b b2 _ O (valid_loose nob noc N b Va) S Hb Eb2) as (h2 & m2 & o2 & E2 & _ & _ & (cs & C & Sb) & _).
        rewrite E1 in E2. injection E2 as <- <- <-. exists h', m', o, cs. do 5 (split; [assumption|]).
        destruct o; auto. destruct P1 as [(t & d & Et & _ & Sl) Bb]. rewrite <- in_order_flat in Sl. eauto.
    Qed.
    Lemma few_any (b : bmap) l t q : b_any N b l -> bm_root b = Some t ->
      exists d, 2 * (N + 1) ^ d <= length l + 1
        /\ length (BTreeHeapSpec.path bor cmp q t) <= d + 1
        /\ length (BTreeHeapSpec.near bor cmp q t) <= 2 * d + 1
        /\ length (near_first t) <= 2 * d + 1
        /\ length (near_last t) <= 2 * d + 1.
    Proof.
      intros A Er. apply any_valid in A as [(_ & _ & Sh) <-]. rewrite Er in Sh. destruct Sh as [d Sh].
      pose proof (shape_loose _ _ _ _ Sh) as Lo. exists d. split.
      - unfold contents. rewrite Er. apply (BTreeMutProofs.count_bounds N d 1 t Sh).
      - split; [now apply BTreeHeapProofs9.path_len|]. split; [now apply BTreeHeapProofs9.near_len|].
        split; [now apply BTreeHeapProofs9.near_first_len|now apply BTreeHeapProofs9.near_last_len].
    Qed.
  End Lazy.
  Lemma frame_any O (h h' : heap) m l : frame O h h' -> incl (olist (hb_root m)) O -> hbany h m l -> hbany h' m l.
  Proof. intros F. apply (hbany_keep N). now apply frame_keep. Qed.
End AnyRuns.
