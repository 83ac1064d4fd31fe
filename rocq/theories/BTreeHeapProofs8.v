(** Histories of calls on shared [BTreeMap]s. *)
From Coq Require Import List PeanoNat Bool Lia.
From Verif Require Import Base Spec MapSpec BTreeSpec SpecFacts Vec Heap HeapProofs BTreeModel BTreeProofs BTreeProofs2 BTreeIterModel
  BTreeIterProofs BTreeIterProofs2 BTreeHistModel BTreeHistProofs BTreeShows BTreeHeapModel BTreeHeapSpec BTreeHeapHistModel BTreeHeapHistSpec
  BTreeHeapProofs BTreeHeapProofs2 BTreeHeapProofs3 BTreeHeapProofs4 BTreeHeapProofs5 BTreeHeapProofs6 BTreeHeapProofs7.
From Verif Require AvlHeapProofs5 AvlHeapProofs6.
Import ListNotations.
Local Open Scope nat_scope.

Section HeapRuns.
  Context {K V Q : Type} (bor : K -> Q) (cmp : Q -> Q -> comparison) (laws : order_laws cmp).
  Context (N : nat) (HN : 1 <= N).
  Context (keq : K -> K -> bool) (veq : V -> V -> bool).
  Context (kcmp : K -> K -> comparison) (vcmp : V -> V -> comparison).
  Variable bomb : nat -> bool.
  Variable fbomb : K -> V -> bool.
  Notation heap := (heap (list (K * V))).
  Notation op := (op K V Q).
  Notation bmap := (bt_map K V).
  Notation hbshows := (hbshows bor cmp N).
  Notation rels := (rels bor cmp N).
  Notation s_step := (s_step bor cmp keq veq kcmp vcmp).
  Notation s_run := (s_run bor cmp keq veq kcmp vcmp).
  Notation hb_step := (hb_step bor cmp N keq veq kcmp vcmp bomb fbomb).
  Notation hb_run := (hb_run bor cmp N keq veq kcmp vcmp bomb fbomb).
  Notation b_step := (@b_step K V Q bor cmp N keq veq kcmp vcmp).
  Notation b_follows := (b_follows bor cmp keq veq kcmp vcmp).
  Notation b_unwound := (b_unwound bor cmp).
  Notation always_supported := (always_supported bor cmp keq veq kcmp vcmp).
  Notation all_supported := (all_supported bor cmp keq veq kcmp vcmp).

  Definition faults : Prop := (exists n, bomb n = true) \/ exists k v, fbomb k v = true.

  (** The maps [ms], which show [sst], and the pointers [X] hold everything. *)
  Definition held (h : heap) (ms : list hbmap) (sst : list (list (K * V))) (X : list addr) : Prop :=
    sound h (broots ms ++ X) /\ Forall2 (hbshows h) ms sst.

  Lemma sound_equiv (h : heap) A B : (forall x, cnt x A = cnt x B) -> sound h A -> sound h B.
  Proof. intros E [W Ac]. split; auto. eapply wf_equiv; [|exact W]. auto. Qed.
  Lemma broots_app a b : broots (a ++ b) = broots a ++ broots b.
  Proof. apply flat_map_app. Qed.
  Lemma shows_frame Z (h h' : heap) ms sst : frame Z h h' -> incl (broots ms) Z -> Forall2 (hbshows h) ms sst -> Forall2 (hbshows h') ms sst.
  Proof.
    intros F I H. induction H as [|m l ms sst H Hs IH]; constructor.
    - eapply (hbshows_keep bor cmp laws N HN); [apply frame_keep; exact F| |exact H]. intros x Hx. apply I. cbn [broots flat_map]. apply in_or_app. auto.
    - apply IH. intros x Hx. apply I. cbn [broots flat_map]. apply in_or_app. auto.
  Qed.

  Lemma nth_split_set {A} (l : list A) i x : nth_error l i = Some x ->
    exists a b, l = a ++ x :: b /\ length a = i /\ forall y, set_nth i y l = a ++ y :: b.
  Proof.
    intros E. apply nth_error_split in E as (a & b & -> & <-). exists a, b. split; auto. split; auto. intros y. unfold set_nth.
    rewrite firstn_app, skipn_app, firstn_all, skipn_all, Nat.sub_diag. cbn. now rewrite app_nil_r.
  Qed.

  Lemma focus (h : heap) ms sst X i m : held h ms sst X -> nth_error ms i = Some m ->
    exists l Z, nth_error sst i = Some l /\ hbshows h m l /\ sound h (olist (hb_root m) ++ Z ++ X)
      /\ forall h' m' l' X', frame Z h h' -> sound h' (olist (hb_root m') ++ Z ++ X') -> hbshows h' m' l' ->
           held h' (set_nth i m' ms) (set_nth i l' sst) X'.
  Proof.
    intros [So F] E. apply nth_split_set in E as (a & b & -> & Hi & Es). apply Forall2_app_inv_l in F as (sa & sb & Fa & Fb & ->).
    inversion Fb as [|? l ? sb' Hl Fb' Eq1 Eq2]; subst. assert (Ha : length a = length sa) by (clear - Fa; induction Fa; cbn; auto).
    exists l, (broots a ++ broots b). split; [rewrite Ha, nth_error_app2, Nat.sub_diag by lia; reflexivity|]. split; auto.
    rewrite broots_app in So. cbn [broots flat_map] in So. fold (broots b) in So.
    split; [eapply sound_equiv; [|exact So]; intros x; rewrite !cnt_app; lia|].
    intros h' m' l' X' Fr So' Sh. rewrite Es.
    replace (set_nth (length a) l' (sa ++ l :: sb')) with (sa ++ l' :: sb').
    2:{ unfold set_nth. rewrite Ha, firstn_app, skipn_app, firstn_all, skipn_all, Nat.sub_diag. cbn. now rewrite app_nil_r. }
    split.
    - rewrite broots_app. cbn [broots flat_map]. fold (broots b). eapply sound_equiv; [|exact So']. intros x; rewrite !cnt_app; lia.
    - apply Forall2_app; [|constructor; auto]; (eapply shows_frame; [exact Fr| |eassumption]); intros x Hx; apply in_or_app; auto.
  Qed.
  Lemma push (h : heap) ms sst X m l : held h ms sst (olist (hb_root m) ++ X) -> hbshows h m l -> held h (ms ++ [m]) (sst ++ [l]) X.
  Proof.
    intros [So F] H. split; [|apply Forall2_app; auto]. rewrite broots_app. cbn [broots flat_map]. rewrite app_nil_r, <- app_assoc. exact So.
  Qed.
  Lemma held_len (h : heap) ms sst X : held h ms sst X -> length ms = length sst.
  Proof. intros [_ F]. induction F; cbn; auto. Qed.
  Lemma held_none (h : heap) ms sst X i : held h ms sst X -> nth_error ms i = None -> nth_error sst i = None.
  Proof. intros H E. apply nth_error_None. apply nth_error_None in E. now rewrite <- (held_len _ _ _ _ H). Qed.
  Lemma frame_z Z X (h h' : heap) : frame (Z ++ X) h h' -> frame Z h h'.
  Proof. apply frame_incl. intros x Hx. apply in_or_app. auto. Qed.

  (** The trees behind the maps. *)
  Lemma shows_rels (h : heap) ms sst : Forall2 (hbshows h) ms sst ->
    exists st, Forall2 (fun m b => hb_read h m = Ok b) ms st /\ rels st sst.
  Proof.
    induction 1 as [|m l ms sst (b & E & Sh) H (st & IH1 & IH2)].
    - exists []. split; constructor.
    - exists (b :: st). split; constructor; auto. now apply (b_shows_iff bor cmp N laws HN).
  Qed.
  Lemma read_nth (h : heap) ms st i : Forall2 (fun m b => hb_read h m = Ok b) ms st ->
    match nth_error ms i with
    | Some m => exists b, nth_error st i = Some b /\ hb_read h m = Ok b
    | None => nth_error st i = None
    end.
  Proof. intros F. revert i. induction F as [|m b ms st E F IH]; intros [|i]; cbn; eauto. apply IH. Qed.

  Definition reads (o : op) : Prop :=
    match o with
    | OGet _ _ | OGetKeyValue _ _ | OContains _ _ | OFirst _ | OLast _ | OLen _ | OIsEmpty _ | OIter _ _ | ORange _ _ _ _
    | OEq _ _ | OCmp _ _ | OCheck _ => True
    | _ => False
    end.
  Lemma reads_ok (h : heap) ms sst X o : held h ms sst X -> supported bor cmp sst o -> reads o ->
    hb_step (h, ms) o = Ok ((h, ms), Done (snd (s_step sst o))) /\ fst (s_step sst o) = sst.
  Proof.
    intros [_ F] So Hr. destruct (shows_rels h ms sst F) as (st & Fr & R).
    destruct (b_step_ok bor cmp laws N HN keq veq kcmp vcmp (fun _ => true) st sst o R So) as (st' & E & _).
    split; [|destruct o; try contradiction; cbn [MapSpec.s_step]; cbv zeta;
      repeat match goal with |- context [match nth_error ?l ?i with _ => _ end] => destruct (nth_error l i) end; reflexivity].
    revert E. generalize (snd (s_step sst o)). intros r E.
    destruct o; try contradiction; cbn [BTreeHistModel.b_step] in E; unfold AvlHistModel.on2, AvlHistModel.on in E; cbn [BTreeHeapHistModel.hb_step]; cbv zeta;
      repeat match goal with
      | |- context [nth_error ms ?i] =>
        let H := fresh in pose proof (read_nth h ms st i Fr) as H; destruct (nth_error ms i);
        [let b := fresh "b" in let H2 := fresh in destruct H as (b & H & H2); rewrite H in E; rewrite ?H2; cbn [bind] | rewrite H in E]
      | |- context [hb_read h ?m] => match goal with H : hb_read h m = Ok _ |- _ => rewrite H; cbn [bind] end
      end;
      repeat match type of E with context [bind ?x _] => destruct x; cbn [bind] in *; [|discriminate] end; congruence.
  Qed.

  Lemma kept_retain (g : K -> V -> V * bool) l : kept (fun (s : unit) k v => (s, fst (g k v), snd (g k v))) tt l = s_retain g l.
  Proof.
    unfold kept, s_retain. induction l as [|[k v] l IH]; [reflexivity|].
    cbn [run_calls]. destruct (run_calls _ tt l) as [o []]. cbn [fst snd filter] in *.
    destruct (snd (g k v)); cbn [map fst snd]; [f_equal|]; exact IH.
  Qed.
  Lemma fails_faults (f : unit -> K -> V -> unit * V * bool) : fails bomb (fun (_ : unit) k v => fbomb k v) -> faults.
  Proof. intros [H|(s & k & v & H)]; [now left|right; eauto]. Qed.

  Definition stepped (h : heap) ms (sst : list (list (K * V))) (o : op) : Prop :=
    exists h' ms' r, hb_step (h, ms) o = Ok ((h', ms'), r)
      /\ match r with
         | Done x => x = snd (s_step sst o) /\ held h' ms' (fst (s_step sst o)) []
         | Unwound => faults /\ exists sst', b_unwound sst o sst' /\ held h' ms' sst' []
         end.

  Lemma step_ok (h : heap) ms sst (o : op) : held h ms sst [] -> supported bor cmp sst o -> stepped h ms sst o.
  Proof.
    intros H So.
    assert (Rd : reads o -> stepped h ms sst o).
    { intros Hr. destruct (reads_ok h ms sst [] o H So Hr) as [E1 E2]. exists h, ms, (Done (snd (s_step sst o))). split; auto. rewrite E2. auto. }
    destruct o; try (apply Rd; exact I); try contradiction; clear Rd; unfold stepped; cbn [BTreeHeapHistModel.hb_step MapSpec.s_step BTreeHeapHistSpec.b_unwound]; cbv zeta;
      try (match goal with |- context [match nth_error ms ?i with _ => _ end] => destruct (nth_error ms i) as [m|] eqn:Em;
             [destruct (focus h ms sst [] i m H Em) as (l & Z & El & Sh & So1 & Cl); rewrite El | rewrite (held_none _ _ _ _ _ H Em); eexists _, _, _; split; [reflexivity|]; cbn [fst snd]; now auto]
           end).
    - (* new *) eexists _, _, _. split; [reflexivity|]. cbn [fst snd]. split; auto. apply push; [exact H|]. now apply hbshows_new.
    - (* clone *) destruct (clone_s bor cmp laws N HN h m l _ So1 Sh) as (h1 & E & S1 & F1 & Sh1 & _). rewrite E. cbn [bind]. eexists _, _, _. split; [reflexivity|].
      split; auto. cbn [fst]. eapply push; eauto.
      replace ms with (set_nth h0 m ms) by (now apply AvlHeapProofs5.set_nth_same). replace sst with (set_nth h0 l sst) by (now apply AvlHeapProofs5.set_nth_same).
      apply Cl; auto. { eapply frame_incl; [|exact F1]. intros x Hx. apply in_or_app. right. apply in_or_app. auto. }
      eapply sound_equiv; [|exact S1]. intros x. rewrite !cnt_app. lia.
    - (* from_iter *) destruct H as [S0 F0]. rewrite app_nil_r in S0. destruct (from_iter_s bor cmp laws N HN bomb h ps _ S0) as (h1 & o & E & F1 & P). rewrite E. cbn [bind].
      assert (F0' : Forall2 (hbshows h1) ms sst) by (eapply shows_frame; [exact F1|apply incl_refl|exact F0]).
      destruct o as [m|].
      + destruct P as [S1 Sh]. eexists _, _, _. split; [reflexivity|]. cbn [fst snd]. split; auto. apply push; auto. split; auto.
        eapply sound_equiv; [|exact S1]. intros x. rewrite !cnt_app. cbn. lia.
      + destruct P as [S1 Bb]. eexists _, _, _. split; [reflexivity|]. split; [now left|]. exists sst. split; auto. split; auto. now rewrite app_nil_r.
    - (* insert *) destruct (insert_s bor cmp laws N HN bomb h m l k v _ So1 Sh) as (h1 & m1 & o & E & S1 & F1 & P). rewrite E. cbn [bind].
      apply frame_z in F1. destruct o as [x|].
      + destruct P as [-> P]. eexists _, _, _. split; [reflexivity|]. cbn [fst snd]. auto.
      + destruct P as [P Bb]. eexists _, _, _. split; [reflexivity|]. split; [now left|]. exists sst. split; auto.
        replace sst with (set_nth h0 l sst) by (now apply AvlHeapProofs5.set_nth_same). auto.
    - (* remove *) destruct (remove_s bor cmp laws N HN bomb h m l q _ So1 Sh) as (h1 & m1 & o & E & S1 & F1 & P). rewrite E. cbn [bind].
      destruct o as [x|].
      + destruct P as [-> P]. apply frame_z in F1. eexists _, _, _. split; [reflexivity|]. cbn [fst snd]. auto.
      + destruct P as [_ Bb]. destruct (hb_clear_ok h1 m1 _ S1) as (h2 & E2 & S2 & F2 & _). rewrite E2. cbn [bind].
        eexists _, _, _. split; [reflexivity|]. split; [now left|]. eexists. split; [reflexivity|].
        apply Cl; auto; [|now apply hbshows_new]. eapply frame_z, frame_trans; eauto.
    - (* get_mut *) destruct (get_mut_s bor cmp laws N HN bomb h m l q w _ So1 Sh) as (h1 & m1 & o & E & S1 & F1 & P). rewrite E. cbn [bind].
      apply frame_z in F1. destruct o as [x|].
      + destruct P as [-> P]. eexists _, _, _. split; [reflexivity|]. cbn [fst snd]. auto.
      + destruct P as [P Bb]. eexists _, _, _. split; [reflexivity|]. split; [now left|]. exists sst. split; auto.
        replace sst with (set_nth h0 l sst) by (now apply AvlHeapProofs5.set_nth_same). auto.
    - (* and_modify *) destruct (get_mut_s bor cmp laws N HN bomb h m l (bor k) w _ So1 Sh) as (h1 & m1 & o & E & S1 & F1 & P). rewrite E. cbn [bind].
      apply frame_z in F1. destruct o as [x|].
      + destruct P as [-> P]. eexists _, _, _. split; [reflexivity|]. cbn [fst snd]. auto.
      + destruct P as [P Bb]. eexists _, _, _. split; [reflexivity|]. split; [now left|]. exists sst. split; auto.
        replace sst with (set_nth h0 l sst) by (now apply AvlHeapProofs5.set_nth_same). auto.
    - (* or_insert *) destruct (or_insert_s bor cmp laws N HN bomb h m l k v w _ So1 Sh) as (h1 & m1 & o & E & S1 & F1 & P). rewrite E. cbn [bind].
      apply frame_z in F1. destruct o as [x|].
      + eexists _, _, _. split; [reflexivity|]. destruct (s_get bor cmp (bor k) l); destruct P as [-> P]; cbn [fst snd]; auto.
      + destruct P as [P Bb]. eexists _, _, _. split; [reflexivity|]. split; [now left|]. destruct P as [P|P].
        * exists sst. split; auto. replace sst with (set_nth h0 l sst) by (now apply AvlHeapProofs5.set_nth_same). auto.
        * eexists. split; [right; reflexivity|]. auto.
    - (* pop_first *) destruct (pop_first_s bor cmp laws N HN bomb h m l _ So1 Sh) as (h1 & m1 & o & E & S1 & F1 & P). rewrite E. cbn [bind].
      destruct o as [x|].
      + destruct P as [-> P]. apply frame_z in F1. eexists _, _, _. split; [reflexivity|]. cbn [fst snd]. auto.
      + destruct P as [_ Bb]. destruct (hb_clear_ok h1 m1 _ S1) as (h2 & E2 & S2 & F2 & _). rewrite E2. cbn [bind].
        eexists _, _, _. split; [reflexivity|]. split; [now left|]. eexists. split; [reflexivity|].
        apply Cl; auto; [|now apply hbshows_new]. eapply frame_z, frame_trans; eauto.
    - (* pop_last *) destruct (pop_last_s bor cmp laws N HN bomb h m l _ So1 Sh) as (h1 & m1 & o & E & S1 & F1 & P). rewrite E. cbn [bind].
      destruct o as [x|].
      + destruct P as [-> P]. apply frame_z in F1. eexists _, _, _. split; [reflexivity|]. cbn [fst snd]. auto.
      + destruct P as [_ Bb]. destruct (hb_clear_ok h1 m1 _ S1) as (h2 & E2 & S2 & F2 & _). rewrite E2. cbn [bind].
        eexists _, _, _. split; [reflexivity|]. split; [now left|]. eexists. split; [reflexivity|].
        apply Cl; auto; [|now apply hbshows_new]. eapply frame_z, frame_trans; eauto.
    - (* clear *) destruct (hb_clear_ok h m _ So1) as (h2 & E2 & S2 & F2 & _). rewrite E2. cbn [bind]. apply frame_z in F2.
      eexists _, _, _. split; [reflexivity|]. cbn [fst snd]. split; auto. apply Cl; auto. now apply hbshows_new.
    - (* extend *) destruct (extend_s bor cmp laws N HN bomb ps h m l _ So1 Sh) as (h1 & m1 & o & E & S1 & F1 & P). rewrite E. cbn [bind].
      apply frame_z in F1. destruct o as [x|].
      + eexists _, _, _. split; [reflexivity|]. cbn [fst snd]. auto.
      + destruct P as [(dn & rest & -> & P) Bb]. eexists _, _, _. split; [reflexivity|]. split; [now left|]. eexists. split; [exists dn, rest; split; reflexivity|]. auto.
    - (* retain *) destruct (retain_s bor cmp laws N HN bomb (fun s k v => (s, fst (g k v), snd (g k v))) (fun _ k v => fbomb k v) h m l tt _ So1 Sh)
        as (h1 & m1 & o & E & S1 & F1 & P). rewrite E. cbn [bind]. apply frame_z in F1. destruct o as [x|].
      + destruct P as [P _]. rewrite kept_retain in P. eexists _, _, _. split; [reflexivity|]. cbn [fst snd]. auto.
      + destruct P as [P Bb]. eexists _, _, _. split; [reflexivity|]. split; [eapply fails_faults; eauto; exact (fun s _ v => (s, v, true))|].
        eexists. split; [reflexivity|]. cbn [fst snd]. auto.
    - (* split_off *) destruct (split_off_s bor cmp laws N HN bomb h m l q _ So1 Sh) as (h1 & m1 & o & E & F1 & P). rewrite E. cbn [bind].
      apply frame_z in F1. destruct o as [m2|].
      + destruct P as (S1 & Sh1 & Sh2). eexists _, _, _. split; [reflexivity|]. cbn [fst snd]. split; auto. apply push; auto. apply Cl; auto.
        eapply sound_equiv; [|exact S1]. intros x. rewrite !cnt_app. lia.
      + destruct P as (S1 & Sh1 & Bb). eexists _, _, _. split; [reflexivity|]. split; [now left|]. eexists. split; [reflexivity|]. cbn [fst snd]. auto.
    - (* append *) destruct (nth_error ms h2) as [m2|] eqn:Em2.
      2:{ rewrite (held_none _ _ _ _ _ H Em2). eexists _, _, _. split; [reflexivity|]. cbn [fst snd]. auto. }
      destruct (focus h ms sst [] h2 m2 H Em2) as (l2 & Z2 & El2 & Sh2 & So2 & Cl2). rewrite El2.
      destruct (Nat.eqb h1 h2) eqn:Ei; [eexists _, _, _; split; [reflexivity|]; cbn [fst snd]; auto|]. apply Nat.eqb_neq in Ei.
      assert (H2 : held h (set_nth h2 hb_new ms) (set_nth h2 [] sst) (olist (hb_root m2))).
      { apply Cl2; [apply frame_refl| |now apply hbshows_new]. cbn [hb_root hb_new olist app].
        eapply sound_equiv; [|exact So2]. intros x. rewrite !cnt_app. cbn. lia. }
      assert (Em' : nth_error (set_nth h2 hb_new ms) h1 = Some m) by (rewrite AvlHeapProofs5.set_nth_other; auto).
      destruct (focus h _ _ _ h1 m H2 Em') as (l' & Z' & El' & Sh' & So1' & Cl'). rewrite AvlHeapProofs5.set_nth_other in El' by auto.
      assert (l' = l) by congruence. subst l'. clear Sh So1 Cl Z. rename Sh' into Sh, So1' into So1, Cl' into Cl, Z' into Z.
      assert (S' : sound h (olist (hb_root m) ++ olist (hb_root m2) ++ Z)).
      { eapply sound_equiv; [|exact So1]. intros x. rewrite !cnt_app. lia. }
      destruct (append_s bor cmp laws N HN bomb h m m2 l l2 Z S' Sh Sh2) as (h' & a' & o & E & S1 & F1 & P). rewrite E. cbn [bind].
      rewrite (AvlHeapProofs5.set_nth_comm h2) by auto. destruct o as [x|].
      + eexists _, _, _. split; [reflexivity|]. cbn [fst snd]. split; auto. cbn [fst]. rewrite (AvlHeapProofs5.set_nth_comm h2) by auto. apply Cl; auto. now rewrite app_nil_r.
      + destruct P as [(dn & rest & -> & P) Bb]. eexists _, _, _. split; [reflexivity|]. split; [now left|].
        eexists. split; [split; [exact Ei|]; exists dn, rest; split; reflexivity|]. rewrite (AvlHeapProofs5.set_nth_comm h2) by auto. apply Cl; auto. now rewrite app_nil_r.
  Qed.

  (** ** Runs *)
  Lemma run_inv os : forall (h : heap) ms sst, held h ms sst [] -> always_supported sst os ->
    exists h' ms' rs sst', hb_run (h, ms) os = Ok ((h', ms'), rs) /\ b_follows sst os rs sst' /\ held h' ms' sst' [] /\ (In Unwound rs -> faults).
  Proof.
    induction os as [|o os IH]; intros h ms sst H Sm; cbn [BTreeHeapHistModel.hb_run].
    - exists h, ms, [], sst. split; auto. split; [reflexivity|]. split; auto. intros [].
    - cbn [BTreeHeapHistSpec.always_supported] in Sm. destruct Sm as (So & Sd & Su).
      destruct (step_ok h ms sst o H So) as (h1 & ms1 & r & E1 & P1). rewrite E1. cbn [bind]. destruct r as [ob|].
      + destruct P1 as [-> H1]. destruct (IH h1 ms1 _ H1 Sd) as (h' & ms' & rs & sst' & E & F & H' & U'). rewrite E. cbn [bind].
        exists h', ms', (Done (snd (s_step sst o)) :: rs), sst'. split; auto. split; [cbn [BTreeHeapHistSpec.b_follows]; auto|]. split; auto.
        intros [?|?]; [discriminate|auto].
      + destruct P1 as (Hf & sst2 & U & H2). destruct (IH h1 ms1 sst2 H2 (Su _ U)) as (h' & ms' & rs & sst' & E & F & H' & U'). rewrite E. cbn [bind].
        exists h', ms', (Unwound :: rs), sst'. split; auto. split; [cbn [BTreeHeapHistSpec.b_follows]; eauto|]. split; auto.
  Qed.
  Lemma held_empty : held empty_heap [] [] [].
  Proof. split; [exact empty_ok|constructor]. Qed.
  Lemma held_out (h : heap) ms sst : held h ms sst [] -> sound h (broots ms) /\ Forall2 (hbshows h) ms sst.
  Proof. intros [S F]. rewrite app_nil_r in S. auto. Qed.
  Lemma held_in (h : heap) ms sst : sound h (broots ms) -> Forall2 (hbshows h) ms sst -> held h ms sst [].
  Proof. intros S F. split; auto. now rewrite app_nil_r. Qed.

  Lemma run_b os : always_supported [] os ->
    exists h ms rs sst, hb_run (empty_heap, []) os = Ok ((h, ms), rs) /\ b_follows [] os rs sst
      /\ sound h (broots ms) /\ Forall2 (hbshows h) ms sst /\ (In Unwound rs -> faults).
  Proof.
    intros Sm. destruct (run_inv os empty_heap [] [] held_empty Sm) as (h & ms & rs & sst & E & F & H & U).
    apply held_out in H as [? ?]. exists h, ms, rs, sst. auto.
  Qed.

  Lemma run_done os : (faults -> False) -> forall (h : heap) ms sst, held h ms sst [] -> all_supported sst os ->
    exists h' ms', hb_run (h, ms) os = Ok ((h', ms'), map Done (snd (s_run sst os))) /\ held h' ms' (fst (s_run sst os)) [].
  Proof.
    intros Nf. induction os as [|o os IH]; intros h ms sst H Sm; cbn [BTreeHeapHistModel.hb_run MapSpec.s_run].
    - exists h, ms. auto.
    - cbn [BTreeSpec.all_supported] in Sm. destruct Sm as (So & Sd).
      destruct (step_ok h ms sst o H So) as (h1 & ms1 & r & E1 & P1). rewrite E1. cbn [bind]. destruct r as [ob|]; [|destruct P1; contradiction].
      destruct P1 as [-> H1]. destruct (IH h1 ms1 _ H1 Sd) as (h' & ms' & E & H').
      destruct (s_step sst o) as [sst1 r1]. cbn [fst snd] in *. rewrite E. cbn [bind]. destruct (s_run sst1 os) as [sst2 rs]. exists h', ms'. auto.
  Qed.
  Lemma run_done_b os : (faults -> False) -> all_supported [] os ->
    exists h ms, hb_run (empty_heap, []) os = Ok ((h, ms), map Done (snd (s_run [] os)))
      /\ sound h (broots ms) /\ Forall2 (hbshows h) ms (fst (s_run [] os)).
  Proof.
    intros Nf Sm. destruct (run_done os Nf empty_heap [] [] held_empty Sm) as (h & ms & E & H). apply held_out in H. exists h, ms. auto.
  Qed.

  Lemma drop_all_b ms : forall (h : heap) O, sound h (broots ms ++ O) ->
    exists h', hb_drop_all h ms = Ok h' /\ sound h' O /\ frame O h h' /\ clones h' = clones h.
  Proof.
    induction ms as [|m ms IH]; intros h O So; cbn [hb_drop_all].
    - exists h. split; auto. split; auto. split; auto using frame_refl.
    - cbn [broots flat_map] in So. rewrite <- app_assoc in So. fold (broots ms) in So.
      destruct (hb_drop_ok h m _ So) as (h1 & E1 & So1 & F1 & C1). rewrite E1. cbn [bind].
      destruct (IH h1 O So1) as (h' & E' & So' & F' & C'). exists h'. split; auto. split; auto. split; [|congruence].
      eapply frame_trans; [|exact F']. eapply frame_incl; [|exact F1]. intros x Hx. apply in_or_app. auto.
  Qed.
  Lemma drop_all_none ms (h : heap) : sound h (broots ms) -> exists h', hb_drop_all h ms = Ok h' /\ forall a, get h' a = None.
  Proof.
    intros So. destruct (drop_all_b ms h []) as (h' & E & [W A] & _); [now rewrite app_nil_r|]. exists h'. split; auto. now apply no_leak.
  Qed.

  (** Calls change only the maps that they borrow mutably. *)
  Lemma b_step_other sst (o : op) j l : supported bor cmp sst o -> ~ In j (btargets o) -> nth_error sst j = Some l -> nth_error (fst (s_step sst o)) j = Some l.
  Proof.
    intros So T E. apply AvlHeapProofs6.s_step_other; auto. destruct o; cbn in *; auto.
  Qed.
  Lemma b_unwound_other sst (o : op) sst' j l : b_unwound sst o sst' -> ~ In j (btargets o) -> nth_error sst j = Some l -> nth_error sst' j = Some l.
  Proof.
    intros U T E.
    assert (Set1 : forall i x, ~ In j [i] -> nth_error (set_nth i x sst) j = Some l).
    { intros i x Hn. rewrite AvlHeapProofs5.set_nth_other; auto. intros ->. apply Hn. now left. }
    destruct o; cbn [BTreeHeapHistSpec.b_unwound btargets] in *; cbv zeta in *; try contradiction; subst; auto.
    - destruct U as [->|U]; auto. destruct (nth_error sst h) as [x|]; [|contradiction]. subst. auto.
    - destruct (nth_error sst h) as [x|]; [|contradiction]. destruct U as (d & r & _ & ->). auto.
    - destruct U as [_ U]. destruct (nth_error sst h1) as [x|]; [|contradiction]. destruct (nth_error sst h2) as [y|]; [|contradiction].
      destruct U as (d & r & _ & ->). rewrite AvlHeapProofs5.set_nth_other; [apply Set1|]; cbn in *; intuition.
  Qed.
  Lemma step_other_b (h : heap) ms sst (o : op) : sound h (broots ms) -> Forall2 (hbshows h) ms sst -> supported bor cmp sst o ->
    exists h' ms' r, hb_step (h, ms) o = Ok ((h', ms'), r)
      /\ forall j l, ~ In j (btargets o) -> nth_error sst j = Some l -> exists m', nth_error ms' j = Some m' /\ hbshows h' m' l.
  Proof.
    intros S F So. destruct (step_ok h ms sst o (held_in _ _ _ S F) So) as (h1 & ms1 & r & E1 & P1). exists h1, ms1, r. split; auto. intros j l T El.
    assert (Gen : forall sst2, held h1 ms1 sst2 [] -> nth_error sst2 j = Some l -> exists m', nth_error ms1 j = Some m' /\ hbshows h1 m' l).
    { intros sst2 [_ F2] E2. pose proof (AvlHeapProofs5.Forall2_nth _ _ _ j F2) as Hn. rewrite E2 in Hn. destruct (nth_error ms1 j) as [m'|]; [|contradiction]. eauto. }
    destruct r as [ob|].
    - destruct P1 as [_ H1]. apply (Gen _ H1). now apply b_step_other.
    - destruct P1 as (_ & sst2 & U & H2). apply (Gen _ H2). eapply b_unwound_other; eauto.
  Qed.
End HeapRuns.
