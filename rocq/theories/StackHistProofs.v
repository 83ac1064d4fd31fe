(** Any number of [Stack] handles, any sequence of calls. *)
From Coq Require Import List Arith Bool Lia.
From Verif Require Import Base Heap HeapProofs StackModel StackSpec StackProofs.
Import ListNotations.
Open Scope nat_scope.

Section StackHist.
  Context {T : Type} (bomb : nat -> bool) (eqb : T -> T -> bool) (c : T -> T -> comparison).
  Notation heap := (heap T).

  Definition hptr (o : option stk) : list addr := match o with Some s => olist (selems s) | None => [] end.
  Definition ok1 (h : heap) (o : option stk) (l : option (list T)) : Prop :=
    match o, l with Some s, Some l => shows h s l | None, None => True | _, _ => False end.

  Lemma held_upd hs : forall i s, nth i hs None = Some s -> forall o a,
    cnt a (held (upd i o hs)) = cnt a (hptr o) + cnt a (held (upd i None hs)).
  Proof.
    induction hs as [|x hs IH]; intros [|i] s H o a; cbn in H; try discriminate; unfold held; cbn [upd flat_map];
      rewrite ?cnt_app.
    - destruct o; cbn [hptr]; rewrite ?cnt_nil; lia.
    - specialize (IH i s H o a). unfold held in IH. lia.
  Qed.
  Lemma held_at hs i s : nth i hs None = Some s -> forall a,
    cnt a (held hs) = cnt a (olist (selems s) ++ held (upd i None hs)).
  Proof.
    intros H a. rewrite cnt_app. change (olist (selems s)) with (hptr (Some s)).
    rewrite <- (held_upd hs i s H (Some s) a). rewrite upd_self; auto.
    revert i H. induction hs as [|x hs IH]; intros [|i] H; cbn in *; try discriminate; auto. congruence.
  Qed.
  Lemma held_app hs hs' : held (hs ++ hs') = held hs ++ held hs'.
  Proof. apply flat_map_app. Qed.

  Lemma shown_nth (h : heap) hs w : shown h hs w -> forall i, ok1 h (nth i hs None) (nth i w None).
  Proof.
    intros H. induction H as [|x y hs w Hx Hr IH]; intros [|i]; cbn; auto.
  Qed.
  Lemma shows_frame (h h' : heap) s l O : frame O h h' -> incl (olist (selems s)) O -> shows h s l -> shows h' s l.
  Proof. intros (A & _) Hi [Hl D]. split; auto. Qed.
  Lemma shown_frame (h h' : heap) hs w O : frame O h h' -> incl (held hs) O -> shown h hs w -> shown h' hs w.
  Proof.
    intros F Hi H. induction H as [|x y hs w Hx Hr IH]; constructor.
    - destruct x as [s|], y as [l|]; cbn in *; auto. eapply shows_frame; eauto.
      intros b Hb. apply Hi. cbn. apply in_or_app. auto.
    - apply IH. intros b Hb. apply Hi. cbn. apply in_or_app. auto.
  Qed.
  Lemma shown_upd (h : heap) hs w : shown h hs w -> forall i o l, ok1 h o l -> shown h (upd i o hs) (upd i l w).
  Proof.
    intros H. induction H as [|x y hs w Hx Hr IH]; intros [|i] o l Ho; cbn; constructor; auto.
    apply IH; auto.
  Qed.
  (** One handle replaced, the others framed. *)
  Lemma shown_step (h h' : heap) hs w i s o l : shown h hs w -> nth i hs None = Some s ->
    frame (held (upd i None hs)) h h' -> ok1 h' o l -> shown h' (upd i o hs) (upd i l w).
  Proof.
    intros H Hn F Ho.
    assert (H1 : shown h' (upd i None hs) (upd i None w)).
    { eapply shown_frame; eauto using incl_refl. apply shown_upd; cbn; auto. }
    rewrite <- (upd_upd i o None hs), <- (upd_upd i l None w). now apply shown_upd.
  Qed.
  Lemma shown_app (h : heap) hs w o l : shown h hs w -> ok1 h o l -> shown h (hs ++ [o]) (w ++ [l]).
  Proof. intros H Ho. apply Forall2_app; auto. Qed.
  Lemma sound_equiv (h : heap) O O' : (forall a, cnt a O = cnt a O') -> sound h O -> sound h O'.
  Proof. intros E [W A]. split; auto. eapply wf_equiv; eauto. Qed.
  Lemma sound_in hs i s (h : heap) : nth i hs None = Some s -> sound h (held hs) ->
    sound h (olist (selems s) ++ held (upd i None hs)).
  Proof. intros H. apply sound_equiv. now apply held_at. Qed.
  Lemma sound_out hs i s o (h : heap) : nth i hs None = Some s ->
    sound h (hptr o ++ held (upd i None hs)) -> sound h (held (upd i o hs)).
  Proof. intros H. apply sound_equiv. intros a. rewrite (held_upd hs i s H o a), cnt_app. reflexivity. Qed.
  Lemma upd_same_w hs w (h : heap) i l : shown h hs w -> nth i w None = Some l -> upd i (Some l) w = w.
  Proof.
    intros _ H. apply upd_self. revert i H. induction w as [|y w IH]; intros [|i] H; cbn in *; try discriminate; auto.
    congruence.
  Qed.

  Definition post (w : world) (o : sop) (x : st) (r : out sobs) : Prop :=
    sound (fst x) (held (snd x))
    /\ (exists w', sp eqb c o w r w' /\ shown (fst x) (snd x) w')
    /\ ((forall n, bomb n = false) -> r <> Unwound).

  Lemma step_ok (h : heap) hs w o : sound h (held hs) -> shown h hs w ->
    exists x r, step bomb eqb c (h, hs) o = Ok (x, r) /\ post w o x r.
  Proof.
    intros I S.
    (* calls on a dead handle *)
    assert (Dead : forall i o, nth i hs None = None ->
       (forall r w', sp eqb c o w r w' <-> on w i r w' (fun l => sp eqb c o w r w')) ->
       post w o (h, hs) (Done VUnit)).
    { intros i o' Hn Hsp. split; [exact I|]. split; [|discriminate]. exists w. split; [|exact S].
      apply Hsp. unfold on. pose proof (shown_nth h hs w S i) as Hi. rewrite Hn in Hi.
      destruct (nth i w None); [destruct Hi|auto]. }
    assert (OnE : forall i r w' (f : list T -> Prop), on w i r w' f <-> on w i r w' (fun _ => on w i r w' f)).
    { intros. unfold on. destruct (nth i w None); tauto. }
    Ltac dead Dead OnE Hn := eexists _, _; split; [reflexivity|]; eapply Dead; [exact Hn|]; intros; cbn [sp]; apply OnE.
    Ltac live S Hn l Hw Hs :=
      let Hi := fresh in
      match goal with |- context [nth ?i ?hs None] => idtac | _ => idtac end;
      match type of Hn with nth ?i _ None = Some ?s => 
        match type of S with shown ?h ?hs ?w =>
          pose proof (shown_nth h hs w S i) as Hi; rewrite Hn in Hi;
          destruct (nth i w None) as [l|] eqn:Hw; [|destruct Hi]; cbn [ok1] in Hi; rename Hi into Hs
        end
      end.
    destruct o as [ |vs|i|i v|i|i|i f|i|i|i|i|i n|i fs|i at_|i at_|i x|i j|i j|i vs|i n];
      cbn [step]; unfold at_handle; cbn [snd].
    - (* new *)
      eexists _, _. split; [reflexivity|]. split; [|split; [|discriminate]]; cbn [fst snd].
      + rewrite held_app. cbn. now rewrite app_nil_r.
      + exists (w ++ [Some []]). split; [split; auto|]. apply shown_app; auto. apply new_ok.
    - (* from *)
      unfold s_from_iter.
      destruct (extend_ok vs h s_new [] (held hs) I (new_ok h)) as (h1 & s1 & E & I1 & S1 & F1 & _). rewrite E.
      eexists _, _. split; [reflexivity|]. split; [|split; [|discriminate]]; cbn [fst snd].
      + eapply sound_equiv; [|exact I1]. intros a. rewrite held_app. cbn [held flat_map]. rewrite !cnt_app, cnt_nil. lia.
      + exists (w ++ [Some (rev vs)]). split; [split; auto|]. rewrite app_nil_r in S1.
        apply shown_app; auto. eapply shown_frame; eauto using incl_refl.
    - (* clone *)
      destruct (nth i hs None) as [s|] eqn:Hn; [|dead Dead OnE Hn]. live S Hn l Hw Hs.
      pose proof (sound_in hs i s h Hn I) as I0.
      destruct (clone_ok h s l _ I0 Hs) as (h1 & E & I1 & S1 & F1 & _). rewrite E. cbn [bind].
      eexists _, _. split; [reflexivity|]. split; [|split; [|discriminate]]; cbn [fst snd].
      + eapply sound_equiv; [|exact I1]. intros a. rewrite held_app. cbn [held flat_map]. rewrite app_nil_r, !cnt_app.
        pose proof (held_at hs i s Hn a) as Ha. rewrite cnt_app in Ha. lia.
      + exists (w ++ [Some l]). cbn [sp]. unfold on. rewrite Hw. split; [split; auto|]. apply shown_app; auto.
        eapply shown_frame; [exact F1| |exact S]. intros b Hb. apply cnt_in in Hb. apply cnt_in.
        rewrite <- (held_at hs i s Hn b). exact Hb.
    - (* push *)
      destruct (nth i hs None) as [s|] eqn:Hn; [|dead Dead OnE Hn]. live S Hn l Hw Hs.
      pose proof (sound_in hs i s h Hn I) as I0.
      destruct (push_ok h s l v _ I0 Hs) as (h1 & s1 & E & I1 & S1 & F1 & _). rewrite E.
      eexists _, _. split; [reflexivity|]. split; [|split; [|discriminate]]; cbn [fst snd].
      + now apply (sound_out hs i s (Some s1)).
      + eexists. cbn [sp]. unfold on. rewrite Hw. split; [split; reflexivity|]. eapply shown_step; eauto.
    - (* pop *)
      destruct (nth i hs None) as [s|] eqn:Hn; [|dead Dead OnE Hn]. live S Hn l Hw Hs.
      pose proof (sound_in hs i s h Hn I) as I0.
      destruct (pop_ok bomb h s l _ I0 Hs) as (h1 & s1 & o & E & I1 & F1 & S1 & Ho & _). rewrite E. cbn [bind].
      eexists _, _. split; [reflexivity|]. split; [|split]; cbn [fst snd].
      + now apply (sound_out hs i s (Some s1)).
      + eexists. cbn [sp]. unfold on. rewrite Hw. split; [split; [|reflexivity]|].
        * destruct Ho as [->|(-> & Hl & _)]; cbn; auto.
        * eapply shown_step; eauto.
      + intros Hb. destruct Ho as [->|(-> & _ & B & _)]; [discriminate|]. rewrite Hb in B. discriminate.
    - (* top *)
      destruct (nth i hs None) as [s|] eqn:Hn; [|dead Dead OnE Hn]. live S Hn l Hw Hs.
      rewrite (top_ok h s l Hs). cbn [bind]. eexists _, _. split; [reflexivity|].
      split; [exact I|split; [|discriminate]]. exists w. cbn [sp]. unfold on. rewrite Hw. auto.
    - (* top_mut *)
      destruct (nth i hs None) as [s|] eqn:Hn; [|dead Dead OnE Hn]. live S Hn l Hw Hs.
      pose proof (sound_in hs i s h Hn I) as I0.
      destruct (top_mut_ok bomb h s l f _ I0 Hs) as (h1 & s1 & o & E & I1 & F1 & R). rewrite E. cbn [bind].
      eexists _, _. split; [reflexivity|].
      assert (I2 : sound h1 (held (upd i (Some s1) hs))) by now apply (sound_out hs i s (Some s1)).
      destruct o as [v| |]; [| destruct R |].
      + destruct R as (-> & S1 & _). split; [|split; [|discriminate]]; cbn [fst snd]; auto.
        eexists. cbn [sp]. unfold on. rewrite Hw. split; [left; split; reflexivity|]. eapply shown_step; eauto.
      + destruct R as (S1 & b & B). split; [|split]; cbn [fst snd]; auto.
        * exists w. cbn [sp]. unfold on. rewrite Hw. split; [right; auto|].
          rewrite <- (upd_same_w hs w h i l S Hw) at 1. eapply shown_step; eauto.
        * intros Hb. rewrite Hb in B. discriminate.
    - (* len *)
      destruct (nth i hs None) as [s|] eqn:Hn; [|dead Dead OnE Hn]. live S Hn l Hw Hs.
      eexists _, _. split; [reflexivity|]. split; [exact I|split; [|discriminate]].
      exists w. cbn [sp]. unfold on. rewrite Hw. destruct Hs as [Hl _]. unfold s_len. rewrite Hl. auto.
    - (* is_empty *)
      destruct (nth i hs None) as [s|] eqn:Hn; [|dead Dead OnE Hn]. live S Hn l Hw Hs.
      eexists _, _. split; [reflexivity|]. split; [exact I|split; [|discriminate]].
      exists w. cbn [sp]. unfold on. rewrite Hw. destruct Hs as [Hl _]. unfold s_is_empty. rewrite Hl.
      split; auto. split; auto. destruct l; reflexivity.
    - (* clear *)
      destruct (nth i hs None) as [s|] eqn:Hn; [|dead Dead OnE Hn]. live S Hn l Hw Hs.
      pose proof (sound_in hs i s h Hn I) as I0.
      destruct (clear_ok h s l _ I0 Hs) as (h1 & E & I1 & F1 & _). rewrite E. cbn [bind].
      eexists _, _. split; [reflexivity|]. split; [|split; [|discriminate]]; cbn [fst snd].
      + now apply (sound_out hs i s (Some s_new)).
      + eexists. cbn [sp]. unfold on. rewrite Hw. split; [split; reflexivity|]. eapply shown_step; eauto. apply new_ok.
    - (* drop *)
      destruct (nth i hs None) as [s|] eqn:Hn; [|dead Dead OnE Hn]. live S Hn l Hw Hs.
      pose proof (sound_in hs i s h Hn I) as I0.
      destruct (sdrop_ok h s l _ I0 Hs) as (h1 & E & I1 & F1 & _). rewrite E. cbn [bind].
      eexists _, _. split; [reflexivity|]. split; [|split; [|discriminate]]; cbn [fst snd]; auto.
      eexists. cbn [sp]. unfold on. rewrite Hw. split; [split; reflexivity|]. eapply shown_step; eauto. cbn. auto.
    - (* iter *)
      destruct (nth i hs None) as [s|] eqn:Hn; [|dead Dead OnE Hn]. live S Hn l Hw Hs.
      rewrite (iter_ok h s l n Hs). cbn [bind]. eexists _, _. split; [reflexivity|].
      split; [exact I|split; [|discriminate]]. exists w. cbn [sp]. unfold on. rewrite Hw. auto.
    - (* iter_mut *)
      destruct (nth i hs None) as [s|] eqn:Hn; [|dead Dead OnE Hn]. live S Hn l Hw Hs.
      pose proof (sound_in hs i s h Hn I) as I0.
      destruct (iter_mut_ok bomb h s l fs _ I0 Hs) as (h1 & s1 & xs & ok & E & I1 & F1 & R). rewrite E. cbn [bind].
      eexists _, _. split; [reflexivity|].
      assert (I2 : sound h1 (held (upd i (Some s1) hs))) by now apply (sound_out hs i s (Some s1)).
      destruct ok.
      + destruct R as (-> & S1 & _). split; [|split; [|discriminate]]; cbn [fst snd]; auto.
        eexists. cbn [sp]. unfold on. rewrite Hw. split; [left; split; reflexivity|]. eapply shown_step; eauto.
      + destruct R as (n & Hn1 & Hn2 & S1 & _ & b & B). split; [|split]; cbn [fst snd]; auto.
        * eexists. cbn [sp]. unfold on. rewrite Hw. split; [right; exists n; auto|]. eapply shown_step; eauto.
        * intros Hb. rewrite Hb in B. discriminate.
    - (* remove *)
      destruct (nth i hs None) as [s|] eqn:Hn; [|dead Dead OnE Hn]. live S Hn l Hw Hs.
      pose proof (sound_in hs i s h Hn I) as I0.
      destruct (remove_ok bomb h s l at_ _ I0 Hs) as (h1 & s1 & o & E & I1 & F1 & R). rewrite E. cbn [bind].
      eexists _, _. split; [reflexivity|].
      assert (I2 : sound h1 (held (upd i (Some s1) hs))) by now apply (sound_out hs i s (Some s1)).
      destruct (nth_error (rev l) at_) as [x|] eqn:Ex.
      + destruct R as [(S1 & Ho & _)|(S1 & -> & b & B)].
        * split; [|split]; cbn [fst snd]; auto.
          -- eexists. cbn [sp]. unfold on. rewrite Hw, Ex. split; [left; split; [|reflexivity]|eapply shown_step; eauto].
             destruct Ho as [->|(-> & _)]; cbn; auto.
          -- intros Hb. destruct Ho as [->|(-> & b & B)]; [discriminate|]. rewrite Hb in B. discriminate.
        * split; [|split]; cbn [fst snd]; auto.
          -- exists w. cbn [sp]. unfold on. rewrite Hw, Ex. split; [right; auto|].
             rewrite <- (upd_same_w hs w h i l S Hw) at 1. eapply shown_step; eauto.
          -- intros Hb. rewrite Hb in B. discriminate.
      + destruct R as (-> & -> & ->). split; [|split; [|discriminate]]; cbn [fst snd]; auto.
        exists w. cbn [sp]. unfold on. rewrite Hw, Ex. split; auto.
        rewrite <- (upd_same_w hs w h i l S Hw) at 1. eapply shown_step; eauto.
    - (* split_off *)
      destruct (nth i hs None) as [s|] eqn:Hn; [|dead Dead OnE Hn]. live S Hn l Hw Hs.
      pose proof (sound_in hs i s h Hn I) as I0.
      destruct (split_off_ok bomb h s l at_ _ I0 Hs) as (h1 & s1 & o & E & F1 & R). rewrite E. cbn [bind].
      destruct o as [t| |].
      + destruct R as (Hi & I1 & S1 & S2 & _).
        eexists _, _. split; [reflexivity|]. split; [|split; [|discriminate]]; cbn [fst snd].
        * eapply sound_equiv; [|exact I1]. intros a. rewrite held_app.
          change (held [Some t]) with (olist (selems t) ++ []). rewrite app_nil_r, !cnt_app.
          rewrite (held_upd hs i s Hn (Some s1)). cbn [hptr]. lia.
        * eexists. cbn [sp]. unfold on. rewrite Hw. destruct (Nat.ltb_spec (length l) at_); [lia|].
          split; [left; split; reflexivity|]. apply shown_app; auto. eapply shown_step; eauto.
      + destruct R as (Hi & -> & ->). eexists _, _. split; [reflexivity|]. 
        assert (Eu : upd i (Some s) hs = hs).
        { apply upd_self. clear - Hn. revert i Hn. induction hs as [|y hs IH]; intros [|i] H; cbn in *; try discriminate; auto.
          congruence. }
        rewrite Eu. split; [|split; [|discriminate]]; cbn [fst snd]; auto.
        exists w. cbn [sp]. unfold on. rewrite Hw. destruct (Nat.ltb_spec (length l) at_); [|lia]. auto.
      + destruct R as (Hi & I1 & S1 & b & B).
        eexists _, _. split; [reflexivity|]. split; [|split]; cbn [fst snd].
        * now apply (sound_out hs i s (Some s1)).
        * exists w. cbn [sp]. unfold on. rewrite Hw. destruct (Nat.ltb_spec (length l) at_); [lia|].
          split; [right; auto|]. rewrite <- (upd_same_w hs w h i l S Hw) at 1. eapply shown_step; eauto.
        * intros Hb. rewrite Hb in B. discriminate.
    - (* contains *)
      destruct (nth i hs None) as [s|] eqn:Hn; [|dead Dead OnE Hn]. live S Hn l Hw Hs.
      rewrite (contains_ok eqb h s l x Hs). cbn [bind]. eexists _, _. split; [reflexivity|].
      split; [exact I|split; [|discriminate]]. exists w. cbn [sp]. unfold on. rewrite Hw. auto.
    - (* eq *)
      destruct (nth i hs None) as [s|] eqn:Hn; [|dead Dead OnE Hn]. live S Hn l Hw Hs.
      destruct (nth j hs None) as [s2|] eqn:Hn2.
      2:{ eexists _, _. split; [reflexivity|]. split; [exact I|split; [|discriminate]]. exists w. cbn [sp]. unfold on.
          rewrite Hw. pose proof (shown_nth h hs w S j) as Hj. rewrite Hn2 in Hj. destruct (nth j w None); [destruct Hj|auto]. }
      live S Hn2 l2 Hw2 Hs2.
      rewrite (eq_ok eqb h s s2 l l2 Hs Hs2). cbn [bind]. eexists _, _. split; [reflexivity|].
      split; [exact I|split; [|discriminate]]. exists w. cbn [sp]. unfold on. rewrite Hw, Hw2. auto.
    - (* cmp *)
      destruct (nth i hs None) as [s|] eqn:Hn; [|dead Dead OnE Hn]. live S Hn l Hw Hs.
      destruct (nth j hs None) as [s2|] eqn:Hn2.
      2:{ eexists _, _. split; [reflexivity|]. split; [exact I|split; [|discriminate]]. exists w. cbn [sp]. unfold on.
          rewrite Hw. pose proof (shown_nth h hs w S j) as Hj. rewrite Hn2 in Hj. destruct (nth j w None); [destruct Hj|auto]. }
      live S Hn2 l2 Hw2 Hs2.
      rewrite (cmp_ok c h s s2 l l2 Hs Hs2). cbn [bind]. eexists _, _. split; [reflexivity|].
      split; [exact I|split; [|discriminate]]. exists w. cbn [sp]. unfold on. rewrite Hw, Hw2. auto.
    - (* extend *)
      destruct (nth i hs None) as [s|] eqn:Hn; [|dead Dead OnE Hn]. live S Hn l Hw Hs.
      pose proof (sound_in hs i s h Hn I) as I0.
      destruct (extend_ok vs h s l _ I0 Hs) as (h1 & s1 & E & I1 & S1 & F1 & _). rewrite E.
      eexists _, _. split; [reflexivity|]. split; [|split; [|discriminate]]; cbn [fst snd].
      + now apply (sound_out hs i s (Some s1)).
      + eexists. cbn [sp]. unfold on. rewrite Hw. split; [split; reflexivity|]. eapply shown_step; eauto.
    - (* into_iter *)
      destruct (nth i hs None) as [s|] eqn:Hn; [|dead Dead OnE Hn]. live S Hn l Hw Hs.
      pose proof (sound_in hs i s h Hn I) as I0.
      destruct (into_run_ok bomb n h s l _ I0 Hs) as (h1 & xs & ok & E & I1 & F1 & R). rewrite E. cbn [bind].
      eexists _, _. split; [reflexivity|]. split; [|split]; cbn [fst snd]; auto.
      + eexists. cbn [sp]. unfold on. rewrite Hw. split; [split; [|reflexivity]|eapply shown_step; eauto; cbn; auto].
        destruct ok; [left; destruct R as [-> _]; auto|]. right. destruct R. auto.
      + intros Hb. destruct ok; [discriminate|]. destruct R as (_ & b & B). rewrite Hb in B. discriminate.
  Qed.

  Lemma run_ok os : forall (h : heap) hs w, sound h (held hs) -> shown h hs w ->
    exists h' hs' rs w', run bomb eqb c (h, hs) os = Ok ((h', hs'), rs)
      /\ sps eqb c os w rs w' /\ sound h' (held hs') /\ shown h' hs' w'
      /\ ((forall n, bomb n = false) -> ~ In Unwound rs).
  Proof.
    induction os as [|o os IH]; intros h hs w I S; cbn [run].
    - exists h, hs, [], w. repeat split; auto; try apply I. constructor.
    - destruct (step_ok h hs w o I S) as ([h1 hs1] & r & E & I1 & (w1 & Sp & S1) & Hb). rewrite E. cbn [bind].
      destruct (IH h1 hs1 w1 I1 S1) as (h2 & hs2 & rs & w2 & E2 & Sp2 & I2 & S2 & Hb2). rewrite E2. cbn [bind].
      exists h2, hs2, (r :: rs), w2. split; auto. split; [econstructor; eauto|]. split; auto. split; auto.
      intros B [->|Hi]; [now apply Hb|now apply Hb2].
  Qed.
End StackHist.

Lemma nth_upd_other {A} (y : list A) : forall i j x d, i <> j -> nth j (upd i x y) d = nth j y d.
Proof. induction y as [|a y IH]; intros [|i] [|j] x d Hij; cbn; auto; lia. Qed.

(** The handle that a call may change. *)
Definition target {T} (o : @sop T) : option nat :=
  match o with
  | OPush i _ | OPop i | OTopMut i _ | OClear i | ODrop i | OIterMut i _ | ORemove i _
  | OSplitOff i _ | OExtend i _ | OInto i _ => Some i
  | _ => None
  end.
Lemma independent : forall (T : Type) bomb eqb cmp (h : heap T) hs w o,
  sound h (held hs) -> shown h hs w ->
  exists h' hs' r, step bomb eqb cmp (h, hs) o = Ok ((h', hs'), r)
    /\ forall j s l, target o <> Some j -> nth j hs None = Some s -> shows h s l ->
         nth j hs' None = Some s /\ shows h' s l.
Proof.
  intros T bomb eqb cmp h hs w o I S.
  destruct (step_ok bomb eqb cmp h hs w o I S) as ([h' hs'] & r & E & I' & (w' & Sp & S') & _).
  exists h', hs', r. split; auto. cbn [fst snd] in *. intros j s l Ht Hn Hs.
  assert (Hw : nth j w None = Some l).
  { pose proof (shown_nth h hs w S j) as Hj. rewrite Hn in Hj. destruct (nth j w None) as [l'|]; [|destruct Hj].
    destruct Hs as [_ D], Hj as [_ D']. f_equal. 
    destruct (den_det h) as [Dd _]. specialize (Dd _ _ D' _ D).
    assert (Inj : forall a b : list T, chain a = chain b -> a = b).
    { induction a as [|x a IH]; intros [|y b] Hc; cbn in Hc; try discriminate; auto.
      injection Hc as -> Hc. f_equal. auto. }
    now apply Inj. }
  assert (Hlw : j < length w). { destruct (Nat.lt_ge_cases j (length w)); auto. rewrite nth_overflow in Hw by auto. discriminate. }
  assert (Hlh : j < length hs). { destruct (Nat.lt_ge_cases j (length hs)); auto. rewrite nth_overflow in Hn by auto. discriminate. }
  assert (Hw' : nth j w' None = Some l).
  { rewrite <- Hw. clear - Sp Ht Hlw. unfold sp, on in Sp.
    destruct o; cbn in Ht;
      repeat match goal with
             | H : context [match nth ?i w None with _ => _ end] |- _ => destruct (nth i w None)
             | H : context [match nth_error ?a ?b with _ => _ end] |- _ => destruct (nth_error a b)
             | H : context [if ?b then _ else _] |- _ => destruct b
             | H : _ /\ _ |- _ => destruct H
             | H : _ \/ _ |- _ => destruct H
             | H : exists _, _ |- _ => destruct H
             end; subst w'; rewrite ?app_nth1 by (rewrite ?upd_length; auto); auto; apply nth_upd_other; congruence. }
  assert (Hh' : nth j hs' None = Some s).
  { rewrite <- Hn. clear - E Ht Hlh. unfold step, at_handle in E.
    destruct o; cbn in Ht; cbn [snd] in E;
      repeat match goal with
             | H : context [match nth ?i hs None with _ => _ end] |- _ => destruct (nth i hs None)
             | H : context [bind ?m _] |- _ => let Em := fresh in destruct m eqn:Em; cbn [bind] in H; clear Em
             | H : context [let '(_, _) := ?p in _] |- _ => destruct p
             | H : context [match ?o with Done _ => _ | _ => _ end] |- _ => destruct o
             end; try discriminate; injection E as ? ? ?; subst; rewrite ?app_nth1 by (rewrite ?upd_length; auto); auto; try (apply nth_upd_other; congruence). }
  split; auto. pose proof (shown_nth h' hs' w' S' j) as Hj. now rewrite Hh', Hw' in Hj.
Qed.
