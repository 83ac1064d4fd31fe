(** Histories of calls on shared maps, and single calls, in the terms of the properties. *)
From Coq Require Import List ZArith Bool Lia Permutation.
From Verif Require Import Base Spec MapSpec Heap HeapProofs AvlModel AvlHistModel AvlMapProofs AvlHistProofs AvlShows
  AvlHeapModel AvlHeapSpec AvlHeapProofs AvlHeapProofs2 AvlHeapProofs3 AvlHeapHistModel AvlHeapHistSpec AvlHeapProofs4
  AvlHeapProofs5 AvlHeapLazy.
From Verif Require AvlProofs AvlProofs2.
Import ListNotations.
Local Open Scope nat_scope.

Section Shown.
  Context {K V Q : Type} (bor : K -> Q) (cmp : Q -> Q -> comparison) (laws : order_laws cmp).
  Notation pay := (pay K V).
  Notation heap := (heap pay).
  Notation tree := (tree K V).
  Notation amap := (avl_map K V).
  Notation hshows := (hshows bor cmp).
  Notation rel := (rel bor cmp).
  Notation rels := (rels bor cmp).
  Notation fits := AvlProofs2.fits.

  Lemma read_den fuel : forall (h : heap) p t, h_tree fuel h p = Ok t -> den h p (tv t).
  Proof.
    induction fuel as [|fuel IH]; intros h p t E; [discriminate|]. cbn [h_tree] in E. destruct p as [a|].
    2:{ injection E as <-. constructor. }
    destruct (get h a) as [[c [d [|l [|r [|]]]]]|] eqn:G; try discriminate.
    destruct (h_tree fuel h l) as [tl|] eqn:El; [|discriminate]. cbn [bind] in E.
    destruct (h_tree fuel h r) as [tr|] eqn:Er; [|discriminate]. cbn [bind] in E. injection E as <-.
    cbn [tv]. destruct d as [k v lh rh]. cbn [pk pv plh prh].
    change (Pay k v lh rh) with (nd_data (Nd (Pay k v lh rh) [l; r])). econstructor; [exact G|].
    repeat constructor; auto.
  Qed.
  Lemma read_mapped (h : heap) m a : hm_read h m = Ok a -> mapped h m a.
  Proof.
    unfold hm_read. destruct (h_tree _ h (hm_root m)) as [t|] eqn:E; [|discriminate]. cbn [bind]. intros [= <-].
    split; auto. eapply read_den; eauto.
  Qed.
  Lemma hshows_mapped (h : heap) m l : hshows h m l -> exists a, mapped h m a /\ valid bor cmp a /\ contents a = l.
  Proof.
    intros (a & E & S). exists a. split; [now apply read_mapped|]. now apply shows_valid.
  Qed.
  Lemma mapped_hshows (h : heap) m a l : mapped h m a -> valid bor cmp a -> contents a = l -> fits l -> hshows h m l.
  Proof.
    intros M Va <- F. exists a. split; [eapply read_ok; eauto|]. now apply valid_shows.
  Qed.
  Lemma frame_hshows O (h h' : heap) m l : frame O h h' -> incl (olist (hm_root m)) O -> fits l ->
    hshows h m l -> hshows h' m l.
  Proof.
    intros F I Ft H. apply hshows_mapped in H as (a & [L D] & Va & C).
    eapply mapped_hshows; eauto. split; auto. now apply F.
  Qed.

  Lemma hshows_inv (h : heap) ms sst : sound h (roots ms) -> Forall2 (hshows h) ms sst ->
    exists st, inv h ms st /\ rels st sst.
  Proof.
    intros So F. unfold inv, rels, AvlHistProofs.rels.
    assert (H : exists st, Forall2 (mapped h) ms st /\ Forall2 rel st sst).
    { clear So. induction F as [|m l ms sst H F IH]; [exists []; split; constructor|].
      destruct IH as (st & A & B). apply hshows_mapped in H as (a & M & Va & C).
      exists (a :: st). split; constructor; auto. split; auto. }
    destruct H as (st & A & B). exists st. auto.
  Qed.
  Lemma inv_hshows (h : heap) ms st sst : inv h ms st -> rels st sst -> Forall small sst ->
    sound h (roots ms) /\ Forall2 (hshows h) ms sst.
  Proof.
    intros [So F] R Sm. split; auto. clear So. revert sst R Sm.
    induction F as [|m a ms st M F IH]; intros sst R Sm; inversion R; subst; constructor.
    - inversion Sm; subst. destruct H1 as [Va C]. eapply mapped_hshows; eauto. now apply small_fits.
    - apply IH; auto. now inversion Sm.
  Qed.
End Shown.

Section Runs.
  Context {K V Q : Type} (bor : K -> Q) (cmp : Q -> Q -> comparison) (laws : order_laws cmp).
  Context (keq : K -> K -> bool) (veq : V -> V -> bool).
  Context (kcmp : K -> K -> comparison) (vcmp : V -> V -> comparison).
  Variable bomb : nat -> bool.
  Variable fbomb : K -> V -> bool.
  Notation pay := (pay K V).
  Notation heap := (heap pay).
  Notation op := (op K V Q).
  Notation rels := (rels bor cmp).
  Notation hshows := (hshows bor cmp).
  Notation s_step := (s_step bor cmp keq veq kcmp vcmp).
  Notation s_run := (s_run bor cmp keq veq kcmp vcmp).
  Notation h_step := (h_step bor cmp keq veq kcmp vcmp bomb fbomb).
  Notation h_run := (h_run bor cmp keq veq kcmp vcmp bomb fbomb).
  Notation follows := (follows bor cmp keq veq kcmp vcmp).
  Notation always_small := (always_small bor cmp keq veq kcmp vcmp).
  Notation all_small := (all_small bor cmp keq veq kcmp vcmp).
  Notation faults := (faults bomb fbomb).

  Lemma always_now sst os : always_small sst os -> Forall small sst.
  Proof. destruct os; cbn; tauto. Qed.

  Lemma h_run_inv os : forall (h : heap) ms st sst, inv h ms st -> rels st sst -> always_small sst os ->
    exists h' ms' rs st' sst', h_run (h, ms) os = Ok ((h', ms'), rs) /\ follows sst os rs sst'
      /\ inv h' ms' st' /\ rels st' sst' /\ Forall small sst' /\ (In Unwound rs -> faults).
  Proof.
    induction os as [|o os IH]; intros h ms st sst I R Sm; cbn [AvlHeapHistModel.h_run].
    - exists h, ms, [], st, sst. split; auto. split; [reflexivity|]. split; auto. split; auto.
      split; [exact (always_now _ _ Sm)|]. intros [].
    - cbn [AvlHeapHistSpec.always_small] in Sm. destruct Sm as (Sn & So & Sd & Su).
      destruct (h_step_ok bor cmp laws keq veq kcmp vcmp bomb fbomb h ms st sst o I R Sn So)
        as (st1 & (h1 & ms1 & r & E1 & P1) & R1).
      rewrite E1. cbn [bind]. destruct r as [ob|].
      + destruct P1 as [-> I1]. destruct (IH h1 ms1 st1 _ I1 R1 Sd) as (h' & ms' & rs & st' & sst' & E & F & I' & R' & S' & U').
        rewrite E. cbn [bind]. exists h', ms', (Done (snd (s_step sst o)) :: rs), st', sst'.
        split; auto. split; [cbn [AvlHeapHistSpec.follows]; auto|]. do 3 (split; auto).
        intros [?|?]; [discriminate|auto].
      + destruct P1 as (Hf & st2 & sst2 & U & I2 & R2).
        destruct (IH h1 ms1 st2 sst2 I2 R2 (Su _ U)) as (h' & ms' & rs & st' & sst' & E & F & I' & R' & S' & U').
        rewrite E. cbn [bind]. exists h', ms', (Unwound :: rs), st', sst'.
        split; auto. split; [cbn [AvlHeapHistSpec.follows]; eauto|]. do 3 (split; auto).
  Qed.

  Lemma run_h os : always_small [] os ->
    exists h ms rs sst, h_run (empty_heap, []) os = Ok ((h, ms), rs) /\ follows [] os rs sst
      /\ sound h (roots ms) /\ Forall2 (hshows h) ms sst /\ (In Unwound rs -> faults).
  Proof.
    intros Sm. destruct (h_run_inv os empty_heap [] [] []) as (h & ms & rs & st & sst & E & F & I & R & S & U); auto.
    { split; [exact empty_ok|constructor]. } { constructor. }
    destruct (inv_hshows bor cmp laws h ms st sst I R S). exists h, ms, rs, sst. auto.
  Qed.

  (** Without panics. *)
  Lemma h_run_done os : (faults -> False) -> forall (h : heap) ms st sst, inv h ms st -> rels st sst -> all_small sst os ->
    exists h' ms' st', h_run (h, ms) os = Ok ((h', ms'), map Done (snd (s_run sst os)))
      /\ inv h' ms' st' /\ rels st' (fst (s_run sst os)) /\ Forall small (fst (s_run sst os)).
  Proof.
    intros Nf. induction os as [|o os IH]; intros h ms st sst I R Sm; cbn [AvlHeapHistModel.h_run MapSpec.s_run].
    - exists h, ms, st. split; auto. split; auto. split; auto. apply Sm.
    - cbn [MapSpec.all_small] in Sm. destruct Sm as (Sn & So & Sd).
      destruct (h_step_ok bor cmp laws keq veq kcmp vcmp bomb fbomb h ms st sst o I R Sn So)
        as (st1 & (h1 & ms1 & r & E1 & P1) & R1).
      rewrite E1. cbn [bind]. destruct r as [ob|]; [|destruct P1; contradiction].
      destruct P1 as [-> I1]. destruct (IH h1 ms1 st1 _ I1 R1 Sd) as (h' & ms' & st' & E & I' & R' & S').
      destruct (s_step sst o) as [sst1 r1]. cbn [fst snd] in *. rewrite E. cbn [bind].
      destruct (s_run sst1 os) as [sst2 rs]. exists h', ms', st'. auto.
  Qed.
  Lemma run_done_h os : (faults -> False) -> all_small [] os ->
    exists h ms, h_run (empty_heap, []) os = Ok ((h, ms), map Done (snd (s_run [] os)))
      /\ sound h (roots ms) /\ Forall2 (hshows h) ms (fst (s_run [] os)).
  Proof.
    intros Nf Sm. destruct (h_run_done os Nf empty_heap [] [] []) as (h & ms & st & E & I & R & S); auto.
    { split; [exact empty_ok|constructor]. } { constructor. }
    exists h, ms. split; auto. now apply (inv_hshows bor cmp laws h ms st).
  Qed.

  (** Dropping all maps leaves nothing. *)
  Lemma drop_all_h ms : forall (h : heap) O, sound h (roots ms ++ O) ->
    exists h', h_drop_all h ms = Ok h' /\ sound h' O /\ frame O h h' /\ clones h' = clones h.
  Proof.
    induction ms as [|m ms IH]; intros h O So; cbn [h_drop_all].
    - exists h. split; auto. split; auto. split; auto using frame_refl.
    - cbn [roots flat_map] in So. rewrite <- app_assoc in So.
      destruct (clear_h h m (roots ms ++ O) So) as (h1 & _ & E1 & So1 & F1 & C1). rewrite E1. cbn [bind].
      destruct (IH h1 O So1) as (h' & E' & So' & F' & C'). exists h'. split; auto. split; auto. split; [|congruence].
      eapply frame_trans; [|exact F']. eapply frame_incl; [|exact F1]. intros x Hx. apply in_or_app. auto.
  Qed.
  Lemma drop_all_none ms (h : heap) : sound h (roots ms) ->
    exists h', h_drop_all h ms = Ok h' /\ forall a, get h' a = None.
  Proof.
    intros So. destruct (drop_all_h ms h []) as (h' & E & [W A] & _); [now rewrite app_nil_r|].
    exists h'. split; auto. now apply no_leak.
  Qed.

  (** Calls change only the maps that they borrow mutably. *)
  Lemma s_step_other sst (o : op) j l : ~ In j (targets o) -> nth_error sst j = Some l ->
    nth_error (fst (s_step sst o)) j = Some l.
  Proof.
    intros T N.
    assert (App : forall x, nth_error (sst ++ [x]) j = Some l).
    { intros x. rewrite nth_error_app1; auto. apply nth_error_Some. congruence. }
    assert (Set1 : forall i x, ~ In j [i] -> nth_error (set_nth i x sst) j = Some l).
    { intros i x Hn. rewrite set_nth_other; auto. intros ->. apply Hn. now left. }
    destruct o; cbn [MapSpec.s_step targets] in *; cbv zeta;
      repeat match goal with
             | |- nth_error (fst (match ?x with _ => _ end)) j = _ => destruct x
             end; cbn [fst]; auto.
    - rewrite nth_error_app1; auto. apply nth_error_Some. rewrite Set1; auto. discriminate.
    - rewrite set_nth_other; [apply Set1|]; cbn in *; intuition.
  Qed.
  Lemma s_unwound_other sst (o : op) sst' j l : s_unwound bor cmp sst o sst' -> ~ In j (targets o) -> nth_error sst j = Some l ->
    nth_error sst' j = Some l.
  Proof.
    intros U T N.
    assert (Set1 : forall i x, ~ In j [i] -> nth_error (set_nth i x sst) j = Some l).
    { intros i x Hn. rewrite set_nth_other; auto. intros ->. apply Hn. now left. }
    destruct o; cbn [s_unwound targets] in *; cbv zeta in *; try contradiction; subst; auto.
    - destruct U as [->|U]; auto. destruct (nth_error sst h) as [x|]; [|contradiction]. subst. auto.
    - destruct (nth_error sst h) as [x|]; [|contradiction]. destruct U as (d & r & _ & ->). auto.
    - destruct U as [_ ->]. rewrite set_nth_other; [apply Set1|]; cbn in *; intuition.
  Qed.
  Lemma step_other_h (h : heap) ms sst (o : op) : sound h (roots ms) -> Forall2 (hshows h) ms sst ->
    Forall small sst -> op_small o ->
    exists h' ms' r, h_step (h, ms) o = Ok ((h', ms'), r)
      /\ forall j l, ~ In j (targets o) -> nth_error sst j = Some l ->
           exists m', nth_error ms' j = Some m' /\ hshows h' m' l.
  Proof.
    intros So F Sm Os. destruct (hshows_inv bor cmp laws h ms sst So F) as (st & I & R).
    destruct (h_step_ok bor cmp laws keq veq kcmp vcmp bomb fbomb h ms st sst o I R Sm Os)
      as (st1 & (h1 & ms1 & r & E1 & P1) & R1).
    exists h1, ms1, r. split; auto. intros j l T N.
    assert (Fl : AvlProofs2.fits l).
    { apply small_fits. eapply Forall_forall in Sm; [exact Sm|]. eapply nth_error_In; eauto. }
    assert (Gen : forall st2 sst2, inv h1 ms1 st2 -> rels st2 sst2 -> nth_error sst2 j = Some l ->
                    exists m', nth_error ms1 j = Some m' /\ hshows h1 m' l).
    { clear - Fl laws. intros st2 sst2 [_ F2] R2 N2. revert sst2 R2 j N2.
      induction F2 as [|m a ms st M F2 IH]; intros sst R j N; inversion R; subst; destruct j as [|j]; try discriminate.
      - injection N as ->. exists m. split; auto. destruct H1 as [Va C]. eapply mapped_hshows; eauto.
      - cbn in N |- *. eapply IH; eauto. }
    destruct r as [ob|].
    - destruct P1 as [_ I1]. eapply Gen; eauto. now apply s_step_other.
    - destruct P1 as (_ & st2 & sst2 & U & I2 & R2). eapply Gen; eauto. eapply s_unwound_other; eauto.
  Qed.
End Runs.

Section Calls.
  Context {K V Q : Type} (bor : K -> Q) (cmp : Q -> Q -> comparison) (laws : order_laws cmp).
  Variable bomb : nat -> bool.
  Notation pay := (pay K V).
  Notation heap := (heap pay).
  Notation hshows := (hshows bor cmp).
  Notation bombs := (bombs bomb).

  (** The map that [m] stands for, as a tree: for the nodes that a call may clone. *)
  Lemma hshows_read (h : heap) m l : hshows h m l -> exists a, hm_read h m = Ok a /\ mapped h m a /\ valid bor cmp a /\ contents a = l.
  Proof.
    intros (a & E & S). exists a. split; auto. split; [now apply read_mapped|]. now apply shows_valid.
  Qed.

  Lemma insert_c (h : heap) m l k v O : sound h (olist (hm_root m) ++ O) -> hshows h m l -> small l ->
    exists h' m' o, hm_insert bor cmp bomb h m k v = Ok (h', m', o)
      /\ sound h' (olist (hm_root m') ++ O) /\ frame O h h'
      /\ match o with
         | Done old => old = s_get bor cmp (bor k) l /\ hshows h' m' (s_insert bor cmp k v l)
         | Unwound => hshows h' m' l /\ bombs
         end.
  Proof.
    intros So H Sm. apply hshows_read in H as (a & _ & M & Va & <-).
    destruct (insert_spec bor cmp laws a k v Va (small_fits _ Sm)) as (a' & E & Va' & C').
    destruct (insert_h bor cmp bomb h m a k v a' _ O So M Va (small_fits _ Sm) E) as (h' & m' & r & cs & E' & So' & F' & _ & _ & R).
    exists h', m', r. do 3 (split; auto). destruct r as [old|].
    - destruct R as [-> M']. split; auto. eapply mapped_hshows; eauto. eapply small_fits_S; eauto.
      apply (length_insert_le bor cmp laws). now apply valid_asc.
    - destruct R as [M' B]. split; auto. eapply mapped_hshows; eauto. now apply small_fits.
  Qed.
  Lemma get_mut_c (h : heap) m l q w O : sound h (olist (hm_root m) ++ O) -> hshows h m l -> small l ->
    exists h' m' o, hm_get_mut bor cmp bomb h m q w = Ok (h', m', o)
      /\ sound h' (olist (hm_root m') ++ O) /\ frame O h h'
      /\ match o with
         | Done old => old = s_get bor cmp q l /\ hshows h' m' (s_update bor cmp q w l)
         | Unwound => hshows h' m' l /\ bombs
         end.
  Proof.
    intros So H Sm. apply hshows_read in H as (a & E0 & M & Va & Ec). subst l.
    assert (Sh : shows bor cmp a (contents a)) by (apply valid_shows; auto; now apply small_fits).
    destruct (get_mut_l bor cmp laws a _ q w Sh Sm) as (a' & G1 & G2).
    destruct (get_mut_h bor cmp bomb h m a q w O So M Va (small_fits _ Sm)) as (h' & m' & r & cs & E' & So' & F' & _ & _ & R).
    exists h', m', r. do 3 (split; auto). destruct r as [old|].
    - rewrite G1 in R. destruct R as [-> M']. split; auto. exists a'. split; [|exact G2].
      apply shows_valid in G2 as [V2 C2]; auto. eapply read_ok; eauto. rewrite C2. unfold s_update.
      unfold AvlProofs2.fits. rewrite map_length. apply small_fits in Sm. exact Sm.
    - destruct R as [M' B]. split; auto. eapply mapped_hshows; eauto. now apply small_fits.
  Qed.

  Lemma for_each_mut_c {S} (g : S -> K -> V -> S * V) (h : heap) m l s O :
    sound h (olist (hm_root m) ++ O) -> hshows h m l -> small l ->
    exists h' m' o, hm_for_each_mut bomb g h m s = Ok (h', m', o)
      /\ sound h' (olist (hm_root m') ++ O) /\ frame O h h'
      /\ match o with
         | Done s' => s' = snd (map_state g l s) /\ hshows h' m' (fst (map_state g l s))
         | Unwound => hm_len m' = length l
                      /\ (exists t, den h' (hm_root m') (tv t) /\ map fst (elems t) = map fst l) /\ bombs
         end.
  Proof.
    intros So H Sm. apply hshows_read in H as (a & E0 & M & Va & Ec). subst l.
    assert (Sh : shows bor cmp a (contents a)) by (apply valid_shows; auto; now apply small_fits).
    destruct (for_each_mut_l bor cmp laws g a _ s Sh Sm) as (a' & G1 & G2).
    destruct (for_each_mut_h bor cmp bomb g h m a s O So M Va (small_fits _ Sm)) as (h' & m' & r & cs & E' & So' & F' & _ & _ & R).
    exists h', m', r. do 3 (split; auto). destruct r as [s'|].
    - rewrite G1 in R. destruct R as [-> M']. split; auto. exists a'. split; [|exact G2].
      apply shows_valid in G2 as [V2 C2]; auto. eapply read_ok; eauto. rewrite C2.
      unfold AvlProofs2.fits. pose proof (AvlMapProofs.map_state_keys g (contents a) s) as Hk.
      apply (f_equal (@length _)) in Hk. rewrite !map_length in Hk. rewrite Hk. now apply small_fits in Sm.
    - destruct R as [(Ln & t & D & Ek) B]. split; [|split; eauto]. rewrite Ln. apply (valid_len bor cmp a Va).
  Qed.

  (** What is left when a removal unwinds. *)
  Definition leftover (h' : heap) (m' : hmap) (l : list (K * V)) : Prop :=
    hm_len m' = length l /\ exists t, den h' (hm_root m') (tv t) /\ sub (elems t) l.
  Lemma left_leftover a (h' : heap) m' : valid bor cmp a -> left_of a h' m' -> leftover h' m' (contents a).
  Proof. intros Va [L R]. split; auto. rewrite L. apply (valid_len bor cmp a Va). Qed.

  Definition removes (x : res (heap * hmap * out (option (K * V)))) (h : heap) O l l' kv : Prop :=
    exists h' m' o, x = Ok (h', m', o)
      /\ sound h' (olist (hm_root m') ++ O) /\ frame O h h'
      /\ match o with
         | Done e => e = kv /\ hshows h' m' l'
         | Unwound => leftover h' m' l /\ bombs
         end.
  Lemma removes_of (h : heap) a O P x a' kv l' :
    valid bor cmp a -> mslot bombs O h P x (gives a' kv) (left_of a) -> shows bor cmp a' l' ->
    (length l' <= length (contents a))%nat -> small (contents a) -> removes x h O (contents a) l' kv.
  Proof.
    intros Va (h' & m' & r & cs & E' & So' & F' & _ & _ & R) S' Ln Sm.
    exists h', m', r. do 3 (split; auto). destruct r as [e|].
    - destruct R as [-> M']. split; auto. exists a'. split; auto. apply shows_valid in S' as [V2 C2]; auto.
      eapply read_ok; eauto. rewrite C2. apply small_fits in Sm. unfold AvlProofs2.fits in *. lia.
    - destruct R as [L B]. split; auto. now apply left_leftover.
  Qed.
  Lemma remove_c (h : heap) m l q O : sound h (olist (hm_root m) ++ O) -> hshows h m l -> small l ->
    removes (hm_remove_entry bor cmp bomb h m q) h O l (s_remove bor cmp q l) (s_find bor cmp q l).
  Proof.
    intros So H Sm. apply hshows_read in H as (a & E0 & M & Va & Ec). subst l.
    assert (Sh : shows bor cmp a (contents a)) by (apply valid_shows; auto; now apply small_fits).
    destruct (remove_entry_l bor cmp laws a _ q Sh Sm) as (a' & E & S').
    eapply removes_of; eauto.
    - eapply remove_h; eauto. now apply small_fits.
    - apply len_remove.
  Qed.
  Lemma pop_first_c (h : heap) m l O : sound h (olist (hm_root m) ++ O) -> hshows h m l -> small l ->
    removes (hm_pop_first bomb h m) h O l (tl l) (s_first l).
  Proof.
    intros So H Sm. apply hshows_read in H as (a & E0 & M & Va & Ec). subst l.
    assert (Sh : shows bor cmp a (contents a)) by (apply valid_shows; auto; now apply small_fits).
    destruct (pop_first_l bor cmp laws a _ Sh Sm) as (a' & E & S').
    eapply removes_of; eauto.
    - eapply pop_first_h; eauto. now apply small_fits.
    - destruct (contents a); cbn; lia.
  Qed.
  Lemma pop_last_c (h : heap) m l O : sound h (olist (hm_root m) ++ O) -> hshows h m l -> small l ->
    removes (hm_pop_last bomb h m) h O l (removelast l) (s_last l).
  Proof.
    intros So H Sm. apply hshows_read in H as (a & E0 & M & Va & Ec). subst l.
    assert (Sh : shows bor cmp a (contents a)) by (apply valid_shows; auto; now apply small_fits).
    destruct (pop_last_l bor cmp laws a _ Sh Sm) as (a' & E & S').
    eapply removes_of; eauto.
    - eapply pop_last_h; eauto. now apply small_fits.
    - rewrite removelast_firstn_len, firstn_length. lia.
  Qed.

  (** Which nodes a call clones. *)
  Definition clones_in (x : res (heap * hmap * out (option (K * V)))) (h : heap) (M : list pay) : Prop :=
    exists h' m' o cs, x = Ok (h', m', o) /\ clones h' = cs ++ clones h /\ sub cs M.
  Lemma insert_clones (h : heap) m l a k v O : sound h (olist (hm_root m) ++ O) -> hshows h m l -> small l ->
    hm_read h m = Ok a ->
    exists h' m' o cs, hm_insert bor cmp bomb h m k v = Ok (h', m', o) /\ clones h' = cs ++ clones h
      /\ sub cs (path bor cmp (am_root a) (bor k)).
  Proof.
    intros So H Sm Ea. apply hshows_read in H as (a0 & E0 & M & Va & <-). rewrite Ea in E0. injection E0 as <-.
    destruct (insert_spec bor cmp laws a k v Va (small_fits _ Sm)) as (a' & E & Va' & C').
    destruct (insert_h bor cmp bomb h m a k v a' _ O So M Va (small_fits _ Sm) E) as (h' & m' & r & cs & E' & _ & _ & C & S & _).
    exists h', m', r, cs. auto.
  Qed.
  Lemma get_mut_clones (h : heap) m l a q w O : sound h (olist (hm_root m) ++ O) -> hshows h m l -> small l ->
    hm_read h m = Ok a ->
    exists h' m' o cs, hm_get_mut bor cmp bomb h m q w = Ok (h', m', o) /\ clones h' = cs ++ clones h
      /\ sub cs (path bor cmp (am_root a) q).
  Proof.
    intros So H Sm Ea. apply hshows_read in H as (a0 & E0 & M & Va & <-). rewrite Ea in E0. injection E0 as <-.
    destruct (get_mut_h bor cmp bomb h m a q w O So M Va (small_fits _ Sm)) as (h' & m' & r & cs & E' & _ & _ & C & S & _).
    exists h', m', r, cs. auto.
  Qed.
  Lemma remove_clones (h : heap) m l a q O : sound h (olist (hm_root m) ++ O) -> hshows h m l -> small l ->
    hm_read h m = Ok a ->
    clones_in (hm_remove_entry bor cmp bomb h m q) h (near bor cmp (am_root a) q)
    /\ clones_in (hm_pop_first bomb h m) h (near_first (am_root a))
    /\ clones_in (hm_pop_last bomb h m) h (near_last (am_root a)).
  Proof.
    intros So H Sm Ea. apply hshows_read in H as (a0 & E0 & M & Va & <-). rewrite Ea in E0. injection E0 as <-.
    assert (Sh : shows bor cmp a (contents a)) by (apply valid_shows; auto; now apply small_fits).
    pose proof (small_fits _ Sm) as Ft. repeat split.
    - destruct (remove_entry_l bor cmp laws a _ q Sh Sm) as (a' & E & S').
      destruct (remove_h bor cmp bomb h m a q a' _ O So M Va Ft E) as (h' & m' & r & cs & E' & _ & _ & C & S & _).
      exists h', m', r, cs. auto.
    - destruct (pop_first_l bor cmp laws a _ Sh Sm) as (a' & E & S').
      destruct (pop_first_h bor cmp bomb h m a a' _ O So M Va Ft E) as (h' & m' & r & cs & E' & _ & _ & C & S & _).
      exists h', m', r, cs. auto.
    - destruct (pop_last_l bor cmp laws a _ Sh Sm) as (a' & E & S').
      destruct (pop_last_h bor cmp bomb h m a a' _ O So M Va Ft E) as (h' & m' & r & cs & E' & _ & _ & C & S & _).
      exists h', m', r, cs. auto.
  Qed.

  (** The number of those nodes: two per level for a removal. *)
  Lemma path_len (t : tree K V) q : length (path bor cmp t q) <= levels t.
  Proof.
    induction t as [|k v lh rh l IHl r IHr]; cbn [path levels]; auto. rewrite app_length. cbn [length].
    destruct (cmp q (bor k)); cbn [length]; lia.
  Qed.
  Lemma beside_len (t : tree K V) : length (beside_l t) <= 2 /\ length (beside_r t) <= 2.
  Proof. destruct t as [|? ? ? ? [|] [|]]; cbn; lia. Qed.
  Lemma near_first_len (t : tree K V) : length (near_first t) <= 3 * levels t /\ length (near_last t) <= 3 * levels t.
  Proof.
    induction t as [|k v lh rh l IHl r IHr]; cbn [near_first near_last levels]; [cbn; lia|].
    rewrite !app_length. pose proof (beside_len l). pose proof (beside_len r). cbn [length]. lia.
  Qed.
  Lemma near_len (t : tree K V) q : length (near bor cmp t q) <= 3 * levels t.
  Proof.
    induction t as [|k v lh rh l IHl r IHr]; cbn [near levels]; [cbn; lia|].
    rewrite app_length. pose proof (beside_len l). pose proof (beside_len r). pose proof (near_first_len r). cbn [length].
    destruct (cmp q (bor k)); rewrite !app_length; lia.
  Qed.

  (** Nothing shared, nothing cloned. *)
  Definition spread (h : heap) (p : ptr) (a : addr) : Prop := reach h p a \/ length (cells h) <= a.
  Lemma unshared_alone (h : heap) p : unshared h p -> ok (spread h p) (clones h) (get h) h /\ pin (spread h p) p.
  Proof.
    intros H. split; [split; [split|split; auto]|].
    - intros a L. now right.
    - intros a c n [R|L] G.
      + split; [eapply H; eauto|]. intros b Hb. left. eapply reach_kid; eauto.
      + apply get_lt in G. lia.
    - intros b Hb. left. now apply reach_root.
  Qed.
  Lemma pin_reach U c g (h : heap) p : ok U c g h -> pin U p -> unshared h p /\ forall a, reach h p a -> U a.
  Proof.
    intros [[A1 A2] _] P.
    assert (R : forall a, reach h p a -> U a).
    { induction 1 as [a Ha|a c' n b _ IH G Hb]; auto. destruct (A2 a c' n IH G) as [_ Hk]. auto. }
    split; auto. intros a c' n Ra G. destruct (A2 a c' n (R a Ra) G). auto.
  Qed.

  Definition in_place {A} (h : heap) (x : res (heap * hmap * out A)) : Prop :=
    forall h' m' o, x = Ok (h', m', o) -> clones h' = clones h /\ o <> Unwound /\ unshared h' (hm_root m').
  Lemma lslot_done {A} U c g (x : res (heap * ptr * out A)) h' p o : lslot U c g x -> x = Ok (h', p, o) ->
    exists a, o = Done a /\ ok U c g h' /\ pin U p.
  Proof.
    intros H ->. cbn in H. destruct H as (H1 & H2 & H3). destruct o as [a|]; [eauto|contradiction].
  Qed.
  Lemma shrink_in_place m (x : res (heap * ptr * out (option (K * V) * bool))) (h : heap) :
    lslot (spread h (hm_root m)) (clones h) (get h) x -> in_place h (y <- x;; hm_shrink m y).
  Proof.
    intros H h' m' o E. destruct x as [[[h1 p1] o1]|]; [|discriminate]. cbn [bind hm_shrink] in E.
    destruct (lslot_done _ _ _ _ _ _ _ H eq_refl) as ([kv s] & -> & O1 & P1).
    destruct (pin_reach _ _ _ _ _ O1 P1) as [Un _].
    destruct kv as [e|].
    - destruct (usize_sub (hm_len m) 1) as [n|]; [|discriminate]. injection E as <- <- <-.
      split; [apply O1|]. split; [discriminate|exact Un].
    - injection E as <- <- <-. split; [apply O1|]. split; [discriminate|exact Un].
  Qed.
  Lemma insert_in_place m (x : res (heap * ptr * out (option V * bool))) (h : heap) :
    lslot (spread h (hm_root m)) (clones h) (get h) x ->
    in_place h ('(h1, p, o) <- x;;
                match o with
                | Unwound => Ok (h1, HMap (hm_len m) p, Unwound)
                | Done (ret, _) => Ok (h1, HMap (hm_len m + match ret with None => 1 | Some _ => 0 end) p, Done ret)
                end).
  Proof.
    intros H h' m' o E. destruct x as [[[h1 p1] o1]|]; [|discriminate]. cbn [bind] in E.
    destruct (lslot_done _ _ _ _ _ _ _ H eq_refl) as ([old tl] & -> & O1 & P1).
    destruct (pin_reach _ _ _ _ _ O1 P1) as [Un1 _]. injection E as <- <- <-.
    split; [apply O1|]. split; [discriminate|exact Un1].
  Qed.
  Lemma keep_in_place {A} m (x : res (heap * ptr * out A)) (h : heap) :
    lslot (spread h (hm_root m)) (clones h) (get h) x ->
    in_place h ('(h1, p, o) <- x;; Ok (h1, HMap (hm_len m) p, o)).
  Proof.
    intros H h' m' o E. destruct x as [[[h1 p1] o1]|]; [|discriminate]. cbn [bind] in E.
    destruct (lslot_done _ _ _ _ _ _ _ H eq_refl) as (old & -> & O1 & P1).
    destruct (pin_reach _ _ _ _ _ O1 P1) as [Un1 _]. injection E as <- <- <-.
    split; [apply O1|]. split; [discriminate|exact Un1].
  Qed.
  Lemma in_place_h (h : heap) m k v q w : unshared h (hm_root m) ->
    in_place h (hm_insert bor cmp bomb h m k v)
    /\ in_place h (hm_get_mut bor cmp bomb h m q w)
    /\ in_place h (hm_remove_entry bor cmp bomb h m q)
    /\ in_place h (hm_pop_first bomb h m)
    /\ in_place h (hm_pop_last bomb h m).
  Proof.
    intros Un. destruct (unshared_alone _ _ Un) as [O P].
    unfold hm_insert, hm_get_mut, hm_remove_entry, hm_pop_first, hm_pop_last. generalize depth. intros fuel.
    split; [|split; [|split; [|split]]].
    - apply insert_in_place. now apply ins_lone.
    - apply keep_in_place. now apply get_mut_lone.
    - apply shrink_in_place. now apply rm_lone.
    - apply shrink_in_place. now apply rm_leftmost_lone.
    - apply shrink_in_place. now apply rm_rightmost_lone.
  Qed.
  Lemma for_each_mut_in_place {S} (g : S -> K -> V -> S * V) (h : heap) m s : unshared h (hm_root m) ->
    in_place h (hm_for_each_mut bomb g h m s).
  Proof.
    intros Un. destruct (unshared_alone _ _ Un) as [O P]. unfold hm_for_each_mut. generalize depth. intros fuel.
    apply keep_in_place. now apply for_each_mut_lone.
  Qed.
  Definition in_place2 (h : heap) (x : res (heap * hmap * out hmap)) : Prop :=
    forall h' m' o, x = Ok (h', m', o) ->
    clones h' = clones h /\ exists m2, o = Done m2 /\ unshared h' (hm_root m') /\ unshared h' (hm_root m2).
  Lemma split_off_in_place (h : heap) m q : unshared h (hm_root m) -> in_place2 h (hm_split_off bor cmp bomb h m q).
  Proof.
    intros Un. destruct (unshared_alone _ _ Un) as [O P]. unfold hm_split_off, h_len.
    generalize depth. intros fuel h' m' o E.
    pose proof (split_lone bomb _ _ _ bor cmp fuel h _ q O P) as L.
    destruct (h_split bor cmp bomb fuel h (hm_root m) q) as [[h1 [[[l kv] r]|]]|]; try discriminate; cbn in L;
      [|destruct L; contradiction].
    destruct L as (O1 & Pl & Pr). cbn [fst snd bind] in *.
    destruct (h_tree fuel h1 l) as [n1|]; [|discriminate]. cbn [bind] in E.
    destruct (usize_sub (hm_len m) (t_len n1)) as [n2|]; [|discriminate]. cbn [bind] in E.
    destruct kv as [[k v]|].
    - pose proof (ins_lone bomb _ _ _ bor cmp fuel h1 r k v O1 Pr) as L.
      destruct (h_ins bor cmp bomb fuel h1 r k v) as [[[h2 p2] o2]|]; [|discriminate]. cbn [bind] in E.
      destruct (lslot_done _ _ _ _ _ _ _ L eq_refl) as (x & -> & O2 & P2). injection E as <- <- <-.
      split; [apply O2|]. eexists. split; [reflexivity|]. split; [exact (proj1 (pin_reach _ _ _ _ _ O2 Pl))|exact (proj1 (pin_reach _ _ _ _ _ O2 P2))].
    - injection E as <- <- <-. split; [apply O1|]. eexists. split; [reflexivity|]. split; [exact (proj1 (pin_reach _ _ _ _ _ O1 Pl))|exact (proj1 (pin_reach _ _ _ _ _ O1 Pr))].
  Qed.
  Lemma alone_two (h : heap) p1 p2 : unshared h p1 -> unshared h p2 ->
    let U a := spread h p1 a \/ spread h p2 a in ok U (clones h) (get h) h /\ pin U p1 /\ pin U p2.
  Proof.
    intros U1 U2 U. destruct (unshared_alone _ _ U1) as [[[A1 A2] C1] P1]. destruct (unshared_alone _ _ U2) as [[[B1 B2] C2] P2].
    split; [split; [split|split; auto]|].
    - intros a L. left. auto.
    - intros a c n [R|R] G.
      + destruct (A2 a c n R G) as [-> Hk]. split; auto. intros b Hb. left. auto.
      + destruct (B2 a c n R G) as [-> Hk]. split; auto. intros b Hb. right. auto.
    - split; intros b Hb; [left|right]; auto.
  Qed.
  Definition in_place3 (h : heap) (x : res (heap * hmap * hmap * out unit)) : Prop :=
    forall h' m1' m2' o, x = Ok (h', m1', m2', o) ->
    clones h' = clones h /\ o <> Unwound /\ unshared h' (hm_root m1') /\ unshared h' (hm_root m2').
  Lemma append_in_place (h : heap) m1 m2 : unshared h (hm_root m1) -> unshared h (hm_root m2) ->
    in_place3 h (hm_append bor cmp bomb h m1 m2).
  Proof.
    intros U1 U2. destruct (alone_two _ _ _ U1 U2) as (O & P1 & P2). unfold hm_append, h_union, h_len.
    generalize depth. intros fuel h' m1' m2' o E.
    match type of E with context [h_merge bor cmp bomb ?kl ?kr ?dec _ _ _ _] =>
      pose proof (merge_lone bomb _ _ _ bor cmp kl kr dec fuel h _ _ O P1 P2) as L end.
    destruct (h_merge _ _ _ _ _ _ _ _ _ _) as [[h1 [p|]]|]; try discriminate; cbn in L; [|destruct L; contradiction].
    destruct L as (O1 & Pp). cbn [bind] in E. destruct (h_tree fuel h1 p) as [n|]; [|discriminate]. injection E as <- <- <- <-.
    split; [apply O1|]. split; [discriminate|]. split; [exact (proj1 (pin_reach _ _ _ _ _ O1 Pp))|].
    intros a c n' R. exfalso. clear - R. cbn in R. induction R; auto.
  Qed.

  (** What the map is after a call that took the root out has unwound. *)
  Lemma retain_c {S} (f : S -> K -> V -> S * V * bool) fbomb (h : heap) m l s O :
    sound h (olist (hm_root m) ++ O) -> hshows h m l -> small l ->
    exists h' m' o, hm_retain bomb f fbomb h m s = Ok (h', m', o)
      /\ sound h' (olist (hm_root m') ++ O) /\ frame O h h'
      /\ match o with
         | Done s' => exists l' order outs, hshows h' m' l' /\ Permutation order l /\ run_calls f s order = (outs, s')
             /\ forall k v', In (k, v') l' <-> exists v, In ((k, v), v', true) outs
         | Unwound => m' = HMap (length l) None /\ (bombs \/ exists s k v, fbomb s k v = true)
         end.
  Proof.
    intros So H Sm. apply hshows_read in H as (a & E0 & M & Va & Ec). subst l.
    assert (Sh : shows bor cmp a (contents a)) by (apply valid_shows; auto; now apply small_fits).
    destruct (retain_l bor cmp laws f a _ s Sh Sm) as (a' & l' & s' & order & outs & E & S' & Po & Ro & Io).
    destruct (retain_h bor cmp laws bomb f fbomb h m a s a' s' O So M Va (small_fits _ Sm) E)
      as (h' & m' & r & cs & E' & So' & F' & _ & _ & R).
    exists h', m', r. do 3 (split; auto). destruct r as [x|].
    - destruct R as [-> M']. exists l', order, outs. split; [|auto]. exists a'. split; auto. apply shows_valid in S' as [V2 C2]; auto.
      eapply read_ok; eauto. destruct (retain_spec bor cmp laws f a s Va (small_fits _ Sm)) as (a2 & s2 & or2 & ou2 & E2 & _).
      rewrite E in E2. injection E2 as <- <-.
      destruct (AvlProofs2.retain_ok bor cmp laws f (am_root a) s) as (t1 & n1 & s1 & E1 & _ & _ & _ & _ & _ & Ln).
      { apply Va. } { apply Va. } { apply (small_fits _ Sm). }
      unfold avl_retain in E. rewrite E1 in E. cbn [bind] in E. injection E as <- _.
      pose proof (small_fits _ Sm) as Ft. eapply AvlProofs2.fits_le; [exact Ln|exact Ft].
    - destruct R as [-> B]. split; auto. f_equal. apply (valid_len bor cmp a Va).
  Qed.
  Lemma append_c (h : heap) m1 m2 l1 l2 O : sound h (olist (hm_root m1) ++ olist (hm_root m2) ++ O) ->
    hshows h m1 l1 -> hshows h m2 l2 -> small l1 -> small l2 ->
    exists h' m1' m2' o, hm_append bor cmp bomb h m1 m2 = Ok (h', m1', m2', o)
      /\ sound h' (olist (hm_root m1') ++ olist (hm_root m2') ++ O) /\ frame O h h'
      /\ match o with
         | Done _ => hshows h' m2' [] /\ exists l, hshows h' m1' l
            /\ forall q, s_find bor cmp q l = match s_find bor cmp q l2 with Some e => Some e | None => s_find bor cmp q l1 end
         | Unwound => m1' = HMap (length l1) None /\ m2' = HMap (length l2) None /\ bombs
         end.
  Proof.
    intros So H1 H2 Sm1 Sm2. apply hshows_read in H1 as (a & _ & M1 & Va & Ea). subst l1.
    apply hshows_read in H2 as (b & _ & M2 & Vb & Eb). subst l2.
    assert (Sha : shows bor cmp a (contents a)) by (apply valid_shows; auto; now apply small_fits).
    assert (Shb : shows bor cmp b (contents b)) by (apply valid_shows; auto; now apply small_fits).
    destruct (append_l bor cmp laws a b _ _ Sha Shb Sm1 Sm2) as (a' & b' & l & E & S1 & S2 & Q1).
    destruct (append_h bor cmp laws bomb h m1 m2 a b a' b' O So M1 M2 Va Vb (small_fits2 _ _ Sm1 Sm2) E)
      as (h' & m1' & m2' & r & cs & E' & F' & _ & So' & R).
    exists h', m1', m2', r. do 3 (split; auto). destruct r as [x|].
    - destruct R as [R1 R2]. split.
      + apply shows_valid in S2 as [V2 C2]; auto. eapply mapped_hshows; eauto. unfold AvlProofs2.fits. cbn. lia.
      + exists l. split; auto. apply shows_valid in S1 as [V1 C1]; auto. eapply mapped_hshows; eauto.
        eapply (fits_union bor cmp laws (contents a) (contents b)); eauto using valid_asc. rewrite <- C1. now apply valid_asc.
    - destruct R as (-> & -> & B). split; [|split]; auto; f_equal; apply (valid_len bor cmp); auto.
  Qed.
  Lemma split_off_c (h : heap) m l q O : sound h (olist (hm_root m) ++ O) -> hshows h m l -> small l ->
    exists h' m' o, hm_split_off bor cmp bomb h m q = Ok (h', m', o) /\ frame O h h'
      /\ match o with
         | Done m2 => sound h' (olist (hm_root m') ++ olist (hm_root m2) ++ O)
            /\ hshows h' m' (filter (lt_q bor cmp q) l)
            /\ hshows h' m2 (filter (fun e => negb (lt_q bor cmp q e)) l)
         | Unwound => sound h' (olist (hm_root m') ++ O) /\ bombs
            /\ (m' = HMap (length l) None \/ hshows h' m' (filter (lt_q bor cmp q) l))
         end.
  Proof.
    intros So H Sm. apply hshows_read in H as (a & _ & M & Va & Ea). subst l.
    assert (Sh : shows bor cmp a (contents a)) by (apply valid_shows; auto; now apply small_fits).
    destruct (split_off_l bor cmp laws a _ q Sh Sm) as (a1 & a2 & E & S1 & S2).
    assert (Fl : forall f, AvlProofs2.fits (filter f (contents a))).
    { intros f. eapply AvlProofs2.fits_le; [|exact (small_fits _ Sm)]. apply AvlIterProofs.filter_length_le. }
    destruct (split_off_h bor cmp laws bomb h m a q a1 a2 O So M Va (small_fits _ Sm) E)
      as (h' & m' & r & cs & E' & F' & _ & R).
    exists h', m', r. do 2 (split; auto). apply shows_valid in S1 as [V1 C1]; auto. apply shows_valid in S2 as [V2 C2]; auto.
    destruct r as [x|].
    - destruct R as (So' & R1 & R2). split; auto. split; eapply mapped_hshows; eauto.
    - destruct R as (So' & B & [->|R1]); split; auto; split; auto.
      + left. f_equal. apply (valid_len bor cmp a Va).
      + right. eapply mapped_hshows; eauto.
  Qed.
End Calls.
