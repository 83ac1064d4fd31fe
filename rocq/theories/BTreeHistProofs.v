(** Every history of calls on B-tree maps agrees with the specification. *)
From Coq Require Import List PeanoNat Bool Lia.
From Verif Require Import Base Spec MapSpec BTreeSpec SpecFacts Vec BTreeModel BTreeProofs BTreeProofs2
  BTreeIterModel BTreeIterProofs BTreeIterProofs2 BTreeRangeProofs BTreeChkProofs BTreeHistModel.
From Verif Require AvlMapProofs AvlHistModel AvlHistProofs.
Import ListNotations.

Section HistProofs.
  Context {K V Q : Type} (bor : K -> Q) (cmp : Q -> Q -> comparison) (laws : order_laws cmp).
  Context (N : nat) (HN : 1 <= N).
  Context (keq : K -> K -> bool) (veq : V -> V -> bool).
  Context (kcmp : K -> K -> comparison) (vcmp : V -> V -> comparison).
  Notation bmap := (bt_map K V).
  Notation valid := (@valid K V Q bor cmp N).
  Notation fnd := (@s_find K V Q bor cmp).
  Notation update_insert := (AvlHistProofs.update_insert bor cmp laws).

  Lemma fine_good lo hi (l : list (K * V)) : bounds_fine bor cmp lo hi l -> good bor cmp lo hi l.
  Proof.
    intros [H1 H2]. split.
    - destruct (bad_range cmp lo hi) eqn:E; auto. exfalso. apply H1.
      destruct lo as [|a|a], hi as [|b|b]; try discriminate; cbn in E; exists a, b;
        cbn; repeat split; destruct (cmp b a); congruence.
    - intros q1 q2 -> -> E. assert (M : s_mem bor cmp q1 l = false) by (apply H2; exists q2; auto).
      rewrite (mem_find bor cmp) in M. now destruct (fnd q1 l).
  Qed.

  Lemma and_modify_ok m k f : valid m ->
    valid (b_and_modify bor cmp m k f)
    /\ contents (b_and_modify bor cmp m k f) = s_update bor cmp (bor k) f (contents m).
  Proof.
    intros Hv. unfold b_and_modify. destruct (b_get_mut_ok bor cmp laws N HN m (bor k) f Hv) as (m' & E & H).
    now rewrite E.
  Qed.

  Lemma or_insert_with_ok {S} m k (f : S -> S * V) s w : valid m ->
    exists m',
      b_or_insert_with bor cmp N m k f s w =
        Ok (match s_get bor cmp (bor k) (contents m) with
            | Some v => (m', s, v)
            | None => (m', fst (f s), snd (f s))
            end)
      /\ valid m'
      /\ contents m' = match s_get bor cmp (bor k) (contents m) with
                       | Some _ => s_update bor cmp (bor k) w (contents m)
                       | None => s_insert bor cmp k (w (snd (f s))) (contents m)
                       end.
  Proof.
    intros Hv. unfold b_or_insert_with.
    rewrite (proj2 (b_get_ok bor cmp laws N HN m (bor k) Hv)), (mem_find bor cmp). unfold s_get.
    destruct (fnd (bor k) (contents m)) as [[k0 v0]|] eqn:E; cbn [negb bind option_map snd].
    - destruct (b_get_mut_ok bor cmp laws N HN m (bor k) w Hv) as (m2 & E2 & H1 & H2). rewrite E2.
      unfold s_get. rewrite E. cbn [option_map snd unwrap bind]. exists m2. auto.
    - destruct (f s) as [s1 v]. cbn [fst snd].
      destruct (b_insert_ok bor cmp laws N HN m k v Hv) as (m1 & E1 & Hv1 & Hc1). rewrite E1. cbn [bind].
      destruct (b_get_mut_ok bor cmp laws N HN m1 (bor k) w Hv1) as (m2 & E2 & H1 & H2). rewrite E2.
      unfold s_get. rewrite Hc1, (AvlMapProofs.find_insert bor cmp laws) by (apply Hv).
      rewrite (cmp_refl laws). cbn [option_map snd unwrap bind].
      exists m2. split; auto. split; auto. rewrite H2, Hc1. apply update_insert.
  Qed.

  Lemma or_insert_ok m k v w : valid m ->
    exists m',
      b_or_insert bor cmp N m k v w =
        Ok (m', match s_get bor cmp (bor k) (contents m) with Some x => x | None => v end)
      /\ valid m'
      /\ contents m' = match s_get bor cmp (bor k) (contents m) with
                       | Some _ => s_update bor cmp (bor k) w (contents m)
                       | None => s_insert bor cmp k (w v) (contents m)
                       end.
  Proof.
    intros Hv.
    destruct (or_insert_with_ok m k (fun s : unit => (s, v)) tt w Hv) as (m' & E & Hv' & Hc).
    exists m'. unfold b_or_insert. rewrite E.
    destruct (s_get bor cmp (bor k) (contents m)); cbn [bind fst snd] in *; auto.
  Qed.

  Lemma retain_pure_ok un (g : K -> V -> V * bool) m : valid m ->
    exists m', b_retain bor cmp N un (fun (s : unit) k v => (s, fst (g k v), snd (g k v))) m tt = Ok (m', tt)
      /\ valid m' /\ contents m' = s_retain g (contents m).
  Proof.
    intros Hv. destruct (retain_ok bor cmp laws N HN un (fun (s : unit) k v => (s, fst (g k v), snd (g k v))) m tt Hv)
      as (m' & E & Hv' & Hc).
    exists m'. rewrite E. split; [now destruct (snd _)|]. split; auto. rewrite Hc. unfold s_retain.
    generalize (contents m) as l. clear. induction l as [|[k v] l IH]; [reflexivity|].
    cbn [run_calls]. destruct (run_calls _ tt l) as [o []]. cbn [fst snd filter] in *.
    destruct (snd (g k v)); cbn [map fst snd]; [f_equal|]; exact IH.
  Qed.

  Lemma is_empty_ok m : valid m -> b_is_empty m = match contents m with [] => true | _ => false end.
  Proof. intros (_ & L & _). unfold b_is_empty, b_len. rewrite L. now destruct (contents m). Qed.

  (** *** Histories *)
  Definition rel (m : bmap) (l : list (K * V)) : Prop := valid m /\ contents m = l.
  Definition rels (st : list bmap) (sst : list (list (K * V))) : Prop := Forall2 rel st sst.

  Lemma rels_nth st sst h : rels st sst ->
    match nth_error st h, nth_error sst h with
    | Some m, Some l => rel m l
    | None, None => True
    | _, _ => False
    end.
  Proof.
    intros H. revert h. induction H as [|m l st sst Hm H IH]; intros [|h]; cbn; auto. apply IH.
  Qed.
  Lemma rels_set st sst h m l : rels st sst -> rel m l -> rels (set_nth h m st) (set_nth h l sst).
  Proof.
    intros H Hm. revert h. induction H as [|m0 l0 st sst H0 H IH]; intros [|h]; cbn; try constructor; auto.
    apply IH.
  Qed.
  Lemma rels_snoc st sst m l : rels st sst -> rel m l -> rels (st ++ [m]) (sst ++ [l]).
  Proof. intros H Hm. apply Forall2_app; auto. Qed.

  Notation b_step := (@b_step K V Q bor cmp N keq veq kcmp vcmp).
  Notation s_step := (@s_step K V Q bor cmp keq veq kcmp vcmp).
  Notation on := AvlHistModel.on.
  Notation on2 := AvlHistModel.on2.

  Lemma b_step_ok un st sst o : rels st sst -> supported bor cmp sst o ->
    exists st', b_step un st o = Ok (st', snd (s_step sst o)) /\ rels st' (fst (s_step sst o)).
  Proof.
    intros R So.
    assert (on1_ok : forall h (f : bmap -> res (list bmap * obs K V)) (g : list (K * V) -> list (list (K * V)) * obs K V),
      (forall m, nth_error sst h = Some (contents m) -> valid m ->
         exists st', f m = Ok (st', snd (g (contents m))) /\ rels st' (fst (g (contents m)))) ->
      exists st', on st h f = Ok (st', snd (match nth_error sst h with Some m => g m | None => (sst, RUnit) end))
        /\ rels st' (fst (match nth_error sst h with Some m => g m | None => (sst, RUnit) end))).
    { intros h f g Hf. unfold on. pose proof (rels_nth st sst h R) as Hn.
      destruct (nth_error st h) as [m|] eqn:E1, (nth_error sst h) as [l|] eqn:E2; try contradiction.
      - destruct Hn as [Hv <-]. apply Hf; auto.
      - exists st. auto. }
    assert (on2_ok : forall h1 h2 (f : bmap -> bmap -> res (list bmap * obs K V)) (g : list (K * V) -> list (K * V) -> list (list (K * V)) * obs K V),
      (forall a b, valid a -> valid b ->
         exists st', f a b = Ok (st', snd (g (contents a) (contents b))) /\ rels st' (fst (g (contents a) (contents b)))) ->
      exists st', on2 st h1 h2 f = Ok (st', snd (match nth_error sst h1 with Some a => match nth_error sst h2 with Some b => g a b | None => (sst, RUnit) end | None => (sst, RUnit) end))
        /\ rels st' (fst (match nth_error sst h1 with Some a => match nth_error sst h2 with Some b => g a b | None => (sst, RUnit) end | None => (sst, RUnit) end))).
    { intros h1 h2 f g Hf. unfold on2.
      apply (on1_ok h1 (fun a => on st h2 (fun b => f a b))
               (fun a => match nth_error sst h2 with Some b => g a b | None => (sst, RUnit) end)).
      intros a _ Hv. apply (on1_ok h2 (fun b => f a b) (fun b => g (contents a) b)).
      intros b _ Hv'. apply Hf; auto. }
    destruct o; cbn [b_step BTreeHistModel.b_step s_step MapSpec.s_step];
      try (destruct So; fail);
      first [apply on2_ok; intros a b Hva Hvb
            |apply on1_ok; intros m Em Hv
            |idtac].
    - eexists. split; [reflexivity|]. apply rels_snoc; auto. split; [apply valid_new|reflexivity].
    - eexists. split; [reflexivity|]. apply rels_snoc; auto. now split.
    - destruct (from_iter_ok bor cmp laws N HN ps) as (m & E & Hv & Hc).
      rewrite E. cbn [bind]. eexists. split; [reflexivity|]. apply rels_snoc; auto. now split.
    - destruct (b_insert_ok bor cmp laws N HN m k v Hv) as (m' & E & Hv' & Hc).
      rewrite E. cbn [bind]. eexists. split; [reflexivity|]. apply rels_set; auto. now split.
    - destruct (b_remove_ok bor cmp laws N HN m q Hv) as (m' & E & Hv' & Hc).
      rewrite E. cbn [bind]. eexists. split; [reflexivity|]. apply rels_set; auto. now split.
    - unfold b_get. rewrite (proj1 (b_get_ok bor cmp laws N HN m q Hv)). eauto.
    - rewrite (proj1 (b_get_ok bor cmp laws N HN m q Hv)). eauto.
    - rewrite (proj2 (b_get_ok bor cmp laws N HN m q Hv)). eauto.
    - destruct (b_get_mut_ok bor cmp laws N HN m q w Hv) as (m' & E & Hv' & Hc). rewrite E.
      eexists. split; [reflexivity|]. apply rels_set; auto. now split.
    - eexists. split; [reflexivity|]. apply rels_set; auto. now apply and_modify_ok.
    - destruct (or_insert_ok m k v w Hv) as (m' & E & Hv' & Hc). rewrite E. cbn [bind].
      eexists. destruct (s_get bor cmp (bor k) (contents m)); (split; [reflexivity|]); apply rels_set; auto; now split.
    - rewrite (proj1 (b_first_last_ok bor cmp N HN m Hv)). cbn [bind]. eauto.
    - rewrite (proj2 (b_first_last_ok bor cmp N HN m Hv)). eauto.
    - destruct (b_pop_first_ok bor cmp N HN m Hv) as (m' & E & Hv' & Hc).
      rewrite E. cbn [bind]. eexists. split; [reflexivity|]. apply rels_set; auto. now split.
    - destruct (b_pop_last_ok bor cmp N HN m Hv) as (m' & E & Hv' & Hc).
      rewrite E. cbn [bind]. eexists. split; [reflexivity|]. apply rels_set; auto. now split.
    - unfold b_len. rewrite (proj1 (proj2 Hv)). eauto.
    - rewrite is_empty_ok by auto. eauto.
    - eexists. split; [reflexivity|]. apply rels_set; auto. split; [apply valid_new|reflexivity].
    - destruct (b_extend_ok bor cmp laws N HN m ps Hv) as (m' & E & Hv' & Hc).
      rewrite E. cbn [bind]. eexists. split; [reflexivity|]. apply rels_set; auto. now split.
    - destruct (retain_pure_ok un g m Hv) as (m' & E & Hv' & Hc).
      rewrite E. cbn [bind]. eexists. split; [reflexivity|]. apply rels_set; auto. now split.
    - destruct (split_off_ok bor cmp laws N HN un m q Hv) as (m1 & m2 & E & Hv1 & Hv2 & Hc1 & Hc2).
      rewrite E. cbn [bind]. eexists. split; [reflexivity|].
      apply rels_snoc; [apply rels_set|]; auto; now split.
    - destruct (Nat.eqb h1 h2); [eauto|].
      destruct (append_ok bor cmp laws N HN un a b Hva Hvb) as (a' & E & Hv1 & Hc1).
      rewrite E. cbn [bind]. eexists. split; [reflexivity|].
      apply rels_set; [apply rels_set|]; auto; split; auto. apply valid_new.
    - rewrite (iter_run bor cmp N HN) by auto. cbn [bind]. eauto.
    - cbn [supported] in So. specialize (So _ Em). apply fine_good in So.
      destruct (range_ok bor cmp laws N HN m lo hi Hv So) as (w & E & W & _ & D). rewrite E. cbn [bind].
      destruct (run_ends_ok cs w (length (contents m)) W) as (l & El & Hm & _).
      { rewrite D. unfold s_range. clear. generalize (contents m) as l. induction l as [|x l IH]; cbn [filter length]; [lia|].
        destruct (_ && _); cbn [length]; lia. }
      rewrite El. cbn [bind]. rewrite Hm, D. eauto.
    - rewrite (eq_ok bor cmp N HN) by auto. cbn [bind]. eauto.
    - rewrite (cmp_ok bor cmp N HN) by auto. cbn [bind]. eauto.
    - rewrite (proj2 (proj2 (check_iff bor cmp laws N HN m) Hv)). cbn [bind]. eauto.
  Qed.

  Lemma b_run_ok os : forall un st sst, rels st sst ->
    all_supported bor cmp keq veq kcmp vcmp sst os ->
    exists st', b_run bor cmp N keq veq kcmp vcmp un st os
                = Ok (st', snd (s_run bor cmp keq veq kcmp vcmp sst os))
      /\ rels st' (fst (s_run bor cmp keq veq kcmp vcmp sst os)).
  Proof.
    induction os as [|o os IH]; intros un st sst R Sm; cbn [b_run s_run].
    - exists st. auto.
    - cbn [all_supported] in Sm. destruct Sm as (So & Sm').
      destruct (b_step_ok (un 0) st sst o R So) as (st1 & E & R1). rewrite E. cbn [bind].
      destruct (MapSpec.s_step bor cmp keq veq kcmp vcmp sst o) as [sst1 r]. cbn [fst snd] in *.
      destruct (IH (fun n => un (S n)) st1 sst1 R1 Sm') as (st2 & E2 & R2). rewrite E2. cbn [bind].
      destruct (s_run bor cmp keq veq kcmp vcmp sst1 os) as [sst2 rs]. cbn [fst snd] in *.
      exists st2. auto.
  Qed.
End HistProofs.
