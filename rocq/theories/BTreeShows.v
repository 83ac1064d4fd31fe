(** What a client sees of a B-tree map: it passes its own check, no node has a
    surplus child, and iterating it yields a list. The properties are stated in
    these terms. *)
From Coq Require Import List PeanoNat Bool Lia.
From Verif Require Import Base Spec MapSpec BTreeSpec SpecFacts Vec BTreeModel BTreeProofs BTreeProofs2
  BTreeIterModel BTreeIterProofs BTreeIterProofs2 BTreeRangeProofs BTreeChkProofs BTreeMutProofs
  BTreeHistModel BTreeHistProofs.
From Verif Require AvlModel AvlHistModel AvlMapProofs AvlHistProofs.
Import ListNotations.

Section Shows.
  Context {K V Q : Type} (bor : K -> Q) (cmp : Q -> Q -> comparison) (N : nat).
  Notation bmap := (bt_map K V).
  Notation bref := (@bref K).

  (** [check()] succeeds, [iter()] yields [l], and every node has either no child or one
      child more than entries (which [check()] does not fully verify: see C59). *)
  Definition b_shows (m : bmap) (l : list (K * V)) : Prop :=
    map_kids_match m = true /\ b_chk bor cmp N m = Ok (inl tt) /\ b_collect m = Ok l.

  (** All nodes below a node, and the distances of the leaves from it. *)
  Fixpoint nodes_below (t : bt K V) : list (bt K V) :=
    match t with BN _ ks => flat_map (fun c => c :: nodes_below c) ks end.
  Fixpoint leaf_depths (t : bt K V) : list nat :=
    match t with
    | BN _ [] => [0]
    | BN _ ks => map S (flat_map leaf_depths ks)
    end.

  (** What [check()] is meant to establish, said outright: [l] are the entries below a
      node, in order, in a node that holds from [lo] to [2N+1] entries and has [d] levels
      below it, where the nodes hold from [N] to [2N+1]. *)
  Inductive entries_of : nat -> nat -> bt K V -> list (K * V) -> Prop :=
  | eo_leaf lo es : lo <= length es <= 2 * N + 1 -> entries_of lo 0 (BN es []) es
  | eo_branch lo d es ks l : lo <= length es <= 2 * N + 1 -> interleaved d ks es l ->
      entries_of lo (S d) (BN es ks) l
  with interleaved : nat -> list (bt K V) -> list (K * V) -> list (K * V) -> Prop :=
  | il_last d c l : entries_of N d c l -> interleaved d [c] [] l
  | il_cons d c e ks es l r : entries_of N d c l -> interleaved d ks es r ->
      interleaved d (c :: ks) (e :: es) (l ++ e :: r).
  Definition well_formed (m : bmap) (l : list (K * V)) : Prop :=
    ascending bor cmp l /\ bm_len m = length l
    /\ match bm_root m with
       | None => l = []
       | Some t => exists d, entries_of 1 d t l
       end.

  Context (laws : order_laws cmp) (HN : 1 <= N).
  Notation valid := (@valid K V Q bor cmp N).
  Notation asc := (@ascending K V Q bor cmp).
  Notation fnd := (@s_find K V Q bor cmp).

  Lemma b_shows_valid m l : b_shows m l -> valid m /\ contents m = l.
  Proof.
    intros (H0 & H1 & H2). assert (Hv : valid m) by (apply (check_iff bor cmp laws N HN); auto). split; auto.
    rewrite (collect_ok bor cmp N HN m Hv) in H2. congruence.
  Qed.
  Lemma b_valid_shows m l : valid m -> contents m = l -> b_shows m l.
  Proof.
    intros H <-. destruct (proj2 (check_iff bor cmp laws N HN m) H). split; auto. split; auto.
    now apply (collect_ok bor cmp N HN).
  Qed.
  Lemma b_shows_iff m l : b_shows m l <-> valid m /\ contents m = l.
  Proof. split; [apply b_shows_valid|intros []; now apply b_valid_shows]. Qed.
  Lemma b_shows_asc m l : b_shows m l -> asc l /\ b_len m = length l.
  Proof. intros H. apply b_shows_valid in H as [(A & L & _) <-]. auto. Qed.
  Lemma b_shows_new : b_shows b_new [].
  Proof. repeat split. Qed.
  Lemma b_new_l : b_shows b_new [] /\ forall m : bmap, b_shows (b_clear m) [].
  Proof. split; [|intros m]; apply b_shows_new. Qed.

  Ltac start := match goal with
    | H : b_shows ?m ?l |- _ => let Hv := fresh "Hv" in apply b_shows_valid in H as [Hv <-]
    end.

  Lemma b_insert_l m l k v : b_shows m l ->
    exists m', b_insert bor cmp N m k v = Ok (m', s_get bor cmp (bor k) l)
      /\ b_shows m' (s_insert bor cmp k v l).
  Proof.
    intros H. start. destruct (b_insert_ok bor cmp laws N HN m k v Hv) as (m' & E & H').
    exists m'. rewrite b_shows_iff. auto.
  Qed.
  Lemma b_remove_l m l q : b_shows m l ->
    exists m', b_remove bor cmp N m q = Ok (m', s_get bor cmp q l) /\ b_shows m' (s_remove bor cmp q l).
  Proof.
    intros H. start. destruct (b_remove_ok bor cmp laws N HN m q Hv) as (m' & E & H').
    exists m'. rewrite b_shows_iff. auto.
  Qed.
  Lemma b_lookup_l m l q : b_shows m l ->
    b_get_key_value bor cmp m q = fnd q l /\ b_get bor cmp m q = s_get bor cmp q l
    /\ b_contains_key bor cmp m q = s_mem bor cmp q l.
  Proof.
    intros H. start. destruct (b_get_ok bor cmp laws N HN m q Hv) as [H1 H2].
    unfold b_get. rewrite H1. auto.
  Qed.
  Lemma b_get_mut_l m l q w : b_shows m l ->
    exists m', b_get_mut bor cmp m q w = (m', s_get bor cmp q l) /\ b_shows m' (s_update bor cmp q w l).
  Proof.
    intros H. start. destruct (b_get_mut_ok bor cmp laws N HN m q w Hv) as (m' & E & H').
    exists m'. rewrite b_shows_iff. auto.
  Qed.
  Lemma b_ends_l m l : b_shows m l ->
    b_first_key_value m = Ok (s_first l) /\ b_last_key_value m = s_last l
    /\ b_first_entry m = Ok (option_map fst (s_first l)) /\ b_last_entry m = option_map fst (s_last l)
    /\ b_len m = length l /\ b_is_empty m = match l with [] => true | _ => false end.
  Proof.
    intros H. start. destruct (b_first_last_ok bor cmp N HN m Hv) as [H1 H2].
    unfold b_first_entry, b_last_entry. rewrite H1, H2. repeat split; auto.
    - apply Hv.
    - now apply (is_empty_ok bor cmp N).
  Qed.

  Lemma shape_facts h : forall mn t, BTreeProofs.shape N mn h t ->
    (forall c, In c (nodes_below t) -> N <= n_len c <= 2 * N + 1)
    /\ (forall c, In c (t :: nodes_below t) -> kids_of c = [] \/ length (kids_of c) = S (n_len c))
    /\ (forall d, In d (leaf_depths t) -> d = h).
  Proof.
    induction h as [|h IH]; intros mn t S.
    - apply shape_0 in S as (es & -> & Hl). cbn. repeat split; try contradiction.
      + intros c [<-|[]]. auto.
      + intros d [<-|[]]. auto.
    - apply shape_S in S as (es & ks & -> & Hl & Hk & F). rewrite Forall_forall in F.
      cbn [nodes_below]. split; [|split].
      + intros c Hc. apply in_flat_map in Hc as (c0 & Hc0 & [<-|Hc]).
        * apply F in Hc0. apply shape_len in Hc0. exact Hc0.
        * apply (IH N c0); auto.
      + intros c [<-|Hc]; [right; exact Hk|]. apply in_flat_map in Hc as (c0 & Hc0 & Hc). apply (IH N c0); auto.
      + destruct ks as [|k0 ks]; [discriminate|]. intros d Hd.
        change (leaf_depths (BN es (k0 :: ks))) with (map Datatypes.S (flat_map leaf_depths (k0 :: ks))) in Hd.
        apply in_map_iff in Hd as (d0 & <- & Hd). apply in_flat_map in Hd as (c0 & Hc0 & Hd).
        f_equal. apply (proj2 (proj2 (IH N c0 (F _ Hc0)))); auto.
  Qed.
  Lemma b_shape_l m l t : b_shows m l -> bm_root m = Some t ->
    1 <= n_len t <= 2 * N + 1
    /\ (forall c, In c (nodes_below t) -> N <= n_len c <= 2 * N + 1)
    /\ (forall c, In c (t :: nodes_below t) -> kids_of c = [] \/ length (kids_of c) = S (n_len c))
    /\ exists d, (forall x, In x (leaf_depths t) -> x = d)
         /\ 2 * (N + 1) ^ d <= length l + 1 <= (2 * N + 2) ^ (d + 1).
  Proof.
    intros H E. start. destruct Hv as (_ & _ & S). unfold contents. rewrite E in *. destruct S as [h S].
    destruct (shape_facts h 1 t S) as (H1 & H2 & H3).
    split; [apply (shape_len N 1 h t S)|]. split; auto. split; auto. exists h. split; auto.
    apply (count_bounds N h 1 t S).
  Qed.

  Lemma shape_entries h : forall lo t, BTreeProofs.shape N lo h t -> entries_of lo h t (flat t).
  Proof.
    induction h as [|h IH]; intros lo t S.
    - apply shape_0 in S as (es & -> & Hl). now constructor.
    - apply shape_S in S as (es & ks & -> & Hl & Hk & F). constructor; auto. cbn [flat].
      clear Hl. revert es Hk. induction F as [|c ks Hc F IHF]; intros es Hk; [discriminate|].
      destruct es as [|e es].
      + destruct ks; [|discriminate]. cbn. rewrite app_nil_r. constructor. auto.
      + cbn [map weave]. constructor; auto.
  Qed.
  Lemma entries_shape h : forall lo t l, entries_of lo h t l -> BTreeProofs.shape N lo h t /\ flat t = l.
  Proof.
    induction h as [|h IH]; intros lo t l H; inversion H; subst.
    - split; auto. now constructor.
    - match goal with H : interleaved h ks es l |- _ => rename H into Hi end.
      enough (E : length ks = S (length es) /\ Forall (BTreeProofs.shape N N h) ks /\ weave (map flat ks) es = l).
      { destruct E as (E1 & E2 & E3). split; [constructor|]; auto. }
      clear - IH Hi. revert es l Hi. induction ks as [|c ks IHk]; intros es l Hi; inversion Hi; subst;
        match goal with H : entries_of N h c _ |- _ => apply IH in H as [Hc <-] end.
      + cbn. rewrite app_nil_r. auto.
      + match goal with H : interleaved h ks _ _ |- _ => destruct (IHk _ _ H) as (E1 & E2 & E3) end.
        cbn [map weave length]. rewrite E3, E1. auto.
  Qed.
  Lemma b_check_exact_l m : map_kids_match m = true ->
    (b_chk bor cmp N m = Ok (inl tt) <-> exists l, well_formed m l).
  Proof.
    intros Hk. pose proof (check_iff bor cmp laws N HN m) as C. unfold well_formed, BTreeProofs2.valid, contents in *.
    split.
    - intros E. destruct (proj1 C (conj Hk E)) as (A & L & S). eexists. split; [exact A|]. split; [exact L|].
      destruct (bm_root m) as [t|]; auto. destruct S as [h S]. exists h. now apply shape_entries.
    - intros (l & A & L & S). apply C. destruct (bm_root m) as [t|].
      + destruct S as [d S]. apply entries_shape in S as [S <-]. eauto.
      + subst l. auto.
  Qed.

  Lemma b_iter_l m l cs : b_shows m l -> b_run_ends borrowed cs (bt_iter m) = Ok (s_ends cs l).
  Proof. intros H. start. now apply (iter_run bor cmp N HN). Qed.
  Lemma b_into_l un m l cs : b_shows m l ->
    b_run_ends (owning un) cs (bt_into_iter un m) = Ok (s_ends cs l) /\ b_into_list un m = Ok l.
  Proof. intros H. start. split; [now apply (into_run bor cmp N HN)|now apply (into_list_ok bor cmp N HN)]. Qed.

  (** The key and value that a reference shows. *)
  Definition shown (r : bref * V) : K * V := unpos r.

  Lemma refs_writes m refs ws : valid m -> refs = contents (map_pos m) ->
    b_shows (writes refs ws m) (fold_left (fun l iw => upd_nth (fst iw) (snd iw) l) ws (contents m)).
  Proof.
    intros Hv ->. rewrite b_shows_iff. destruct (writes_ok bor cmp N (contents (map_pos m)) ws m Hv eq_refl) as (H1 & H2 & _). auto.
  Qed.

  Lemma b_iter_mut_l m l cs : b_shows m l ->
    exists refs, map shown refs = l
      /\ b_run_ends borrowed cs (bt_iter_mut m) = Ok (s_ends cs refs)
      /\ forall ws, b_shows (writes refs ws m) (fold_left (fun l iw => upd_nth (fst iw) (snd iw) l) ws l).
  Proof.
    intros H. start. destruct (map_pos_ok bor cmp N m Hv) as [Hm Hc].
    exists (contents (map_pos m)). split; auto. split; [now apply (iter_run (fun r => bor (snd r)) cmp N HN)|].
    intros ws. now apply refs_writes.
  Qed.

  Lemma b_range_l m l lo hi cs : b_shows m l -> bounds_fine bor cmp lo hi l ->
    exists it outs, b_range bor cmp m lo hi = Ok it
      /\ fst (b_range_hint N it) <= length (s_range bor cmp lo hi l) <= snd (b_range_hint N it)
      /\ b_range_calls N cs it = Ok outs
      /\ Forall2 (fun o s => fst o = fst s /\ fst (snd o) <= snd s <= snd (snd o)) outs
                 (s_ends cs (s_range bor cmp lo hi l)).
  Proof. intros H G. start. apply (range_calls_ok bor cmp laws N HN); auto. now apply fine_good. Qed.

  Lemma mem_shown q (refs : list (bref * V)) :
    s_mem (fun r : bref => bor (snd r)) cmp q refs = s_mem bor cmp q (map shown refs).
  Proof. unfold s_mem. induction refs as [|r refs IH]; cbn; auto. now rewrite IH. Qed.
  Lemma fine_refs lo hi (refs : list (bref * V)) : bounds_fine bor cmp lo hi (map shown refs) ->
    bounds_fine (fun r : bref => bor (snd r)) cmp lo hi refs.
  Proof. intros [H1 H2]. split; auto. intros q Hq. rewrite mem_shown. auto. Qed.

  Lemma b_range_mut_l m l lo hi cs : b_shows m l -> bounds_fine bor cmp lo hi l ->
    exists refs it outs, map shown refs = l
      /\ b_range_mut bor cmp m lo hi = Ok it
      /\ fst (b_range_hint N it) <= length (s_range bor cmp lo hi l) <= snd (b_range_hint N it)
      /\ b_range_calls N cs it = Ok outs
      /\ Forall2 (fun o s => fst o = fst s /\ fst (snd o) <= snd s <= snd (snd o)) outs
                 (s_ends cs (filter (fun r => above bor cmp lo (shown r) && below bor cmp hi (shown r)) refs))
      /\ forall ws, b_shows (writes refs ws m) (fold_left (fun l iw => upd_nth (fst iw) (snd iw) l) ws l).
  Proof.
    intros H G. start. destruct (map_pos_ok bor cmp N m Hv) as [Hm Hc].
    change (map shown (contents (map_pos m)) = contents m) in Hc.
    destruct (range_calls_ok (fun r : bref => bor (snd r)) cmp laws N HN (map_pos m) lo hi cs Hm)
      as (it & outs & E & Hh & Eo & F).
    { apply fine_good. apply fine_refs. now rewrite Hc. }
    exists (contents (map_pos m)), it, outs. split; [exact Hc|]. split; [exact E|]. split; [|split; [exact Eo|split]].
    - assert (Hl : length (s_range bor cmp lo hi (contents m)) = length (s_range (fun r : bref => bor (snd r)) cmp lo hi (contents (map_pos m)))).
      { rewrite <- Hc. unfold s_range. generalize (contents (map_pos m)) as refs. clear. intros refs.
        induction refs as [|r refs IH]; cbn [map filter]; auto.
        change (above bor cmp lo (shown r) && below bor cmp hi (shown r)) with (above (fun r : bref => bor (snd r)) cmp lo r && below (fun r : bref => bor (snd r)) cmp hi r).
        destruct (_ && _); cbn [length]; now rewrite IH. }
      now rewrite Hl.
    - exact F.
    - intros ws. now apply refs_writes.
  Qed.

  Lemma bad_inverted lo hi : inverted cmp lo hi -> bad_range cmp lo hi = true.
  Proof.
    intros (a & b & Ha & Hb & E).
    destruct lo as [|x|x], hi as [|y|y]; try discriminate; cbn in *; injection Ha as ->; injection Hb as ->; now rewrite E.
  Qed.
  Lemma b_range_bad_l m l lo hi : b_shows m l ->
    (inverted cmp lo hi -> b_range bor cmp m lo hi = Panic /\ b_range_mut bor cmp m lo hi = Panic)
    /\ forall q, pinched cmp lo hi q ->
         (b_range bor cmp m lo hi = Panic <-> s_mem bor cmp q l = true)
         /\ (b_range_mut bor cmp m lo hi = Panic <-> s_mem bor cmp q l = true).
  Proof.
    intros H. start. split.
    - intros I. apply bad_inverted in I. unfold b_range_mut, b_range. now rewrite I.
    - intros q (q' & -> & -> & Eq). split.
      + now apply (range_panics bor cmp laws N HN).
      + destruct (map_pos_ok bor cmp N m Hv) as [Hm Hc]. change (map shown (contents (map_pos m)) = contents m) in Hc. rewrite <- Hc.
        rewrite <- (mem_shown q (contents (map_pos m))).
        now apply (range_panics (fun r : bref => bor (snd r)) cmp laws N HN).
  Qed.

  Lemma b_pops_l m l : b_shows m l ->
    (exists m', b_pop_first N m = Ok (m', s_first l) /\ b_shows m' (tl l))
    /\ (exists m', b_pop_last N m = Ok (m', s_last l) /\ b_shows m' (removelast l)).
  Proof.
    intros H. start. destruct (b_pop_first_ok bor cmp N HN m Hv) as (m1 & E1 & H1).
    destruct (b_pop_last_ok bor cmp N HN m Hv) as (m2 & E2 & H2).
    split; [exists m1|exists m2]; rewrite b_shows_iff; auto.
  Qed.
  Lemma b_append_l un a b la lb : b_shows a la -> b_shows b lb ->
    exists a' b', b_append bor cmp N un a b = Ok (a', b')
      /\ b_shows a' (s_union bor cmp la lb) /\ b_shows b' [].
  Proof.
    intros Ha Hb. apply b_shows_valid in Ha as [Ha <-]. apply b_shows_valid in Hb as [Hb <-].
    destruct (append_ok bor cmp laws N HN un a b Ha Hb) as (a' & E & H').
    exists a', b_new. split; auto. split; [now rewrite b_shows_iff|apply b_shows_new].
  Qed.
  Lemma b_split_off_l un m l q : b_shows m l ->
    exists a b, b_split_off bor cmp N un m q = Ok (a, b)
      /\ b_shows a (filter (lt_q bor cmp q) l) /\ b_shows b (filter (fun e => negb (lt_q bor cmp q e)) l).
  Proof.
    intros H. start. destruct (split_off_ok bor cmp laws N HN un m q Hv) as (a & b & E & H1 & H2 & H3 & H4).
    exists a, b. rewrite !b_shows_iff. auto.
  Qed.
  Lemma b_retain_l {S} un (f : S -> K -> V -> S * V * bool) m l s : b_shows m l ->
    exists m', b_retain bor cmp N un f m s = Ok (m', snd (run_calls f s l))
      /\ b_shows m' (map (fun o => (fst (fst (fst o)), snd (fst o)))
                         (filter (fun o => snd o) (fst (run_calls f s l)))).
  Proof.
    intros H. start. destruct (retain_ok bor cmp laws N HN un f m s Hv) as (m' & E & H').
    exists m'. rewrite b_shows_iff. auto.
  Qed.
  Lemma b_extend_l m l ps : b_shows m l ->
    exists m', b_extend bor cmp N m ps = Ok m' /\ b_shows m' (s_extend bor cmp l ps).
  Proof.
    intros H. start. destruct (b_extend_ok bor cmp laws N HN m ps Hv) as (m' & E & H').
    exists m'. rewrite b_shows_iff. auto.
  Qed.
  Lemma b_from_iter_l (ps : list (K * V)) :
    exists m', b_from_iter bor cmp N ps = Ok m' /\ b_shows m' (s_extend bor cmp [] ps).
  Proof. apply (b_extend_l b_new [] ps). apply b_shows_new. Qed.

  Lemma b_eq_cmp_l (keq : K -> K -> bool) (veq : V -> V -> bool)
      (kcmp : K -> K -> comparison) (vcmp : V -> V -> comparison) a b la lb : b_shows a la -> b_shows b lb ->
    b_eq keq veq a b = Ok (seq_eqb keq veq la lb) /\ b_cmp kcmp vcmp a b = Ok (seq_cmp kcmp vcmp la lb).
  Proof.
    intros Ha Hb. apply b_shows_valid in Ha as [Ha <-]. apply b_shows_valid in Hb as [Hb <-].
    split; [now apply (eq_ok bor cmp N HN)|now apply (cmp_ok bor cmp N HN)].
  Qed.

  Lemma b_or_insert_with_l {S} m l k (f : S -> S * V) s w : b_shows m l ->
    exists m',
      b_or_insert_with bor cmp N m k f s w =
        Ok (match s_get bor cmp (bor k) l with
            | Some v => (m', s, v)
            | None => (m', fst (f s), snd (f s))
            end)
      /\ b_shows m' (match s_get bor cmp (bor k) l with
                     | Some _ => s_update bor cmp (bor k) w l
                     | None => s_insert bor cmp k (w (snd (f s))) l
                     end).
  Proof.
    intros H. start. destruct (or_insert_with_ok bor cmp laws N HN m k f s w Hv) as (m' & E & H').
    exists m'. rewrite b_shows_iff. auto.
  Qed.
  Lemma b_and_modify_l m l k f : b_shows m l ->
    b_shows (b_and_modify bor cmp m k f) (s_update bor cmp (bor k) f l).
  Proof. intros H. start. rewrite b_shows_iff. now apply (and_modify_ok bor cmp laws N HN). Qed.

  (** *** Histories *)
  Context (keq : K -> K -> bool) (veq : V -> V -> bool).
  Context (kcmp : K -> K -> comparison) (vcmp : V -> V -> comparison).
  Lemma b_history_l un os : all_supported bor cmp keq veq kcmp vcmp [] os ->
    exists st, b_run bor cmp N keq veq kcmp vcmp un [] os
               = Ok (st, snd (s_run bor cmp keq veq kcmp vcmp [] os))
      /\ Forall2 b_shows st (fst (s_run bor cmp keq veq kcmp vcmp [] os)).
  Proof.
    intros H. destruct (b_run_ok bor cmp laws N HN keq veq kcmp vcmp os un [] [] (Forall2_nil _) H) as (st & E & R).
    exists st. split; auto. clear E. induction R as [|m l st0 sst [Hv Hc] R IH]; constructor; auto. now apply b_valid_shows.
  Qed.
  Lemma b_interchange_l un os : all_supported bor cmp keq veq kcmp vcmp [] os ->
    all_small bor cmp keq veq kcmp vcmp [] os ->
    exists st st' rs, b_run bor cmp N keq veq kcmp vcmp un [] os = Ok (st, rs)
      /\ AvlHistModel.run bor cmp keq veq kcmp vcmp [] os = Ok (st', rs).
  Proof.
    intros H1 H2. destruct (b_history_l un os H1) as (st & E & _).
    destruct (AvlHistProofs.run_ok bor cmp laws keq veq kcmp vcmp os [] [] (Forall2_nil _) H2) as (st' & E' & _).
    eauto 8.
  Qed.
End Shows.
