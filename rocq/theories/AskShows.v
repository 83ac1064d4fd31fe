(** Calls whose comparisons may panic, on maps that show a list. *)
From Coq Require Import List PeanoNat ZArith Bool Lia.
From Verif Require Import Base Spec MapSpec SpecFacts Vec AvlModel AvlProofs AvlProofs2 AvlMapProofs AvlIterModel AvlHistModel AvlHistProofs AvlShows
  BTreeModel BTreeProofs BTreeProofs2 BTreeIterModel BTreeHistModel BTreeMutProofs BTreeShows
  FixedModel FixedSpec FixedProofs FixedShows
  Ask AskSpec AskProofs AvlAskModel BTreeAskModel FixedAskModel AvlAskProofs BTreeAskProofs FixedAskProofs.
Import ListNotations.
Local Open Scope nat_scope.

Lemma max_le {A} (f : A -> nat) l n : (forall x, In x l -> f x <= n) -> list_max (map f l) <= n.
Proof. intros H. apply list_max_le. apply Forall_forall. intros y Hy. apply in_map_iff in Hy as (x & <- & Hx). auto. Qed.

Section AskShows.
  Context {K V Q : Type} (bor : K -> Q) (cmp : Q -> Q -> comparison) (ask : nat -> Q -> Q -> option comparison).
  Context (laws : order_laws cmp) (A : answers cmp ask).
  Notation amap := (avl_map K V).
  Notation bmap := (bt_map K V).
  Notation fmap := (f_map K V).
  Notation entry := (K * V)%type.

  (** ** AVL *)
  Notation shows := (shows bor cmp).
  Lemma depth_log (m : amap) l : shows m l -> log_bound l (depth (am_root m)).
  Proof. intros H. apply (depth_l bor cmp laws m l H). Qed.

  Lemma a_insert_ask (m : amap) l k v n : shows m l -> small l ->
    exists most, log_bound l most /\ fares ask n most (a_insert_t bor ask m k v n)
      (fun m' r => r = s_get bor cmp (bor k) l /\ shows m' (s_insert bor cmp k v l)) (fun m' => m' = m).
  Proof.
    intros H Hs. exists (depth (am_root m)). split; [now apply depth_log|]. eapply tries_fares; [apply (a_insert_tries bor cmp ask A)| |reflexivity].
    destruct (insert_l bor cmp laws m l k v H Hs) as (m' & E & H'). exists m', (s_get bor cmp (bor k) l). auto.
  Qed.
  Lemma a_remove_entry_ask (m : amap) l q n : shows m l -> small l ->
    exists most, log_bound l most /\ fares ask n most (a_remove_entry_t bor ask m q n)
      (fun m' r => r = s_find bor cmp q l /\ shows m' (s_remove bor cmp q l)) (fun m' => m' = m).
  Proof.
    intros H Hs. exists (depth (am_root m)). split; [now apply depth_log|]. eapply tries_fares; [apply (a_remove_entry_tries bor cmp ask A)| |reflexivity].
    destruct (remove_entry_l bor cmp laws m l q H Hs) as (m' & E & H'). exists m', (s_find bor cmp q l). auto.
  Qed.
  Lemma a_remove_ask (m : amap) l q n : shows m l -> small l ->
    exists most, log_bound l most /\ fares ask n most (a_remove_t bor ask m q n)
      (fun m' r => r = s_get bor cmp q l /\ shows m' (s_remove bor cmp q l)) (fun m' => m' = m).
  Proof.
    intros H Hs. exists (depth (am_root m)). split; [now apply depth_log|]. eapply tries_fares; [apply (a_remove_tries bor cmp ask A)| |reflexivity].
    destruct (remove_l bor cmp laws m l q H Hs) as (m' & E & H'). exists m', (s_get bor cmp q l). auto.
  Qed.
  Lemma a_lookup_ask (m : amap) l q n : shows m l ->
    exists most, log_bound l most
      /\ fares ask n most (a_get_t bor ask m q n) (fun _ r => r = s_get bor cmp q l) (fun _ => True)
      /\ fares ask n most (a_contains_t bor ask m q n) (fun _ r => r = s_mem bor cmp q l) (fun _ => True).
  Proof.
    intros H. exists (depth (am_root m)). split; [now apply depth_log|]. destruct (lookup_l bor cmp laws m l q H) as (_ & E1 & E2 & _). split.
    - eapply tries_fares; [apply (a_get_tries bor cmp ask A)| |exact Logic.I]. rewrite E1. exists tt. eauto.
    - eapply tries_fares; [apply (a_contains_tries bor cmp ask A)| |exact Logic.I]. rewrite E2. exists tt. eauto.
  Qed.
  Lemma a_get_mut_ask (m : amap) l q w n : shows m l -> small l ->
    exists most, log_bound l most /\ fares ask n most (a_get_mut_t bor ask m q w n)
      (fun m' r => r = s_get bor cmp q l /\ shows m' (s_update bor cmp q w l)) (fun m' => m' = m).
  Proof.
    intros H Hs. exists (depth (am_root m)). split; [now apply depth_log|]. eapply tries_fares; [apply (a_get_mut_tries bor cmp ask A)| |reflexivity].
    destruct (get_mut_l bor cmp laws m l q w H Hs) as (m' & E & H'). rewrite E. eauto.
  Qed.

  Lemma firsts_small (l1 l2 : list entry) : small (l1 ++ l2) -> small l1.
  Proof. unfold small. rewrite app_length. lia. Qed.
  Lemma a_extend_ask (m : amap) l ps n : shows m l -> small l -> small ps ->
    match a_extend_t bor ask m ps n with
    | Returned m' _ _ => shows m' (s_extend bor cmp l ps)
    | Unwound m' n' => panicked ask n' /\ exists ps1 p ps2, ps = ps1 ++ p :: ps2 /\ shows m' (s_extend bor cmp l ps1)
    | Fault => False
    end.
  Proof.
    intros H Hs Hp. pose proof (a_extend_tries bor cmp ask A ps m n) as T. destruct (a_extend_t bor ask m ps n) as [m' r n1|m' n1|].
    - destruct (extend_l bor cmp laws m l ps H Hs Hp) as (m2 & E & H'). congruence.
    - destruct T as (P & ps1 & p & ps2 & -> & E). split; auto. exists ps1, p, ps2. split; auto.
      destruct (extend_l bor cmp laws m l ps1 H Hs (firsts_small _ _ Hp)) as (m2 & E2 & H'). congruence.
    - destruct (extend_l bor cmp laws m l ps H Hs Hp) as (m2 & E & H'). congruence.
  Qed.
  Lemma a_append_ask (a b : amap) la lb n : shows a la -> shows b lb -> small la -> small lb ->
    match a_append_t bor ask a b n with
    | Returned (a', b') _ _ => exists l, shows a' l /\ shows b' []
        /\ forall q, s_find bor cmp q l = match s_find bor cmp q lb with Some e => Some e | None => s_find bor cmp q la end
    | Unwound (a', b') n' => panicked ask n' /\ emptied a a' /\ emptied b b'
    | Fault => False
    end.
  Proof.
    intros Ha Hb Sa Sb. destruct (append_l bor cmp laws a b la lb Ha Hb Sa Sb) as (a1 & b1 & l & E & H1 & H2 & H3).
    destruct (a_append_tries bor cmp ask A a b n) as [most T]. rewrite E in T. cbn [bind] in T.
    destruct (a_append_t bor ask a b n) as [[a' b'] r n1|[a' b'] n1|]; cbn [tries] in T; [| |discriminate].
    - destruct T as [_ [= <- <- _]]. exists l. auto.
    - destruct T as (_ & P & [= -> ->]). repeat split; auto.
  Qed.
  Lemma a_union_ask (a b : amap) la lb n : shows a la -> shows b lb -> small la -> small lb ->
    exists most, fares ask n most (a_union_t bor ask a b n)
      (fun _ m => exists l, shows m l /\ forall q, s_find bor cmp q l = match s_find bor cmp q lb with Some e => Some e | None => s_find bor cmp q la end)
      (fun _ => True).
  Proof.
    intros Ha Hb Sa Sb. destruct (new_union_l bor cmp laws a b la lb Ha Hb Sa Sb) as (m & l & E & H). destruct (a_sets_owns bor cmp ask A a b n) as (O & _).
    eapply owns_fares; [exact O|]. eauto.
  Qed.
  Lemma a_intersect_ask (a b : amap) la lb n : shows a la -> shows b lb -> small la -> small lb ->
    exists most, fares ask n most (a_intersect_t bor ask a b n) (fun _ m => shows m (s_inter bor cmp la lb)) (fun _ => True).
  Proof.
    intros Ha Hb Sa Sb. destruct (new_intersect_l bor cmp laws a b la lb Ha Hb Sa Sb) as (m & E). destruct (a_sets_owns bor cmp ask A a b n) as (_ & O & _).
    eapply owns_fares; [exact O|]. eauto.
  Qed.
  Lemma a_diff_ask (a b : amap) la lb n : shows a la -> shows b lb -> small la -> small lb ->
    exists most, fares ask n most (a_diff_t bor ask a b n) (fun _ m => shows m (s_diff bor cmp la lb)) (fun _ => True).
  Proof.
    intros Ha Hb Sa Sb. destruct (new_diff_l bor cmp laws a b la lb Ha Hb Sa Sb) as (m & E). destruct (a_sets_owns bor cmp ask A a b n) as (_ & _ & O & _).
    eapply owns_fares; [exact O|]. eauto.
  Qed.
  Lemma a_sym_diff_ask (a b : amap) la lb n : shows a la -> shows b lb -> small la -> small lb ->
    exists most, fares ask n most (a_sym_diff_t bor ask a b n) (fun _ m => exists l, shows m l /\ forall q, s_find bor cmp q l = match s_find bor cmp q la, s_find bor cmp q lb with
                                                                | Some e, None => Some e
                                                                | None, Some e => Some e
                                                                | _, _ => None
                                                                end) (fun _ => True).
  Proof.
    intros Ha Hb Sa Sb. destruct (new_sym_diff_l bor cmp laws a b la lb Ha Hb Sa Sb) as (m & E). destruct (a_sets_owns bor cmp ask A a b n) as (_ & _ & _ & O).
    eapply owns_fares; [exact O|]. destruct E as (l & E & H). eauto.
  Qed.
  Lemma a_split_off_ask (m : amap) l q n : shows m l -> small l ->
    match a_split_off_t bor ask m q n with
    | Returned m' hi _ => shows m' (filter (lt_q bor cmp q) l) /\ shows hi (filter (fun e => negb (lt_q bor cmp q e)) l)
    | Unwound m' n' => panicked ask n' /\ (emptied m m' \/ s_mem bor cmp q l = true /\ shows m' (filter (lt_q bor cmp q) l))
    | Fault => False
    end.
  Proof.
    intros H Hs. destruct (split_off_l bor cmp laws m l q H Hs) as (m1 & m2 & E & H1 & H2).
    pose proof (a_split_off_tries bor cmp ask A m q n) as T. destruct (a_split_off_t bor ask m q n) as [m' hi n1|m' n1|].
    - rewrite E in T. injection T as <- <-. auto.
    - destruct T as [P T]. split; auto. destruct T as [->|(lhs & k & v & rhs & Es & ->)]; [left; split; reflexivity|right].
      unfold avl_split_off in E. rewrite Es in E. cbn [bind] in E. destruct (usize_sub (am_len m) (t_len lhs)); cbn [bind] in E; [|discriminate].
      destruct (ins bor cmp rhs k v) as [[[? ?] ?]|]; cbn [bind] in E; [|discriminate]. injection E as <- <-. split; auto.
      destruct (shows_valid bor cmp laws m l H) as [(Ha & Hasc & _) <-]. unfold AvlMapProofs.contents in *.
      destruct (split_ok bor cmp laws (am_root m) q Ha (small_fits _ Hs)) as (l' & kv & r & E & _ & _ & He & Hk). rewrite Es in E. injection E as <- <- <-.
      destruct (Hk Hasc) as (_ & _ & Hkv). unfold s_mem. apply existsb_exists. exists (k, v). rewrite He. split.
      + apply in_or_app. right. now left.
      + unfold eq_q. now rewrite (Hkv _ eq_refl).
    - congruence.
  Qed.

  Lemma a_and_modify_ask (m : amap) l k (f : V -> V * bool) n : shows m l -> small l ->
    match a_and_modify_t bor ask m k f n with
    | Returned m' _ _ => shows m' (s_update bor cmp (bor k) (fun v => fst (f v)) l)
    | Unwound m' n' => panicked ask n' /\ m' = m
        \/ (exists v, s_get bor cmp (bor k) l = Some v /\ snd (f v) = false) /\ shows m' (s_update bor cmp (bor k) (fun v => fst (f v)) l)
    | Fault => False
    end.
  Proof.
    intros H Hs. pose proof (a_and_modify_t_tries bor cmp ask A m k f n) as T. pose proof (and_modify_l bor cmp laws m l k (fun v => fst (f v)) H Hs) as H'.
    destruct (get_mut_l bor cmp laws m l (bor k) (fun v => fst (f v)) H Hs) as (m1 & E & _).
    destruct (a_and_modify_t bor ask m k f n) as [m' [] n1|m' n1|]; auto.
    - destruct T as [-> _]. auto.
    - destruct T as [[P ->]|[-> (v & Ev & Ef)]]; auto. right. rewrite E in Ev. cbn in Ev. eauto.
  Qed.
  Lemma a_or_insert_ask (m : amap) l k (f : option V) w n : shows m l -> small l ->
    match a_or_insert_t bor ask m k f w n with
    | Returned m' x _ => match s_get bor cmp (bor k) l with
        | Some v => x = v /\ shows m' (s_update bor cmp (bor k) w l)
        | None => f = Some x /\ shows m' (s_insert bor cmp k (w x) l)
        end
    | Unwound m' n' => (m' = m /\ (panicked ask n' \/ f = None /\ s_get bor cmp (bor k) l = None))
        \/ (panicked ask n' /\ exists v, f = Some v /\ s_get bor cmp (bor k) l = None /\ shows m' (s_insert bor cmp k v l))
    | Fault => False
    end.
  Proof.
    intros H Hs. pose proof (a_or_insert_t_tries bor cmp ask A m k f w n) as T. destruct (lookup_l bor cmp laws m l (bor k) H) as (_ & Eg & Ec & _).
    assert (Mem : avl_contains_key bor cmp m (bor k) = match s_get bor cmp (bor k) l with Some _ => true | None => false end) by (unfold avl_contains_key; now rewrite Eg).
    destruct (get_mut_l bor cmp laws m l (bor k) w H Hs) as (m1 & E1 & H1).
    assert (Or : forall v, exists m', entry_or_insert bor cmp m k v w = Ok (m', match s_get bor cmp (bor k) l with Some x => x | None => v end)
              /\ shows m' (match s_get bor cmp (bor k) l with Some _ => s_update bor cmp (bor k) w l | None => s_insert bor cmp k (w v) l end)).
    { intros v. destruct (or_insert_with_l bor cmp laws m l k (fun s : unit => (s, v)) tt w H Hs) as (m' & E & H'). exists m'. unfold entry_or_insert. rewrite E.
      destruct (s_get bor cmp (bor k) l); auto. }
    destruct (a_or_insert_t bor ask m k f w n) as [m' x n1|m' n1|].
    - destruct f as [v|].
      + destruct (Or v) as (m2 & E & H2). rewrite E in T. injection T as <- <-. destruct (s_get bor cmp (bor k) l); auto.
      + destruct T as [T1 T2]. rewrite E1 in T2. injection T2 as -> T2. rewrite T2 in *. auto.
    - rewrite Mem in T. destruct T as [(-> & T & ->)|[P [->|(v & o & -> & T & E)]]].
      + left. split; auto. right. split; auto. destruct (s_get bor cmp (bor k) l); congruence.
      + auto.
      + right. split; auto. exists v. split; auto. destruct (insert_l bor cmp laws m l k v H Hs) as (m2 & E2 & H2). rewrite E in E2. injection E2 as <- _.
        split; auto. destruct (s_get bor cmp (bor k) l); congruence.
    - destruct f as [v|].
      + destruct (Or v) as (m2 & E & H2). congruence.
      + rewrite Mem, E1 in T. cbn in T. destruct T as [T1 T2]. rewrite T2 in T1. discriminate.
  Qed.

  (** ** B-tree *)
  Section BTree.
    Context (N : nat) (HN : 1 <= N).
    Notation b_shows := (b_shows bor cmp N).
    Lemma asks_shape h : forall mn (t : bt K V), shape N mn h t -> n_asks t <= (2 * N + 1) * (h + 1).
    Proof.
      induction h as [|h IH]; intros mn t S.
      - apply shape_0 in S as (es & -> & Hl). cbn [n_asks map list_max]. unfold MAX_OCC in Hl. cbn. lia.
      - apply shape_S in S as (es & ks & -> & Hl & Hk & F). cbn [n_asks]. unfold MAX_OCC in Hl.
        assert (list_max (map n_asks ks) <= (2 * N + 1) * (h + 1)); [|nia].
        apply max_le. intros c Hc. rewrite Forall_forall in F. eapply IH. apply F, Hc.
    Qed.
    Lemma b_asks_log (m : bmap) l : b_shows m l -> exists d, level_bound l (N + 1) d /\ b_asks m <= (2 * N + 1) * (d + 1).
    Proof.
      intros H. destruct (b_shows_valid bor cmp N laws HN m l H) as [(_ & _ & S) <-]. unfold b_asks, contents in *. destruct (bm_root m) as [t|].
      - destruct S as [h S]. exists h. split; [|now apply (asks_shape h 1)]. pose proof (proj1 (count_bounds N h 1 t S)). unfold level_bound. lia.
      - exists 0. split; [|lia]. unfold level_bound. cbn. lia.
    Qed.
    Lemma b_insert_ask (m : bmap) l k v n : b_shows m l ->
      exists d, level_bound l (N + 1) d /\ fares ask n ((2 * N + 1) * (d + 1)) (b_insert_t bor ask N m k v n)
        (fun m' r => r = s_get bor cmp (bor k) l /\ b_shows m' (s_insert bor cmp k v l)) (fun m' => m' = m).
    Proof.
      intros H. destruct (b_asks_log m l H) as (d & D & L). exists d. split; auto.
      eapply tries_fares; [eapply tries_more; [exact L|apply (b_insert_tries bor cmp ask N A)]| |reflexivity].
      destruct (b_insert_l bor cmp N laws HN m l k v H) as (m' & E & H'). exists m', (s_get bor cmp (bor k) l). auto.
    Qed.
    Lemma b_remove_ask (m : bmap) l q n : b_shows m l ->
      exists d, level_bound l (N + 1) d /\ fares ask n (2 * ((2 * N + 1) * (d + 1))) (b_remove_t bor ask N m q n)
        (fun m' r => r = s_get bor cmp q l /\ b_shows m' (s_remove bor cmp q l)) (fun m' => m' = m).
    Proof.
      intros H. destruct (b_asks_log m l H) as (d & D & L). exists d. split; auto.
      eapply tries_fares; [eapply tries_more; [|apply (b_remove_tries bor cmp ask N A)]; lia| |reflexivity].
      destruct (b_remove_l bor cmp N laws HN m l q H) as (m' & E & H'). exists m', (s_get bor cmp q l). auto.
    Qed.
    Lemma b_lookup_ask (m : bmap) l q n : b_shows m l ->
      exists d, level_bound l (N + 1) d
        /\ fares ask n ((2 * N + 1) * (d + 1)) (b_get_t bor ask m q n) (fun _ r => r = s_get bor cmp q l) (fun _ => True)
        /\ fares ask n ((2 * N + 1) * (d + 1)) (b_contains_t bor ask m q n) (fun _ r => r = s_mem bor cmp q l) (fun _ => True).
    Proof.
      intros H. destruct (b_asks_log m l H) as (d & D & L). exists d. split; auto. destruct (b_lookup_l bor cmp N laws HN m l q H) as (_ & E1 & E2). split.
      - eapply tries_fares; [eapply tries_more; [exact L|apply (b_get_tries bor cmp ask A)]| |exact Logic.I]. rewrite E1. exists tt. eauto.
      - eapply tries_fares; [eapply tries_more; [exact L|apply (b_contains_tries bor cmp ask A)]| |exact Logic.I]. rewrite E2. exists tt. eauto.
    Qed.
    Lemma b_get_mut_ask (m : bmap) l q w n : b_shows m l ->
      exists d, level_bound l (N + 1) d /\ fares ask n ((2 * N + 1) * (d + 1)) (b_get_mut_t bor ask m q w n)
        (fun m' r => r = s_get bor cmp q l /\ b_shows m' (s_update bor cmp q w l)) (fun m' => m' = m).
    Proof.
      intros H. destruct (b_asks_log m l H) as (d & D & L). exists d. split; auto.
      eapply tries_fares; [eapply tries_more; [exact L|apply (b_get_mut_tries bor cmp ask A)]| |reflexivity].
      destruct (b_get_mut_l bor cmp N laws HN m l q w H) as (m' & E & H'). rewrite E. eauto.
    Qed.
    Lemma b_extend_ask (m : bmap) l ps n : b_shows m l ->
      match b_extend_t bor ask N m ps n with
      | Returned m' _ _ => b_shows m' (s_extend bor cmp l ps)
      | Unwound m' n' => panicked ask n' /\ exists ps1 p ps2, ps = ps1 ++ p :: ps2 /\ b_shows m' (s_extend bor cmp l ps1)
      | Fault => False
      end.
    Proof.
      intros H. pose proof (b_extend_tries bor cmp ask N A ps m n) as T. destruct (b_extend_t bor ask N m ps n) as [m' r n1|m' n1|].
      - destruct (b_extend_l bor cmp N laws HN m l ps H) as (m2 & E & H'). congruence.
      - destruct T as (P & ps1 & p & ps2 & -> & E). split; auto. exists ps1, p, ps2. split; auto.
        destruct (b_extend_l bor cmp N laws HN m l ps1 H) as (m2 & E2 & H'). congruence.
      - destruct (b_extend_l bor cmp N laws HN m l ps H) as (m2 & E & H'). congruence.
    Qed.
    Lemma b_into_ask un (m : bmap) l : b_shows m l -> b_into_list un m = Ok l.
    Proof. intros H. destruct (b_shows_valid bor cmp N laws HN m l H) as [Hv <-]. now apply (BTreeIterProofs2.into_list_ok bor cmp N HN). Qed.
    Lemma b_append_ask un (a b : bmap) la lb n : b_shows a la -> b_shows b lb ->
      match b_append_t bor ask N un a b n with
      | Returned (a', b') _ _ => b_shows a' (s_union bor cmp la lb) /\ b_shows b' []
      | Unwound (a', b') n' => panicked ask n' /\ b_shows b' [] /\ exists l1 e l2, lb = l1 ++ e :: l2 /\ b_shows a' (s_union bor cmp la l1)
      | Fault => False
      end.
    Proof.
      intros Ha Hb. pose proof (b_append_tries bor cmp ask N A un a b n) as T. destruct (b_append_l bor cmp N laws HN un a b la lb Ha Hb) as (a1 & b1 & E & H1 & H2).
      destruct (b_append_t bor ask N un a b n) as [[a' b'] [] n1|[a' b'] n1|].
      - rewrite E in T. injection T as <- <-. auto.
      - destruct T as (P & Eb & ps & ps1 & p & ps2 & E1 & -> & E2). cbn [fst snd] in *. subst b'. rewrite (b_into_ask un b lb Hb) in E1. injection E1 as ->.
        split; auto. split; [apply b_shows_new|]. exists ps1, p, ps2. split; auto.
        destruct (b_extend_l bor cmp N laws HN a la ps1 Ha) as (a2 & E3 & H3). unfold s_union. congruence.
      - congruence.
    Qed.
    Lemma b_retain_ask {S} un (f : S -> K -> V -> S * V * option bool) (m : bmap) l s n : b_shows m l ->
      match b_retain_t bor ask N un f m s n with
      | Returned m' s' _ => s' = snd (run_calls (quiet f) s l)
          /\ b_shows m' (map (fun o => (fst (fst (fst o)), snd (fst o))) (filter (fun o => snd o) (fst (run_calls (quiet f) s l))))
      | Unwound m' n' => b_shows m' [] /\ (panicked ask n' \/ exists s0 k v, In (k, v) l /\ snd (f s0 k v) = None)
      | Fault => False
      end.
    Proof.
      intros H. pose proof (b_retain_tries bor cmp ask N A un f m s n) as T. destruct (b_retain_l bor cmp N laws HN un (quiet f) m l s H) as (m1 & E & H1).
      destruct (b_retain_t bor ask N un f m s n) as [m' s' n1|m' n1|].
      - rewrite E in T. injection T as <- <-. auto.
      - destruct T as [-> T]. split; [apply b_shows_new|]. destruct T as [P|(ps & s0 & k & v & E1 & I1 & E2)]; auto. right. exists s0, k, v.
        rewrite (b_into_ask un m l H) in E1. injection E1 as ->. auto.
      - congruence.
    Qed.
    Lemma b_split_off_ask un (m : bmap) l q n : b_shows m l ->
      match b_split_off_t bor ask N un m q n with
      | Returned m' hi _ => b_shows m' (filter (lt_q bor cmp q) l) /\ b_shows hi (filter (fun e => negb (lt_q bor cmp q e)) l)
      | Unwound m' n' => panicked ask n' /\ b_shows m' []
      | Fault => False
      end.
    Proof.
      intros H. pose proof (b_split_off_tries bor cmp ask N A un m q n) as T. destruct (b_split_off_l bor cmp N laws HN un m l q H) as (m1 & m2 & E & H1 & H2).
      destruct (b_split_off_t bor ask N un m q n) as [m' hi n1|m' n1|].
      - rewrite E in T. injection T as <- <-. auto.
      - destruct T as [-> P]. split; auto. apply b_shows_new.
      - congruence.
    Qed.
    Lemma b_and_modify_ask (m : bmap) l k (f : V -> V * bool) n : b_shows m l ->
      match b_and_modify_t bor ask m k f n with
      | Returned m' _ _ => b_shows m' (s_update bor cmp (bor k) (fun v => fst (f v)) l)
      | Unwound m' n' => panicked ask n' /\ m' = m
          \/ (exists v, s_get bor cmp (bor k) l = Some v /\ snd (f v) = false) /\ b_shows m' (s_update bor cmp (bor k) (fun v => fst (f v)) l)
      | Fault => False
      end.
    Proof.
      intros H. pose proof (b_and_modify_t_tries bor cmp ask A m k f n) as T. pose proof (b_and_modify_l bor cmp N laws HN m l k (fun v => fst (f v)) H) as H'.
      destruct (b_get_mut_l bor cmp N laws HN m l (bor k) (fun v => fst (f v)) H) as (m1 & E & _).
      destruct (b_and_modify_t bor ask m k f n) as [m' [] n1|m' n1|]; auto.
      - destruct T as [-> _]. auto.
      - destruct T as [[P ->]|[-> (v & Ev & Ef)]]; auto. right. rewrite E in Ev. cbn in Ev. eauto.
    Qed.
    Lemma b_or_insert_ask (m : bmap) l k (f : option V) w n : b_shows m l ->
      match b_or_insert_t bor ask N m k f w n with
      | Returned m' x _ => match s_get bor cmp (bor k) l with
          | Some v => x = v /\ b_shows m' (s_update bor cmp (bor k) w l)
          | None => f = Some x /\ b_shows m' (s_insert bor cmp k (w x) l)
          end
      | Unwound m' n' => (m' = m /\ (panicked ask n' \/ f = None /\ s_get bor cmp (bor k) l = None))
          \/ (panicked ask n' /\ exists v, f = Some v /\ s_get bor cmp (bor k) l = None /\ b_shows m' (s_insert bor cmp k v l))
      | Fault => False
      end.
    Proof.
      intros H. pose proof (b_or_insert_t_tries bor cmp ask N A m k f w n) as T. destruct (b_lookup_l bor cmp N laws HN m l (bor k) H) as (_ & Eg & Ec).
      assert (Mem : b_contains_key bor cmp m (bor k) = match s_get bor cmp (bor k) l with Some _ => true | None => false end).
      { rewrite Ec. unfold s_get, s_mem, s_find. induction l as [|x l' IH]; auto. clear. induction (x :: l') as [|y r IH]; cbn; auto. destruct (eq_q bor cmp (bor k) y); auto. }
      destruct (b_get_mut_l bor cmp N laws HN m l (bor k) w H) as (m1 & E1 & H1).
      assert (Or : forall v, exists m', b_or_insert bor cmp N m k v w = Ok (m', match s_get bor cmp (bor k) l with Some x => x | None => v end)
                /\ b_shows m' (match s_get bor cmp (bor k) l with Some _ => s_update bor cmp (bor k) w l | None => s_insert bor cmp k (w v) l end)).
      { intros v. destruct (b_or_insert_with_l bor cmp N laws HN m l k (fun s : unit => (s, v)) tt w H) as (m' & E & H'). exists m'. unfold b_or_insert. rewrite E.
        destruct (s_get bor cmp (bor k) l); auto. }
      destruct (b_or_insert_t bor ask N m k f w n) as [m' x n1|m' n1|].
      - destruct f as [v|].
        + destruct (Or v) as (m2 & E & H2). rewrite E in T. injection T as <- <-. destruct (s_get bor cmp (bor k) l); auto.
        + destruct T as [T1 T2]. rewrite E1 in T2. injection T2 as -> T2. rewrite T2 in *. auto.
      - rewrite Mem in T. destruct T as [(-> & T & ->)|[P [->|(v & o & -> & T & E)]]].
        + left. split; auto. right. split; auto. destruct (s_get bor cmp (bor k) l); congruence.
        + auto.
        + right. split; auto. exists v. split; auto. destruct (b_insert_l bor cmp N laws HN m l k v H) as (m2 & E2 & H2). rewrite E in E2. injection E2 as <- _.
          split; auto. destruct (s_get bor cmp (bor k) l); congruence.
      - destruct f as [v|].
        + destruct (Or v) as (m2 & E & H2). congruence.
        + rewrite Mem, E1 in T. cbn in T. destruct T as [T1 T2]. rewrite T2 in T1. discriminate.
    Qed.
  End BTree.

  (** ** Fixed *)
  Section Fixed.
    Context (sk : bool).
    Notation f_shows := (f_shows bor cmp).
    Lemma el_asks_le (e : elems K V) : el_len e <= 11 -> el_asks sk e <= per_node sk.
    Proof.
      unfold el_asks, per_node. intros H. destruct sk; [lia|]. assert (Nat.log2 (el_len e) <= Nat.log2 11) by (apply Nat.log2_le_mono; lia).
      change (Nat.log2 11) with 3 in *. lia.
    Qed.
    Lemma asks_holds h : forall lo (x : fnode K V) l, holds lo h x l -> fn_asks sk x <= per_node sk * (h + 1).
    Proof.
      induction h as [|h IH]; intros lo x l H; inversion H; subst; cbn [fn_asks].
      - pose proof (el_asks_le (Elems ks vs (length l))) as E. cbn [el_len] in E. lia.
      - pose proof (el_asks_le (Elems ks vs (length es))) as E. cbn [el_len] in E.
        assert (list_max (firstn (length ns) (map (fun o => match o with Some c => fn_asks sk c | None => 0 end) ps)) <= per_node sk * (h + 1)); [|lia].
        rewrite firstn_map. match goal with B : begins 12 ps ns |- _ => destruct B as [_ ->] end. apply max_le. intros o Ho.
        apply in_map_iff in Ho as (c & <- & Hc).
        match goal with F : Forall2 _ ns ls |- _ => clear - IH F Hc; induction F as [|c' l' ns ls H F IHF]; [destruct Hc|] end.
        destruct Hc as [->|Hc]; eauto.
    Qed.
    Lemma f_asks_log (m : fmap) l : f_shows m l -> exists d, level_bound l 6 d /\ f_asks sk m <= per_node sk * (d + 1).
    Proof.
      intros H. pose proof H as (_ & _ & R). unfold f_asks. destruct (fm_root m) as [x|].
      - destruct R as [h R]. exists h. split; [|eapply asks_holds; eauto]. apply holds_iff in R as (t & _ & S & <-).
        pose proof (proj1 (count_bounds 5 h 1 t S)) as C. change (5 + 1) with 6 in C. unfold level_bound. lia.
      - exists 0. split; [|lia]. unfold level_bound. cbn. lia.
    Qed.
    Lemma f_insert_ask (m : fmap) l k v n : f_shows m l ->
      exists d, level_bound l 6 d /\ fares ask n (per_node sk * (d + 1)) (f_insert_t bor ask sk m k v n)
        (fun m' r => r = s_get bor cmp (bor k) l /\ f_shows m' (s_insert bor cmp k v l)) (fun m' => m' = m).
    Proof.
      intros H. destruct (f_asks_log m l H) as (d & D & L). exists d. split; auto.
      eapply tries_fares; [eapply tries_more; [exact L|apply (f_insert_tries bor cmp ask sk A)]| |reflexivity].
      destruct (f_insert_l bor cmp laws sk m l k v H) as (m' & E & H'). exists m', (s_get bor cmp (bor k) l). auto.
    Qed.
    Lemma f_remove_ask (m : fmap) l q n : f_shows m l ->
      exists d, level_bound l 6 d /\ fares ask n (per_node sk * (d + 1)) (f_remove_t bor ask sk m q n)
        (fun m' r => r = s_get bor cmp q l /\ f_shows m' (s_remove bor cmp q l)) (fun m' => m' = m).
    Proof.
      intros H. destruct (f_asks_log m l H) as (d & D & L). exists d. split; auto.
      eapply tries_fares; [eapply tries_more; [exact L|apply (f_remove_tries bor cmp ask sk A)]| |reflexivity].
      destruct (f_remove_l bor cmp laws sk m l q H) as (m' & E & H'). exists m', (s_get bor cmp q l). auto.
    Qed.
    Lemma f_get_ask (m : fmap) l q n : f_shows m l ->
      exists d, level_bound l 6 d /\ fares ask n (per_node sk * (d + 1)) (f_get_t bor ask sk m q n) (fun _ r => r = s_get bor cmp q l) (fun _ => True).
    Proof.
      intros H. destruct (f_asks_log m l H) as (d & D & L). exists d. split; auto.
      eapply tries_fares; [eapply tries_more; [exact L|apply (f_get_tries bor cmp ask sk A)]| |exact Logic.I].
      rewrite (f_get_l bor cmp laws sk m l q H). exists tt. eexists. split; reflexivity.
    Qed.
    Lemma f_get_mut_ask (m : fmap) l q w n : f_shows m l ->
      exists d, level_bound l 6 d /\ fares ask n (per_node sk * (d + 1)) (f_get_mut_t bor ask sk m q w n)
        (fun m' r => r = s_get bor cmp q l /\ f_shows m' (s_update bor cmp q w l)) (fun m' => m' = m).
    Proof.
      intros H. destruct (f_asks_log m l H) as (d & D & L). exists d. split; auto.
      eapply tries_fares; [eapply tries_more; [exact L|apply (f_get_mut_tries bor cmp ask sk A)]| |reflexivity].
      destruct (f_get_mut_l bor cmp laws sk m l q w H) as (m' & E & H'). exists m', (s_get bor cmp q l). auto.
    Qed.
    Lemma f_extend_ask (m : fmap) l ps n : f_shows m l ->
      match f_extend_t bor ask sk m ps n with
      | Returned m' _ _ => f_shows m' (s_extend bor cmp l ps)
      | Unwound m' n' => panicked ask n' /\ exists ps1 p ps2, ps = ps1 ++ p :: ps2 /\ f_shows m' (s_extend bor cmp l ps1)
      | Fault => False
      end.
    Proof.
      intros H. pose proof (f_extend_tries bor cmp ask sk A ps m n) as T. destruct (f_extend_t bor ask sk m ps n) as [m' r n1|m' n1|].
      - destruct (f_extend_l bor cmp laws sk m l ps H) as (m2 & E & H'). congruence.
      - destruct T as (P & ps1 & p & ps2 & -> & E). split; auto. exists ps1, p, ps2. split; auto.
        destruct (f_extend_l bor cmp laws sk m l ps1 H) as (m2 & E2 & H'). congruence.
      - destruct (f_extend_l bor cmp laws sk m l ps H) as (m2 & E & H'). congruence.
    Qed.
  End Fixed.
End AskShows.
