(** What a client sees of a set: it passes its own check, and iterating it yields a
    list. The properties are stated in these terms. *)
From Coq Require Import List ZArith Bool Sorted Lia PeanoNat.
From Verif Require Import Base Spec BTreeSpec SpecFacts SetSpec SetOpModel SetFacts AvlSetModel BTreeSetModel.
From Verif Require AvlModel AvlProofs2 AvlHistProofs AvlMapProofs AvlSetProofs BTreeModel BTreeProofs2 BTreeChkProofs BTreeSetProofs.
Import ListNotations.
Local Open Scope nat_scope.

(** [calls] is what [next()] returned, with the [len()] after it, when called once more
    than [l] has elements. *)
Definition yields {A} (calls : nat -> res (list (option A * nat))) (l : list A) : Prop :=
  calls (S (length l)) = Ok (s_ends (repeat Front (S (length l))) l).

Lemma ends_inj {A} (l l' : list A) :
  s_ends (repeat Front (S (length l))) l' = s_ends (repeat Front (S (length l))) l -> l' = l.
Proof.
  revert l'. induction l as [|x l IH]; intros l' H.
  - now destruct l'.
  - change (s_ends (repeat Front (S (length (x :: l)))) l')
      with ((hd_error l', length (tl l')) :: s_ends (repeat Front (S (length l))) (tl l')) in H.
    change (s_ends (repeat Front (S (length (x :: l)))) (x :: l))
      with ((Some x, length l) :: s_ends (repeat Front (S (length l))) l) in H.
    apply (f_equal (fun z => (hd_error z, tl z))) in H. cbn [hd_error tl] in H.
    destruct l' as [|y l']; [discriminate|]. cbn [hd_error tl] in H.
    rewrite (IH l') by congruence. congruence.
Qed.

Section SetFactsShown.
  Context {T Q : Type} (bor : T -> Q) (cmp : Q -> Q -> comparison) (laws : order_laws cmp).
  Notation xasc := (@x_ascending T Q bor cmp).
  Notation mem := (@x_mem T Q bor cmp).
  (** The set operations of the specification, said by membership. *)
  Lemma x_ops_mem l r : xasc l -> xasc r ->
    (xasc (x_union bor cmp l r) /\ forall q, mem q (x_union bor cmp l r) = mem q l || mem q r)
    /\ (xasc (x_inter bor cmp l r) /\ forall q, mem q (x_inter bor cmp l r) = mem q l && mem q r)
    /\ (xasc (x_diff bor cmp l r) /\ forall q, mem q (x_diff bor cmp l r) = mem q l && negb (mem q r))
    /\ (xasc (x_symdiff bor cmp l r) /\ forall q, mem q (x_symdiff bor cmp l r) = xorb (mem q l) (mem q r)).
  Proof.
    intros Hl Hr. repeat match goal with |- _ /\ _ => split end; try intros q; rewrite ?xmem_find.
    - now apply xasc_union.
    - rewrite xfind_union by auto. now destruct (x_find bor cmp q l), (x_find bor cmp q r).
    - now apply xasc_filter.
    - rewrite xfind_inter by auto. rewrite ?xmem_find. destruct (x_find bor cmp q l), (x_find bor cmp q r); auto.
    - now apply xasc_filter.
    - rewrite xfind_diff by auto. rewrite ?xmem_find. now destruct (x_find bor cmp q l), (x_find bor cmp q r).
    - now apply xasc_symdiff.
    - rewrite xfind_symdiff by auto. now destruct (x_find bor cmp q l), (x_find bor cmp q r).
  Qed.
End SetFactsShown.

Section Avl.
  Import AvlModel AvlProofs2 AvlHistProofs AvlMapProofs AvlSetProofs.
  Local Open Scope nat_scope.
  Context {T Q : Type} (bor : T -> Q) (cmp : Q -> Q -> comparison).
  Notation aset := (@aset T).

  (** [check()] succeeds and [iter()] yields [l]. *)
  Definition as_shows (s : aset) (l : list T) : Prop :=
    as_check bor cmp s = Ok true /\ yields (fun n => as_nexts n (as_iter s)) l.

  Context (laws : order_laws cmp).
  Notation holds := (@holds T Q bor cmp).
  Notation mem := (@x_mem T Q bor cmp).

  Lemma as_shows_holds s l : as_shows s l -> holds s l.
  Proof.
    intros [H1 H2]. unfold as_check in H1.
    destruct (avl_chk bor cmp s) as [[[]|]|] eqn:E; try discriminate.
    apply (check_sound bor cmp laws) in E. apply holds_untag in E. unfold yields in H2.
    rewrite (as_nexts_ok bor cmp _ s _ E) in H2. apply (f_equal (fun r => match r with Ok x => x | Panic => [] end)) in H2. cbn beta iota in H2.
    replace l with (map fst (contents s)); auto. apply ends_inj. exact H2.
  Qed.
  Lemma as_holds_shows s l : holds s l -> fits (tag l) -> as_shows s l.
  Proof. intros H F. split; [now apply (as_check_ok bor cmp laws s l)|now apply (as_nexts_ok bor cmp)]. Qed.
  Lemma as_shows_asc s l : as_shows s l -> x_ascending bor cmp l /\ as_len s = length l.
  Proof. intros H. apply as_shows_holds in H. split; [now apply (holds_asc bor cmp s)|now apply (holds_len bor cmp)]. Qed.
  Lemma as_new_l : as_shows as_new [] /\ forall s, as_shows (as_clear s) [].
  Proof. split; [|intros s]; split; reflexivity. Qed.

  Lemma fits_le (l l' : list T) : x_small l -> length l' <= S (length l) -> fits (tag l').
  Proof. unfold x_small. rewrite fits_tag. lia. Qed.
  Lemma len_insert x l : x_ascending bor cmp l -> length (x_insert bor cmp x l) <= S (length l).
  Proof. intros A. pose proof (xlength_extend bor cmp laws [x] l A) as H. cbn in H. fold (x_insert bor cmp x l) in H. lia. Qed.
  Lemma len_filter {A} (f : A -> bool) l : length (filter f l) <= length l.
  Proof. induction l as [|x l IH]; cbn; auto. destruct (f x); cbn; lia. Qed.

  Ltac go H := apply as_shows_holds in H; pose proof (holds_asc bor cmp _ _ H).
  Ltac done l := apply as_holds_shows; auto; apply (fits_le l); auto.

  Lemma as_insert_l s l x : as_shows s l -> x_small l ->
    exists s', as_insert bor cmp s x = Ok (s', negb (mem (bor x) l)) /\ as_shows s' (x_insert bor cmp x l).
  Proof.
    intros H S. go H. destruct (as_insert_ok bor cmp laws s l x H (small_tag l S)) as (s' & E & H').
    exists s'. split; auto. done l. now apply len_insert.
  Qed.
  Lemma as_remove_l s l q : as_shows s l -> x_small l ->
    (exists s', as_remove bor cmp s q = Ok (s', mem q l) /\ as_shows s' (x_remove bor cmp q l))
    /\ (exists s', as_take bor cmp s q = Ok (s', x_find bor cmp q l) /\ as_shows s' (x_remove bor cmp q l)).
  Proof.
    intros H S. go H. split.
    - destruct (as_remove_ok bor cmp laws s l q H (small_tag l S)) as (s' & E & H').
      exists s'. split; auto. done l. unfold x_remove. pose proof (len_filter (fun x => negb (x_eq bor cmp q x)) l). lia.
    - destruct (as_take_ok bor cmp laws s l q H (small_tag l S)) as (s' & E & H').
      exists s'. split; auto. done l. unfold x_remove. pose proof (len_filter (fun x => negb (x_eq bor cmp q x)) l). lia.
  Qed.
  Lemma as_replace_l s l x : as_shows s l -> x_small l ->
    exists s', as_replace bor cmp s x = Ok (s', x_find bor cmp (bor x) l) /\ as_shows s' (x_insert bor cmp x l).
  Proof.
    intros H S. go H. destruct (as_replace_ok bor cmp laws s l x H (small_tag l S)) as (s' & E & H').
    exists s'. split; auto. done l. now apply len_insert.
  Qed.
  Lemma as_lookup_l s l q : as_shows s l ->
    as_contains bor cmp s q = mem q l /\ as_get bor cmp s q = x_find bor cmp q l
    /\ as_first s = hd_error l /\ as_last s = hd_error (rev l)
    /\ as_len s = length l /\ as_is_empty s = match l with [] => true | _ => false end.
  Proof.
    intros H. go H. rewrite (as_contains_ok bor cmp laws s l), (as_get_ok bor cmp laws s l), (as_first_ok bor cmp s l),
      (as_last_ok bor cmp s l), (holds_len bor cmp s l), (holds_empty bor cmp s l) by auto. auto 10.
  Qed.
  Lemma as_pops_l s l : as_shows s l -> x_small l ->
    (exists s', as_pop_first s = Ok (s', hd_error l) /\ as_shows s' (tl l))
    /\ (exists s', as_pop_last s = Ok (s', hd_error (rev l)) /\ as_shows s' (removelast l)).
  Proof.
    intros H S. go H. split.
    - destruct (as_pop_first_ok bor cmp s l H (small_tag l S)) as (s' & E & H').
      exists s'. split; auto. done l. destruct l; cbn; lia.
    - destruct (as_pop_last_ok bor cmp s l H (small_tag l S)) as (s' & E & H').
      exists s'. split; auto. done l. clear. induction l as [|x [|y l] IH]; cbn in *; lia.
  Qed.
  Lemma as_split_off_l s l q : as_shows s l -> x_small l ->
    exists s1 s2, as_split_off bor cmp s q = Ok (s1, s2) /\ as_shows s1 (filter (x_lt bor cmp q) l)
      /\ as_shows s2 (filter (fun x => negb (x_lt bor cmp q x)) l).
  Proof.
    intros H S. go H. destruct (as_split_off_ok bor cmp laws s l q H (small_tag l S)) as (s1 & s2 & E & H1 & H2).
    exists s1, s2. split; auto. split; done l; apply le_S, len_filter.
  Qed.
  Lemma as_retain_l A (f : A -> T -> A * bool) s l a : as_shows s l -> x_small l ->
    exists s', as_retain bor cmp f s a = Ok (s', snd (x_retain f a l)) /\ as_shows s' (fst (x_retain f a l)).
  Proof.
    intros H S. go H. destruct (as_retain_ok bor cmp laws f s l a H (small_tag l S)) as (s' & E & H').
    exists s'. split; auto. done l. apply le_S, x_retain_le.
  Qed.
  Lemma as_extend_l s l xs : as_shows s l -> x_small l -> x_small xs ->
    exists s', as_extend bor cmp s xs = Ok s' /\ as_shows s' (x_extend bor cmp l xs).
  Proof.
    intros H S Sx. go H. unfold x_small in *. destruct (as_extend_ok bor cmp laws xs s l H) as (s' & E & H'); [lia|].
    exists s'. split; auto. apply as_holds_shows; auto. apply fits_tag.
    pose proof (xlength_extend bor cmp laws xs l ltac:(auto)). lia.
  Qed.
  Lemma as_from_iter_l xs : x_small xs ->
    exists s', as_from_iter bor cmp xs = Ok s' /\ as_shows s' (x_extend bor cmp [] xs).
  Proof. intros S. apply (as_extend_l as_new []); auto; [apply as_new_l|]. unfold x_small. cbn. lia. Qed.
  Lemma as_iter_l s l : as_shows s l ->
    (forall n, as_nexts n (as_iter s) = Ok (s_ends (repeat Front n) l))
    /\ (forall lo hi cs, as_range bor cmp s lo hi cs = Ok (map fst (s_ends cs (x_range bor cmp lo hi l)))).
  Proof. intros H. go H. split; intros; [now apply (as_nexts_ok bor cmp)|now apply (as_range_ok bor cmp laws)]. Qed.

  Lemma as_subset_l same s1 s2 l1 l2 : (forall a b, same a b = true -> a = b) -> as_shows s1 l1 -> as_shows s2 l2 ->
    as_is_subset bor cmp same s1 s2 = Ok (x_subset bor cmp l1 l2)
    /\ as_is_superset bor cmp same s1 s2 = Ok (x_subset bor cmp l2 l1).
  Proof. intros Hs H1 H2. go H1. go H2. unfold as_is_superset. split; now apply (as_subset_ok bor cmp laws same Hs). Qed.

  Lemma as_setop_l a b la lb : as_shows a la -> as_shows b lb -> forall n,
    as_setop bor cmp p_union a b n = Ok (s_nexts n (x_union bor cmp la lb))
    /\ as_setop bor cmp p_intersection a b n = Ok (s_nexts n (x_inter bor cmp lb la))
    /\ as_setop bor cmp p_difference a b n = Ok (s_nexts n (x_diff bor cmp la lb))
    /\ as_setop bor cmp p_symmetric_difference a b n = Ok (s_nexts n (x_symdiff bor cmp la lb))
    /\ as_is_disjoint bor cmp a b = Ok (x_disjoint bor cmp la lb).
  Proof.
    intros Ha Hb n. go Ha. go Hb.
    rewrite !(as_setop_ok bor cmp _ a b la lb) by auto. rewrite (as_disjoint_ok bor cmp laws a b la lb) by auto.
    rewrite (kept_union bor cmp laws), (kept_inter bor cmp laws), (kept_diff bor cmp laws), (kept_symdiff bor cmp laws) by auto.
    auto 10.
  Qed.
  Lemma as_algebra_l a b la lb : as_shows a la -> as_shows b lb -> x_small la -> x_small lb ->
    (exists s, as_new_union bor cmp a b = Ok s /\ as_shows s (x_union bor cmp la lb))
    /\ (exists s, as_new_intersection bor cmp a b = Ok s /\ as_shows s (x_inter bor cmp la lb))
    /\ (exists s, as_new_diff bor cmp a b = Ok s /\ as_shows s (x_diff bor cmp la lb))
    /\ (exists s, as_new_sym_diff bor cmp a b = Ok s /\ as_shows s (x_symdiff bor cmp la lb))
    /\ (exists a' b', as_append bor cmp a b = Ok (a', b') /\ as_shows a' (x_union bor cmp la lb) /\ as_shows b' []).
  Proof.
    intros Ha Hb Sa Sb. go Ha. go Hb. unfold x_small in *.
    assert (F : (Z.of_nat (length la + length lb) < 2 ^ 64)%Z) by lia.
    assert (Fu : fits (tag (x_union bor cmp la lb))).
    { apply fits_tag. pose proof (xlength_extend bor cmp laws lb la ltac:(auto)). unfold x_union. lia. }
    assert (Fi : fits (tag (x_inter bor cmp la lb))).
    { apply fits_tag. unfold x_inter. pose proof (len_filter (fun x => mem (bor x) lb) la). lia. }
    assert (Fd : fits (tag (x_diff bor cmp la lb))).
    { apply fits_tag. unfold x_diff. pose proof (len_filter (fun x => negb (mem (bor x) lb)) la). lia. }
    assert (Fs : fits (tag (x_symdiff bor cmp la lb))).
    { apply fits_tag. unfold x_symdiff. pose proof (xlength_extend bor cmp laws (x_diff bor cmp lb la) (x_diff bor cmp la lb)) as G.
      assert (Ad : x_ascending bor cmp (x_diff bor cmp la lb)) by (apply xasc_filter; auto). specialize (G Ad).
      unfold x_diff in *. pose proof (len_filter (fun x => negb (mem (bor x) lb)) la).
      pose proof (len_filter (fun x => negb (mem (bor x) la)) lb). lia. }
    split; [|split; [|split; [|split]]].
    - destruct (as_new_union_ok bor cmp laws a b la lb Ha Hb F) as (s & E & H'). exists s. split; auto. now apply as_holds_shows.
    - destruct (as_new_inter_ok bor cmp laws a b la lb Ha Hb F) as (s & E & H'). exists s. split; auto. now apply as_holds_shows.
    - destruct (as_new_diff_ok bor cmp laws a b la lb Ha Hb F) as (s & E & H'). exists s. split; auto. now apply as_holds_shows.
    - destruct (as_new_sym_diff_ok bor cmp laws a b la lb Ha Hb F) as (s & E & H'). exists s. split; auto. now apply as_holds_shows.
    - destruct (as_append_ok bor cmp laws a b la lb Ha Hb F) as (a' & b' & E & H1 & H2). exists a', b'. split; auto.
      split; apply as_holds_shows; auto. apply fits_tag. cbn. lia.
  Qed.
  Lemma as_compare_l teq ocmp a b la lb : as_shows a la -> as_shows b lb ->
    as_eq teq a b = Ok (x_seq_eqb teq la lb) /\ as_cmp ocmp a b = Ok (x_seq_cmp ocmp la lb)
    /\ forall H (hlen : H -> nat -> H) ht s, as_hash hlen ht a s = Ok (fold_left ht la (hlen s (length la))).
  Proof.
    intros Ha Hb. go Ha. go Hb. split; [now apply (as_eq_ok bor cmp)|].
    split; [now apply (as_cmp_ok bor cmp)|intros; now apply (as_hash_ok bor cmp)].
  Qed.
  Lemma all_small_end teq ocmp sub ni os : forall st,
    x_all_small bor cmp teq ocmp sub ni st os -> Forall x_small (fst (x_run bor cmp teq ocmp sub ni st os)).
  Proof.
    induction os as [|o os IH]; intros st H; cbn [x_all_small x_run] in *; [apply H|].
    destruct H as (_ & _ & H). destruct (x_step bor cmp teq ocmp sub ni st o) as [st1 r].
    specialize (IH st1 H). destruct (x_run bor cmp teq ocmp sub ni st1 os). exact IH.
  Qed.
  Lemma as_history_l teq ocmp same (os : list (xop T Q)) :
    (forall n a b, same n a b = true -> a = b) ->
    x_all_small bor cmp teq ocmp (x_subset bor cmp) (x_inter bor cmp) [] os ->
    exists st, as_run bor cmp teq ocmp same [] os
               = Ok (st, snd (x_run bor cmp teq ocmp (x_subset bor cmp) (x_inter bor cmp) [] os))
      /\ Forall2 as_shows st (fst (x_run bor cmp teq ocmp (x_subset bor cmp) (x_inter bor cmp) [] os)).
  Proof.
    intros Hs Sm. destruct (run_ok bor cmp laws teq ocmp os same [] [] Hs (Forall2_nil _) Sm) as (st & E & R).
    exists st. split; auto. apply all_small_end in Sm.
    set (fin := fst _) in *. clearbody fin. clear - R Sm laws. induction R as [|s l st fin H R IH]; constructor.
    - apply as_holds_shows; auto. apply small_tag. now inversion Sm.
    - apply IH. now inversion Sm.
  Qed.
End Avl.

Section BTree.
  Import BTreeModel BTreeProofs2 BTreeSetProofs.
  Context {T Q : Type} (bor : T -> Q) (cmp : Q -> Q -> comparison) (N : nat).
  Notation bset := (@bset T).

  (** [check()] succeeds, [iter()] yields [l], and no node has a surplus child. *)
  Definition bs_shows (s : bset) (l : list T) : Prop :=
    BTreeChkProofs.map_kids_match s = true /\ bs_check bor cmp N s = Ok true
    /\ yields (fun n => bs_ends (repeat Front n) (bs_iter s)) l.

  Context (laws : order_laws cmp) (HN : 1 <= N).
  Notation holds := (@holds T Q bor cmp N).
  Notation mem := (@x_mem T Q bor cmp).

  Lemma bs_shows_holds s l : bs_shows s l -> holds s l.
  Proof.
    intros (H0 & H1 & H2). unfold bs_check in H1.
    destruct (b_chk bor cmp N s) as [[[]|]|] eqn:E; try discriminate.
    assert (Hv : valid bor cmp N s) by (apply (BTreeChkProofs.check_iff bor cmp laws N HN); auto).
    assert (Hh : holds s (map fst (contents s))) by (split; auto; now rewrite untag).
    unfold yields in H2. rewrite (bs_ends_ok bor cmp N HN _ s _ Hh) in H2. apply (f_equal (fun r => match r with Ok x => x | Panic => [] end)) in H2. cbn beta iota in H2.
    replace l with (map fst (contents s)); auto. apply ends_inj. exact H2.
  Qed.
  Lemma bs_holds_shows s l : holds s l -> bs_shows s l.
  Proof.
    intros H. split; [apply (proj2 (BTreeChkProofs.check_iff bor cmp laws N HN s)); apply H|].
    split; [now apply (bs_check_ok bor cmp laws N HN s l)|now apply (bs_ends_ok bor cmp N HN)].
  Qed.
  Lemma bs_shows_iff s l : bs_shows s l <-> holds s l.
  Proof. split; [apply bs_shows_holds|apply bs_holds_shows]. Qed.
  Lemma bs_shows_asc s l : bs_shows s l -> x_ascending bor cmp l /\ bs_len s = length l.
  Proof. rewrite bs_shows_iff. intros H. split; [now apply (holds_asc bor cmp N s)|now apply (holds_len bor cmp N)]. Qed.
  Lemma bs_new_l : bs_shows bs_new [] /\ forall s, bs_shows (bs_clear s) [].
  Proof. split; [|intros s]; repeat split. Qed.

  Ltac ex1 L := let s := fresh in let E := fresh in let H := fresh in
    destruct L as (s & E & H); exists s; rewrite bs_shows_iff; auto.

  Lemma bs_insert_l s l x : bs_shows s l ->
    exists s', bs_insert bor cmp N s x = Ok (s', negb (mem (bor x) l)) /\ bs_shows s' (x_insert bor cmp x l).
  Proof. rewrite bs_shows_iff. intros H. ex1 (bs_insert_ok bor cmp laws N HN s l x H). Qed.
  Lemma bs_remove_l s l q : bs_shows s l ->
    (exists s', bs_remove bor cmp N s q = Ok (s', mem q l) /\ bs_shows s' (x_remove bor cmp q l))
    /\ (exists s', bs_take bor cmp N s q = Ok (s', x_find bor cmp q l) /\ bs_shows s' (x_remove bor cmp q l)).
  Proof.
    rewrite bs_shows_iff. intros H. split.
    - ex1 (bs_remove_ok bor cmp laws N HN s l q H).
    - ex1 (bs_take_ok bor cmp laws N HN s l q H).
  Qed.
  Lemma bs_replace_l s l x : bs_shows s l ->
    exists s', bs_replace bor cmp N s x = Ok (s', x_find bor cmp (bor x) l) /\ bs_shows s' (x_insert bor cmp x l).
  Proof. rewrite bs_shows_iff. intros H. ex1 (bs_replace_ok bor cmp laws N HN s l x H). Qed.
  Lemma bs_lookup_l s l q : bs_shows s l ->
    bs_contains bor cmp s q = mem q l /\ bs_get bor cmp s q = x_find bor cmp q l
    /\ bs_first s = Ok (hd_error l) /\ bs_last s = hd_error (rev l)
    /\ bs_len s = length l /\ bs_is_empty s = match l with [] => true | _ => false end.
  Proof.
    rewrite bs_shows_iff. intros H. rewrite (bs_contains_ok bor cmp laws N HN s l), (bs_get_ok bor cmp laws N HN s l),
      (bs_first_ok bor cmp N HN s l), (bs_last_ok bor cmp N HN s l), (holds_len bor cmp N s l), (holds_empty bor cmp N s l) by auto.
    auto 10.
  Qed.
  Lemma bs_pops_l s l : bs_shows s l ->
    (exists s', bs_pop_first N s = Ok (s', hd_error l) /\ bs_shows s' (tl l))
    /\ (exists s', bs_pop_last N s = Ok (s', hd_error (rev l)) /\ bs_shows s' (removelast l)).
  Proof.
    rewrite bs_shows_iff. intros H. split.
    - ex1 (bs_pop_first_ok bor cmp N HN s l H).
    - ex1 (bs_pop_last_ok bor cmp N HN s l H).
  Qed.
  Lemma bs_split_off_l un s l q : bs_shows s l ->
    exists s1 s2, bs_split_off bor cmp N un s q = Ok (s1, s2) /\ bs_shows s1 (filter (x_lt bor cmp q) l)
      /\ bs_shows s2 (filter (fun x => negb (x_lt bor cmp q x)) l).
  Proof.
    rewrite bs_shows_iff. intros H. destruct (bs_split_off_ok bor cmp laws N HN un s l q H) as (s1 & s2 & E & H1 & H2).
    exists s1, s2. rewrite !bs_shows_iff. auto.
  Qed.
  Lemma bs_retain_l A un (f : A -> T -> A * bool) s l a : bs_shows s l ->
    exists s', bs_retain bor cmp N un f s a = Ok (s', snd (x_retain f a l)) /\ bs_shows s' (fst (x_retain f a l)).
  Proof. rewrite bs_shows_iff. intros H. ex1 (bs_retain_ok bor cmp laws N HN un f s l a H). Qed.
  Lemma bs_extend_l s l xs : bs_shows s l ->
    exists s', bs_extend bor cmp N s xs = Ok s' /\ bs_shows s' (x_extend bor cmp l xs).
  Proof. rewrite bs_shows_iff. intros H. ex1 (bs_extend_ok bor cmp laws N HN xs s l H). Qed.
  Lemma bs_from_iter_l xs : exists s', bs_from_iter bor cmp N xs = Ok s' /\ bs_shows s' (x_extend bor cmp [] xs).
  Proof. apply (bs_extend_l bs_new []). apply bs_new_l. Qed.
  Lemma bs_iter_l s l : bs_shows s l ->
    (forall cs, bs_ends cs (bs_iter s) = Ok (s_ends cs l))
    /\ (forall un, bs_into_list un s = Ok l)
    /\ (forall lo hi cs, x_fine bor cmp lo hi l ->
        bs_range bor cmp s lo hi cs = Ok (map fst (s_ends cs (x_range bor cmp lo hi l)))).
  Proof.
    rewrite bs_shows_iff. intros H. split; [|split]; intros.
    - now apply (bs_ends_ok bor cmp N HN).
    - now apply (bs_into_ok bor cmp N HN).
    - now apply (bs_range_ok bor cmp laws N HN).
  Qed.
  Lemma bs_subset_l s1 s2 l1 l2 : bs_shows s1 l1 -> bs_shows s2 l2 ->
    bs_is_subset bor cmp s1 s2 = Ok (x_strict_subset bor cmp l1 l2)
    /\ bs_is_superset bor cmp s1 s2 = Ok (x_strict_subset bor cmp l2 l1).
  Proof.
    rewrite !bs_shows_iff. intros H1 H2. unfold bs_is_superset. split; now apply (bs_subset_ok bor cmp laws N HN).
  Qed.
  Lemma bs_setop_l a b la lb : bs_shows a la -> bs_shows b lb -> forall n,
    bs_setop bor cmp p_union a b n = Ok (s_nexts n (x_union bor cmp la lb))
    /\ bs_setop bor cmp p_intersection a b n = Ok (s_nexts n (x_inter bor cmp lb la))
    /\ bs_setop bor cmp p_difference a b n = Ok (s_nexts n (x_diff bor cmp la lb))
    /\ bs_setop bor cmp p_symmetric_difference a b n = Ok (s_nexts n (x_symdiff bor cmp la lb))
    /\ bs_is_disjoint bor cmp a b = Ok (x_disjoint bor cmp la lb).
  Proof.
    rewrite !bs_shows_iff. intros Ha Hb n.
    pose proof (holds_asc bor cmp N _ _ Ha). pose proof (holds_asc bor cmp N _ _ Hb).
    rewrite !(bs_setop_ok bor cmp N HN _ a b la lb) by auto. rewrite (bs_disjoint_ok bor cmp laws N HN a b la lb) by auto.
    rewrite (kept_union bor cmp laws), (kept_inter bor cmp laws), (kept_diff bor cmp laws), (kept_symdiff bor cmp laws) by auto.
    auto 10.
  Qed.
  Lemma bs_algebra_l un a b la lb : bs_shows a la -> bs_shows b lb ->
    (exists s, bs_new_union bor cmp N un a b = Ok s /\ bs_shows s (x_union bor cmp la lb))
    /\ (exists s, bs_new_intersection bor cmp N un a b = Ok s /\ bs_shows s (x_small_inter bor cmp la lb))
    /\ (exists s, bs_new_diff bor cmp N un a b = Ok s /\ bs_shows s (x_diff bor cmp la lb))
    /\ (exists s, bs_new_sym_diff bor cmp N un a b = Ok s /\ bs_shows s (x_symdiff bor cmp la lb))
    /\ (exists a' b', bs_append bor cmp N un a b = Ok (a', b') /\ bs_shows a' (x_union bor cmp la lb) /\ bs_shows b' []).
  Proof.
    rewrite !bs_shows_iff. intros Ha Hb. split; [|split; [|split; [|split]]].
    - ex1 (bs_new_union_ok bor cmp laws N HN un a b la lb Ha Hb).
    - ex1 (bs_new_inter_ok bor cmp laws N HN un a b la lb Ha Hb).
    - ex1 (bs_new_diff_ok bor cmp laws N HN un a b la lb Ha Hb).
    - ex1 (bs_new_sym_diff_ok bor cmp laws N HN un a b la lb Ha Hb).
    - destruct (bs_append_ok bor cmp laws N HN un a b la lb Ha Hb) as (a' & b' & E & H1 & H2). exists a', b'.
      rewrite !bs_shows_iff. auto.
  Qed.
  Lemma bs_compare_l teq ocmp a b la lb : bs_shows a la -> bs_shows b lb ->
    bs_eq teq a b = Ok (x_seq_eqb teq la lb) /\ bs_cmp ocmp a b = Ok (x_seq_cmp ocmp la lb)
    /\ forall H (hlen : H -> nat -> H) ht s, bs_hash hlen ht a s = Ok (fold_left ht la (hlen s (length la))).
  Proof.
    rewrite !bs_shows_iff. intros Ha Hb. split; [now apply (bs_eq_ok bor cmp N HN)|].
    split; [now apply (bs_cmp_ok bor cmp N HN)|intros; now apply (bs_hash_ok bor cmp N HN)].
  Qed.
  Lemma bs_history_l teq ocmp un (os : list (xop T Q)) :
    x_all_supported bor cmp teq ocmp (x_strict_subset bor cmp) (x_small_inter bor cmp) [] os ->
    exists st, bs_run bor cmp N teq ocmp un [] os
               = Ok (st, snd (x_run bor cmp teq ocmp (x_strict_subset bor cmp) (x_small_inter bor cmp) [] os))
      /\ Forall2 bs_shows st (fst (x_run bor cmp teq ocmp (x_strict_subset bor cmp) (x_small_inter bor cmp) [] os)).
  Proof.
    intros Sm. destruct (bs_run_ok bor cmp laws N HN teq ocmp os un [] [] (Forall2_nil _) Sm) as (st & E & R).
    exists st. split; auto. clear - R laws HN.
    induction R as [|s l st fin H R IH]; constructor; auto. now apply bs_holds_shows.
  Qed.
End BTree.

(** *** The two kinds of set against each other *)
Section Both.
  Context {T Q : Type} (bor : T -> Q) (cmp : Q -> Q -> comparison) (laws : order_laws cmp).
  Context (teq : T -> T -> bool) (ocmp : T -> T -> comparison).
  Context (anti : forall x y, cmp (bor x) (bor y) = Eq -> x = y).
  Notation xasc := (@x_ascending T Q bor cmp).

  Definition no_subset_test (o : xop T Q) : Prop :=
    match o with XIsSubset _ _ | XIsSuperset _ _ => False | _ => True end.

  Lemma small_inter_eq l r : xasc l -> xasc r -> x_small_inter bor cmp l r = x_inter bor cmp l r.
  Proof.
    intros Hl Hr. unfold x_small_inter. destruct (_ <? _); auto.
    apply (xasc_ext bor cmp laws); try now apply xasc_filter.
    intros q. rewrite !xfind_inter by auto. rewrite ?xmem_find.
    destruct (x_find bor cmp q l) as [x|] eqn:E1, (x_find bor cmp q r) as [y|] eqn:E2; auto. cbn.
    apply xfind_some in E1 as [_ E1]. apply xfind_some in E2 as [_ E2]. f_equal. apply anti.
    rewrite (cmp_eq_l _ laws _ _ _ E2). now apply (cmp_eq_sym laws).
  Qed.
  Lemma steps_agree sst o : Forall xasc sst -> no_subset_test o ->
    x_step bor cmp teq ocmp (x_strict_subset bor cmp) (x_small_inter bor cmp) sst o
    = x_step bor cmp teq ocmp (x_subset bor cmp) (x_inter bor cmp) sst o.
  Proof.
    intros F No. destruct o; try contradiction; auto. cbn [x_step].
    destruct (nth_error sst h1) as [l|] eqn:E1, (nth_error sst h2) as [r|] eqn:E2; auto.
    rewrite small_inter_eq; auto; rewrite Forall_forall in F; apply F; eapply nth_error_In; eauto.
  Qed.
  Lemma asc_held l : xasc l -> exists s, BTreeSetProofs.holds bor cmp 1 s l.
  Proof.
    intros H. destruct (BTreeSetProofs.bs_from_iter_ok bor cmp laws 1 (le_n 1) l) as (s & _ & Hs).
    rewrite (BTreeSetProofs.from_asc bor cmp laws) in Hs; eauto.
  Qed.
  Lemma step_asc sst o : Forall xasc sst -> x_supported bor cmp sst o ->
    Forall xasc (fst (x_step bor cmp teq ocmp (x_strict_subset bor cmp) (x_small_inter bor cmp) sst o)).
  Proof.
    intros F So. assert (H : exists st, BTreeSetProofs.holdss bor cmp 1 st sst).
    { clear So. induction F as [|l sst Hl F [st IH]]; [exists []; constructor|].
      destruct (asc_held l Hl) as [s Hs]. exists (s :: st). constructor; auto. }
    destruct H as [st H].
    destruct (BTreeSetProofs.bs_step_ok bor cmp laws 1 (le_n 1) teq ocmp (fun _ => true) st sst o H So) as (st' & _ & R).
    set (fin := fst _) in *. clearbody fin. clear - R.
    induction R as [|s l st' fin H R IH]; constructor; auto. now apply (BTreeSetProofs.holds_asc bor cmp 1 s).
  Qed.
  Lemma runs_agree os : forall sst, Forall xasc sst -> Forall no_subset_test os ->
    x_all_supported bor cmp teq ocmp (x_strict_subset bor cmp) (x_small_inter bor cmp) sst os ->
    x_run bor cmp teq ocmp (x_strict_subset bor cmp) (x_small_inter bor cmp) sst os
    = x_run bor cmp teq ocmp (x_subset bor cmp) (x_inter bor cmp) sst os.
  Proof.
    induction os as [|o os IH]; intros sst F No Su; auto. cbn [x_run]. cbn [x_all_supported] in Su. destruct Su as [So Su].
    inversion_clear No as [|? ? N1 N2]. rewrite <- (steps_agree sst o F N1).
    pose proof (step_asc sst o F So) as F1.
    destruct (x_step bor cmp teq ocmp (x_strict_subset bor cmp) (x_small_inter bor cmp) sst o) as [sst1 r].
    now rewrite IH.
  Qed.
  Lemma sets_interchange_l N same un (os : list (xop T Q)) : 1 <= N ->
    (forall n a b, same n a b = true -> a = b) -> Forall no_subset_test os ->
    x_all_small bor cmp teq ocmp (x_subset bor cmp) (x_inter bor cmp) [] os ->
    x_all_supported bor cmp teq ocmp (x_strict_subset bor cmp) (x_small_inter bor cmp) [] os ->
    exists st st' rs, as_run bor cmp teq ocmp same [] os = Ok (st, rs)
      /\ bs_run bor cmp N teq ocmp un [] os = Ok (st', rs).
  Proof.
    intros HN Hs No Sm Su.
    destruct (as_history_l bor cmp laws teq ocmp same os Hs Sm) as (st & E & _).
    destruct (bs_history_l bor cmp N laws HN teq ocmp un os Su) as (st' & E' & _).
    rewrite (runs_agree os []) in E' by auto. eauto.
  Qed.
End Both.
