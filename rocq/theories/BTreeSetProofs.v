(** Facts about the [BTreeSet] model. *)
From Coq Require Import List Bool Sorted ZArith Lia PeanoNat.
From Verif Require Import Base Spec MapSpec BTreeSpec SpecFacts SetSpec SetOpModel SetFacts
  Vec BTreeModel BTreeProofs BTreeProofs2 BTreeIterModel BTreeIterProofs BTreeIterProofs2 BTreeRangeProofs
  BTreeChkProofs BTreeHistModel BTreeHistProofs BTreeSetModel.
From Verif Require AvlMapProofs AvlSetModel AvlSetProofs.
Import ListNotations.
Local Open Scope nat_scope.
Notation xmem_app := AvlSetProofs.xmem_app.
Notation x_extend_asc := AvlSetProofs.x_extend_asc.
Notation x_retain_asc := AvlSetProofs.x_retain_asc.
Notation x_retain_pure := AvlSetProofs.x_retain_pure.
Notation subset_length := AvlSetProofs.subset_length.
Notation xlength_remove := AvlSetProofs.xlength_remove.

Section XSet.
  Context {T Q : Type} (bor : T -> Q) (cmp : Q -> Q -> comparison) (laws : order_laws cmp).
  Notation xasc := (@x_ascending T Q bor cmp).
  Notation mem := (@x_mem T Q bor cmp).
  Notation fnd := (@x_find T Q bor cmp).

  Lemma xasc_insert x l : xasc l -> xasc (x_insert bor cmp x l).
  Proof. rewrite <- !(tag_asc bor cmp), <- (tag_insert bor cmp x tt). apply (asc_insert bor cmp laws). Qed.
  Lemma xfind_insert q x l : xasc l ->
    fnd q (x_insert bor cmp x l) = match cmp (bor x) q with Eq => Some x | _ => fnd q l end.
  Proof.
    intros A. rewrite <- tag_find_fst, <- (tag_insert bor cmp x tt).
    rewrite (AvlMapProofs.find_insert bor cmp laws) by (now apply tag_asc).
    rewrite tag_find, (cmp_opp _ laws (bor x) q). destruct (cmp (bor x) q); cbn; auto; now destruct (fnd q l).
  Qed.
  Lemma xeq_sym x y : x_eq bor cmp (bor x) y = x_eq bor cmp (bor y) x.
  Proof. unfold x_eq. rewrite (cmp_opp _ laws (bor x) (bor y)). now destruct (cmp (bor x) (bor y)). Qed.
  Lemma xfind_remove q q' l : xasc l ->
    fnd q (x_remove bor cmp q' l) = match cmp q' q with Eq => None | _ => fnd q l end.
  Proof.
    intros _. unfold x_remove. induction l as [|y l IH]; cbn [filter]; [cbn; now destruct (cmp q' q)|].
    unfold x_eq at 1. rewrite (xfind_cons bor cmp q y l).
    destruct (cmp (bor y) q') eqn:E; cbn [negb].
    - rewrite IH, (cmp_eq_l _ laws _ _ q E). now destruct (cmp q' q).
    - rewrite xfind_cons, IH. destruct (cmp (bor y) q) eqn:F; auto.
      rewrite (cmp_eq_l _ laws _ _ q' F) in E. now rewrite (cmp_opp _ laws q q'), E.
    - rewrite xfind_cons, IH. destruct (cmp (bor y) q) eqn:F; auto.
      rewrite (cmp_eq_l _ laws _ _ q' F) in E. now rewrite (cmp_opp _ laws q q'), E.
  Qed.
  Lemma xmem_find_none q l : mem q l = match fnd q l with Some _ => true | None => false end.
  Proof. rewrite xmem_find. now destruct (fnd q l). Qed.
  Lemma xremove_absent q l : mem q l = false -> x_remove bor cmp q l = l.
  Proof.
    intros H. unfold x_remove. induction l as [|y l IH]; auto. cbn in *. apply orb_false_iff in H as [H1 H2].
    rewrite H1. cbn. now rewrite IH.
  Qed.
  Lemma filter_filter {A} (f g : A -> bool) l : filter f (filter g l) = filter (fun x => g x && f x) l.
  Proof. induction l as [|x l IH]; auto. cbn. destruct (g x); cbn; [destruct (f x)|]; now rewrite IH. Qed.
  Lemma remove_diff x l xs : x_diff bor cmp (x_remove bor cmp (bor x) l) xs = x_diff bor cmp l (x :: xs).
  Proof.
    unfold x_diff, x_remove. rewrite filter_filter. apply filter_ext. intros y. cbn [x_mem existsb].
    change (existsb (x_eq bor cmp (bor y)) xs) with (mem (bor y) xs).
    rewrite negb_orb, (xeq_sym x y). reflexivity.
  Qed.

  (** Inserting only what is absent; inserting what is absent and removing what is not. *)
  Definition x_or (x : T) (l : list T) : list T := if mem (bor x) l then l else x_insert bor cmp x l.
  Definition x_toggle (x : T) (l : list T) : list T :=
    if mem (bor x) l then x_remove bor cmp (bor x) l else x_insert bor cmp x l.
  Lemma x_or_asc x l : xasc l -> xasc (x_or x l).
  Proof. unfold x_or. destruct (mem (bor x) l); auto. apply xasc_insert. Qed.
  Lemma x_toggle_asc x l : xasc l -> xasc (x_toggle x l).
  Proof. unfold x_toggle. destruct (mem (bor x) l); [apply xasc_filter; auto|apply xasc_insert]. Qed.
  Lemma ors_asc xs : forall l, xasc l -> xasc (fold_left (fun a x => x_or x a) xs l).
  Proof. induction xs as [|x xs IH]; intros l H; auto. cbn. apply IH, x_or_asc, H. Qed.
  Lemma toggles_asc xs : forall l, xasc l -> xasc (fold_left (fun a x => x_toggle x a) xs l).
  Proof. induction xs as [|x xs IH]; intros l H; auto. cbn. apply IH, x_toggle_asc, H. Qed.

  Lemma ors_find q xs : forall l, xasc l -> xasc xs ->
    fnd q (fold_left (fun a x => x_or x a) xs l) = match fnd q l with Some x => Some x | None => fnd q xs end.
  Proof.
    induction xs as [|x xs IH]; intros l Hl Hx; cbn [fold_left]; [now destruct (fnd q l)|].
    apply xasc_cons_iff in Hx as [Hx Hgt]. rewrite IH by (auto; now apply x_or_asc).
    rewrite xfind_cons. unfold x_or. rewrite xmem_find_none.
    destruct (cmp (bor x) q) eqn:E.
    - rewrite (xfind_none_lt bor cmp laws xs x q Hgt E). rewrite (xfind_eq_q bor cmp laws _ q l E).
      destruct (fnd q l) as [y|] eqn:F; [now rewrite F|]. now rewrite xfind_insert, E by auto.
    - destruct (fnd (bor x) l); auto. now rewrite xfind_insert, E by auto.
    - destruct (fnd (bor x) l); auto. now rewrite xfind_insert, E by auto.
  Qed.
  Lemma toggles_find q xs : forall l, xasc l -> xasc xs ->
    fnd q (fold_left (fun a x => x_toggle x a) xs l) =
    match fnd q l, fnd q xs with Some x, None => Some x | None, Some x => Some x | _, _ => None end.
  Proof.
    induction xs as [|x xs IH]; intros l Hl Hx; cbn [fold_left]; [now destruct (fnd q l)|].
    apply xasc_cons_iff in Hx as [Hx Hgt]. rewrite IH by (auto; now apply x_toggle_asc).
    rewrite xfind_cons. unfold x_toggle. rewrite xmem_find_none.
    destruct (cmp (bor x) q) eqn:E.
    - rewrite (xfind_none_lt bor cmp laws xs x q Hgt E). rewrite (xfind_eq_q bor cmp laws _ q l E).
      destruct (fnd q l) as [y|] eqn:F; [now rewrite xfind_remove, E by auto|].
      now rewrite xfind_insert, E by auto.
    - destruct (fnd (bor x) l); [rewrite xfind_remove by auto|rewrite xfind_insert by auto]; now rewrite E.
    - destruct (fnd (bor x) l); [rewrite xfind_remove by auto|rewrite xfind_insert by auto]; now rewrite E.
  Qed.
  Lemma ors_union l r : xasc l -> xasc r -> fold_left (fun a x => x_or x a) l r = x_union bor cmp l r.
  Proof.
    intros Hl Hr. apply (xasc_ext bor cmp laws); [now apply ors_asc|now apply xasc_union|].
    intros q. now rewrite ors_find, xfind_union.
  Qed.
  Lemma toggles_symdiff l r : xasc l -> xasc r -> fold_left (fun a x => x_toggle x a) r l = x_symdiff bor cmp l r.
  Proof.
    intros Hl Hr. apply (xasc_ext bor cmp laws); [now apply toggles_asc|now apply xasc_symdiff|].
    intros q. now rewrite toggles_find, xfind_symdiff.
  Qed.
  Lemma symdiff_sym l r : xasc l -> xasc r -> x_symdiff bor cmp l r = x_symdiff bor cmp r l.
  Proof.
    intros Hl Hr. apply (xasc_ext bor cmp laws); try now apply xasc_symdiff.
    intros q. rewrite !xfind_symdiff by auto. now destruct (fnd q l), (fnd q r).
  Qed.
  Lemma from_asc l : xasc l -> x_extend bor cmp [] l = l.
  Proof. intros H. now apply (x_extend_asc bor cmp laws). Qed.
End XSet.

Section BTreeSetProofs.
  Context {T Q : Type} (bor : T -> Q) (cmp : Q -> Q -> comparison) (laws : order_laws cmp).
  Context (N : nat) (HN : 1 <= N).
  Notation bset := (@bset T).
  Notation valid := (@valid T unit Q bor cmp N).
  Notation xasc := (@x_ascending T Q bor cmp).
  Notation mem := (@x_mem T Q bor cmp).

  (** The set holds [l]. *)
  Definition holds (s : bset) (l : list T) : Prop := valid s /\ contents s = tag l.

  Lemma holds_asc s l : holds s l -> xasc l.
  Proof. intros [(H & _) E]. unfold contents in *. rewrite E in H. now apply (proj1 (tag_asc bor cmp l)). Qed.
  Lemma holds_len s l : holds s l -> bs_len s = length l.
  Proof. intros [(_ & L & _) E]. unfold bs_len, b_len. now rewrite L, E, tag_length. Qed.
  Lemma holds_empty s l : holds s l -> bs_is_empty s = match l with [] => true | _ => false end.
  Proof. intros [H E]. unfold bs_is_empty. rewrite (is_empty_ok bor cmp N) by auto. rewrite E. now destruct l. Qed.
  Lemma holds_new : holds bs_new [].
  Proof. split; [apply valid_new|reflexivity]. Qed.

  Lemma bs_contains_ok s l q : holds s l -> bs_contains bor cmp s q = mem q l.
  Proof. intros [H E]. unfold bs_contains. rewrite (proj2 (b_get_ok bor cmp laws N HN s q H)). now rewrite E, tag_mem. Qed.
  Lemma bs_get_ok s l q : holds s l -> bs_get bor cmp s q = x_find bor cmp q l.
  Proof. intros [H E]. unfold bs_get. rewrite (proj1 (b_get_ok bor cmp laws N HN s q H)). now rewrite E, tag_find_fst. Qed.
  Lemma bs_first_ok s l : holds s l -> bs_first s = Ok (hd_error l).
  Proof.
    intros [H E]. unfold bs_first. rewrite (proj1 (b_first_last_ok bor cmp N HN s H)). cbn [bind].
    rewrite E. unfold s_first. now rewrite tag_hd.
  Qed.
  Lemma bs_last_ok s l : holds s l -> bs_last s = hd_error (rev l).
  Proof.
    intros [H E]. unfold bs_last. rewrite (proj2 (b_first_last_ok bor cmp N HN s H)).
    rewrite E. unfold s_last. now rewrite tag_rev, tag_hd.
  Qed.
  Lemma bs_insert_ok s l x : holds s l ->
    exists s', bs_insert bor cmp N s x = Ok (s', negb (mem (bor x) l)) /\ holds s' (x_insert bor cmp x l).
  Proof.
    intros [H E]. destruct (b_insert_ok bor cmp laws N HN s x tt H) as (s' & E' & Hv & Hc).
    exists s'. unfold bs_insert. rewrite E'. cbn [bind]. rewrite E in *. split.
    - unfold is_none. now rewrite tag_get.
    - split; auto. now rewrite Hc, tag_insert.
  Qed.
  Lemma bs_remove_ok s l q : holds s l ->
    exists s', bs_remove bor cmp N s q = Ok (s', mem q l) /\ holds s' (x_remove bor cmp q l).
  Proof.
    intros [H E]. destruct (b_remove_ok bor cmp laws N HN s q H) as (s' & E' & Hv & Hc).
    exists s'. unfold bs_remove. rewrite E'. cbn [bind]. rewrite E in *. split.
    - now rewrite tag_get.
    - split; auto. now rewrite Hc, tag_remove.
  Qed.

  (** [rm_and_rebal] with the remover of [n_remove], whether or not the element is there. *)
  Lemma rm_find_ok s l q : holds s l ->
    exists s' o, rm_and_rebal s (n_remove bor cmp N q) = Ok (s', o)
      /\ option_map fst o = x_find bor cmp q l /\ holds s' (x_remove bor cmp q l).
  Proof.
    intros [H E]. pose proof (holds_asc s l (conj H E)) as A.
    pose proof (xlength_remove bor cmp laws q l A) as Hl. rewrite xmem_find in Hl.
    destruct (x_find bor cmp q l) as [x|] eqn:F; cbn [is_some] in Hl.
    - destruct (rm_and_rebal_ok bor cmp N HN s (n_remove bor cmp N q) (tag (x_remove bor cmp q l)) (tag1 x))
        as (s' & E' & Hv & Hc); auto.
      + rewrite E, !tag_length. lia.
      + apply tag_asc. now apply xasc_filter.
      + intros t h Et Sh. unfold contents in E. rewrite Et in E.
        destruct (n_remove_ok bor cmp laws N HN 1 h t q) as (t' & ret & En & Fl & G); auto.
        { destruct H as (H & _). unfold contents in H. now rewrite Et in H. }
        rewrite E, tag_find, F in G. rewrite E, tag_remove in Fl.
        destruct ret as [[e u]|]; [|destruct G; discriminate]. destruct G as [G1 G2]. injection G1 as <-. eauto.
      + exists s', (Some (tag1 x)). split; auto. split; auto. split; auto.
    - unfold rm_and_rebal. unfold contents in E. destruct (bm_root s) as [t|] eqn:Et.
      + destruct H as (H1 & H2 & H3). unfold contents in H1, H2. rewrite Et in H1, H2, H3. destruct H3 as [h Sh].
        destruct (n_remove_ok bor cmp laws N HN 1 h t q) as (t' & ret & En & Fl & G); auto.
        rewrite E, tag_find, F in G. destruct ret as [[e u]|]; [destruct G; discriminate|]. destruct G as [_ G].
        rewrite En. cbn [bind]. eexists _, None. split; [reflexivity|]. split; auto.
        rewrite E, tag_remove in Fl. split; [|exact Fl]. unfold BTreeProofs2.valid, contents. cbn [bm_root bm_len].
        rewrite Fl. split; [apply tag_asc; now apply xasc_filter|]. split; [|eauto].
        rewrite H2, E, !tag_length. lia.
      + exists s, None. split; auto. split; auto.
        destruct l; [|discriminate]. split; auto. unfold contents. now rewrite Et.
  Qed.
  Lemma bs_take_ok s l q : holds s l ->
    exists s', bs_take bor cmp N s q = Ok (s', x_find bor cmp q l) /\ holds s' (x_remove bor cmp q l).
  Proof.
    intros H. unfold bs_take. rewrite (bs_contains_ok s l) by auto.
    destruct (mem q l) eqn:M; cbn [negb].
    - destruct (rm_find_ok s l q H) as (s' & o & E & Ho & H'). rewrite E. cbn [bind]. exists s'. now rewrite Ho.
    - exists s. rewrite xremove_absent by auto. rewrite xmem_find in M. now destruct (x_find bor cmp q l).
  Qed.
  Lemma insert_remove x l : x_insert bor cmp x (x_remove bor cmp (bor x) l) = x_insert bor cmp x l.
  Proof.
    unfold x_insert, x_remove. f_equal; [|f_equal];
      (clear; induction l as [|y l IH]; cbn; auto; unfold x_lt, x_gt, x_eq in *;
       destruct (cmp (bor y) (bor x)) eqn:E; cbn; rewrite ?E, ?IH; auto).
  Qed.
  Lemma bs_replace_ok s l x : holds s l ->
    exists s', bs_replace bor cmp N s x = Ok (s', x_find bor cmp (bor x) l) /\ holds s' (x_insert bor cmp x l).
  Proof.
    intros H. unfold bs_replace. destruct (rm_find_ok s l (bor x) H) as (s1 & o & E & Ho & H1). rewrite E. cbn [bind].
    destruct (bs_insert_ok s1 _ x H1) as (s2 & E2 & H2). rewrite E2. cbn [bind]. rewrite Ho.
    exists s2. split; auto. now rewrite insert_remove in H2.
  Qed.
  Lemma bs_pop_first_ok s l : holds s l -> exists s', bs_pop_first N s = Ok (s', hd_error l) /\ holds s' (tl l).
  Proof.
    intros [H E]. destruct (b_pop_first_ok bor cmp N HN s H) as (s' & E' & Hv & Hc).
    exists s'. unfold bs_pop_first. rewrite E'. cbn [bind]. rewrite E in *. unfold s_first. rewrite tag_hd.
    split; auto. split; auto. now rewrite Hc, tag_tl.
  Qed.
  Lemma bs_pop_last_ok s l : holds s l -> exists s', bs_pop_last N s = Ok (s', hd_error (rev l)) /\ holds s' (removelast l).
  Proof.
    intros [H E]. destruct (b_pop_last_ok bor cmp N HN s H) as (s' & E' & Hv & Hc).
    exists s'. unfold bs_pop_last. rewrite E'. cbn [bind]. rewrite E in *. unfold s_last. rewrite tag_rev, tag_hd.
    split; auto. split; auto. now rewrite Hc, tag_removelast.
  Qed.
  Lemma bs_extend_ok xs : forall s l, holds s l ->
    exists s', bs_extend bor cmp N s xs = Ok s' /\ holds s' (x_extend bor cmp l xs).
  Proof.
    induction xs as [|x xs IH]; intros s l H; cbn [bs_extend]; [eauto|].
    destruct (bs_insert_ok s l x H) as (s1 & E1 & H1). rewrite E1. cbn [bind]. apply (IH s1 _ H1).
  Qed.
  Lemma bs_from_iter_ok xs : exists s', bs_from_iter bor cmp N xs = Ok s' /\ holds s' (x_extend bor cmp [] xs).
  Proof. apply bs_extend_ok, holds_new. Qed.

  (** *** Iterators *)
  Lemma bs_next_ok w (l : list T) n : Forall ok2 w -> dens w = tag l -> length l <= n ->
    exists w', bs_next (BIter w n) = Ok (hd_error l, BIter w' (n - (if l then 0 else 1)))
      /\ Forall ok2 w' /\ dens w' = tag (tl l).
  Proof.
    intros W D L. unfold bs_next. pose proof W as W0. apply ok2s in W0 as [W1 W2].
    destruct (next_ok w n W1) as (w' & E & H1 & H2 & H3).
    { rewrite D. destruct l; cbn in *; [congruence|lia]. }
    rewrite E. cbn [bind]. rewrite D in *. rewrite tag_hd. exists w'. split; [now destruct l|].
    split; [|now rewrite H2, tag_tl]. apply ok2s. auto.
  Qed.
  Lemma bs_iter_gives s l : holds s l -> gives bs_next bs_it_len l (bs_iter s).
  Proof.
    intros [Hv Hc]. destruct (iter_start bor cmp N HN s Hv) as (W & D & L & _). unfold bs_iter.
    destruct (bt_iter s) as [w n]. cbn [bi_work bi_len] in *. rewrite Hc, ?tag_length in *.
    assert (G : forall (l : list T) w n, Forall ok2 w -> dens w = tag l -> length l <= n ->
      gives bs_next bs_it_len l (BIter w n)).
    { clear - HN. induction l as [|x l IH]; intros w n W D L; cbn [gives]; (split; [exact L|]);
        destruct (bs_next_ok w _ n W D L) as (w' & E & W' & D'); eexists; (split; [exact E|]); auto.
      apply IH; auto. cbn [length] in L. lia. }
    apply G; auto. lia.
  Qed.
  Lemma bs_ends_eq cs : forall (i : @bs_it T) l, b_run_ends borrowed cs i = Ok l -> bs_ends cs i = Ok (map fst_item l).
  Proof.
    induction cs as [|c cs IH]; intros i l H; cbn [b_run_ends bs_ends] in *.
    - injection H as <-. reflexivity.
    - unfold bs_next, bs_next_back.
      destruct c; [destruct (b_next borrowed i) as [[o i']|]|destruct (b_next_back borrowed i) as [[o i']|]];
        try discriminate; cbn [bind] in *;
        (destruct (b_run_ends borrowed cs i') as [rest|] eqn:E; [|discriminate]); cbn [bind] in *;
        injection H as <-; rewrite (IH _ _ E); reflexivity.
  Qed.
  Lemma bs_ends_ok cs s l : holds s l -> bs_ends cs (bs_iter s) = Ok (s_ends cs l).
  Proof.
    intros [Hv Hc]. pose proof (iter_run bor cmp N HN s cs Hv) as H. rewrite Hc in H.
    unfold bs_iter. rewrite (bs_ends_eq _ _ _ H). now rewrite tag_ends.
  Qed.
  Lemma bs_range_ok s l lo hi cs : holds s l -> x_fine bor cmp lo hi l ->
    bs_range bor cmp s lo hi cs = Ok (map fst (s_ends cs (x_range bor cmp lo hi l))).
  Proof.
    intros [Hv Hc] G0. assert (G : bounds_fine bor cmp lo hi (tag l)).
    { destruct G0 as [G1 G2]. split; auto. intros q Hq. rewrite tag_mem. auto. }
    apply fine_good in G. rewrite <- Hc in G. unfold bs_range.
    destruct (range_ok bor cmp laws N HN s lo hi Hv G) as (w & E & W & _ & D). rewrite E. cbn [bind].
    destruct (run_ends_ok cs w (length (contents s)) W) as (r & El & Hm & _).
    { rewrite D. unfold s_range. clear. generalize (contents s) as l. induction l as [|x l IH]; cbn [filter length]; [lia|].
      destruct (_ && _); cbn [length]; lia. }
    rewrite El. cbn [bind]. f_equal. rewrite D, Hc in Hm.
    rewrite tag_range in Hm. rewrite <- (map_map fst (option_map fst)), Hm.
    rewrite <- (tag_ends cs (x_range bor cmp lo hi l)), !map_map. reflexivity.
  Qed.
  Lemma bs_setop_ok P a b la lb n : holds a la -> holds b lb ->
    bs_setop bor cmp P a b n = Ok (s_nexts n (kept bor cmp P la lb)).
  Proof.
    intros Ha Hb. unfold bs_setop, merge_new.
    apply (setop_nexts_ok bor cmp bs_next bs_it_len P n la lb); apply AvlSetProofs.pgives_new; now apply bs_iter_gives.
  Qed.
  Lemma bs_setop_first_ok P a b la lb : holds a la -> holds b lb ->
    bs_setop_first bor cmp P a b = Ok (hd_error (kept bor cmp P la lb)).
  Proof.
    intros Ha Hb. unfold bs_setop_first, merge_new.
    destruct (setop_next_ok bor cmp bs_next bs_it_len P la lb (pk_new (bs_iter a)) (pk_new (bs_iter b)))
      as (p1 & p2 & l' & r' & E & _); try (apply AvlSetProofs.pgives_new; now apply bs_iter_gives).
    unfold AvlSetModel.tcmp. rewrite E. reflexivity.
  Qed.
  Lemma bs_disjoint_ok a b la lb : holds a la -> holds b lb ->
    bs_is_disjoint bor cmp a b = Ok (x_disjoint bor cmp la lb).
  Proof.
    intros Ha Hb. unfold bs_is_disjoint. rewrite (bs_setop_first_ok _ a b la lb) by auto. cbn [bind]. f_equal.
    rewrite (kept_inter bor cmp laws) by (eapply holds_asc; eauto).
    rewrite (disjoint_sym bor cmp laws), disjoint_inter. now destruct (x_inter bor cmp lb la).
  Qed.
  Notation strict_subset := (@x_strict_subset T Q bor cmp).
  Lemma bs_subset_ok a b la lb : holds a la -> holds b lb ->
    bs_is_subset bor cmp a b = Ok (strict_subset la lb).
  Proof.
    intros Ha Hb. unfold bs_is_subset, x_strict_subset. rewrite (holds_empty a la Ha).
    destruct la as [|x la0] eqn:E; auto. rewrite <- E in *. rewrite (holds_len a la), (holds_len b lb) by auto.
    destruct (length la <? length lb); auto. rewrite (bs_setop_first_ok _ a b la lb) by auto. cbn [bind andb].
    rewrite (kept_diff bor cmp laws) by (eapply holds_asc; eauto).
    rewrite subset_diff. now destruct (x_diff bor cmp la lb).
  Qed.

  (** *** Operations that consume a set *)
  Notation small_inter := (@x_small_inter T Q bor cmp).
  Section Un.
    Context (un : bt T unit -> bool).
    Lemma bs_into_ok s l : holds s l -> bs_into_list un s = Ok l.
    Proof.
      intros [H E]. unfold bs_into_list. rewrite (into_list_ok bor cmp N HN) by auto. cbn [bind].
      now rewrite E, tag_fst.
    Qed.
    Lemma bs_append_ok a b la lb : holds a la -> holds b lb ->
      exists a' b', bs_append bor cmp N un a b = Ok (a', b') /\ holds a' (x_union bor cmp la lb) /\ holds b' [].
    Proof.
      intros [Ha Ea] [Hb Eb]. destruct (append_ok bor cmp laws N HN un a b Ha Hb) as (a' & E & Hv & Hc).
      exists a', b_new. split; auto. rewrite Ea, Eb, tag_union in Hc. split; [now split|apply holds_new].
    Qed.
    Lemma bs_split_off_ok s l q : holds s l ->
      exists s1 s2, bs_split_off bor cmp N un s q = Ok (s1, s2) /\ holds s1 (filter (x_lt bor cmp q) l)
        /\ holds s2 (filter (fun x => negb (x_lt bor cmp q x)) l).
    Proof.
      intros [H E]. destruct (split_off_ok bor cmp laws N HN un s q H) as (s1 & s2 & E' & Hv1 & Hv2 & Hc1 & Hc2).
      exists s1, s2. split; auto. rewrite E in *. rewrite tag_filter in Hc1, Hc2. split; split; auto.
    Qed.
    Lemma filter_state_eq {S} (f : S -> T -> S * bool) l : forall s, filter_state f s l = x_retain f s l.
    Proof.
      induction l as [|x l IH]; intros s; cbn [filter_state x_retain]; auto. destruct (f s x) as [s1 k].
      rewrite IH. destruct (x_retain f s1 l). now destruct k.
    Qed.
    Lemma bs_retain_ok {S} (f : S -> T -> S * bool) x l s : holds x l ->
      exists x', bs_retain bor cmp N un f x s = Ok (x', snd (x_retain f s l)) /\ holds x' (fst (x_retain f s l)).
    Proof.
      intros H. unfold bs_retain. rewrite (bs_into_ok x l) by auto. cbn [bind]. rewrite filter_state_eq.
      pose proof (x_retain_asc bor cmp f l s (holds_asc x l H)) as A.
      destruct (x_retain f s l) as [ys s']. cbn [fst snd] in *.
      destruct (bs_from_iter_ok ys) as (x' & E & H'). unfold bs_from_iter in E. rewrite E. cbn [bind].
      exists x'. split; auto. now rewrite (from_asc bor cmp laws) in H'.
    Qed.
    Lemma remove_all_ok xs : forall s l, holds s l ->
      exists s', remove_all bor cmp N s xs = Ok s' /\ holds s' (x_diff bor cmp l xs).
    Proof.
      induction xs as [|x xs IH]; intros s l H; cbn [remove_all].
      - exists s. split; auto. replace (x_diff bor cmp l []) with l; auto. unfold x_diff.
        clear. induction l as [|y l IH]; auto. cbn in *. now rewrite <- IH.
      - destruct (bs_remove_ok s l (bor x) H) as (s1 & E & H1). rewrite E. cbn [bind].
        destruct (IH s1 _ H1) as (s2 & E2 & H2). exists s2. split; auto. now rewrite (remove_diff bor cmp laws) in H2.
    Qed.
    Lemma contains_filter s l xs (g : bool -> bool) : holds s l ->
      filter (fun k => g (bs_contains bor cmp s (bor k))) xs = filter (fun k => g (mem (bor k) l)) xs.
    Proof. intros H. apply filter_ext. intros x. now rewrite (bs_contains_ok s l). Qed.
    Lemma bs_new_diff_ok a b la lb : holds a la -> holds b lb ->
      exists s, bs_new_diff bor cmp N un a b = Ok s /\ holds s (x_diff bor cmp la lb).
    Proof.
      intros Ha Hb. unfold bs_new_diff. rewrite (bs_into_ok a la), (bs_into_ok b lb) by auto. cbn [bind].
      destruct (_ <? _).
      - rewrite (contains_filter b lb la negb Hb). destruct (bs_from_iter_ok (filter (fun k => negb (mem (bor k) lb)) la)) as (s & E & H).
        exists s. split; auto. rewrite (from_asc bor cmp laws) in H; auto. apply xasc_filter. now apply (holds_asc a).
      - now apply remove_all_ok.
    Qed.
    Lemma bs_new_inter_ok a b la lb : holds a la -> holds b lb ->
      exists s, bs_new_intersection bor cmp N un a b = Ok s /\ holds s (small_inter la lb).
    Proof.
      intros Ha Hb. unfold bs_new_intersection, x_small_inter.
      rewrite (bs_into_ok a la), (bs_into_ok b lb) by auto. cbn [bind].
      rewrite (holds_len a la), (holds_len b lb) by auto.
      destruct (_ <? _).
      - rewrite (contains_filter b lb la (fun b => b) Hb).
        destruct (bs_from_iter_ok (filter (fun k => mem (bor k) lb) la)) as (s & E & H).
        exists s. split; auto. rewrite (from_asc bor cmp laws) in H; auto. apply xasc_filter. now apply (holds_asc a).
      - rewrite (contains_filter a la lb (fun b => b) Ha).
        destruct (bs_from_iter_ok (filter (fun k => mem (bor k) la) lb)) as (s & E & H).
        exists s. split; auto. rewrite (from_asc bor cmp laws) in H; auto. apply xasc_filter. now apply (holds_asc b).
    Qed.
    Lemma or_default_all_ok xs : forall s l, holds s l ->
      exists s', or_default_all bor cmp N s xs = Ok s' /\ holds s' (fold_left (fun a x => x_or bor cmp x a) xs l).
    Proof.
      induction xs as [|x xs IH]; intros s l H; cbn [or_default_all fold_left]; [eauto|].
      destruct (or_insert_ok bor cmp laws N HN s x tt (fun v => v) (proj1 H)) as (s1 & E & Hv & Hc). rewrite E. cbn [bind].
      apply IH. split; auto. rewrite Hc, (proj2 H). pose proof (tag_get bor cmp (bor x) l) as G. unfold x_or.
      destruct (s_get bor cmp (bor x) (tag l)); cbn [is_some] in G; rewrite <- G.
      - unfold s_update. rewrite <- (map_id (tag l)) at 2. apply map_ext. intros [y []]. now destruct (eq_q bor cmp (bor x) (y, tt)).
      - apply tag_insert.
    Qed.
    Lemma bs_new_union_ok a b la lb : holds a la -> holds b lb ->
      exists s, bs_new_union bor cmp N un a b = Ok s /\ holds s (x_union bor cmp la lb).
    Proof.
      intros Ha Hb. unfold bs_new_union. rewrite (bs_into_ok a la), (bs_into_ok b lb) by auto. cbn [bind].
      destruct (_ <=? _).
      - destruct (or_default_all_ok la b lb Hb) as (s & E & H). exists s. split; auto.
        rewrite (ors_union bor cmp laws) in H; auto; eapply holds_asc; eauto.
      - now apply bs_extend_ok.
    Qed.
    Lemma toggle_all_ok xs : forall s l, holds s l ->
      exists s', toggle_all bor cmp N s xs = Ok s' /\ holds s' (fold_left (fun a x => x_toggle bor cmp x a) xs l).
    Proof.
      induction xs as [|x xs IH]; intros s l H; cbn [toggle_all fold_left]; [eauto|].
      destruct (bs_remove_ok s l (bor x) H) as (s1 & E & H1). rewrite E. cbn [bind]. unfold x_toggle at 2.
      destruct (mem (bor x) l) eqn:M; cbn [negb bind].
      - apply IH, H1.
      - destruct (bs_insert_ok s1 _ x H1) as (s2 & E2 & H2). rewrite E2. cbn [bind].
        apply IH. now rewrite insert_remove in H2.
    Qed.
    Lemma bs_new_sym_diff_ok a b la lb : holds a la -> holds b lb ->
      exists s, bs_new_sym_diff bor cmp N un a b = Ok s /\ holds s (x_symdiff bor cmp la lb).
    Proof.
      intros Ha Hb. unfold bs_new_sym_diff.
      pose proof (holds_asc a la Ha) as Aa. pose proof (holds_asc b lb Hb) as Ab.
      destruct (_ <=? _).
      - rewrite (bs_into_ok b lb) by auto. cbn [bind]. destruct (toggle_all_ok lb a la Ha) as (s & E & H).
        exists s. split; auto. now rewrite (toggles_symdiff bor cmp laws) in H.
      - rewrite (bs_into_ok a la) by auto. cbn [bind]. destruct (toggle_all_ok la b lb Hb) as (s & E & H).
        exists s. split; auto. rewrite (toggles_symdiff bor cmp laws) in H; auto.
        now rewrite (symdiff_sym bor cmp laws).
    Qed.
  End Un.

  (** *** Comparison, hashing, the check *)
  Context (teq : T -> T -> bool) (ocmp : T -> T -> comparison).
  Lemma bs_eq_ok a b la lb : holds a la -> holds b lb -> bs_eq teq a b = Ok (x_seq_eqb teq la lb).
  Proof.
    intros [Ha Ea] [Hb Eb]. unfold bs_eq. rewrite (eq_ok bor cmp N HN) by auto. now rewrite Ea, Eb, tag_seq_eqb.
  Qed.
  Lemma bs_cmp_ok a b la lb : holds a la -> holds b lb -> bs_cmp ocmp a b = Ok (x_seq_cmp ocmp la lb).
  Proof.
    intros [Ha Ea] [Hb Eb]. unfold bs_cmp. rewrite (cmp_ok bor cmp N HN) by auto. now rewrite Ea, Eb, tag_seq_cmp.
  Qed.
  Lemma bs_hash_ok {H} (hlen : H -> nat -> H) ht a l s : holds a l ->
    bs_hash hlen ht a s = Ok (fold_left ht l (hlen s (length l))).
  Proof.
    intros Ha. pose proof (holds_len a l Ha) as Hl. unfold bs_len, b_len in Hl. unfold bs_hash. rewrite Hl.
    assert (G : forall (l : list T) fuel i s, gives bs_next bs_it_len l i -> length l < fuel ->
      bs_hash_loop fuel ht i s = Ok (fold_left ht l s)).
    { clear. induction l as [|x l IH]; intros [|fuel] i s Hg Hf; cbn [length] in Hf; try lia;
        destruct Hg as (_ & i' & E & Hg); cbn [bs_hash_loop]; rewrite E; cbn [bind hd_error]; auto.
      rewrite (IH fuel i') by (auto; lia). reflexivity. }
    apply G; [now apply bs_iter_gives|lia].
  Qed.
  Lemma bs_check_ok a l : holds a l -> bs_check bor cmp N a = Ok true.
  Proof.
    intros [Ha Ea]. unfold bs_check. rewrite (proj2 (proj2 (check_iff bor cmp laws N HN a) Ha)). reflexivity.
  Qed.

  (** *** Histories *)
  Definition holdss (st : list bset) (sst : list (list T)) : Prop := Forall2 holds st sst.
  Notation bs_step := (@bs_step T Q bor cmp N teq ocmp).
  Notation x_step := (@x_step T Q bor cmp teq ocmp strict_subset small_inter).
  Notation xon := AvlSetModel.xon.
  Notation xon2 := AvlSetModel.xon2.

  Lemma bs_step_ok un st sst o : holdss st sst ->
    x_supported bor cmp sst o ->
    exists st', bs_step un st o = Ok (st', snd (x_step sst o)) /\ holdss st' (fst (x_step sst o)).
  Proof.
    intros R So.
    assert (Hset : forall h m l st sst, holdss st sst -> holds m l -> holdss (x_set_nth h m st) (x_set_nth h l sst)).
    { intros h m l s1 s2 H Hm. revert h. induction H as [|m0 l0 s1 s2 H0 H IH]; intros [|h];
        rewrite ?AvlSetProofs.x_set_nth_nil, ?AvlSetProofs.x_set_nth_0, ?AvlSetProofs.x_set_nth_S; constructor; auto. apply IH. }
    assert (Hsnoc : forall m l st sst, holdss st sst -> holds m l -> holdss (st ++ [m]) (sst ++ [l])).
    { intros m l s1 s2 H Hm. apply Forall2_app; auto. }
    assert (on1_ok : forall h (f : bset -> res (list bset * xobs T)) (g : list T -> list (list T) * xobs T),
      (forall m l, nth_error sst h = Some l -> holds m l -> exists st', f m = Ok (st', snd (g l)) /\ holdss st' (fst (g l))) ->
      exists st', xon st h f = Ok (st', snd (match nth_error sst h with Some m => g m | None => (sst, XUnit) end))
        /\ holdss st' (fst (match nth_error sst h with Some m => g m | None => (sst, XUnit) end))).
    { intros h f g Hf. unfold xon.
      assert (Hn : match nth_error st h, nth_error sst h with
                   | Some m, Some l => holds m l | None, None => True | _, _ => False end).
      { clear - R. revert h. induction R as [|m l st sst Hm H IH]; intros [|h]; cbn; auto. apply IH. }
      destruct (nth_error st h) as [m|] eqn:E1, (nth_error sst h) as [l|] eqn:E2; try contradiction.
      - apply Hf; auto.
      - exists st. auto. }
    assert (on2_ok : forall h1 h2 (f : bset -> bset -> res (list bset * xobs T)) (g : list T -> list T -> list (list T) * xobs T),
      (forall a la b lb, holds a la -> holds b lb ->
         exists st', f a b = Ok (st', snd (g la lb)) /\ holdss st' (fst (g la lb))) ->
      exists st', xon2 st h1 h2 f = Ok (st', snd (match nth_error sst h1 with Some a => match nth_error sst h2 with Some b => g a b | None => (sst, XUnit) end | None => (sst, XUnit) end))
        /\ holdss st' (fst (match nth_error sst h1 with Some a => match nth_error sst h2 with Some b => g a b | None => (sst, XUnit) end | None => (sst, XUnit) end))).
    { intros h1 h2 f g Hf. unfold xon2.
      apply (on1_ok h1 (fun a => xon st h2 (fun b => f a b))
               (fun a => match nth_error sst h2 with Some b => g a b | None => (sst, XUnit) end)).
      intros a la _ Ha. apply (on1_ok h2 (fun b => f a b) (fun b => g la b)).
      intros b lb _ Hb. apply Hf; auto. }
    destruct o; cbn [BTreeSetModel.bs_step SetSpec.x_step];
      first [apply on2_ok; intros a la b lb Ha Hb
            |apply on1_ok; intros m l El Hm
            |idtac].
    - eexists. split; [reflexivity|]. apply Hsnoc; auto. apply holds_new.
    - eexists. split; [reflexivity|]. apply Hsnoc; auto.
    - destruct (bs_from_iter_ok xs) as (m & E & H).
      rewrite E. cbn [bind]. eexists. split; [reflexivity|]. apply Hsnoc; auto.
    - destruct (bs_insert_ok m l x Hm) as (m' & E & H). rewrite E. cbn [bind].
      eexists. split; [reflexivity|]. apply Hset; auto.
    - destruct (bs_remove_ok m l q Hm) as (m' & E & H). rewrite E. cbn [bind].
      eexists. split; [reflexivity|]. apply Hset; auto.
    - destruct (bs_take_ok m l q Hm) as (m' & E & H). rewrite E. cbn [bind].
      eexists. split; [reflexivity|]. apply Hset; auto.
    - destruct (bs_replace_ok m l x Hm) as (m' & E & H). rewrite E. cbn [bind].
      eexists. split; [reflexivity|]. apply Hset; auto.
    - rewrite (bs_get_ok m l) by auto. eauto.
    - rewrite (bs_contains_ok m l) by auto. eauto.
    - rewrite (bs_first_ok m l) by auto. cbn [bind]. eauto.
    - rewrite (bs_last_ok m l) by auto. eauto.
    - destruct (bs_pop_first_ok m l Hm) as (m' & E & H). rewrite E. cbn [bind].
      eexists. split; [reflexivity|]. apply Hset; auto.
    - destruct (bs_pop_last_ok m l Hm) as (m' & E & H). rewrite E. cbn [bind].
      eexists. split; [reflexivity|]. apply Hset; auto.
    - rewrite (holds_len m l) by auto. eauto.
    - rewrite (holds_empty m l) by auto. eauto.
    - eexists. split; [reflexivity|]. apply Hset; auto. apply holds_new.
    - destruct (bs_extend_ok xs m l Hm) as (m' & E & H).
      rewrite E. cbn [bind]. eexists. split; [reflexivity|]. apply Hset; auto.
    - destruct (bs_retain_ok un (fun u x => (u, g x)) m l tt Hm) as (m' & E & H).
      rewrite E. cbn [bind]. rewrite x_retain_pure in H. eexists. split; [reflexivity|]. apply Hset; auto.
    - destruct (bs_split_off_ok un m l q Hm) as (m1 & m2 & E & H1 & H2). rewrite E. cbn [bind].
      eexists. split; [reflexivity|]. apply Hsnoc; auto.
    - destruct (Nat.eqb h1 h2); [eauto|].
      destruct (bs_append_ok un a b la lb Ha Hb) as (a' & b' & E & H1 & H2). rewrite E. cbn [bind].
      eexists. split; [reflexivity|]. repeat apply Hset; auto.
    - destruct (bs_new_union_ok un a b la lb Ha Hb) as (m & E & H). rewrite E. cbn [bind].
      eexists. split; [reflexivity|]. apply Hsnoc; auto.
    - destruct (bs_new_inter_ok un a b la lb Ha Hb) as (m & E & H). rewrite E. cbn [bind].
      eexists. split; [reflexivity|]. apply Hsnoc; auto.
    - destruct (bs_new_diff_ok un a b la lb Ha Hb) as (m & E & H). rewrite E. cbn [bind].
      eexists. split; [reflexivity|]. apply Hsnoc; auto.
    - destruct (bs_new_sym_diff_ok un a b la lb Ha Hb) as (m & E & H). rewrite E. cbn [bind].
      eexists. split; [reflexivity|]. apply Hsnoc; auto.
    - rewrite (bs_setop_ok _ a b la lb) by auto. cbn [bind].
      rewrite (kept_union bor cmp laws) by (eapply holds_asc; eauto). eauto.
    - rewrite (bs_setop_ok _ a b la lb) by auto. cbn [bind].
      rewrite (kept_inter bor cmp laws) by (eapply holds_asc; eauto). eauto.
    - rewrite (bs_setop_ok _ a b la lb) by auto. cbn [bind].
      rewrite (kept_diff bor cmp laws) by (eapply holds_asc; eauto). eauto.
    - rewrite (bs_setop_ok _ a b la lb) by auto. cbn [bind].
      rewrite (kept_symdiff bor cmp laws) by (eapply holds_asc; eauto). eauto.
    - rewrite (bs_disjoint_ok a b la lb) by auto. cbn [bind]. eauto.
    - rewrite (bs_subset_ok a b la lb) by auto. cbn [bind]. eauto.
    - unfold bs_is_superset. rewrite (bs_subset_ok b a lb la) by auto. cbn [bind]. eauto.
    - rewrite (bs_ends_ok _ m l) by auto. cbn [bind]. eauto.
    - rewrite (bs_range_ok m l) by auto. cbn [bind]. eauto.
    - rewrite (bs_eq_ok a b la lb) by auto. cbn [bind]. eauto.
    - rewrite (bs_cmp_ok a b la lb) by auto. cbn [bind]. eauto.
    - rewrite (bs_check_ok m l) by auto. cbn [bind]. eauto.
  Qed.

  Lemma bs_run_ok os : forall un st sst, holdss st sst ->
    x_all_supported bor cmp teq ocmp strict_subset small_inter sst os ->
    exists st', bs_run bor cmp N teq ocmp un st os
                = Ok (st', snd (x_run bor cmp teq ocmp strict_subset small_inter sst os))
      /\ holdss st' (fst (x_run bor cmp teq ocmp strict_subset small_inter sst os)).
  Proof.
    induction os as [|o os IH]; intros un st sst R Sm; cbn [bs_run x_run].
    - exists st. auto.
    - cbn [x_all_supported] in Sm. destruct Sm as (So & Sm').
      destruct (bs_step_ok (un 0) st sst o R So) as (st1 & E & R1). rewrite E. cbn [bind].
      destruct (SetSpec.x_step bor cmp teq ocmp strict_subset small_inter sst o) as [sst1 r]. cbn [fst snd] in *.
      destruct (IH (fun n => un (Datatypes.S n)) st1 sst1 R1 Sm') as (st2 & E2 & R2).
      rewrite E2. cbn [bind].
      destruct (x_run bor cmp teq ocmp strict_subset small_inter sst1 os) as [sst2 rs]. cbn [fst snd] in *.
      exists st2. auto.
  Qed.
End BTreeSetProofs.
