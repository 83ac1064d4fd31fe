(** Owning iteration over shared fixed [BTreeMap]s: the calls of [next] and [next_back], and the drop. *)
From Coq Require Import List PeanoNat Bool Lia Permutation.
From Verif Require Import Base Spec SpecFacts Vec Heap HeapProofs BTreeModel BTreeProofs BTreeProofs2 BTreeIterModel BTreeIterProofs
  BTreeHeapModel BTreeHeapSpec BTreeHeapProofs BTreeHeapProofs2 BTreeHeapProofs3 BTreeHeapProofs5 BTreeHeapProofs6 FixedModel FixedIterModel FixedSpec FixedProofs FixedProofs2
  FixedIterProofs FixedHeapModel FixedHeapSpec FixedHeapProofs FixedHeapProofs7 FixedHeapIntoModel FixedHeapIntoSpec FixedHeapIntoProofs.
Import ListNotations.
Local Open Scope nat_scope.

Section Loop.
  Context {K V : Type}.
  Variable bomb : nat -> bool.
  Notation elems := (elems K V).
  Notation okids := (option (kids addr)).
  Notation cell := (elems * okids)%type.
  Notation fheap := (heap cell).
  Notation pay := (list (K * V)).
  Notation entry := (K * V)%type.
  Notation bt := (bt K V).
  Notation er := (@er K V).
  Notation good := (@good K V).
  Notation xiter := (xiter K V).
  Notation xnode := (xnode K V).
  Notation helds := (flat_map (@x_held K V)).

  Lemma stands_perm (R : addr -> bt -> Prop) i l : stands R i l ->
    exists es ts, left R (x_n i) (x_elem i) (x_end_elems i) (x_kid i) (x_end_kids i) es ts /\ Forall bushy ts
      /\ Permutation l (es ++ concat (map inorder ts)).
  Proof.
    intros (es & ts & D & B & M). exists es, ts. split; auto. split; auto. destruct (x_kid i <=? x_elem i).
    - destruct M as [_ ->]. apply perm_weave.
    - destruct M as (_ & Hl & ->). destruct es as [|e es]; [destruct ts; [apply Permutation_refl|discriminate]|]. cbn [app]. constructor. apply perm_weave.
  Qed.
  Lemma drops_nil (h : fheap) : drops h [] = Ok h.
  Proof. reflexivity. Qed.

  (** The entries that the drop of a node iterator drops in place; the others are reached by its pointers. *)
  Definition here (i : xiter) : pay :=
    match x_n i with
    | XLeased _ => []
    | XOwned e _ =>
      combine (flat_map (fun o => match o with Some k => [k] | None => [] end) (firstn (x_end_elems i - x_elem i) (skipn (x_elem i) (el_keys e))))
              (flat_map (fun o => match o with Some v => [v] | None => [] end) (firstn (x_end_elems i - x_elem i) (skipn (x_elem i) (el_vals e))))
    end.
  Lemma somes_map {A} (l : list A) : flat_map (fun o => match o with Some k => [k] | None => [] end) (map Some l) = l.
  Proof. induction l; cbn; congruence. Qed.
  Lemma here_ok (R : addr -> bt -> Prop) (i : xiter) l : stands R i l ->
    exists ts rest, Forall2 R (x_held i) ts /\ incl rest (concat (map inorder ts)) /\ Permutation l (here i ++ rest).
  Proof.
    intros St. destruct (stands_perm _ _ _ St) as (es & ts & D & B & P). clear St. rewrite held_n. unfold here.
    destruct i as [n x xe y ye]. cbn [x_n x_elem x_end_elems x_kid x_end_kids] in *.
    inversion D as [e d x' y' es' ks ts' Hk Hv Hd F|a es0 es' ts0 ts' Da]; subst.
    - rewrite (held_owned e d y ks Hd). replace (x + length es - x) with (length es) by lia.
      pose proof (seg_slots _ _ _ Hk) as E1. pose proof (seg_slots _ _ _ Hv) as E2. rewrite map_length in E1, E2. rewrite E1, E2, !somes_map, combine_map.
      exists ts, (concat (map inorder ts)). split; auto. split; [apply incl_refl|exact P].
    - exists [BN (es0 ++ es) (ts0 ++ ts)], l. split; [repeat constructor; auto|]. split; [|apply Permutation_refl]. cbn [map concat]. rewrite app_nil_r.
      intros z Hz. eapply Permutation_in in Hz; [|exact P]. eapply Permutation_in; [apply Permutation_sym, perm_weave|]. rewrite map_app, concat_app.
      apply in_app_or in Hz as [Hz|Hz]; apply in_or_app; [left|right]; apply in_or_app; auto.
  Qed.
  Lemma drop_one h0 (h : fheap) i l X O : good h -> sess h0 (er h) [] (x_held i ++ X) O -> stands (ns (er h)) i l ->
    exists h', x_drop h i = Ok (h', here i) /\ good h' /\ sess h0 (er h') [] X O /\ keep (X ++ O) (er h) (er h')
      /\ clones h' = clones h /\ length (cells h') = length (cells h) /\ (is_owned (x_n i) -> l = [] -> h' = h).
  Proof.
    intros G S St. destruct (stands_perm _ _ _ St) as (es & ts & D & B & P). rewrite held_n in S. unfold x_drop, here.
    destruct i as [n x xe y ye]. cbn [x_n x_elem x_end_elems x_kid x_end_kids] in *.
    assert (Dr : forall ps, sess h0 (er h) [] (ps ++ X) O -> exists h', drops h (map Some ps) = Ok h' /\ good h' /\ sess h0 (er h') [] X O /\ keep (X ++ O) (er h) (er h')
      /\ clones h' = clones h /\ length (cells h') = length (cells h)).
    { intros ps Sp. destruct (sess_drops h0 (er h) [] ps X O Sp) as (g & E & S1 & K1 & C1 & L1).
      pose proof E as E'. unfold FixedHeapProofs.er in E'. rewrite drops_hm in E'. apply rm_ok_inv in E' as (h' & Eh & ->).
      exists h'. split; auto. split; [eapply good_sub; [exact G|eapply subn_drops; eauto]|]. split; auto. split; auto.
      rewrite cells_hm in L1. unfold FixedHeapProofs.er in L1. rewrite cells_hm in L1. split; [|exact L1]. clear - Eh. unfold drops in Eh.
      assert (X : forall f (h : fheap) ps h', drops_fuel f h ps = Ok h' -> clones h' = clones h).
      { induction f as [|f IH]; intros h1 qs h2; [discriminate|]. cbn [drops_fuel]. destruct qs as [|[a|] qs]; [congruence| |apply IH].
        destruct (get h1 a) as [[[|[|c]] n]|]; try discriminate; intros E; apply IH in E; rewrite E; reflexivity. }
      eapply X; eauto. }
    inversion D as [e d x' y' es' ks ts' Hk Hv Hd F|a es0 es' ts0 ts' Da]; subst.
    - rewrite (held_owned e d y ks Hd) in S. replace (x + length es - x) with (length es) by lia. replace (y + length ks - y) with (length ks) by lia.
      pose proof (seg_range _ _ _ Hk) as E1. pose proof (seg_range _ _ _ Hv) as E2. rewrite map_length in E1, E2. rewrite E1, E2. cbn [bind].
      assert (E3 : match d with None => Ok [] | Some b => read_range (kd_ptrs b) y (length ks) end = Ok ks).
      { destruct d as [b|]; [now apply seg_range|now subst]. }
      rewrite E3. cbn [bind]. destruct (Dr ks S) as (h' & E & G' & S' & K' & C' & L'). rewrite E. cbn [bind]. rewrite combine_map.
      pose proof (seg_slots _ _ _ Hk) as E4. pose proof (seg_slots _ _ _ Hv) as E5. rewrite map_length in E4, E5. rewrite E4, E5, !somes_map, combine_map.
      exists h'. do 6 (split; [solve [auto]|]). intros _ ->. apply Permutation_nil in P. apply app_eq_nil in P as [-> P].
      destruct F as [|k t ks ts Dk F]; [cbn [map] in E; rewrite drops_nil in E; congruence|]. cbn [map concat] in P. apply app_eq_nil in P as [P _].
      inversion B as [|? ? Bt _]; subst. now apply bushy_ne in P.
    - destruct (Dr [a] S) as (h' & E & G' & S' & K' & C' & L'). unfold drop. change [Some a] with (map Some [a]). rewrite E. cbn [bind].
      exists h'. do 6 (split; [solve [auto]|]). intros [].
  Qed.

  (** ** The work list *)
  Notation pc := (pay * nat)%type.
  Definition stks (h : fheap) (w : list xiter) (lcs : list pc) : Prop := Forall2 (fun i lc => stk (ns (er h)) i (fst lc) (snd lc)) w lcs.
  Fixpoint needs (lcs : list pc) : nat :=
    match lcs with [] => 0 | (l, c) :: r => if is_nil l then S (needs r) else c end.
  Definition lists (lcs : list pc) : pay := concat (map fst lcs).
  Lemma stks_keep O (h h' : fheap) w lcs : keep O (er h) (er h') -> incl (helds w) O -> stks h w lcs -> stks h' w lcs.
  Proof.
    intros Kp I F. induction F as [|i lc w lcs D F IH]; constructor.
    - eapply stk_mono; [|exact D]. intros a t Ha. apply Kp. apply I. cbn. apply in_or_app. auto.
    - apply IH. intros x Hx. apply I. cbn. apply in_or_app. auto.
  Qed.
  Lemma xfree_keep (h h' : fheap) w : (forall p, In p (helds w) -> free h p -> free h' p) -> Forall (xfree h) w -> Forall (xfree h') w.
  Proof.
    intros H F. induction F as [|i w [D1 D2] F IH]; constructor.
    - split; auto. rewrite Forall_forall in *. intros p Hp. apply H; auto. cbn. apply in_or_app. auto.
    - apply IH. intros p Hp. apply H. cbn. apply in_or_app. auto.
  Qed.

  Definition stepped (l l' : pay) (h h' : fheap) (o : out (option entry)) : Prop :=
    match o with
    | Done x => x = hd_error l /\ l' = tl l
                /\ (clones h' = clones h \/ exists e, x = Some e /\ copies h' = [e] :: copies h /\ bomb (length (clones h)) = false)
    | Unwound => l' = l /\ bomb (length (clones h)) = true /\ exists e r, l = e :: r /\ copies h' = [e] :: copies h
    end.

  Lemma next_loop_ok fuel : forall h0 (h : fheap) w lcs len O, good h -> sess h0 (er h) [] (helds w) O -> stks h w lcs -> needs lcs <= fuel ->
    len = length (lists lcs) ->
    exists h' w' o lcs', x_next_loop bomb fuel h w len = Ok (h', FIter w' (length (lists lcs')), o, []) /\ good h'
      /\ sess h0 (er h') [] (helds w') O /\ stks h' w' lcs' /\ length (cells h') = length (cells h)
      /\ stepped (lists lcs) (lists lcs') h h' o
      /\ (Forall (xfree h) w -> Forall (xfree h') w' /\ clones h' = clones h /\ o <> Unwound).
  Proof.
    induction fuel as [|fuel IH]; intros h0 h w lcs len O G S St Nd ->.
    - destruct St as [|i [l c] w lcs Hi St].
      + cbn [x_next_loop]. exists h, [], (Done None), []. split; [reflexivity|]. split; auto. split; auto. split; [constructor|]. split; auto. split.
        { split; [reflexivity|]. split; [reflexivity|]. now left. } intros _. split; [auto|]. split; auto. discriminate.
      + exfalso. cbn [needs] in Nd. destruct l; cbn [is_nil] in Nd; [lia|]. destruct Hi as (es & ts & _ & _ & _ & E). cbn [snd] in E. subst c.
        unfold cost in Nd. destruct (x_kid i <=? x_elem i), ts; lia.
    - destruct St as [|i [l c] w lcs Hi St].
      + cbn [x_next_loop]. exists h, [], (Done None), []. split; [reflexivity|]. split; auto. split; auto. split; [constructor|]. split; auto. split.
        { split; [reflexivity|]. split; [reflexivity|]. now left. } intros _. split; [auto|]. split; auto. discriminate.
      + cbn [x_next_loop fst snd] in *. cbn [flat_map] in S. destruct (next_ok bomb h0 h i l c (helds w) O G S Hi) as (h1 & i' & o & E & G1 & L1 & K1 & P).
        rewrite E. cbn [bind]. assert (St1 : stks h1 w lcs) by (eapply stks_keep; [exact K1|inc|exact St]).
        destruct o as [[[e|n]|]|].
        * destruct P as (l' & c' & -> & Hi' & S' & Cp & Ow). unfold lists. cbn [map fst concat app length]. rewrite usize_sub_ok by lia. cbn [bind].
          exists h1, (i' :: w), (Done (Some e)), ((l', c') :: lcs). unfold lists. cbn [map fst concat app length].
          split; [replace (Datatypes.S (length (l' ++ concat (map fst lcs))) - 1) with (length (l' ++ concat (map fst lcs))) by lia; reflexivity|]. split; auto. split; [exact S'|]. split; [constructor; auto|]. split; auto. split.
          { split; [reflexivity|]. split; [reflexivity|]. destruct Cp as [Cp|[Cp Bm]]; eauto. }
          intros Ff. inversion Ff as [|? ? [F1 F2] F3]; subst. destruct (Ow F2) as (-> & Hh & Ow'). split; [|split; [auto|discriminate]].
          constructor; auto. split; auto. now rewrite Hh.
        * destruct P as (j & l1 & l2 & c1 & c2 & En & -> & Hl1 & Sj & Hc & Si & S' & Cl & Fr). rewrite En. cbn [bind].
          assert (Nd' : needs ((l1, c1) :: (l2, c2) :: lcs) <= fuel).
          { cbn [needs]. destruct l1; [congruence|]. cbn [needs is_nil app] in Nd |- *. lia. }
          destruct (IH h0 h1 (j :: i' :: w) ((l1, c1) :: (l2, c2) :: lcs) (length (lists ((l1 ++ l2, c) :: lcs))) O) as (h' & w' & o & lcs' & E' & G' & S2 & St2 & L2 & Sp & Fr2); auto.
          { constructor; [exact Sj|]. constructor; [exact Si|exact St1]. }
          { unfold lists. cbn [map fst concat]. now rewrite <- app_assoc. }
          exists h', w', o, lcs'. split; [exact E'|]. split; auto. split; auto. split; auto. split; [lia|]. split.
          { unfold lists in Sp |- *. cbn [map fst concat] in Sp |- *. rewrite <- app_assoc. unfold stepped, copies in Sp |- *. rewrite Cl in Sp. exact Sp. }
          intros Ff. inversion Ff as [|? ? F1 F3]; subst. destruct (Fr F1) as (F4 & F5 & F6). rewrite <- Cl. apply Fr2. constructor; auto. constructor; auto.
          eapply xfree_keep; [|exact F3]. intros p Hp. apply F6. mem.
        * destruct P as (-> & -> & ->). destruct (drop_one h0 h i [] (helds w) O G S) as (h2 & Ed & G2 & S2 & K2 & C2 & L2 & Ow).
          { apply stk_stands. eauto. }
          assert (Hn : here i = []).
          { destruct (here_ok (ns (er h)) i []) as (ts & rest & _ & _ & Pm); [apply stk_stands; eauto|]. apply Permutation_nil in Pm. now apply app_eq_nil in Pm as [-> _]. }
          rewrite Ed, Hn. cbn [bind].
          destruct (IH h0 h2 w lcs (length (lists (([], c) :: lcs))) O) as (h' & w' & o & lcs' & E' & G' & S3 & St3 & L3 & Sp & Fr2); auto.
          { eapply stks_keep; [exact K2|inc|exact St]. }
          { cbn [needs is_nil] in Nd. lia. }
          rewrite E'. cbn [bind app]. exists h', w', o, lcs'. split; [reflexivity|]. split; auto. split; auto. split; auto. split; [lia|]. split.
          { unfold lists in Sp |- *. cbn [map fst concat app] in Sp |- *. unfold stepped, copies in Sp |- *. rewrite C2 in Sp. exact Sp. }
          intros Ff. inversion Ff as [|? ? F1 F3]; subst. rewrite (Ow (proj2 F1) eq_refl) in *. auto.
        * destruct P as ((e & l' & -> & Cp) & -> & Bm & S' & Hi' & Nw). exists h1, (i :: w), Unwound, ((e :: l', c) :: lcs).
          split; [reflexivity|]. split; auto. split; [exact S'|]. split; [constructor; auto|]. split; auto. split.
          { split; auto. split; auto. exists e, (l' ++ lists lcs). auto. }
          intros Ff. inversion Ff as [|? ? [F1 F2] F3]; subst. contradiction.
  Qed.

  (** [next_back] is [next] on the reversed queue. *)
  Lemma back_rev fuel : forall (h : fheap) w len, x_back_loop bomb fuel h (rev w) len =
    rm_ (fun x => let '(h1, it, o, es) := x in (h1, FIter (rev (fi_work it)) (fi_len it), o, es)) (x_next_loop bomb fuel h w len).
  Proof.
    induction fuel as [|fuel IH]; intros h [|i w] len; try reflexivity.
    - cbn [rev x_back_loop x_next_loop]. rewrite vec_pop_snoc. reflexivity.
    - cbn [rev x_back_loop x_next_loop]. rewrite vec_pop_snoc. destruct (x_next bomb h i) as [[[h1 i'] o]|]; [|reflexivity]. cbn [bind].
      destruct o as [[[e|n]|]|].
      + destruct (usize_sub len 1); reflexivity.
      + destruct (x_new h1 n) as [j|]; [|reflexivity]. cbn [bind]. change ((rev w ++ [i']) ++ [j]) with (rev (j :: i' :: w)). apply IH.
      + destruct (x_drop h1 i') as [[h2 es]|]; [|reflexivity]. cbn [bind]. rewrite IH.
        destruct (x_next_loop bomb fuel h2 w len) as [[[[h3 it] o] es']|]; reflexivity.
      + reflexivity.
  Qed.
End Loop.
