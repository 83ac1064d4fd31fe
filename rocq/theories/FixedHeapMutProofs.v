(** [iter_mut] on shared fixed [BTreeMap]s: the heap operations, and the node iterators. *)
From Coq Require Import List PeanoNat Bool Lia Permutation.
From Verif Require Import Base Spec MapSpec SpecFacts Vec Heap HeapProofs HeapMut HeapMutProofs BTreeModel BTreeProofs BTreeProofs2
  BTreeIterModel BTreeMutProofs BTreeHeapModel BTreeHeapSpec BTreeHeapProofs MutSpec BTreeHeapMutModel BTreeHeapMutProofs
  BTreeHeapMutProofs2 BTreeHeapMutProofs3 FixedModel FixedIterModel FixedSpec FixedProofs FixedMutProofs FixedHeapModel FixedHeapSpec
  FixedHeapProofs FixedHeapProofs7 FixedHeapMutModel.
From Verif Require BTreeIterProofs.
Import ListNotations.
Local Open Scope nat_scope.

(** ** The heap operations *)
Section Sim.
  Context {K V : Type}.
  Variable bomb : nat -> bool.
  Notation elems := (elems K V).
  Notation okids := (option (kids addr)).
  Notation cell := (elems * okids)%type.
  Notation fheap := (heap cell).
  Notation pay := (list (K * V)).
  Notation er := (@er K V).
  Notation good := (@good K V).

  Lemma f_make_mut_sim (h : fheap) a g x : good h -> make_mut bomb (er h) a = Ok (g, x) ->
    exists h', f_make_mut bomb h a = Ok (h', x) /\ er h' = g /\ good h'.
  Proof.
    intros G E. unfold make_mut in E. unfold f_make_mut.
    destruct (get (er h) a) as [[c n]|] eqn:E0; [|discriminate].
    destruct (get_er _ _ _ _ G E0) as (e & d & es & ks & Gh & -> & Cr). rewrite Gh.
    assert (Sh : (if bomb (length (clones (er h))) then Ok (log (er h) es, None)
         else h1 <- incs (log (er h) es) (map Some ks);;
              (let '(h2, a') := alloc h1 (Nd es (map Some ks)) in h3 <- dec h2 a;; Ok (h3, Some a'))) = Ok (g, x) ->
      exists h', (let lg := log h (e, d) in if bomb (length (clones h)) then Ok (lg, None)
          else '(e, d) <- cell_clone e d;; n' <- f_node e d;; h1 <- incs lg (nd_kids n');;
            (let '(h2, a') := alloc h1 n' in h3 <- dec h2 a;; Ok (h3, Some a'))) = Ok (h', x) /\ er h' = g /\ good h').
    { clear E. intros E. unfold FixedHeapProofs.er in E at 1. rewrite clones_hm, map_length in E. destruct (bomb (length (clones h))).
      - injection E as <- <-. eexists. split; [reflexivity|].
        split; [unfold FixedHeapProofs.er; now rewrite log_hm, (ent_is _ _ _ _ Cr)|]. eapply good_sub; [exact G|apply subn_log].
      - destruct (cell_clone_ok _ _ _ _ Cr) as (e' & d' & -> & Cr'). cbn [bind].
        destruct (f_node_is _ _ _ _ Cr') as (En & T & Em). rewrite En. cbn [bind nd_kids].
        assert (El : log (er h) es = er (log h (e, d))) by (unfold FixedHeapProofs.er; now rewrite log_hm, (ent_is _ _ _ _ Cr)).
        rewrite El in E. unfold FixedHeapProofs.er in E at 1. rewrite incs_hm in E.
        destruct (incs (log h (e, d)) (map Some ks)) as [h1|] eqn:Ei; cbn [rm_ bind] in *; [|discriminate].
        rewrite <- Em in E. rewrite alloc_hm in E. destruct (alloc h1 _) as [h2 a'] eqn:Ea. cbn [fst snd] in E.
        rewrite dec_hm in E. destruct (dec h2 a) as [h3|] eqn:Ed; cbn [rm_ bind] in *; [|discriminate].
        assert (G2 : good h2).
        { pose proof (good_alloc h1 (Nd (e', d') (map Some ks))) as Ga. rewrite Ea in Ga. apply Ga; auto.
          eapply good_sub; [|eapply subn_incs; exact Ei]. eapply good_sub; [exact G|apply subn_log]. }
        injection E as <- <-. exists h3. split; auto. split; auto. eapply good_sub; [exact G2|eapply subn_dec; eauto]. }
    destruct c as [|[|c]].
    - apply Sh. exact E.
    - injection E as <- <-. exists h. auto.
    - apply Sh. exact E.
  Qed.

  Lemma excl_er (h : fheap) a n : good h -> excl (er h) a = Ok n ->
    exists e d es ks, get h a = Some (1, Nd (e, d) (map Some ks)) /\ n = Nd es (map Some ks) /\ crel e d es ks.
  Proof.
    intros G E. unfold excl in E. destruct (get (er h) a) as [[[|[|c]] m]|] eqn:E0; try discriminate. injection E as ->.
    exact (get_er _ _ _ _ G E0).
  Qed.
  Lemma arr_read {A} n (s : list (option A)) l j x : arr n s l -> nth_error l j = Some x -> slot_read s j = Ok x.
  Proof.
    intros (_ & t & ->) E. unfold slot_read. rewrite nth_error_app1, nth_error_map, E by (rewrite map_length; apply nth_error_Some; congruence). reflexivity.
  Qed.
  Lemma put_er (h : fheap) a c (n : node cell) : er (put h a (Some (c, n))) = put (er h) a (Some (c, nm ent n)).
  Proof. unfold FixedHeapProofs.er. now rewrite put_hm. Qed.

  Lemma incs_cells ps : forall (h h' : fheap), incs h ps = Ok h' -> length (cells h') = length (cells h).
  Proof.
    clear bomb. induction ps as [|p ps IH]; intros h h' E; cbn [incs] in E; [now injection E as ->|].
    destruct (inc h p) as [h2|] eqn:E2; [|discriminate]. cbn [bind] in E. rewrite (IH _ _ E). destruct p as [q|]; cbn [inc] in E2; [|now injection E2 as ->].
    destruct (get h q) as [[? ?]|]; [|discriminate]. injection E2 as <-. apply cells_put.
  Qed.
  Lemma f_make_mut_keeps (h : fheap) c h1 x : f_make_mut bomb h c = Ok (h1, x) ->
    forall a k n k1 n1, get h a = Some (k, n) -> get h1 a = Some (k1, n1) -> n1 = n.
  Proof.
    intros E a k n k1 n1 G G1. unfold f_make_mut in E. destruct (get h c) as [[kc m]|] eqn:Gc; [|discriminate].
    assert (Sh : (let h0 := log h (nd_data m) in if bomb (length (clones h)) then Ok (h0, None)
        else '(e, d) <- cell_clone (fst (nd_data m)) (snd (nd_data m));; n' <- f_node e d;; h1 <- incs h0 (nd_kids n');;
          (let '(h2, a') := alloc h1 n' in h3 <- dec h2 c;; Ok (h3, Some a'))) = Ok (h1, x) -> n1 = n).
    { clear E. cbv zeta. destruct (bomb _); [intros [= <- _]; rewrite get_log in G1; congruence|]. intros E.
      destruct (cell_clone _ _) as [[e2 d2]|]; [|discriminate]. cbn [bind] in E. destruct (f_node e2 d2) as [n'|]; [|discriminate].
      cbn [bind] in E. destruct (incs _ _) as [ha|] eqn:Ei; [|discriminate]. cbn [bind] in E. destruct (alloc ha n') as [hb a'] eqn:Ea.
      destruct (dec hb c) as [hc|] eqn:Ed; [|discriminate]. cbn [bind] in E. injection E as <- _.
      destruct (subn_dec _ _ _ Ed _ _ _ G1) as (k4 & G4). pose proof (get_alloc ha n' a) as Gx. rewrite Ea in Gx. cbn [fst] in Gx. rewrite Gx in G4.
      pose proof (incs_cells _ _ _ Ei) as Ll. cbn [log cells] in Ll.
      destruct (Nat.eq_dec (length (cells ha)) a) as [Ex|Ex]; [apply get_lt in G; lia|].
      destruct (subn_incs _ _ _ Ei _ _ _ G4) as (k5 & G5). rewrite get_log in G5. congruence. }
    destruct kc as [|[|kc]]; [exact (Sh E)| |exact (Sh E)]. injection E as <- _. congruence.
  Qed.

  Lemma f_kid_mut_sim (h : fheap) a j g x : good h -> kid_mut bomb (er h) a j = Ok (g, x) ->
    exists h', f_kid_mut bomb h a j = Ok (h', x) /\ er h' = g /\ good h'.
  Proof.
    intros G E. unfold kid_mut in E. unfold f_kid_mut. destruct (excl (er h) a) as [n|] eqn:E0; [|discriminate].
    destruct (excl_er _ _ _ G E0) as (e & d & es & ks & Gh & -> & Cr). unfold excl at 1. rewrite Gh. cbn [bind nd_data nd_kids snd] in *.
    rewrite nth_error_map in E. destruct (nth_error ks j) as [c|] eqn:Ej; [|discriminate]. cbn [option_map unwrap bind] in E.
    destruct Cr as [He Hd]. destruct d as [b|]; [|subst ks; destruct j; discriminate]. destruct Hd as [Hn [Ha Hb]]. cbn [unwrap bind].
    rewrite (arr_read _ _ _ _ _ Ha Ej). cbn [bind].
    destruct (make_mut bomb (er h) c) as [[g1 y]|] eqn:Em; [|discriminate]. cbn [bind] in E.
    destruct (f_make_mut_sim _ _ _ _ G Em) as (h1 & Eh & <- & G1). rewrite Eh. cbn [bind]. destruct y as [c'|].
    - destruct (excl (er h1) a) as [n1|] eqn:E1; [|discriminate]. cbn [bind] in E. injection E as <- <-.
      destruct (excl_er _ _ _ G1 E1) as (e1 & d1 & es1 & ks1 & Gh1 & -> & Cr1). unfold excl. rewrite Gh1. cbn [bind nd_data nd_kids fst snd] in *.
      pose proof (f_make_mut_keeps _ _ _ _ Eh _ _ _ _ _ Gh Gh1) as X. injection X as -> -> X. apply (f_equal olists) in X. rewrite !olists_somes in X. subst ks1.
      destruct Cr1 as [He1 [_ [Ha1 Hb1]]]. cbn [unwrap bind].
      apply nth_cut in Ej as (k1 & k2 & -> & Lk).
      assert (Cr2 : crel e (Some (Kids (set_at j (Some c') (kd_ptrs b)) (kd_len b))) es1 (k1 ++ c' :: k2)).
      { split; auto. split; [now destruct k1|]. split; cbn [kd_ptrs kd_len]; [eapply set_arr; eauto|]. rewrite Hb1, !app_length. reflexivity. }
      destruct (f_node_is _ _ _ _ Cr2) as (En & T & Em2). rewrite En. cbn [bind]. eexists. split; [reflexivity|]. split; [|now apply good_put].
      rewrite put_er, Em2. do 4 f_equal. rewrite upd_set, !map_app. cbn [map]. symmetry. apply set_at_mid. now rewrite map_length.
    - injection E as <- <-. exists h1. auto.
  Qed.

  Lemma f_ref_read_sim (h : fheap) rf e : good h -> ref_read (er h) rf = Ok e -> f_ref_read h rf = Ok e.
  Proof.
    clear bomb. intros G E. unfold ref_read in E. unfold f_ref_read. destruct (excl (er h) (fst rf)) as [n|] eqn:E0; [|discriminate].
    destruct (excl_er _ _ _ G E0) as (l & d & es & ks & Gh & -> & [(Hk & Hv & _) _]). unfold excl. rewrite Gh. cbn [bind nd_data fst] in *.
    destruct (nth_error es (snd rf)) as [x|] eqn:Ex; [|discriminate]. injection E as ->.
    rewrite (arr_read _ _ _ (snd rf) (fst e) Hk), (arr_read _ _ _ (snd rf) (snd e) Hv) by (now rewrite nth_error_map, Ex). now destruct e.
  Qed.
  Lemma f_ref_write_sim (h : fheap) rf w g : good h -> ref_write (er h) rf w = Ok g ->
    exists h', f_ref_write h rf w = Ok h' /\ er h' = g /\ good h'.
  Proof.
    clear bomb. intros G E. unfold ref_write, ref_read, data_mut in E. unfold f_ref_write. destruct (excl (er h) (fst rf)) as [n|] eqn:E0; [|discriminate].
    destruct (excl_er _ _ _ G E0) as (l & d & es & ks & Gh & -> & Cr). pose proof Cr as [(Hk & Hv & Hl) Hd]. unfold excl. rewrite Gh. cbn [bind nd_data nd_kids fst] in *.
    destruct (nth_error es (snd rf)) as [x|] eqn:Ex; [|discriminate]. injection E as <-.
    rewrite (arr_read _ _ _ (snd rf) (snd x) Hv) by (now rewrite nth_error_map, Ex). cbn [bind].
    assert (Cr2 : crel (Elems (el_keys l) (set_at (snd rf) (Some (w (snd x))) (el_vals l)) (el_len l)) d (upd_nth (snd rf) w es) ks).
    { split; [|exact Hd]. split; [|split]; cbn [el_keys el_vals el_len].
      - now rewrite upd_keys.
      - rewrite <- (upd_set_at w es (snd rf) x Ex). exact (set_val _ _ _ _ w Hv Ex).
      - now rewrite upd_len. }
    destruct (f_node_is _ _ _ _ Cr2) as (En & T & Em). rewrite En. cbn [bind]. eexists. split; [reflexivity|]. split; [|now apply good_put].
    rewrite put_er, Em. reflexivity.
  Qed.
End Sim.

(** ** The node iterators *)
Section Items.
  Context {K : Type}.
  Variable sk : bt K unit.
  Notation bref := (@bref K).
  Notation sref := (bref * unit)%type.
  Notation flat := (@BTreeProofs.flat bref unit).

  Lemma skipn_nth {A} (l : list A) x e : nth_error l x = Some e -> skipn x l = e :: skipn (S x) l.
  Proof. revert x. induction l as [|y l IH]; intros [|x] E; try discriminate; [now injection E as ->|]. cbn [skipn]. now apply IH. Qed.

  (** The node iterator [i] over the node at [p] has the entries [l] left, and finds the first one in [c] rounds. *)
  Definition pend (i : fwork) (p : list nat) (l : list sref) (c : nat) : Prop :=
    exists es ks, n_at sk p = Some (BN es ks) /\ fw_e i <= fw_ue i /\ fw_ue i = length es /\ fw_k i <= fw_uk i /\ fw_uk i = length ks
      /\ let E := skipn (fw_e i) (mapi_from 0 (pos_of p) es) in
         let T := skipn (fw_k i) (mapi_from 0 (fun j c => with_pos (p ++ [j]) c) ks) in
         if fw_elem i
         then (T = [] \/ length T = length E) /\ l = match E with [] => [] | e :: E' => e :: weave (map flat T) E' end /\ c = 1
         else length T = S (length E) /\ l = weave (map flat T) E /\ c = S (n_levels (nth (fw_k i) ks (BN [] []))).

  Lemma pend_next i p l c : pend i p l c ->
    match fw_next i with
    | (Some (Return (a, j)), i') => a = fw_at i /\ fw_at i' = fw_at i /\ exists e l' c', l = e :: l' /\ fst (fst e) = (p, j) /\ pend i' p l' c'
    | (Some (Descend s), i') => fw_at i' = fw_at i /\ exists j es ks c0 l2 c2, s = SKid (fw_at i) j /\ n_at sk p = Some (BN es ks) /\ nth_error ks j = Some c0
        /\ l = flat (with_pos (p ++ [j]) c0) ++ l2 /\ c = S (n_levels c0) /\ pend i' p l2 c2
    | (None, _) => l = []
    end.
  Proof.
    destruct i as [a e ue k uk el]. intros (es & ks & Hn & Le & Eu & Lk & Ek & H). cbn [fw_at fw_e fw_ue fw_k fw_uk fw_elem] in *. subst ue uk. cbn [fw_next]. destruct el.
    - destruct H as (HT & -> & ->). destruct (Nat.ltb_spec e (length es)) as [Hl|Hl].
      + destruct (nth_error es e) as [x|] eqn:Ex; [|apply nth_error_None in Ex; lia].
        assert (Em : nth_error (mapi_from 0 (pos_of p) es) e = Some (pos_of p e x)) by (now rewrite mapi_nth, Ex).
        rewrite (skipn_nth _ _ _ Em) in *. split; auto. split; auto. eexists _, _, (if length ks - k =? 0 then 1 else S (n_levels (nth k ks (BN [] [])))). split; [reflexivity|]. split; [now destruct x|].
        exists es, ks. cbn [fw_e fw_ue fw_k fw_uk fw_elem]. rewrite Nat.add_1_r. split; auto. split; [lia|]. split; auto. split; auto. split; auto.
        cbn [length] in HT. destruct (Nat.eqb_spec (length ks - k) 0) as [Hk|Hk].
        * assert (ET : skipn k (mapi_from 0 (fun j c => with_pos (p ++ [j]) c) ks) = []) by (apply skipn_all2; rewrite mapi_length; lia).
          rewrite ET. split; [now left|]. split; [|reflexivity]. cbn [map weave]. now destruct (skipn (S e) _).
        * destruct HT as [HT|HT]; [apply (f_equal (@length _)) in HT; rewrite skipn_length, mapi_length in HT; cbn in HT; lia|]. auto.
      + now rewrite skipn_all2 by (rewrite mapi_length; lia).
    - destruct H as (HT & -> & ->). destruct (Nat.ltb_spec k (length ks)) as [Hl|Hl].
      + destruct (nth_error ks k) as [x|] eqn:Ex; [|apply nth_error_None in Ex; lia].
        assert (Em : nth_error (mapi_from 0 (fun j c => with_pos (p ++ [j]) c) ks) k = Some (with_pos (p ++ [k]) x)) by (now rewrite mapi_nth, Ex).
        rewrite (skipn_nth _ _ _ Em) in *. split; auto. exists k, es, ks, x. rewrite (nth_error_nth _ _ _ Ex). eexists _, _. split; auto. split; auto. split; auto.
        split; [cbn [map weave]; reflexivity|]. split; auto. exists es, ks. cbn [fw_e fw_ue fw_k fw_uk fw_elem]. rewrite Nat.add_1_r. split; auto. split; [lia|]. split; auto. split; [lia|]. split; auto.
        cbn [length] in HT. apply eq_add_S in HT. split; [now right|]. split; [|reflexivity]. revert HT. clear. generalize (skipn (S k) (mapi_from 0 (fun j c => with_pos (p ++ [j]) c) ks)) as T.
        generalize (skipn e (mapi_from 0 (pos_of p) es)) as E. intros [|? ?] [|? ?] HT; try discriminate; reflexivity.
      + exfalso. rewrite skipn_length, mapi_length in HT. lia.
  Qed.
  Lemma pend_cost i p l c : pend i p l c -> 1 <= c <= S (n_levels sk).
  Proof.
    intros (es & ks & Hn & _ & _ & Lk & Hk & H). destruct (fw_elem i); [destruct H as (_ & _ & ->); lia|]. destruct H as (HT & _ & ->). split; [lia|].
    rewrite skipn_length, mapi_length in HT. apply le_n_S. rewrite <- (levels_at p sk _ Hn), BTreeIterProofs.levels_eq.
    destruct (nth_error ks (fw_k i)) as [x|] eqn:Ex; [|apply nth_error_None in Ex; lia]. rewrite (nth_error_nth _ _ _ Ex). apply nth_error_In in Ex.
    pose proof (BTreeIterProofs.max_levels_in x ks Ex). lia.
  Qed.
  (** A new one. *)
  Lemma pend_new N mn ht a p es ks : n_at sk p = Some (BN es ks) -> shape N mn ht (BN es ks) ->
    exists c, pend (FW a 0 (length es) 0 (length ks) (length ks =? 0)) p (flat (with_pos p (BN es ks))) c /\ c <= n_levels (BN es ks).
  Proof.
    intros Hn Sh. rewrite with_pos_eq. cbn [BTreeProofs.flat]. inversion Sh as [? ? L|? ? ? ? L Lk F]; subst.
    - exists 1. split; [|cbn; lia]. exists es, []. cbn [fw_e fw_ue fw_k fw_uk fw_elem length Nat.eqb skipn mapi_from map weave]. repeat (split; [solve [auto; lia]|]).
      split; [|reflexivity]. now destruct (mapi_from 0 (pos_of p) es).
    - destruct ks as [|k ks]; [discriminate|]. eexists. split.
      + exists es, (k :: ks). cbn [fw_e fw_ue fw_k fw_uk fw_elem]. repeat (split; [solve [auto; lia]|]). cbn [length Nat.eqb skipn]. split; [rewrite !mapi_length; exact Lk|]. split; reflexivity.
      + cbn [nth]. rewrite BTreeIterProofs.levels_eq. pose proof (BTreeIterProofs.max_levels_in k (k :: ks) (or_introl eq_refl)). lia.
  Qed.
End Items.
