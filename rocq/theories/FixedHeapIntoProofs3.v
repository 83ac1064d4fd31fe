(** Owning iteration over shared fixed [BTreeMap]s: single calls, runs of calls, in the terms of the properties. *)
From Coq Require Import List PeanoNat Bool Lia Permutation.
From Verif Require Import Base Spec SpecFacts Vec MapSpec Heap HeapProofs AvlHeapSpec BTreeModel BTreeProofs BTreeProofs2 BTreeIterModel BTreeIterProofs
  BTreeHeapModel BTreeHeapSpec BTreeHeapProofs BTreeHeapProofs2 BTreeHeapProofs3 BTreeHeapProofs5 BTreeHeapProofs6 FixedModel FixedIterModel FixedSpec FixedProofs FixedProofs2
  FixedIterProofs FixedHeapModel FixedHeapSpec FixedHeapProofs FixedHeapProofs7 FixedHeapProofs9 FixedHeapLazy FixedHeapIntoModel FixedHeapIntoSpec FixedHeapIntoProofs FixedHeapIntoProofs2.
Import ListNotations.
Local Open Scope nat_scope.

Section Calls.
  Context {K V : Type}.
  Variable bomb : nat -> bool.
  Notation elems := (elems K V).
  Notation okids := (option (kids addr)).
  Notation cell := (elems * okids)%type.
  Notation fheap := (heap cell).
  Notation pay := (list (K * V)).
  Notation entry := (K * V)%type.
  Notation bt := (bt K V).
  Notation er := (@er K V).
  Notation good := (@good K V).
  Notation xiter := (xiter K V).
  Notation xnode := (xnode K V).
  Notation helds := (flat_map (@x_held K V)).
  Notation xit := (f_iter xiter).
  Notation results := (list (out (option entry) * nat)).

  (** ** Fuel *)
  Lemma left_len R n x xe y ye es (ts : list bt) : @left K V R n x xe y ye es ts -> Forall (fun t => exists a, R a t \/ exists es0 ts0 es1, In t ts0 /\ R a (BN (es0 ++ es1) ts0)) ts.
  Proof.
    intros D. destruct D as [e d x y es ks ts _ _ _ F|a es0 es ts0 ts D].
    - clear - F. induction F; constructor; eauto.
    - apply Forall_forall. intros t Ht. exists a. right. exists es0, (ts0 ++ ts), es. split; auto. apply in_or_app. auto.
  Qed.
  Lemma cost_cells (h : fheap) (i : xiter) l c : stk (ns (er h)) i l c -> c <= S (length (cells h)).
  Proof.
    intros (es & ts & D & _ & _ & ->). apply left_len in D. unfold cost. destruct (x_kid i <=? x_elem i), ts as [|t ts]; try lia.
    inversion D as [|? ? (a & Ha) _]; subst. assert (L : n_levels t <= length (cells (er h))).
    { destruct Ha as [Ha|(es0 & ts0 & es1 & Ht & Ha)]; [now apply levels_depth in Ha|]. apply levels_depth in Ha. rewrite levels_eq in Ha.
      pose proof (max_levels_in _ _ Ht). lia. }
    unfold FixedHeapProofs.er in L. rewrite cells_hm in L. lia.
  Qed.
  Lemma needs_fuel (h : fheap) w lcs : stks h w lcs -> needs lcs <= S (length w + length (cells h)).
  Proof.
    intros F. induction F as [|i [l c] w lcs D F IH]; cbn [needs length]; [lia|]. cbn [fst snd] in D. apply cost_cells in D. destruct (is_nil l); lia.
  Qed.

  Lemma stks_of (h : fheap) w ls : Forall2 (stands (ns (er h))) w ls -> exists lcs, stks h w lcs /\ map fst lcs = ls.
  Proof.
    intros F. induction F as [|i l w ls D F (lcs & IH & E)]; [exists []; split; [constructor|auto]|]. apply stk_stands in D as [c D].
    exists ((l, c) :: lcs). split; [constructor; auto|]. cbn. congruence.
  Qed.
  Lemma of_stks (h : fheap) w lcs : stks h w lcs -> Forall2 (stands (ns (er h))) w (map fst lcs).
  Proof. intros F. induction F as [|i lc w lcs D F IH]; constructor; auto. apply stk_stands. eauto. Qed.

  (** ** A call *)
  Definition xcall (c : end_call) (h : fheap) (it : xit) := match c with Front => xi_next bomb h it | Back => xi_next_back bomb h it end.
  Definition from (c : end_call) (ls : list pay) : pay := match c with Front => concat ls | Back => concat (rev ls) end.
  Lemma concat_rev_len (ls : list pay) : length (concat (rev ls)) = length (concat ls).
  Proof. induction ls as [|l ls IH]; auto. cbn [rev]. rewrite concat_app, app_length, IH. cbn. rewrite app_nil_r, app_length. lia. Qed.
  Lemma concat_rev_perm (ls : list pay) : Permutation (concat ls) (concat (rev ls)).
  Proof.
    induction ls as [|l ls IH]; auto. cbn [rev concat]. rewrite concat_app. cbn [concat]. rewrite app_nil_r. rewrite IH. apply Permutation_app_comm.
  Qed.
  Lemma from_perm c (ls : list pay) : Permutation (concat ls) (from c ls).
  Proof. destruct c; cbn [from]; auto using concat_rev_perm. Qed.
  Lemma from_len c (ls : list pay) : length (from c ls) = length (concat ls).
  Proof. symmetry. apply Permutation_length, from_perm. Qed.
  Lemma helds_rev w a : cnt a (helds (rev w)) = cnt a (helds w).
  Proof. induction w as [|i w IH]; auto. cbn [rev flat_map]. rewrite flat_map_app. cbn [flat_map]. rewrite app_nil_r, !cnt_app, IH. lia. Qed.
  Lemma f2_rev {A B} (R : A -> B -> Prop) l l' : Forall2 R l l' -> Forall2 R (rev l) (rev l').
  Proof. intros F. induction F; cbn [rev]; auto. apply Forall2_app; auto. Qed.

  Lemma call_core c (h : fheap) it ls O : good h -> sound (er h) (xheld it ++ O) -> Forall2 (stands (ns (er h))) (fi_work it) ls ->
    fi_len it = length (concat ls) ->
    exists h' it' o ls', xcall c h it = Ok (h', it', o, []) /\ good h' /\ sound (er h') (xheld it' ++ O) /\ frame O (er h) (er h')
      /\ Forall2 (stands (ns (er h'))) (fi_work it') ls' /\ fi_len it' = length (concat ls') /\ length (cells h') = length (cells h)
      /\ stepped bomb (from c ls) (from c ls') h h' o
      /\ (Forall (xfree h) (fi_work it) -> Forall (xfree h') (fi_work it') /\ clones h' = clones h /\ o <> Unwound).
  Proof.
    intros G S F L. apply sess_start in S. destruct c; cbn [xcall from].
    - destruct (stks_of _ _ _ F) as (lcs & St & <-).
      destruct (next_loop_ok bomb (x_fuel h it) (er h) h (fi_work it) lcs (fi_len it) O G S St) as (h' & w' & o & lcs' & E & G' & S' & St' & L' & Sp & Fr); auto.
      { now apply needs_fuel. }
      apply sess_end in S' as [S' F']. unfold xi_next. exists h', (FIter w' (length (lists lcs'))), o, (map fst lcs'). split; [exact E|]. split; auto. split; auto.
      split; auto. split; [now apply of_stks|]. auto.
    - destruct (stks_of _ _ _ (f2_rev _ _ _ F)) as (lcs & St & El).
      assert (Hl : lists lcs = concat (rev ls)) by (unfold lists; now rewrite El).
      destruct (next_loop_ok bomb (x_fuel h it) (er h) h (rev (fi_work it)) lcs (fi_len it) O G) as (h' & w' & o & lcs' & E & G' & S' & St' & L' & Sp & Fr); auto.
      { eapply sess_perm; [|exact S]. intros a. now rewrite helds_rev. }
      { unfold x_fuel. rewrite <- (rev_length (fi_work it)). now apply needs_fuel. }
      { rewrite Hl, concat_rev_len. auto. }
      unfold xi_next_back. pose proof (back_rev bomb (x_fuel h it) h (rev (fi_work it)) (fi_len it)) as B. rewrite rev_involutive, E in B. cbn [rm_ fi_work fi_len] in B.
      assert (S2 : sess (er h) (er h') [] (helds (rev w')) O) by (eapply sess_perm; [|exact S']; intros a; now rewrite helds_rev).
      apply sess_end in S2 as [S2 F']. exists h', (FIter (rev w') (length (lists lcs'))), o, (rev (map fst lcs')). split; [exact B|]. split; auto. split; auto.
      split; auto. split; [apply f2_rev; now apply of_stks|]. split; [symmetry; apply concat_rev_len|]. split; auto. rewrite rev_involutive. unfold lists in Sp, Hl. rewrite Hl in Sp.
      split; auto. intros Ff. destruct Fr as (F1 & F2); [now apply Forall_rev|]. split; auto. now apply Forall_rev.
  Qed.

  (** ** A run *)
  Definition tries (os : results) (l : pay) (tr : list (option entry)) : Prop :=
    Forall2 (fun o t => match fst o with Done x => t = x | Unwound => exists e, t = Some e /\ In e l end) os tr.
  Definition somes (tr : list (option entry)) : pay := flat_map (fun t => match t with Some e => [e] | None => [] end) tr.
  Definition one (e : entry) : pay := [e].
  Lemma sub_none {A} (b : list A) : sub [] b.
  Proof. induction b; constructor; auto. Qed.
  Lemma sub_snoc {A} (a b : list A) x : sub a b -> sub a (b ++ [x]) /\ sub (a ++ [x]) (b ++ [x]).
  Proof. intros H. induction H as [|y a b H [IH1 IH2]|y a b H [IH1 IH2]]; cbn [app]; split; constructor; auto; constructor; auto. Qed.

  Lemma calls_core cs : forall (h : fheap) it ls O, good h -> sound (er h) (xheld it ++ O) -> Forall2 (stands (ns (er h))) (fi_work it) ls ->
    fi_len it = length (concat ls) ->
    exists h' it' os ls' tr ces, xi_calls bomb h it cs = Ok (h', it', os, []) /\ good h' /\ sound (er h') (xheld it' ++ O) /\ frame O (er h) (er h')
      /\ Forall2 (stands (ns (er h'))) (fi_work it') ls' /\ fi_len it' = length (concat ls') /\ length (cells h') = length (cells h)
      /\ Permutation (concat ls) (yielded os ++ concat ls')
      /\ length os = length cs /\ map snd os = counts (length (concat ls)) (map fst os) /\ (forall n, In (Done None, n) os -> n = 0)
      /\ (In Unwound (map fst os) -> exists n, bomb n = true)
      /\ tries os (concat ls) tr /\ copies h' = map one ces ++ copies h /\ sub ces (rev (somes tr))
      /\ (cs = repeat Front (length cs) -> concat ls = yielded os ++ concat ls'
          /\ (returned os <= length (yielded os) \/ concat ls' = []) /\ length (yielded os) <= returned os)
      /\ (Forall (xfree h) (fi_work it) -> clones h' = clones h /\ ~ In Unwound (map fst os)).
  Proof.
    induction cs as [|c cs IH]; intros h it ls O G S F L; cbn [xi_calls].
    - exists h, it, [], ls, [], []. split; [reflexivity|]. split; auto. split; auto. split; [apply frame_refl|]. split; auto. split; auto. split; auto. split; [apply Permutation_refl|].
      split; auto. split; auto. split; [intros n []|]. split; [intros []|]. split; [constructor|]. split; auto. split; [constructor|]. split; [cbn; auto|]. intros _. auto.
    - destruct (call_core c h it ls O G S F L) as (h1 & it1 & o & ls1 & E1 & G1 & S1 & F1 & St1 & L1 & C1 & Sp & Fr). unfold xcall in E1. rewrite E1. cbn [bind].
      destruct (IH h1 it1 ls1 O G1 S1 St1 L1) as (h' & it' & os & ls' & tr & ces & E & G' & S' & F' & St' & L' & C' & Pm & Ln & Ct & Nn & Uw & Tr & Cp & Sb & Ff & Ufr).
      rewrite E. cbn [bind app].
      assert (Lf : length (concat ls1) = length (from c ls1)) by (symmetry; apply from_len).
      assert (Len : match o with Done (Some _) => length (concat ls1) = length (concat ls) - 1 | _ => length (concat ls1) = length (concat ls) end
        /\ (o = Done None -> length (concat ls1) = 0)).
      { rewrite <- (from_len c ls), <- (from_len c ls1). destruct o as [[e|]|]; cbn [stepped] in Sp.
        - destruct Sp as (Hx & -> & _). split; [|discriminate]. destruct (from c ls); cbn in *; [discriminate|lia].
        - destruct Sp as (Hx & -> & _). destruct (from c ls); [|discriminate]. auto.
        - destruct Sp as (-> & _). split; auto. discriminate. }
      assert (Pc : Permutation (from c ls) (match o with Done (Some e) => [e] | _ => [] end ++ from c ls1)).
      { destruct o as [[e|]|]; cbn [stepped] in Sp.
        - destruct Sp as (Hx & -> & _). destruct (from c ls) as [|e' r]; [discriminate|]. injection Hx as ->. apply Permutation_refl.
        - destruct Sp as (Hx & -> & _). destruct (from c ls); [|discriminate]. apply Permutation_refl.
        - destruct Sp as (-> & _). apply Permutation_refl. }
      set (t := match o with Done x => x | Unwound => hd_error (from c ls) end).
      assert (Ht : match o with Done x => t = x | Unwound => exists e, t = Some e /\ In e (concat ls) end).
      { unfold t. destruct o as [x|]; auto. destruct Sp as (_ & _ & e & r & Hr & _). rewrite Hr. exists e. split; [reflexivity|].
        eapply Permutation_in; [apply Permutation_sym, (from_perm c)|]. rewrite Hr. now left. }
      assert (Hc : exists c1, copies h1 = map one c1 ++ copies h /\ sub c1 (somes [t])).
      { unfold t. destruct o as [x|]; cbn [stepped] in Sp.
        - destruct Sp as (_ & _ & [Sp|(e & -> & Sp & _)]).
          + exists []. unfold copies. rewrite Sp. split; auto. apply sub_none.
          + exists [e]. split; auto. exact (sub_keep e [] [] sub_nil).
        - destruct Sp as (_ & _ & e & r & -> & Sp). exists [e]. split; auto. exact (sub_keep e [] [] sub_nil). }
      destruct Hc as (c1 & Hc1 & Hc2).
      exists h', it', ((o, fi_len it1) :: os), ls', (t :: tr), (ces ++ c1). split; [reflexivity|]. split; auto. split; auto. split; [eapply frame_trans; eauto|].
      split; auto. split; auto. split; [lia|]. split.
      { rewrite (from_perm c ls), Pc. rewrite <- (from_perm c ls1), Pm. unfold yielded. cbn [flat_map fst]. rewrite <- app_assoc. destruct o as [[e|]|]; apply Permutation_refl. }
      split; [cbn; lia|]. split.
      { cbn [map fst snd counts]. destruct Len as [Len _]. destruct o as [[e|]|]; rewrite Ct, L1, Len; reflexivity. }
      split.
      { intros n [H|H]; [|now apply Nn]. injection H as -> <-. rewrite L1. now apply Len. }
      split.
      { intros [H|H]; [|auto]. cbn [fst] in H. subst o. destruct Sp as (_ & Hb & _). eauto. }
      split.
      { constructor; [exact Ht|]. clear - Tr Pc. unfold tries in *. assert (I : incl (concat ls1) (concat ls)).
        { intros e He. eapply Permutation_in; [apply Permutation_sym, (from_perm c)|]. eapply Permutation_in; [apply Permutation_sym, Pc|].
          apply in_or_app. right. eapply Permutation_in; [apply (from_perm c)|]. exact He. }
        clear Pc. induction Tr as [|x y os tr Hx Tr IH]; constructor; auto. destruct (fst x); auto. destruct Hx as (e & -> & He). eauto. }
      split; [rewrite Cp, Hc1, map_app, app_assoc; reflexivity|]. split.
      { assert (Es : somes (t :: tr) = somes [t] ++ somes tr) by (unfold somes; cbn [flat_map]; now rewrite app_nil_r). rewrite Es, rev_app_distr. clear Es. clear - Sb Hc2. revert Sb. generalize (rev (somes tr)) as b. intros b Sb.
        unfold somes in *. destruct t as [e|]; cbn [flat_map app rev] in *.
        - inversion Hc2 as [|? ? ? Hn|? ? ? Hn]; subst; inversion Hn; subst; [rewrite app_nil_r; now apply sub_snoc|now apply sub_snoc].
        - inversion Hc2; subst. now rewrite !app_nil_r. }
      split.
      { intros Hcs. cbn [length repeat] in Hcs. injection Hcs as -> Hcs. destruct (Ff Hcs) as (Hf & Hr & Hle). cbn [from] in *. unfold yielded, returned in *. cbn [flat_map fst filter].
        destruct o as [[e|]|]; cbn [stepped app length] in *.
        - destruct Sp as (Hx & Hl1 & _). destruct (concat ls) as [|e' r]; [discriminate|]. injection Hx as ->. cbn [tl] in Hl1. rewrite <- Hl1, Hf. split; [reflexivity|]. split; [destruct Hr; [left; lia|auto]|lia].
        - destruct Sp as (Hx & Hl1 & _). destruct (concat ls) as [|e' r]; [|discriminate]. rewrite Hl1 in Hf. cbn [tl] in Hf. symmetry in Hf. pose proof Hf as Hf'.
          apply app_eq_nil in Hf as [Hy Hl]. split; auto.
        - destruct Sp as (Hl1 & _). rewrite <- Hl1, Hf. auto. }
      intros Fx. destruct (Fr Fx) as (F2 & C2 & No). destruct (Ufr F2) as [C3 N3]. split; [congruence|]. intros [H|H]; auto.
  Qed.

  (** ** The drop *)
  Lemma drops_core w : forall (h : fheap) ls X O, good h -> sess X (er h) [] (helds w) O -> Forall2 (stands (ns (er h))) w ls ->
    exists h', x_drops h w = Ok (h', flat_map here w) /\ good h' /\ sess X (er h') [] [] O /\ clones h' = clones h /\ length (cells h') = length (cells h).
  Proof.
    induction w as [|i w IH]; intros h ls X O G S F; cbn [x_drops].
    - inversion F; subst. exists h. split; [reflexivity|]. split; [exact G|]. split; [exact S|]. auto.
    - inversion F as [|? l ? ls' D F']; subst. cbn [flat_map] in S. destruct (drop_one X h i l (helds w) O G S D) as (h1 & E & G1 & S1 & K1 & C1 & L1 & _).
      rewrite E. cbn [bind]. destruct (IH h1 ls' X O G1 S1) as (h' & E' & G' & S' & C' & L').
      { clear - K1 F'. assert (I : incl (helds w) (helds w ++ O)) by (intros x Hx; apply in_or_app; auto). revert I. generalize (helds w ++ O) as Z, K1. clear K1. intros Z K1 I.
        induction F' as [|j l w ls D F IH]; constructor.
        - eapply stands_mono; [|exact D]. intros a t Ha. apply K1. apply I. cbn. apply in_or_app. auto.
        - apply IH. intros x Hx. apply I. cbn. apply in_or_app. auto. }
      rewrite E'. cbn [bind]. exists h'. split; auto. split; auto. split; auto. split; [congruence|lia].
  Qed.
  Lemma heres_ok (R : addr -> bt -> Prop) (w : list xiter) ls : Forall2 (stands R) w ls ->
    exists ts rest, Forall2 R (helds w) ts /\ incl rest (concat (map inorder ts)) /\ Permutation (concat ls) (flat_map here w ++ rest).
  Proof.
    intros F. induction F as [|i l w ls D F (ts & rest & H1 & H2 & H3)]; [exists [], []; split; [constructor|split; [apply incl_nil_l|apply Permutation_refl]]|].
    destruct (here_ok _ _ _ D) as (ts' & rest' & P1 & P2 & P3). exists (ts' ++ ts), (rest' ++ rest). cbn [flat_map concat]. split; [now apply Forall2_app|]. split.
    - rewrite map_app, concat_app. now apply incl_app_app.
    - rewrite P3, H3, <- !app_assoc. apply Permutation_app_head. rewrite !app_assoc. apply Permutation_app_tail. apply Permutation_app_comm.
  Qed.
End Calls.

Section Clients.
  Context {K V Q : Type} (bor : K -> Q) (cmp : Q -> Q -> comparison).
  Variable bomb : nat -> bool.
  Notation elems := (elems K V).
  Notation okids := (option (kids addr)).
  Notation cell := (elems * okids)%type.
  Notation fheap := (heap cell).
  Notation pay := (list (K * V)).
  Notation entry := (K * V)%type.
  Notation bt := (bt K V).
  Notation er := (@er K V).
  Notation good := (@good K V).
  Notation xit := (f_iter (xiter K V)).
  Notation fframe := (fframe bor cmp).
  Notation fh_shows := (fh_shows bor cmp).

  Lemma shape_bushy : forall (t : bt) mn d, 1 <= mn -> shape MIN_OCCUPANCY mn d t -> bushy t.
  Proof.
    fix IH 1. intros [es ts] mn d M S. inversion S as [? ? L|? ? ? ? L Lk F]; subst.
    - constructor; auto. destruct es; [cbn in L; lia|discriminate].
    - constructor; auto; [destruct es; [cbn in L; lia|discriminate]|]. clear S L Lk M.
      induction ts as [|t ts IHt]; constructor; inversion F; subst; [|auto]. eapply (IH t MIN_OCCUPANCY); [unfold MIN_OCCUPANCY; lia|eauto].
  Qed.
  Lemma stands_reads (h : fheap) i l : good h -> (stands (reads h) i l <-> stands (ns (er h)) i l).
  Proof. intros G. split; apply stands_mono; intros a t _ H; now apply reads_ns. Qed.
  Lemma f2_reads (h : fheap) w ls : good h -> (Forall2 (stands (reads h)) w ls <-> Forall2 (stands (ns (er h))) w ls).
  Proof. intros G. split; intros F; induction F; constructor; auto; now apply stands_reads. Qed.

  Lemma into_iter_core (h : fheap) m l O : fsound h (olist (fh_root m) ++ O) -> fh_shows h m l ->
    exists h' it ls, fh_into_iter h m = Ok (h', it) /\ good h' /\ sound (er h') (xheld it ++ O) /\ frame O (er h) (er h')
      /\ Forall2 (stands (ns (er h'))) (fi_work it) ls /\ fi_len it = length (concat ls) /\ concat ls = l /\ concat (rev ls) = l
      /\ clones h' = clones h /\ length (cells h') = length (cells h) /\ (funshared h (fh_root m) -> Forall (xfree h') (fi_work it)).
  Proof.
    intros S H. apply fsound_iff in S as [G S]. apply is_shows in H as (b & [Hl D] & (_ & Lb & Sh) & <-); auto. unfold fh_into_iter.
    destruct (fh_root m) as [a|] eqn:Em, b as [n [[es ts]|]]; cbn [bm_root bm_len opt_ns] in *; try contradiction.
    - assert (Bu : bushy (BN es ts)) by (destruct Sh as [d Sh]; eapply shape_bushy; eauto).
      destruct (unwrap_ok (er h) h a es ts [] O G) as (h' & nd & E & G' & En & Dl & S' & K' & C' & L' & Fr & _ & _); auto.
      { apply sess_start. exact S. }
      rewrite E. cbn [bind]. rewrite En. cbn [bind]. apply sess_end in S' as [S' F'].
      exists h', (FIter [XIter nd 0 (length es) 0 (length ts)] (fh_len m)), [inorder (BN es ts)]. split; auto. split; auto. split.
      { unfold xheld. cbn [fi_work flat_map]. rewrite held_n. exact S'. }
      split; auto. split; [constructor; [|constructor]; apply stk_stands; eexists; now apply stk_new|].
      unfold contents in *. cbn [concat rev app fi_len bm_root] in *. rewrite app_nil_r. split; [rewrite inorder_flat; congruence|]. split; auto. split; auto. split; auto. split; auto.
      intros Un. constructor; auto. assert (Fa : free h a).
      { intros x Hx. unfold unique. destruct (get h x) as [[c n0]|] eqn:Ex; [|exfalso].
        - rewrite (Un x c n0 Hx Ex). reflexivity.
        - destruct S as [W _]. unfold FixedHeapProofs.er in W. rewrite wf_hm in W. eapply wf_live; [exact W| |exact Ex].
          apply in_or_app. inversion Hx as [? Hi|y c n1 ? Hy Gy Hi]; subst; [left; apply in_or_app; auto|right; eapply ptrs_in; eauto]. }
      destruct (Fr Fa) as [F1 F2]. split; [now rewrite held_n|exact F2].
    - exists h, (FIter [] (fh_len m)), []. split; auto. split; auto. split; auto. split; [apply frame_refl|]. split; [constructor|]. unfold contents in *. cbn in *.
      split; [congruence|]. auto.
  Qed.
  Lemma into_iter_x (h : fheap) m l O : fsound h (olist (fh_root m) ++ O) -> fh_shows h m l ->
    exists h' it, fh_into_iter h m = Ok (h', it) /\ fsound h' (xheld it ++ O) /\ fframe O h h' /\ xshows h' it l l
      /\ clones h' = clones h /\ length (cells h') = length (cells h).
  Proof.
    intros S H. destruct (into_iter_core h m l O S H) as (h' & it & ls & E & G' & S' & F' & St & L & El & Er & C & Lc & _). apply fsound_iff in S as [G S].
    exists h', it. split; auto. split; [now apply fsound_iff|]. split; [now apply fframe_of|]. split; auto. exists ls. rewrite El, Er in *.
    split; [now apply f2_reads|]. auto.
  Qed.

  Lemma call_x c (h : fheap) it l r O : fsound h (xheld it ++ O) -> xshows h it l r ->
    exists h' it' o l' r', xcall bomb c h it = Ok (h', it', o, []) /\ fsound h' (xheld it' ++ O) /\ fframe O h h' /\ xshows h' it' l' r'
      /\ length (cells h') = length (cells h) /\ stepped bomb (match c with Front => l | Back => r end) (match c with Front => l' | Back => r' end) h h' o.
  Proof.
    intros S (ls & F & -> & -> & L). apply fsound_iff in S as [G S]. apply f2_reads in F; auto.
    destruct (call_core bomb c h it ls O G S F L) as (h' & it' & o & ls' & E & G' & S' & F' & St & L' & Lc & Sp & _).
    exists h', it', o, (concat ls'), (concat (rev ls')). split; auto. split; [now apply fsound_iff|]. split; [now apply fframe_of|].
    split; [exists ls'; split; [now apply f2_reads|auto]|]. split; [exact Lc|]. destruct c; exact Sp.
  Qed.
  Lemma next_x (h : fheap) it l r O : fsound h (xheld it ++ O) -> xshows h it l r ->
    exists h' it' o, xi_next bomb h it = Ok (h', it', o, []) /\ fsound h' (xheld it' ++ O) /\ fframe O h h' /\ length (cells h') = length (cells h) /\
      match o with
      | Done x => x = hd_error l /\ (exists r', xshows h' it' (tl l) r')
                  /\ (copies h' = copies h \/ exists e, x = Some e /\ copies h' = [e] :: copies h)
      | Unwound => bomb (length (clones h)) = true /\ (exists r', xshows h' it' l r') /\ (exists e, hd_error l = Some e /\ copies h' = [e] :: copies h)
      end.
  Proof.
    intros S H. destruct (call_x Front h it l r O S H) as (h' & it' & o & l' & r' & E & S' & F' & H' & L & Sp). exists h', it', o. split; auto. split; auto. split; auto. split; auto.
    destruct o as [x|].
    - destruct Sp as (Hx & -> & Hc). split; auto. split; eauto. destruct Hc as [Hc|(e & He & Hc & _)]; [left; unfold copies; now rewrite Hc|eauto].
    - destruct Sp as (-> & Hb & e & t & -> & Hc). split; auto. split; [eauto|]. exists e. auto.
  Qed.
  Lemma next_back_x (h : fheap) it l r O : fsound h (xheld it ++ O) -> xshows h it l r ->
    exists h' it' o, xi_next_back bomb h it = Ok (h', it', o, []) /\ fsound h' (xheld it' ++ O) /\ fframe O h h' /\ length (cells h') = length (cells h) /\
      match o with
      | Done x => x = hd_error r /\ (exists l', xshows h' it' l' (tl r))
                  /\ (copies h' = copies h \/ exists e, x = Some e /\ copies h' = [e] :: copies h)
      | Unwound => bomb (length (clones h)) = true /\ (exists l', xshows h' it' l' r) /\ (exists e, hd_error r = Some e /\ copies h' = [e] :: copies h)
      end.
  Proof.
    intros S H. destruct (call_x Back h it l r O S H) as (h' & it' & o & l' & r' & E & S' & F' & H' & L & Sp). exists h', it', o. split; auto. split; auto. split; auto. split; auto.
    destruct o as [x|].
    - destruct Sp as (Hx & -> & Hc). split; auto. split; eauto. destruct Hc as [Hc|(e & He & Hc & _)]; [left; unfold copies; now rewrite Hc|eauto].
    - destruct Sp as (-> & Hb & e & t & -> & Hc). split; auto. split; [eauto|]. exists e. auto.
  Qed.
  Lemma drop_x (h : fheap) (it : xit) l r O : fsound h (xheld it ++ O) -> xshows h it l r ->
    exists h' es rest, xi_drop h it = Ok (h', es) /\ fsound h' O /\ fframe O h h' /\ clones h' = clones h /\ length (cells h') = length (cells h)
      /\ Permutation l (es ++ rest) /\ exists ts, Forall2 (reads h) (xheld it) ts /\ incl rest (concat (map inorder ts)).
  Proof.
    intros S (ls & F & -> & -> & L). destruct (heres_ok _ _ _ F) as (ts & rest & H1 & H2 & H3). apply fsound_iff in S as [G S]. apply f2_reads in F; auto. apply sess_start in S.
    destruct (drops_core (fi_work it) h ls (er h) O G S F) as (h' & E & G' & S' & C & Lc). apply sess_end in S' as [S' F'].
    exists h', (flat_map here (fi_work it)), rest. split; auto. split; [now apply fsound_iff|]. split; [now apply fframe_of|]. split; auto. split; auto. split; eauto.
  Qed.
  Lemma orders_x (h : fheap) (it : xit) l r : xshows h it l r -> Permutation l r.
  Proof. intros (ls & _ & -> & -> & _). apply concat_rev_perm. Qed.
  Lemma frame_x (h h' : fheap) (it : xit) l r O : fframe O h h' -> incl (xheld it) O -> xshows h it l r -> xshows h' it l r.
  Proof.
    intros [_ F] I (ls & St & P). exists ls. split; auto. clear P. unfold xheld in I. induction St as [|i x w ls D St IH]; constructor.
    - eapply stands_mono; [|exact D]. intros a t Ha. apply F. apply I. cbn. apply in_or_app. auto.
    - apply IH. intros x' Hx. apply I. cbn. apply in_or_app. auto.
  Qed.

  Lemma tries_yielded os (l : pay) tr : tries os l tr -> ~ In Unwound (map fst os) -> somes tr = yielded os.
  Proof.
    intros T. induction T as [|o t os tr Ht T IH]; intros N; auto. unfold somes, yielded in *. cbn [flat_map map] in *. rewrite IH; [|intros H; apply N; now right].
    destruct (fst o) as [x|] eqn:Eo; [now subst|]. exfalso. apply N. now left.
  Qed.
  Lemma tries_in os (l : pay) tr : tries os l tr -> (forall e, In e (yielded os) -> In e l) -> forall e, In e (somes tr) -> In e l.
  Proof.
    intros T. induction T as [|o t os tr Ht T IH]; intros Y e He; [destruct He|]. unfold somes, yielded in *. cbn [flat_map] in *. apply in_app_or in He as [He|He].
    - destruct (fst o) as [x|] eqn:Eo; [subst t; apply Y; apply in_or_app; auto|]. destruct Ht as (e' & -> & Hin). destruct He as [<-|[]]. auto.
    - apply IH; auto. intros e' He'. apply Y. apply in_or_app. auto.
  Qed.
  Lemma tries_len os (l : pay) tr : tries os l tr -> length (somes tr) <= length os.
  Proof. intros T. induction T as [|o t os tr Ht T IH]; auto. unfold somes in *. cbn [flat_map length]. rewrite app_length. destruct t; cbn [length]; lia. Qed.
  Lemma sub_len {A} (a b : list A) : sub a b -> length a <= length b.
  Proof. induction 1; cbn; lia. Qed.
  Lemma sub_inc {A} (a b : list A) : sub a b -> incl a b.
  Proof. induction 1; intros y Hy; [destruct Hy|right; auto|]. destruct Hy as [<-|Hy]; [now left|right; auto]. Qed.

  Lemma into_calls_x (h : fheap) m l cs O : fsound h (olist (fh_root m) ++ O) -> fh_shows h m l ->
    exists h' os es rest new, fh_into_calls bomb h m cs = Ok (h', os, es) /\ fsound h' O /\ fframe O h h' /\ length (cells h') = length (cells h)
      /\ length os = length cs /\ Permutation l (yielded os ++ es ++ rest)
      /\ map snd os = counts (length l) (map fst os) /\ (forall n, In (Done None, n) os -> n = 0)
      /\ (In Unwound (map fst os) -> exists n, bomb n = true)
      /\ copies h' = map (fun e => [e]) new ++ copies h /\ incl new l /\ length new <= length cs
      /\ (~ In Unwound (map fst os) -> sub new (rev (yielded os)))
      /\ (cs = repeat Front (length cs) -> yielded os = firstn (returned os) l)
      /\ (funshared h (fh_root m) -> new = [] /\ ~ In Unwound (map fst os)).
  Proof.
    intros S H. destruct (into_iter_core h m l O S H) as (h1 & it & ls & E & G1 & S1 & F1 & St1 & L1 & El & _ & C1 & Lc1 & Fr1). apply fsound_iff in S as [G S].
    unfold fh_into_calls. rewrite E. cbn [bind].
    destruct (calls_core bomb cs h1 it ls O G1 S1 St1 L1) as (h2 & it2 & os & ls2 & tr & ces & E2 & G2 & S2 & F2 & St2 & L2 & Lc2 & Pm & Ln & Ct & Nn & Uw & Tr & Cp & Sb & Ff & Ufr).
    rewrite E2. cbn [bind]. apply sess_start in S2.
    destruct (drops_core (fi_work it2) h2 ls2 (er h2) O G2 S2 St2) as (h3 & E3 & G3 & S3 & C3 & Lc3). apply sess_end in S3 as [S3 F3].
    destruct (heres_ok _ _ _ St2) as (ts & rest & _ & _ & Pm3). set (es := flat_map here (fi_work it2)) in *.
    unfold xi_drop. rewrite E3. cbn [bind app]. exists h3, os, es, rest, ces. rewrite El in *. split; auto. split; [now apply fsound_iff|].
    split; [apply fframe_of; auto; eapply frame_trans; [exact F1|eapply frame_trans; eauto]|]. split; [lia|]. split; auto. split; [rewrite Pm; now apply Permutation_app_head|].
    split; auto. split; auto. split; auto.
    assert (Hy : forall e, In e (yielded os) -> In e l).
    { intros e He. eapply Permutation_in; [apply Permutation_sym, Pm|]. apply in_or_app. auto. }
    split; [unfold copies in *; rewrite C3, Cp, C1; reflexivity|].
    split.
    { intros e He. apply (tries_in _ _ _ Tr Hy). apply sub_inc in Sb. apply in_rev. auto. }
    split; [apply sub_len in Sb; rewrite rev_length in Sb; apply tries_len in Tr; lia|].
    split; [intros Nu; now rewrite <- (tries_yielded _ _ _ Tr Nu)|].
    split.
    { intros Hc. destruct (Ff Hc) as (Hl & Hr & Hle). rewrite Hl. destruct Hr as [Hr|Hr].
      - replace (returned os) with (length (yielded os)) by lia. now rewrite firstn_app, firstn_all, Nat.sub_diag, app_nil_r.
      - rewrite Hr, app_nil_r. now rewrite firstn_all2. }
    intros Un. destruct (Ufr (Fr1 Un)) as [C2 N2]. split; auto. unfold copies in Cp. rewrite C2 in Cp.
    assert (X : length (map one ces) = 0) by (apply (f_equal (@length _)) in Cp; rewrite app_length in Cp; lia). rewrite map_length in X. now destruct ces.
  Qed.
End Clients.

Section Corollaries.
  Context {K V Q : Type} (bor : K -> Q) (cmp : Q -> Q -> comparison).
  Variable bomb : nat -> bool.
  Notation fheap := (heap (elems K V * option (kids addr))).
  Notation pay := (list (K * V)).
  Notation xit := (f_iter (xiter K V)).
  Notation fframe := (fframe bor cmp).
  Notation fh_shows := (fh_shows bor cmp).

  Lemma retry_x bomb' (h : fheap) (it : xit) l r O h1 it1 es : fsound h (xheld it ++ O) -> xshows h it l r ->
    xi_next bomb h it = Ok (h1, it1, Unwound, es) -> (forall n, bomb' n = false) ->
    exists h2 it2 r', xi_next bomb' h1 it1 = Ok (h2, it2, Done (hd_error l), []) /\ fsound h2 (xheld it2 ++ O) /\ fframe O h h2
      /\ xshows h2 it2 (tl l) r' /\ es = [].
  Proof.
    intros S H E Nb. destruct (next_x bor cmp bomb h it l r O S H) as (h1' & it1' & o & E' & S1 & F1 & _ & P). rewrite E in E'. injection E' as <- <- <- ->.
    destruct P as (_ & [r1 H1] & _). destruct (next_x bor cmp bomb' h1 it1 l r1 O S1 H1) as (h2 & it2 & o & E2 & S2 & F2 & _ & P2). destruct o as [x|].
    - destruct P2 as (-> & [r2 H2] & _). exists h2, it2, r2. split; auto. split; auto. split; [eapply fframe_trans; eauto|]. auto.
    - destruct P2 as (Hb & _). rewrite Nb in Hb. discriminate.
  Qed.
  Lemma fronts_x (h : fheap) m l n O : fsound h (olist (fh_root m) ++ O) -> fh_shows h m l ->
    exists h' os es, fh_into_calls bomb h m (repeat Front n) = Ok (h', os, es) /\ length os = n /\ yielded os = firstn (returned os) l.
  Proof.
    intros S H. destruct (into_calls_x bor cmp bomb h m l (repeat Front n) O S H) as (h' & os & es & rest & new & E & _ & _ & _ & L & _ & _ & _ & _ & _ & _ & _ & _ & Ff & _).
    exists h', os, es. rewrite repeat_length in *. auto.
  Qed.
  Lemma into_calls_s (h : fheap) m l cs O : fsound h (olist (fh_root m) ++ O) -> fh_shows h m l ->
    exists h' os es rest new, fh_into_calls bomb h m cs = Ok (h', os, es) /\ fsound h' O /\ fframe O h h' /\ length (cells h') = length (cells h)
      /\ length os = length cs /\ Permutation l (yielded os ++ es ++ rest)
      /\ map snd os = counts (length l) (map fst os) /\ (forall n, In (Done None, n) os -> n = 0)
      /\ (In Unwound (map fst os) -> exists n, bomb n = true)
      /\ copies h' = map (fun e => [e]) new ++ copies h /\ incl new l /\ length new <= length cs
      /\ (~ In Unwound (map fst os) -> sub new (rev (yielded os))).
  Proof.
    intros S H. destruct (into_calls_x bor cmp bomb h m l cs O S H) as (h' & os & es & rest & new & P1 & P2 & P3 & P4 & P5 & P6 & P7 & P8 & P9 & P10 & P11 & P12 & P13 & _).
    exists h', os, es, rest, new. do 12 (split; [assumption|]). assumption.
  Qed.
  Lemma fronts_eq n : forall (l : pay) (os : list (out (option (K * V)) * nat)), length os = n -> ~ In Unwound (map fst os) ->
    map snd os = counts (length l) (map fst os) -> (forall k, In (Done None, k) os -> k = 0) ->
    yielded os = firstn (length os) l -> os = fronts n l.
  Proof.
    induction n as [|n IH]; intros l [|[o k] os] Ln Nu Ct Nn Y; try discriminate; [reflexivity|]. cbn [length] in Ln. injection Ln as Ln. unfold yielded, fronts in *.
    cbn [map fst snd flat_map length firstn repeat s_ends] in *. destruct o as [[e|]|]; [| |exfalso; apply Nu; now left].
    - cbn [counts app] in *. injection Ct as -> Ct. destruct l as [|e' l]; [discriminate|]. injection Y as -> Y. cbn [length s_ends fst snd map] in *. replace (S (length l) - 1) with (length l) in * by lia.
      cbn [hd_error tl]. apply (f_equal (cons _)). apply IH; [auto|intros Hu; apply Nu; now right|auto|intros j Hj; apply (Nn j); now right|auto].
    - cbn [counts app] in *. injection Ct as -> Ct. assert (Hl : length l = 0) by (apply Nn; now left). destruct l; [|discriminate]. cbn [length s_ends fst snd map hd_error tl] in *. apply (f_equal (cons _)).
      apply IH; [auto|intros Hu; apply Nu; now right|auto|intros j Hj; apply (Nn j); now right|]. destruct (length os); exact Y.
  Qed.
  Lemma returned_all (os : list (out (option (K * V)) * nat)) : ~ In Unwound (map fst os) -> returned os = length os.
  Proof.
    induction os as [|[o k] os IH]; intros N; auto. unfold returned in *. cbn [filter fst length map] in *. destruct o; [cbn [length]; rewrite IH; [auto|intros H; apply N; now right]|exfalso; apply N; now left].
  Qed.
  Lemma fronts_done_x (h : fheap) m l n O : fsound h (olist (fh_root m) ++ O) -> fh_shows h m l -> (forall n, bomb n = false) ->
    exists h' es, fh_into_calls bomb h m (repeat Front n) = Ok (h', fronts n l, es).
  Proof.
    intros S H Nb. destruct (into_calls_x bor cmp bomb h m l (repeat Front n) O S H) as (h' & os & es & rest & new & E & _ & _ & _ & L & _ & Ct & Nn & Uw & _ & _ & _ & _ & Ff & _).
    rewrite repeat_length in *. assert (Nu : ~ In Unwound (map fst os)) by (intros Hu; destruct (Uw Hu) as [k Hk]; rewrite Nb in Hk; discriminate).
    exists h', es. rewrite <- (fronts_eq n l os); auto. rewrite <- (returned_all os Nu). auto.
  Qed.
  Lemma unshared_x (h : fheap) m l cs O : fsound h (olist (fh_root m) ++ O) -> fh_shows h m l -> funshared h (fh_root m) ->
    exists h' os es, fh_into_calls bomb h m cs = Ok (h', os, es) /\ copies h' = copies h /\ ~ In Unwound (map fst os).
  Proof.
    intros S H Un. destruct (into_calls_x bor cmp bomb h m l cs O S H) as (h' & os & es & rest & new & P1 & P2 & P3 & P4 & P5 & P6 & P7 & P8 & P9 & P10 & P11 & P12 & P13 & P14 & P15).
    destruct (P15 Un) as [-> Nu]. exists h', os, es. auto.
  Qed.
End Corollaries.
