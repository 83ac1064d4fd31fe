(** Owning iteration over shared fixed [BTreeMap]s: the node iterators. *)
From Coq Require Import List PeanoNat Bool Lia Permutation.
From Verif Require Import Base Spec SpecFacts Vec Heap HeapProofs BTreeModel BTreeProofs BTreeProofs2 BTreeIterModel BTreeIterProofs
  BTreeHeapModel BTreeHeapSpec BTreeHeapProofs BTreeHeapProofs2 BTreeHeapProofs3 BTreeHeapProofs5 BTreeHeapProofs6 FixedModel FixedIterModel FixedSpec FixedProofs FixedProofs2
  FixedHeapModel FixedHeapSpec FixedHeapProofs FixedHeapProofs7 FixedHeapIntoModel FixedHeapIntoSpec.
Import ListNotations.
Local Open Scope nat_scope.

Section Seg.
  Context {A : Type}.
  Implicit Types (s : list (option A)) (l : list A).
  Lemma seg_read s x a l : seg s x (a :: l) -> slot_read s x = Ok a /\ seg (set_at x None s) (x + 1) l.
  Proof.
    intros (pre & post & -> & <-). cbn [map app]. split.
    - unfold slot_read. rewrite nth_error_app2, Nat.sub_diag by lia. reflexivity.
    - rewrite set_at_mid by auto. exists (pre ++ [None]), post. split; [now rewrite <- app_assoc|]. rewrite app_length. reflexivity.
  Qed.
  Lemma seg_range l : forall s x, seg s x l -> read_range s x (length l) = Ok l.
  Proof.
    induction l as [|a l IH]; intros s x (pre & post & -> & <-); [reflexivity|]. cbn [length read_range map app].
    unfold slot_read. rewrite nth_error_app2, Nat.sub_diag by lia. cbn [nth_error bind].
    rewrite (IH _ (S (length pre))); [reflexivity|]. exists (pre ++ [Some a]), post. split; [now rewrite <- app_assoc|]. rewrite app_length. cbn. lia.
  Qed.
  Lemma seg_arr n s l : arr n s l -> seg s 0 l.
  Proof. intros (_ & j & ->). now exists [], j. Qed.
  Lemma seg_slots s x l : seg s x l -> firstn (length l) (skipn x s) = map Some l.
  Proof.
    intros (pre & post & -> & <-). rewrite skipn_app, skipn_all, Nat.sub_diag. cbn [skipn app].
    rewrite <- (map_length Some l), firstn_app, firstn_all, Nat.sub_diag. cbn. apply app_nil_r.
  Qed.
End Seg.

Section Step.
  Context {K V : Type}.
  Variable bomb : nat -> bool.
  Notation elems := (elems K V).
  Notation okids := (option (kids addr)).
  Notation cell := (elems * okids)%type.
  Notation fheap := (heap cell).
  Notation pay := (list (K * V)).
  Notation entry := (K * V)%type.
  Notation bt := (bt K V).
  Notation er := (@er K V).
  Notation good := (@good K V).
  Notation xiter := (xiter K V).
  Notation xnode := (xnode K V).

  Lemma inorder_flat (t : bt) : inorder t = flat t.
  Proof. reflexivity. Qed.
  Lemma mix_weave (ls : list pay) es : mix ls es = weave ls es.
  Proof. reflexivity. Qed.

  (** The pointers of a node from child [y] to child [ye]. *)
  Definition n_held (n : xnode) (y ye : nat) : list addr :=
    match n with
    | XLeased a => [a]
    | XOwned _ None => []
    | XOwned _ (Some b) => olists (firstn (ye - y) (skipn y (kd_ptrs b)))
    end.
  Lemma held_n (i : xiter) : x_held i = n_held (x_n i) (x_kid i) (x_end_kids i).
  Proof. reflexivity. Qed.
  Lemma held_owned e d y ks : match d with None => ks = [] | Some b => seg (kd_ptrs b) y ks end -> n_held (XOwned e d) y (y + length ks) = ks.
  Proof.
    destruct d as [b|]; cbn [n_held]; [|auto]. intros H. replace (y + length ks - y) with (length ks) by lia.
    rewrite (seg_slots _ _ _ H). apply olists_somes.
  Qed.
  Lemma left_mono (R R' : addr -> bt -> Prop) n x xe y ye es ts : (forall a t, In a (n_held n y ye) -> R a t -> R' a t) ->
    left R n x xe y ye es ts -> left R' n x xe y ye es ts.
  Proof.
    intros H D. destruct D as [e d x y es ks ts Hk Hv Hd F|a es0 es ts0 ts D].
    - rewrite (held_owned e d y ks Hd) in H. eapply left_owned; eauto. clear Hd. induction F; constructor.
      + apply H; auto. now left.
      + apply IHF. intros. apply H; auto. now right.
    - constructor. apply H; auto. cbn. auto.
  Qed.
  Lemma stands_mono (R R' : addr -> bt -> Prop) (i : xiter) l : (forall a t, In a (x_held i) -> R a t -> R' a t) -> stands R i l -> stands R' i l.
  Proof. intros H (es & ts & D & P). exists es, ts. split; auto. eapply left_mono; eauto. Qed.
  Lemma stands_all (R R' : addr -> bt -> Prop) w ls : (forall a t, In a (flat_map (@x_held K V) w) -> R a t -> R' a t) ->
    Forall2 (stands R) w ls -> Forall2 (stands R') w ls.
  Proof.
    intros H F. induction F as [|i l w ls D F IH]; constructor.
    - eapply stands_mono; [|exact D]. intros a t Ha. apply H. cbn. apply in_or_app. auto.
    - apply IH. intros a t Ha. apply H. cbn. apply in_or_app. auto.
  Qed.

  (** ** The rounds that a node iterator may take before it yields *)
  Definition cost (b : bool) (ts : list bt) : nat := match b, ts with true, t :: _ => S (n_levels t) | _, _ => 1 end.
  Definition stk (R : addr -> bt -> Prop) (i : xiter) (l : pay) (c : nat) : Prop :=
    exists es ts, left R (x_n i) (x_elem i) (x_end_elems i) (x_kid i) (x_end_kids i) es ts /\ Forall bushy ts
      /\ (if x_kid i <=? x_elem i
          then (ts = [] \/ x_kid i = x_elem i /\ length ts = S (length es)) /\ l = mix (map inorder ts) es
          else x_kid i = S (x_elem i) /\ length ts = length es
               /\ l = match es with [] => [] | e :: es' => e :: mix (map inorder ts) es' end)
      /\ c = cost (x_kid i <=? x_elem i) ts.
  Lemma stk_stands R i l : stands R i l <-> exists c, stk R i l c.
  Proof.
    split.
    - intros (es & ts & P1 & P2 & P3). eexists. exists es, ts. eauto.
    - intros (c & es & ts & P1 & P2 & P3 & _). exists es, ts. auto.
  Qed.
  Lemma stk_mono (R R' : addr -> bt -> Prop) (i : xiter) l c : (forall a t, In a (x_held i) -> R a t -> R' a t) -> stk R i l c -> stk R' i l c.
  Proof. intros H (es & ts & D & P). exists es, ts. split; auto. eapply left_mono; eauto. Qed.

  (** ** Unshared *)
  Definition free (h : fheap) (p : addr) : Prop := forall b, freach h (Some p) b -> unique h b = true.
  Lemma wf_live (h : fheap) Z b : wf h Z -> In b (Z ++ ptrs h) -> get h b <> None.
  Proof. intros W Hb E. specialize (W b). rewrite E in W. apply cnt_notin in W. auto. Qed.
  Lemma free_take (h : fheap) a n Z p : get h a = Some (1, n) -> wf (put h a None) Z -> In p Z -> free h p -> free (put h a None) p.
  Proof.
    intros G W Hp Fr b Hb. assert (La : a < length (cells h)) by (eapply get_lt; eauto).
    assert (X : freach h (Some p) b /\ b <> a).
    { induction Hb as [b Hb|x c m b Hx IH Gx Hb].
      - split; [now constructor|]. destruct Hb as [<-|[]]. intros ->. eapply (wf_live _ _ a W); [apply in_or_app; auto|]. now apply get_put_same.
      - destruct IH as [IH Hn]. pose proof Gx as Gx'. rewrite get_put_other in Gx by auto. split; [eapply freach_kid; eauto|]. intros ->.
        eapply (wf_live _ _ a W); [apply in_or_app; right; eapply ptrs_in; [exact Gx'|exact Hb]|]. now apply get_put_same. }
    destruct X as [X Hn]. unfold unique. rewrite get_put_other by auto. exact (Fr b X).
  Qed.
  Lemma free_kid (h : fheap) a c n k : get h a = Some (c, n) -> In k (olists (nd_kids n)) -> free h a -> free h k.
  Proof.
    intros G Hk Fr b Hb. apply Fr. clear Fr. induction Hb as [b [<-|[]]|x c' m b Hx IH Gx Hb].
    - eapply freach_kid; eauto. constructor. cbn. auto.
    - eapply freach_kid; eauto.
  Qed.

  (** ** [Arc::try_unwrap] and [NodeIntoIter::new] *)
  Lemma unwrap_ok h0 (h : fheap) a es ts X O : good h -> sess h0 (er h) [] (a :: X) O -> ns (er h) a (BN es ts) ->
    exists h' n, x_unwrap h a = Ok (h', n) /\ good h' /\ x_new h' n = Ok (XIter n 0 (length es) 0 (length ts))
      /\ left (ns (er h')) n 0 (length es) 0 (length ts) es ts
      /\ sess h0 (er h') [] (n_held n 0 (length ts) ++ X) O /\ keep (X ++ O) (er h) (er h')
      /\ clones h' = clones h /\ length (cells h') = length (cells h)
      /\ (free h a -> Forall (free h') (n_held n 0 (length ts)) /\ match n with XOwned _ _ => True | XLeased _ => False end)
      /\ (unique h a = true -> forall p, In p (X ++ O) -> free h p -> free h' p) /\ (unique h a = false -> h' = h).
  Proof.
    clear bomb. intros G S D. unfold x_unwrap. destruct (unique h a) eqn:U.
    - assert (U' : unique (er h) a = true) by (unfold FixedHeapProofs.er; now rewrite unique_hm).
      destruct (sess_take h0 (er h) [] a X O es ts S D U') as (h1 & ks & E & S1 & F1 & K1 & C1 & _).
      unfold FixedHeapProofs.er in E. rewrite take_hm in E. apply rm_ok_inv in E as ([h' m] & E & Em). cbn [fst snd] in Em. injection Em as -> Em.
      destruct (subn_take _ _ _ _ E) as (Sb & c & Gm). pose proof (good_sub _ _ G Sb) as G'.
      destruct (G _ _ _ Gm) as (es' & ks' & Cr & Hk). destruct m as [[e d] ps]. cbn [nd_data nd_kids fst snd] in *. subst ps.
      rewrite (ent_is _ _ _ _ Cr) in Em. subst es'.
      assert (ks' = ks) as -> by (rewrite <- (olists_some ks), <- (olists_some ks'); congruence). clear Hk.
      rewrite E. cbn [bind nd_data fst snd]. apply sess_forget in S1. pose proof (f2_length _ _ _ F1) as Lk.
      assert (Hd : match d with None => ks = [] | Some b => seg (kd_ptrs b) 0 ks end).
      { destruct Cr as [_ Cr]. destruct d as [b|]; [|auto]. destruct Cr as [_ [Ha _]]. eapply seg_arr; eauto. }
      assert (Eh : n_held (XOwned e d) 0 (length ts) = ks) by (rewrite <- Lk; apply (held_owned e d 0 ks Hd)).
      exists h', (XOwned e d). rewrite Eh. split; [reflexivity|]. split; auto. split; [|split; [|split; [exact S1|split; [exact K1|split; [|split; [|split; [|split]]]]]]].
      + unfold x_new. cbn [bind]. destruct Cr as [(_ & _ & El) Cd]. rewrite El. destruct d as [b|].
        * destruct Cd as [Hn Hb]. rewrite (kd_live _ _ Hb Hn). cbn [bind]. now rewrite Lk.
        * subst ks. destruct ts; [reflexivity|discriminate].
      + rewrite <- Lk. destruct Cr as [(Hk & Hv & _) _]. apply (left_owned (ns (er h')) e d 0 0 es ks ts); auto; eapply seg_arr; eauto.
      + unfold take in E. destruct (get h a) as [[[|[|c']] m]|]; try discriminate. now injection E as <- _.
      + unfold take in E. destruct (get h a) as [[[|[|c']] m]|]; try discriminate. injection E as <- _. apply cells_put.
      + intros Fr. split; [|auto]. unfold take in E. rewrite Gm in E. destruct c as [|[|c']]; try discriminate. injection E as <-.
        apply Forall_forall. intros k Hk. destruct S1 as [W _ _ _ _]. unfold FixedHeapProofs.er in W. rewrite wf_hm in W.
        eapply free_take; eauto; [mem|]. eapply free_kid; eauto. cbn [nd_kids]. now rewrite olists_some.
      + intros _ p Hp Fr. unfold take in E. rewrite Gm in E. destruct c as [|[|c']]; try discriminate. injection E as <-.
        destruct S1 as [W _ _ _ _]. unfold FixedHeapProofs.er in W. rewrite wf_hm in W. eapply free_take; eauto. mem.
      + discriminate.
    - destruct (ns_cell h a es ts G D) as (c & e & d & ks & Gh & Cr & F). pose proof (f2_length _ _ _ F) as Lk.
      exists h, (XLeased a). split; auto. split; auto. split; [|split; [|split; [|split; [apply keep_refl|split; [|split; [|split; [|split]]]]]]]; auto.
      + unfold x_new. rewrite Gh. cbn [bind nd_data]. destruct Cr as [(_ & _ & El) Cd]. rewrite El. destruct d as [b|].
        * destruct Cd as [Hn Hb]. rewrite (kd_live _ _ Hb Hn). cbn [bind]. now rewrite Lk.
        * subst ks. destruct ts; [reflexivity|discriminate].
      + apply (left_leased (ns (er h)) a [] es [] ts). exact D.
      + intros Fr. assert (unique h a = true) by (apply Fr; constructor; cbn; auto). congruence.
  Qed.

  (** ** [NodeIntoIter::next] *)
  Definition is_owned (n : xnode) : Prop := match n with XOwned _ _ => True | XLeased _ => False end.
  Definition xfree (h : fheap) (i : xiter) : Prop := Forall (free h) (x_held i) /\ is_owned (x_n i).

  Lemma bushy_ne (t : bt) : bushy t -> inorder t <> [].
  Proof.
    intros [es ts Hn Hl _]. cbn [inorder]. destruct ts as [|t0 ts]; cbn [map mix]; [auto|]. destruct es as [|e es]; [congruence|].
    intros E. apply app_eq_nil in E as [_ E]. discriminate.
  Qed.
  Lemma cost_new es ts : bushy (BN es ts) -> cost true ts <= n_levels (BN es ts).
  Proof.
    intros _. destruct ts as [|t ts]; cbn [cost]; rewrite levels_eq; [lia|]. pose proof (max_levels_in t (t :: ts) (or_introl eq_refl)). lia.
  Qed.
  Lemma stk_new R n es ts : left R n 0 (length es) 0 (length ts) es ts -> bushy (BN es ts) ->
    stk R (XIter n 0 (length es) 0 (length ts)) (inorder (BN es ts)) (cost true ts).
  Proof.
    intros D B. inversion B as [? ? Hn Hl F]; subst. exists es, ts. cbn [x_n x_elem x_end_elems x_kid x_end_kids Nat.leb]. split; auto. split; auto.
    split; [|auto]. split; [|auto]. destruct Hl as [->|Hl]; auto.
  Qed.

  Lemma one_ok (kv : entry) : exists e, el_push el_new kv = Ok e /\ ents e = [kv].
  Proof. destruct kv as [k v]. eexists. split; [vm_compute; reflexivity|reflexivity]. Qed.

  Lemma elem_ok h0 (h : fheap) n x xe y ye e es ts X O : good h -> sess h0 (er h) [] (n_held n y ye ++ X) O ->
    left (ns (er h)) n x xe y ye (e :: es) ts ->
    exists h' n' o, x_elem_at bomb h n x = Ok (h', n', o) /\ good h' /\ length (cells h') = length (cells h)
      /\ (forall q t, ns (er h) q t -> ns (er h') q t) /\ n_held n' y ye = n_held n y ye /\ sess h0 (er h') [] (n_held n y ye ++ X) O
      /\ match o with
         | Done kv => kv = e /\ left (ns (er h')) n' (x + 1) xe y ye es ts
             /\ (clones h' = clones h \/ copies h' = [e] :: copies h /\ bomb (length (clones h)) = false)
             /\ (is_owned n -> h' = h /\ is_owned n')
         | Unwound => n' = n /\ copies h' = [e] :: copies h /\ bomb (length (clones h)) = true /\ ~ is_owned n
         end.
  Proof.
    intros G S D. inversion D as [e' d x' y' es' ks ts' Hk Hv Hd F|a es0 es' ts0 ts' Da]; subst; cbn [x_elem_at].
    - cbn [map] in Hk, Hv. destruct (seg_read _ _ _ _ Hk) as [Rk Sk]. destruct (seg_read _ _ _ _ Hv) as [Rv Sv]. rewrite Rk, Rv. cbn [bind].
      eexists _, _, _. split; [reflexivity|]. split; auto. split; auto. split; auto. split; [reflexivity|]. split; auto. split; [now destruct e|].
      split; [|split; [auto|cbn; auto]]. replace (x + length (e :: es)) with (x + 1 + length es) by (cbn [length]; lia). now constructor.
    - destruct (ns_cell h a _ _ G Da) as (c & e' & d & ks & Gh & Cr & F). unfold fpeek. rewrite Gh. cbn [bind nd_data fst].
      rewrite (el_get_ok e' (es0 ++ e :: es) (length es0) e) by (first [apply Cr | rewrite nth_error_app2, Nat.sub_diag by lia; reflexivity]). cbn [bind].
      destruct (one_ok e) as (u & Eu & Ou). rewrite Eu. cbn [bind].
      destruct (sess_log h0 (er h) [] [e] ([a] ++ X) O S) as (S1 & K1).
      assert (El : er (log h (u, None)) = log (er h) [e]) by (unfold FixedHeapProofs.er; rewrite log_hm; f_equal; exact Ou).
      assert (Gl : good (log h (u, None))) by (eapply good_sub; [exact G|apply subn_log]).
      rewrite <- El in S1, K1. assert (Cp : copies (log h (u, None)) = [e] :: copies h) by (rewrite !copies_er, El; reflexivity).
      destruct (bomb (length (clones h))) eqn:Bm; (eexists _, _, _; split; [reflexivity|]; split; [exact Gl|]; split; [reflexivity|]; split; [exact K1|];
        split; [reflexivity|]; split; [exact S1|]).
      + split; auto.
      + split; auto. split; [|split; [auto|cbn; tauto]].
        replace (length es0 + 1) with (length (es0 ++ [e])) by (rewrite app_length; reflexivity).
        replace (es0 ++ e :: es) with ((es0 ++ [e]) ++ es) by (now rewrite <- app_assoc). constructor.
        rewrite <- app_assoc. apply K1. exact Da.
  Qed.

  Lemma kid_ok h0 (h : fheap) n x xe y ye es t ts X O : good h -> sess h0 (er h) [] (n_held n y ye ++ X) O ->
    left (ns (er h)) n x xe y ye es (t :: ts) -> bushy t ->
    exists h1 n1 k h2 n2 j c, x_kid_at h n y = Ok (h1, n1, k) /\ x_unwrap h1 k = Ok (h2, n2) /\ x_new h2 n2 = Ok j
      /\ good h2 /\ length (cells h2) = length (cells h) /\ keep (X ++ O) (er h) (er h2) /\ clones h2 = clones h
      /\ stk (ns (er h2)) j (inorder t) c /\ c <= n_levels t /\ left (ns (er h2)) n1 x xe (y + 1) ye es ts
      /\ sess h0 (er h2) [] (x_held j ++ n_held n1 (y + 1) ye ++ X) O
      /\ (Forall (free h) (n_held n y ye) -> is_owned n -> xfree h2 j /\ Forall (free h2) (n_held n1 (y + 1) ye) /\ is_owned n1
                                                   /\ forall p, In p (X ++ O) -> free h p -> free h2 p).
  Proof.
    intros G S D B. destruct t as [tes tts]. pose proof (cost_new _ _ B) as Cn.
    inversion D as [e d x' y' es' ks ts' Hk Hv Hd F|a es0 es' ts0 ts' Da]; subst; cbn [x_kid_at].
    - inversion F as [|k t0 ks' ts0 Dk F']; subst. destruct d as [b|]; [|discriminate]. cbn [unwrap bind].
      destruct (seg_read _ _ _ _ Hd) as [Rd Sd]. rewrite Rd. cbn [bind].
      rewrite (held_owned e (Some b) y (k :: ks') Hd) in *.
      set (n1 := XOwned e (Some (Kids (set_at y None (kd_ptrs b)) (kd_len b)))).
      assert (Eh : n_held n1 (y + 1) (y + length (k :: ks')) = ks').
      { replace (y + length (k :: ks')) with (y + 1 + length ks') by (cbn [length]; lia). now apply (held_owned e (Some (Kids (set_at y None (kd_ptrs b)) (kd_len b)))). }
      destruct (unwrap_ok h0 h k tes tts (ks' ++ X) O G S Dk) as (h2 & n2 & E2 & G2 & N2 & L2 & S2 & K2 & C2 & Ln2 & Fr2 & Fo2 & _).
      eexists h, n1, k, h2, n2, _, _. split; [reflexivity|]. split; [exact E2|]. split; [exact N2|]. split; auto. split; auto.
      split; [eapply keep_incl; [|exact K2]; inc|]. split; auto. split; [apply stk_new; eauto|]. split; [exact Cn|]. split; [|split].
      + replace (y + length (k :: ks')) with (y + 1 + length ks') by (cbn [length]; lia). unfold n1. constructor; auto.
        eapply keep_f2; [exact K2|inc|exact F'].
      + rewrite Eh. exact S2.
      + intros Ff _. inversion Ff as [|? ? Fk Fks]; subst. destruct (Fr2 Fk) as [Fr3 Ow]. rewrite Eh.
        assert (Uk : unique h k = true) by (apply Fk; constructor; cbn; auto). specialize (Fo2 Uk).
        split; [split; [exact Fr3|exact Ow]|]. split; [|split; [exact Logic.I|intros p Hp; apply Fo2; mem]].
        rewrite Forall_forall in *. intros p Hp. apply Fo2; [mem|auto].
    - destruct (ns_cell h a _ _ G Da) as (c & e' & d & ks & Gh & Cr & F). rewrite Gh. cbn [nd_data snd].
      apply f2_cut_r in F as (k1 & k & k2 & -> & L1 & _ & Dk & _).
      destruct d as [b|]; [|destruct Cr as [_ Cr]; destruct k1; discriminate Cr]. destruct Cr as [Ce [Cn1 Cb]].
      rewrite (fchild_ok b (k1 ++ k :: k2)) by auto. cbn [bind].
      rewrite <- L1, nth_error_app2, Nat.sub_diag by lia. cbn [nth_error unwrap bind].
      destruct (sess_inc h0 (er h) [] k ([a] ++ X) O S) as (g1 & E1 & S1 & K1 & C1).
      { apply in_or_app. right. unfold FixedHeapProofs.er. rewrite ptrs_hm. eapply ptrs_in; [exact Gh|]. cbn [nd_kids]. rewrite olists_some. mem. }
      destruct (inc_sim h (Some k) g1 G E1) as (h1 & E1' & <- & G1). rewrite E1'. cbn [bind].
      destruct (unwrap_ok h0 h1 k tes tts ([a] ++ X) O G1 S1 (K1 _ _ Dk)) as (h2 & n2 & E2 & G2 & N2 & L2 & S2 & K2 & C2 & Ln2 & Fr2 & Fo2 & _).
      assert (Cl : clones h1 = clones h /\ length (cells h1) = length (cells h)).
      { cbn [inc] in E1'. destruct (get h k) as [[ck nk]|]; [|discriminate]. injection E1' as <-. split; [reflexivity|apply cells_put]. }
      destruct Cl as [Cl1 Cl2].
      eexists h1, (XLeased a), k, h2, n2, _, _. split; [reflexivity|]. split; [exact E2|]. split; [exact N2|]. split; auto. split; [lia|].
      split; [intros q t Hq Dq; apply K2; [mem|now apply K1]|]. split; [congruence|]. split; [apply stk_new; eauto|]. split; [exact Cn|]. split; [|split].
      + replace (length k1 + 1) with (length (ts0 ++ [BN tes tts])) by (rewrite app_length; cbn; lia).
        replace (ts0 ++ BN tes tts :: ts) with ((ts0 ++ [BN tes tts]) ++ ts) by (now rewrite <- app_assoc). constructor.
        rewrite <- app_assoc. apply K2; [mem|]. apply K1. exact Da.
      + exact S2.
      + intros _ [].
  Qed.

  Lemma next_ok h0 (h : fheap) i l c X O : good h -> sess h0 (er h) [] (x_held i ++ X) O -> stk (ns (er h)) i l c ->
    exists h' i' o, x_next bomb h i = Ok (h', i', o) /\ good h' /\ length (cells h') = length (cells h) /\ keep (X ++ O) (er h) (er h')
      /\ match o with
         | Done (Some (Descend n)) => exists j l1 l2 c1 c2, x_new h' n = Ok j /\ l = l1 ++ l2 /\ l1 <> [] /\ stk (ns (er h')) j l1 c1 /\ c1 < c
             /\ stk (ns (er h')) i' l2 c2 /\ sess h0 (er h') [] (x_held j ++ x_held i' ++ X) O /\ clones h' = clones h
             /\ (xfree h i -> xfree h' j /\ xfree h' i' /\ forall p, In p (X ++ O) -> free h p -> free h' p)
         | Done (Some (Return e)) => exists l' c', l = e :: l' /\ stk (ns (er h')) i' l' c' /\ sess h0 (er h') [] (x_held i' ++ X) O
             /\ (clones h' = clones h \/ copies h' = [e] :: copies h /\ bomb (length (clones h)) = false) /\ (is_owned (x_n i) -> h' = h /\ x_held i' = x_held i /\ is_owned (x_n i'))
         | Done None => l = [] /\ i' = i /\ h' = h
         | Unwound => (exists e l', l = e :: l' /\ copies h' = [e] :: copies h) /\ i' = i /\ bomb (length (clones h)) = true /\ sess h0 (er h') [] (x_held i ++ X) O
             /\ stk (ns (er h')) i l c /\ ~ is_owned (x_n i)
         end.
  Proof.
    intros G S (es & ts & D & Bs & M & Ec). rewrite held_n in *. destruct i as [n x xe y ye]. cbn [x_n x_elem x_end_elems x_kid x_end_kids] in *.
    unfold x_next. cbn [x_n x_elem x_end_elems x_kid x_end_kids].
    assert (Hye : (y <? ye) = negb (is_nil ts) /\ (x <? xe) = negb (is_nil es) /\ (ts <> [] -> y < ye) /\ xe = x + length es /\ ye = y + length ts).
    { destruct D as [e d x y es ks ts Hk Hv Hd F|a es0 es ts0 ts D].
      - pose proof (f2_length _ _ _ F) as Lk. repeat split; try lia.
        + destruct ts; cbn [is_nil negb length] in *; [apply Nat.ltb_ge|apply Nat.ltb_lt]; lia.
        + destruct es; cbn [is_nil negb length] in *; [apply Nat.ltb_ge|apply Nat.ltb_lt]; lia.
        + intros Hn. destruct ts; [congruence|]. cbn [length] in *. lia.
      - rewrite !app_length. repeat split; try lia.
        + destruct ts; cbn [is_nil negb length] in *; [apply Nat.ltb_ge|apply Nat.ltb_lt]; lia.
        + destruct es; cbn [is_nil negb length] in *; [apply Nat.ltb_ge|apply Nat.ltb_lt]; lia.
        + intros Hn. destruct ts; [congruence|]. cbn [length] in *. lia. }
    destruct Hye as (Ey & Ex & _ & Exe & Eye). rewrite Ey, Ex.
    (* an entry is next *)
    assert (Elem : forall e es' ts', es = e :: es' -> ts' = ts ->
      l = e :: mix (map inorder ts) es' -> (y <=? x + 1) = true -> (ts = [] \/ y = x + 1 /\ length ts = Datatypes.S (length es')) ->
      exists h' i' (o : out (option (iter_action entry xnode))), ('(h1, n1, o) <- x_elem_at bomb h n x;;
        match o with
        | Unwound => Ok (h1, XIter n1 x xe y ye, Unwound)
        | Done kv => Ok (h1, XIter n1 (x + 1) xe y ye, Done (Some (Return kv)))
        end) = Ok (h', i', o) /\ good h' /\ length (cells h') = length (cells h) /\ keep (X ++ O) (er h) (er h')
      /\ match o with
         | Done (Some (Descend n)) => False
         | Done (Some (Return e)) => exists l' c', l = e :: l' /\ stk (ns (er h')) i' l' c' /\ sess h0 (er h') [] (x_held i' ++ X) O
             /\ (clones h' = clones h \/ copies h' = [e] :: copies h /\ bomb (length (clones h)) = false) /\ (is_owned n -> h' = h /\ x_held i' = n_held n y ye /\ is_owned (x_n i'))
         | Done None => False
         | Unwound => (exists e l', l = e :: l' /\ copies h' = [e] :: copies h) /\ i' = XIter n x xe y ye /\ bomb (length (clones h)) = true
             /\ sess h0 (er h') [] (n_held n y ye ++ X) O /\ stk (ns (er h')) (XIter n x xe y ye) l c /\ ~ is_owned n
         end).
    { intros e es' ts' -> -> El Em Hb. destruct (elem_ok h0 h n x xe y ye e es' ts X O G S D) as (h' & n' & o & E & G' & Ln & K' & Hh & S' & P).
      rewrite E. cbn [bind]. destruct o as [kv|].
      - destruct P as (-> & D' & Cp & Ow). eexists _, _, _. split; [reflexivity|]. split; auto. split; auto. split; [intros q t _; apply K'|].
        exists (mix (map inorder ts) es'). eexists. split; auto. split; [|split; [|split]].
        + exists es', ts. cbn [x_n x_elem x_end_elems x_kid x_end_kids]. rewrite Em. eauto.
        + rewrite held_n. cbn [x_n x_kid x_end_kids]. now rewrite Hh.
        + exact Cp.
        + rewrite held_n. cbn [x_n x_kid x_end_kids]. intros Hn. destruct (Ow Hn). auto.
      - destruct P as (-> & Cp & Bm & Nw). eexists _, _, _. split; [reflexivity|]. split; auto. split; auto. split; [intros q t _; apply K'|].
        split; [eauto|]. split; auto. split; auto. split; auto. split; auto.
        exists (e :: es'), ts. cbn [x_n x_elem x_end_elems x_kid x_end_kids]. split; [eapply left_mono; [|exact D]; auto|]. split; auto. }
    destruct (y <=? x) eqn:Eb.
    - destruct M as [M ->]. destruct ts as [|t ts]; cbn [is_nil negb andb].
      + destruct es as [|e es]; cbn [is_nil negb].
        * eexists _, _, _. split; [reflexivity|]. split; auto. split; auto. split; [apply keep_refl|]. auto.
        * apply Nat.leb_le in Eb.
          destruct (Elem e es [] eq_refl eq_refl eq_refl) as (h' & i' & o & E & G' & Ln & Kp & P); auto; [apply Nat.leb_le; lia|].
          exists h', i', o. split; auto. split; auto. split; auto. split; auto. destruct o as [[[?|?]|]|]; try contradiction; auto.
      + destruct M as [M|[-> M]]; [discriminate|]. clear Elem. inversion Bs as [|? ? Bt Bs']; subst.
        destruct (kid_ok h0 h n x (x + length es) x (x + length (t :: ts)) es t ts X O G S D Bt) as (h1 & n1 & k & h2 & n2 & j & c & E1 & E2 & E3 & G2 & Ln & Kp & Cl & Sj & Cj & D2 & S2 & Fr).
        rewrite E1. cbn [bind]. rewrite E2. cbn [bind]. eexists _, _, _. split; [reflexivity|]. split; auto. split; auto. split; auto.
        eexists j, (inorder t), _, c, _. split; auto. split; [|split; [now apply bushy_ne|split; [exact Sj|split; [cbn [cost]; lia|split; [|split; [|split; [exact Cl|]]]]]]].
        2:{ exists es, ts. cbn [x_n x_elem x_end_elems x_kid x_end_kids]. split; [exact D2|]. split; auto.
            assert (Hl : (x + 1 <=? x) = false) by (apply Nat.leb_gt; lia). rewrite Hl. cbn [length] in M. split; [|reflexivity]. split; [lia|]. split; [lia|reflexivity]. }
        * cbn [map mix]. f_equal. destruct es as [|e es]; [|reflexivity]. destruct ts; [reflexivity|discriminate].
        * exact S2.
        * intros [Ff Ow]. destruct (Fr Ff Ow) as (F1 & F2 & F3 & F4). split; auto. split; [split; auto|auto].
    - apply Nat.leb_gt in Eb. destruct M as (-> & M & ->). rewrite andb_false_r. destruct es as [|e es]; cbn [is_nil negb].
      + eexists _, _, _. split; [reflexivity|]. split; auto. split; auto. split; [apply keep_refl|]. auto.
      + destruct (Elem e es ts eq_refl eq_refl eq_refl) as (h' & i' & o & E & G' & Ln & Kp & P); auto.
        { apply Nat.leb_le; lia. } { right. cbn [length] in M. split; lia. }
        exists h', i', o. split; auto. split; auto. split; auto. split; auto. destruct o as [[[?|?]|]|]; try contradiction; auto.
  Qed.
End Step.
