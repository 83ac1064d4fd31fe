(** [iter_mut] on shared fixed [BTreeMap]s: whole maps, in the terms of the properties. *)
From Coq Require Import List PeanoNat Bool Lia Permutation.
From Verif Require Import Base Spec MapSpec SpecFacts Vec Heap HeapProofs HeapMut HeapMutProofs AvlHeapSpec BTreeModel BTreeProofs BTreeProofs2
  BTreeIterModel BTreeMutProofs BTreeHeapModel BTreeHeapSpec BTreeHeapProofs BTreeHeapProofs2 BTreeHeapProofs5 MutSpec BTreeHeapMutModel BTreeHeapMutProofs
  BTreeHeapMutProofs2 BTreeHeapMutProofs3 BTreeHeapMutProofs4 FixedModel FixedIterModel FixedSpec FixedProofs FixedMutProofs FixedHeapModel FixedHeapSpec
  FixedHeapProofs FixedHeapProofs7 FixedHeapProofs9 FixedHeapLazy FixedHeapMutModel FixedHeapMutSpec FixedHeapMutProofs FixedHeapMutProofs2 FixedHeapMutProofs3.
From Verif Require BTreeIterProofs.
Import ListNotations.
Local Open Scope nat_scope.

(** With calls at the front and no panics, the results are those of the plain list. *)
Lemma walks_muts {K V} bomb (cs : list (mcall V)) : (forall n, bomb n = false) -> ~ In MBack cs ->
  forall outs (l : list (K * V)) i n rs l', i + n = length l -> walks bomb cs outs l (seq i n) rs n l' ->
  outs = map (fun s => (Done (fst s), snd s)) (fst (fst (s_muts cs l i (length l) rs))) /\ l' = snd (fst (s_muts cs l i (length l) rs)).
Proof.
  intros Hb. induction cs as [|c cs IH]; intros Hc outs l i n rs l' L W.
  - destruct outs; [|destruct W]. cbn in *. auto.
  - assert (Hc' : ~ In MBack cs) by (intros X; apply Hc; now right). destruct c as [| |j w]; [|destruct Hc; now left|].
    + destruct outs as [|[[[e|]|] k] outs]; cbn [walks] in W; [contradiction| | |].
      * destruct W as (x & todo & E & Ee & -> & W). cbn [seq] in E. injection E as <- <-. cbn [s_muts].
        destruct (Nat.ltb_spec i (length l)) as [_|X]; [|lia]. specialize (IH Hc' outs l (S i) k (rs ++ [i]) l' ltac:(lia) W). rewrite Nat.add_1_r.
        destruct (s_muts cs l (S i) (length l) (rs ++ [i])) as [[os l2] rs2]. cbn [fst snd map] in *. destruct IH as [-> ->]. rewrite Ee. split; auto. do 3 f_equal. lia.
      * destruct W as (E & -> & W). destruct n; [|discriminate E]. cbn [s_muts]. destruct (Nat.ltb_spec i (length l)) as [X|_]; [lia|].
        specialize (IH Hc' outs l i 0 rs l' L W). destruct (s_muts cs l i (length l) rs) as [[os l2] rs2]. cbn [fst snd map] in *. destruct IH as [-> ->]. auto.
      * destruct W as ((b & X) & _). rewrite Hb in X. discriminate.
    + destruct outs as [|o outs]; cbn [walks] in W; [contradiction|]. cbn [s_muts]. destruct (nth_error rs j) as [x|].
      * destruct W as [-> W]. assert (Lu : length (upd_nth x w l) = length l) by apply upd_len.
        specialize (IH Hc' outs (upd_nth x w l) i n rs l' ltac:(lia) W). rewrite Lu in IH. destruct (s_muts cs (upd_nth x w l) i (length l) rs) as [[os l2] rs2].
        cbn [fst snd map] in *. destruct IH as [-> ->]. split; auto. do 3 f_equal. lia.
      * destruct W as [-> W]. specialize (IH Hc' outs l i n rs l' L W). destruct (s_muts cs l i (length l) rs) as [[os l2] rs2].
        cbn [fst snd map] in *. destruct IH as [-> ->]. split; auto. do 3 f_equal. lia.
Qed.

Section Whole.
  Context {K V Q : Type} (bor : K -> Q) (cmp : Q -> Q -> comparison) (laws : order_laws cmp).
  Variable bomb : nat -> bool.
  Notation elems := (elems K V).
  Notation okids := (option (kids addr)).
  Notation cell := (elems * okids)%type.
  Notation fheap := (heap cell).
  Notation pay := (list (K * V)).
  Notation bt := (bt K V).
  Notation er := (@er K V).
  Notation good := (@good K V).
  Notation N := MIN_OCCUPANCY.
  Notation faulty := (exists n, bomb n = true).
  Notation results := (list (out (option (K * V)) * nat)).
  Notation fh_shows := (fh_shows bor cmp).

  Lemma HN : 1 <= N.
  Proof. unfold MIN_OCCUPANCY. lia. Qed.
  Lemma run_empty (cs : list (mcall V)) : forall (h : fheap),
    fm_run bomb cs h (FIter [] 0) [] = Ok (h, FIter [] 0, map (fun _ => (Done None, 0)) cs)
    /\ walks bomb cs (map (fun _ => (Done None, 0)) cs) ([] : pay) [] [] 0 [].
  Proof.
    induction cs as [|c cs IH]; intros h; [split; reflexivity|]. destruct (IH h) as [E W].
    assert (E1 : fm_next bomb h (FIter [] 0) = Ok (h, FIter [] 0, Done None)) by reflexivity.
    assert (E2 : fm_next_back bomb h (FIter [] 0) = Ok (h, FIter [] 0, Done None)) by reflexivity.
    destruct c as [| |j w]; cbn [fm_run map walks].
    - rewrite E1. cbn [bind]. rewrite E. cbn [bind]. auto.
    - rewrite E2. cbn [bind]. rewrite E. cbn [bind]. auto.
    - replace (nth_error (@nil mref) j) with (@None mref) by (now destruct j). replace (nth_error (@nil nat) j) with (@None nat) by (now destruct j).
      cbn [bind]. rewrite E. cbn [bind]. auto.
  Qed.
  Lemma seq_nth {A} (l : list A) : Forall2 (fun x e => nth_error l x = Some e) (seq 0 (length l)) l.
  Proof.
    assert (G : forall l1 l2 : list A, Forall2 (fun x e => nth_error (l1 ++ l2) x = Some e) (seq (length l1) (length l2)) l2).
    { intros l1 l2. revert l1. induction l2 as [|x l2 IH]; intros l1; [constructor|]. cbn [length seq]. constructor.
      - rewrite nth_error_app2, Nat.sub_diag by lia. reflexivity.
      - specialize (IH (l1 ++ [x])). rewrite <- app_assoc, app_length, Nat.add_1_r in IH. exact IH. }
    exact (G [] l).
  Qed.

  Definition done_ok (h : fheap) a t len l O cs (h' : fheap) (r : addr) (outs : results) : Prop :=
    exists ps1 c, (ps1 = [] \/ ps1 = [[]]) /\ (forall n, get h a = Some (1, n) -> r = a)
      /\ ran bor cmp bomb (skel t) len O cs (er h) t (from (er h) a) r l ps1 len [(seq 0 (length l), c)] [] h' outs.

  Lemma core (h : fheap) a t len l O cs : good h -> wf (er h) (a :: O) -> acyclic (er h) -> ns (er h) a t -> valid bor cmp N (BMap len (Some t)) ->
    contents (BMap len (Some t)) = l ->
    exists h' r o, fh_iter_mut_calls bomb h (FH (Some a) len) cs = Ok (h', FH (Some r) len, o)
      /\ match o with
         | Unwound => r = a /\ good h' /\ mst (er h) t O (from (er h) a) (er h') a t [[]] /\ faulty
         | Done outs => done_ok h a t len l O cs h' r outs
         end.
  Proof.
    intros G W A D Hv Hl. pose proof Hv as (As & Ln & ht & Sh). cbn [bm_root bm_len] in *.
    destruct (root_start N HN bomb ht (er h) a t O W A D (shape_loose N ht _ _ Sh) (levels N ht _ _ Sh)) as (g & x & E & R).
    destruct (f_make_mut_sim bomb _ _ _ _ G E) as (h1 & Eh & <- & G1).
    unfold fh_iter_mut_calls, fh_iter_mut. cbn [fh_root fh_len]. unfold fw_new. cbn [f_slot_mut]. rewrite Eh. cbn [bind]. destruct x as [r|].
    - destruct R as (ps & I & Hr & Hps). destruct t as [es ks]. pose proof (skel_shape N ht 1 _ Sh) as Ss.
      assert (Hsk : exists es1 ks1, skel (BN es ks) = BN es1 ks1) by (destruct (skel (BN es ks)); eauto). destruct Hsk as (es1 & ks1 & Esk).
      remember (skel (BN es ks)) as sk eqn:Dsk.
      destruct (held_cell sk ht Ss (er h) (BN es ks) O (from (er h) a) (eq_sym Dsk) h1 r _ ps [] r es1 ks1 G1 I Hr) as (el & d & Gh & (vs & Ev & Lv) & (ks' & Ek) & El); [cbn; now rewrite Esk|].
      unfold excl. rewrite Gh. cbn [bind nd_data]. rewrite El. cbn [bind]. rewrite Ek. cbn [bind]. rewrite Ev. cbn [bind fw_at]. rewrite Lv.
      destruct (pend_new sk N 1 ht r [] es1 ks1) as (c & Pe & _); [cbn; now rewrite Esk|now rewrite <- Esk|].
      assert (Lr : length (BTreeProofs.flat (with_pos [] sk)) = length l).
      { rewrite <- Hl, <- (proj2 (map_pos_ok bor cmp N _ Hv)), map_length. change (length (BTreeProofs.flat (with_pos [] sk)) = length (BTreeProofs.flat (with_pos [] (BN es ks)))).
        rewrite <- (map_length fst), <- (map_length fst (BTreeProofs.flat (with_pos [] (BN es ks)))). now rewrite <- (skel_pos N ht 1 _ [] Sh), <- Dsk. }
      destruct (run_ok bor cmp bomb sk ht len O Ss cs (er h) (BN es ks) (from (er h) a) h1 r (BN es ks) l ps (FIter [FW r 0 (length es1) 0 (length ks1) (length ks1 =? 0)] len)
        [(seq 0 (length l), c)] [] []) as (h' & it' & outs & Er & Hran); auto.
      { split; [|split]; auto. }
      { constructor; [|constructor]. exists [], (BTreeProofs.flat (with_pos [] sk)). cbn [fst snd fw_at]. split; auto. split; [now rewrite Esk at 2|]. rewrite <- Lr. apply seq_nth. }
      { unfold lists. cbn [map fst concat fi_len]. rewrite app_nil_r, seq_length. rewrite Ln. unfold contents in Hl. cbn [bm_root] in Hl. rewrite <- Hl. apply le_n. }
      { constructor. }
      rewrite Er. cbn [bind]. exists h', r, (Done outs). split; auto. exists ps, c. split; auto. split; [|rewrite Dsk in Hran; exact Hran]. intros n Ga.
      clear - Eh Ga. unfold f_make_mut in Eh. rewrite Ga in Eh. now injection Eh.
    - destruct R as [Ms B]. exists h1, a, Unwound. auto.
  Qed.

  Lemma lists1 (n c : nat) : lists [(seq 0 n, c)] = seq 0 n.
  Proof. unfold lists. cbn [map fst concat]. apply app_nil_r. Qed.

  (** ** Correctness *)
  Lemma mut_calls (h : fheap) m l cs O : fsound h (olist (fh_root m) ++ O) -> fh_shows h m l ->
    exists h' m' o, fh_iter_mut_calls bomb h m cs = Ok (h', m', o) /\ fsound h' (olist (fh_root m') ++ O) /\ fframe bor cmp O h h'
      /\ match o with
         | Unwound => fh_shows h' m' l /\ m' = m /\ faulty
         | Done outs => exists p l', Permutation p (seq 0 (length l)) /\ (one_end cs -> p = seq 0 (length l))
                          /\ walks bomb cs outs l p [] (length l) l' /\ fh_shows h' m' l'
         end.
  Proof.
    intros S H. apply fsound_iff in S as [G S]. apply is_shows in H as (b & [Hlen Hr] & Vb & Cb); auto. destruct m as [[a|] len], b as [len' [t|]]; cbn [fh_root fh_len bm_root bm_len opt_ns] in *; try contradiction; subst len'.
    - destruct S as [W A]. cbn [olist app] in W. destruct (core h a t len l O cs G W A Hr Vb Cb) as (h' & r & o & E & R).
      exists h', (FH (Some r) len), o. split; auto. destruct o as [outs|].
      + destruct R as (ps1 & c & _ & _ & l' & t' & (p & P1 & P2) & Q1 & Q2 & (Vt & Ct & _) & G' & (W' & A' & D' & Fr) & _). rewrite lists1 in *. cbn [rev app] in Q2. rewrite lists1 in Q2.
        assert (Ll : len = length l) by (rewrite <- Cb; apply Vb). rewrite <- Ll in *.
        split; [apply fsound_iff; split; auto; split; auto|]. split; [now apply fframe_of|].
        assert (Sh : fh_shows h' (FH (Some r) len) l') by (apply is_shows; auto; exists (BMap len (Some t')); split; auto; split; auto).
        assert (Hone : one_end cs \/ ~ one_end cs).
        { unfold one_end. assert (Dc : forall c : mcall V, (forall j w, c <> MWrite j w) -> In c cs \/ ~ In c cs).
          { intros c0 Hc. clear - Hc. induction cs as [|c1 cs IH]; [right; intros []|]. destruct IH as [IH|IH]; [left; now right|].
            destruct c0 as [| |j w], c1 as [| |j' w']; try (left; now left); try (right; intros [X|X]; [discriminate|now apply IH]); exfalso; now apply (Hc j w). }
          destruct (Dc MBack) as [D1|D1]; [discriminate| |left; now left]. destruct (Dc MNext) as [D2|D2]; [discriminate| |left; now right]. right. intros [X|X]; contradiction. }
        destruct Hone as [Ho|Ho].
        * exists (seq 0 len), l'. split; [apply Permutation_refl|]. split; auto. split; auto. destruct Ho; auto.
        * exists p, l'. split; auto. split; [intros X; contradiction|]. auto.
      + destruct R as (-> & G' & (W' & A' & D' & _ & Fr & _) & B). split; [apply fsound_iff; split; auto; split; auto|]. split; [now apply fframe_of|].
        split; auto. apply is_shows; auto. exists (BMap len (Some t)). split; auto. split; auto.
    - assert (l = [] /\ len = 0) as [-> ->]. { subst l. split; [reflexivity|]. destruct Vb as (_ & X & _). exact X. }
      destruct (run_empty cs h) as [E Wk]. exists h, (FH None 0), (Done (map (fun _ => (Done None, 0)) cs)). unfold fh_iter_mut_calls, fh_iter_mut. cbn [fh_root fh_len bind]. rewrite E. cbn [bind].
      split; auto. split; [apply fsound_iff; auto|]. split; [apply fframe_of; auto using frame_refl|]. exists [], []. split; [constructor|]. split; auto. split; auto. apply is_shows; auto. exists (BMap 0 None). split; [split; auto|]. auto.
  Qed.
  (** Without panics, and at the front. *)
  Lemma mut_fronts (h : fheap) m l cs O : fsound h (olist (fh_root m) ++ O) -> fh_shows h m l -> (forall n, bomb n = false) -> ~ In MBack cs ->
    exists h' m', fh_iter_mut_calls bomb h m cs = Ok (h', m', Done (map (fun s => (Done (fst s), snd s)) (s_outs cs l 0 (length l))))
      /\ fsound h' (olist (fh_root m') ++ O) /\ fframe bor cmp O h h' /\ fh_shows h' m' (s_final cs l 0 (length l)).
  Proof.
    intros S H Hb Hc. destruct (mut_calls h m l cs O S H) as (h' & m' & o & E & S' & F & R). destruct o as [outs|]; [|destruct R as (_ & _ & n & X); rewrite Hb in X; discriminate].
    destruct R as (p & l' & _ & Hp & W & Sh). rewrite Hp in W by (now left). destruct (walks_muts bomb cs Hb Hc outs l 0 (length l) [] l' eq_refl W) as [-> ->].
    exists h', m'. auto.
  Qed.

  (** ** Laziness *)
  Lemma mut_lazy (h : fheap) m l cs O : fsound h (olist (fh_root m) ++ O) -> fh_shows h m l ->
    exists h' m' o, fh_iter_mut_calls bomb h m cs = Ok (h', m', o)
      /\ (match o with Done outs => ~ In Unwound (map fst (removelast outs)) | Unwound => True end ->
          exists c2 c1, copies h' = c2 ++ c1 ++ copies h /\ NoDup (c2 ++ c1) /\ (c1 = [] \/ c1 = of_tree h m (fun t => [elems_of t]))
            /\ match o with
               | Unwound => c2 = []
               | Done outs => exists kss, tried l outs kss /\ Forall (fun c => exists k, In k (concat kss) /\ In c (of_tree h m (path bor cmp (bor k)))) c2
               end).
  Proof.
    intros S H. apply fsound_iff in S as [G S]. pose proof H as Hs. apply is_shows in H as (b & Hb & Vb & Cb); auto. pose proof (of_tree_b h m b) as Ot. pose proof Hb as [Hlen Hr].
    destruct m as [[a|] len], b as [len' [t|]]; cbn [fh_root fh_len bm_root bm_len opt_ns] in *; try contradiction; subst len'.
    - destruct S as [W A]. cbn [olist app] in W. destruct (core h a t len l O cs G W A Hr Vb Cb) as (h' & r & o & E & R).
      exists h', (FH (Some r) len), o. split; auto. intros Hu. pose proof Vb as (As & _ & ht & Sh). cbn [bm_root] in Sh.
      assert (Ot1 : forall f, of_tree h (FH (Some a) len) f = f t) by (intros f; rewrite (Ot f G Hb); reflexivity).
      assert (Nd : forall ps, NoDup ps -> Forall (fun p => n_at t p <> None /\ ~ from (er h) a p) ps -> NoDup (map (pay_at t) ps)).
      { intros ps N1 N2. apply (pay_nodup bor cmp laws N ht 1 t ps (le_n 1)); auto; [unfold MIN_OCCUPANCY; lia|]. eapply Forall_impl; [|exact N2]. now intros p [X _]. }
      destruct o as [outs|].
      + destruct R as (ps1 & c & Hps & _ & l' & t' & _ & _ & _ & _ & _ & _ & _ & _ & Hz). destruct (Hz Hu) as (nps & kss & Ms & Tr & Fw & _).
        destruct Ms as (_ & _ & _ & _ & _ & _ & Cl & N1 & N2). exists (map (pay_at t) nps), (map (pay_at t) ps1). rewrite !copies_er, Cl, map_app, <- app_assoc. split; auto.
        rewrite <- map_app. split; auto. split; [rewrite Ot1; destruct Hps as [->| ->]; [now left|right; reflexivity]|]. exists kss.
        assert (Key : forall x e, nth_error (BTreeProofs.flat (with_pos [] (skel t))) x = Some e ->
          exists q j es ks e', fst (fst e) = (q, j) /\ n_at t q = Some (BN es ks) /\ nth_error es j = Some e' /\ nth_error l x = Some e' /\ fst e' = snd (fst e)).
        { intros x e Ex. destruct (at_entry bor cmp (skel t) len t l x e) as (q & j & es & ks & e' & B1 & B2 & B3 & B4 & B5 & _); [split; auto|auto|]. exists q, j, es, ks, e'. auto. }
        split.
        * unfold tried. clear - Tr Key. induction Tr as [|o ks outs kss T F IH]; constructor; auto. unfold tried_k in T. destruct (fst o) as [[e|]|]; auto.
          destruct T as (x & e & Ex & ->). destruct (Key x e Ex) as (_ & _ & _ & _ & e' & _ & _ & _ & El & Ek). exists e'. split; [eapply nth_error_In; eauto|congruence].
        * apply Forall_forall. intros c0 Hc. apply in_map_iff in Hc as (p & <- & Hp). rewrite Forall_forall in Fw. destruct (Fw p Hp) as (k & Hk & x & e & q & j & Ex & Eq & Pr & ->).
          exists (snd (fst e)). split; auto. rewrite Ot1. destruct (Key x e Ex) as (q' & j' & es & ks & e' & B1 & B2 & B3 & _ & B5). rewrite Eq in B1. injection B1 as <- <-.
          rewrite <- B5. eapply (way_ok bor cmp laws N ht 1 t p q j es ks e'); eauto.
      + destruct R as (-> & G' & Ms & B). destruct Ms as (_ & _ & _ & _ & _ & _ & Cl & N1 & N2). exists [], (map (pay_at t) [[]]). rewrite !copies_er, Cl. split; auto. split; [now apply Nd|].
        split; [|auto]. right. rewrite Ot1. reflexivity.
    - assert (l = [] /\ len = 0) as [-> ->]. { subst l. split; [reflexivity|]. destruct Vb as (_ & X & _). exact X. }
      destruct (run_empty cs h) as [E Wk]. exists h, (FH None 0), (Done (map (fun _ => (Done None, 0)) cs)). unfold fh_iter_mut_calls, fh_iter_mut. cbn [fh_root fh_len bind]. rewrite E. cbn [bind].
      split; auto. intros _. exists [], []. split; auto. split; [constructor|]. split; auto. exists (map (fun _ => []) cs). split; [|constructor]. clear. unfold tried. induction cs; constructor; auto. reflexivity.
  Qed.

  Lemma mut_unshared (h : fheap) m l cs O : fsound h (olist (fh_root m) ++ O) -> fh_shows h m l -> funshared h (fh_root m) ->
    exists h' outs, fh_iter_mut_calls bomb h m cs = Ok (h', m, Done outs) /\ ~ In Unwound (map fst outs) /\ copies h' = copies h /\ funshared h' (fh_root m).
  Proof.
    intros S H U. apply fsound_iff in S as [G S]. pose proof H as Hs. apply is_shows in H as (b & Hb & Vb & Cb); auto. pose proof Hb as [Hlen Hr].
    destruct m as [[a|] len], b as [len' [t|]]; cbn [fh_root fh_len bm_root bm_len opt_ns] in *; try contradiction; subst len'.
    - destruct S as [W A]. cbn [olist app] in W. destruct (core h a t len l O cs G W A Hr Vb Cb) as (h' & r & o & E & R).
      apply funshared_er in U. assert (All : forall p, n_at t p <> None -> from (er h) a p).
      { intros p Hp. destruct (n_at t p) as [c|] eqn:Ep; [|congruence]. destruct (unshared_held (er h) t p a c Hr Ep U) as (b & Hb' & _). now exists b. }
      destruct o as [outs|].
      + destruct R as (ps1 & c & Hps & Hra & l' & t' & _ & _ & _ & (_ & _ & Sk) & _ & _ & _ & Hx & Hz).
        assert (Nu : ~ In Unwound (map fst outs)) by (intros X; destruct (Hx X) as (p & P1 & P2); now apply P2, All).
        assert (r = a) as ->.
        { destruct t as [es ks]. destruct (ns_cell h a es ks G Hr) as (cc & e & d & kk & Gh & _). apply (Hra (Nd (e, d) (map Some kk))). rewrite Gh. do 2 f_equal.
          apply funshared_er in U. eapply U; [constructor; now left|exact Gh]. }
        destruct Hz as (nps & kss & Ms & _ & _ & Mh).
        { intros X. apply Nu. clear - X. induction outs as [|o outs IH]; [destruct X|]. destruct outs as [|o2 outs]; [destruct X|]. destruct X as [X|X]; [now left|right; auto]. }
        specialize (Mh Nu). destruct Ms as (_ & _ & D' & _ & _ & _ & Cl & _ & N2). exists h', outs. split; auto. split; auto.
        assert (nps ++ ps1 = []) as Ez. { destruct (nps ++ ps1) as [|p q]; auto. inversion N2 as [|? ? [X1 X2] _]; subst. destruct X2. now apply All. }
        rewrite Ez in *. split; [rewrite !copies_er; exact Cl|]. apply funshared_er. apply (held_unshared (er h') a t'); auto. intros p Hp.
        destruct Mh as (_ & _ & Hst). apply Hst, All. pose proof (skel_n_at p t) as X1. pose proof (skel_n_at p t') as X2. rewrite Sk in X2. rewrite X2 in X1. intros Y. rewrite Y in X1. destruct (n_at t' p); [discriminate|congruence].
      + destruct R as (-> & G' & (_ & _ & _ & _ & _ & _ & _ & _ & N2) & B). inversion N2 as [|? ? [X1 X2] _]; subst. destruct X2. now apply All.
    - assert (l = [] /\ len = 0) as [-> ->]. { subst l. split; [reflexivity|]. destruct Vb as (_ & X & _). exact X. }
      destruct (run_empty cs h) as [E Wk]. exists h, (map (fun _ => (Done None, 0)) cs). unfold fh_iter_mut_calls, fh_iter_mut. cbn [fh_root fh_len bind]. rewrite E. cbn [bind].
      split; auto. split; [|auto]. clear. induction cs; intros X; [destruct X|]. destruct X; [discriminate|auto].
  Qed.
End Whole.
