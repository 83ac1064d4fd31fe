(** [iter_mut] on shared fixed [BTreeMap]s: the calls of [next] and [next_back]. *)
From Coq Require Import List PeanoNat Bool Lia Permutation.
From Verif Require Import Base Spec MapSpec SpecFacts Vec Heap HeapProofs HeapMut HeapMutProofs BTreeModel BTreeProofs BTreeProofs2
  BTreeIterModel BTreeMutProofs BTreeHeapModel BTreeHeapSpec BTreeHeapProofs MutSpec BTreeHeapMutModel BTreeHeapMutProofs
  BTreeHeapMutProofs2 BTreeHeapMutProofs3 BTreeHeapMutProofs4 FixedModel FixedIterModel FixedSpec FixedProofs FixedMutProofs FixedHeapModel FixedHeapSpec
  FixedHeapProofs FixedHeapProofs7 FixedHeapMutModel FixedHeapMutProofs.
From Verif Require BTreeIterProofs.
Import ListNotations.
Local Open Scope nat_scope.

(** ** The keys and the shape of a tree *)
Section Skel.
  Context {K V : Type} (N : nat).
  Notation bt := (bt K V).

  Lemma skel_n_at p : forall t : bt, n_at (skel t) p = option_map skel (n_at t p).
  Proof.
    induction p as [|j p IH]; intros [es ks]; cbn [skel n_at]; [reflexivity|]. rewrite nth_error_map. destruct (nth_error ks j); cbn [option_map]; auto.
  Qed.
  Lemma skel_shape ht : forall mn (t : bt), shape N mn ht t -> shape N mn ht (skel t).
  Proof.
    induction ht as [|ht IH]; intros mn t S.
    - apply shape_0 in S as (es & -> & L). cbn [skel map]. constructor. now rewrite map_length.
    - apply shape_S in S as (es & ks & -> & L & Lk & F). cbn [skel]. constructor; rewrite ?map_length; auto. clear L Lk. induction F as [|k ks S F IHF]; constructor; auto.
  Qed.
  Lemma skel_levels n : forall t : bt, n_levels t <= n -> n_levels (skel t) = n_levels t.
  Proof.
    induction n as [|n IH]; intros [es ks] L; [cbn in L; lia|]. cbn [skel]. rewrite !BTreeIterProofs.levels_eq in *. f_equal.
    assert (G : forall c, In c ks -> n_levels (skel c) = n_levels c).
    { intros c Hc. apply IH. pose proof (BTreeIterProofs.max_levels_in c ks Hc). lia. }
    clear IH L. induction ks as [|c ks IHk]; [reflexivity|]. unfold BTreeIterProofs.max_levels in *. cbn [map fold_right].
    rewrite G by (now left). f_equal. apply IHk. intros d Hd. apply G. now right.
  Qed.
  (** The positions of the entries, and their keys. *)
  Lemma weave_map {A B} (f : A -> B) (L : list (list A)) : forall l, weave (map (map f) L) (map f l) = map f (weave L l).
  Proof.
    induction L as [|k L IH]; intros l; [reflexivity|]. cbn [map weave]. rewrite map_app. f_equal. destruct l as [|x l]; cbn [map].
    - rewrite concat_map. reflexivity.
    - f_equal. apply IH.
  Qed.
  Lemma mapi_map {A B C} (f : nat -> B -> C) (g : A -> B) l : forall i, mapi_from i f (map g l) = mapi_from i (fun j x => f j (g x)) l.
  Proof. induction l as [|x l IH]; intros i; cbn; f_equal; auto. Qed.
  Lemma map_mapi {A B C} (f : nat -> A -> B) (g : B -> C) l : forall i, map g (mapi_from i f l) = mapi_from i (fun j x => g (f j x)) l.
  Proof. induction l as [|x l IH]; intros i; cbn; f_equal; auto. Qed.
  Lemma mapi_ext {A B} (f g : nat -> A -> B) l : (forall i x, f i x = g i x) -> forall i, mapi_from i f l = mapi_from i g l.
  Proof. intros H. induction l as [|x l IH]; intros i; cbn; f_equal; auto. Qed.
  Lemma skel_pos ht : forall mn (t : bt) p, shape N mn ht t ->
    map fst (BTreeProofs.flat (with_pos p (skel t))) = map fst (BTreeProofs.flat (with_pos p t)).
  Proof.
    assert (E : forall p (es : list (K * V)), map fst (mapi_from 0 (pos_of p) (map (fun e => (fst e, tt)) es)) = map fst (mapi_from 0 (pos_of p) es)).
    { intros p es. rewrite mapi_map, !map_mapi. apply mapi_ext. now intros i [k v]. }
    induction ht as [|ht IH]; intros mn t p S.
    - apply shape_0 in S as (es & -> & L). cbn [skel map]. rewrite !with_pos_eq. cbn [mapi_from BTreeProofs.flat map weave]. apply E.
    - apply shape_S in S as (es & ks & -> & L & Lk & F). cbn [skel]. rewrite !with_pos_eq. cbn [BTreeProofs.flat]. rewrite <- !weave_map, E. f_equal.
      rewrite !map_map, mapi_map, !map_mapi. clear L Lk. generalize 0. induction F as [|k ks S F IHF]; intros i; [reflexivity|]. cbn [mapi_from]. f_equal; [|apply IHF].
      apply (IH N k (p ++ [i]) S).
  Qed.
  Lemma shape_at ht : forall mn (t : bt) p c, shape N mn ht t -> n_at t p = Some c -> exists mn' ht', shape N mn' ht' c.
  Proof.
    induction ht as [|ht IH]; intros mn t p c S H.
    - destruct p as [|j p]; cbn [n_at] in H; [injection H as <-; eauto|]. apply shape_0 in S as (es & -> & _). now destruct j.
    - destruct p as [|j p]; cbn [n_at] in H; [injection H as <-; eauto|]. apply shape_S in S as (es & ks & -> & _ & _ & F).
      destruct (nth_error ks j) as [d|] eqn:Ed; [|discriminate]. rewrite Forall_forall in F. apply nth_error_In in Ed. eauto.
  Qed.
End Skel.

Section Calls.
  Context {K V : Type}.
  Variable bomb : nat -> bool.
  Notation elems := (elems K V).
  Notation okids := (option (kids addr)).
  Notation cell := (elems * okids)%type.
  Notation fheap := (heap cell).
  Notation pay := (list (K * V)).
  Notation bt := (bt K V).
  Notation er := (@er K V).
  Notation good := (@good K V).
  Notation N := MIN_OCCUPANCY.
  Notation faulty := (exists n, bomb n = true).
  Notation flatu := (@BTreeProofs.flat (@bref K) unit).

  Variables (sk : BTreeModel.bt K unit) (ht : nat).
  Hypothesis Hsk : shape N 1 ht sk.
  Notation Rk := (flatu (with_pos [] sk)).

  (** The entry number [x] is at the place [q], [j]; the node at [p] is above it. *)
  Definition on_way (p : list nat) (x : nat) : Prop := exists e q j, nth_error Rk x = Some e /\ fst (fst e) = (q, j) /\ prefix p q.
  Definition ref_ok (h : fheap) (r : addr) (rf : mref) (x : nat) : Prop :=
    exists q e, nth_error Rk x = Some e /\ fst (fst e) = (q, snd rf) /\ held (er h) r q (fst rf).
  Definition stk (h : fheap) (r : addr) (i : fwork) (xs : list nat) (c : nat) : Prop :=
    exists p l, held (er h) r p (fw_at i) /\ pend sk i p l c /\ Forall2 (fun x e => nth_error Rk x = Some e) xs l.
  Notation pc := (list nat * nat)%type.
  Definition stks (h : fheap) (r : addr) (w : list fwork) (lcs : list pc) : Prop := Forall2 (fun i lc => stk h r i (fst lc) (snd lc)) w lcs.
  Fixpoint needs (lcs : list pc) : nat :=
    match lcs with [] => 0 | (l, c) :: r => match l with [] => S (needs r) | _ => c end end.
  Definition lists (lcs : list pc) : list nat := concat (map fst lcs).

  Lemma stk_mono (h h' : fheap) r i xs c : mono (er h) (er h') r -> stk h r i xs c -> stk h' r i xs c.
  Proof. intros M (p & l & H & P). exists p, l. auto. Qed.
  Lemma stks_mono (h h' : fheap) r w lcs : mono (er h) (er h') r -> stks h r w lcs -> stks h' r w lcs.
  Proof. intros M F. induction F as [|i lc w lcs S F IH]; constructor; auto. eapply stk_mono; eauto. Qed.
  Lemma stk_cost h r i xs c : stk h r i xs c -> 1 <= c <= S (n_levels sk).
  Proof. intros (p & l & _ & P & _). eapply pend_cost; eauto. Qed.
  Lemma needs_fuel h r w lcs : stks h r w lcs -> needs lcs <= S (length w + n_levels sk).
  Proof.
    intros F. induction F as [|i [xs c] w lcs S F IH]; cbn [needs length]; [lia|]. cbn [fst snd] in S. pose proof (stk_cost _ _ _ _ _ S). destruct xs; lia.
  Qed.

  Section Sess.
  Variables (h0 : heap pay) (t0 : bt) (O : list addr) (start : list nat -> Prop).
  Hypothesis Ht : skel t0 = sk.
  Notation mst := (mst h0 t0 O start).
  Notation minv := (minv h0 t0 O start).

  Lemma at_t0 p es ks : n_at sk p = Some (BN es ks) -> exists es0 ks0, n_at t0 p = Some (BN es0 ks0) /\ length es0 = length es /\ length ks0 = length ks.
  Proof.
    rewrite <- Ht, skel_n_at. intros E. destruct (n_at t0 p) as [[es0 ks0]|]; [|discriminate]. cbn [option_map skel] in E. injection E as <- <-.
    exists es0, ks0. now rewrite !map_length.
  Qed.
  (** What is in a held cell. *)
  Lemma held_cell (h : fheap) r t ps p a es ks : good h -> minv (er h) r t ps -> held (er h) r p a -> n_at sk p = Some (BN es ks) ->
    exists l d, get h a = Some (1, Nd (l, d) (nd_kids (Nd (l, d) match d with Some b => firstn (kd_len b) (kd_ptrs b) | None => [] end)))
      /\ (exists vs, live (el_vals l) (el_len l) = Ok vs /\ length vs = length es) /\ (exists ks', live (el_keys l) (el_len l) = Ok ks')
      /\ match d with Some b => l <- live (kd_ptrs b) (kd_len b);; Ok (length l) | None => Ok 0 end = Ok (length ks).
  Proof.
    intros G I H Hn. destruct (at_t0 _ _ _ Hn) as (es0 & ks0 & H0 & L1 & L2).
    destruct (held_at _ _ _ _ _ _ _ _ _ _ _ _ I H H0) as (es1 & ks1 & cs & _ & Ga & _ & L3 & L4 & L5).
    destruct (get_er _ _ _ _ G Ga) as (l & d & es2 & cs2 & Gh & En & [He Hd]). injection En as <- En. apply (f_equal olists) in En. rewrite !olists_somes in En. subst cs2.
    assert (Hne : es1 <> []).
    { pose proof (n_at_len N ht 1 sk p _ (le_n 1) ltac:(unfold MIN_OCCUPANCY; lia) Hsk Hn) as X. cbn [elems_of] in X. destruct es1; [cbn in L3; lia|discriminate]. }
    exists l, d. destruct (el_live l es1 He Hne) as [Lk Lv]. split.
    { rewrite Gh. cbn [nd_kids]. do 3 f_equal. destruct d as [b|]; [|now subst cs]. destruct Hd as [_ [[_ (j & ->)] ->]].
      rewrite <- (map_length (@Some addr) cs), firstn_app, firstn_all, Nat.sub_diag. cbn [firstn]. now rewrite app_nil_r. }
    split; [eexists; split; [exact Lv|rewrite map_length; lia]|]. split; [eauto|]. destruct d as [b|].
    - destruct Hd as [Hk Hb]. rewrite (kd_live b cs Hb Hk). cbn [bind]. f_equal. lia.
    - subst cs. f_equal. cbn in L5. lia.
  Qed.

  Lemma new_kid (h : fheap) r t ps p a j es ks c0 : good h -> minv (er h) r t ps -> held (er h) r p a -> n_at sk p = Some (BN es ks) -> nth_error ks j = Some c0 ->
    exists h' x, fw_new bomb h (SKid a j) = Ok (h', x) /\ good h' /\ mono (er h) (er h') r
      /\ match x with
         | None => mst (er h') r t ((p ++ [j]) :: ps) /\ faulty
         | Some i => exists nps c, minv (er h') r t (nps ++ ps) /\ (nps = [] \/ nps = [p ++ [j]]) /\ held (er h') r (p ++ [j]) (fw_at i)
                       /\ pend sk i (p ++ [j]) (flatu (with_pos (p ++ [j]) c0)) c /\ c <= n_levels c0
         end.
  Proof.
    intros G I H Hn Hj. destruct (at_t0 _ _ _ Hn) as (es0 & ks0 & H0 & L1 & L2).
    destruct (nth_error ks0 j) as [d0|] eqn:Ej0; [|apply nth_error_None in Ej0; rewrite L2 in Ej0; apply nth_error_None in Ej0; congruence].
    destruct (kid_step bomb h0 t0 O start _ _ _ _ _ _ _ _ _ _ I H H0 Ej0) as (g & x & E & M & R).
    destruct (f_kid_mut_sim bomb _ _ _ _ _ G E) as (h' & Eh & <- & G'). unfold fw_new. cbn [f_slot_mut]. rewrite Eh. cbn [bind].
    destruct x as [c'|]; [|exists h', None; auto]. destruct R as (nps & I' & Hc & Hps).
    assert (Hat : n_at sk (p ++ [j]) = Some c0) by (now rewrite (n_at_snoc p sk es ks j Hn)). destruct c0 as [es1 ks1].
    destruct (held_cell h' r t _ _ _ _ _ G' I' Hc Hat) as (l & d & Gh & (vs & Ev & Lv) & (ks' & Ek) & El). unfold excl. rewrite Gh. cbn [bind nd_data].
    rewrite El. cbn [bind]. rewrite Ek. cbn [bind]. rewrite Ev. cbn [bind]. eexists _, _. split; [reflexivity|]. split; auto. split; auto. rewrite Lv.
    destruct (shape_at N ht 1 sk _ _ Hsk Hat) as (mn' & ht' & Sh). destruct (pend_new sk N mn' ht' c' (p ++ [j]) es1 ks1 Hat Sh) as (c & Pe & Hcs).
    exists nps, c. auto.
  Qed.

  Lemma next_loop_ok fuel : forall (h : fheap) r t ps w lcs len, good h -> minv (er h) r t ps -> stks h r w lcs -> needs lcs <= fuel -> length (lists lcs) <= len ->
    exists h' w' len' o lcs' nps, fm_next_loop bomb fuel h w len = Ok (h', FIter w' len', o) /\ good h' /\ mono (er h) (er h') r /\ stks h' r w' lcs'
      /\ match o with
         | Done None => minv (er h') r t ps /\ nps = [] /\ lists lcs = [] /\ lists lcs' = [] /\ len' = len
         | Done (Some rf) => exists x, minv (er h') r t (nps ++ ps) /\ lists lcs = x :: lists lcs' /\ len = S len' /\ ref_ok h' r rf x /\ Forall (fun p => on_way p x) nps
         | Unwound => exists x lost, mst (er h') r t (nps ++ ps) /\ faulty /\ nps <> [] /\ lists lcs = (x :: lost) ++ lists lcs' /\ len' = len
                        /\ Forall (fun p => on_way p x) nps
         end.
  Proof.
    induction fuel as [|fuel IH]; intros h r t ps w lcs len G I St Nd Ll; destruct St as [|i [xs c] w lcs Hi St].
    1, 3: cbn [fm_next_loop]; exists h, [], len, (Done None), [], []; split; [reflexivity|]; split; [auto|]; split; [intros p b X; exact X|]; split; [constructor|]; auto.
    { exfalso. cbn [fst snd] in Hi. pose proof (stk_cost _ _ _ _ _ Hi). cbn [needs] in Nd. destruct xs; lia. }
    cbn [fst snd fm_next_loop] in *. pose proof Hi as (p & l & Hh & Pe & Fx). pose proof (pend_next sk i p l c Pe) as Pn.
    destruct (fw_next i) as [[[[a j]|s]|] i'] eqn:En.
    - destruct Pn as (-> & Ea & e & l' & c' & -> & Ep & Pe'). inversion Fx as [|x ? xs' ? Ex Fx']; subst. unfold lists in Ll |- *. cbn [map fst concat app length] in *.
      rewrite usize_sub_ok by lia. cbn [bind]. exists h, (i' :: w), (len - 1), (Done (Some (fw_at i, j))), ((xs', c') :: lcs), []. split; [reflexivity|]. split; [auto|].
      split; [intros q b X; exact X|]. split.
      { constructor; auto. exists p, l'. cbn [fst snd]. rewrite Ea. auto. }
      exists x. cbn [map fst concat app]. split; auto. split; auto. split; [lia|]. split; [|constructor]. exists p, e. auto.
    - destruct Pn as (Ea & j & es & ks & c0 & l2 & c2 & -> & Hn & Hj & -> & -> & Pe').
      destruct (new_kid h r t ps p (fw_at i) j es ks c0 G I Hh Hn Hj) as (h1 & x & E1 & G1 & M1 & R). rewrite E1. cbn [bind].
      apply Forall2_app_inv_r in Fx as (xs1 & xs2 & F1 & F2 & ->).
      assert (Hat : n_at sk (p ++ [j]) = Some c0) by (now rewrite (n_at_snoc p sk es ks j Hn)).
      destruct (shape_at N ht 1 sk _ _ Hsk Hat) as (mn' & ht' & Sh).
      assert (Hx : exists x0 xs0, xs1 = x0 :: xs0 /\ on_way (p ++ [j]) x0).
      { destruct c0 as [es0 ks0]. destruct (flatu (with_pos (p ++ [j]) (BN es0 ks0))) as [|e0 l0] eqn:Ef.
        - exfalso. pose proof (n_at_len N ht 1 sk _ _ (le_n 1) ltac:(unfold MIN_OCCUPANCY; lia) Hsk Hat) as X. cbn [elems_of] in X. destruct es0 as [|e0 es0]; [cbn in X; lia|].
          pose proof (pos_in N ht' mn' _ (p ++ [j]) [] 0 _ _ e0 Sh eq_refl eq_refl) as Y. rewrite Ef in Y. exact Y.
        - inversion F1 as [|x0 ? xs0 ? Ex0 F1']; subst. exists x0, xs0. split; auto.
          destruct (pos_at N ht' mn' _ (p ++ [j]) 0 e0 Sh) as (q & j' & _ & _ & Eq & _); [now rewrite Ef|]. exists e0, ((p ++ [j]) ++ q), j'. split; auto. split; auto. now exists q. }
      destruct Hx as (x0 & xs0 & -> & Hw).
      destruct x as [k|].
      + destruct R as (nps & ck & I1 & Hps & Hk & Pk & Hc).
        destruct (IH h1 r t (nps ++ ps) (k :: i' :: w) ((x0 :: xs0, ck) :: (xs2, c2) :: lcs) len G1 I1) as (h' & w' & len' & o & lcs' & nps' & E & G' & M' & St' & R).
        { constructor; [exists (p ++ [j]), (flatu (with_pos (p ++ [j]) c0)); auto|]. constructor; [exists p, l2; cbn [fst snd]; rewrite Ea; auto|]. eapply stks_mono; eauto. }
        { cbn [needs app] in Nd |- *. lia. }
        { unfold lists in Ll |- *. cbn [map fst concat] in Ll |- *. now rewrite <- app_assoc in Ll. }
        assert (El : lists ((x0 :: xs0, ck) :: (xs2, c2) :: lcs) = lists (((x0 :: xs0) ++ xs2, S (n_levels c0)) :: lcs)).
        { unfold lists. cbn [map fst concat]. now rewrite <- app_assoc. }
        rewrite El in R. assert (Hd : exists tl, lists (((x0 :: xs0) ++ xs2, S (n_levels c0)) :: lcs) = x0 :: tl) by (unfold lists; cbn [map fst concat app]; eauto).
        destruct Hd as [tl Hd]. assert (Fn : Forall (fun p => on_way p x0) nps) by (destruct Hps as [->| ->]; repeat constructor; auto).
        exists h', w', len', o, lcs', (nps' ++ nps). split; auto. split; auto. split; [eapply mono_trans; eauto|]. split; auto. destruct o as [[rf|]|].
        * destruct R as (x & I' & Ex & R1 & R2 & R3). exists x. rewrite <- app_assoc. assert (x = x0) as -> by congruence. split; auto. split; auto. split; auto. split; auto. apply Forall_app. auto.
        * destruct R as (_ & _ & X & _). congruence.
        * destruct R as (x & lost & I' & B & Hne & Ex & R1 & R2). exists x, lost. rewrite <- app_assoc. assert (x = x0) as -> by (rewrite Hd in Ex; now injection Ex).
          split; auto. split; auto. split; [destruct nps'; [congruence|discriminate]|]. split; auto. split; auto. apply Forall_app. auto.
      + destruct R as (M & B). exists h1, (i' :: w), len, Unwound, ((xs2, c2) :: lcs), [p ++ [j]]. split; auto. split; auto. split; auto. split.
        { constructor; [exists p, l2; cbn [fst snd]; rewrite Ea; auto|]. eapply stks_mono; eauto. }
        exists x0, xs0. split; auto. split; auto. split; [discriminate|]. split; [unfold lists; cbn [map fst concat]; now rewrite <- app_assoc|]. split; auto.
    - subst l. inversion Fx; subst. cbn [needs] in Nd.
      destruct (IH h r t ps w lcs len G I St) as (h' & w' & len' & o & lcs' & nps' & E & R); [lia|exact Ll|]. exists h', w', len', o, lcs', nps'. auto.
  Qed.

  Lemma back_rev fuel : forall (h : fheap) w len, fm_back_loop bomb fuel h (rev w) len =
    rm_ (fun x => let '(h1, it, o) := x in (h1, FIter (rev (fi_work it)) (fi_len it), o)) (fm_next_loop bomb fuel h w len).
  Proof.
    clear Hsk Ht. induction fuel as [|fuel IH]; intros h [|i w] len; try reflexivity.
    - cbn [rev fm_back_loop fm_next_loop]. rewrite vec_pop_snoc. reflexivity.
    - cbn [rev fm_back_loop fm_next_loop]. rewrite vec_pop_snoc. destruct (fw_next i) as [[[rf|s]|] i'].
      + destruct (usize_sub len 1); reflexivity.
      + destruct (fw_new bomb h s) as [[h1 [j|]]|]; [|reflexivity|reflexivity]. cbn [bind]. change ((rev w ++ [i']) ++ [j]) with (rev (j :: i' :: w)). apply IH.
      + apply IH.
  Qed.
  End Sess.
End Calls.
