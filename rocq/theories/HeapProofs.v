(** Facts about the reference-counted heap. *)
From Coq Require Import List Arith Bool Lia.
From Verif Require Import Base Heap.
Import ListNotations.
Open Scope nat_scope.

Section HeapProofs.
  Context {P : Type}.
  Notation node := (node P).
  Notation heap := (heap P).
  Notation vt := (vt P).

  (** ** Lists, counts *)
  Lemma cnt_app a l r : cnt a (l ++ r) = cnt a l + cnt a r.
  Proof. apply count_occ_app. Qed.
  Lemma cnt_cons a b l : cnt a (b :: l) = (if Nat.eq_dec b a then 1 else 0) + cnt a l.
  Proof. unfold cnt. cbn. destruct (Nat.eq_dec b a); lia. Qed.
  Lemma cnt_in a l : In a l <-> 1 <= cnt a l.
  Proof. apply count_occ_In. Qed.
  Lemma cnt_notin a l : cnt a l = 0 <-> ~ In a l.
  Proof. rewrite cnt_in. lia. Qed.
  Lemma cnt_nil a : cnt a [] = 0.
  Proof. reflexivity. Qed.

  Lemma upd_length {A} i (x : A) l : length (upd i x l) = length l.
  Proof. revert i. induction l as [|y l IH]; intros [|i]; cbn; auto. Qed.
  Lemma upd_same {A} i (x : A) l : i < length l -> nth_error (upd i x l) i = Some x.
  Proof.
    revert i. induction l as [|y l IH]; intros [|i] H; cbn in *; auto; try lia. apply IH. lia.
  Qed.
  Lemma upd_other {A} i j (x : A) l : i <> j -> nth_error (upd i x l) j = nth_error l j.
  Proof.
    revert i j. induction l as [|y l IH]; intros [|i] [|j] H; cbn; auto; try lia.
  Qed.
  Lemma upd_beyond {A} i (x : A) l : length l <= i -> upd i x l = l.
  Proof. revert i. induction l as [|y l IH]; intros [|i] H; cbn in *; auto; try lia. f_equal. apply IH. lia. Qed.
  Lemma upd_self {A} i (x : A) l : nth_error l i = Some x -> upd i x l = l.
  Proof. revert i. induction l as [|y l IH]; intros [|i] H; cbn in *; try discriminate; f_equal; auto. congruence. Qed.
  Lemma upd_upd {A} i (x y : A) l : upd i x (upd i y l) = upd i x l.
  Proof. revert i. induction l as [|z l IH]; intros [|i]; cbn; f_equal; auto. Qed.

  (** ** [get] *)
  Lemma get_lt h a c : get h a = Some c -> a < length (cells (P := P) h).
  Proof.
    unfold get. destruct (nth_error (cells h) a) eqn:E; [|discriminate].
    intros _. apply nth_error_Some. congruence.
  Qed.
  Lemma get_put_same (h : heap) a c : a < length (cells h) -> get (put h a c) a = c.
  Proof. intros H. unfold get, put. cbn. rewrite upd_same by auto. destruct c; auto. Qed.
  Lemma get_put_other (h : heap) a b c : a <> b -> get (put h a c) b = get h b.
  Proof. intros H. unfold get, put. cbn. now rewrite upd_other. Qed.
  Lemma get_put (h : heap) a b c : a < length (cells h) ->
    get (put h a c) b = if Nat.eq_dec a b then c else get h b.
  Proof.
    intros H. destruct (Nat.eq_dec a b) as [<-|Hn]; [now apply get_put_same|now apply get_put_other].
  Qed.
  Lemma cells_put (h : heap) a c : length (cells (put h a c)) = length (cells h).
  Proof. apply upd_length. Qed.
  Lemma get_log (h : heap) d a : get (log h d) a = get h a.
  Proof. reflexivity. Qed.
  Lemma get_alloc (h : heap) n b :
    get (fst (alloc h n)) b = if Nat.eq_dec (length (cells h)) b then Some (1, n) else get h b.
  Proof.
    unfold get, alloc. cbn. destruct (Nat.eq_dec (length (cells h)) b) as [<-|H].
    - rewrite nth_error_app2, Nat.sub_diag by auto. reflexivity.
    - destruct (Nat.lt_ge_cases b (length (cells h))) as [Hl|Hl].
      + now rewrite nth_error_app1.
      + rewrite nth_error_app2 by auto. destruct (b - length (cells h)) as [|m] eqn:E; [lia|].
        cbn. destruct m; cbn; assert (nth_error (cells h) b = None) as -> by (apply nth_error_None; lia); auto.
  Qed.

  (** ** [ptrs] *)
  Lemma flat_map_upd (l : list (option (nat * node))) a c c0 x :
    nth_error l a = Some c0 ->
    cnt x (flat_map out_ptrs (upd a c l)) + cnt x (out_ptrs c0)
    = cnt x (flat_map out_ptrs l) + cnt x (out_ptrs c).
  Proof.
    revert a. induction l as [|y l IH]; intros [|a] H; cbn in H; try discriminate.
    - injection H as ->. cbn [upd flat_map]. rewrite !cnt_app. lia.
    - cbn [upd flat_map]. rewrite !cnt_app. specialize (IH a H). lia.
  Qed.
  Lemma cnt_put (h : heap) a c x : a < length (cells h) ->
    cnt x (ptrs (put h a c)) + cnt x (out_ptrs (get h a)) = cnt x (ptrs h) + cnt x (out_ptrs c).
  Proof.
    intros H. unfold ptrs, put, get. cbn.
    destruct (nth_error (cells h) a) as [c0|] eqn:E; [|apply nth_error_None in E; lia].
    rewrite <- (flat_map_upd (cells h) a c c0 x E). destruct c0; reflexivity.
  Qed.
  Lemma ptrs_alloc (h : heap) n : ptrs (fst (alloc h n)) = ptrs h ++ olists (nd_kids n).
  Proof. unfold ptrs, alloc. cbn. rewrite flat_map_app. cbn. now rewrite app_nil_r. Qed.
  Lemma ptrs_in (h : heap) a c n k : get h a = Some (c, n) -> In k (olists (nd_kids n)) -> In k (ptrs h).
  Proof.
    unfold get, ptrs. destruct (nth_error (cells h) a) as [[o|]|] eqn:E; try discriminate. intros [= ->] Hk.
    apply in_flat_map. exists (Some (c, n)). split; auto. now apply nth_error_In in E.
  Qed.
  Lemma in_ptrs (h : heap) k : In k (ptrs h) ->
    exists a c n, get h a = Some (c, n) /\ In k (olists (nd_kids n)).
  Proof.
    unfold ptrs. intros H. apply in_flat_map in H as (o & Ho & Hk).
    apply In_nth_error in Ho as [a Ha]. destruct o as [[c n]|]; [|destruct Hk].
    exists a, c, n. unfold get. now rewrite Ha.
  Qed.

  (** ** [den] *)
  Lemma den_sub (h h' : heap) (S : addr -> Prop) :
    (forall b c n, S b -> get h b = Some (c, n) ->
       (exists c', get h' b = Some (c', n)) /\ forall k, In k (olists (nd_kids n)) -> S k) ->
    (forall p t, den h p t -> (forall b, In b (olist p) -> S b) -> den h' p t)
    /\ (forall ps ts, dens h ps ts -> (forall b, In b (olists ps) -> S b) -> dens h' ps ts).
  Proof.
    intros HS.
    apply (den_dens_ind h
             (fun p t => (forall b, In b (olist p) -> S b) -> den h' p t)
             (fun ps ts => (forall b, In b (olists ps) -> S b) -> dens h' ps ts)).
    - intros _. constructor.
    - intros a c n ts G _ IH Ha.
      destruct (HS a c n (Ha a (or_introl eq_refl)) G) as [[c' G'] Hk].
      econstructor; eauto.
    - intros _. constructor.
    - intros p ps t ts _ IH1 _ IH2 Hb. cbn in Hb. constructor.
      + apply IH1. intros b Hi. apply Hb, in_or_app. auto.
      + apply IH2. intros b Hi. apply Hb, in_or_app. auto.
  Qed.

  Definition same_nodes (h h' : heap) : Prop :=
    forall b c n, get h b = Some (c, n) -> exists c', get h' b = Some (c', n).
  Lemma den_same (h h' : heap) : same_nodes h h' ->
    (forall p t, den h p t -> den h' p t) /\ (forall ps ts, dens h ps ts -> dens h' ps ts).
  Proof.
    intros HS. destruct (den_sub h h' (fun _ => True)) as [H1 H2].
    { intros b c n _ G. split; auto. eapply HS; eauto. }
    split; intros; [apply H1|apply H2]; auto.
  Qed.
  Lemma same_nodes_refl (h : heap) : same_nodes h h.
  Proof. intros b c n G. eauto. Qed.
  Lemma same_nodes_trans (h1 h2 h3 : heap) : same_nodes h1 h2 -> same_nodes h2 h3 -> same_nodes h1 h3.
  Proof. intros H1 H2 b c n G. destruct (H1 b c n G) as [c' G']. eapply H2; eauto. Qed.

  Lemma den_det (h : heap) :
    (forall p t, den h p t -> forall t', den h p t' -> t = t')
    /\ (forall ps ts, dens h ps ts -> forall ts', dens h ps ts' -> ts = ts').
  Proof.
    apply (den_dens_ind h (fun p t => forall t', den h p t' -> t = t')
                          (fun ps ts => forall ts', dens h ps ts' -> ts = ts')).
    - intros t' H. inversion H. reflexivity.
    - intros a c n ts G _ IH t' H. inversion H as [|a' c' n' ts' G' D]; subst.
      rewrite G in G'. injection G' as <- <-. f_equal. auto.
    - intros ts' H. inversion H. reflexivity.
    - intros p ps t ts _ IH1 _ IH2 ts' H. inversion H; subst. f_equal; auto.
  Qed.
  Lemma dens_app (h : heap) ps qs ts us : dens h ps ts -> dens h qs us -> dens h (ps ++ qs) (ts ++ us).
  Proof.
    revert ts. induction ps as [|p ps IH]; intros ts H Hq; inversion H; subst; cbn; auto.
    constructor; auto.
  Qed.

  Definition acyclic (h : heap) : Prop := forall a c n, get h a = Some (c, n) -> exists t, den h (Some a) t.

  Lemma live_of_wf (h : heap) O a : wf h O -> In a (O ++ ptrs h) -> exists c n, get h a = Some (c, n) /\ 1 <= c.
  Proof.
    intros W Hi. specialize (W a). apply cnt_in in Hi. destruct (get h a) as [[c n]|]; [|lia].
    exists c, n. split; auto. lia.
  Qed.

  Lemma dens_of_wf (h : heap) O : wf h O -> acyclic h ->
    forall ps, incl (olists ps) (O ++ ptrs h) -> exists ts, dens h ps ts.
  Proof.
    intros W A. induction ps as [|p ps IH]; intros Hi.
    - exists []. constructor.
    - cbn in Hi. destruct IH as [ts Hts]. { intros x Hx. apply Hi, in_or_app. auto. }
      destruct p as [a|].
      + destruct (live_of_wf h O a W) as (c & n & G & _). { apply Hi. cbn. auto. }
        destruct (A a c n G) as [t Ht]. exists (t :: ts). constructor; auto.
      + exists (VN :: ts). constructor; auto. constructor.
  Qed.

  Lemma wf_equiv (h : heap) O O' : (forall a, cnt a O = cnt a O') -> wf h O -> wf h O'.
  Proof.
    intros E W a. specialize (W a). rewrite cnt_app in *. rewrite <- E. exact W.
  Qed.

  (** ** frame *)
  Lemma frame_refl O (h : heap) : frame O h h.
  Proof. repeat split; auto. Qed.
  Lemma frame_trans O (h1 h2 h3 : heap) : frame O h1 h2 -> frame O h2 h3 -> frame O h1 h3.
  Proof.
    intros (A1 & B1 & C1) (A2 & B2 & C2). split; [|split]; auto.
    - intros a G L. apply B2; [|lia]. now apply B1.
    - lia.
  Qed.
  Lemma frame_incl O O' (h h' : heap) : incl O' O -> frame O h h' -> frame O' h h'.
  Proof.
    intros I (A & B & C). split; [|split]; auto. intros q t Hq. apply A. intros x Hx. apply I. auto.
  Qed.
  Lemma frame_dens O (h h' : heap) : frame O h h' -> forall ps ts, incl (olists ps) O -> dens h ps ts -> dens h' ps ts.
  Proof.
    intros (A & _ & _). induction ps as [|p ps IH]; intros ts Hi H; inversion H; subst; constructor.
    - apply A; auto. intros x Hx. apply Hi. cbn. apply in_or_app. auto.
    - apply IH; auto. intros x Hx. apply Hi. cbn. apply in_or_app. auto.
  Qed.
  Lemma same_frame O (h h' : heap) : same_nodes h h' ->
    (forall a, get h a = None -> a < length (cells h) -> get h' a = None) ->
    length (cells h) <= length (cells h') -> frame O h h'.
  Proof. intros HS B C. split; [|split]; auto. intros q t _. now apply den_same. Qed.

  (** ** Operations *)
  Lemma alloc_ok (h : heap) d kids ts O : wf h (olists kids ++ O) -> acyclic h -> dens h kids ts ->
    forall h' a, alloc h (Nd d kids) = (h', a) ->
    wf h' (a :: O) /\ acyclic h' /\ den h' (Some a) (VT d ts) /\ get h' a = Some (1, Nd d kids)
    /\ frame (olists kids ++ O) h h' /\ same_nodes h h'
    /\ length (cells h') = S (length (cells h)) /\ clones h' = clones h /\ a = length (cells h)
    /\ get h a = None.
  Proof.
    intros W A D h' a E.
    assert (Eh : h' = fst (alloc h (Nd d kids))) by now rewrite E.
    assert (Ea : a = length (cells h)) by (unfold alloc in E; congruence).
    assert (Gn : get h a = None).
    { destruct (get h a) eqn:G; auto. apply get_lt in G. lia. }
    assert (SN : same_nodes h h').
    { intros b c n G. exists c. rewrite Eh, get_alloc. apply get_lt in G as L.
      destruct (Nat.eq_dec (length (cells h)) b); [lia|auto]. }
    assert (Ga : get h' a = Some (1, Nd d kids)).
    { rewrite Eh, get_alloc, Ea. destruct (Nat.eq_dec _ _); congruence. }
    assert (Da : den h' (Some a) (VT d ts)).
    { change d with (nd_data (Nd d kids)). econstructor; [exact Ga|]. now apply (den_same h h' SN). }
    assert (Lh : length (cells h') = S (length (cells h))).
    { rewrite Eh. cbn. rewrite app_length. cbn. lia. }
    assert (Pt : ptrs h' = ptrs h ++ olists kids). { rewrite Eh. apply ptrs_alloc. }
    split; [|split; [|split; [|split; [|split; [|split; [|split; [|split; [|split]]]]]]]]; auto.
    - intros b. rewrite Eh, get_alloc, <- Ea, <- Eh.
      pose proof (W b) as Wb. rewrite Pt, !cnt_app in *. rewrite cnt_cons.
      destruct (Nat.eq_dec a b) as [<-|Hn].
      + rewrite Gn in Wb. lia.
      + destruct (get h b) as [[c n]|]; lia.
    - intros b c n G. rewrite Eh, get_alloc, <- Ea in G. destruct (Nat.eq_dec a b) as [<-|Hn].
      + eauto.
      + destruct (A b c n G) as [t Ht]. exists t. now apply (den_same h h' SN).
    - apply same_frame; auto; [|lia]. intros b G L. rewrite Eh, get_alloc. destruct (Nat.eq_dec _ b); [lia|auto].
    - unfold alloc in E. now injection E as <- _.
  Qed.

  Lemma inc_ok (h : heap) p O : wf h O -> acyclic h -> incl (olist p) (O ++ ptrs h) ->
    exists h', inc h p = Ok h' /\ wf h' (olist p ++ O) /\ acyclic h'
      /\ same_nodes h h' /\ same_nodes h' h /\ ptrs h' = ptrs h
      /\ length (cells h') = length (cells h) /\ clones h' = clones h.
  Proof.
    intros W A Hi. destruct p as [a|].
    2:{ exists h. repeat split; auto using same_nodes_refl. }
    destruct (live_of_wf h O a W) as (c & n & G & Hc). { apply Hi. cbn. auto. }
    unfold inc. rewrite G. exists (put h a (Some (S c, n))).
    pose proof (get_lt h a _ G) as L.
    assert (S1 : same_nodes h (put h a (Some (S c, n)))).
    { intros b c' n' G'. rewrite get_put by auto. destruct (Nat.eq_dec a b) as [<-|Hn]; eauto.
      rewrite G in G'. injection G' as <- <-. eauto. }
    assert (S2 : same_nodes (put h a (Some (S c, n))) h).
    { intros b c' n' G'. rewrite get_put in G' by auto. destruct (Nat.eq_dec a b) as [<-|Hn]; eauto.
      injection G' as <- <-. eauto. }
    assert (Pt : ptrs (put h a (Some (S c, n))) = ptrs h).
    { unfold ptrs, put. cbn. clear - G. unfold get in G.
      assert (G' : nth_error (cells h) a = Some (Some (c, n))).
      { destruct (nth_error (cells h) a) as [[|]|]; congruence. }
      clear G. rename G' into G. revert a G. induction (cells h) as [|y l IH]; intros [|a] G; cbn in *; auto; try discriminate.
      - injection G as ->. reflexivity.
      - f_equal. apply IH. exact G. }
    repeat split; auto.
    - intros b. rewrite get_put by auto. pose proof (W b) as Wb. rewrite Pt, !cnt_app in *. cbn [olist].
      rewrite cnt_cons, cnt_nil. destruct (Nat.eq_dec a b) as [<-|Hn].
      + rewrite G in Wb. lia.
      + destruct (get h b) as [[c' n']|]; lia.
    - intros b c' n' G'. destruct (S2 b c' n' G') as [c'' G'']. destruct (A b c'' n' G'') as [t Ht].
      exists t. now apply (den_same _ _ S1).
    - apply cells_put.
  Qed.

  Lemma incs_ok ps : forall (h : heap) O, wf h O -> acyclic h -> incl (olists ps) (O ++ ptrs h) ->
    exists h', incs h ps = Ok h' /\ wf h' (olists ps ++ O) /\ acyclic h'
      /\ same_nodes h h' /\ same_nodes h' h /\ ptrs h' = ptrs h
      /\ length (cells h') = length (cells h) /\ clones h' = clones h.
  Proof.
    induction ps as [|p ps IH]; intros h O W A Hi; cbn [incs].
    - exists h. repeat split; auto using same_nodes_refl.
    - cbn in Hi. destruct (inc_ok h p O W A) as (h1 & E1 & W1 & A1 & S1 & S1' & P1 & L1 & C1).
      { intros x Hx. apply Hi, in_or_app. auto. }
      rewrite E1. cbn [bind].
      destruct (IH h1 (olist p ++ O) W1 A1) as (h2 & E2 & W2 & A2 & S2 & S2' & P2 & L2 & C2).
      { intros x Hx. rewrite P1, <- app_assoc. apply in_or_app. right. apply Hi, in_or_app. auto. }
      exists h2. rewrite E2. split; auto. split.
      { eapply wf_equiv; [|exact W2]. intros a. unfold olists. cbn [flat_map]. rewrite !cnt_app. lia. }
      repeat split; eauto using same_nodes_trans; congruence.
  Qed.

  Lemma dead_cell (h : heap) a : a < length (cells h) -> get h a = None -> nth_error (cells h) a = Some None.
  Proof.
    intros L G. unfold get in G. destruct (nth_error (cells h) a) as [[|]|] eqn:E; auto; try discriminate.
    apply nth_error_None in E. lia.
  Qed.

  (** Removing a uniquely owned cell. *)
  Lemma free_ok (h : heap) a n O : wf h (a :: O) -> acyclic h -> get h a = Some (1, n) ->
    wf (put h a None) (olists (nd_kids n) ++ O) /\ acyclic (put h a None)
    /\ frame O h (put h a None)
    /\ (forall ts, dens h (nd_kids n) ts -> dens (put h a None) (nd_kids n) ts)
    /\ get (put h a None) a = None.
  Proof.
    intros W A G. pose proof (get_lt h a _ G) as L.
    assert (Z0 : cnt a (O ++ ptrs h) = 0).
    { pose proof (W a) as Wa. rewrite G in Wa. cbn [app] in Wa. rewrite cnt_cons in Wa.
      destruct (Nat.eq_dec a a); [lia|congruence]. }
    set (S := fun b => In b (O ++ ptrs h)).
    assert (HS : forall b c m, S b -> get h b = Some (c, m) ->
       (exists c', get (put h a None) b = Some (c', m)) /\ forall k, In k (olists (nd_kids m)) -> S k).
    { intros b c m Sb Gb. split.
      - exists c. rewrite get_put by auto. destruct (Nat.eq_dec a b) as [<-|]; auto.
        apply cnt_notin in Z0. contradiction.
      - intros k Hk. apply in_or_app. right. eapply ptrs_in; eauto. }
    destruct (den_sub h (put h a None) S HS) as [D1 D2].
    split; [|split; [|split; [|split]]].
    - intros b. rewrite get_put by auto. pose proof (W b) as Wb.
      pose proof (cnt_put h a None b L) as Cp. rewrite G in Cp. cbn [out_ptrs] in Cp.
      cbn [app] in Wb. rewrite !cnt_app, ?cnt_cons in *. rewrite ?cnt_app, ?cnt_nil in *.
      destruct (Nat.eq_dec a b) as [<-|Hn].
      + rewrite G in Wb. lia.
      + destruct (get h b) as [[c m]|]; lia.
    - intros b c m Gb. rewrite get_put in Gb by auto. destruct (Nat.eq_dec a b) as [|Hn]; [discriminate|].
      destruct (A b c m Gb) as [t Ht]. exists t.
      inversion Ht as [|? c' m' ts G' Dk]; subst. rewrite Gb in G'. injection G' as <- <-.
      econstructor.
      + rewrite get_put by auto. destruct (Nat.eq_dec a b); [contradiction|exact Gb].
      + apply D2; auto. intros k Hk. apply in_or_app. right. eapply ptrs_in; eauto.
    - split; [|split].
      + intros q t Hq D. apply D1; auto. intros b Hb. apply in_or_app. left. auto.
      + intros b Gb _. rewrite get_put by auto. destruct (Nat.eq_dec a b); auto.
      + rewrite cells_put. auto.
    - intros ts D. apply D2; auto. intros k Hk. apply in_or_app. right. eapply ptrs_in; eauto.
    - now apply get_put_same.
  Qed.

  Lemma take_ok (h : heap) a n O : wf h (a :: O) -> acyclic h -> get h a = Some (1, n) ->
    exists h', take h a = Ok (h', n)
      /\ wf h' (olists (nd_kids n) ++ O) /\ acyclic h' /\ frame O h h'
      /\ (forall ts, dens h (nd_kids n) ts -> dens h' (nd_kids n) ts)
      /\ get h' a = None /\ a < length (cells h')
      /\ length (cells h') = length (cells h) /\ clones h' = clones h.
  Proof.
    intros W A G. exists (put h a None). unfold take. rewrite G.
    destruct (free_ok h a n O W A G) as (W' & A' & F & D & G').
    repeat (split; auto). all: rewrite ?cells_put; auto. eapply get_lt; eauto.
  Qed.

  Lemma give_ok (h : heap) a d kids ts O : wf h (olists kids ++ O) -> acyclic h -> dens h kids ts ->
    get h a = None -> a < length (cells h) ->
    wf (give h a (Nd d kids)) (a :: O) /\ acyclic (give h a (Nd d kids))
    /\ den (give h a (Nd d kids)) (Some a) (VT d ts)
    /\ get (give h a (Nd d kids)) a = Some (1, Nd d kids)
    /\ same_nodes h (give h a (Nd d kids))
    /\ length (cells (give h a (Nd d kids))) = length (cells h).
  Proof.
    intros W A D G L. unfold give. set (h' := put h a (Some (1, Nd d kids))).
    assert (SN : same_nodes h h').
    { intros b c n Gb. exists c. unfold h'. rewrite get_put by auto. destruct (Nat.eq_dec a b); [congruence|auto]. }
    assert (Ga : get h' a = Some (1, Nd d kids)) by now apply get_put_same.
    assert (Da : den h' (Some a) (VT d ts)).
    { change d with (nd_data (Nd d kids)). econstructor; [exact Ga|]. now apply (den_same h h' SN). }
    split; [|split; [|split; [|split; [|split]]]]; auto.
    - intros b. pose proof (W b) as Wb. pose proof (cnt_put h a (Some (1, Nd d kids)) b L) as Cp.
      fold h' in Cp. rewrite G in Cp. cbn [out_ptrs] in Cp.
      unfold h'. rewrite get_put by auto. fold h'.
      cbn [app nd_kids] in *. rewrite !cnt_app, ?cnt_cons, ?cnt_nil in *. rewrite ?cnt_app in *.
      destruct (Nat.eq_dec a b) as [<-|Hn].
      + rewrite G in Wb. lia.
      + destruct (get h b) as [[c m]|]; lia.
    - intros b c n Gb. unfold h' in Gb. rewrite get_put in Gb by auto. destruct (Nat.eq_dec a b) as [<-|Hn]; eauto.
      destruct (A b c n Gb) as [t Ht]. exists t. now apply (den_same h h' SN).
    - unfold h'. apply cells_put.
  Qed.

  (** An in-place update as a whole: take, work, give. *)
  Lemma take_give_frame (h h1 h2 : heap) a n' O :
    get h a <> None \/ length (cells h) <= a -> frame O h h1 -> get h1 a = None -> a < length (cells h1) ->
    frame O h1 h2 -> frame O h (give h2 a n').
  Proof.
    intros G (A1 & B1 & C1) G1 L1 (A2 & B2 & C2).
    assert (L2 : a < length (cells h2)) by lia.
    split; [|split].
    - intros q t Hq D. apply A1 in D; auto. apply A2 in D; auto.
      assert (SN : same_nodes h2 (give h2 a n')).
      { intros b cb nb Gb. exists cb. unfold give. rewrite get_put by auto. destruct (Nat.eq_dec a b) as [<-|]; auto.
        rewrite (B2 a G1 L1) in Gb. discriminate. }
      now apply (den_same _ _ SN).
    - intros b Gb Lb. unfold give. rewrite get_put by auto. destruct (Nat.eq_dec a b) as [<-|Hn]; [destruct G; [contradiction|lia]|].
      apply B2; [|lia]. now apply B1.
    - unfold give. rewrite cells_put. lia.
  Qed.

  Lemma dec_ok (h : heap) a c n O : wf h (a :: O) -> acyclic h -> get h a = Some (c, n) -> c <> 1 ->
    exists h', dec h a = Ok h' /\ wf h' O /\ acyclic h' /\ same_nodes h h' /\ same_nodes h' h
      /\ length (cells h') = length (cells h) /\ clones h' = clones h
      /\ (forall b, a <> b -> get h' b = get h b).
  Proof.
    intros W A G Hc. pose proof (W a) as Wa. rewrite G in Wa.
    destruct c as [|[|c]]; [lia|lia|]. unfold dec. rewrite G.
    exists (put h a (Some (S c, n))). pose proof (get_lt h a _ G) as L.
    assert (S1 : same_nodes h (put h a (Some (S c, n)))).
    { intros b c' n' G'. rewrite get_put by auto. destruct (Nat.eq_dec a b) as [<-|Hn]; eauto.
      rewrite G in G'. injection G' as <- <-. eauto. }
    assert (S2 : same_nodes (put h a (Some (S c, n))) h).
    { intros b c' n' G'. rewrite get_put in G' by auto. destruct (Nat.eq_dec a b) as [<-|Hn]; eauto.
      injection G' as <- <-. eauto. }
    split; auto. split; [|split; [|repeat split; auto]].
    - intros b. pose proof (W b) as Wb. pose proof (cnt_put h a (Some (S c, n)) b L) as Cp.
      rewrite G in Cp. cbn [out_ptrs] in Cp. rewrite get_put by auto.
      cbn [app] in *. rewrite !cnt_app, ?cnt_cons in *. rewrite ?cnt_app in *.
      destruct (Nat.eq_dec a b) as [<-|Hn].
      + rewrite G in Wb. destruct (Nat.eq_dec a a); [lia|congruence].
      + destruct (get h b) as [[c' n']|]; lia.
    - intros b c' n' G'. destruct (S2 b c' n' G') as [c'' G'']. destruct (A b c'' n' G'') as [t Ht].
      exists t. now apply (den_same _ _ S1).
    - apply cells_put.
    - intros b Hb. now apply get_put_other.
  Qed.

  Lemma same_frame2 O (h h' : heap) : same_nodes h h' -> same_nodes h' h ->
    length (cells h') = length (cells h) -> frame O h h'.
  Proof.
    intros S1 S2 L. apply same_frame; auto; [|lia].
    intros a G _. destruct (get h' a) as [[c n]|] eqn:E; auto.
    destruct (S2 a c n E) as [c' G']. congruence.
  Qed.

  Lemma log_ok (h : heap) d O : wf h O -> acyclic h ->
    wf (log h d) O /\ acyclic (log h d) /\ same_nodes h (log h d) /\ same_nodes (log h d) h
    /\ length (cells (log h d)) = length (cells h) /\ ptrs (log h d) = ptrs h.
  Proof.
    intros W A. assert (S1 : same_nodes h (log h d)) by (intros b c n G; eauto).
    split; [exact W|]. split; [|repeat split; auto].
    - intros b c n G. destruct (A b c n G) as [t Ht]. exists t. now apply (den_same h _ S1).
  Qed.

  (** [make_mut] *)
  Lemma make_mut_ok bomb (h : heap) a c d kids ts O :
    wf h (a :: O) -> acyclic h -> get h a = Some (c, Nd d kids) -> dens h kids ts ->
    exists h' r, make_mut bomb h a = Ok (h', r)
      /\ frame O h h' /\ acyclic h' /\
      match r with
      | Some a' => wf h' (a' :: O) /\ get h' a' = Some (1, Nd d kids) /\ dens h' kids ts
                   /\ if c =? 1 then h' = h /\ a' = a
                      else clones h' = d :: clones h /\ length (cells h') = S (length (cells h))
                           /\ bomb (length (clones h)) = false
                           /\ same_nodes h h' /\ a' = length (cells h)
      | None => c <> 1 /\ bomb (length (clones h)) = true
                /\ wf h' (a :: O) /\ den h' (Some a) (VT d ts) /\ clones h' = d :: clones h
                /\ cells h' = cells h
      end.
  Proof.
    intros W A G D. unfold make_mut. rewrite G.
    assert (Hc : 1 <= c). { pose proof (W a) as Wa. rewrite G in Wa. lia. }
    destruct (Nat.eqb_spec c 1) as [->|Hn].
    { exists h, (Some a). repeat (split; auto using frame_refl). }
    destruct (log_ok h d (a :: O) W A) as (W0 & A0 & S0 & S0' & L0 & P0).
    destruct (bomb (length (clones h))) eqn:Eb.
    { exists (log h d), None. split.
      { destruct c as [|[|c]]; auto; lia. }
      split. { apply same_frame2; auto. }
      split; auto. repeat (split; auto).
      apply (den_same h (log h d) S0). change d with (nd_data (Nd d kids)). econstructor; eauto. }
    destruct (incs_ok kids (log h d) (a :: O) W0 A0) as (h1 & E1 & W1 & A1 & S1 & S1' & P1 & L1 & C1).
    { intros x Hx. apply in_or_app. right. rewrite P0. eapply ptrs_in; eauto. }
    cbn [nd_data nd_kids].
    assert (D1 : dens h1 kids ts) by (apply (den_same _ _ S1), (den_same _ _ S0); exact D).
    destruct (alloc h1 (Nd d kids)) as [h2 a'] eqn:E2.
    destruct (alloc_ok h1 d kids ts (a :: O) W1 A1 D1 h2 a' E2)
      as (W2 & A2 & D2 & G2 & F2 & S2 & L2 & C2 & Ea & Gn).
    destruct (S0 a c _ G) as [c1 G0]. destruct (S1 a c1 _ G0) as [c2 G1].
    assert (Na : a <> a'). { intros ->. congruence. }
    destruct (S2 a c2 _ G1) as [c3 G3].
    assert (W2' : wf h2 (a :: a' :: O)).
    { eapply wf_equiv; [|exact W2]. intros b. rewrite !cnt_cons. lia. }
    assert (Hc3 : c3 <> 1).
    { (* the count of [a] is that in [h], and at least 2 *)
      pose proof (W2' a) as Wa2. rewrite G3 in Wa2.
      pose proof (W a) as Wa. rewrite G in Wa.
      pose proof (ptrs_alloc h1 (Nd d kids)) as Pa. rewrite E2 in Pa. cbn [fst nd_kids] in Pa.
      rewrite Pa, P1, P0 in Wa2. cbn [app] in *.
      rewrite !cnt_cons, !cnt_app in *. lia. }
    destruct (dec_ok h2 a c3 _ (a' :: O) W2' A2 G3 Hc3) as (h3 & E3 & W3 & A3 & S3 & S3' & L3 & C3 & O3).
    exists h3, (Some a'). split.
    { destruct c as [|[|c]]; [lia|lia|]. rewrite E1. cbn [bind]. rewrite E2, E3. reflexivity. }
    assert (Dk : dens h2 kids ts) by (apply (den_same _ _ S2); exact D1).
    split.
    { eapply frame_trans; [apply (same_frame2 O h (log h d)); auto|].
      eapply frame_trans; [apply (same_frame2 O (log h d) h1); auto|].
      eapply frame_trans; [|apply (same_frame2 O h2 h3); auto].
      eapply frame_incl; [|exact F2]. intros x Hx. apply in_or_app. right. right. exact Hx. }
    split; auto. split; auto. split; [rewrite O3 by auto; exact G2|].
    split; [apply (den_same _ _ S3); exact Dk|].
    split; [|split; [|split; [|split]]]; auto.
    - rewrite C3, C2, C1. reflexivity.
    - rewrite L3, L2, L1, L0. reflexivity.
    - eauto using same_nodes_trans.
    - congruence.
  Qed.

  (** Dropping pointers. *)
  Lemma slots_upd (l : list (option (nat * node))) a c c0 :
    nth_error l a = Some c0 ->
    fold_right (fun c s => kid_slots c + s) 0 (upd a c l) + kid_slots c0
    = fold_right (fun c s => kid_slots c + s) 0 l + kid_slots c.
  Proof.
    revert a. induction l as [|y l IH]; intros [|a] H; cbn in H; try discriminate.
    - injection H as ->. cbn. lia.
    - cbn. specialize (IH a H). lia.
  Qed.
  Lemma slots_put (h : heap) a c c0 : get h a = Some c0 ->
    slots (put h a c) + kid_slots (Some c0) = slots h + kid_slots c.
  Proof.
    intros G. unfold slots, put. cbn [cells].
    apply (slots_upd (cells h) a c (Some c0)). unfold get in G.
    destruct (nth_error (cells h) a) as [[o|]|]; congruence.
  Qed.

  Lemma drops_fuel_ok fuel : forall (h : heap) ps O, wf h (olists ps ++ O) -> acyclic h ->
    length ps + slots h < fuel ->
    exists h', drops_fuel fuel h ps = Ok h' /\ wf h' O /\ acyclic h' /\ frame O h h'
      /\ clones h' = clones h /\ length (cells h') = length (cells h).
  Proof.
    induction fuel as [|fuel IH]; intros h ps O W A Hf; [lia|].
    destruct ps as [|[a|] ps]; cbn [drops_fuel].
    - exists h. repeat (split; auto using frame_refl).
    - cbn [olists flat_map olist app] in W. fold (olists ps) in W.
      destruct (live_of_wf h _ a W) as (c & n & G & Hc). { cbn. auto. }
      rewrite G. destruct c as [|[|c]]; [lia| |].
      + destruct (free_ok h a n _ W A G) as (W1 & A1 & F1 & _ & _).
        pose proof (slots_put h a None _ G) as Sp. cbn [kid_slots] in Sp.
        destruct (IH (put h a None) (nd_kids n ++ ps) O) as (h' & E & W' & A' & F' & C' & L').
        * eapply wf_equiv; [|exact W1]. intros b. unfold olists. rewrite flat_map_app, !cnt_app. lia.
        * exact A1.
        * rewrite app_length. cbn [length] in Hf. lia.
        * exists h'. rewrite E. split; [auto|split; [auto|split; [auto|split; [|split; [auto|]]]]].
          -- eapply frame_trans; [|exact F']. eapply frame_incl; [|exact F1]. intros x Hx. apply in_or_app. auto.
          -- rewrite L', cells_put. auto.
      + destruct (dec_ok h a (S (S c)) n _ W A G ltac:(lia)) as (h1 & E1 & W1 & A1 & S1 & S1' & L1 & C1 & O1).
        unfold dec in E1. rewrite G in E1. injection E1 as E1. rewrite E1.
        pose proof (slots_put h a (Some (S c, n)) _ G) as Sp. cbn [kid_slots] in Sp. rewrite E1 in Sp.
        destruct (IH h1 ps O) as (h' & E & W' & A' & F' & C' & L'); auto.
        * cbn [length] in Hf. lia.
        * exists h'. rewrite E. split; [auto|split; [auto|split; [auto|split; [|split; congruence]]]].
          eapply frame_trans; [|exact F']. now apply same_frame2.
    - cbn [length] in Hf. destruct (IH h ps O) as (h' & E & R); auto. lia. exists h'. auto.
  Qed.
  Lemma drops_ok (h : heap) ps O : wf h (olists ps ++ O) -> acyclic h ->
    exists h', drops h ps = Ok h' /\ wf h' O /\ acyclic h' /\ frame O h h'
      /\ clones h' = clones h /\ length (cells h') = length (cells h).
  Proof. intros W A. apply drops_fuel_ok; auto. Qed.
  Lemma drop_ok (h : heap) p O : wf h (olist p ++ O) -> acyclic h ->
    exists h', drop h p = Ok h' /\ wf h' O /\ acyclic h' /\ frame O h h'
      /\ clones h' = clones h /\ length (cells h') = length (cells h).
  Proof.
    intros W A. apply drops_ok; auto. cbn. now rewrite app_nil_r.
  Qed.

  (** ** Nothing leaks: with no pointer held outside, no cell is live. *)
  Fixpoint vsize (t : vt) : nat :=
    match t with
    | VN => 0
    | VT _ ks => S ((fix go (l : list vt) := match l with [] => 0 | k :: l' => vsize k + go l' end) ks)
    end.
  Lemma vsize_kid (h : heap) ps ts k t : dens h ps ts -> In (Some k) ps -> den h (Some k) t ->
    vsize t <= (fix go (l : list vt) := match l with [] => 0 | k :: l' => vsize k + go l' end) ts.
  Proof.
    revert ts. induction ps as [|p ps IH]; intros ts H Hi D; [destruct Hi|].
    inversion H as [|? ? t0 ts0 D0 D1]; subst. destruct Hi as [->|Hi].
    - destruct (den_det h) as [Dd _]. rewrite (Dd _ _ D _ D0). lia.
    - specialize (IH ts0 D1 Hi D). lia.
  Qed.
  Lemma in_olists k ps : In k (olists ps) -> In (Some k) ps.
  Proof.
    unfold olists. intros H. apply in_flat_map in H as ([a|] & Hp & Hk); cbn in Hk; [|contradiction].
    destruct Hk as [->|[]]. exact Hp.
  Qed.

  Lemma no_leak (h : heap) : wf h [] -> acyclic h -> forall a, get h a = None.
  Proof.
    intros W A.
    assert (G : forall m a c n t, get h a = Some (c, n) -> den h (Some a) t -> m <= vsize t ->
              exists b c' n' t', get h b = Some (c', n') /\ den h (Some b) t' /\ S m <= vsize t').
    { intros m a c n t G D Hm. pose proof (W a) as Wa. rewrite G in Wa. cbn [app] in Wa.
      assert (Hi : In a (ptrs h)) by (apply cnt_in; lia).
      apply in_ptrs in Hi as (b & c' & n' & Gb & Hk).
      destruct (A b c' n' Gb) as [t' Dt]. exists b, c', n', t'. split; auto. split; auto.
      inversion Dt as [|? c'' n'' ts G'' Dk]; subst. rewrite Gb in G''. injection G'' as <- <-.
      cbn [vsize]. apply in_olists in Hk. pose proof (vsize_kid h _ _ a t Dk Hk D). lia. }
    assert (Gm : forall m a c n, get h a = Some (c, n) -> exists b c' n' t', get h b = Some (c', n') /\ den h (Some b) t' /\ m <= vsize t').
    { induction m as [|m IHm]; intros a c n Ga.
      - destruct (A a c n Ga) as [t Dt]. exists a, c, n, t. repeat split; auto. lia.
      - destruct (IHm a c n Ga) as (b & c' & n' & t' & Gb & Db & Hb). eapply G; eauto. }
    (* sizes are bounded: take the largest over the finitely many cells *)
    assert (B : exists M, forall a c n t, get h a = Some (c, n) -> den h (Some a) t -> vsize t <= M).
    { assert (Bk : forall k, exists M, forall a c n t, a < k -> get h a = Some (c, n) -> den h (Some a) t -> vsize t <= M).
      { induction k as [|k [M IHk]]. { exists 0. intros; lia. }
        destruct (get h k) as [[c n]|] eqn:Ek.
        - destruct (A k c n Ek) as [t Dt]. exists (Nat.max M (vsize t)). intros a c' n' t' La Ga Da.
          destruct (Nat.eq_dec a k) as [->|].
          + destruct (den_det h) as [Dd _]. rewrite (Dd _ _ Da _ Dt). lia.
          + specialize (IHk a c' n' t' ltac:(lia) Ga Da). lia.
        - exists M. intros a c' n' t' La Ga Da. destruct (Nat.eq_dec a k) as [->|]; [congruence|].
          eapply IHk; eauto. lia. }
      destruct (Bk (length (cells h))) as [M HM]. exists M. intros a c n t Ga Da.
      eapply HM; eauto. eapply get_lt; eauto. }
    intros a. destruct (get h a) as [[c n]|] eqn:Ea; auto. exfalso.
    destruct B as [M HM]. destruct (Gm (S M) a c n Ea) as (b & c' & n' & t' & Gb & Db & Hb).
    specialize (HM b c' n' t' Gb Db). lia.
  Qed.

  Lemma empty_ok : wf (@empty_heap P) [] /\ acyclic (@empty_heap P).
  Proof.
    split.
    - intros a. unfold get. cbn. destruct a; reflexivity.
    - intros a c n. unfold get. cbn. destruct a; discriminate.
  Qed.
End HeapProofs.
