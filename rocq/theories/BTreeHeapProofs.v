(** Opening and closing the cells of shared B-trees. *)
From Coq Require Import List PeanoNat Bool Lia Permutation.
From Verif Require Import Base Vec Heap HeapProofs BTreeModel BTreeProofs BTreeHeapModel BTreeHeapSpec.
From Verif Require AvlHeapProofs.
Import ListNotations.
Local Open Scope nat_scope.

Notation sub_refl := AvlHeapProofs.sub_refl.
Notation sub_nil_l := AvlHeapProofs.sub_nil_l.
Notation sub_app := AvlHeapProofs.sub_app.
Notation sub_app_l := AvlHeapProofs.sub_app_l.
Notation sub_app_r := AvlHeapProofs.sub_app_r.

Lemma sub_trans {A} (a b c : list A) : sub a b -> sub b c -> sub a c.
Proof.
  intros H1 H2. revert a H1. induction H2; intros a0 H1; auto.
  - apply AvlHeapSpec.sub_skip. auto.
  - inversion H1; subst; [apply AvlHeapSpec.sub_skip|apply AvlHeapSpec.sub_keep]; auto.
Qed.

Section Sess.
  Context {K V : Type}.
  Variable bomb : nat -> bool.
  Notation pay := (list (K * V)).
  Notation heap := (heap pay).
  Notation bt := (bt K V).

  Definition ns (h : heap) (a : addr) (t : bt) : Prop := den h (Some a) (tv t).

  Definition keep (O : list addr) (h h' : heap) : Prop := forall a t, In a O -> ns h a t -> ns h' a t.

  Lemma olists_some (ks : list addr) : olists (map Some ks) = ks.
  Proof. induction ks as [|k ks IH]; cbn; [auto|]. unfold olists in IH. now rewrite IH. Qed.
  Lemma dens_ns (h : heap) ks ts : dens h (map Some ks) (map tv ts) <-> Forall2 (ns h) ks ts.
  Proof.
    split.
    - revert ts. induction ks as [|k ks IH]; intros [|t ts] H; inversion H; subst; constructor; auto.
    - induction 1; cbn; constructor; auto.
  Qed.
  Lemma dens_some (h : heap) ps ts : dens h ps (map tv ts) -> exists ks, ps = map Some ks /\ Forall2 (ns h) ks ts.
  Proof.
    revert ps. induction ts as [|[es us] ts IH]; intros ps H; inversion H as [|p ? ? ? D D1]; subst.
    - exists []. auto.
    - destruct (IH _ D1) as (ks & -> & F). inversion D; subst. eexists (_ :: ks). split; [reflexivity|].
      constructor; auto.
  Qed.
  Lemma ns_inv (h : heap) a es ts : ns h a (BN es ts) ->
    exists c ks, get h a = Some (c, Nd es (map Some ks)) /\ Forall2 (ns h) ks ts.
  Proof.
    intros D. inversion D as [|? c [d' ps] ? G Ds]; subst. cbn in *.
    destruct (dens_some _ _ _ Ds) as (ks & -> & F). eauto.
  Qed.
  Lemma ns_intro (h : heap) a c es ks ts : get h a = Some (c, Nd es (map Some ks)) -> Forall2 (ns h) ks ts ->
    ns h a (BN es ts).
  Proof. intros G F. apply (den_node h a c (Nd es (map Some ks))); auto. now apply dens_ns. Qed.
  Lemma tv_inj : forall t t' : bt, tv t = tv t' -> t = t'.
  Proof.
    fix IH 1. intros [es ks] [es' ks'] H. injection H as -> H. f_equal. revert ks' H.
    induction ks as [|k ks IHk]; intros [|k' ks'] H; try discriminate; auto.
    injection H as H1 H2. f_equal; auto.
  Qed.
  Lemma ns_det (h : heap) a t t' : ns h a t -> ns h a t' -> t = t'.
  Proof. intros D1 D2. apply tv_inj. destruct (den_det h) as [E _]. eapply E; eauto. Qed.
  Lemma nss_det (h : heap) ks ts ts' : Forall2 (ns h) ks ts -> Forall2 (ns h) ks ts' -> ts = ts'.
  Proof.
    intros F. revert ts'. induction F; intros ts' F'; inversion F'; subst; auto. f_equal; eauto using ns_det.
  Qed.
  Lemma f2_length {A B} (R : A -> B -> Prop) l m : Forall2 R l m -> length l = length m.
  Proof. induction 1; cbn; auto. Qed.
  Lemma f2_nth {A B} (R : A -> B -> Prop) l m i : Forall2 R l m ->
    match nth_error l i, nth_error m i with
    | Some a, Some b => R a b
    | None, None => True
    | _, _ => False
    end.
  Proof. intros F. revert i. induction F; intros [|i]; cbn; auto. apply IHF. Qed.
  Lemma keep_f2 O (h h' : heap) ks ts : keep O h h' -> incl ks O -> Forall2 (ns h) ks ts -> Forall2 (ns h') ks ts.
  Proof.
    intros Kp I F. induction F as [|k t ks ts D F IH]; constructor.
    - apply Kp; auto. apply I. now left.
    - apply IH. intros x Hx. apply I. now right.
  Qed.

  (** In the middle of a call that started with [h0]: [R] are the opened cells, [X] the pointers
      held by the call, [O] those held by others. *)
  Record sess (h0 h : heap) (R X O : list addr) : Prop := Sess {
    s_wf : wf h (X ++ O);
    s_ac : acyclic h;
    s_fr : frame O h0 h;
    s_nd : NoDup R;
    s_rs : forall a, In a R -> get h a = None /\ a < length (cells h)
                               /\ (get h0 a <> None \/ length (cells h0) <= a)
  }.

  Lemma sess_start (h : heap) X O : sound h (X ++ O) -> sess h h [] X O.
  Proof. intros [W A]. split; auto using frame_refl, NoDup_nil. intros a []. Qed.
  Lemma sess_end (h0 h : heap) R X O : sess h0 h R X O -> sound h (X ++ O) /\ frame O h0 h.
  Proof. intros []. split; auto. split; auto. Qed.
  Lemma sess_perm (h0 h : heap) R X X' O : (forall a, cnt a X = cnt a X') -> sess h0 h R X O -> sess h0 h R X' O.
  Proof.
    intros E []. split; auto. eapply wf_equiv; [|exact s_wf0]. intros a. now rewrite !cnt_app, E.
  Qed.
  Lemma keep_incl O O' (h h' : heap) : incl O' O -> keep O h h' -> keep O' h h'.
  Proof. intros I Kp q t Hq. apply Kp. auto. Qed.
  Lemma keep_refl O (h : heap) : keep O h h.
  Proof. intros q t Hq D. auto. Qed.
  Lemma keep_trans O (h h1 h2 : heap) : keep O h h1 -> keep O h1 h2 -> keep O h h2.
  Proof. intros K1 K2 q t Hq D. auto. Qed.
  Lemma keep_same O (h h' : heap) : same_nodes h h' -> keep O h h'.
  Proof. intros S q t _. now apply den_same. Qed.
  Lemma frame_keep O (h h' : heap) : frame O h h' -> keep O h h'.
  Proof. intros (F & _) a t Ha. apply F. intros x [<-|[]]. exact Ha. Qed.

  (** A step that is a call of something with its own frame. *)
  Lemma sess_call (h0 h h' : heap) R X1 X1' X2 O :
    sess h0 h R (X1 ++ X2) O -> sound h' (X1' ++ X2 ++ O) -> frame (X2 ++ O) h h' ->
    sess h0 h' R (X1' ++ X2) O /\ keep (X2 ++ O) h h'.
  Proof.
    intros [] [W A] F. split; [|now apply frame_keep]. split; auto.
    - now rewrite <- app_assoc.
    - eapply frame_trans; eauto. eapply frame_incl; [|exact F]. intros x Hx. apply in_or_app. auto.
    - intros a Ha. destruct (s_rs0 a Ha) as (G & L & Z). destruct F as (_ & F2 & F3).
      split; [apply F2; auto|]. split; [lia|auto].
  Qed.
  Lemma sess_sub (h0 h : heap) R X1 X2 O : sess h0 h R (X1 ++ X2) O -> sound h (X1 ++ X2 ++ O).
  Proof. intros []. split; auto. now rewrite app_assoc. Qed.

  Lemma unique_alone (h : heap) a n X O : wf h (a :: X ++ O) -> get h a = Some (1, n) ->
    ~ In a (X ++ O ++ ptrs h).
  Proof.
    intros W G I. pose proof (W a) as Wa. rewrite G in Wa. apply cnt_in in I.
    rewrite !cnt_app in I. cbn [app] in Wa. rewrite cnt_cons, !cnt_app in Wa.
    destruct (Nat.eq_dec a a); [lia|congruence].
  Qed.
  Lemma unique_get (h : heap) a : unique h a = true <-> exists n, get h a = Some (1, n).
  Proof.
    unfold unique. split.
    - destruct (get h a) as [[[|[|c]] n]|]; try discriminate. eauto.
    - intros [n ->]. auto.
  Qed.

  (** Opening creates no new pointer. *)
  Lemma incs_back ps : forall (h h' : heap) x c n, incs h ps = Ok h' -> get h' x = Some (c, n) ->
    exists c', get h x = Some (c', n).
  Proof.
    induction ps as [|[p|] ps IH]; intros h h' x c n E G; cbn [incs inc] in E.
    - injection E as <-. eauto.
    - destruct (get h p) as [[cp np]|] eqn:Gp; [|discriminate]. cbn [bind] in E.
      destruct (IH _ _ _ _ _ E G) as (c' & G'). rewrite get_put in G' by (eapply get_lt; eauto).
      destruct (Nat.eq_dec p x) as [<-|]; [|eauto]. injection G' as _ <-. eauto.
    - cbn [bind] in E. eauto.
  Qed.
  Lemma opn_back (h h1 : heap) a r x c n : opn bomb h a = Ok (h1, Done r) -> get h1 x = Some (c, n) ->
    exists c', get h x = Some (c', n).
  Proof.
    unfold opn, make_mut. destruct (get h a) as [[ca na]|] eqn:Ga; [|discriminate].
    assert (D : forall h h1 a n' y, take h a = Ok (h1, n') -> get h1 y = Some (c, n) -> exists c', get h y = Some (c', n) /\ y <> a).
    { intros g g1 b n' y E G. unfold take in E. destruct (get g b) as [[[|[|cb]] nb]|] eqn:Gb; try discriminate.
      injection E as <- <-. rewrite get_put in G by (eapply get_lt; eauto). destruct (Nat.eq_dec b y); [discriminate|]. eauto. }
    destruct ca as [|[|ca]].
    - destruct (bomb _); [discriminate|]. intros E G.
      destruct (incs _ _) as [h2|] eqn:E2; [|discriminate]. cbn [bind] in E.
      destruct (alloc h2 na) as [h3 a'] eqn:E3. unfold dec in E.
      destruct (get h3 a) as [[[|[|c3]] n3]|] eqn:G3; cbn [bind] in E; try discriminate.
      destruct (take _ a') as [[h4 n4]|] eqn:E4; [|discriminate]. cbn [bind] in E. injection E as <- <-.
      destruct (D _ _ _ _ _ E4 G) as (c' & G' & Hx). rewrite get_put in G' by (eapply get_lt; eauto).
      assert (G3' : exists c'', get h3 x = Some (c'', n)).
      { destruct (Nat.eq_dec a x) as [<-|]; [injection G' as <- <-; eauto|eauto]. }
      destruct G3' as (c'' & G3'). replace h3 with (fst (alloc h2 na)) in G3' by now rewrite E3.
      rewrite get_alloc in G3'. injection E3 as _ E3. destruct (Nat.eq_dec (length (cells h2)) x); [congruence|].
      destruct (incs_back _ _ _ _ _ _ E2 G3') as (c5 & G5). rewrite get_log in G5. eauto.
    - cbn [bind]. intros E G. destruct (take h a) as [[h2 n2]|] eqn:E2; [|discriminate]. cbn [bind] in E.
      injection E as <- <-. destruct (D _ _ _ _ _ E2 G) as (c' & G' & _). eauto.
    - destruct (bomb _); [discriminate|]. intros E G.
      destruct (incs _ _) as [h2|] eqn:E2; [|discriminate]. cbn [bind] in E.
      destruct (alloc h2 na) as [h3 a'] eqn:E3. unfold dec in E.
      destruct (get h3 a) as [[[|[|c3]] n3]|] eqn:G3; cbn [bind] in E; try discriminate.
      destruct (take _ a') as [[h4 n4]|] eqn:E4; [|discriminate]. cbn [bind] in E. injection E as <- <-.
      destruct (D _ _ _ _ _ E4 G) as (c' & G' & Hx). rewrite get_put in G' by (eapply get_lt; eauto).
      assert (G3' : exists c'', get h3 x = Some (c'', n)).
      { destruct (Nat.eq_dec a x) as [<-|]; [injection G' as <- <-; eauto|eauto]. }
      destruct G3' as (c'' & G3'). replace h3 with (fst (alloc h2 na)) in G3' by now rewrite E3.
      rewrite get_alloc in G3'. injection E3 as _ E3. destruct (Nat.eq_dec (length (cells h2)) x); [congruence|].
      destruct (incs_back _ _ _ _ _ _ E2 G3') as (c5 & G5). rewrite get_log in G5. eauto.
  Qed.
  (** A uniquely owned cell that the call holds stays so when another is opened. *)
  Lemma unique_stays (h h1 : heap) a a' es ks X O b : wf h (a :: X ++ O) ->
    opn bomb h a = Ok (h1, Done (a', es, ks)) -> wf h1 (ks ++ X ++ O) ->
    (forall x, In x ks -> In x (ptrs h)) ->
    In b X -> unique h b = true -> unique h1 b = true.
  Proof.
    intros W E W1 Hk Hb U. apply unique_get in U as [n G].
    pose proof (W b) as Wb. rewrite G in Wb. cbn [app] in Wb. rewrite cnt_cons, !cnt_app in Wb.
    assert (1 <= cnt b X) by now apply cnt_in. destruct Wb as [Wb _].
    assert (Zp : cnt b (ptrs h) = 0) by lia. assert (Zk : cnt b ks = 0).
    { apply cnt_notin. intros I. apply Hk in I. apply cnt_notin in Zp. auto. }
    assert (Z1 : cnt b (ptrs h1) = 0).
    { apply cnt_notin. intros I. apply in_ptrs in I as (x & c & m & Gx & Ix).
      destruct (opn_back _ _ _ _ _ _ _ E Gx) as (c' & Gx'). apply cnt_notin in Zp. apply Zp.
      eapply ptrs_in; eauto. }
    pose proof (W1 b) as W1b. rewrite !cnt_app, Zk, Z1 in W1b. apply unique_get.
    destruct (get h1 b) as [[c m]|] eqn:G1; [|lia]. exists m. destruct W1b as [-> _]. f_equal. f_equal. lia.
  Qed.

  Lemma sess_open (h0 h : heap) R a X O es ts :
    sess h0 h R (a :: X) O -> ns h a (BN es ts) ->
    exists h1 r, opn bomb h a = Ok (h1, r) /\
      match r with
      | Unwound => sess h0 h1 R (a :: X) O /\ keep (a :: X ++ O) h h1
                   /\ clones h1 = es :: clones h /\ cells h1 = cells h
                   /\ bomb (length (clones h)) = true /\ unique h a = false
      | Done (a', es', ks) =>
        es' = es /\ sess h0 h1 (a' :: R) (ks ++ X) O
        /\ Forall2 (ns h1) ks ts /\ keep (X ++ O) h h1
        /\ (forall b, In b X -> unique h b = true -> unique h1 b = true)
        /\ exists cs, clones h1 = cs ++ clones h /\ sub cs [es] /\ (unique h a = true -> cs = [])
      end.
  Proof.
    intros S D. destruct (ns_inv _ _ _ _ D) as (c & ks & G & Fk).
    pose proof (proj2 (dens_ns _ _ _) Fk) as Dk. destruct S as [W A F N Rs].
    destruct (make_mut_ok bomb h a c es (map Some ks) (map tv ts) (X ++ O) W A G Dk) as (h1 & r1 & E & F1 & A1 & P).
    assert (Eo : opn bomb h a = match r1 with
       | None => Ok (h1, Unwound)
       | Some a' => '(h2, n) <- take h1 a';; Ok (h2, Done (a', nd_data n, olists (nd_kids n))) end).
    { unfold opn. now rewrite E. }
    assert (Fo : frame O h h1). { eapply frame_incl; [|exact F1]. intros x Hx. apply in_or_app. auto. }
    destruct r1 as [a1|].
    - destruct P as (W1 & G1 & D1 & P).
      destruct (take_ok h1 a1 _ (X ++ O) W1 A1 G1) as (h2 & E2 & W2 & A2 & F2 & Dk2 & G2 & L2 & Lc & C2).
      rewrite E2 in Eo. cbn [bind nd_kids nd_data] in Eo. rewrite olists_some in Eo.
      eexists _, _. split; [exact Eo|].
      split; auto. cbn [nd_kids] in W2, Dk2. rewrite olists_some in W2.
      specialize (Dk2 _ D1). apply dens_ns in Dk2.
      assert (Na1 : ~ In a1 R).
      { intros Hi. destruct (Rs a1 Hi) as (Gd & Ld & _). destruct (c =? 1).
        - destruct P as [-> ->]. congruence.
        - destruct P as (_ & Lh & _ & _ & ->). lia. }
      split; [|split; [exact Dk2|split; [|split]]].
      + split; auto.
        * now rewrite <- app_assoc.
        * eapply frame_trans; [exact F|]. eapply frame_trans; [exact Fo|].
          eapply frame_incl; [|exact F2]. intros x Hx. apply in_or_app. auto.
        * constructor; auto.
        * intros b [<-|Hb].
          -- split; auto. split; auto. destruct (c =? 1).
             ++ destruct P as [-> ->]. destruct F as (_ & Fd & Fl).
                destruct (get h0 a) eqn:Ga; [left; congruence|].
                destruct (Nat.lt_ge_cases a (length (cells h0))) as [Hlt|Hge]; [|auto].
                rewrite (Fd a Ga Hlt) in G. discriminate.
             ++ destruct P as (_ & Lh & _ & _ & ->). right. destruct F as (_ & _ & Fl). lia.
          -- destruct (Rs b Hb) as (Gb & Lb & Zb). destruct F1 as (_ & Fd1 & Fl1). destruct F2 as (_ & Fd2 & Fl2).
             split; [apply Fd2; [apply Fd1; auto|lia]|]. split; [lia|auto].
      + eapply keep_trans; apply frame_keep; eauto.
      + intros b Hb U. eapply (unique_stays h h2 a); eauto.
        intros x Hx. eapply ptrs_in; [exact G|]. cbn [nd_kids]. now rewrite olists_some.
      + unfold unique. rewrite G. destruct (Nat.eqb_spec c 1) as [->|Hc].
        * destruct P as [-> ->]. exists []. split; auto. split; [apply sub_nil_l|]. auto.
        * destruct P as (Cl & _ & Bb & _ & _). exists [es]. split; [rewrite C2; auto|]. split; [apply sub_refl|].
          destruct c as [|[|c]]; congruence.
    - destruct P as (Hc & Bb & W1 & D1 & C1 & Cc).
      eexists _, _. split; [exact Eo|].
      split; [|split; [|split; [exact C1|split; [auto|split; auto]]]].
      3:{ unfold unique. rewrite G. destruct c as [|[|c]]; auto; congruence. }
      + split; auto.
        * eapply frame_trans; eauto.
        * intros b Hb. destruct (Rs b Hb) as (Gb & Lb & Zb). unfold get in *. rewrite Cc. auto.
      + apply keep_same. intros b cb nb Gb. exists cb. unfold get in *. now rewrite Cc.
  Qed.

  Lemma sess_close (h0 h : heap) R a ks X O es ts :
    sess h0 h (a :: R) (ks ++ X) O -> Forall2 (ns h) ks ts ->
    sess h0 (cls h a es ks) R (a :: X) O
    /\ ns (cls h a es ks) a (BN es ts)
    /\ (forall q t, ns h q t -> ns (cls h a es ks) q t)
    /\ unique (cls h a es ks) a = true
    /\ (forall b, b <> a -> get (cls h a es ks) b = get h b)
    /\ clones (cls h a es ks) = clones h.
  Proof.
    intros [W A F N Rs] Dk. destruct (Rs a (or_introl eq_refl)) as (G & L & Z).
    destruct (give_ok h a es (map Some ks) (map tv ts) (X ++ O)) as (W1 & A1 & D1 & G1 & S1 & L1); auto.
    { rewrite olists_some. rewrite <- !app_assoc in *; exact W. }
    { now apply dens_ns. }
    inversion N as [|? ? Na Nr]; subst.
    fold (cls h a es ks) in *. split; [|split; [exact D1|split; [|split; [|split]]]].
    - split; auto.
      + destruct F as (F1 & F2 & F3). split; [|split].
        * intros q t Hq D. apply (den_same _ _ S1). auto.
        * intros b Gb Lb. unfold cls, give. rewrite get_put by auto. destruct (Nat.eq_dec a b) as [<-|]; auto.
          destruct Z as [Z|Z]; [congruence|lia].
        * lia.
      + intros b Hb. destruct (Rs b (or_intror Hb)) as (Gb & Lb & Zb). split; [|split; [lia|auto]].
        unfold cls, give. rewrite get_put by auto. destruct (Nat.eq_dec a b) as [<-|]; auto. contradiction.
    - intros q t D. now apply (den_same _ _ S1).
    - unfold unique. now rewrite G1.
    - intros b Hb. unfold cls, give. apply get_put_other; auto.
    - reflexivity.
  Qed.

  (** [try_unwrap] or clone. *)
  Lemma sess_own (h0 h : heap) R a X O es ts :
    sess h0 h R (a :: X) O -> ns h a (BN es ts) ->
    exists h1 r, own bomb h a = Ok (h1, r) /\ keep (X ++ O) h h1 /\
      match r with
      | Unwound => sess h0 h1 R X O /\ clones h1 = es :: clones h /\ bomb (length (clones h)) = true
                   /\ unique h a = false
      | Done (es', ks) =>
        es' = es /\ sess h0 h1 R (ks ++ X) O /\ Forall2 (ns h1) ks ts
        /\ (forall b, In b X -> unique h b = true -> unique h1 b = true)
        /\ exists cs, clones h1 = cs ++ clones h /\ sub cs [es] /\ (unique h a = true -> cs = [])
      end.
  Proof.
    intros S D. pose proof S as [W A F N Rs]. destruct (ns_inv _ _ _ _ D) as (c & ks & G & Fk).
    assert (Uq : forall h1, (forall x c n, get h1 x = Some (c, n) -> exists c', get h x = Some (c', n)) ->
      wf h1 (ks ++ X ++ O) -> forall b, In b X -> unique h b = true -> unique h1 b = true).
    { intros h1 Bk W1 b Hb U. apply unique_get in U as [n Gb].
      pose proof (W b) as Wb. rewrite Gb in Wb. cbn [app] in Wb. rewrite cnt_cons, !cnt_app in Wb.
      assert (1 <= cnt b X) by now apply cnt_in. destruct Wb as [Wb _].
      assert (Zp : cnt b (ptrs h) = 0) by lia. assert (Zk : cnt b ks = 0).
      { apply cnt_notin. intros I. apply cnt_notin in Zp. apply Zp. eapply ptrs_in; [exact G|].
        cbn [nd_kids]. now rewrite olists_some. }
      assert (Z1 : cnt b (ptrs h1) = 0).
      { apply cnt_notin. intros I. apply in_ptrs in I as (x & cx & m & Gx & Ix).
        destruct (Bk _ _ _ Gx) as (c' & Gx'). apply cnt_notin in Zp. apply Zp.
        eapply ptrs_in; eauto. }
      pose proof (W1 b) as W1b. rewrite !cnt_app, Zk, Z1 in W1b. apply unique_get.
      destruct (get h1 b) as [[c1 m]|] eqn:G1; [|lia]. exists m. destruct W1b as [-> _]. f_equal. f_equal. lia. }
    destruct (Nat.eq_dec c 1) as [->|Hc].
    - destruct (take_ok h a _ (X ++ O) W A G) as (h2 & E2 & W2 & A2 & F2 & Dk2 & G2 & L2 & Lc & C2).
      cbn [nd_kids] in W2, Dk2. rewrite olists_some in W2.
      unfold own. rewrite G, E2. cbn [bind nd_kids nd_data]. rewrite olists_some.
      eexists _, _. split; [reflexivity|]. split; [now apply frame_keep|]. split; auto.
      destruct (sess_call h0 h h2 R [a] ks X O S) as [S1 K1].
      { split; auto. } { exact F2. }
      split; [exact S1|]. split; [apply dens_ns, Dk2, dens_ns; exact Fk|]. split.
      + apply (Uq h2); auto. intros x cx n Gx. unfold take in E2. rewrite G in E2. injection E2 as <-.
        rewrite get_put in Gx by (eapply get_lt; eauto). destruct (Nat.eq_dec a x); [discriminate|eauto].
      + exists []. split; [exact C2|]. split; [apply sub_nil_l|auto].
    - assert (Eo : own bomb h a = if bomb (length (clones h)) then h1 <- dec (log h es) a;; Ok (h1, Unwound)
          else h1 <- incs (log h es) (map Some ks);; h2 <- dec h1 a;; Ok (h2, Done (es, ks))).
      { unfold own. rewrite G. destruct c as [|[|c]]; [|congruence|]; cbn [nd_data nd_kids]; rewrite olists_some; auto. }
      assert (U : unique h a = false). { unfold unique. rewrite G. destruct c as [|[|c]]; auto; congruence. }
      destruct (log_ok h es (a :: X ++ O) W A) as (Wl & Al & Sl & Sl' & Ll & Pl).
      assert (Gl : get (log h es) a = Some (c, Nd es (map Some ks))) by now rewrite get_log.
      rewrite Eo. destruct (bomb (length (clones h))) eqn:Bb.
      + destruct (dec_ok (log h es) a c _ (X ++ O) Wl Al Gl Hc) as (h2 & E2 & W2 & A2 & S2 & S2' & L2 & C2 & _).
        rewrite E2. cbn [bind]. eexists _, _. split; [reflexivity|].
        assert (Fr : frame (X ++ O) h h2).
        { apply same_frame2; [exact (same_nodes_trans _ _ _ Sl S2)|exact (same_nodes_trans _ _ _ S2' Sl')|lia]. }
        split; [now apply frame_keep|]. destruct (sess_call h0 h h2 R [a] [] X O S) as [S1 K1]; auto.
        { split; auto. }
      + destruct (incs_ok (map Some ks) (log h es) (a :: X ++ O) Wl Al) as (h1 & E1 & W1 & A1 & S1 & S1' & P1 & L1 & C1).
        { rewrite olists_some, Pl. intros x Hx. apply in_or_app. right. eapply ptrs_in; [exact G|].
          cbn [nd_kids]. now rewrite olists_some. }
        rewrite olists_some in W1. rewrite E1. cbn [bind]. destruct (S1 a _ _ Gl) as (c1 & G1).
        assert (W1' : wf h1 (a :: ks ++ X ++ O)).
        { eapply wf_equiv; [|exact W1]. intros x. repeat rewrite ?cnt_app, ?cnt_cons. lia. }
        assert (Hc1 : c1 <> 1).
        { pose proof (W1' a) as Q1. rewrite G1 in Q1. pose proof (W a) as Q0. rewrite G in Q0.
          cbn [app] in Q0, Q1. repeat rewrite ?cnt_app, ?cnt_cons in Q0; repeat rewrite ?cnt_app, ?cnt_cons in Q1. rewrite P1, Pl in Q1.
          destruct (Nat.eq_dec a a); [|congruence]. lia. }
        destruct (dec_ok h1 a c1 _ (ks ++ X ++ O) W1' A1 G1 Hc1) as (h2 & E2 & W2 & A2 & S2 & S2' & L2 & C2 & _).
        rewrite E2. cbn [bind]. eexists _, _. split; [reflexivity|].
        assert (Sa : same_nodes h h2). { exact (same_nodes_trans _ _ _ Sl (same_nodes_trans _ _ _ S1 S2)). }
        assert (Sb : same_nodes h2 h). { exact (same_nodes_trans _ _ _ S2' (same_nodes_trans _ _ _ S1' Sl')). }
        assert (Fr : frame (X ++ O) h h2). { apply same_frame2; auto. lia. }
        split; [now apply frame_keep|]. split; auto.
        destruct (sess_call h0 h h2 R [a] ks X O S) as [S3 K3]; auto. { split; auto. }
        split; [exact S3|]. split; [apply dens_ns; apply (den_same h h2 Sa), dens_ns, Fk|]. split.
        * apply (Uq h2); auto.
        * exists [es]. split; [rewrite C2, C1; reflexivity|]. split; [apply sub_refl|congruence].
  Qed.

  Lemma sess_drops (h0 h : heap) R ps X O : sess h0 h R (ps ++ X) O ->
    exists h', drops h (map Some ps) = Ok h' /\ sess h0 h' R X O /\ keep (X ++ O) h h' /\ clones h' = clones h
      /\ length (cells h') = length (cells h).
  Proof.
    intros S. pose proof S as [W A F N Rs]. rewrite <- app_assoc in W.
    destruct (drops_ok h (map Some ps) (X ++ O)) as (h' & E & W1 & A1 & F1 & C1 & L1); auto.
    { now rewrite olists_some. }
    exists h'. split; auto.
    destruct (sess_call h0 h h' R ps [] X O S) as [S1 K1]; auto. { split; auto. }
  Qed.
  Lemma sess_drop (h0 h : heap) R p X O : sess h0 h R (olist p ++ X) O ->
    exists h', drop h p = Ok h' /\ sess h0 h' R X O /\ keep (X ++ O) h h' /\ clones h' = clones h
      /\ length (cells h') = length (cells h).
  Proof.
    intros S. pose proof S as [W A F N Rs]. rewrite <- app_assoc in W.
    destruct (drop_ok h p (X ++ O)) as (h' & E & W1 & A1 & F1 & C1 & L1); auto.
    exists h'. split; auto.
    destruct (sess_call h0 h h' R (olist p) [] X O S) as [S1 K1]; auto. { split; auto. }
  Qed.

  Lemma sess_alloc (h0 h : heap) R ks X O es ts h1 a :
    sess h0 h R (ks ++ X) O -> Forall2 (ns h) ks ts ->
    alloc h (Nd es (map Some ks)) = (h1, a) ->
    sess h0 h1 R (a :: X) O /\ ns h1 a (BN es ts)
    /\ (forall q t, ns h q t -> ns h1 q t)
    /\ unique h1 a = true
    /\ (forall b, b <> a -> get h1 b = get h b)
    /\ clones h1 = clones h /\ a = length (cells h).
  Proof.
    intros [W A F N Rs] Dk E.
    destruct (alloc_ok h es (map Some ks) (map tv ts) (X ++ O)) with (h' := h1) (a := a)
      as (W1 & A1 & D1 & G1 & F1 & S1 & L1 & C1 & Ea & Gn); auto.
    { rewrite olists_some. rewrite <- !app_assoc in *; exact W. }
    { now apply dens_ns. }
    assert (Go : forall b, b <> a -> get h1 b = get h b).
    { intros b Hb. replace h1 with (fst (alloc h (Nd es (map Some ks)))) by now rewrite E.
      rewrite get_alloc. destruct (Nat.eq_dec (length (cells h)) b); [congruence|auto]. }
    split; [|split; [exact D1|split; [|split; [|split; [exact Go|split; auto]]]]].
    - split; auto.
      + eapply frame_trans; [exact F|]. eapply frame_incl; [|exact F1].
        intros x Hx. apply in_or_app. right. apply in_or_app. auto.
      + intros b Hb. destruct (Rs b Hb) as (Gb & Lb & Zb). split; [|split; [lia|auto]].
        rewrite Go; auto. lia.
    - intros q t D. now apply (den_same _ _ S1).
    - unfold unique. now rewrite G1.
  Qed.

  (** ** The depth of what a pointer stands for *)
  Inductive loose : nat -> bt -> Prop :=
  | lo_leaf es : loose 0 (BN es [])
  | lo_branch d es ks : length ks = S (length es) -> Forall (loose d) ks -> loose (S d) (BN es ks).

  Lemma loose_inv d es ks : loose d (BN es ks) ->
    (d = 0 /\ ks = []) \/ exists d', d = S d' /\ length ks = S (length es) /\ Forall (loose d') ks.
  Proof. intros H. inversion H; subst; [left|right]; eauto. Qed.
  Lemma loose_det : forall d t d', loose d t -> loose d' t -> d = d'.
  Proof.
    induction d as [|d IH]; intros [es ks] d' H1 H2; inversion H1; inversion H2; subst; auto; try discriminate.
    f_equal. destruct ks as [|c ks]; [discriminate|].
    match goal with H : Forall (loose d) _, H' : Forall (loose _) _ |- _ => inversion H; inversion H'; subst end. eauto.
  Qed.
  Lemma loose_chain (h : heap) : forall d t a, loose d t -> ns h a t ->
    exists l, length l = S d /\ NoDup l /\ incl l (seq 0 (length (cells h)))
      /\ forall b, In b l -> exists u e, e <= d /\ ns h b u /\ loose e u.
  Proof.
    induction d as [|d IH]; intros [es ts] a L D; pose proof D as D0; apply ns_inv in D as (c & ks & G & F).
    - exists [a]. split; auto. split; [constructor; [intros []|constructor]|]. split.
      + intros x [<-|[]]. apply in_seq. apply get_lt in G. lia.
      + intros b [<-|[]]. exists (BN es ts), 0. auto.
    - inversion L as [|? ? ? Hl Fl]; subst. destruct ts as [|t ts]; [discriminate|].
      inversion F as [|k ? ks' ? Dk Fk]; subst. inversion Fl; subst.
      destruct (IH t k) as (l & Ll & Nl & Il & Hb); auto.
      exists (a :: l). split; [cbn; lia|]. split; [|split].
      + constructor; auto. intros Hi. destruct (Hb a Hi) as (u & e & He & Du & Lu).
        pose proof (ns_det _ _ _ _ D0 Du) as <-. pose proof (loose_det _ _ _ L Lu). lia.
      + intros x [<-|Hx]; auto. apply in_seq. apply get_lt in G. lia.
      + intros b [<-|Hi]; [exists (BN es (t :: ts)), (S d); auto|].
        destruct (Hb b Hi) as (u & e & He & Du & Lu). exists u, e. split; [lia|auto].
  Qed.
  Lemma loose_depth (h : heap) d t a : loose d t -> ns h a t -> d < length (cells h).
  Proof.
    intros L D. destruct (loose_chain h d t a L D) as (l & Ll & Nl & Il & _).
    pose proof (NoDup_incl_length Nl Il) as H. rewrite seq_length in H. lia.
  Qed.
End Sess.

Ltac cnts := intros ?; cbn [app olist]; rewrite ?app_nil_r;
  repeat rewrite ?cnt_app, ?cnt_cons, ?cnt_nil; lia.
Ltac perm := eapply sess_perm; [|eassumption]; cnts.
Ltac inc := let x := fresh in let H := fresh in
  intros x H; cbn [olist app In] in *; rewrite ?in_app_iff in *; cbn [olist app In] in *;
  rewrite ?in_app_iff in *; cbn [olist app In] in *; tauto.
Ltac mem := cbn [olist app In] in *; rewrite ?in_app_iff in *; cbn [olist app In] in *;
  rewrite ?in_app_iff in *; cbn [olist app In] in *; rewrite ?in_app_iff in *; tauto.
