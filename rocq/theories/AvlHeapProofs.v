(** The shared [AvlMap] functions compute what the value model computes, keep the counts
    exact and leave all other handles alone. *)
From Coq Require Import List ZArith Bool Lia Permutation.
From Verif Require Import Base Heap HeapProofs AvlModel AvlHeapModel AvlHeapSpec.
Import ListNotations.
Local Open Scope nat_scope.

Lemma sub_refl {A} (l : list A) : sub l l.
Proof. induction l; [apply sub_nil|apply sub_keep]; auto. Qed.
Lemma sub_nil_l {A} (l : list A) : sub [] l.
Proof. induction l; [apply sub_nil|apply sub_skip]; auto. Qed.
Lemma sub_app {A} (a b c d : list A) : sub a b -> sub c d -> sub (a ++ c) (b ++ d).
Proof. induction 1; intros; cbn; auto; [apply sub_skip|apply sub_keep]; auto. Qed.
Lemma sub_app_l {A} (a b c : list A) : sub a b -> sub a (b ++ c).
Proof. intros. rewrite <- (app_nil_r a). apply sub_app; auto using sub_nil_l. Qed.
Lemma sub_app_r {A} (a b c : list A) : sub a c -> sub a (b ++ c).
Proof. intros. change a with ([] ++ a). apply sub_app; auto using sub_nil_l. Qed.
Lemma sub_incl {A} (a b : list A) : sub a b -> incl a b.
Proof.
  induction 1; intros y Hy; auto.
  - right. auto.
  - destruct Hy as [->|Hy]; [left|right]; auto.
Qed.
Lemma sub_length {A} (a b : list A) : sub a b -> length a <= length b.
Proof. induction 1; cbn; lia. Qed.

Section Sess.
  Context {K V : Type}.
  Variable bomb : nat -> bool.
  Notation pay := (pay K V).
  Notation heap := (heap pay).
  Notation tree := (tree K V).

  Definition keep (O : list addr) (h h' : heap) : Prop :=
    forall q t, incl (olist q) O -> den h q t -> den h' q t.

  (** In the middle of a call that started with [h0]: [R] are the opened cells, [X] the pointers
      held by the call, [O] those held by others. *)
  Record sess (h0 h : heap) (R X O : list addr) : Prop := Sess {
    s_wf : wf h (X ++ O);
    s_ac : acyclic h;
    s_fr : frame O h0 h;
    s_nd : NoDup R;
    s_rs : forall a, In a R -> get h a = None /\ a < length (cells h)
                               /\ (get h0 a <> None \/ length (cells h0) <= a)
  }.

  Lemma sess_start (h : heap) X O : sound h (X ++ O) -> sess h h [] X O.
  Proof. intros [W A]. split; auto using frame_refl, NoDup_nil. intros a []. Qed.
  Lemma sess_end (h0 h : heap) R X O : sess h0 h R X O -> sound h (X ++ O) /\ frame O h0 h.
  Proof. intros []. split; auto. split; auto. Qed.
  Lemma sess_perm (h0 h : heap) R X X' O : (forall a, cnt a X = cnt a X') -> sess h0 h R X O -> sess h0 h R X' O.
  Proof.
    intros E []. split; auto. eapply wf_equiv; [|exact s_wf0]. intros a. now rewrite !cnt_app, E.
  Qed.

  Lemma sess_permR (h0 h : heap) R R' X O : Permutation R R' -> sess h0 h R X O -> sess h0 h R' X O.
  Proof.
    intros P []. split; auto.
    - eapply Permutation_NoDup; eauto.
    - intros a Ha. apply s_rs0. eapply Permutation_in; [symmetry|]; eauto.
  Qed.

  Lemma keep_incl O O' (h h' : heap) : incl O' O -> keep O h h' -> keep O' h h'.
  Proof. intros I Kp q t Hq. apply Kp. intros x Hx. auto. Qed.
  Lemma keep_trans O (h h1 h2 : heap) : keep O h h1 -> keep O h1 h2 -> keep O h h2.
  Proof. intros K1 K2 q t Hq D. auto. Qed.
  Lemma keep_same O (h h' : heap) : same_nodes h h' -> keep O h h'.
  Proof. intros S q t _. now apply den_same. Qed.
  Lemma frame_keep O (h h' : heap) : frame O h h' -> keep O h h'.
  Proof. now intros (F & _). Qed.

  (** A step that is a call of something with its own frame. *)
  Lemma sess_call (h0 h h' : heap) R X1 X1' X2 O :
    sess h0 h R (X1 ++ X2) O -> sound h' (X1' ++ X2 ++ O) -> frame (X2 ++ O) h h' ->
    sess h0 h' R (X1' ++ X2) O /\ keep (X2 ++ O) h h'.
  Proof.
    intros [] [W A] F. split; [|now apply frame_keep]. split; auto.
    - now rewrite <- app_assoc.
    - eapply frame_trans; eauto. eapply frame_incl; [|exact F]. intros x Hx. apply in_or_app. auto.
    - intros a Ha. destruct (s_rs0 a Ha) as (G & L & Z). destruct F as (_ & F2 & F3).
      split; [apply F2; auto|]. split; [lia|auto].
  Qed.
  Lemma sess_sub (h0 h : heap) R X1 X2 O : sess h0 h R (X1 ++ X2) O -> sound h (X1 ++ X2 ++ O).
  Proof. intros []. split; auto. now rewrite app_assoc. Qed.

  Lemma den_some (h : heap) p d ts : den h p (VT d ts) -> exists a, p = Some a.
  Proof. intros D. inversion D; subst; eauto. Qed.
  Lemma den_none (h : heap) p : den h p VN -> p = None.
  Proof. intros D. inversion D; auto. Qed.
  Lemma den_get2 (h : heap) a d tl tr : den h (Some a) (VT d [tl; tr]) ->
    exists c l r, get h a = Some (c, Nd d [l; r]) /\ den h l tl /\ den h r tr.
  Proof.
    intros D. inversion D as [|? c [d' ks] ts G Ds]; subst. cbn in *.
    inversion Ds as [|l ? ? ? D1 Ds1]; subst. inversion Ds1 as [|r ? ? ? D2 Ds2]; subst.
    inversion Ds2; subst. exists c, l, r. auto.
  Qed.
  Lemma dens2 (h : heap) l r tl tr : den h l tl -> den h r tr -> dens h [l; r] [tl; tr].
  Proof. intros. repeat constructor; auto. Qed.
  Lemma olists2 (l r : ptr) : olists [l; r] = olist l ++ olist r.
  Proof. unfold olists. cbn. now rewrite app_nil_r. Qed.
  Lemma unique_alone (h : heap) a n X O : wf h (a :: X ++ O) -> get h a = Some (1, n) ->
    ~ In a (X ++ O ++ ptrs h).
  Proof.
    intros W G I. pose proof (W a) as Wa. rewrite G in Wa. apply cnt_in in I.
    rewrite !cnt_app in I. cbn [app] in Wa. rewrite cnt_cons, !cnt_app in Wa.
    destruct (Nat.eq_dec a a); [lia|congruence].
  Qed.

  Lemma sess_open (h0 h : heap) R a X O d tl tr :
    sess h0 h R (a :: X) O -> den h (Some a) (VT d [tl; tr]) ->
    exists h1 r, opn bomb h a = Ok (h1, r) /\
      match r with
      | Unwound => sess h0 h1 R (a :: X) O /\ den h1 (Some a) (VT d [tl; tr]) /\ keep (a :: X ++ O) h h1
                   /\ clones h1 = d :: clones h /\ unique h a = false
                   /\ bomb (length (clones h)) = true
      | Done (a', d', l, r) =>
        d' = d /\ sess h0 h1 (a' :: R) (olist l ++ olist r ++ X) O
        /\ den h1 l tl /\ den h1 r tr /\ keep (X ++ O) h h1
        /\ exists cs, clones h1 = cs ++ clones h /\ sub cs [d]
           /\ (unique h a = true -> cs = [] /\ a' = a /\ get h a = Some (1, Nd d [l; r])
                /\ (forall b, b <> a -> get h1 b = get h b) /\ ~ In a (X ++ O ++ ptrs h))
      end.
  Proof.
    intros S D. destruct (den_get2 _ _ _ _ _ D) as (c & l & r & G & Dl & Dr).
    pose proof (dens2 _ _ _ _ _ Dl Dr) as Dk. destruct S as [W A F N Rs].
    destruct (make_mut_ok bomb h a c d [l; r] [tl; tr] (X ++ O) W A G Dk) as (h1 & r1 & E & F1 & A1 & P).
    unfold opn. rewrite E. cbn [bind].
    assert (Fo : frame O h h1). { eapply frame_incl; [|exact F1]. intros x Hx. apply in_or_app. auto. }
    destruct r1 as [a1|].
    - destruct P as (W1 & G1 & D1 & P).
      destruct (take_ok h1 a1 _ (X ++ O) W1 A1 G1) as (h2 & E2 & W2 & A2 & F2 & Dk2 & G2 & L2 & Lc & C2).
      rewrite E2. cbn [bind nd_kids nd_data]. eexists _, _. split; [reflexivity|].
      split; auto. cbn [nd_kids] in W2, Dk2. rewrite olists2 in W2.
      specialize (Dk2 _ D1). inversion Dk2 as [|? ? ? ? Q1 Q2]; subst. inversion Q2 as [|? ? ? ? Q3 Q4]; subst.
      assert (Na1 : ~ In a1 R).
      { intros Hi. destruct (Rs a1 Hi) as (Gd & Ld & _). destruct (c =? 1).
        - destruct P as [-> ->]. congruence.
        - destruct P as (_ & Lh & _ & _ & ->). lia. }
      split; [|split; [exact Q1|split; [exact Q3|split]]].
      + split; auto.
        * rewrite <- !app_assoc in *. exact W2.
        * eapply frame_trans; [exact F|]. eapply frame_trans; [exact Fo|].
          eapply frame_incl; [|exact F2]. intros x Hx. apply in_or_app. auto.
        * constructor; auto.
        * intros b [<-|Hb].
          -- split; auto. split; auto. destruct (c =? 1).
             ++ destruct P as [-> ->]. destruct F as (_ & Fd & Fl).
                destruct (get h0 a) eqn:Ga; [left; congruence|].
                destruct (Nat.lt_ge_cases a (length (cells h0))) as [Hlt|Hge]; [|auto].
                rewrite (Fd a Ga Hlt) in G. discriminate.
             ++ destruct P as (_ & Lh & _ & _ & ->). right. destruct F as (_ & _ & Fl). lia.
          -- destruct (Rs b Hb) as (Gb & Lb & Zb). destruct F1 as (_ & Fd1 & Fl1). destruct F2 as (_ & Fd2 & Fl2).
             split; [apply Fd2; [apply Fd1; auto|lia]|]. split; [lia|auto].
      + eapply keep_trans; apply frame_keep; eauto.
      + unfold unique. rewrite G. destruct (Nat.eqb_spec c 1) as [->|Hc].
        * destruct P as [-> ->]. exists []. split; auto. split; [apply sub_nil_l|]. intros _.
          split; auto. split; auto. split; auto. split.
          { intros b Hb. unfold take in E2. rewrite G in E2. injection E2 as <-. apply get_put_other; auto. }
          eapply unique_alone; eauto.
        * destruct P as (Cl & _ & Bb & _ & _). exists [d]. split; [rewrite C2; auto|]. split; [apply sub_refl|].
          destruct c as [|[|c]]; congruence.
    - destruct P as (Hc & Bb & W1 & D1 & C1 & Cc).
      eexists _, _. split; [reflexivity|].
      split; [|split; [exact D1|split; [|split; [exact C1|]]]].
      + split; auto.
        * eapply frame_trans; eauto.
        * intros b Hb. destruct (Rs b Hb) as (Gb & Lb & Zb). unfold get in *. rewrite Cc. auto.
      + apply keep_same. intros b cb nb Gb. exists cb. unfold get in *. now rewrite Cc.
      + split; auto. unfold unique. rewrite G. destruct c as [|[|c]]; auto; congruence.
  Qed.

  Lemma sess_close (h0 h : heap) R a l r X O d tl tr :
    sess h0 h (a :: R) (olist l ++ olist r ++ X) O -> den h l tl -> den h r tr ->
    sess h0 (cls h a d l r) R (a :: X) O
    /\ den (cls h a d l r) (Some a) (VT d [tl; tr])
    /\ (forall q t, den h q t -> den (cls h a d l r) q t)
    /\ get (cls h a d l r) a = Some (1, Nd d [l; r])
    /\ (forall b, b <> a -> get (cls h a d l r) b = get h b)
    /\ clones (cls h a d l r) = clones h.
  Proof.
    intros [W A F N Rs] Dl Dr. destruct (Rs a (or_introl eq_refl)) as (G & L & Z).
    destruct (give_ok h a d [l; r] [tl; tr] (X ++ O)) as (W1 & A1 & D1 & G1 & S1 & L1); auto using dens2.
    { rewrite olists2. rewrite <- !app_assoc in *; exact W. }
    inversion N as [|? ? Na Nr]; subst.
    fold (cls h a d l r) in *. split; [|split; [exact D1|split; [|split; [exact G1|split]]]].
    - split; auto.
      + destruct F as (F1 & F2 & F3). split; [|split].
        * intros q t Hq D. apply (den_same _ _ S1). auto.
        * intros b Gb Lb. unfold cls, give. rewrite get_put by auto. destruct (Nat.eq_dec a b) as [<-|]; auto.
          destruct Z as [Z|Z]; [congruence|lia].
        * lia.
      + intros b Hb. destruct (Rs b (or_intror Hb)) as (Gb & Lb & Zb). split; [|split; [lia|auto]].
        unfold cls, give. rewrite get_put by auto. destruct (Nat.eq_dec a b) as [<-|]; auto. contradiction.
    - intros q t D. now apply (den_same _ _ S1).
    - intros b Hb. unfold cls, give. apply get_put_other; auto.
    - reflexivity.
  Qed.

  Lemma sess_drops (h0 h : heap) R ps X O : sess h0 h R (olists ps ++ X) O ->
    exists h', drops h ps = Ok h' /\ sess h0 h' R X O /\ keep (X ++ O) h h' /\ clones h' = clones h.
  Proof.
    intros S. pose proof S as [W A F N Rs]. rewrite <- app_assoc in W.
    destruct (drops_ok h ps (X ++ O) W A) as (h' & E & W1 & A1 & F1 & C1 & L1).
    exists h'. split; auto.
    destruct (sess_call h0 h h' R (olists ps) [] X O S) as [S1 K1]; auto. split; auto.
  Qed.

  Lemma sess_alloc (h0 h : heap) R l r X O d tl tr h1 a :
    sess h0 h R (olist l ++ olist r ++ X) O -> den h l tl -> den h r tr ->
    alloc h (Nd d [l; r]) = (h1, a) ->
    sess h0 h1 R (a :: X) O /\ den h1 (Some a) (VT d [tl; tr])
    /\ (forall q t, den h q t -> den h1 q t)
    /\ get h1 a = Some (1, Nd d [l; r])
    /\ (forall b, b <> a -> get h1 b = get h b)
    /\ clones h1 = clones h /\ a = length (cells h) /\ length (cells h1) = S (length (cells h)).
  Proof.
    intros [W A F N Rs] Dl Dr E.
    destruct (alloc_ok h d [l; r] [tl; tr] (X ++ O)) with (h' := h1) (a := a)
      as (W1 & A1 & D1 & G1 & F1 & S1 & L1 & C1 & Ea & Gn); auto using dens2.
    { rewrite olists2. rewrite <- !app_assoc in *; exact W. }
    assert (Go : forall b, b <> a -> get h1 b = get h b).
    { intros b Hb. replace h1 with (fst (alloc h (Nd d [l; r]))) by now rewrite E.
      rewrite get_alloc. destruct (Nat.eq_dec (length (cells h)) b); [congruence|auto]. }
    split; [|split; [exact D1|split; [|split; [exact G1|split; [exact Go|split; [exact C1|split; auto]]]]]].
    - split; auto.
      + eapply frame_trans; [exact F|]. eapply frame_incl; [|exact F1].
        intros x Hx. apply in_or_app. right. apply in_or_app. auto.
      + intros b Hb. destruct (Rs b Hb) as (Gb & Lb & Zb). split; [|split; [lia|auto]].
        rewrite Go; auto. lia.
    - intros q t D. now apply (den_same _ _ S1).
  Qed.
End Sess.

Ltac cnts := intros ?; cbn [app olist olists flat_map]; rewrite ?app_nil_r;
  repeat rewrite ?cnt_app, ?cnt_cons, ?cnt_nil; lia.
Ltac perm := eapply sess_perm; [|eassumption]; cnts.
Ltac inc := let x := fresh in let H := fresh in
  intros x H; cbn [olist app In] in *; rewrite ?in_app_iff in *; cbn [olist app In] in *;
  rewrite ?in_app_iff in *; tauto.
Ltac mv Kp :=
  match type of Kp with
  | keep _ ?h ?h1 =>
    repeat match goal with
           | D : den h ?q ?t |- _ => apply Kp in D; [|inc]
           end
  | forall q t, den ?h q t -> den ?h1 q t =>
    repeat match goal with
           | D : den h ?q ?t |- _ => apply Kp in D
           end
  end.

Section Rot.
  Context {K V : Type}.
  Variable bomb : nat -> bool.
  Notation pay := (pay K V).
  Notation heap := (heap pay).
  Notation tree := (tree K V).

  Definition root1 (h : heap) (p : ptr) : Prop :=
    match p with Some a => exists n, get h a = Some (1, n) | None => True end.

  (** The outcome of a function on a slot: it runs, everything held is accounted for, the
      nodes cloned are among [M], none if [W]. *)
  Definition slot {A} (O : list addr) (h : heap) (c0 M : list pay) (W : Prop) (x : res (heap * ptr * out A))
             (D : A -> heap -> ptr -> Prop) (U : heap -> ptr -> Prop) : Prop :=
    exists h' p' r cs, x = Ok (h', p', r) /\ sound h' (olist p' ++ O) /\ frame O h h'
      /\ clones h' = cs ++ c0 /\ sub cs M
      /\ match r with Done a => D a h' p' | Unwound => U h' p' /\ exists n, bomb n = true end
      /\ (W -> cs = [] /\ r <> Unwound).

  Lemma i8_inv z r : i8_chk z = Ok r -> r = z.
  Proof. unfold i8_chk. destruct (_ && _); congruence. Qed.
  Lemma unique1 (h : heap) a n : get h a = Some (1, n) -> unique h a = true.
  Proof. unfold unique. now intros ->. Qed.

  (** Opening the root of a rotation, which is not shared. *)
  Lemma open1 (h : heap) a d l r tl tr O :
    sound h (a :: O) -> get h a = Some (1, Nd d [l; r]) -> den h l tl -> den h r tr ->
    exists h1, opn bomb h a = Ok (h1, Done (a, d, l, r))
      /\ sess h h1 [a] (olist l ++ olist r) O /\ den h1 l tl /\ den h1 r tr
      /\ clones h1 = clones h
      /\ (forall b, In b (olist l ++ olist r) -> get h1 b = get h b)
      /\ (forall b, In b (ptrs h) -> get h1 b = get h b).
  Proof.
    intros So G Dl Dr.
    assert (S0 : sess h h [] [a] O) by now apply sess_start.
    assert (Da : den h (Some a) (VT d [tl; tr])).
    { change d with (nd_data (Nd d [l; r])). econstructor; [exact G|]. now apply dens2. }
    destruct (sess_open bomb _ _ _ _ _ _ _ _ _ S0 Da) as (h1 & r1 & E1 & P1).
    assert (U : unique h a = true) by (unfold unique; now rewrite G).
    destruct r1 as [[[[a' ad] l'] r']|].
    2:{ destruct P1 as (_ & _ & _ & _ & Hu & _). congruence. }
    destruct P1 as (-> & S1 & Dl1 & Dr1 & K1 & cs & C1 & _ & P1).
    destruct (P1 U) as (-> & -> & G' & Go & Na). rewrite G in G'. injection G' as <- <-.
    rewrite app_nil_r in S1.
    exists h1. split; auto. split; auto. split; auto. split; auto. split; auto.
    assert (Hp : forall b, In b (ptrs h) -> get h1 b = get h b).
    { intros b Hb. apply Go. intros ->. apply Na. rewrite !in_app_iff. auto. }
    split; auto. intros b Hb. apply Hp. eapply ptrs_in; [exact G|]. cbn [nd_kids]. now rewrite olists2.
  Qed.

  Lemma rot_lf_ok (h : heap) a ak av alh arh x b tx tb t' s O :
    sound h (a :: O) -> get h a = Some (1, Nd (Pay ak av alh arh) [x; b]) -> den h x (tv tx) -> den h b (tv tb) ->
    rot_lf (Node ak av alh arh tx tb) = Ok (t', s) ->
    slot O h (clones h) (root_pay tb) (root1 h b) (h_rot_lf bomb h (Some a))
      (fun s' h' p' => s' = s /\ den h' p' (tv t') /\ root1 h' p')
      (fun h' p' => p' = None).
  Proof.
    intros So Ga Dx Db E. cbn [rot_lf] in E. destruct tb as [|bk bv blh brh ty tz]; [discriminate|].
    destruct (bal blh brh) as [bb|] eqn:Eb; [|discriminate].
    cbn [bind height] in E. destruct (i8_add (Z.max alh blh) 1) as [ah|] eqn:Eh; [|discriminate].
    cbn [bind] in E. injection E as <- <-.
    unfold h_rot_lf. cbn [unwrap bind].
    destruct (open1 _ _ _ _ _ _ _ _ So Ga Dx Db) as (h1 & E1 & S1 & Dx1 & Db1 & C1 & Go1 & Gp1). rewrite E1. cbn [bind].
    cbn [tv] in Db1. destruct (den_some _ _ _ _ Db1) as [ba ->]. cbn [unwrap bind].
    assert (S1' : sess h h1 [a] (ba :: olist x) O) by perm.
    destruct (sess_open bomb _ _ _ _ _ _ _ _ _ S1' Db1) as (h2 & r2 & E2 & P2). rewrite E2. cbn [bind].
    assert (Ub : root1 h (Some ba) -> unique h1 ba = true).
    { intros [n Gn]. unfold unique. rewrite Go1, Gn; auto. apply in_or_app. cbn. auto. }
    destruct r2 as [[[[b' bd] y] z]|].
    - destruct P2 as (-> & S2 & Dy & Dz & K2 & cs & Cs & Sb & Pc). cbn [plh prh]. rewrite Eb. cbn [bind].
      unfold pay_ht, set_rh, set_lh; cbn [plh prh pk pv]. rewrite Eh. cbn [bind].
      mv K2.
      apply (sess_permR _ _ _ [a; b']) in S2; [|apply perm_swap].
      assert (S2' : sess h h2 [a; b'] (olist x ++ olist y ++ olist z) O) by perm.
      destruct (sess_close _ _ _ _ _ _ _ _ (Pay ak av alh blh) _ _ S2' Dx1 Dy) as (S3 & Da3 & K3 & G3 & Go3 & C3).
      mv K3.
      assert (S3' : sess h (cls h2 a (Pay ak av alh blh) x y) [b'] (olist (Some a) ++ olist z ++ []) O) by perm.
      destruct (sess_close _ _ _ _ _ _ _ _ (Pay bk bv ah brh) _ _ S3' Da3 Dz) as (S4 & Db4 & K4 & G4 & Go4 & C4).
      destruct (sess_end _ _ _ _ _ S4) as [So4 F4].
      eexists _, _, _, cs. split; [reflexivity|]. split; [exact So4|]. split; [exact F4|].
      split; [now rewrite C4, C3, Cs, C1|]. split; [exact Sb|]. split.
      + split; auto. split; [exact Db4|]. cbn. eauto.
      + intros Hr. split; [|discriminate]. now apply Pc, Ub.
    - destruct P2 as (S2 & Db2 & K2 & C2 & U2 & B2).
      mv K2.
      assert (S2' : sess h h2 [a] (olist x ++ olist None ++ [ba]) O) by perm.
      destruct (sess_close _ _ _ _ _ _ _ _ (Pay ak av alh arh) _ _ S2' Dx1 (den_nil _)) as (S3 & Da3 & K3 & G3 & Go3 & C3).
      unfold unwind_slot.
      assert (S3' : sess h (cls h2 a (Pay ak av alh arh) x None) [] (olists [Some ba; Some a] ++ []) O) by perm.
      destruct (sess_drops _ _ _ _ _ _ S3') as (h4 & E4 & S4 & K4 & C4). rewrite E4. cbn [bind].
      destruct (sess_end _ _ _ _ _ S4) as [So4 F4].
      eexists _, _, _, [_]. split; [reflexivity|]. split; [exact So4|]. split; [exact F4|].
      split; [rewrite C4, C3, C2, C1; reflexivity|]. split; [apply sub_refl|]. split; [eauto|].
      intros Hr. apply Ub in Hr. congruence.
  Qed.

  Lemma rot_rt_ok (h : heap) a ak av alh arh z b tz tb t' s O :
    sound h (a :: O) -> get h a = Some (1, Nd (Pay ak av alh arh) [b; z]) -> den h b (tv tb) -> den h z (tv tz) ->
    rot_rt (Node ak av alh arh tb tz) = Ok (t', s) ->
    slot O h (clones h) (root_pay tb) (root1 h b) (h_rot_rt bomb h (Some a))
      (fun s' h' p' => s' = s /\ den h' p' (tv t') /\ root1 h' p')
      (fun h' p' => p' = None).
  Proof.
    intros So Ga Db Dz E. cbn [rot_rt] in E. destruct tb as [|bk bv blh brh tx ty]; [discriminate|].
    destruct (bal blh brh) as [bb|] eqn:Eb; [|discriminate].
    cbn [bind height] in E. destruct (i8_add (Z.max brh arh) 1) as [ah|] eqn:Eh; [|discriminate].
    cbn [bind] in E. injection E as <- <-.
    unfold h_rot_rt. cbn [unwrap bind].
    destruct (open1 _ _ _ _ _ _ _ _ So Ga Db Dz) as (h1 & E1 & S1 & Db1 & Dz1 & C1 & Go1 & Gp1). rewrite E1. cbn [bind].
    cbn [tv] in Db1. destruct (den_some _ _ _ _ Db1) as [ba ->]. cbn [unwrap bind].
    assert (S1' : sess h h1 [a] (ba :: olist z) O) by perm.
    destruct (sess_open bomb _ _ _ _ _ _ _ _ _ S1' Db1) as (h2 & r2 & E2 & P2). rewrite E2. cbn [bind].
    assert (Ub : root1 h (Some ba) -> unique h1 ba = true).
    { intros [n Gn]. unfold unique. rewrite Go1, Gn; auto. apply in_or_app. cbn. auto. }
    destruct r2 as [[[[b' bd] x] y]|].
    - destruct P2 as (-> & S2 & Dx & Dy & K2 & cs & Cs & Sb & Pc). cbn [plh prh]. rewrite Eb. cbn [bind].
      unfold pay_ht, set_rh, set_lh; cbn [plh prh pk pv]. rewrite Eh. cbn [bind].
      mv K2.
      apply (sess_permR _ _ _ [a; b']) in S2; [|apply perm_swap].
      assert (S2' : sess h h2 [a; b'] (olist y ++ olist z ++ olist x) O) by perm.
      destruct (sess_close _ _ _ _ _ _ _ _ (Pay ak av brh arh) _ _ S2' Dy Dz1) as (S3 & Da3 & K3 & G3 & Go3 & C3).
      mv K3.
      assert (S3' : sess h (cls h2 a (Pay ak av brh arh) y z) [b'] (olist x ++ olist (Some a) ++ []) O) by perm.
      destruct (sess_close _ _ _ _ _ _ _ _ (Pay bk bv blh ah) _ _ S3' Dx Da3) as (S4 & Db4 & K4 & G4 & Go4 & C4).
      destruct (sess_end _ _ _ _ _ S4) as [So4 F4].
      eexists _, _, _, cs. split; [reflexivity|]. split; [exact So4|]. split; [exact F4|].
      split; [now rewrite C4, C3, Cs, C1|]. split; [exact Sb|]. split.
      + split; auto. split; [exact Db4|]. cbn. eauto.
      + intros Hr. split; [|discriminate]. now apply Pc, Ub.
    - destruct P2 as (S2 & Db2 & K2 & C2 & U2 & B2).
      mv K2.
      assert (S2' : sess h h2 [a] (olist None ++ olist z ++ [ba]) O) by perm.
      destruct (sess_close _ _ _ _ _ _ _ _ (Pay ak av alh arh) _ _ S2' (den_nil _) Dz1) as (S3 & Da3 & K3 & G3 & Go3 & C3).
      unfold unwind_slot.
      assert (S3' : sess h (cls h2 a (Pay ak av alh arh) None z) [] (olists [Some ba; Some a] ++ []) O) by perm.
      destruct (sess_drops _ _ _ _ _ _ S3') as (h4 & E4 & S4 & K4 & C4). rewrite E4. cbn [bind].
      destruct (sess_end _ _ _ _ _ S4) as [So4 F4].
      eexists _, _, _, [_]. split; [reflexivity|]. split; [exact So4|]. split; [exact F4|].
      split; [rewrite C4, C3, C2, C1; reflexivity|]. split; [apply sub_refl|]. split; [eauto|].
      intros Hr. apply Ub in Hr. congruence.
  Qed.

  (** The root of [p] and its child on the given side are not shared. *)
  Definition root1l (h : heap) (p : ptr) : Prop :=
    match p with Some a => exists d l r, get h a = Some (1, Nd d [l; r]) /\ root1 h l | None => True end.
  Definition root1r (h : heap) (p : ptr) : Prop :=
    match p with Some a => exists d l r, get h a = Some (1, Nd d [l; r]) /\ root1 h r | None => True end.

  Lemma rot_rt_lf_ok (h : heap) a ak av alh arh x b tx tb t' s O :
    sound h (a :: O) -> get h a = Some (1, Nd (Pay ak av alh arh) [x; b]) -> den h x (tv tx) -> den h b (tv tb) ->
    rot_rt_lf (Node ak av alh arh tx tb) = Ok (t', s) ->
    slot O h (clones h) (beside_l tb) (root1l h b) (h_rot_rt_lf bomb h (Some a))
      (fun s' h' p' => s' = s /\ den h' p' (tv t') /\ root1 h' p')
      (fun h' p' => p' = None).
  Proof.
    intros So Ga Dx Db E. cbn [rot_rt_lf] in E.
    destruct tb as [|bk bv blh brh [|ck cv clh crh ty tz] tw]; [discriminate|discriminate|].
    cbn [bind height] in E. destruct (i8_add (Z.max alh clh) 1) as [ah|] eqn:Eh; [|discriminate].
    cbn [bind] in E. destruct (i8_add (Z.max crh brh) 1) as [bh|] eqn:Eh2; [|discriminate].
    cbn [bind] in E. injection E as <- <-.
    unfold h_rot_rt_lf. cbn [unwrap bind].
    destruct (open1 _ _ _ _ _ _ _ _ So Ga Dx Db) as (h1 & E1 & S1 & Dx1 & Db1 & C1 & Go1 & Gp1). rewrite E1. cbn [bind].
    cbn [tv] in Db1. destruct (den_some _ _ _ _ Db1) as [ba ->]. cbn [unwrap bind].
    assert (S1' : sess h h1 [a] (ba :: olist x) O) by perm.
    destruct (sess_open bomb _ _ _ _ _ _ _ _ _ S1' Db1) as (h2 & r2 & E2 & P2). rewrite E2. cbn [bind].
    assert (Ub : root1l h (Some ba) -> unique h1 ba = true).
    { intros (d & l & r & Gn & _). unfold unique. rewrite Go1, Gn; auto. apply in_or_app. cbn. auto. }
    destruct r2 as [[[[b' bd] c] w]|].
    - destruct P2 as (-> & S2 & Dc & Dw & K2 & cs & Cs & Sb & Pc). mv K2.
      destruct (den_some _ _ _ _ Dc) as [ca ->]. cbn [unwrap bind].
      assert (S2' : sess h h2 [b'; a] (ca :: olist w ++ olist x) O) by perm.
      destruct (sess_open bomb _ _ _ _ _ _ _ _ _ S2' Dc) as (h3 & r3 & E3 & P3). rewrite E3. cbn [bind].
      assert (Uc : root1l h (Some ba) -> cs = [] /\ unique h2 ca = true).
      { intros Hr. destruct (Pc (Ub Hr)) as (-> & -> & Gb & Go2 & Nb). split; auto.
        destruct Hr as (d & l & r & Gb0 & Hl). rewrite Go1 in Gb by (apply in_or_app; cbn; auto).
        rewrite Gb in Gb0. injection Gb0 as <- <- <-. destruct Hl as [n Gc].
        assert (Hc : In ca (ptrs h)) by (eapply ptrs_in; [exact Gb|]; cbn; auto).
        assert (Hc1 : In ca (ptrs h1)).
        { eapply ptrs_in; [rewrite Go1; [exact Gb|apply in_or_app; cbn; auto]|]. cbn. auto. }
        unfold unique. rewrite Go2. 2:{ intros ->. apply Nb. rewrite !in_app_iff. auto. }
        rewrite Gp1 by auto. now rewrite Gc. }
      destruct r3 as [[[[c' cd] y] z]|].
      + destruct P3 as (-> & S3 & Dy & Dz & K3 & cs3 & Cs3 & Sb3 & Pc3). mv K3.
        unfold pay_ht, set_rh, set_lh; cbn [plh prh pk pv]. rewrite Eh. cbn [bind]. rewrite Eh2. cbn [bind].
        apply (sess_permR _ _ _ [a; b'; c']) in S3.
        2:{ apply Permutation_sym. change [c'; b'; a] with (rev [a; b'; c']). apply Permutation_rev. }
        assert (S3' : sess h h3 [a; b'; c'] (olist x ++ olist y ++ olist z ++ olist w) O) by perm.
        destruct (sess_close _ _ _ _ _ _ _ _ (Pay ak av alh clh) _ _ S3' Dx1 Dy) as (S4 & Da4 & K4 & G4 & Go4 & C4).
        mv K4. set (h4 := cls h3 a (Pay ak av alh clh) x y) in *.
        assert (S4' : sess h h4 [b'; c'] (olist z ++ olist w ++ [a]) O) by perm.
        destruct (sess_close _ _ _ _ _ _ _ _ (Pay bk bv crh brh) _ _ S4' Dz Dw) as (S5 & Db5 & K5 & G5 & Go5 & C5).
        mv K5. set (h5 := cls h4 b' (Pay bk bv crh brh) z w) in *.
        assert (S5' : sess h h5 [c'] (olist (Some a) ++ olist (Some b') ++ []) O) by perm.
        destruct (sess_close _ _ _ _ _ _ _ _ (Pay ck cv ah bh) _ _ S5' Da4 Db5) as (S6 & Dc6 & K6 & G6 & Go6 & C6).
        destruct (sess_end _ _ _ _ _ S6) as [So6 F6].
        eexists _, _, _, (cs3 ++ cs). split; [reflexivity|]. split; [exact So6|]. split; [exact F6|].
        split; [rewrite C6, C5, C4, Cs3, Cs, C1; apply app_assoc|]. split; [cbn; apply sub_app with (b := [_]); auto|]. split.
        * split; auto. split; [exact Dc6|]. cbn. eauto.
        * intros Hr. destruct (Uc Hr) as [-> U]. split; [|discriminate]. now destruct (Pc3 U) as [-> _].
      + destruct P3 as (S3 & Dc3 & K3 & C3 & U3 & B3). mv K3.
        assert (S3' : sess h h3 [b'; a] (olist None ++ olist w ++ ca :: olist x) O) by perm.
        destruct (sess_close _ _ _ _ _ _ _ _ (Pay bk bv blh brh) _ _ S3' (den_nil _) Dw) as (S4 & Db4 & K4 & G4 & Go4 & C4).
        mv K4. set (h4 := cls h3 b' (Pay bk bv blh brh) None w) in *.
        assert (S4' : sess h h4 [a] (olist x ++ olist None ++ [ca; b']) O) by perm.
        destruct (sess_close _ _ _ _ _ _ _ _ (Pay ak av alh arh) _ _ S4' Dx1 (den_nil _)) as (S5 & Da5 & K5 & G5 & Go5 & C5).
        set (h5 := cls h4 a (Pay ak av alh arh) x None) in *.
        unfold unwind_slot.
        assert (S5' : sess h h5 [] (olists [Some ca; Some b'; Some a] ++ []) O) by perm.
        destruct (sess_drops _ _ _ _ _ _ S5') as (h6 & E6 & S6 & K6 & C6). rewrite E6. cbn [bind].
        destruct (sess_end _ _ _ _ _ S6) as [So6 F6].
        eexists _, _, _, ([_] ++ cs). split; [reflexivity|]. split; [exact So6|]. split; [exact F6|].
        split; [rewrite C6, C5, C4, C3, Cs, C1; reflexivity|].
        split; [cbn; apply sub_keep; exact Sb|]. split; [eauto|].
        intros Hr. destruct (Uc Hr) as [_ U]. congruence.
    - destruct P2 as (S2 & Db2 & K2 & C2 & U2 & B2).
      mv K2.
      assert (S2' : sess h h2 [a] (olist x ++ olist None ++ [ba]) O) by perm.
      destruct (sess_close _ _ _ _ _ _ _ _ (Pay ak av alh arh) _ _ S2' Dx1 (den_nil _)) as (S3 & Da3 & K3 & G3 & Go3 & C3).
      unfold unwind_slot.
      assert (S3' : sess h (cls h2 a (Pay ak av alh arh) x None) [] (olists [Some ba; Some a] ++ []) O) by perm.
      destruct (sess_drops _ _ _ _ _ _ S3') as (h4 & E4 & S4 & K4 & C4). rewrite E4. cbn [bind].
      destruct (sess_end _ _ _ _ _ S4) as [So4 F4].
      eexists _, _, _, [_]. split; [reflexivity|]. split; [exact So4|]. split; [exact F4|].
      split; [rewrite C4, C3, C2, C1; reflexivity|]. split; [cbn; apply sub_skip, sub_refl|]. split; [eauto|].
      intros Hr. apply Ub in Hr. congruence.
  Qed.

  Lemma rot_lf_rt_ok (h : heap) a ak av alh arh w b tw tb t' s O :
    sound h (a :: O) -> get h a = Some (1, Nd (Pay ak av alh arh) [b; w]) -> den h b (tv tb) -> den h w (tv tw) ->
    rot_lf_rt (Node ak av alh arh tb tw) = Ok (t', s) ->
    slot O h (clones h) (beside_r tb) (root1r h b) (h_rot_lf_rt bomb h (Some a))
      (fun s' h' p' => s' = s /\ den h' p' (tv t') /\ root1 h' p')
      (fun h' p' => p' = None).
  Proof.
    intros So Ga Db Dw E. cbn [rot_lf_rt] in E.
    destruct tb as [|bk bv blh brh tx [|ck cv clh crh ty tz]]; [discriminate|discriminate|].
    cbn [bind height] in E. destruct (i8_add (Z.max blh clh) 1) as [bh|] eqn:Eh; [|discriminate].
    cbn [bind] in E. destruct (i8_add (Z.max crh arh) 1) as [ah|] eqn:Eh2; [|discriminate].
    cbn [bind] in E. injection E as <- <-.
    unfold h_rot_lf_rt. cbn [unwrap bind].
    destruct (open1 _ _ _ _ _ _ _ _ So Ga Db Dw) as (h1 & E1 & S1 & Db1 & Dw1 & C1 & Go1 & Gp1). rewrite E1. cbn [bind].
    cbn [tv] in Db1. destruct (den_some _ _ _ _ Db1) as [ba ->]. cbn [unwrap bind].
    assert (S1' : sess h h1 [a] (ba :: olist w) O) by perm.
    destruct (sess_open bomb _ _ _ _ _ _ _ _ _ S1' Db1) as (h2 & r2 & E2 & P2). rewrite E2. cbn [bind].
    assert (Ub : root1r h (Some ba) -> unique h1 ba = true).
    { intros (d & l & r & Gn & _). unfold unique. rewrite Go1, Gn; auto. apply in_or_app. cbn. auto. }
    destruct r2 as [[[[b' bd] x] c]|].
    - destruct P2 as (-> & S2 & Dx & Dc & K2 & cs & Cs & Sb & Pc). mv K2.
      destruct (den_some _ _ _ _ Dc) as [ca ->]. cbn [unwrap bind].
      assert (S2' : sess h h2 [b'; a] (ca :: olist x ++ olist w) O) by perm.
      destruct (sess_open bomb _ _ _ _ _ _ _ _ _ S2' Dc) as (h3 & r3 & E3 & P3). rewrite E3. cbn [bind].
      assert (Uc : root1r h (Some ba) -> cs = [] /\ unique h2 ca = true).
      { intros Hr. destruct (Pc (Ub Hr)) as (-> & -> & Gb & Go2 & Nb). split; auto.
        destruct Hr as (d & l & r & Gb0 & Hl). rewrite Go1 in Gb by (apply in_or_app; cbn; auto).
        rewrite Gb in Gb0. injection Gb0 as <- <- <-. destruct Hl as [n Gc].
        assert (Hc : In ca (ptrs h)).
        { eapply ptrs_in; [exact Gb|]. cbn [nd_kids]. rewrite olists2. apply in_or_app. cbn. auto. }
        assert (Hc1 : In ca (ptrs h1)).
        { eapply ptrs_in; [rewrite Go1; [exact Gb|apply in_or_app; cbn; auto]|].
          cbn [nd_kids]. rewrite olists2. apply in_or_app. cbn. auto. }
        unfold unique. rewrite Go2. 2:{ intros ->. apply Nb. rewrite !in_app_iff. auto. }
        rewrite Gp1 by auto. now rewrite Gc. }
      destruct r3 as [[[[c' cd] y] z]|].
      + destruct P3 as (-> & S3 & Dy & Dz & K3 & cs3 & Cs3 & Sb3 & Pc3). mv K3.
        unfold pay_ht, set_rh, set_lh; cbn [plh prh pk pv]. rewrite Eh. cbn [bind]. rewrite Eh2. cbn [bind].
        apply (sess_permR _ _ _ [b'; a; c']) in S3.
        2:{ apply (Permutation_cons_append [b'; a] c'). }
        assert (S3' : sess h h3 [b'; a; c'] (olist x ++ olist y ++ olist z ++ olist w) O) by perm.
        destruct (sess_close _ _ _ _ _ _ _ _ (Pay bk bv blh clh) _ _ S3' Dx Dy) as (S4 & Db4 & K4 & G4 & Go4 & C4).
        mv K4. set (h4 := cls h3 b' (Pay bk bv blh clh) x y) in *.
        assert (S4' : sess h h4 [a; c'] (olist z ++ olist w ++ [b']) O) by perm.
        destruct (sess_close _ _ _ _ _ _ _ _ (Pay ak av crh arh) _ _ S4' Dz Dw1) as (S5 & Da5 & K5 & G5 & Go5 & C5).
        mv K5. set (h5 := cls h4 a (Pay ak av crh arh) z w) in *.
        assert (S5' : sess h h5 [c'] (olist (Some b') ++ olist (Some a) ++ []) O) by perm.
        destruct (sess_close _ _ _ _ _ _ _ _ (Pay ck cv bh ah) _ _ S5' Db4 Da5) as (S6 & Dc6 & K6 & G6 & Go6 & C6).
        destruct (sess_end _ _ _ _ _ S6) as [So6 F6].
        eexists _, _, _, (cs3 ++ cs). split; [reflexivity|]. split; [exact So6|]. split; [exact F6|].
        split; [rewrite C6, C5, C4, Cs3, Cs, C1; apply app_assoc|]. split; [cbn; apply sub_app with (b := [_]); auto|]. split.
        * split; auto. split; [exact Dc6|]. cbn. eauto.
        * intros Hr. destruct (Uc Hr) as [-> U]. split; [|discriminate]. now destruct (Pc3 U) as [-> _].
      + destruct P3 as (S3 & Dc3 & K3 & C3 & U3 & B3). mv K3.
        assert (S3' : sess h h3 [b'; a] (olist x ++ olist None ++ ca :: olist w) O) by perm.
        destruct (sess_close _ _ _ _ _ _ _ _ (Pay bk bv blh brh) _ _ S3' Dx (den_nil _)) as (S4 & Db4 & K4 & G4 & Go4 & C4).
        mv K4. set (h4 := cls h3 b' (Pay bk bv blh brh) x None) in *.
        assert (S4' : sess h h4 [a] (olist None ++ olist w ++ [ca; b']) O) by perm.
        destruct (sess_close _ _ _ _ _ _ _ _ (Pay ak av alh arh) _ _ S4' (den_nil _) Dw1) as (S5 & Da5 & K5 & G5 & Go5 & C5).
        set (h5 := cls h4 a (Pay ak av alh arh) None w) in *.
        unfold unwind_slot.
        assert (S5' : sess h h5 [] (olists [Some ca; Some b'; Some a] ++ []) O) by perm.
        destruct (sess_drops _ _ _ _ _ _ S5') as (h6 & E6 & S6 & K6 & C6). rewrite E6. cbn [bind].
        destruct (sess_end _ _ _ _ _ S6) as [So6 F6].
        eexists _, _, _, ([_] ++ cs). split; [reflexivity|]. split; [exact So6|]. split; [exact F6|].
        split; [rewrite C6, C5, C4, C3, Cs, C1; reflexivity|].
        split; [cbn; apply sub_keep; exact Sb|]. split; [eauto|].
        intros Hr. destruct (Uc Hr) as [_ U]. congruence.
    - destruct P2 as (S2 & Db2 & K2 & C2 & U2 & B2).
      mv K2.
      assert (S2' : sess h h2 [a] (olist None ++ olist w ++ [ba]) O) by perm.
      destruct (sess_close _ _ _ _ _ _ _ _ (Pay ak av alh arh) _ _ S2' (den_nil _) Dw1) as (S3 & Da3 & K3 & G3 & Go3 & C3).
      unfold unwind_slot.
      assert (S3' : sess h (cls h2 a (Pay ak av alh arh) None w) [] (olists [Some ba; Some a] ++ []) O) by perm.
      destruct (sess_drops _ _ _ _ _ _ S3') as (h4 & E4 & S4 & K4 & C4). rewrite E4. cbn [bind].
      destruct (sess_end _ _ _ _ _ S4) as [So4 F4].
      eexists _, _, _, [_]. split; [reflexivity|]. split; [exact So4|]. split; [exact F4|].
      split; [rewrite C4, C3, C2, C1; reflexivity|]. split; [cbn; apply sub_skip, sub_refl|]. split; [eauto|].
      intros Hr. apply Ub in Hr. congruence.
  Qed.

  Lemma slot_frame {A} O (h0 h : heap) c0 M W x (D : A -> heap -> ptr -> Prop) U :
    frame O h0 h -> slot O h c0 M W x D U -> slot O h0 c0 M W x D U.
  Proof.
    intros F (h' & p' & r & cs & E & So & F' & C & Sb & R & Wc). exists h', p', r, cs.
    split; auto. split; auto. split; [eapply frame_trans; eauto|auto].
  Qed.
  Lemma slot_sub {A} O (h : heap) c0 M M' W x (D : A -> heap -> ptr -> Prop) U :
    sub M M' -> slot O h c0 M W x D U -> slot O h c0 M' W x D U.
  Proof.
    intros F (h' & p' & r & cs & E & So & F' & C & Sb & R & Wc). exists h', p', r, cs.
    split; auto. split; auto. split; auto. split; auto. split; auto.
    clear - F Sb. revert cs Sb. induction F; intros cs Sb; auto.
    - apply sub_skip. auto.
    - inversion Sb; subst; [apply sub_skip|apply sub_keep]; auto.
  Qed.
  Lemma slot_done {A} O (h : heap) c0 M W x (D D' : A -> heap -> ptr -> Prop) U :
    (forall a h' p', D a h' p' -> D' a h' p') -> slot O h c0 M W x D U -> slot O h c0 M W x D' U.
  Proof.
    intros F (h' & p' & r & cs & E & So & F' & C & Sb & R & Wc). exists h', p', r, cs.
    split; auto. split; auto. split; auto. split; auto. split; auto. split; auto. destruct r; auto.
  Qed.

  Lemma rebal_lf_to_rt_ok (h : heap) a ak av alh arh w b tw tb t' s O :
    sound h (a :: O) -> get h a = Some (1, Nd (Pay ak av alh arh) [b; w]) -> den h b (tv tb) -> den h w (tv tw) ->
    rebal_lf_to_rt (Node ak av alh arh tb tw) = Ok (t', s) ->
    slot O h (clones h) (beside_r tb)
      (root1 h b /\ match tb with Node _ _ lh rh _ _ => (lh < rh)%Z -> root1r h b | Leaf => True end)
      (h_rebal_lf_to_rt bomb h (Some a))
      (fun s' h' p' => s' = s /\ den h' p' (tv t') /\ root1 h' p')
      (fun h' p' => p' = None).
  Proof.
    intros So Ga Db Dw E. cbn [rebal_lf_to_rt] in E. destruct tb as [|bk bv blh brh tx ty]; [discriminate|].
    destruct (bal blh brh) as [bb|] eqn:Eb; [|discriminate]. cbn [bind] in E.
    unfold h_rebal_lf_to_rt. cbn [unwrap bind]. rewrite Ga.
    cbn [tv] in Db. destruct (den_some _ _ _ _ Db) as [ba ->].
    destruct (den_get2 _ _ _ _ _ Db) as (c & l & r & Gb & _). cbn [peek]. rewrite Gb. cbn [bind unwrap nd_data plh prh].
    rewrite Eb. cbn [bind].
    assert (Bb : bb = (brh - blh)%Z) by (now apply i8_inv in Eb).
    destruct (Z.leb_spec bb 0).
    - pose proof (rot_rt_ok h a ak av alh arh w (Some ba) tw (Node bk bv blh brh tx ty) t' s O So Ga Db Dw E) as R.
      apply slot_sub with (M' := beside_r (Node bk bv blh brh tx ty)) in R; [|apply sub_app_r, sub_refl].
      destruct R as (h' & p' & r' & cs & R). exists h', p', r', cs.
      destruct R as (R1 & R2 & R3 & R4 & R5 & R6 & R7). 
      do 6 (split; [assumption|]). intros [Hr _]. auto.
    - pose proof (rot_lf_rt_ok h a ak av alh arh w (Some ba) tw (Node bk bv blh brh tx ty) t' s O So Ga Db Dw E) as R.
      destruct R as (h' & p' & r' & cs & R). exists h', p', r', cs.
      destruct R as (R1 & R2 & R3 & R4 & R5 & R6 & R7).
      do 6 (split; [assumption|]).
      intros [Hr1 Hr2]. apply R7. apply Hr2. lia.
  Qed.

  Lemma rebal_rt_to_lf_ok (h : heap) a ak av alh arh x b tx tb t' s O :
    sound h (a :: O) -> get h a = Some (1, Nd (Pay ak av alh arh) [x; b]) -> den h x (tv tx) -> den h b (tv tb) ->
    rebal_rt_to_lf (Node ak av alh arh tx tb) = Ok (t', s) ->
    slot O h (clones h) (beside_l tb)
      (root1 h b /\ match tb with Node _ _ lh rh _ _ => (rh < lh)%Z -> root1l h b | Leaf => True end)
      (h_rebal_rt_to_lf bomb h (Some a))
      (fun s' h' p' => s' = s /\ den h' p' (tv t') /\ root1 h' p')
      (fun h' p' => p' = None).
  Proof.
    intros So Ga Dx Db E. cbn [rebal_rt_to_lf] in E. destruct tb as [|bk bv blh brh ty tz]; [discriminate|].
    destruct (bal blh brh) as [bb|] eqn:Eb; [|discriminate]. cbn [bind] in E.
    unfold h_rebal_rt_to_lf. cbn [unwrap bind]. rewrite Ga.
    cbn [tv] in Db. destruct (den_some _ _ _ _ Db) as [ba ->].
    destruct (den_get2 _ _ _ _ _ Db) as (c & l & r & Gb & _). cbn [peek]. rewrite Gb. cbn [bind unwrap nd_data plh prh].
    rewrite Eb. cbn [bind].
    assert (Bb : bb = (brh - blh)%Z) by (now apply i8_inv in Eb).
    destruct (Z.leb_spec 0 bb).
    - pose proof (rot_lf_ok h a ak av alh arh x (Some ba) tx (Node bk bv blh brh ty tz) t' s O So Ga Dx Db E) as R.
      apply slot_sub with (M' := beside_l (Node bk bv blh brh ty tz)) in R; [|apply sub_app_r, sub_refl].
      destruct R as (h' & p' & r' & cs & R). exists h', p', r', cs.
      destruct R as (R1 & R2 & R3 & R4 & R5 & R6 & R7). 
      do 6 (split; [assumption|]). intros [Hr _]. auto.
    - pose proof (rot_rt_lf_ok h a ak av alh arh x (Some ba) tx (Node bk bv blh brh ty tz) t' s O So Ga Dx Db E) as R.
      destruct R as (h' & p' & r' & cs & R). exists h', p', r', cs.
      destruct R as (R1 & R2 & R3 & R4 & R5 & R6 & R7).
      do 6 (split; [assumption|]).
      intros [Hr1 Hr2]. apply R7. apply Hr2. lia.
  Qed.

  (** ** [ins] *)
  Section Ins.
    Context {Q : Type} (bor : K -> Q) (cmp : Q -> Q -> comparison).

    (** After an insertion that made the tree taller, the child on the higher side is not
        shared either. *)
    Definition leans (h : heap) (p : ptr) (t : tree) : Prop :=
      match t with
      | Leaf => True
      | Node _ _ lh rh _ _ => ((rh < lh)%Z -> root1l h p) /\ ((lh < rh)%Z -> root1r h p)
      end.

    Lemma ins_ok t : forall fuel (h : heap) p k v t' old tl O,
      sound h (olist p ++ O) -> den h p (tv t) -> levels t < fuel -> ins bor cmp t k v = Ok (t', old, tl) ->
      slot O h (clones h) (path bor cmp t (bor k)) False (h_ins bor cmp bomb fuel h p k v)
        (fun x h' p' => x = (old, tl) /\ den h' p' (tv t') /\ root1 h' p' /\ (tl = true -> leans h' p' t'))
        (fun h' p' => den h' p' (tv t)).
    Proof.
      induction t as [|nk nv lh rh l IHl r IHr]; intros fuel h p k v t' old tl O So D Lf E;
        destruct fuel as [|fuel]; try lia.
      - cbn in D. apply den_none in D as ->. cbn in E. injection E as <- <- <-.
        cbn [h_ins]. destruct (alloc h (Nd (Pay k v 0%Z 0%Z) [None; None])) as [h1 a] eqn:Ea.
        destruct (sess_alloc _ _ _ None None [] O (Pay k v 0%Z 0%Z) VN VN h1 a (sess_start _ [] _ So) (den_nil _) (den_nil _) Ea)
          as (S1 & D1 & K1 & G1 & Go1 & C1 & _ & _).
        destruct (sess_end _ _ _ _ _ S1) as [So1 F1].
        eexists _, _, _, []. split; [reflexivity|]. split; [exact So1|]. split; [exact F1|]. split; [now rewrite C1|].
        split; [apply sub_nil_l|]. split; [|intros []]. split; auto. split; [exact D1|].
        split. { cbn. eauto. } intros _. cbn. split; lia.
      - cbn [tv] in D. destruct (den_some _ _ _ _ D) as [rc ->]. cbn [h_ins].
        destruct (sess_open bomb h h [] rc [] O _ _ _ (sess_start _ [rc] _ So) D) as (h1 & r1 & E1 & P1).
        rewrite E1. cbn [bind].
        destruct r1 as [[[[a d] pl] pr]|].
        2:{ destruct P1 as (S1 & D1 & K1 & C1 & U1 & B1). destruct (sess_end _ _ _ _ _ S1) as [So1 F1].
            eexists _, _, _, [_]. split; [reflexivity|]. split; [exact So1|]. split; [exact F1|]. split; [rewrite C1; reflexivity|].
            split; [cbn [path]; apply sub_app_r, sub_refl|]. split; [eauto|intros []]. }
        destruct P1 as (-> & S1 & Dl & Dr & K1 & cs & C1 & Sb & _). cbn [pk pv plh prh].
        cbn [ins] in E. cbn [path levels] in *.
        destruct (cmp (bor k) (bor nk)) eqn:Ec.
        + injection E as <- <- <-.
          assert (S1' : sess h h1 [a] (olist pl ++ olist pr ++ []) O) by perm.
          destruct (sess_close _ _ _ _ _ _ _ _ (Pay k v lh rh) _ _ S1' Dl Dr) as (S2 & D2 & K2 & G2 & Go2 & C2).
          destruct (sess_end _ _ _ _ _ S2) as [So2 F2].
          eexists _, _, _, cs. split; [reflexivity|]. split; [exact So2|]. split; [exact F2|]. split; [now rewrite C2|].
          split; [exact Sb|]. split; [|intros []]. split; auto. split; [exact D2|]. split; [cbn; eauto|discriminate].
        + destruct (ins bor cmp l k v) as [[[l' old'] tl']|] eqn:El; [|discriminate]. cbn [bind] in E.
          assert (S1' : sess h h1 [a] (olist pl ++ olist pr) O) by perm.
          destruct (IHl fuel h1 pl k v l' old' tl' (olist pr ++ O)) as (h2 & pl' & o2 & cs2 & E2 & So2 & F2 & C2 & Sb2 & R2 & _);
            auto; [now apply sess_sub in S1'|lia|].
          rewrite E2. cbn [bind].
          destruct (sess_call _ _ _ _ _ (olist pl') _ _ S1' So2 F2) as [S2 K2].
          mv K2.
          assert (S2' : sess h h2 [a] (olist pl' ++ olist pr ++ []) O) by perm.
          destruct o2 as [[old2 tl2]|].
          2:{ destruct R2 as [Dl2 Bm].
              destruct (sess_close _ _ _ _ _ _ _ _ (Pay nk nv lh rh) _ _ S2' Dl2 Dr) as (S3 & D3 & K3 & G3 & Go3 & C3).
              destruct (sess_end _ _ _ _ _ S3) as [So3 F3].
              eexists _, _, _, (cs2 ++ cs). split; [reflexivity|]. split; [exact So3|]. split; [exact F3|].
              split; [rewrite C3, C2, C1; apply app_assoc|]. split; [apply sub_app; auto|]. split; [auto|intros []]. }
          destruct R2 as (Ex & Dl2 & R1 & Ln). injection Ex as -> ->.
          destruct (i8_add lh (b2z tl')) as [lh'|] eqn:Eh; [|discriminate]. cbn [bind] in E |- *.
          unfold set_lh. cbn [pk pv plh prh].
          destruct (sess_close _ _ _ _ _ _ _ _ (Pay nk nv lh' rh) _ _ S2' Dl2 Dr) as (S3 & D3 & K3 & G3 & Go3 & C3).
          destruct (sess_end _ _ _ _ _ S3) as [So3 F3].
          set (h3 := cls h2 a (Pay nk nv lh' rh) pl' pr) in *.
          assert (C3' : clones h3 = (cs2 ++ cs) ++ clones h) by (rewrite C3, C2, C1; apply app_assoc).
          assert (Ha2 : get h2 a = None) by (apply (s_rs _ _ _ _ _ S2 a); left; auto).
          assert (R13 : root1 h3 pl').
          { destruct pl' as [b|]; auto. destruct R1 as [n Gn]. exists n. rewrite Go3; auto. congruence. }
          assert (Ln3 : tl' = true -> leans h3 pl' l').
          { intros Ht. specialize (Ln Ht). destruct l' as [|? ? lh2 rh2 ? ?]; auto. destruct Ln as [L1 L2].
            assert (Hk : forall b n, get h2 b = Some n -> get h3 b = Some n).
            { intros b n Gb. rewrite Go3; auto. congruence. }
            split; intros Hlt; [specialize (L1 Hlt)|specialize (L2 Hlt)]; destruct pl' as [b|]; auto.
            - destruct L1 as (d1 & x & y & Gb & Rx). exists d1, x, y. split; auto.
              destruct x as [x|]; auto. destruct Rx as [n Gx]. exists n. auto.
            - destruct L2 as (d1 & x & y & Gb & Rx). exists d1, x, y. split; auto.
              destruct y as [y|]; auto. destruct Rx as [n Gx]. exists n. auto. }
          destruct tl'.
          * destruct (bal lh' rh) as [b|] eqn:Eb; [|discriminate]. cbn [bind] in E |- *.
            destruct (Z.ltb_spec b (-1)).
            -- destruct (rebal_lf_to_rt (Node nk nv lh' rh l' r)) as [[n' s]|] eqn:Er; [|discriminate].
               cbn [bind] in E. injection E as <- <- <-.
               mv K3.
               destruct (rebal_lf_to_rt_ok h3 a nk nv lh' rh pr pl' r l' n' s O So3 G3) as
                 (h4 & p4 & o4 & cs4 & E4 & So4 & F4 & C4 & Sb4 & R4 & W4); auto.
               { destruct W4 as [-> Hu].
                 { split; auto. specialize (Ln3 eq_refl). destruct l'; auto. apply Ln3. }
                 rewrite E4. cbn [bind].
                 eexists _, _, _, (cs2 ++ cs). split; [unfold then_; destruct o4; [reflexivity|congruence]|].
                 split; [exact So4|]. split; [eapply frame_trans; eauto|]. split; [rewrite C4; cbn; auto|].
                 split; [apply sub_app; auto|]. split; [|intros []].
                 destruct o4 as [s4|]; [|congruence]. destruct R4 as (_ & D4 & R14). split; auto. split; auto. split; auto. discriminate. }
            -- injection E as <- <- <-.
               eexists _, _, _, (cs2 ++ cs). split; [reflexivity|]. split; [exact So3|]. split; [exact F3|].
               split; [exact C3'|]. split; [apply sub_app; auto|]. split; [|intros []].
               split; auto. split; [exact D3|]. split; [cbn; eauto|].
               intros Hb. apply Z.ltb_lt in Hb. apply i8_inv in Eb. cbn. split; [|lia]. intros _. eauto 6.
          * injection E as <- <- <-.
            eexists _, _, _, (cs2 ++ cs). split; [reflexivity|]. split; [exact So3|]. split; [exact F3|].
            split; [exact C3'|]. split; [apply sub_app; auto|]. split; [|intros []].
            split; auto. split; [exact D3|]. split; [cbn; eauto|discriminate].
        + destruct (ins bor cmp r k v) as [[[r' old'] tl']|] eqn:El; [|discriminate]. cbn [bind] in E.
          assert (S1' : sess h h1 [a] (olist pr ++ olist pl) O) by perm.
          destruct (IHr fuel h1 pr k v r' old' tl' (olist pl ++ O)) as (h2 & pr' & o2 & cs2 & E2 & So2 & F2 & C2 & Sb2 & R2 & _);
            auto; [now apply sess_sub in S1'|lia|].
          rewrite E2. cbn [bind].
          destruct (sess_call _ _ _ _ _ (olist pr') _ _ S1' So2 F2) as [S2 K2].
          mv K2.
          assert (S2' : sess h h2 [a] (olist pl ++ olist pr' ++ []) O) by perm.
          destruct o2 as [[old2 tl2]|].
          2:{ destruct R2 as [Dr2 Bm].
              destruct (sess_close _ _ _ _ _ _ _ _ (Pay nk nv lh rh) _ _ S2' Dl Dr2) as (S3 & D3 & K3 & G3 & Go3 & C3).
              destruct (sess_end _ _ _ _ _ S3) as [So3 F3].
              eexists _, _, _, (cs2 ++ cs). split; [reflexivity|]. split; [exact So3|]. split; [exact F3|].
              split; [rewrite C3, C2, C1; apply app_assoc|]. split; [apply sub_app; auto|]. split; [auto|intros []]. }
          destruct R2 as (Ex & Dr2 & R1 & Ln). injection Ex as -> ->.
          destruct (i8_add rh (b2z tl')) as [rh'|] eqn:Eh; [|discriminate]. cbn [bind] in E |- *.
          unfold set_rh. cbn [pk pv plh prh].
          destruct (sess_close _ _ _ _ _ _ _ _ (Pay nk nv lh rh') _ _ S2' Dl Dr2) as (S3 & D3 & K3 & G3 & Go3 & C3).
          destruct (sess_end _ _ _ _ _ S3) as [So3 F3].
          set (h3 := cls h2 a (Pay nk nv lh rh') pl pr') in *.
          assert (C3' : clones h3 = (cs2 ++ cs) ++ clones h) by (rewrite C3, C2, C1; apply app_assoc).
          assert (Ha2 : get h2 a = None) by (apply (s_rs _ _ _ _ _ S2 a); left; auto).
          assert (R13 : root1 h3 pr').
          { destruct pr' as [b|]; auto. destruct R1 as [n Gn]. exists n. rewrite Go3; auto. congruence. }
          assert (Ln3 : tl' = true -> leans h3 pr' r').
          { intros Ht. specialize (Ln Ht). destruct r' as [|? ? lh2 rh2 ? ?]; auto. destruct Ln as [L1 L2].
            assert (Hk : forall b n, get h2 b = Some n -> get h3 b = Some n).
            { intros b n Gb. rewrite Go3; auto. congruence. }
            split; intros Hlt; [specialize (L1 Hlt)|specialize (L2 Hlt)]; destruct pr' as [b|]; auto.
            - destruct L1 as (d1 & x & y & Gb & Rx). exists d1, x, y. split; auto.
              destruct x as [x|]; auto. destruct Rx as [n Gx]. exists n. auto.
            - destruct L2 as (d1 & x & y & Gb & Rx). exists d1, x, y. split; auto.
              destruct y as [y|]; auto. destruct Rx as [n Gx]. exists n. auto. }
          destruct tl'.
          * destruct (bal lh rh') as [b|] eqn:Eb; [|discriminate]. cbn [bind] in E |- *.
            destruct (Z.ltb_spec 1 b).
            -- destruct (rebal_rt_to_lf (Node nk nv lh rh' l r')) as [[n' s]|] eqn:Er; [|discriminate].
               cbn [bind] in E. injection E as <- <- <-.
               mv K3.
               destruct (rebal_rt_to_lf_ok h3 a nk nv lh rh' pl pr' l r' n' s O So3 G3) as
                 (h4 & p4 & o4 & cs4 & E4 & So4 & F4 & C4 & Sb4 & R4 & W4); auto.
               { destruct W4 as [-> Hu].
                 { split; auto. specialize (Ln3 eq_refl). destruct r'; auto. apply Ln3. }
                 rewrite E4. cbn [bind].
                 eexists _, _, _, (cs2 ++ cs). split; [unfold then_; destruct o4; [reflexivity|congruence]|].
                 split; [exact So4|]. split; [eapply frame_trans; eauto|]. split; [rewrite C4; cbn; auto|].
                 split; [apply sub_app; auto|]. split; [|intros []].
                 destruct o4 as [s4|]; [|congruence]. destruct R4 as (_ & D4 & R14). split; auto. split; auto. split; auto. discriminate. }
            -- injection E as <- <- <-.
               eexists _, _, _, (cs2 ++ cs). split; [reflexivity|]. split; [exact So3|]. split; [exact F3|].
               split; [exact C3'|]. split; [apply sub_app; auto|]. split; [|intros []].
               split; auto. split; [exact D3|]. split; [cbn; eauto|].
               intros Hb. apply Z.ltb_lt in Hb. apply i8_inv in Eb. cbn. split; [lia|]. intros _. eauto 6.
          * injection E as <- <- <-.
            eexists _, _, _, (cs2 ++ cs). split; [reflexivity|]. split; [exact So3|]. split; [exact F3|].
            split; [exact C3'|]. split; [apply sub_app; auto|]. split; [|intros []].
            split; auto. split; [exact D3|]. split; [cbn; eauto|discriminate].
    Qed.
  End Ins.
End Rot.
