(** Removal and [get_mut] on shared trees. *)
From Coq Require Import List ZArith Bool Lia Permutation.
From Verif Require Import Base Heap HeapProofs AvlModel AvlHeapModel AvlHeapSpec AvlHeapProofs.
Import ListNotations.
Local Open Scope nat_scope.

Section Rm.
  Context {K V : Type}.
  Variable bomb : nat -> bool.
  Notation pay := (pay K V).
  Notation heap := (heap pay).
  Notation tree := (tree K V).
  Notation slot := (slot bomb).

  (** What is left after unwinding: nothing is made up, nothing is moved. *)
  Definition remnant (t : tree) (h' : heap) (p' : ptr) : Prop :=
    exists t', den h' p' (tv t') /\ sub (elems t') (elems t).
  Lemma remnant_none t (h : heap) : remnant t h None.
  Proof. exists Leaf. split; [constructor|apply sub_nil_l]. Qed.
  Lemma remnant_self t (h : heap) p : den h p (tv t) -> remnant t h p.
  Proof. exists t. split; auto using sub_refl. Qed.

  Definition is_done (t' : tree) {A} (a : A) : A -> heap -> ptr -> Prop :=
    fun a' h' p' => a' = a /\ den h' p' (tv t').

  Lemma after_rm_left_ok (h0 h : heap) a nk nv lh rh pl pr tl tr sh t' s O :
    sess h0 h [a] (olist pl ++ olist pr) O -> den h pl (tv tl) -> den h pr (tv tr) ->
    after_rm_left nk nv lh rh tl tr sh = Ok (t', s) ->
    slot O h0 (clones h) (beside_l tr) False (h_after_rm_left bomb h a (Pay nk nv lh rh) pl pr sh)
      (is_done t' s) (fun h' p' => p' = None).
  Proof.
    intros S Dl Dr E. unfold after_rm_left in E. unfold h_after_rm_left. cbn [plh prh].
    destruct (i8_sub lh (b2z sh)) as [lh'|] eqn:Eh; [|discriminate]. cbn [bind] in E |- *.
    unfold set_lh. cbn [pk pv plh prh].
    assert (S' : sess h0 h [a] (olist pl ++ olist pr ++ []) O) by perm.
    destruct (sess_close _ _ _ _ _ _ _ _ (Pay nk nv lh' rh) _ _ S' Dl Dr) as (S3 & D3 & K3 & G3 & Go3 & C3).
    destruct (sess_end _ _ _ _ _ S3) as [So3 F3]. set (h3 := cls h a (Pay nk nv lh' rh) pl pr) in *.
    destruct sh.
    - destruct (bal lh' rh) as [b|] eqn:Eb; [|discriminate]. cbn [bind] in E |- *.
      destruct (Z.ltb_spec 1 b).
      + mv K3. eapply slot_frame; [exact F3|].
        destruct (rebal_rt_to_lf_ok bomb h3 a nk nv lh' rh pl pr tl tr t' s O So3 G3 Dl Dr E)
          as (h4 & p4 & o4 & cs4 & E4 & So4 & F4 & C4 & Sb4 & R4 & _).
        rewrite C3 in C4. exists h4, p4, o4, cs4. do 5 (split; [assumption|]). split; [|intros []].
        destruct o4; auto. destruct R4 as (-> & R4 & _). split; auto.
      + injection E as <- <-. eexists _, _, _, []. split; [reflexivity|]. split; [exact So3|]. split; [exact F3|].
        split; [exact C3|]. split; [apply sub_nil_l|]. split; [|intros []]. split; auto.
    - injection E as <- <-. eexists _, _, _, []. split; [reflexivity|]. split; [exact So3|]. split; [exact F3|].
      split; [exact C3|]. split; [apply sub_nil_l|]. split; [|intros []]. split; auto.
  Qed.

  Lemma after_rm_right_ok (h0 h : heap) a nk nv lh rh pl pr tl tr sh t' s O :
    sess h0 h [a] (olist pl ++ olist pr) O -> den h pl (tv tl) -> den h pr (tv tr) ->
    after_rm_right nk nv lh rh tl tr sh = Ok (t', s) ->
    slot O h0 (clones h) (beside_r tl) False (h_after_rm_right bomb h a (Pay nk nv lh rh) pl pr sh)
      (is_done t' s) (fun h' p' => p' = None).
  Proof.
    intros S Dl Dr E. unfold after_rm_right in E. unfold h_after_rm_right. cbn [plh prh].
    destruct (i8_sub rh (b2z sh)) as [rh'|] eqn:Eh; [|discriminate]. cbn [bind] in E |- *.
    unfold set_rh. cbn [pk pv plh prh].
    assert (S' : sess h0 h [a] (olist pl ++ olist pr ++ []) O) by perm.
    destruct (sess_close _ _ _ _ _ _ _ _ (Pay nk nv lh rh') _ _ S' Dl Dr) as (S3 & D3 & K3 & G3 & Go3 & C3).
    destruct (sess_end _ _ _ _ _ S3) as [So3 F3]. set (h3 := cls h a (Pay nk nv lh rh') pl pr) in *.
    destruct sh.
    - destruct (bal lh rh') as [b|] eqn:Eb; [|discriminate]. cbn [bind] in E |- *.
      destruct (Z.ltb_spec b (-1)).
      + mv K3. eapply slot_frame; [exact F3|].
        destruct (rebal_lf_to_rt_ok bomb h3 a nk nv lh rh' pr pl tr tl t' s O So3 G3 Dl Dr E)
          as (h4 & p4 & o4 & cs4 & E4 & So4 & F4 & C4 & Sb4 & R4 & _).
        rewrite C3 in C4. exists h4, p4, o4, cs4. do 5 (split; [assumption|]). split; [|intros []].
        destruct o4; auto. destruct R4 as (-> & R4 & _). split; auto.
      + injection E as <- <-. eexists _, _, _, []. split; [reflexivity|]. split; [exact So3|]. split; [exact F3|].
        split; [exact C3|]. split; [apply sub_nil_l|]. split; [|intros []]. split; auto.
    - injection E as <- <-. eexists _, _, _, []. split; [reflexivity|]. split; [exact So3|]. split; [exact F3|].
      split; [exact C3|]. split; [apply sub_nil_l|]. split; [|intros []]. split; auto.
  Qed.

  (** [take_node] after [make_mut] never fails. *)
  Lemma take_node_ok (h0 h : heap) a d l r O tl tr :
    sess h0 h [a] (olist l ++ olist r ++ []) O -> den h l tl -> den h r tr ->
    exists h', h_take_node h a d l r = Ok (h', d, l, r)
      /\ sess h0 h' [] (olist l ++ olist r ++ []) O /\ den h' l tl /\ den h' r tr /\ clones h' = clones h.
  Proof.
    intros S Dl Dr. destruct (sess_close _ _ _ _ _ _ _ _ d _ _ S Dl Dr) as (S1 & D1 & K1 & G1 & Go1 & C1).
    unfold h_take_node. set (h1 := cls h a d l r) in *. pose proof S1 as [W A F _ _].
    destruct (take_ok h1 a _ O W A G1) as (h2 & E2 & W2 & A2 & F2 & D2 & G2 & L2 & Lc & C2).
    rewrite E2. cbn [bind nd_kids nd_data]. exists h2. split; auto. cbn [nd_kids] in *. rewrite olists2 in W2.
    mv K1. specialize (D2 _ (dens2 _ _ _ _ _ Dl Dr)).
    inversion D2 as [|? ? ? ? Q1 Q2]; subst. inversion Q2 as [|? ? ? ? Q3 Q4]; subst.
    split; [|split; [auto|split; [auto|congruence]]].
    split; auto; [|eapply frame_trans; eauto|constructor|intros b []].
    now rewrite app_nil_r.
  Qed.

  (** The common part: the recursive call unwound. *)
  Lemma unwound_left (h0 h : heap) a k v lh rh pl pr tl tl0 tr O :
    sess h0 h [a] (olist pl ++ olist pr) O -> remnant tl0 h pl -> den h pr (tv tr) ->
    tl = Node k v lh rh tl0 tr ->
    sound (cls h a (Pay k v lh rh) pl pr) ([a] ++ O) /\ frame O h0 (cls h a (Pay k v lh rh) pl pr)
    /\ clones (cls h a (Pay k v lh rh) pl pr) = clones h
    /\ remnant tl (cls h a (Pay k v lh rh) pl pr) (Some a).
  Proof.
    intros S (t1 & D1 & Sb) Dr ->.
    assert (S' : sess h0 h [a] (olist pl ++ olist pr ++ []) O) by perm.
    destruct (sess_close _ _ _ _ _ _ _ _ (Pay k v lh rh) _ _ S' D1 Dr) as (S3 & D3 & K3 & G3 & Go3 & C3).
    destruct (sess_end _ _ _ _ _ S3) as [So3 F3]. split; auto. split; auto. split; auto.
    exists (Node k v lh rh t1 tr). split; auto. cbn. apply sub_app; auto using sub_refl.
  Qed.
  Lemma unwound_right (h0 h : heap) a k v lh rh pl pr tl tr0 t O :
    sess h0 h [a] (olist pl ++ olist pr) O -> den h pl (tv tl) -> remnant tr0 h pr ->
    t = Node k v lh rh tl tr0 ->
    sound (cls h a (Pay k v lh rh) pl pr) ([a] ++ O) /\ frame O h0 (cls h a (Pay k v lh rh) pl pr)
    /\ clones (cls h a (Pay k v lh rh) pl pr) = clones h
    /\ remnant t (cls h a (Pay k v lh rh) pl pr) (Some a).
  Proof.
    intros S Dl (t1 & D1 & Sb) ->.
    assert (S' : sess h0 h [a] (olist pl ++ olist pr ++ []) O) by perm.
    destruct (sess_close _ _ _ _ _ _ _ _ (Pay k v lh rh) _ _ S' Dl D1) as (S3 & D3 & K3 & G3 & Go3 & C3).
    destruct (sess_end _ _ _ _ _ S3) as [So3 F3]. split; auto. split; auto. split; auto.
    exists (Node k v lh rh tl t1). split; auto. cbn. apply sub_app; auto using sub_refl. now apply sub_keep.
  Qed.

  Lemma then_slot {A B} O (h0 : heap) cs c0 M M0 M' x (f : A -> B) t' s t :
    slot O h0 (cs ++ c0) M False x (is_done t' s) (fun h' p' => p' = None) ->
    sub cs M0 -> M' = M ++ M0 ->
    slot O h0 c0 M' False (y <- x;; Ok (then_ y f)) (is_done t' (f s)) (remnant t).
  Proof.
    intros (h' & p' & r & cs' & E & So & F & C & Sb & R & _) Sb0 ->. rewrite E. cbn [bind then_].
    destruct r as [a|].
    - eexists _, _, _, (cs' ++ cs). split; [reflexivity|]. split; [exact So|]. split; [exact F|].
      split; [rewrite C; apply app_assoc|]. split; [apply sub_app; auto|]. split; [|intros []].
      destruct R as [-> D]. split; auto.
    - eexists _, _, _, (cs' ++ cs). split; [reflexivity|]. split; [exact So|]. split; [exact F|].
      split; [rewrite C; apply app_assoc|]. split; [apply sub_app; auto|]. split; [|intros []].
      destruct R as [-> D]. split; auto using remnant_none.
  Qed.

  (** Opening the node at the root of the slot. *)
  Lemma slot_open {A} (h : heap) rc d tl tr O M (t : tree) (D : A -> heap -> ptr -> Prop) f :
    tv t = VT d [tl; tr] ->
    sound h (rc :: O) -> den h (Some rc) (VT d [tl; tr]) -> sub [d] M ->
    (forall h1 a pl pr cs, sess h h1 [a] (olist pl ++ olist pr) O -> den h1 pl tl -> den h1 pr tr ->
       clones h1 = cs ++ clones h -> sub cs [d] ->
       slot O h (clones h) M False (f (h1, Done (a, d, pl, pr))) D (remnant t)) ->
    (forall h1, f (h1, Unwound) = Ok (h1, Some rc, Unwound)) ->
    slot O h (clones h) M False (bind (opn bomb h rc) f) D (remnant t).
  Proof.
    intros Et So Dn Sm Hd Hu.
    destruct (sess_open bomb h h [] rc [] O _ _ _ (sess_start _ [rc] _ So) Dn) as (h1 & r1 & E1 & P1).
    rewrite E1. cbn [bind].
    destruct r1 as [[[[a d'] pl] pr]|].
    - destruct P1 as (-> & S1 & Dl & Dr & K1 & cs & C1 & Sb & _). eapply Hd; eauto. perm.
    - destruct P1 as (S1 & D1 & K1 & C1 & U1 & B1). destruct (sess_end _ _ _ _ _ S1) as [So1 F1].
      rewrite Hu. eexists _, _, _, [_]. split; [reflexivity|]. split; [exact So1|]. split; [exact F1|].
      split; [rewrite C1; reflexivity|]. split; [exact Sm|]. split; [|intros []]. split; eauto.
      apply remnant_self. now rewrite Et.
  Qed.

  Lemma rm_leftmost_ok t : forall fuel (h : heap) p t' kv s O,
    sound h (olist p ++ O) -> den h p (tv t) -> levels t < fuel -> rm_leftmost t = Ok (t', kv, s) ->
    slot O h (clones h) (near_first t) False (h_rm_leftmost bomb fuel h p) (is_done t' (kv, s)) (remnant t).
  Proof.
    induction t as [|nk nv lh rh l IHl r IHr]; intros fuel h p t' kv s O So D Lf E;
      destruct fuel as [|fuel]; try lia.
    - cbn in D. apply den_none in D as ->. injection E as <- <- <-.
      eexists _, _, _, []. split; [reflexivity|]. split; [exact So|]. split; [apply frame_refl|].
      split; [reflexivity|]. split; [apply sub_nil|]. split; [|intros []]. split; auto. constructor.
    - cbn [tv] in D. destruct (den_some _ _ _ _ D) as [rc ->]. cbn [h_rm_leftmost].
      eapply (slot_open h rc); [reflexivity|exact So|exact D|cbn [near_first]; apply sub_app_r, sub_app_r, sub_refl| |reflexivity].
      intros h1 a pl pr cs S1 Dl Dr C1 Sb.
      cbn [rm_leftmost near_first levels] in *.
      destruct l as [|lk lv llh lrh ll lr].
      + injection E as <- <- <-. cbn [tv] in Dl. apply den_none in Dl as ->.
        assert (S1' : sess h h1 [a] (olist None ++ olist pr ++ []) O) by perm.
        destruct (take_node_ok _ _ _ (Pay nk nv lh rh) _ _ _ _ _ S1' (den_nil _) Dr) as (h2 & E2 & S2 & _ & Dr2 & C2).
        rewrite E2. cbn [bind pk pv].
        assert (S2' : sess h h2 [] (olist pr) O) by perm.
        destruct (sess_end _ _ _ _ _ S2') as [So2 F2].
        eexists _, _, _, cs. split; [reflexivity|]. split; [exact So2|]. split; [exact F2|]. split; [congruence|].
        split; [apply sub_app_r; exact Sb|]. split; [|intros []]. split; auto.
      + destruct (den_some _ _ _ _ Dl) as [la ->].
        destruct (rm_leftmost (Node lk lv llh lrh ll lr)) as [[[l' kv'] sh]|] eqn:El; [|discriminate]. cbn [bind] in E.
        destruct (after_rm_left nk nv lh rh l' r sh) as [[t1 s1]|] eqn:Ea; [|discriminate].
        cbn [bind] in E. injection E as <- <- <-.
        destruct (IHl fuel h1 (Some la) l' kv' sh (olist pr ++ O)) as (h2 & pl' & o2 & cs2 & E2 & So2 & F2 & C2 & Sb2 & R2 & _);
          auto; [now apply sess_sub in S1|lia|].
        rewrite E2. cbn [bind].
        destruct (sess_call _ _ _ _ _ (olist pl') _ _ S1 So2 F2) as [S2 K2]. mv K2.
        assert (C2' : clones h2 = (cs2 ++ cs) ++ clones h) by (rewrite C2, C1; apply app_assoc).
        destruct o2 as [[kv2 s2]|].
        * destruct R2 as [Ex Dl2]. injection Ex as -> ->.
          pose proof (after_rm_left_ok _ _ _ _ _ _ _ _ _ _ _ _ _ _ _ S2 Dl2 Dr Ea) as Sl. rewrite C2' in Sl.
          eapply then_slot with (f := fun s => (kv', s)); [exact Sl|apply sub_app; eassumption|reflexivity].
        * destruct R2 as [Rm Bm]. destruct (unwound_left _ _ _ nk nv lh rh _ _ _ _ _ _ S2 Rm Dr eq_refl) as (So3 & F3 & C3 & R3).
          eexists _, _, _, (cs2 ++ cs). split; [reflexivity|]. split; [exact So3|]. split; [exact F3|].
          split; [now rewrite C3|]. split; [apply sub_app_r, sub_app; auto|]. split; [auto|intros []].
  Qed.

  Lemma rm_rightmost_ok t : forall fuel (h : heap) p t' kv s O,
    sound h (olist p ++ O) -> den h p (tv t) -> levels t < fuel -> rm_rightmost t = Ok (t', kv, s) ->
    slot O h (clones h) (near_last t) False (h_rm_rightmost bomb fuel h p) (is_done t' (kv, s)) (remnant t).
  Proof.
    induction t as [|nk nv lh rh l IHl r IHr]; intros fuel h p t' kv s O So D Lf E;
      destruct fuel as [|fuel]; try lia.
    - cbn in D. apply den_none in D as ->. injection E as <- <- <-.
      eexists _, _, _, []. split; [reflexivity|]. split; [exact So|]. split; [apply frame_refl|].
      split; [reflexivity|]. split; [apply sub_nil|]. split; [|intros []]. split; auto. constructor.
    - cbn [tv] in D. destruct (den_some _ _ _ _ D) as [rc ->]. cbn [h_rm_rightmost].
      eapply (slot_open h rc); [reflexivity|exact So|exact D|cbn [near_last]; apply sub_app_r, sub_app_r, sub_refl| |reflexivity].
      intros h1 a pl pr cs S1 Dl Dr C1 Sb.
      cbn [rm_rightmost near_last levels] in *.
      destruct r as [|lk lv llh lrh ll lr].
      + injection E as <- <- <-. cbn [tv] in Dr. apply den_none in Dr as ->.
        assert (S1' : sess h h1 [a] (olist pl ++ olist None ++ []) O) by perm.
        destruct (take_node_ok _ _ _ (Pay nk nv lh rh) _ _ _ _ _ S1' Dl (den_nil _)) as (h2 & E2 & S2 & Dl2 & _ & C2).
        rewrite E2. cbn [bind pk pv].
        assert (S2' : sess h h2 [] (olist pl) O) by perm.
        destruct (sess_end _ _ _ _ _ S2') as [So2 F2].
        eexists _, _, _, cs. split; [reflexivity|]. split; [exact So2|]. split; [exact F2|]. split; [congruence|].
        split; [apply sub_app_r; exact Sb|]. split; [|intros []]. split; auto.
      + destruct (den_some _ _ _ _ Dr) as [la ->].
        destruct (rm_rightmost (Node lk lv llh lrh ll lr)) as [[[r' kv'] sh]|] eqn:El; [|discriminate]. cbn [bind] in E.
        destruct (after_rm_right nk nv lh rh l r' sh) as [[t1 s1]|] eqn:Ea; [|discriminate].
        cbn [bind] in E. injection E as <- <- <-.
        assert (S1' : sess h h1 [a] (olist (Some la) ++ olist pl) O) by perm.
        destruct (IHr fuel h1 (Some la) r' kv' sh (olist pl ++ O)) as (h2 & pr' & o2 & cs2 & E2 & So2 & F2 & C2 & Sb2 & R2 & _);
          auto; [now apply sess_sub in S1'|lia|].
        rewrite E2. cbn [bind].
        destruct (sess_call _ _ _ _ _ (olist pr') _ _ S1' So2 F2) as [S2 K2]. mv K2.
        assert (C2' : clones h2 = (cs2 ++ cs) ++ clones h) by (rewrite C2, C1; apply app_assoc).
        assert (S2' : sess h h2 [a] (olist pl ++ olist pr') O) by perm.
        destruct o2 as [[kv2 s2]|].
        * destruct R2 as [Ex Dr2]. injection Ex as -> ->.
          pose proof (after_rm_right_ok _ _ _ _ _ _ _ _ _ _ _ _ _ _ _ S2' Dl Dr2 Ea) as Sl. rewrite C2' in Sl.
          eapply then_slot with (f := fun s => (kv', s)); [exact Sl|apply sub_app; eassumption|reflexivity].
        * destruct R2 as [Rm Bm]. destruct (unwound_right _ _ _ nk nv lh rh _ _ _ _ _ _ S2' Dl Rm eq_refl) as (So3 & F3 & C3 & R3).
          eexists _, _, _, (cs2 ++ cs). split; [reflexivity|]. split; [exact So3|]. split; [exact F3|].
          split; [now rewrite C3|]. split; [apply sub_app_r, sub_app; auto|]. split; [auto|intros []].
  Qed.

  Context {Q : Type} (bor : K -> Q) (cmp : Q -> Q -> comparison).
  Lemma rm_ok t : forall fuel (h : heap) p q t' kv s O,
    sound h (olist p ++ O) -> den h p (tv t) -> levels t < fuel -> rm bor cmp t q = Ok (t', kv, s) ->
    slot O h (clones h) (near bor cmp t q) False (h_rm bor cmp bomb fuel h p q) (is_done t' (kv, s)) (remnant t).
  Proof.
    induction t as [|nk nv lh rh l IHl r IHr]; intros fuel h p q t' kv s O So D Lf E;
      destruct fuel as [|fuel]; try lia.
    - cbn in D. apply den_none in D as ->. injection E as <- <- <-.
      eexists _, _, _, []. split; [reflexivity|]. split; [exact So|]. split; [apply frame_refl|].
      split; [reflexivity|]. split; [apply sub_nil|]. split; [|intros []]. split; auto. constructor.
    - cbn [tv] in D. destruct (den_some _ _ _ _ D) as [rc ->]. cbn [h_rm].
      eapply (slot_open h rc); [reflexivity|exact So|exact D|cbn [near]; apply sub_app_r, sub_refl| |reflexivity].
      intros h1 a pl pr cs S1 Dl Dr C1 Sb.
      cbn [rm near levels pk] in *.
      destruct (cmp q (bor nk)) eqn:Ec.
      + destruct l as [|lk lv llh lrh ll lr].
        * cbn [tv] in Dl. apply den_none in Dl as ->.
          assert (S1' : sess h h1 [a] (olist None ++ olist pr ++ []) O) by perm.
          destruct (take_node_ok _ _ _ (Pay nk nv lh rh) _ _ _ _ _ S1' (den_nil _) Dr) as (h2 & E2 & S2 & _ & Dr2 & C2).
          assert (S2' : sess h h2 [] (olist pr) O) by perm.
          destruct (sess_end _ _ _ _ _ S2') as [So2 F2].
          destruct r as [|rk rv rlh rrh rl rr]; injection E as <- <- <-.
          -- apply den_none in Dr2 as ->. rewrite E2. cbn [bind pk pv].
             eexists _, _, _, cs. split; [reflexivity|]. split; [exact So2|]. split; [exact F2|]. split; [congruence|].
             split; [apply sub_app_r; exact Sb|]. split; [|intros []]. split; auto. constructor.
          -- destruct (den_some _ _ _ _ Dr) as [ra ->]. rewrite E2. cbn [bind pk pv].
             eexists _, _, _, cs. split; [reflexivity|]. split; [exact So2|]. split; [exact F2|]. split; [congruence|].
             split; [apply sub_app_r; exact Sb|]. split; [|intros []]. split; auto.
        * destruct (den_some _ _ _ _ Dl) as [la ->]. destruct r as [|rk rv rlh rrh rl rr].
          -- injection E as <- <- <-. cbn [tv] in Dr. apply den_none in Dr as ->.
             assert (S1' : sess h h1 [a] (olist (Some la) ++ olist None ++ []) O) by perm.
             destruct (take_node_ok _ _ _ (Pay nk nv lh rh) _ _ _ _ _ S1' Dl (den_nil _)) as (h2 & E2 & S2 & Dl2 & _ & C2).
             rewrite E2. cbn [bind pk pv].
             assert (S2' : sess h h2 [] (olist (Some la)) O) by perm.
             destruct (sess_end _ _ _ _ _ S2') as [So2 F2].
             eexists _, _, _, cs. split; [reflexivity|]. split; [exact So2|]. split; [exact F2|]. split; [congruence|].
             split; [apply sub_app_r; exact Sb|]. split; [|intros []]. split; auto.
          -- destruct (den_some _ _ _ _ Dr) as [ra ->].
             destruct (rm_leftmost (Node rk rv rlh rrh rl rr)) as [[[r' kv'] sh]|] eqn:El; [|discriminate]. cbn [bind] in E.
             destruct kv' as [[sk sv]|]; [|discriminate]. cbn [unwrap bind] in E.
             destruct (after_rm_right sk sv lh rh _ r' sh) as [[t1 s1]|] eqn:Ea; [|discriminate].
             cbn [bind] in E. injection E as <- <- <-.
             assert (S1' : sess h h1 [a] (olist (Some ra) ++ olist (Some la)) O) by perm.
             destruct (rm_leftmost_ok (Node rk rv rlh rrh rl rr) fuel h1 (Some ra) r' (Some (sk, sv)) sh (olist (Some la) ++ O))
               as (h2 & pr' & o2 & cs2 & E2 & So2 & F2 & C2 & Sb2 & R2 & _);
               auto; [now apply sess_sub in S1'|lia|].
             rewrite E2. cbn [bind].
             destruct (sess_call _ _ _ _ _ (olist pr') _ _ S1' So2 F2) as [S2 K2]. mv K2.
             assert (C2' : clones h2 = (cs2 ++ cs) ++ clones h) by (rewrite C2, C1; apply app_assoc).
             assert (S2' : sess h h2 [a] (olist (Some la) ++ olist pr') O) by perm.
             destruct o2 as [[kv2 s2]|].
             ++ destruct R2 as [Ex Dr2]. injection Ex as -> ->. cbn [unwrap bind].
                assert (Dl' : den h2 (Some la) (tv (Node lk lv llh lrh ll lr))) by exact Dl.
                pose proof (after_rm_right_ok _ _ _ _ _ _ _ _ _ _ _ _ _ _ _ S2' Dl' Dr2 Ea) as Sl. rewrite C2' in Sl.
                eapply then_slot with (f := fun s => (Some (nk, nv), s)); [exact Sl|apply sub_app; eassumption|].
                now rewrite app_assoc.
             ++ destruct R2 as [Rm Bm].
                assert (Dl' : den h2 (Some la) (tv (Node lk lv llh lrh ll lr))) by exact Dl.
                destruct (unwound_right _ _ _ nk nv lh rh _ _ _ _ _ _ S2' Dl' Rm eq_refl) as (So3 & F3 & C3 & R3).
                eexists _, _, _, (cs2 ++ cs). split; [reflexivity|]. split; [exact So3|]. split; [exact F3|].
                split; [now rewrite C3|]. split; [rewrite <- app_assoc; apply sub_app_r, sub_app; auto|]. split; [auto|intros []].
      + destruct (rm bor cmp l q) as [[[l' kv'] sh]|] eqn:El; [|discriminate]. cbn [bind] in E.
        destruct (after_rm_left nk nv lh rh l' r sh) as [[t1 s1]|] eqn:Ea; [|discriminate].
        cbn [bind] in E. injection E as <- <- <-.
        destruct (IHl fuel h1 pl q l' kv' sh (olist pr ++ O)) as (h2 & pl' & o2 & cs2 & E2 & So2 & F2 & C2 & Sb2 & R2 & _);
          auto; [now apply sess_sub in S1|lia|].
        rewrite E2. cbn [bind].
        destruct (sess_call _ _ _ _ _ (olist pl') _ _ S1 So2 F2) as [S2 K2]. mv K2.
        assert (C2' : clones h2 = (cs2 ++ cs) ++ clones h) by (rewrite C2, C1; apply app_assoc).
        destruct o2 as [[kv2 s2]|].
        * destruct R2 as [Ex Dl2]. injection Ex as -> ->.
          pose proof (after_rm_left_ok _ _ _ _ _ _ _ _ _ _ _ _ _ _ _ S2 Dl2 Dr Ea) as Sl. rewrite C2' in Sl.
          eapply then_slot with (f := fun s => (kv', s)); [exact Sl|apply sub_app; eassumption|].
          now rewrite app_assoc.
        * destruct R2 as [Rm Bm]. destruct (unwound_left _ _ _ nk nv lh rh _ _ _ _ _ _ S2 Rm Dr eq_refl) as (So3 & F3 & C3 & R3).
          eexists _, _, _, (cs2 ++ cs). split; [reflexivity|]. split; [exact So3|]. split; [exact F3|].
          split; [now rewrite C3|]. split; [rewrite <- app_assoc; apply sub_app_r, sub_app; auto|]. split; [auto|intros []].
      + destruct (rm bor cmp r q) as [[[r' kv'] sh]|] eqn:El; [|discriminate]. cbn [bind] in E.
        destruct (after_rm_right nk nv lh rh l r' sh) as [[t1 s1]|] eqn:Ea; [|discriminate].
        cbn [bind] in E. injection E as <- <- <-.
        assert (S1' : sess h h1 [a] (olist pr ++ olist pl) O) by perm.
        destruct (IHr fuel h1 pr q r' kv' sh (olist pl ++ O)) as (h2 & pr' & o2 & cs2 & E2 & So2 & F2 & C2 & Sb2 & R2 & _);
          auto; [now apply sess_sub in S1'|lia|].
        rewrite E2. cbn [bind].
        destruct (sess_call _ _ _ _ _ (olist pr') _ _ S1' So2 F2) as [S2 K2]. mv K2.
        assert (C2' : clones h2 = (cs2 ++ cs) ++ clones h) by (rewrite C2, C1; apply app_assoc).
        assert (S2' : sess h h2 [a] (olist pl ++ olist pr') O) by perm.
        destruct o2 as [[kv2 s2]|].
        * destruct R2 as [Ex Dr2]. injection Ex as -> ->.
          pose proof (after_rm_right_ok _ _ _ _ _ _ _ _ _ _ _ _ _ _ _ S2' Dl Dr2 Ea) as Sl. rewrite C2' in Sl.
          eapply then_slot with (f := fun s => (kv', s)); [exact Sl|apply sub_app; eassumption|].
          now rewrite app_assoc.
        * destruct R2 as [Rm Bm]. destruct (unwound_right _ _ _ nk nv lh rh _ _ _ _ _ _ S2' Dl Rm eq_refl) as (So3 & F3 & C3 & R3).
          eexists _, _, _, (cs2 ++ cs). split; [reflexivity|]. split; [exact So3|]. split; [exact F3|].
          split; [now rewrite C3|]. split; [rewrite <- app_assoc; apply sub_app_r, sub_app; auto|]. split; [auto|intros []].
  Qed.
End Rm.

(** ** Writing in place *)
Section Mut.
  Context {K V Q : Type} (bor : K -> Q) (cmp : Q -> Q -> comparison).
  Variable bomb : nat -> bool.
  Notation pay := (pay K V).
  Notation heap := (heap pay).
  Notation tree := (tree K V).
  Notation slot := (slot bomb).

  Lemma close_slot (h0 h : heap) a d pl pr tl tr O :
    sess h0 h [a] (olist pl ++ olist pr) O -> den h pl tl -> den h pr tr ->
    sound (cls h a d pl pr) ([a] ++ O) /\ frame O h0 (cls h a d pl pr)
    /\ clones (cls h a d pl pr) = clones h /\ den (cls h a d pl pr) (Some a) (VT d [tl; tr])
    /\ root1 (cls h a d pl pr) (Some a).
  Proof.
    intros S Dl Dr. assert (S' : sess h0 h [a] (olist pl ++ olist pr ++ []) O) by perm.
    destruct (sess_close _ _ _ _ _ _ _ _ d _ _ S' Dl Dr) as (S3 & D3 & K3 & G3 & Go3 & C3).
    destruct (sess_end _ _ _ _ _ S3) as [So3 F3]. do 4 (split; [assumption|]). eexists; eauto.
  Qed.

  Lemma get_mut_ok t : forall fuel (h : heap) p q w O,
    sound h (olist p ++ O) -> den h p (tv t) -> levels t < fuel ->
    slot O h (clones h) (path bor cmp t q) False (h_get_mut bor cmp bomb fuel h p q w)
      (is_done (fst (t_get_mut bor cmp t q w)) (snd (t_get_mut bor cmp t q w))) (fun h' p' => den h' p' (tv t)).
  Proof.
    induction t as [|nk nv lh rh l IHl r IHr]; intros fuel h p q w O So D Lf;
      destruct fuel as [|fuel]; try lia.
    - cbn in D. apply den_none in D as ->.
      eexists _, _, _, []. split; [reflexivity|]. split; [exact So|]. split; [apply frame_refl|].
      split; [reflexivity|]. split; [apply sub_nil|]. split; [|intros []]. split; auto. constructor.
    - cbn [tv] in D. destruct (den_some _ _ _ _ D) as [rc ->]. cbn [h_get_mut path t_get_mut levels] in *.
      destruct (sess_open bomb h h [] rc [] O _ _ _ (sess_start _ [rc] _ So) D) as (h1 & r1 & E1 & P1).
      rewrite E1. cbn [bind].
      destruct r1 as [[[[a d'] pl] pr]|].
      + destruct P1 as (-> & S1' & Dl & Dr & K1 & cs & C1 & Sb & _).
        assert (S1 : sess h h1 [a] (olist pl ++ olist pr) O) by perm. clear S1'. cbn [pk].
        destruct (cmp q (bor nk)) eqn:Ec.
        * unfold set_val. cbn [pk pv plh prh].
          destruct (close_slot _ _ _ (Pay nk (w nv) lh rh) _ _ _ _ _ S1 Dl Dr) as (So3 & F3 & C3 & D3 & _).
          eexists _, _, _, cs. split; [reflexivity|]. split; [exact So3|]. split; [exact F3|]. split; [congruence|].
          split; [exact Sb|]. split; [|intros []]. split; auto.
        * destruct (IHl fuel h1 pl q w (olist pr ++ O)) as (h2 & pl' & o2 & cs2 & E2 & So2 & F2 & C2 & Sb2 & R2 & _);
            auto; [now apply sess_sub in S1|lia|].
          rewrite E2. cbn [bind].
          destruct (sess_call _ _ _ _ _ (olist pl') _ _ S1 So2 F2) as [S2 K2]. mv K2.
          destruct (t_get_mut bor cmp l q w) as [l' o]. cbn [fst snd] in *.
          assert (exists tl', den h2 pl' (tv tl') /\ match o2 with Done x => x = o /\ tl' = l' | Unwound => tl' = l end)
            as (tl' & Dl2 & Ho).
          { destruct o2; [exists l'|exists l]; destruct R2; auto. }
          destruct (close_slot _ _ _ (Pay nk nv lh rh) _ _ _ _ _ S2 Dl2 Dr) as (So3 & F3 & C3 & D3 & _).
          eexists _, _, _, (cs2 ++ cs). split; [reflexivity|]. split; [exact So3|]. split; [exact F3|].
          split; [rewrite C3, C2, C1; apply app_assoc|]. split; [apply sub_app; auto|]. split; [|intros []].
          destruct o2 as [x|]; [destruct Ho as [-> ->]; split; auto|subst tl'; split; [auto|]].
          apply R2.
        * assert (S1' : sess h h1 [a] (olist pr ++ olist pl) O) by perm.
          destruct (IHr fuel h1 pr q w (olist pl ++ O)) as (h2 & pr' & o2 & cs2 & E2 & So2 & F2 & C2 & Sb2 & R2 & _);
            auto; [now apply sess_sub in S1'|lia|].
          rewrite E2. cbn [bind].
          destruct (sess_call _ _ _ _ _ (olist pr') _ _ S1' So2 F2) as [S2' K2]. mv K2.
          assert (S2 : sess h h2 [a] (olist pl ++ olist pr') O) by perm. clear S2'.
          destruct (t_get_mut bor cmp r q w) as [r' o]. cbn [fst snd] in *.
          assert (exists tr', den h2 pr' (tv tr') /\ match o2 with Done x => x = o /\ tr' = r' | Unwound => tr' = r end)
            as (tr' & Dr2 & Ho).
          { destruct o2; [exists r'|exists r]; destruct R2; auto. }
          destruct (close_slot _ _ _ (Pay nk nv lh rh) _ _ _ _ _ S2 Dl Dr2) as (So3 & F3 & C3 & D3 & _).
          eexists _, _, _, (cs2 ++ cs). split; [reflexivity|]. split; [exact So3|]. split; [exact F3|].
          split; [rewrite C3, C2, C1; apply app_assoc|]. split; [apply sub_app; auto|]. split; [|intros []].
          destruct o2 as [x|]; [destruct Ho as [-> ->]; split; auto|subst tr'; split; [auto|]].
          apply R2.
      + destruct P1 as (S1 & D1 & K1 & C1 & U1 & B1). destruct (sess_end _ _ _ _ _ S1) as [So1 F1].
        eexists _, _, _, [_]. split; [reflexivity|]. split; [exact So1|]. split; [exact F1|].
        split; [rewrite C1; reflexivity|]. split; [apply sub_app_r, sub_refl|]. split; [|intros []]. split; eauto.
  Qed.

  (** The nodes in the order in which [for_each_mut] reaches them, the last first. *)
  Fixpoint nodes (t : tree) : list pay :=
    match t with Leaf => [] | Node k v lh rh l r => nodes r ++ nodes l ++ [Pay k v lh rh] end.

  Lemma for_each_mut_keys {S} (g : S -> K -> V -> S * V) (t : tree) : forall s,
    map fst (elems (fst (for_each_mut g t s))) = map fst (elems t).
  Proof.
    induction t as [|k v lh rh l IHl r IHr]; intros s; auto. cbn [for_each_mut].
    specialize (IHl s). destruct (for_each_mut g l s) as [l' s1]. destruct (g s1 k v) as [s2 v'].
    specialize (IHr s2). destruct (for_each_mut g r s2) as [r' s3]. cbn [fst elems] in *.
    rewrite !map_app. cbn [map fst]. now rewrite IHl, IHr.
  Qed.

  Lemma for_each_mut_ok {S} (g : S -> K -> V -> S * V) t : forall fuel (h : heap) p s O,
    sound h (olist p ++ O) -> den h p (tv t) -> levels t < fuel ->
    slot O h (clones h) (nodes t) False (h_for_each_mut bomb g fuel h p s)
      (is_done (fst (for_each_mut g t s)) (snd (for_each_mut g t s)))
      (fun h' p' => exists t', den h' p' (tv t') /\ map fst (elems t') = map fst (elems t)).
  Proof.
    induction t as [|nk nv lh rh l IHl r IHr]; intros fuel h p s O So D Lf;
      destruct fuel as [|fuel]; try lia.
    - cbn in D. apply den_none in D as ->.
      eexists _, _, _, []. split; [reflexivity|]. split; [exact So|]. split; [apply frame_refl|].
      split; [reflexivity|]. split; [apply sub_nil|]. split; [|intros []]. split; auto. constructor.
    - cbn [tv] in D. destruct (den_some _ _ _ _ D) as [rc ->]. cbn [h_for_each_mut nodes for_each_mut levels] in *.
      destruct (sess_open bomb h h [] rc [] O _ _ _ (sess_start _ [rc] _ So) D) as (h1 & r1 & E1 & P1).
      rewrite E1. cbn [bind].
      destruct r1 as [[[[a d'] pl] pr]|].
      + destruct P1 as (-> & S1' & Dl & Dr & K1 & cs & C1 & Sb & _).
        assert (S1 : sess h h1 [a] (olist pl ++ olist pr) O) by perm. clear S1'. cbn [pk pv].
        destruct (IHl fuel h1 pl s (olist pr ++ O)) as (h2 & pl' & o2 & cs2 & E2 & So2 & F2 & C2 & Sb2 & R2 & _);
            auto; [now apply sess_sub in S1|lia|].
        rewrite E2. cbn [bind].
        destruct (sess_call _ _ _ _ _ (olist pl') _ _ S1 So2 F2) as [S2 K2]. mv K2.
        pose proof (for_each_mut_keys g l s) as El.
        destruct (for_each_mut g l s) as [l' s1]. cbn [fst snd] in *.
        destruct o2 as [s1'|].
        * destruct R2 as [-> Dl2]. unfold set_val. cbn [pk pv plh prh].
          destruct (g s1 nk nv) as [s2 v'].
          assert (S2' : sess h h2 [a] (olist pr ++ olist pl') O) by perm.
          destruct (IHr fuel h2 pr s2 (olist pl' ++ O)) as (h3 & pr' & o3 & cs3 & E3 & So3 & F3 & C3 & Sb3 & R3 & _);
            auto; [now apply sess_sub in S2'|lia|].
          rewrite E3. cbn [bind].
          destruct (sess_call _ _ _ _ _ (olist pr') _ _ S2' So3 F3) as [S3' K3]. mv K3.
          assert (S3 : sess h h3 [a] (olist pl' ++ olist pr') O) by perm. clear S3'.
          destruct (for_each_mut g r s2) as [r' s3]. cbn [fst snd] in *.
          assert (exists tr', den h3 pr' (tv tr')
                    /\ match o3 with Done x => x = s3 /\ tr' = r' | Unwound => map fst (elems tr') = map fst (elems r) end)
            as (tr' & Dr3 & Ho).
          { destruct o3; [exists r'|]; destruct R3 as [R3 R3']; auto. }
          destruct (close_slot _ _ _ (Pay nk v' lh rh) _ _ _ _ _ S3 Dl2 Dr3) as (So4 & F4 & C4 & D4 & _).
          eexists _, _, _, (cs3 ++ cs2 ++ cs). split; [reflexivity|]. split; [exact So4|]. split; [exact F4|].
          split; [rewrite C4, C3, C2, C1, !app_assoc; reflexivity|].
          split; [repeat apply sub_app; auto|]. split; [|intros []].
          destruct o3 as [x|]; [destruct Ho as [-> ->]; split; auto|split; [|apply R3]].
          exists (Node nk v' lh rh l' tr'). split; [exact D4|]. cbn [elems]. rewrite !map_app. cbn [map fst]. rewrite Ho.
          now rewrite El.
        * destruct R2 as [(tl' & Dl2 & El') Bm].
          destruct (close_slot _ _ _ (Pay nk nv lh rh) _ _ _ _ _ S2 Dl2 Dr) as (So4 & F4 & C4 & D4 & _).
          eexists _, _, _, (cs2 ++ cs). split; [reflexivity|]. split; [exact So4|]. split; [exact F4|].
          split; [rewrite C4, C2, C1, !app_assoc; reflexivity|].
          split; [apply sub_app_r; apply sub_app; auto|]. split; [|intros []]. split; auto.
          exists (Node nk nv lh rh tl' r). split; [exact D4|]. cbn [elems]. now rewrite !map_app, El'.
      + destruct P1 as (S1 & D1 & K1 & C1 & U1 & B1). destruct (sess_end _ _ _ _ _ S1) as [So1 F1].
        eexists _, _, _, [_]. split; [reflexivity|]. split; [exact So1|]. split; [exact F1|].
        split; [rewrite C1; reflexivity|]. split; [apply sub_app_r, sub_app_r, sub_refl|]. split; [|intros []]. split; eauto.
        exists (Node nk nv lh rh l r). auto.
  Qed.
End Mut.
