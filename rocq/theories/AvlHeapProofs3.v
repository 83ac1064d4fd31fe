(** Joining, splitting, merging and filtering shared trees. *)
From Coq Require Import List ZArith Bool Lia Permutation.
From Verif Require AvlProofs AvlProofs2 AvlAnyProofs.
From Verif Require Import Base Spec Heap HeapProofs AvlModel AvlHeapModel AvlHeapSpec AvlHeapProofs AvlHeapProofs2.
Import ListNotations.
Local Open Scope nat_scope.

Section Join.
  Context {K V Q : Type} (bor : K -> Q) (cmp : Q -> Q -> comparison).
  Variable bomb : nat -> bool.
  Notation pay := (pay K V).
  Notation heap := (heap pay).
  Notation tree := (tree K V).

  (** The outcome of a function that consumes its arguments: on unwinding it has dropped
      everything it held. *)
  Definition callB (B : Prop) {A} (O : list addr) (h : heap) (c0 : list pay) (P : list pay -> Prop) (x : res (heap * out A))
             (own : A -> list addr) (D : A -> heap -> Prop) : Prop :=
    exists h' r cs, x = Ok (h', r) /\ frame O h h' /\ clones h' = cs ++ c0 /\ P cs
      /\ match r with
         | Done a => sound h' (own a ++ O) /\ D a h'
         | Unwound => sound h' O /\ B
         end.
  Definition bombs : Prop := exists n, bomb n = true.
  Notation call := (callB bombs).
  Lemma bombs_intro n : bomb n = true -> bombs.
  Proof. now exists n. Qed.
  Hint Resolve bombs_intro : core.

  Lemma h_height_ok (h : heap) p t : den h p (tv t) -> h_height h p = height t.
  Proof.
    intros D. destruct t as [|k v lh rh l r]; cbn [tv] in D.
    - now apply den_none in D as ->.
    - destruct (den_some _ _ _ _ D) as [a ->]. destruct (den_get2 _ _ _ _ _ D) as (c & pl & pr & G & _).
      unfold h_height, peek. rewrite G. reflexivity.
  Qed.

  Lemma unwind_ok {A} (h0 h : heap) ps O : sess h0 h [] (olists ps) O ->
    exists h', @unwind K V A h ps = Ok (h', Unwound) /\ sound h' O /\ frame O h0 h' /\ clones h' = clones h.
  Proof.
    intros S. assert (S' : sess h0 h [] (olists ps ++ []) O) by perm.
    destruct (sess_drops _ _ _ _ _ _ S') as (h1 & E & S1 & _ & C). unfold unwind. rewrite E. cbn [bind].
    destruct (sess_end _ _ _ _ _ S1). eauto 6.
  Qed.

  Lemma sess_drop1 (h0 h : heap) R p X O : sess h0 h R (olist p ++ X) O ->
    exists h', drop h p = Ok h' /\ sess h0 h' R X O /\ keep (X ++ O) h h' /\ clones h' = clones h.
  Proof.
    intros S. assert (S' : sess h0 h R (olists [p] ++ X) O) by perm.
    destruct (sess_drops _ _ _ _ _ _ S') as (h1 & E & R1). exists h1. split; auto.
  Qed.

  Lemma call_unwind (B : Prop) {A} O (h0 h : heap) cs c0 (P : list pay -> Prop) ps (own : A -> list addr) D :
    sess h0 h [] (olists ps) O -> clones h = cs ++ c0 -> P cs -> B ->
    callB B O h0 c0 P (unwind h ps) own D.
  Proof.
    intros S C Hp Hb. destruct (@unwind_ok A _ _ _ _ S) as (h' & E & So & F & C'). rewrite E.
    exists h', Unwound, cs. split; auto. split; auto. split; [congruence|]. split; eauto.
  Qed.
  Lemma call_done (B : Prop) {A} O (h0 h : heap) cs c0 (P : list pay -> Prop) (a : A) (own : A -> list addr) (D : A -> heap -> Prop) :
    sess h0 h [] (own a) O -> clones h = cs ++ c0 -> P cs -> D a h ->
    callB B O h0 c0 P (Ok (h, Done a)) own D.
  Proof.
    intros S C Hp Hb. destruct (sess_end _ _ _ _ _ S). exists h, (Done a), cs. auto 8.
  Qed.
  Lemma call_frame (B : Prop) {A} O (h0 h : heap) c0 P x (own : A -> list addr) D :
    frame O h0 h -> callB B O h c0 P x own D -> callB B O h0 c0 P x own D.
  Proof.
    intros F (h' & r & cs & E & F' & R). exists h', r, cs. split; auto. split; auto. eapply frame_trans; eauto.
  Qed.
  Lemma call_P (B : Prop) {A} O (h : heap) c0 (P P' : list pay -> Prop) x (own : A -> list addr) D :
    (forall cs, P cs -> P' cs) -> callB B O h c0 P x own D -> callB B O h c0 P' x own D.
  Proof. intros I (h' & r & cs & E & F' & C & Hp & R). exists h', r, cs. auto 8. Qed.
  Lemma call_D (B : Prop) {A} O (h : heap) c0 P x (own : A -> list addr) (D D' : A -> heap -> Prop) :
    (forall a h', D a h' -> D' a h') -> callB B O h c0 P x own D -> callB B O h c0 P x own D'.
  Proof.
    intros I (h' & r & cs & E & F' & C & Hp & R). exists h', r, cs. do 4 (split; [assumption|]).
    destruct r; auto. destruct R; auto.
  Qed.
  Lemma call_base (B : Prop) {A} O (h : heap) c0 cs0 (P P' : list pay -> Prop) x (own : A -> list addr) D :
    (forall cs, P cs -> P' (cs ++ cs0)) -> callB B O h (cs0 ++ c0) P x own D -> callB B O h c0 P' x own D.
  Proof.
    intros I (h' & r & cs & E & F' & C & Hp & R). exists h', r, (cs ++ cs0). rewrite <- app_assoc. auto 8.
  Qed.

  Lemma root1_cls (h0 h : heap) a R d l r X O p tl tr :
    sess h0 h (a :: R) (olist l ++ olist r ++ X) O -> den h l tl -> den h r tr ->
    root1 h p -> root1 (cls h a d l r) p.
  Proof.
    intros S Dl Dr. destruct (sess_close _ _ _ _ _ _ _ _ d _ _ S Dl Dr) as (_ & _ & _ & _ & Go & _).
    destruct p as [b|]; auto. intros [n G]. exists n. rewrite Go; auto. intros ->.
    destruct (s_rs _ _ _ _ _ S a) as [Hn _]; [now left|congruence].
  Qed.

  (** The nodes on the right (left) edge, the deepest first. *)
  Fixpoint rspine (t : tree) : list pay :=
    match t with Leaf => [] | Node k v lh rh _ r => rspine r ++ [Pay k v lh rh] end.
  Fixpoint lspine (t : tree) : list pay :=
    match t with Leaf => [] | Node k v lh rh l _ => lspine l ++ [Pay k v lh rh] end.
  Lemma root_rspine t : sub (root_pay t) (rspine t).
  Proof. destruct t; [apply sub_nil|]. apply sub_app_r, sub_refl. Qed.
  Lemma root_lspine t : sub (root_pay t) (lspine t).
  Proof. destruct t; [apply sub_nil|]. apply sub_app_r, sub_refl. Qed.
  Lemma sub_trans {A} (a b c : list A) : sub a b -> sub b c -> sub a c.
  Proof.
    intros H1 H2. revert a H1. induction H2; intros a H1; auto.
    - apply sub_skip. auto.
    - inversion H1; subst; [apply sub_skip|apply sub_keep]; auto.
  Qed.

  Definition is_tree (t : tree) : ptr -> heap -> Prop := fun p h => den h p (tv t) /\ root1 h p.

  Lemma join_rt_ok tl : forall fuel (h : heap) left k v right tr t' O,
    sound h (left :: olist right ++ O) -> den h (Some left) (tv tl) -> den h right (tv tr) ->
    levels tl < fuel -> join_rt tl k v tr = Ok t' ->
    call O h (clones h) (fun cs => sub cs (rspine tl)) (h_join_rt bomb fuel h left k v right) olist (is_tree t').
  Proof.
    induction tl as [|nk nv lh rh l IHl c IHc]; intros fuel h left k v right tr t' O So Dl Dr Lf E;
      [discriminate|]. destruct fuel as [|fuel]; [lia|]. cbn [h_join_rt].
    rewrite (h_height_ok _ _ _ Dl), (h_height_ok _ _ _ Dr).
    cbn [join_rt] in E.
    destruct (height (Node nk nv lh rh l c)) as [lefth|] eqn:Elh; [|discriminate]. cbn [bind] in E |- *.
    destruct (height tr) as [hr|] eqn:Ehr; [|discriminate]. cbn [bind] in E |- *.
    destruct (i8_add hr 1) as [hr1|] eqn:Ehr1; [|discriminate]. cbn [bind] in E |- *.
    destruct (assert_ (hr1 <? lefth)%Z) eqn:Eas; [|discriminate]. cbn [bind] in E |- *.
    cbn [tv rspine levels] in *.
    destruct (sess_open bomb h h [] left (olist right) O _ _ _ (sess_start _ (left :: olist right) _ So) Dl)
      as (h1 & r1 & E1 & P1).
    rewrite E1. cbn [bind].
    destruct r1 as [[[[t2 d'] pl] pc]|].
    2:{ destruct P1 as (S1 & D1 & K1 & C1 & U1 & B1).
        eapply call_unwind with (cs := [_]); eauto; [perm|apply sub_app_r, sub_refl]. }
    destruct P1 as (-> & S1 & Dl1 & Dc1 & K1 & cs & C1 & Sb & _). mv K1.
    rewrite (h_height_ok _ _ _ Dc1).
    destruct (height c) as [hc|] eqn:Ehc; [|discriminate]. cbn [bind] in E |- *.
    destruct (Z.leb_spec hc hr1).
    - unfold opt_new in E. rewrite Ehc, Ehr in E. cbn [bind] in E.
      rewrite (h_height_ok _ _ _ Dr), Ehr. cbn [bind].
      destruct (alloc h1 (Nd (Pay k v hc hr) [pc; right])) as [h2 t1] eqn:Eal.
      assert (S1' : sess h h1 [t2] (olist pc ++ olist right ++ olist pl) O) by perm.
      destruct (sess_alloc _ _ _ _ _ _ _ (Pay k v hc hr) _ _ _ _ S1' Dc1 Dr Eal) as (S2 & D2 & K2 & G2 & Go2 & C2 & _).
      mv K2. change (VT (Pay k v hc hr) [tv c; tv tr]) with (tv (Node k v hc hr c tr)) in D2.
      rewrite (h_height_ok _ _ _ D2).
      destruct (height (Node k v hc hr c tr)) as [h1'|] eqn:Eh1; [|discriminate]. cbn [bind plh] in E |- *.
      destruct (is_bal lh h1') as [ib|] eqn:Eib; [|discriminate]. cbn [bind] in E |- *.
      unfold set_rh. cbn [pk pv plh prh].
      destruct ib.
      + injection E as <-.
        assert (S2' : sess h h2 [t2] (olist pl ++ olist (Some t1) ++ []) O) by perm.
        destruct (sess_close _ _ _ _ _ _ _ _ (Pay nk nv lh h1') _ _ S2' Dl1 D2) as (S3 & D3 & K3 & G3 & Go3 & C3).
        eapply call_done with (cs := cs); [perm|congruence|apply sub_app_r; exact Sb|].
        split; [exact D3|eexists; eauto].
      + destruct (rot_rt (Node k v hc hr c tr)) as [[t1' shorter]|] eqn:Er; [|discriminate]. cbn [bind] in E.
        assert (So2 : sound h2 (t1 :: olist pl ++ O)) by (apply (sess_sub _ _ _ [t1] (olist pl) _ S2)).
        destruct (rot_rt_ok bomb h2 t1 k v hc hr right pc tr c t1' shorter (olist pl ++ O) So2 G2)
          as (h3 & p3 & o3 & cs3 & E3 & So3 & F3 & C3 & Sb3 & R3 & _); auto.
        rewrite E3. cbn [bind].
        destruct (sess_call _ _ _ _ [t1] (olist p3) _ _ S2 So3 F3) as [S3 K3]. mv K3.
        assert (S3' : sess h h3 [t2] (olist pl ++ olist p3 ++ []) O) by perm.
        assert (Sb' : sub (cs3 ++ cs) (rspine c ++ [Pay nk nv lh rh])).
        { apply sub_app; auto. eapply sub_trans; [exact Sb3|apply root_rspine]. }
        assert (C3' : clones h3 = (cs3 ++ cs) ++ clones h) by (rewrite C3, C2, C1; apply app_assoc).
        destruct o3 as [sh|].
        * destruct R3 as (-> & D3 & R3).
          destruct (if shorter then i8_sub h1' 1 else Ok h1') as [h1''|]; [|discriminate]. cbn [bind] in E |- *.
          destruct (rot_lf _) as [[t2' s2]|] eqn:Erl in E; [|discriminate]. cbn [bind] in E. injection E as <-.
          destruct (sess_close _ _ _ _ _ _ _ _ (Pay nk nv lh h1'') _ _ S3' Dl1 D3) as (S4 & D4 & K4 & G4 & Go4 & C4).
          pose proof (root1_cls _ _ _ _ (Pay nk nv lh h1'') _ _ _ _ _ _ _ S3' Dl1 D3 R3) as R4. mv K4.
          set (h4 := cls h3 t2 (Pay nk nv lh h1'') pl p3) in *.
          destruct (sess_end _ _ _ _ _ S4) as [So4 F4].
          destruct (rot_lf_ok bomb h4 t2 nk nv lh h1'' pl p3 l t1' t2' s2 O So4 G4)
            as (h5 & p5 & o5 & cs5 & E5 & So5 & F5 & C5 & Sb5 & R5 & W5); auto.
          rewrite E5. cbn [bind]. destruct (W5 R4) as [-> N5].
          destruct o5 as [s5|]; [|congruence]. destruct R5 as (-> & D5 & R5).
          exists h5, (Done p5), (cs3 ++ cs). split; auto. split; [eapply frame_trans; eauto|].
          split; [rewrite C5, C4; exact C3'|]. split; [exact Sb'|]. split; auto. split; auto.
        * destruct R3 as [-> [n B]].
          destruct (sess_close _ _ _ _ _ _ _ _ (Pay nk nv lh h1') _ VN S3' Dl1 (den_nil _)) as (S4 & D4 & K4 & G4 & Go4 & C4).
          eapply call_unwind with (cs := cs3 ++ cs); eauto; try perm; try congruence.
    - destruct c as [|ck cv clh crh cl cr]; [discriminate|].
      destruct (den_some _ _ _ _ Dc1) as [ca ->]. cbn [unwrap bind].
      destruct (join_rt (Node ck cv clh crh cl cr) k v tr) as [t1|] eqn:Ej; [|discriminate]. cbn [bind] in E.
      assert (S1' : sess h h1 [t2] ((ca :: olist right) ++ olist pl) O) by perm.
      destruct (IHc fuel h1 ca k v right tr t1 (olist pl ++ O)) as (h2 & o2 & cs2 & E2 & F2 & C2 & Sb2 & R2);
        auto; [now apply sess_sub in S1'|lia|].
      rewrite E2. cbn [bind].
      assert (Sb' : sub (cs2 ++ cs) (rspine (Node ck cv clh crh cl cr) ++ [Pay nk nv lh rh])) by (apply sub_app; auto).
      assert (C2' : clones h2 = (cs2 ++ cs) ++ clones h) by (rewrite C2, C1; apply app_assoc).
      destruct o2 as [p2|].
      + destruct R2 as (So2 & D2 & R2).
        destruct (sess_call _ _ _ _ _ (olist p2) _ _ S1' So2 F2) as [S2 K2]. mv K2.
        rewrite (h_height_ok _ _ _ D2).
        destruct (height t1) as [h1'|] eqn:Eh1; [|discriminate]. cbn [bind plh] in E |- *.
        destruct (is_bal lh h1') as [ib|] eqn:Eib; [|discriminate]. cbn [bind] in E |- *.
        unfold set_rh. cbn [pk pv plh prh].
        assert (S2' : sess h h2 [t2] (olist pl ++ olist p2 ++ []) O) by perm.
        destruct (sess_close _ _ _ _ _ _ _ _ (Pay nk nv lh h1') _ _ S2' Dl1 D2) as (S4 & D4 & K4 & G4 & Go4 & C4).
        pose proof (root1_cls _ _ _ _ (Pay nk nv lh h1') _ _ _ _ _ _ _ S2' Dl1 D2 R2) as R4. mv K4.
        set (h4 := cls h2 t2 (Pay nk nv lh h1') pl p2) in *.
        destruct (sess_end _ _ _ _ _ S4) as [So4 F4].
        destruct ib.
        * injection E as <-. eapply call_done with (cs := cs2 ++ cs); [perm|congruence|exact Sb'|].
          split; [exact D4|eexists; eauto].
        * destruct (rot_lf _) as [[t2' s2]|] eqn:Erl in E; [|discriminate]. cbn [bind] in E. injection E as <-.
          destruct (rot_lf_ok bomb h4 t2 nk nv lh h1' pl p2 l t1 t2' s2 O So4 G4)
            as (h5 & p5 & o5 & cs5 & E5 & So5 & F5 & C5 & Sb5 & R5 & W5); auto.
          rewrite E5. cbn [bind]. destruct (W5 R4) as [-> N5].
          destruct o5 as [s5|]; [|congruence]. destruct R5 as (-> & D5 & R5).
          exists h5, (Done p5), (cs2 ++ cs). split; auto. split; [eapply frame_trans; eauto|].
          split; [rewrite C5, C4; exact C2'|]. split; [exact Sb'|]. split; auto. split; auto.
      + destruct R2 as [So2 [n B]].
        destruct (sess_call _ _ _ _ _ [] _ _ S1' So2 F2) as [S2 K2]. mv K2.
        assert (S2' : sess h h2 [t2] (olist pl ++ olist None ++ []) O) by perm.
        destruct (sess_close _ _ _ _ _ _ _ _ (Pay nk nv lh rh) _ VN S2' Dl1 (den_nil _)) as (S4 & D4 & K4 & G4 & Go4 & C4).
        eapply call_unwind with (cs := cs2 ++ cs); eauto; try perm; try congruence.
  Qed.
  Lemma join_lf_ok tr : forall fuel (h : heap) left k v right tl t' O,
    sound h (right :: olist left ++ O) -> den h left (tv tl) -> den h (Some right) (tv tr) ->
    levels tr < fuel -> join_lf tl k v tr = Ok t' ->
    call O h (clones h) (fun cs => sub cs (lspine tr)) (h_join_lf bomb fuel h left k v right) olist (is_tree t').
  Proof.
    induction tr as [|nk nv lh rh c IHc r IHr]; intros fuel h left k v right tl t' O So Dl Dr Lf E;
      [discriminate|]. destruct fuel as [|fuel]; [lia|]. cbn [h_join_lf].
    rewrite (h_height_ok _ _ _ Dr), (h_height_ok _ _ _ Dl).
    cbn [join_lf] in E.
    destruct (height (Node nk nv lh rh c r)) as [righth|] eqn:Elh; [|discriminate]. cbn [bind] in E |- *.
    destruct (height tl) as [hr|] eqn:Ehr; [|discriminate]. cbn [bind] in E |- *.
    destruct (i8_add hr 1) as [hr1|] eqn:Ehr1; [|discriminate]. cbn [bind] in E |- *.
    destruct (assert_ (hr1 <? righth)%Z) eqn:Eas; [|discriminate]. cbn [bind] in E |- *.
    cbn [tv lspine levels] in *.
    destruct (sess_open bomb h h [] right (olist left) O _ _ _ (sess_start _ (right :: olist left) _ So) Dr)
      as (h1 & r1 & E1 & P1).
    rewrite E1. cbn [bind].
    destruct r1 as [[[[t2 d'] pc] pr]|].
    2:{ destruct P1 as (S1 & D1 & K1 & C1 & U1 & B1).
        eapply call_unwind with (cs := [_]); eauto; [perm|apply sub_app_r, sub_refl]. }
    destruct P1 as (-> & S1 & Dc1 & Dr1 & K1 & cs & C1 & Sb & _). mv K1.
    rewrite (h_height_ok _ _ _ Dc1).
    destruct (height c) as [hc|] eqn:Ehc; [|discriminate]. cbn [bind] in E |- *.
    destruct (Z.leb_spec hc hr1).
    - unfold opt_new in E. rewrite Ehr, Ehc in E. cbn [bind] in E.
      rewrite (h_height_ok _ _ _ Dl), Ehr. cbn [bind].
      destruct (alloc h1 (Nd (Pay k v hr hc) [left; pc])) as [h2 t1] eqn:Eal.
      assert (S1' : sess h h1 [t2] (olist left ++ olist pc ++ olist pr) O) by perm.
      destruct (sess_alloc _ _ _ _ _ _ _ (Pay k v hr hc) _ _ _ _ S1' Dl Dc1 Eal) as (S2 & D2 & K2 & G2 & Go2 & C2 & _).
      mv K2. change (VT (Pay k v hr hc) [tv tl; tv c]) with (tv (Node k v hr hc tl c)) in D2.
      rewrite (h_height_ok _ _ _ D2).
      destruct (height (Node k v hr hc tl c)) as [h1'|] eqn:Eh1; [|discriminate]. cbn [bind prh] in E |- *.
      destruct (is_bal h1' rh) as [ib|] eqn:Eib; [|discriminate]. cbn [bind] in E |- *.
      unfold set_lh. cbn [pk pv plh prh].
      destruct ib.
      + injection E as <-.
        assert (S2' : sess h h2 [t2] (olist (Some t1) ++ olist pr ++ []) O) by perm.
        destruct (sess_close _ _ _ _ _ _ _ _ (Pay nk nv h1' rh) _ _ S2' D2 Dr1) as (S3 & D3 & K3 & G3 & Go3 & C3).
        eapply call_done with (cs := cs); [perm|congruence|apply sub_app_r; exact Sb|].
        split; [exact D3|eexists; eauto].
      + destruct (rot_lf (Node k v hr hc tl c)) as [[t1' shorter]|] eqn:Er; [|discriminate]. cbn [bind] in E.
        assert (So2 : sound h2 (t1 :: olist pr ++ O)) by (apply (sess_sub _ _ _ [t1] (olist pr) _ S2)).
        destruct (rot_lf_ok bomb h2 t1 k v hr hc left pc tl c t1' shorter (olist pr ++ O) So2 G2)
          as (h3 & p3 & o3 & cs3 & E3 & So3 & F3 & C3 & Sb3 & R3 & _); auto.
        rewrite E3. cbn [bind].
        destruct (sess_call _ _ _ _ [t1] (olist p3) _ _ S2 So3 F3) as [S3 K3]. mv K3.
        assert (S3' : sess h h3 [t2] (olist p3 ++ olist pr ++ []) O) by perm.
        assert (Sb' : sub (cs3 ++ cs) (lspine c ++ [Pay nk nv lh rh])).
        { apply sub_app; auto. eapply sub_trans; [exact Sb3|apply root_lspine]. }
        assert (C3' : clones h3 = (cs3 ++ cs) ++ clones h) by (rewrite C3, C2, C1; apply app_assoc).
        destruct o3 as [sh|].
        * destruct R3 as (-> & D3 & R3).
          destruct (if shorter then i8_sub h1' 1 else Ok h1') as [h1''|]; [|discriminate]. cbn [bind] in E |- *.
          destruct (rot_rt _) as [[t2' s2]|] eqn:Erl in E; [|discriminate]. cbn [bind] in E.
          destruct t2' as [|k2 v2 lh2 rh2 l2 r2]; [discriminate|].
          destruct (is_bal lh2 rh2) as [ib2|] eqn:Eib2; [|discriminate]. cbn [bind] in E.
          destruct (assert_ ib2) eqn:Ea2; [|discriminate]. cbn [bind] in E. injection E as <-.
          destruct (sess_close _ _ _ _ _ _ _ _ (Pay nk nv h1'' rh) _ _ S3' D3 Dr1) as (S4 & D4 & K4 & G4 & Go4 & C4).
          pose proof (root1_cls _ _ _ _ (Pay nk nv h1'' rh) _ _ _ _ _ _ _ S3' D3 Dr1 R3) as R4. mv K4.
          set (h4 := cls h3 t2 (Pay nk nv h1'' rh) p3 pr) in *.
          destruct (sess_end _ _ _ _ _ S4) as [So4 F4].
          destruct (rot_rt_ok bomb h4 t2 nk nv h1'' rh pr p3 r t1' (Node k2 v2 lh2 rh2 l2 r2) s2 O So4 G4)
            as (h5 & p5 & o5 & cs5 & E5 & So5 & F5 & C5 & Sb5 & R5 & W5); auto.
          rewrite E5. cbn [bind]. destruct (W5 R4) as [-> N5].
          destruct o5 as [s5|]; [|congruence]. destruct R5 as (-> & D5 & R5).
          destruct (den_some _ _ _ _ D5) as [a5 ->]. destruct (den_get2 _ _ _ _ _ D5) as (c5 & ? & ? & G5 & _).
          unfold peek. rewrite G5. cbn [nd_data unwrap bind plh prh]. rewrite Eib2. cbn [bind]. rewrite Ea2. cbn [bind].
          exists h5, (Done (Some a5)), (cs3 ++ cs). split; auto. split; [eapply frame_trans; eauto|].
          split; [rewrite C5, C4; exact C3'|]. split; [exact Sb'|]. split; auto. split; auto.
        * destruct R3 as [-> [n B]].
          destruct (sess_close _ _ _ _ _ _ _ _ (Pay nk nv h1' rh) VN _ S3' (den_nil _) Dr1) as (S4 & D4 & K4 & G4 & Go4 & C4).
          eapply call_unwind with (cs := cs3 ++ cs); eauto; try perm; try congruence.
    - destruct c as [|ck cv clh crh cl cr]; [discriminate|].
      destruct (den_some _ _ _ _ Dc1) as [ca ->]. cbn [unwrap bind].
      destruct (join_lf tl k v (Node ck cv clh crh cl cr)) as [t1|] eqn:Ej; [|discriminate]. cbn [bind] in E.
      assert (S1' : sess h h1 [t2] ((ca :: olist left) ++ olist pr) O) by perm.
      destruct (IHc fuel h1 left k v ca tl t1 (olist pr ++ O)) as (h2 & o2 & cs2 & E2 & F2 & C2 & Sb2 & R2);
        auto; [now apply sess_sub in S1'|lia|].
      rewrite E2. cbn [bind].
      assert (Sb' : sub (cs2 ++ cs) (lspine (Node ck cv clh crh cl cr) ++ [Pay nk nv lh rh])) by (apply sub_app; auto).
      assert (C2' : clones h2 = (cs2 ++ cs) ++ clones h) by (rewrite C2, C1; apply app_assoc).
      destruct o2 as [p2|].
      + destruct R2 as (So2 & D2 & R2).
        destruct (sess_call _ _ _ _ _ (olist p2) _ _ S1' So2 F2) as [S2 K2]. mv K2.
        rewrite (h_height_ok _ _ _ D2).
        destruct (height t1) as [h1'|] eqn:Eh1; [|discriminate]. cbn [bind prh] in E |- *.
        destruct (is_bal h1' rh) as [ib|] eqn:Eib; [|discriminate]. cbn [bind] in E |- *.
        unfold set_lh. cbn [pk pv plh prh].
        assert (S2' : sess h h2 [t2] (olist p2 ++ olist pr ++ []) O) by perm.
        destruct (sess_close _ _ _ _ _ _ _ _ (Pay nk nv h1' rh) _ _ S2' D2 Dr1) as (S4 & D4 & K4 & G4 & Go4 & C4).
        pose proof (root1_cls _ _ _ _ (Pay nk nv h1' rh) _ _ _ _ _ _ _ S2' D2 Dr1 R2) as R4. mv K4.
        set (h4 := cls h2 t2 (Pay nk nv h1' rh) p2 pr) in *.
        destruct (sess_end _ _ _ _ _ S4) as [So4 F4].
        destruct ib.
        * injection E as <-. eapply call_done with (cs := cs2 ++ cs); [perm|congruence|exact Sb'|].
          split; [exact D4|eexists; eauto].
        * destruct (rot_rt _) as [[t2' s2]|] eqn:Erl in E; [|discriminate]. cbn [bind] in E. injection E as <-.
          destruct (rot_rt_ok bomb h4 t2 nk nv h1' rh pr p2 r t1 t2' s2 O So4 G4)
            as (h5 & p5 & o5 & cs5 & E5 & So5 & F5 & C5 & Sb5 & R5 & W5); auto.
          rewrite E5. cbn [bind]. destruct (W5 R4) as [-> N5].
          destruct o5 as [s5|]; [|congruence]. destruct R5 as (-> & D5 & R5).
          exists h5, (Done p5), (cs2 ++ cs). split; auto. split; [eapply frame_trans; eauto|].
          split; [rewrite C5, C4; exact C2'|]. split; [exact Sb'|]. split; auto. split; auto.
      + destruct R2 as [So2 [n B]].
        destruct (sess_call _ _ _ _ _ [] _ _ S1' So2 F2) as [S2 K2]. mv K2.
        assert (S2' : sess h h2 [t2] (olist None ++ olist pr ++ []) O) by perm.
        destruct (sess_close _ _ _ _ _ _ _ _ (Pay nk nv lh rh) VN _ S2' (den_nil _) Dr1) as (S4 & D4 & K4 & G4 & Go4 & C4).
        eapply call_unwind with (cs := cs2 ++ cs); eauto; try perm; try congruence.
  Qed.

  Lemma join_ok tl tr : forall (h : heap) left k v right t' O,
    sound h (olist left ++ olist right ++ O) -> den h left (tv tl) -> den h right (tv tr) ->
    levels tl < depth -> levels tr < depth -> join tl k v tr = Ok t' ->
    call O h (clones h) (fun cs => sub cs (rspine tl) \/ sub cs (lspine tr)) (h_join bomb h left k v right)
      olist (is_tree t').
  Proof.
    intros h left k v right t' O So Dl Dr Ll Lr E. unfold join in E. unfold h_join.
    rewrite (h_height_ok _ _ _ Dl), (h_height_ok _ _ _ Dr).
    destruct (height tr) as [hr|] eqn:Ehr; [|discriminate]. cbn [bind] in E |- *.
    destruct (height tl) as [hl|] eqn:Ehl; [|discriminate]. cbn [bind] in E |- *.
    destruct (i8_sub hr hl) as [b|] eqn:Eb; [|discriminate]. cbn [bind] in E |- *.
    destruct (Z.ltb_spec b (-1)); [|destruct (Z.ltb_spec 1 b)].
    - destruct tl as [|lk lv llh lrh ll lr]; [discriminate|]. destruct (den_some _ _ _ _ Dl) as [la ->].
      cbn [unwrap bind]. eapply call_P; [|eapply join_rt_ok; eauto]. cbn beta. auto.
    - destruct tr as [|rk rv rlh rrh rl rr]; [now destruct tl; cbn in E|]. destruct (den_some _ _ _ _ Dr) as [ra ->].
      cbn [unwrap bind]. eapply call_P; [|eapply join_lf_ok; eauto]; [cbn beta; auto|].
      pose proof (sess_start h (olist left ++ olist (Some ra)) O) as S0. rewrite <- app_assoc in S0. specialize (S0 So).
      assert (S1 : sess h h [] (ra :: olist left) O) by perm. now destruct (sess_end _ _ _ _ _ S1).
    - unfold opt_new in E. rewrite Ehl, Ehr in E. injection E as <-.
      destruct (alloc h (Nd (Pay k v hl hr) [left; right])) as [h1 a] eqn:Eal.
      pose proof (sess_start h (olist left ++ olist right) O) as S0. rewrite <- app_assoc in S0. specialize (S0 So).
      assert (S1 : sess h h [] (olist left ++ olist right ++ []) O) by perm.
      destruct (sess_alloc _ _ _ _ _ _ _ (Pay k v hl hr) _ _ _ _ S1 Dl Dr Eal) as (S2 & D2 & K2 & G2 & Go2 & C2 & _).
      eapply call_done with (cs := []); [perm|exact C2|left; apply sub_nil_l|]. split; [exact D2|eexists; eauto].
  Qed.

  (** Calls inside a session. *)
  Lemma sess_sound (h0 h : heap) R X1 X2 O : sess h0 h R (X1 ++ X2) O -> sound h (X1 ++ X2 ++ O).
  Proof. apply sess_sub. Qed.

  Lemma rm_leftmost_levels (t : tree) : forall t' kv s, rm_leftmost t = Ok (t', kv, s) -> AvlProofs.avl t ->
    (AvlProofs.ht t <= 91)%Z -> AvlProofs.avl t' /\ (AvlProofs.ht t' <= AvlProofs.ht t)%Z.
  Proof.
    intros t' kv s E A Hb. destruct (AvlProofs.rm_leftmost_ok t) as (t1 & kv1 & s1 & E1 & A1 & H1 & _); auto; [lia|].
    rewrite E in E1. injection E1 as -> -> ->. split; auto. destruct s1; cbn [b2z] in H1; lia.
  Qed.

  Lemma levels_ht (t : tree) : AvlProofs.avl t -> Z.of_nat (levels t) = AvlProofs.ht t.
  Proof.
    induction t as [|k v lh rh l IHl r IHr]; cbn [levels AvlProofs.ht AvlProofs.avl]; auto.
    intros (_ & _ & _ & Al & Ar). specialize (IHl Al). specialize (IHr Ar). lia.
  Qed.
  Definition low (t : tree) : Prop := AvlProofs.avl t /\ (AvlProofs.ht t <= 91)%Z.
  Lemma low_levels t : low t -> levels t < depth.
  Proof. intros [A H]. pose proof (levels_ht t A). unfold depth. lia. Qed.
  Lemma fits_low t : AvlProofs.avl t -> AvlProofs2.fits (elems t) -> low t.
  Proof. intros A F. split; auto. now apply AvlProofs2.avl_ht_bound. Qed.

  Lemma join2_ok tl tr : forall (h : heap) left okv right t' O,
    sound h (olist left ++ olist right ++ O) -> den h left (tv tl) -> den h right (tv tr) ->
    low tl -> low tr -> join2 tl okv tr = Ok t' ->
    call O h (clones h) (fun _ => True) (h_join2 bomb h left okv right) olist (fun p h' => den h' p (tv t')).
  Proof.
    intros h left okv right t' O So Dl Dr Ll Lr E. unfold join2 in E. unfold h_join2.
    destruct okv as [[k v]|].
    - eapply call_P; [|eapply call_D; [|eapply join_ok; eauto using low_levels]]; auto. now intros ? ? [? _].
    - pose proof (sess_start h (olist left ++ olist right) O) as S0. rewrite <- app_assoc in S0. specialize (S0 So).
      destruct tl as [|lk lv llh lrh ll lr].
      { cbn [tv] in Dl. apply den_none in Dl as ->. injection E as <-. eapply call_done with (cs := []); auto. }
      destruct (den_some _ _ _ _ Dl) as [la ->].
      destruct tr as [|rk rv rlh rrh rl rr].
      { cbn [tv] in Dr. apply den_none in Dr as ->. injection E as <-. eapply call_done with (cs := []); auto. }
      destruct (den_some _ _ _ _ Dr) as [ra ->].
      destruct (rm_leftmost (Node rk rv rlh rrh rl rr)) as [[[r' kv] sh]|] eqn:Er; [|discriminate]. cbn [bind] in E.
      destruct kv as [[k v]|]; [|discriminate]. cbn [unwrap bind] in E.
      assert (S0' : sess h h [] (olist (Some ra) ++ olist (Some la)) O) by perm.
      destruct (rm_leftmost_ok bomb (Node rk rv rlh rrh rl rr) depth h (Some ra) r' (Some (k, v)) sh (olist (Some la) ++ O))
        as (h1 & pr & o1 & cs1 & E1 & So1 & F1 & C1 & Sb1 & R1 & _);
        auto using low_levels; [now apply sess_sub in S0'|].
      destruct (sess_call _ _ _ _ _ (olist pr) _ _ S0' So1 F1) as [S1 K1]. mv K1.
      rewrite E1. cbn [bind].
      destruct o1 as [[kv1 s1]|].
      + destruct R1 as [Ex D1]. injection Ex as -> ->. cbn [unwrap bind].
        assert (S1' : sess h h1 [] (olist (Some la) ++ olist pr) O) by perm.
        destruct (rm_leftmost_levels _ _ _ _ Er (proj1 Lr) (proj2 Lr)) as [A' H'].
        assert (Lr' : low r'). { split; auto. destruct Lr. lia. }
        change (VT (Pay lk lv llh lrh) [_; _]) with (tv (Node lk lv llh lrh ll lr)) in Dl.
        apply sess_sub in S1' as So1'.
        assert (Q2 := join_ok (Node lk lv llh lrh ll lr) r' h1 (Some la) k v pr t' O So1' Dl D1
                        (low_levels _ Ll) (low_levels _ Lr') E).
        eapply call_frame; [apply (s_fr _ _ _ _ _ S1')|].
        eapply call_D; [|eapply call_base with (cs0 := cs1) (P' := fun _ => True); [|rewrite <- C1; exact Q2]]; auto.
        now intros ? ? [? _].
      + destruct R1 as [_ [n B]]. eapply call_unwind with (cs := cs1); eauto; try perm.
  Qed.

  Lemma unshare_ok (h0 h : heap) R a X O d tl tr :
    sess h0 h R (a :: X) O -> den h (Some a) (VT d [tl; tr]) ->
    exists h1 r, unshare bomb h a = Ok (h1, r) /\ keep (X ++ O) h h1 /\
      match r with
      | Unwound => sess h0 h1 R X O /\ clones h1 = d :: clones h /\ bomb (length (clones h)) = true
      | Done (d', pl, pr) => d' = d /\ sess h0 h1 R (olist pl ++ olist pr ++ X) O /\ den h1 pl tl /\ den h1 pr tr
                            /\ exists cs, clones h1 = cs ++ clones h /\ sub cs [d]
                            /\ (unique h a = true -> cs = [])
      end.
  Proof.
    intros S Dn. destruct (den_get2 _ _ _ _ _ Dn) as (c & l & r & G & Dl & Dr).
    pose proof S as [W A F N Rs]. cbn [app] in W.
    assert (Wc : 1 <= c). { pose proof (W a) as Wa. rewrite G in Wa. lia. }
    unfold unshare. rewrite G. destruct c as [|[|c]]; [lia| |].
    - destruct (take_ok h a _ (X ++ O) W A G) as (h2 & E2 & W2 & A2 & F2 & D2 & G2 & L2 & Lc & C2).
      rewrite E2. cbn [bind]. exists h2, (Done (d, l, r)). split; auto. split; [now apply frame_keep|].
      cbn [nd_kids] in *. rewrite olists2 in W2. specialize (D2 _ (dens2 _ _ _ _ _ Dl Dr)).
      inversion D2 as [|? ? ? ? Q1 Q2]; subst. inversion Q2 as [|? ? ? ? Q3 Q4]; subst.
      split; auto. destruct (sess_call h0 h h2 R [a] (olist l ++ olist r) X O) as [S2 K2]; auto.
      { split; auto. }
      split; [|split; [auto|split; [auto|exists []; auto using sub_nil_l]]].
      now rewrite app_assoc.
    - destruct (bomb (length (clones h))) eqn:Eb.
      + destruct (log_ok h d _ W A) as (W1 & A1 & S1 & S1' & L1 & P1).
        assert (Ss : sess h0 (log h d) R (olists [Some a] ++ X) O).
        { destruct (sess_call h0 h (log h d) R (a :: X) (a :: X) [] O) as [Hs _]; auto.
          - now rewrite app_nil_r.
          - split; auto.
          - now apply same_frame2.
          - now rewrite app_nil_r in Hs. }
        destruct (sess_drops _ _ _ _ _ _ Ss) as (h' & E' & S' & K' & C').
        unfold unwind. rewrite E'. cbn [bind]. exists h', Unwound. split; auto. split; [|auto].
        intros q t Hq D. apply K'; auto. now apply (den_same h _ S1).
      + destruct (log_ok h d _ W A) as (W1 & A1 & S1 & S1' & L1 & P1).
        destruct (incs_ok [l; r] (log h d) (a :: X ++ O) W1 A1) as (h1 & E1 & W1i & A1i & Si & Si' & Pi & Li & Ci).
        { intros x Hx. apply in_or_app. right. rewrite P1. eapply ptrs_in; [exact G|exact Hx]. }
        rewrite E1. cbn [bind]. rewrite olists2 in W1i.
        destruct (Si _ _ _ (eq_trans (get_log h d a) G)) as [c' G1].
        assert (Hc' : c' <> 1).
        { pose proof (W1i a) as Wa. rewrite G1 in Wa. pose proof (W a) as Wb. rewrite G in Wb.
          rewrite Pi, P1 in Wa. rewrite !cnt_app in Wa. cbn [app] in *. rewrite cnt_cons, cnt_app in Wa, Wb.
          rewrite !cnt_app in Wb. destruct (Nat.eq_dec a a); lia. }
        assert (W1i' : wf h1 (a :: (olist l ++ olist r ++ X) ++ O)).
        { eapply wf_equiv; [|exact W1i]. cnts. }
        destruct (dec_ok h1 a c' _ _ W1i' A1i G1 Hc') as (h2 & E2 & W2 & A2 & S2 & S2' & L2 & C2 & Go2).
        rewrite E2. cbn [bind]. exists h2, (Done (d, l, r)). split; auto.
        assert (SN : same_nodes h h2).
        { eapply same_nodes_trans; [exact S1|]. eapply same_nodes_trans; eauto. }
        assert (SN' : same_nodes h2 h).
        { eapply same_nodes_trans; [exact S2'|]. eapply same_nodes_trans; [exact Si'|exact S1']. }
        assert (Kp : forall q t, den h q t -> den h2 q t) by (apply (den_same h h2 SN)).
        split; [now intros q t _; apply Kp|]. split; auto.
        destruct (sess_call h0 h h2 R (a :: X) (olist l ++ olist r ++ X) [] O) as [Hs _].
        * now rewrite app_nil_r.
        * split; auto.
        * apply same_frame2; auto. congruence.
        * rewrite app_nil_r in Hs. split; auto. split; auto. split; auto. exists [d]. rewrite C2, Ci. split; auto.
          split; [apply sub_refl|]. unfold unique. rewrite G. cbn. discriminate.
  Qed.

  Lemma split_fits (t : tree) q l kv r : AvlProofs.avl t -> AvlProofs2.fits (elems t) ->
    split bor cmp t q = Ok (l, kv, r) -> low l /\ low r.
  Proof.
    intros A Ft E. destruct (AvlAnyProofs.split_any bor cmp t q A Ft) as (l' & kv' & r' & E' & Al & Ar & El & _).
    rewrite E in E'. injection E' as <- <- <-.
    split; apply fits_low; auto; eapply AvlProofs2.fits_le; try exact Ft; rewrite El, !app_length; lia.
  Qed.

  Definition own2 : ptr * option (K * V) * ptr -> list addr := fun x => olist (fst (fst x)) ++ olist (snd x).
  Definition are_parts (l r : tree) (kv : option (K * V)) : ptr * option (K * V) * ptr -> heap -> Prop :=
    fun x h => den h (fst (fst x)) (tv l) /\ den h (snd x) (tv r) /\ snd (fst x) = kv.

  Lemma split_ok t : forall fuel (h : heap) p q l kv r O,
    sound h (olist p ++ O) -> den h p (tv t) -> levels t < fuel -> AvlProofs.avl t -> AvlProofs2.fits (elems t) ->
    split bor cmp t q = Ok (l, kv, r) ->
    call O h (clones h) (fun _ => True) (h_split bor cmp bomb fuel h p q) own2 (are_parts l r kv).
  Proof.
    induction t as [|nk nv lh rh l0 IHl r0 IHr]; intros fuel h p q l kv r O So D Lf A Ft E;
      destruct fuel as [|fuel]; try lia.
    - cbn in D. apply den_none in D as ->. injection E as <- <- <-. cbn [h_split].
      eapply call_done with (cs := []); auto; [apply sess_start; exact So|]. repeat split; constructor.
    - cbn [tv] in D. destruct (den_some _ _ _ _ D) as [rc ->]. cbn [h_split split] in *.
      destruct (unshare_ok h h [] rc [] O _ _ _ (sess_start _ [rc] _ So) D) as (h1 & r1 & E1 & K1 & P1).
      rewrite E1. cbn [bind].
      destruct A as (Ea & Eb & Hb & Al & Ar). cbn [elems levels] in *.
      assert (Fl : AvlProofs2.fits (elems l0)) by (eapply AvlProofs2.fits_le; [|exact Ft]; rewrite app_length; lia).
      assert (Fr : AvlProofs2.fits (elems r0)) by (eapply AvlProofs2.fits_le; [|exact Ft]; rewrite app_length; cbn [length]; lia).
      destruct r1 as [[[d' pl] pr]|].
      2:{ destruct P1 as (S1 & C1 & B1). destruct (sess_end _ _ _ _ _ S1). exists h1, Unwound, [Pay nk nv lh rh].
          repeat split; eauto; apply S1. }
      destruct P1 as (-> & S1 & Dl & Dr & cs & C1 & Sb & _). cbn [pk pv].
      destruct (cmp q (bor nk)) eqn:Ec.
      + injection E as <- <- <-. eapply call_done with (cs := cs); auto; [unfold own2; cbn [fst snd]; perm|].
        repeat split; auto.
      + destruct (split bor cmp l0 q) as [[[l1 kv1] r1]|] eqn:Es; [|discriminate]. cbn [bind] in E.
        destruct (join r1 nk nv r0) as [r1'|] eqn:Ej; [|discriminate]. cbn [bind] in E. injection E as <- <- <-.
        assert (S1' : sess h h1 [] (olist pl ++ olist pr) O) by perm.
        destruct (IHl fuel h1 pl q l1 kv1 r1 (olist pr ++ O)) as (h2 & o2 & cs2 & E2 & F2 & C2 & _ & R2);
          auto; [now apply sess_sub in S1'|lia|].
        rewrite E2. cbn [bind].
        assert (C2' : clones h2 = (cs2 ++ cs) ++ clones h) by (rewrite C2, C1; apply app_assoc).
        destruct o2 as [[[p1 kv2] p2]|].
        * destruct R2 as (So2 & D1 & D2 & Ekv). unfold own2 in So2. cbn [fst snd] in *. subst kv2.
          destruct (sess_call _ _ _ _ _ _ _ _ S1' So2 F2) as [S2 K2]. mv K2.
          destruct (split_fits l0 q l1 kv1 r1 Al Fl Es) as [Ll1 Lr1].
          assert (S2' : sess h h2 [] (olist p2 ++ olist pr ++ olist p1) O) by perm.
          destruct (join_ok r1 r0 h2 p2 nk nv pr r1' (olist p1 ++ O)) as (h3 & o3 & cs3 & E3 & F3 & C3 & _ & R3);
            auto using low_levels, fits_low.
          { rewrite !app_assoc. rewrite !app_assoc in S2'. apply sess_end in S2' as [Hs _]. exact Hs. }
          rewrite E3. cbn [bind].
          assert (C3' : clones h3 = (cs3 ++ cs2 ++ cs) ++ clones h) by (rewrite C3, C2'; apply app_assoc).
          assert (S2a : sess h h2 [] ((olist p2 ++ olist pr) ++ olist p1) O) by perm.
          destruct o3 as [p3|].
          -- destruct R3 as (So3 & D3 & R3).
             destruct (sess_call _ _ _ _ _ (olist p3) _ _ S2a So3 F3) as [S3 K3]. mv K3.
             eapply call_done with (cs := cs3 ++ cs2 ++ cs); auto; [unfold own2; cbn [fst snd]; perm|].
             repeat split; auto.
          -- destruct R3 as (So3 & n & B). destruct (sess_call _ _ _ _ _ [] _ _ S2a So3 F3) as [S3 K3].
             eapply call_unwind with (cs := cs3 ++ cs2 ++ cs); eauto; try perm.
        * destruct R2 as (So2 & n & B). destruct (sess_call _ _ _ _ _ [] _ _ S1' So2 F2) as [S2 K2].
          eapply call_unwind with (cs := cs2 ++ cs); eauto; try perm.
      + destruct (split bor cmp r0 q) as [[[l1 kv1] r1]|] eqn:Es; [|discriminate]. cbn [bind] in E.
        destruct (join l0 nk nv l1) as [l1'|] eqn:Ej; [|discriminate]. cbn [bind] in E. injection E as <- <- <-.
        assert (S1' : sess h h1 [] (olist pr ++ olist pl) O) by perm.
        destruct (IHr fuel h1 pr q l1 kv1 r1 (olist pl ++ O)) as (h2 & o2 & cs2 & E2 & F2 & C2 & _ & R2);
          auto; [now apply sess_sub in S1'|lia|].
        rewrite E2. cbn [bind].
        assert (C2' : clones h2 = (cs2 ++ cs) ++ clones h) by (rewrite C2, C1; apply app_assoc).
        destruct o2 as [[[p1 kv2] p2]|].
        * destruct R2 as (So2 & D1 & D2 & Ekv). unfold own2 in So2. cbn [fst snd] in *. subst kv2.
          destruct (sess_call _ _ _ _ _ _ _ _ S1' So2 F2) as [S2 K2]. mv K2.
          destruct (split_fits r0 q l1 kv1 r1 Ar Fr Es) as [Ll1 Lr1].
          assert (S2' : sess h h2 [] (olist pl ++ olist p1 ++ olist p2) O) by perm.
          destruct (join_ok l0 l1 h2 pl nk nv p1 l1' (olist p2 ++ O)) as (h3 & o3 & cs3 & E3 & F3 & C3 & _ & R3);
            auto using low_levels, fits_low.
          { rewrite !app_assoc. rewrite !app_assoc in S2'. apply sess_end in S2' as [Hs _]. exact Hs. }
          rewrite E3. cbn [bind].
          assert (C3' : clones h3 = (cs3 ++ cs2 ++ cs) ++ clones h) by (rewrite C3, C2'; apply app_assoc).
          assert (S2a : sess h h2 [] ((olist pl ++ olist p1) ++ olist p2) O) by perm.
          destruct o3 as [p3|].
          -- destruct R3 as (So3 & D3 & R3).
             destruct (sess_call _ _ _ _ _ (olist p3) _ _ S2a So3 F3) as [S3 K3]. mv K3.
             eapply call_done with (cs := cs3 ++ cs2 ++ cs); auto.
             repeat split; auto.
          -- destruct R3 as (So3 & n & B). destruct (sess_call _ _ _ _ _ [] _ _ S2a So3 F3) as [S3 K3].
             eapply call_unwind with (cs := cs3 ++ cs2 ++ cs); eauto; try perm.
        * destruct R2 as (So2 & n & B). destruct (sess_call _ _ _ _ _ [] _ _ S1' So2 F2) as [S2 K2].
          eapply call_unwind with (cs := cs2 ++ cs); eauto; try perm.
  Qed.

  Lemma merge_low keepl keepr dec (t1 t2 t' : tree) : AvlProofs.avl t1 -> AvlProofs.avl t2 ->
    AvlProofs2.fits (elems t1 ++ elems t2) -> merge bor cmp keepl keepr dec t1 t2 = Ok t' -> low t'.
  Proof.
    intros A1 A2 Ft E.
    destruct (AvlAnyProofs.merge_any bor cmp keepl keepr dec t1 t2 A1 A2 Ft) as (t'' & oa & ob & both & E' & A' & _ & _ & L).
    rewrite E in E'. injection E' as <-. apply fits_low; auto. eapply AvlProofs2.fits_le; [|exact Ft]. now rewrite app_length.
  Qed.

  (** The parts of a merge of two nodes. *)
  Lemma merge_parts nk nv lh rh (l r t2 : tree) tl kv tr :
    AvlProofs.avl (Node nk nv lh rh l r) -> AvlProofs.avl t2 ->
    AvlProofs2.fits (elems (Node nk nv lh rh l r) ++ elems t2) -> split bor cmp t2 (bor nk) = Ok (tl, kv, tr) ->
    (AvlProofs.avl l /\ AvlProofs.avl tl /\ AvlProofs2.fits (elems l ++ elems tl))
    /\ (AvlProofs.avl r /\ AvlProofs.avl tr /\ AvlProofs2.fits (elems r ++ elems tr)).
  Proof.
    intros (_ & _ & _ & Al & Ar) A2 Ft E. cbn [elems] in *.
    assert (Hf2 : AvlProofs2.fits (elems t2)).
    { eapply AvlProofs2.fits_le; [|exact Ft]. rewrite app_length. lia. }
    destruct (AvlAnyProofs.split_any bor cmp t2 (bor nk) A2 Hf2) as (tl' & kv' & tr' & E' & Atl & Atr & El & _).
    rewrite E in E'. injection E' as <- <- <-.
    assert (Hlen := f_equal (@length _) El). rewrite !app_length in Hlen.
    repeat split; auto; eapply AvlProofs2.fits_le; try exact Ft; rewrite !app_length; cbn [length]; lia.
  Qed.

  Lemma merge_ok keepl keepr dec t1 : forall t2 fuel (h : heap) p1 p2 t' O,
    sound h (olist p1 ++ olist p2 ++ O) -> den h p1 (tv t1) -> den h p2 (tv t2) -> levels t1 < fuel ->
    AvlProofs.avl t1 -> AvlProofs.avl t2 ->
    AvlProofs2.fits (elems t1 ++ elems t2) -> merge bor cmp keepl keepr dec t1 t2 = Ok t' ->
    call O h (clones h) (fun _ => True) (h_merge bor cmp bomb keepl keepr dec fuel h p1 p2) olist
      (fun p h' => den h' p (tv t')).
  Proof.
    induction t1 as [|nk nv lh rh l IHl r IHr]; intros t2 fuel h p1 p2 t' O So D1 D2 Lf A1 A2 Ft E;
      destruct fuel as [|fuel]; try lia; cbn [h_merge].
    - pose proof (sess_start h (olist p1 ++ olist p2) O) as S0. rewrite <- app_assoc in S0. specialize (S0 So).
      cbn [tv] in D1. apply den_none in D1 as ->. cbn [merge] in E. destruct keepr; injection E as <-.
      + eapply call_done with (cs := []); auto.
      + assert (S0' : sess h h [] (olist p2 ++ []) O) by perm.
        destruct (sess_drop1 _ _ _ _ _ _ S0') as (h1 & E1 & S1' & _ & C1). rewrite E1. cbn [bind].
        eapply call_done with (cs := []); auto. constructor.
    - destruct (den_some _ _ _ _ D1) as [a1 ->]. cbn [tv] in D1.
      destruct t2 as [|k2 v2 lh2 rh2 l2 r2].
      { pose proof (sess_start h (olist (Some a1) ++ olist p2) O) as S0. rewrite <- app_assoc in S0. specialize (S0 So).
        cbn [tv] in D2. apply den_none in D2 as ->. cbn [merge] in E. destruct keepl; injection E as <-.
        - eapply call_done with (cs := []); auto.
        - assert (S0' : sess h h [] (olist (Some a1) ++ []) O) by perm.
          destruct (sess_drop1 _ _ _ _ _ _ S0') as (h1 & E1 & S1' & _ & C1). rewrite E1. cbn [bind].
          eapply call_done with (cs := []); auto. constructor. }
      destruct (den_some _ _ _ _ D2) as [a2 ->]. cbn [merge] in E.
      assert (Hf2 : AvlProofs2.fits (elems (Node k2 v2 lh2 rh2 l2 r2))).
      { eapply AvlProofs2.fits_le; [|exact Ft]. rewrite app_length. lia. }
      pose proof (low_levels _ (fits_low _ A2 Hf2)) as Lv2.
      remember (Node k2 v2 lh2 rh2 l2 r2) as t2 eqn:Et2. clear Et2.
      destruct (split bor cmp t2 (bor nk)) as [[[tl kv] tr]|] eqn:Es; [|discriminate]. cbn [bind] in E.
      destruct (merge bor cmp keepl keepr dec l tl) as [l'|] eqn:El; [|discriminate]. cbn [bind] in E.
      destruct (merge bor cmp keepl keepr dec r tr) as [r'|] eqn:Er; [|discriminate]. cbn [bind] in E.
      destruct (merge_parts _ _ _ _ _ _ _ _ _ _ A1 A2 Ft Es)
        as [(Al & Atl & Fl) (Ar & Atr & Fr)].
      destruct (unshare_ok h h [] a1 (olist (Some a2)) O _ _ _ (sess_start _ (a1 :: olist (Some a2)) _ So) D1)
        as (h1 & r1 & E1 & K1 & P1).
      rewrite E1. cbn [bind]. mv K1.
      destruct r1 as [[[d' pl] pr]|].
      2:{ destruct P1 as (Ss1 & C1 & B1). eapply call_unwind with (cs := [_]); eauto; try perm. }
      destruct P1 as (-> & Ss1 & Dl & Dr & cs & C1 & _ & _). cbn [pk pv].
      assert (Ss1' : sess h h1 [] (olist (Some a2) ++ (olist pl ++ olist pr)) O) by perm.
      destruct (split_ok t2 depth h1 (Some a2) (bor nk) tl kv tr ((olist pl ++ olist pr) ++ O))
        as (h2 & o2 & cs2 & E2 & F2 & C2 & _ & R2); auto; [now apply sess_sub in Ss1'|].
      rewrite E2. cbn [bind].
      assert (C2' : clones h2 = (cs2 ++ cs) ++ clones h) by (rewrite C2, C1; apply app_assoc).
      destruct o2 as [[[q1 kv2] q2]|].
      2:{ destruct R2 as (So2 & n & B). destruct (sess_call _ _ _ _ _ [] _ _ Ss1' So2 F2) as [Ss2 K2].
          eapply call_unwind with (cs := cs2 ++ cs); eauto; try perm. }
      destruct R2 as (So2 & Dq1 & Dq2 & Ekv). unfold own2 in So2. cbn [fst snd] in *. subst kv2.
      destruct (sess_call _ _ _ _ _ _ _ _ Ss1' So2 F2) as [Ss2 K2]. mv K2.
      assert (Ss2' : sess h h2 [] ((olist pl ++ olist q1) ++ (olist pr ++ olist q2)) O) by perm.
      destruct (IHl tl fuel h2 pl q1 l' ((olist pr ++ olist q2) ++ O)) as (h3 & o3 & cs3 & E3 & F3 & C3 & _ & R3);
        auto; [rewrite app_assoc; now apply sess_sub in Ss2'|cbn [levels] in Lf; lia|].
      rewrite E3. cbn [bind].
      assert (C3' : clones h3 = (cs3 ++ cs2 ++ cs) ++ clones h) by (rewrite C3, C2'; apply app_assoc).
      destruct o3 as [pl'|].
      2:{ destruct R3 as (So3 & n & B). destruct (sess_call _ _ _ _ _ [] _ _ Ss2' So3 F3) as [Ss3 K3].
          eapply call_unwind with (cs := cs3 ++ cs2 ++ cs); eauto; try perm. }
      destruct R3 as (So3 & Dl').
      destruct (sess_call _ _ _ _ _ _ _ _ Ss2' So3 F3) as [Ss3 K3]. mv K3.
      assert (Ss3' : sess h h3 [] ((olist pr ++ olist q2) ++ olist pl') O) by perm.
      destruct (IHr tr fuel h3 pr q2 r' (olist pl' ++ O)) as (h4 & o4 & cs4 & E4 & F4 & C4 & _ & R4);
        auto; [rewrite app_assoc; now apply sess_sub in Ss3'|cbn [levels] in Lf; lia|].
      rewrite E4. cbn [bind].
      assert (C4' : clones h4 = (cs4 ++ cs3 ++ cs2 ++ cs) ++ clones h) by (rewrite C4, C3'; apply app_assoc).
      destruct o4 as [pr'|].
      2:{ destruct R4 as (So4 & n & B). destruct (sess_call _ _ _ _ _ [] _ _ Ss3' So4 F4) as [Ss4 K4].
          eapply call_unwind with (cs := cs4 ++ cs3 ++ cs2 ++ cs); eauto; try perm. }
      destruct R4 as (So4 & Dr').
      destruct (sess_call _ _ _ _ _ _ _ _ Ss3' So4 F4) as [Ss4 K4]. mv K4.
      assert (Ss4' : sess h h4 [] (olist pl' ++ olist pr') O) by perm.
      eapply call_frame; [apply (s_fr _ _ _ _ _ Ss4')|].
      eapply call_base with (cs0 := cs4 ++ cs3 ++ cs2 ++ cs) (P := fun _ => True); [auto|].
      rewrite <- C4'. eapply join2_ok; eauto using merge_low.
      now apply sess_sub in Ss4'.
  Qed.

  Lemma sess_inc (h0 h : heap) R p X O : sess h0 h R X O -> incl (olist p) ((X ++ O) ++ ptrs h) ->
    exists h', inc h p = Ok h' /\ sess h0 h' R (olist p ++ X) O
      /\ (forall q t, den h q t -> den h' q t) /\ clones h' = clones h.
  Proof.
    intros S Hi. pose proof S as [W A F N Rs].
    destruct (inc_ok h p (X ++ O) W A Hi) as (h1 & E & W1 & A1 & Sn & Sn' & P1 & L1 & C1).
    exists h1. split; auto.
    destruct (sess_call h0 h h1 R [] (olist p) X O) as [S1 _]; auto.
    - split; auto.
    - now apply same_frame2.
    - split; auto. split; auto. apply (den_same h h1 Sn).
  Qed.
  Lemma rd_ok (h : heap) a d tl tr : den h (Some a) (VT d [tl; tr]) ->
    exists l r, rd h a = Ok (d, l, r) /\ den h l tl /\ den h r tr
      /\ incl (olist l) (ptrs h) /\ incl (olist r) (ptrs h).
  Proof.
    intros D. destruct (den_get2 _ _ _ _ _ D) as (c & l & r & G & Dl & Dr).
    exists l, r. unfold rd. rewrite G. split; auto. split; auto. split; auto.
    split; intros x Hx; eapply ptrs_in; try exact G; cbn [nd_kids]; rewrite olists2; apply in_or_app; auto.
  Qed.
  Lemma sess_log (h0 h : heap) R X O d : sess h0 h R X O ->
    sess h0 (log h d) R X O /\ (forall q t, den h q t -> den (log h d) q t).
  Proof.
    intros S. pose proof S as [W A F N Rs]. destruct (log_ok h d _ W A) as (W1 & A1 & S1 & S1' & L1 & P1).
    destruct (sess_call h0 h (log h d) R [] [] X O) as [Hs _]; auto.
    - split; auto.
    - now apply same_frame2.
    - split; auto. apply (den_same h _ S1).
  Qed.

  Definition own1 {B C} : ptr * B * C -> list addr := fun x => olist (fst (fst x)).
  Definition is_ret {C} (t : tree) (n : nat) (s : C) : ptr * nat * C -> heap -> Prop :=
    fun x h => den h (fst (fst x)) (tv t) /\ snd (fst x) = n /\ snd x = s.

  Lemma retain_low {S} (f : S -> K -> V -> S * V * bool) (t t' : tree) s n s' :
    AvlProofs.avl t -> AvlProofs2.fits (elems t) -> retain f t s = Ok (t', n, s') -> low t'.
  Proof.
    intros A Ft E. destruct (AvlAnyProofs.retain_any f t s A Ft) as (t1 & s1 & E1 & A1 & _ & _ & Ln).
    rewrite E in E1. injection E1 as <- _ _. apply fits_low; auto. now eapply AvlProofs2.fits_le; [exact Ln|].
  Qed.

  Lemma retain_ok {S} (f : S -> K -> V -> S * V * bool) (fbomb : S -> K -> V -> bool) (t : tree) :
    forall fuel (h : heap) p s t' n s' O,
    sound h (olist p ++ O) -> den h p (tv t) -> levels t < fuel ->
    AvlProofs.avl t -> AvlProofs2.fits (elems t) -> retain f t s = Ok (t', n, s') ->
    callB (bombs \/ exists s k v, fbomb s k v = true) O h (clones h) (fun _ => True)
      (h_retain bomb f fbomb fuel h p s) own1 (is_ret t' n s').
  Proof.
    induction t as [|nk nv lh rh l IHl r IHr]; intros fuel h p s t' n s' O So D Lf A Ft E;
      destruct fuel as [|fuel]; try lia; cbn [h_retain].
    - cbn [tv] in D. apply den_none in D as ->. injection E as <- <- <-.
      eapply call_done with (cs := []); auto; [apply sess_start; exact So|]. repeat split; constructor.
    - cbn [tv] in D. destruct (den_some _ _ _ _ D) as [a ->]. cbn [retain] in E.
      destruct A as (_ & _ & _ & Al & Ar). cbn [elems levels] in *.
      assert (Fl : AvlProofs2.fits (elems l)) by (eapply AvlProofs2.fits_le; [|exact Ft]; rewrite app_length; lia).
      assert (Fr : AvlProofs2.fits (elems r)) by (eapply AvlProofs2.fits_le; [|exact Ft]; rewrite app_length; cbn [length]; lia).
      destruct (retain f l s) as [[[l' ll] s1]|] eqn:El; [|discriminate]. cbn [bind] in E.
      destruct (retain f r s1) as [[[r' rl] s2]|] eqn:Er; [|discriminate]. cbn [bind] in E.
      assert (Ll : low l') by (eapply (retain_low f l); eauto).
      assert (Lr : low r') by (eapply (retain_low f r); eauto).
      destruct (rd_ok _ _ _ _ _ D) as (pl & pr0 & E0 & Dl & _ & Il & _). rewrite E0. cbn [bind].
      destruct (sess_inc h h [] pl [a] O (sess_start _ [a] _ So)) as (h1 & E1 & S1 & K1 & C1).
      { intros x Hx. apply in_or_app. auto. }
      rewrite E1. cbn [bind]. mv K1.
      destruct (IHl fuel h1 pl s l' ll s1 ([a] ++ O)) as (h2 & o2 & cs2 & E2 & F2 & C2 & _ & R2);
        auto; [now apply sess_sub in S1|lia|].
      rewrite E2. cbn [bind]. rewrite C1 in C2.
      destruct o2 as [[[ql n2] s1']|].
      2:{ destruct R2 as (So2 & B). destruct (sess_call _ _ _ _ _ [] _ _ S1 So2 F2) as [S2 K2].
          eapply call_unwind with (cs := cs2); eauto. }
      destruct R2 as (So2 & Dl' & En & Es). unfold own1 in So2. cbn [fst snd] in *. subst n2 s1'.
      destruct (sess_call _ _ _ _ _ _ _ _ S1 So2 F2) as [S2 K2]. mv K2.
      destruct (rd_ok _ _ _ _ _ D) as (pl0 & pr & E2' & _ & Dr & _ & Ir). rewrite E2'. cbn [bind].
      destruct (sess_inc h h2 [] pr _ O S2) as (h3 & E3 & S3 & K3 & C3).
      { intros x Hx. apply in_or_app. auto. }
      rewrite E3. cbn [bind]. mv K3.
      destruct (IHr fuel h3 pr s1 r' rl s2 ((olist ql ++ [a]) ++ O)) as (h4 & o4 & cs4 & E4 & F4 & C4 & _ & R4);
        auto; [now apply sess_sub in S3|lia|].
      rewrite E4. cbn [bind].
      assert (C4' : clones h4 = (cs4 ++ cs2) ++ clones h) by (rewrite C4, C3, C2; apply app_assoc).
      destruct o4 as [[[qr n4] s2']|].
      2:{ destruct R4 as (So4 & B). destruct (sess_call _ _ _ _ _ [] _ _ S3 So4 F4) as [S4 K4].
          eapply call_unwind with (cs := cs4 ++ cs2); eauto; try perm. }
      destruct R4 as (So4 & Dr' & En & Es). unfold own1 in So4. cbn [fst snd] in *. subst n4 s2'.
      destruct (sess_call _ _ _ _ _ _ _ _ S3 So4 F4) as [S4 K4]. mv K4.
      destruct (rd_ok _ _ _ _ _ D) as (pl1 & pr1 & E4' & _). rewrite E4'. cbn [bind clone_field pk pv].
      destruct (sess_log _ _ _ _ _ (Pay nk nv lh rh) S4) as [S5 K5]. mv K5.
      set (h5 := log h4 (Pay nk nv lh rh)) in *.
      assert (C5 : clones h5 = (Pay nk nv lh rh :: cs4 ++ cs2) ++ clones h) by (cbn; now rewrite C4').
      destruct (bomb (length (clones h4))) eqn:B4.
      { eapply call_unwind; [perm|exact C5|exact I|left; eauto]. }
      destruct (fbomb s2 nk nv) eqn:Fb.
      { eapply call_unwind; [perm|exact C5|exact I|right; eauto]. }
      destruct (f s2 nk nv) as [[s3 v'] [|]] eqn:Ef.
      + destruct (join l' nk v' r') as [t1|] eqn:Ej; [|discriminate]. injection E as <- <- <-.
        destruct (sess_log _ _ _ _ _ (Pay nk nv lh rh) S5) as [S6 K6]. mv K6.
        set (h6 := log h5 (Pay nk nv lh rh)) in *.
        assert (C6 : clones h6 = (Pay nk nv lh rh :: Pay nk nv lh rh :: cs4 ++ cs2) ++ clones h)
          by (cbn; now rewrite C4').
        destruct (bomb (length (clones h5))) eqn:B5.
        { eapply call_unwind; [perm|exact C6|exact I|left; eauto]. }
        assert (S6' : sess h h6 [] ((olist ql ++ olist qr) ++ [a]) O) by perm.
        destruct (join_ok l' r' h6 ql nk v' qr t1 ([a] ++ O)) as (h7 & o7 & cs7 & E7 & F7 & C7 & _ & R7);
          auto using low_levels; [rewrite app_assoc; now apply sess_sub in S6'|].
        rewrite E7. cbn [bind].
        assert (C7' : clones h7 = (cs7 ++ Pay nk nv lh rh :: Pay nk nv lh rh :: cs4 ++ cs2) ++ clones h)
          by (rewrite C7, C6; apply app_assoc).
        destruct o7 as [p7|].
        * destruct R7 as (So7 & D7 & _).
          destruct (sess_call _ _ _ _ _ _ _ _ S6' So7 F7) as [S7 K7]. mv K7.
          assert (S7' : sess h h7 [] (olist (Some a) ++ olist p7) O) by perm.
          destruct (sess_drop1 _ _ _ _ _ _ S7') as (h8 & E8 & S8 & K8 & C8). rewrite E8. cbn [bind]. mv K8.
          eapply call_done; [exact S8|rewrite C8; exact C7'|exact I|]. repeat split; auto.
        * destruct R7 as (So7 & B).
          destruct (sess_call _ _ _ _ _ [] _ _ S6' So7 F7) as [S7 K7].
          assert (S7' : sess h h7 [] (olist (Some a) ++ []) O) by perm.
          destruct (sess_drop1 _ _ _ _ _ _ S7') as (h8 & E8 & S8 & K8 & C8). rewrite E8. cbn [bind].
          destruct (sess_end _ _ _ _ _ S8) as [So8 F8]. eexists h8, Unwound, _. split; auto. split; auto.
          split; [rewrite C8; exact C7'|auto].
      + destruct (join2 l' None r') as [t1|] eqn:Ej; [|discriminate]. injection E as <- <- <-.
        assert (S6' : sess h h5 [] ((olist ql ++ olist qr) ++ [a]) O) by perm.
        destruct (join2_ok l' r' h5 ql None qr t1 ([a] ++ O)) as (h7 & o7 & cs7 & E7 & F7 & C7 & _ & R7);
          auto using low_levels; [rewrite app_assoc; now apply sess_sub in S6'|].
        rewrite E7. cbn [bind].
        assert (C7' : clones h7 = (cs7 ++ Pay nk nv lh rh :: cs4 ++ cs2) ++ clones h)
          by (rewrite C7, C5; apply app_assoc).
        destruct o7 as [p7|].
        * destruct R7 as (So7 & D7).
          destruct (sess_call _ _ _ _ _ _ _ _ S6' So7 F7) as [S7 K7]. mv K7.
          assert (S7' : sess h h7 [] (olist (Some a) ++ olist p7) O) by perm.
          destruct (sess_drop1 _ _ _ _ _ _ S7') as (h8 & E8 & S8 & K8 & C8). rewrite E8. cbn [bind]. mv K8.
          eapply call_done; [exact S8|rewrite C8; exact C7'|exact I|]. repeat split; auto.
        * destruct R7 as (So7 & B).
          destruct (sess_call _ _ _ _ _ [] _ _ S6' So7 F7) as [S7 K7].
          assert (S7' : sess h h7 [] (olist (Some a) ++ []) O) by perm.
          destruct (sess_drop1 _ _ _ _ _ _ S7') as (h8 & E8 & S8 & K8 & C8). rewrite E8. cbn [bind].
          destruct (sess_end _ _ _ _ _ S8) as [So8 F8]. eexists h8, Unwound, _. split; auto. split; auto.
          split; [rewrite C8; exact C7'|auto].
  Qed.
End Join.
