(** The functions on shared nodes follow those of AvlAskModel.v. *)
From Coq Require Import List ZArith Bool Lia Permutation.
From Verif Require Import Base Heap HeapProofs AvlModel Ask AvlAskModel AvlHeapModel AvlHeapAskModel AvlHeapSpec AskHeapSpec AvlHeapProofs AvlHeapProofs2.
Import ListNotations.
Local Open Scope nat_scope.

Section InsTail.
  Context {K V : Type}.
  Variable bomb : nat -> bool.
  Notation pay := (pay K V).
  Notation heap := (heap pay).
  Notation tree := (tree K V).
  Notation slot := (slot bomb).

  (** What follows the call for the left child. *)
  Lemma ins_tail_left (h0 h2 : heap) a nk nv lh rh pl' pr l' r tl' (old : option V) t' x O :
    sess h0 h2 [a] (olist pl' ++ olist pr) O -> den h2 pl' (tv l') -> den h2 pr (tv r) ->
    root1 h2 pl' -> (tl' = true -> leans h2 pl' l') ->
    (lh' <- i8_add lh (b2z tl');;
     let n := Node nk nv lh' rh l' r in
     if (tl' : bool) then
       b <- bal lh' rh;;
       if (b <? -1)%Z then '(n', _) <- rebal_lf_to_rt n;; Ok (n', (old, false))
       else Ok (n, (old, b <? 0)%Z)
     else Ok (n, (old, false))) = Ok (t', x) ->
    slot O h0 (clones h2) [] False
      (lh' <- i8_add lh (b2z tl');;
       let d' := set_lh (Pay nk nv lh rh) lh' in
       let h3 := cls h2 a d' pl' pr in
       if tl' then
         b <- bal lh' rh;;
         if (b <? -1)%Z then y <- h_rebal_lf_to_rt bomb h3 (Some a);; Ok (then_ y (fun _ => (old, false)))
         else Ok (h3, Some a, Done (old, b <? 0)%Z)
       else Ok (h3, Some a, Done (old, false)))
      (fun y h' p' => y = x /\ den h' p' (tv t') /\ root1 h' p' /\ (snd x = true -> leans h' p' t'))
      (fun _ _ => False).
  Proof.
    intros S2 Dl2 Dr R1 Ln E. cbv zeta in *.
    destruct (i8_add lh (b2z tl')) as [lh'|] eqn:Eh; [|discriminate]. cbn [bind] in E |- *.
    unfold set_lh. cbn [pk pv plh prh].
    assert (S2' : sess h0 h2 [a] (olist pl' ++ olist pr ++ []) O) by perm.
    destruct (sess_close _ _ _ _ _ _ _ _ (Pay nk nv lh' rh) _ _ S2' Dl2 Dr) as (S3 & D3 & K3 & G3 & Go3 & C3).
    destruct (sess_end _ _ _ _ _ S3) as [So3 F3].
    set (h3 := cls h2 a (Pay nk nv lh' rh) pl' pr) in *.
    assert (Ha2 : get h2 a = None) by (apply (s_rs _ _ _ _ _ S2 a); left; auto).
    assert (R13 : root1 h3 pl').
    { destruct pl' as [b|]; auto. destruct R1 as [n Gn]. exists n. rewrite Go3; auto. congruence. }
    assert (Ln3 : tl' = true -> leans h3 pl' l').
    { intros Ht. specialize (Ln Ht). destruct l' as [|? ? lh2 rh2 ? ?]; auto. destruct Ln as [L1 L2].
      assert (Hk : forall b n, get h2 b = Some n -> get h3 b = Some n).
      { intros b n Gb. rewrite Go3; auto. congruence. }
      split; intros Hlt; [specialize (L1 Hlt)|specialize (L2 Hlt)]; destruct pl' as [b|]; auto.
      - destruct L1 as (d1 & x1 & y & Gb & Rx). exists d1, x1, y. split; auto.
        destruct x1 as [x1|]; auto. destruct Rx as [n Gx]. exists n. auto.
      - destruct L2 as (d1 & x1 & y & Gb & Rx). exists d1, x1, y. split; auto.
        destruct y as [y|]; auto. destruct Rx as [n Gx]. exists n. auto. }
    destruct tl'.
    - destruct (bal lh' rh) as [b|] eqn:Eb; [|discriminate]. cbn [bind] in E |- *.
      destruct (Z.ltb_spec b (-1)).
      + destruct (rebal_lf_to_rt (Node nk nv lh' rh l' r)) as [[n' s]|] eqn:Er; [|discriminate].
        cbn [bind] in E. injection E as <- <-. mv K3.
        destruct (rebal_lf_to_rt_ok bomb h3 a nk nv lh' rh pr pl' r l' n' s O So3 G3) as
          (h4 & p4 & o4 & cs4 & E4 & So4 & F4 & C4 & Sb4 & R4 & W4); auto.
        { destruct W4 as [-> Hu].
          { split; auto. specialize (Ln3 eq_refl). destruct l'; auto. apply Ln3. }
          rewrite E4. cbn [bind].
          eexists _, _, _, []. split; [unfold then_; destruct o4; [reflexivity|congruence]|].
          split; [exact So4|]. split; [eapply frame_trans; eauto|]. split; [rewrite C4; cbn; auto|].
          split; [apply sub_nil|]. split; [|intros []].
          destruct o4 as [s4|]; [|congruence]. destruct R4 as (_ & D4 & R14). split; auto. split; auto. split; auto. discriminate. }
      + injection E as <- <-.
        eexists _, _, _, []. split; [reflexivity|]. split; [exact So3|]. split; [exact F3|].
        split; [exact C3|]. split; [apply sub_nil|]. split; [|intros []].
        split; auto. split; [exact D3|]. split; [cbn; eauto|].
        intros Hb. apply Z.ltb_lt in Hb. apply i8_inv in Eb. cbn. split; [|lia]. intros _. eauto 6.
    - injection E as <- <-.
      eexists _, _, _, []. split; [reflexivity|]. split; [exact So3|]. split; [exact F3|].
      split; [exact C3|]. split; [apply sub_nil|]. split; [|intros []].
      split; auto. split; [exact D3|]. split; [cbn; eauto|discriminate].
  Qed.
  (** What follows the call for the right child. *)
  Lemma ins_tail_right (h0 h2 : heap) a nk nv lh rh pl pr' l r' tl' (old : option V) t' x O :
    sess h0 h2 [a] (olist pl ++ olist pr') O -> den h2 pl (tv l) -> den h2 pr' (tv r') ->
    root1 h2 pr' -> (tl' = true -> leans h2 pr' r') ->
    (rh' <- i8_add rh (b2z tl');;
     let n := Node nk nv lh rh' l r' in
     if (tl' : bool) then
       b <- bal lh rh';;
       if (1 <? b)%Z then '(n', _) <- rebal_rt_to_lf n;; Ok (n', (old, false))
       else Ok (n, (old, 0 <? b)%Z)
     else Ok (n, (old, false))) = Ok (t', x) ->
    slot O h0 (clones h2) [] False
      (rh' <- i8_add rh (b2z tl');;
       let d' := set_rh (Pay nk nv lh rh) rh' in
       let h3 := cls h2 a d' pl pr' in
       if tl' then
         b <- bal lh rh';;
         if (1 <? b)%Z then y <- h_rebal_rt_to_lf bomb h3 (Some a);; Ok (then_ y (fun _ => (old, false)))
         else Ok (h3, Some a, Done (old, 0 <? b)%Z)
       else Ok (h3, Some a, Done (old, false)))
      (fun y h' p' => y = x /\ den h' p' (tv t') /\ root1 h' p' /\ (snd x = true -> leans h' p' t'))
      (fun _ _ => False).
  Proof.
    intros S2 Dl Dr2 R1 Ln E. cbv zeta in *.
    destruct (i8_add rh (b2z tl')) as [rh'|] eqn:Eh; [|discriminate]. cbn [bind] in E |- *.
    unfold set_rh. cbn [pk pv plh prh].
    assert (S2' : sess h0 h2 [a] (olist pl ++ olist pr' ++ []) O) by perm.
    destruct (sess_close _ _ _ _ _ _ _ _ (Pay nk nv lh rh') _ _ S2' Dl Dr2) as (S3 & D3 & K3 & G3 & Go3 & C3).
    destruct (sess_end _ _ _ _ _ S3) as [So3 F3].
    set (h3 := cls h2 a (Pay nk nv lh rh') pl pr') in *.
    assert (Ha2 : get h2 a = None) by (apply (s_rs _ _ _ _ _ S2 a); left; auto).
    assert (R13 : root1 h3 pr').
    { destruct pr' as [b|]; auto. destruct R1 as [n Gn]. exists n. rewrite Go3; auto. congruence. }
    assert (Ln3 : tl' = true -> leans h3 pr' r').
    { intros Ht. specialize (Ln Ht). destruct r' as [|? ? lh2 rh2 ? ?]; auto. destruct Ln as [L1 L2].
      assert (Hk : forall b n, get h2 b = Some n -> get h3 b = Some n).
      { intros b n Gb. rewrite Go3; auto. congruence. }
      split; intros Hlt; [specialize (L1 Hlt)|specialize (L2 Hlt)]; destruct pr' as [b|]; auto.
      - destruct L1 as (d1 & x1 & y & Gb & Rx). exists d1, x1, y. split; auto.
        destruct x1 as [x1|]; auto. destruct Rx as [n Gx]. exists n. auto.
      - destruct L2 as (d1 & x1 & y & Gb & Rx). exists d1, x1, y. split; auto.
        destruct y as [y|]; auto. destruct Rx as [n Gx]. exists n. auto. }
    destruct tl'.
    - destruct (bal lh rh') as [b|] eqn:Eb; [|discriminate]. cbn [bind] in E |- *.
      destruct (Z.ltb_spec 1 b).
      + destruct (rebal_rt_to_lf (Node nk nv lh rh' l r')) as [[n' s]|] eqn:Er; [|discriminate].
        cbn [bind] in E. injection E as <- <-. mv K3.
        destruct (rebal_rt_to_lf_ok bomb h3 a nk nv lh rh' pl pr' l r' n' s O So3 G3) as
          (h4 & p4 & o4 & cs4 & E4 & So4 & F4 & C4 & Sb4 & R4 & W4); auto.
        { destruct W4 as [-> Hu].
          { split; auto. specialize (Ln3 eq_refl). destruct r'; auto. apply Ln3. }
          rewrite E4. cbn [bind].
          eexists _, _, _, []. split; [unfold then_; destruct o4; [reflexivity|congruence]|].
          split; [exact So4|]. split; [eapply frame_trans; eauto|]. split; [rewrite C4; cbn; auto|].
          split; [apply sub_nil|]. split; [|intros []].
          destruct o4 as [s4|]; [|congruence]. destruct R4 as (_ & D4 & R14). split; auto. split; auto. split; auto. discriminate. }
      + injection E as <- <-.
        eexists _, _, _, []. split; [reflexivity|]. split; [exact So3|]. split; [exact F3|].
        split; [exact C3|]. split; [apply sub_nil|]. split; [|intros []].
        split; auto. split; [exact D3|]. split; [cbn; eauto|].
        intros Hb. apply Z.ltb_lt in Hb. apply i8_inv in Eb. cbn. split; [lia|]. intros _. eauto 6.
    - injection E as <- <-.
      eexists _, _, _, []. split; [reflexivity|]. split; [exact So3|]. split; [exact F3|].
      split; [exact C3|]. split; [apply sub_nil|]. split; [|intros []].
      split; auto. split; [exact D3|]. split; [cbn; eauto|discriminate].
  Qed.
End InsTail.

Section AskSim.
  Context {K V Q : Type} (bor : K -> Q) (ask : nat -> Q -> Q -> option comparison).
  Variable bomb : nat -> bool.
  Notation pay := (pay K V).
  Notation heap := (heap pay).
  Notation tree := (tree K V).
  Notation slot := (slot bomb).
  Notation bombs := (exists n, bomb n = true).
  Notation ins_t := (ins_t bor ask).
  Notation rm_t := (rm_t bor ask).
  Notation t_get_mut_t := (t_get_mut_t bor ask).

  (** As [slot], with the number of comparisons. *)
  Definition slot_t {A} (O : list addr) (h : heap) (c0 M : list pay) (x : res (heap * ptr * nat * out A))
             (D : A -> nat -> heap -> ptr -> Prop) (U : nat -> heap -> ptr -> Prop) : Prop :=
    exists h' p' n' r cs, x = Ok (h', p', n', r) /\ sound h' (olist p' ++ O) /\ frame O h h'
      /\ clones h' = cs ++ c0 /\ sub cs M
      /\ match r with Done a => D a n' h' p' | Unwound => U n' h' p' end.

  Lemma slot_asked {A} O (h : heap) cs c0 M M0 M' n x (D : A -> heap -> ptr -> Prop) (U : heap -> ptr -> Prop) (D' : A -> nat -> heap -> ptr -> Prop) (U' : nat -> heap -> ptr -> Prop) :
    slot O h (cs ++ c0) M False x D U -> sub cs M0 -> M' = M ++ M0 ->
    (forall a h' p', D a h' p' -> D' a n h' p') ->
    (forall h' p', U h' p' -> bombs -> U' n h' p') ->
    slot_t O h c0 M' (asked n x) D' U'.
  Proof.
    intros (h' & p' & r & cs' & E & So & F & C & Sb & R & _) Sb0 -> HD HU. rewrite E. unfold asked. cbn [bind].
    exists h', p', n, r, (cs' ++ cs). split; [reflexivity|]. split; [exact So|]. split; [exact F|].
    split; [rewrite C; apply app_assoc|]. split; [apply sub_app; auto|].
    destruct r; [now apply HD|]. destruct R. now apply HU.
  Qed.

  (** Opening the node at the root of the slot. *)
  Lemma slot_open_t {A} (h : heap) rc d tl tr O M n (D : A -> nat -> heap -> ptr -> Prop) (U : nat -> heap -> ptr -> Prop) f :
    sound h (rc :: O) -> den h (Some rc) (VT d [tl; tr]) -> sub [d] M ->
    (forall h1 a pl pr cs, sess h h1 [a] (olist pl ++ olist pr) O -> den h1 pl tl -> den h1 pr tr ->
       clones h1 = cs ++ clones h -> sub cs [d] ->
       slot_t O h (clones h) M (f (h1, Done (a, d, pl, pr))) D U) ->
    (forall h1, f (h1, Unwound) = Ok (h1, Some rc, n, Unwound)) ->
    (forall h1, den h1 (Some rc) (VT d [tl; tr]) -> bombs -> U n h1 (Some rc)) ->
    slot_t O h (clones h) M (bind (opn bomb h rc) f) D U.
  Proof.
    intros So Dn Sm Hd Hu HU.
    destruct (sess_open bomb h h [] rc [] O _ _ _ (sess_start _ [rc] _ So) Dn) as (h1 & r1 & E1 & P1).
    rewrite E1. cbn [bind].
    destruct r1 as [[[[a d'] pl] pr]|].
    - destruct P1 as (-> & S1 & Dl & Dr & K1 & cs & C1 & Sb & _). eapply Hd; eauto. perm.
    - destruct P1 as (S1 & D1 & K1 & C1 & U1 & B1). destruct (sess_end _ _ _ _ _ S1) as [So1 F1].
      rewrite Hu. eexists _, _, _, _, [_]. split; [reflexivity|]. split; [exact So1|]. split; [exact F1|].
      split; [rewrite C1; reflexivity|]. split; [exact Sm|]. apply HU; eauto.
  Qed.

  Lemma frozen (h0 h : heap) a d pl pr tl tr O : sess h0 h [a] (olist pl ++ olist pr) O -> den h pl tl -> den h pr tr ->
    sound (cls h a d pl pr) ([a] ++ O) /\ frame O h0 (cls h a d pl pr)
    /\ clones (cls h a d pl pr) = clones h /\ den (cls h a d pl pr) (Some a) (VT d [tl; tr])
    /\ root1 (cls h a d pl pr) (Some a).
  Proof. apply close_slot. Qed.

  Lemma ins_t_ok t : forall fuel (h : heap) p k v n O,
    sound h (olist p ++ O) -> den h p (tv t) -> levels t < fuel -> ins_t t k v n <> Fault ->
    slot_t O h (clones h) (path_t bor ask n t (bor k)) (h_ins_t bor ask bomb fuel h p k v n)
      (fun x n' h' p' => exists t', ins_t t k v n = Returned t' x n' /\ den h' p' (tv t') /\ root1 h' p'
         /\ (snd x = true -> leans h' p' t'))
      (fun n' h' p' => den h' p' (tv t) /\ n <= n' /\ (bombs \/ ins_t t k v n = Ask.Unwound t n')).
  Proof.
    induction t as [|nk nv lh rh l IHl r IHr]; intros fuel h p k v n O So D Lf E;
      destruct fuel as [|fuel]; try lia.
    - cbn in D. apply den_none in D as ->.
      cbn [h_ins_t]. destruct (alloc h (Nd (Pay k v 0%Z 0%Z) [None; None])) as [h1 a] eqn:Ea.
      destruct (sess_alloc _ _ _ None None [] O (Pay k v 0%Z 0%Z) VN VN h1 a (sess_start _ [] _ So) (den_nil _) (den_nil _) Ea)
        as (S1 & D1 & K1 & G1 & Go1 & C1 & _ & _).
      destruct (sess_end _ _ _ _ _ S1) as [So1 F1].
      eexists _, _, _, _, []. split; [reflexivity|]. split; [exact So1|]. split; [exact F1|]. split; [now rewrite C1|].
      split; [apply sub_nil_l|]. eexists. split; [reflexivity|]. split; [exact D1|].
      split. { cbn. eauto. } intros _. cbn. split; lia.
    - cbn [tv] in D. destruct (den_some _ _ _ _ D) as [rc ->]. cbn [h_ins_t].
      eapply (slot_open_t h rc _ _ _ O _ n); [exact So|exact D|cbn [path_t]; apply sub_app_r, sub_refl| |reflexivity|].
      2:{ intros h1 D1 B1. split; [exact D1|]. auto. }
      intros h1 a pl pr cs S1 Dl Dr C1 Sb.
      cbn [AvlAskModel.ins_t path_t levels pk pv plh prh] in *. unfold question in *. change (1 + n) with (S n) in *.
      destruct (ask n (bor k) (bor nk)) as [[]|].
      + destruct (frozen _ _ _ (Pay k v lh rh) _ _ _ _ _ S1 Dl Dr) as (So2 & F2 & C2 & D2 & R2).
        eexists _, _, _, _, cs. split; [reflexivity|]. split; [exact So2|]. split; [exact F2|]. split; [now rewrite C2|].
        split; [exact Sb|]. eexists. split; [reflexivity|]. split; [exact D2|]. split; [exact R2|discriminate].
      + destruct (IHl fuel h1 pl k v (S n) (olist pr ++ O)) as (h2 & pl' & n2 & o2 & cs2 & E2 & So2 & F2 & C2 & Sb2 & R2);
          [now apply sess_sub in S1|exact Dl|lia|intros X; now rewrite X in E|].
        rewrite E2. cbn [bind].
        destruct (sess_call _ _ _ _ _ (olist pl') _ _ S1 So2 F2) as [S2 K2]. mv K2.
        destruct o2 as [[old2 tl2]|].
        * destruct R2 as (l' & El & Dl2 & R1 & Ln). rewrite El in E |- *. cbn [after snd] in *.
          match type of E with plain ?y _ <> _ => destruct y as [[t' x]|] eqn:Et; [|now contradiction E] end.
          pose proof (ins_tail_left bomb _ _ _ _ _ _ _ _ _ _ _ _ _ _ _ _ S2 Dl2 Dr R1 Ln Et) as Sl.
          rewrite C2, C1, app_assoc in Sl. cbn [plh prh].
          eapply slot_asked; [exact Sl|apply sub_app; eassumption|reflexivity| |intros ? ? []].
          intros y h' p' (-> & Dt & Rt & Lt'). exists t'. auto.
        * destruct R2 as (Dl2 & Hn & B2). destruct (frozen _ _ _ (Pay nk nv lh rh) _ _ _ _ _ S2 Dl2 Dr) as (So3 & F3 & C3 & D3 & R3).
          eexists _, _, _, _, (cs2 ++ cs). split; [reflexivity|]. split; [exact So3|]. split; [exact F3|].
          split; [rewrite C3, C2, C1; apply app_assoc|]. split; [apply sub_app; auto|]. split; [exact D3|]. split; [lia|].
          destruct B2 as [B2| ->]; auto.
      + assert (S1' : sess h h1 [a] (olist pr ++ olist pl) O) by perm.
        destruct (IHr fuel h1 pr k v (S n) (olist pl ++ O)) as (h2 & pr' & n2 & o2 & cs2 & E2 & So2 & F2 & C2 & Sb2 & R2);
          [now apply sess_sub in S1'|exact Dr|lia|intros X; now rewrite X in E|].
        rewrite E2. cbn [bind].
        destruct (sess_call _ _ _ _ _ (olist pr') _ _ S1' So2 F2) as [S2' K2]. mv K2.
        assert (S2 : sess h h2 [a] (olist pl ++ olist pr') O) by perm.
        destruct o2 as [[old2 tl2]|].
        * destruct R2 as (r' & El & Dr2 & R1 & Ln). rewrite El in E |- *. cbn [after snd] in *.
          match type of E with plain ?y _ <> _ => destruct y as [[t' x]|] eqn:Et; [|now contradiction E] end.
          pose proof (ins_tail_right bomb _ _ _ _ _ _ _ _ _ _ _ _ _ _ _ _ S2 Dl Dr2 R1 Ln Et) as Sl.
          rewrite C2, C1, app_assoc in Sl. cbn [plh prh].
          eapply slot_asked; [exact Sl|apply sub_app; eassumption|reflexivity| |intros ? ? []].
          intros y h' p' (-> & Dt & Rt & Lt'). exists t'. auto.
        * destruct R2 as (Dr2 & Hn & B2). destruct (frozen _ _ _ (Pay nk nv lh rh) _ _ _ _ _ S2 Dl Dr2) as (So3 & F3 & C3 & D3 & R3).
          eexists _, _, _, _, (cs2 ++ cs). split; [reflexivity|]. split; [exact So3|]. split; [exact F3|].
          split; [rewrite C3, C2, C1; apply app_assoc|]. split; [apply sub_app; auto|]. split; [exact D3|]. split; [lia|].
          destruct B2 as [B2| ->]; auto.
      + destruct (frozen _ _ _ (Pay nk nv lh rh) _ _ _ _ _ S1 Dl Dr) as (So2 & F2 & C2 & D2 & R2).
        eexists _, _, _, _, cs. split; [reflexivity|]. split; [exact So2|]. split; [exact F2|]. split; [now rewrite C2|].
        split; [exact Sb|]. split; [exact D2|]. split; [lia|auto].
  Qed.

  Lemma get_mut_t_ok t : forall fuel (h : heap) p q w n O,
    sound h (olist p ++ O) -> den h p (tv t) -> levels t < fuel ->
    slot_t O h (clones h) (path_t bor ask n t q) (h_get_mut_t bor ask bomb fuel h p q w n)
      (fun x n' h' p' => exists t', t_get_mut_t t q w n = Returned t' x n' /\ den h' p' (tv t'))
      (fun n' h' p' => den h' p' (tv t) /\ n <= n' /\ (bombs \/ t_get_mut_t t q w n = Ask.Unwound t n')).
  Proof.
    induction t as [|nk nv lh rh l IHl r IHr]; intros fuel h p q w n O So D Lf;
      destruct fuel as [|fuel]; try lia.
    - cbn in D. apply den_none in D as ->.
      eexists _, _, _, _, []. split; [reflexivity|]. split; [exact So|]. split; [apply frame_refl|].
      split; [reflexivity|]. split; [apply sub_nil|]. eexists. split; [reflexivity|constructor].
    - cbn [tv] in D. destruct (den_some _ _ _ _ D) as [rc ->]. cbn [h_get_mut_t].
      eapply (slot_open_t h rc _ _ _ O _ n); [exact So|exact D|cbn [path_t]; apply sub_app_r, sub_refl| |reflexivity|].
      2:{ intros h1 D1 B1. split; [exact D1|]. auto. }
      intros h1 a pl pr cs S1 Dl Dr C1 Sb.
      cbn [AvlAskModel.t_get_mut_t path_t levels pk pv plh prh] in *. unfold question in *. change (1 + n) with (S n) in *.
      destruct (ask n q (bor nk)) as [[]|].
      + destruct (frozen _ _ _ (Pay nk (w nv) lh rh) _ _ _ _ _ S1 Dl Dr) as (So2 & F2 & C2 & D2 & R2).
        eexists _, _, _, _, cs. split; [reflexivity|]. split; [exact So2|]. split; [exact F2|]. split; [unfold set_val; cbn [pk pv plh prh]; now rewrite C2|].
        split; [exact Sb|]. eexists. split; [reflexivity|exact D2].
      + destruct (IHl fuel h1 pl q w (S n) (olist pr ++ O)) as (h2 & pl' & n2 & o2 & cs2 & E2 & So2 & F2 & C2 & Sb2 & R2);
          [now apply sess_sub in S1|exact Dl|lia|].
        rewrite E2. cbn [bind].
        destruct (sess_call _ _ _ _ _ (olist pl') _ _ S1 So2 F2) as [S2 K2]. mv K2.
        assert (exists tl', den h2 pl' (tv tl') /\ match o2 with Done x => t_get_mut_t l q w (S n) = Returned tl' x n2
          | Unwound => tl' = l /\ n <= n2 /\ (bombs \/ t_get_mut_t l q w (S n) = Ask.Unwound l n2) end)
          as (tl' & Dl2 & Ho).
        { destruct o2; [destruct R2 as (l' & ? & ?); exists l'; auto|]. destruct R2 as (Dl2 & Hn & B2). exists l.
          split; [exact Dl2|]. split; [reflexivity|]. split; [lia|exact B2]. }
        destruct (frozen _ _ _ (Pay nk nv lh rh) _ _ _ _ _ S2 Dl2 Dr) as (So3 & F3 & C3 & D3 & _).
        eexists _, _, _, _, (cs2 ++ cs). split; [reflexivity|]. split; [exact So3|]. split; [exact F3|].
        split; [rewrite C3, C2, C1; apply app_assoc|]. split; [apply sub_app; auto|].
        destruct o2 as [x|].
        * rewrite Ho. cbn [after]. eexists. split; [reflexivity|exact D3].
        * destruct Ho as (-> & Hn & B2). split; [exact D3|]. split; [exact Hn|]. destruct B2 as [B2| ->]; auto.
      + assert (S1' : sess h h1 [a] (olist pr ++ olist pl) O) by perm.
        destruct (IHr fuel h1 pr q w (S n) (olist pl ++ O)) as (h2 & pr' & n2 & o2 & cs2 & E2 & So2 & F2 & C2 & Sb2 & R2);
          [now apply sess_sub in S1'|exact Dr|lia|].
        rewrite E2. cbn [bind].
        destruct (sess_call _ _ _ _ _ (olist pr') _ _ S1' So2 F2) as [S2' K2]. mv K2.
        assert (S2 : sess h h2 [a] (olist pl ++ olist pr') O) by perm.
        assert (exists tr', den h2 pr' (tv tr') /\ match o2 with Done x => t_get_mut_t r q w (S n) = Returned tr' x n2
          | Unwound => tr' = r /\ n <= n2 /\ (bombs \/ t_get_mut_t r q w (S n) = Ask.Unwound r n2) end)
          as (tr' & Dr2 & Ho).
        { destruct o2; [destruct R2 as (l' & ? & ?); exists l'; auto|]. destruct R2 as (Dl2 & Hn & B2). exists r.
          split; [exact Dl2|]. split; [reflexivity|]. split; [lia|exact B2]. }
        destruct (frozen _ _ _ (Pay nk nv lh rh) _ _ _ _ _ S2 Dl Dr2) as (So3 & F3 & C3 & D3 & _).
        eexists _, _, _, _, (cs2 ++ cs). split; [reflexivity|]. split; [exact So3|]. split; [exact F3|].
        split; [rewrite C3, C2, C1; apply app_assoc|]. split; [apply sub_app; auto|].
        destruct o2 as [x|].
        * rewrite Ho. cbn [after]. eexists. split; [reflexivity|exact D3].
        * destruct Ho as (-> & Hn & B2). split; [exact D3|]. split; [exact Hn|]. destruct B2 as [B2| ->]; auto.
      + destruct (frozen _ _ _ (Pay nk nv lh rh) _ _ _ _ _ S1 Dl Dr) as (So2 & F2 & C2 & D2 & R2).
        eexists _, _, _, _, cs. split; [reflexivity|]. split; [exact So2|]. split; [exact F2|]. split; [now rewrite C2|].
        split; [exact Sb|]. split; [exact D2|]. split; [lia|auto].
  Qed.

  Definition eqs (_ _ : Q) : comparison := Eq.
  Lemma h_rm_t_eq fuel (h : heap) rc d tl tr q n O : sound h (rc :: O) -> den h (Some rc) (VT d [tl; tr]) ->
    ask n q (bor (pk d)) = Some Eq ->
    exists n', n <= n' <= S n /\ h_rm_t bor ask bomb (S fuel) h (Some rc) q n = asked n' (h_rm bor eqs bomb (S fuel) h (Some rc) q)
      /\ (n' = S n \/ exists h1, h_rm bor eqs bomb (S fuel) h (Some rc) q = Ok (h1, Some rc, Unwound)).
  Proof.
    intros So D Ea. cbn [h_rm_t h_rm].
    destruct (sess_open bomb h h [] rc [] O _ _ _ (sess_start _ [rc] _ So) D) as (h1 & r1 & E1 & P1).
    rewrite E1. cbn [bind]. destruct r1 as [[[[a d'] pl] pr]|].
    - destruct P1 as (-> & _). rewrite Ea. exists (S n). split; [lia|]. auto.
    - exists n. split; [lia|]. split; [reflexivity|]. eauto.
  Qed.

  Lemma rm_t_ok t : forall fuel (h : heap) p q n O,
    sound h (olist p ++ O) -> den h p (tv t) -> levels t < fuel -> rm_t t q n <> Fault ->
    slot_t O h (clones h) (near_t bor ask n t q) (h_rm_t bor ask bomb fuel h p q n)
      (fun x n' h' p' => exists t', rm_t t q n = Returned t' x n' /\ den h' p' (tv t') /\ n <= n')
      (fun n' h' p' => n <= n' /\ (bombs /\ remnant t h' p' \/ rm_t t q n = Ask.Unwound t n' /\ den h' p' (tv t))).
  Proof.
    induction t as [|nk nv lh rh l IHl r IHr]; intros fuel h p q n O So D Lf E;
      destruct fuel as [|fuel]; try lia.
    - cbn in D. apply den_none in D as ->.
      eexists _, _, _, _, []. split; [reflexivity|]. split; [exact So|]. split; [apply frame_refl|].
      split; [reflexivity|]. split; [apply sub_nil|]. eexists. split; [reflexivity|]. split; [constructor|lia].
    - cbn [tv] in D. destruct (den_some _ _ _ _ D) as [rc ->].
      destruct (ask n q (bor nk)) as [c|] eqn:Ea; [destruct c|].
      + (* the entry is here *)
        destruct (h_rm_t_eq fuel h rc _ _ _ q n O So D Ea) as (n' & Hn & -> & Hu).
        cbn [AvlAskModel.rm_t near_t] in *. unfold question in *. rewrite Ea in E |- *. change (1 + n) with (S n) in *.
        match type of E with plain ?y _ <> _ => destruct y as [[t' [kv s]]|] eqn:Et; [|now contradiction E] end.
        assert (Er : rm bor eqs (Node nk nv lh rh l r) q = Ok (t', kv, s)).
        { cbn [rm eqs]. destruct l; [destruct r; injection Et as <- <- <-; reflexivity|].
          destruct r; [injection Et as <- <- <-; reflexivity|].
          destruct (rm_leftmost _) as [[[r' o] sh]|]; [|discriminate]. cbn [bind] in *.
          destruct (unwrap o) as [[sk sv]|]; [|discriminate]. cbn [bind] in *.
          destruct (after_rm_right _ _ _ _ _ _ _) as [[t1 s1]|]; [|discriminate]. cbn [bind] in *. congruence. }
        pose proof (rm_ok bomb bor eqs (Node nk nv lh rh l r) (S fuel) h (Some rc) q t' kv s O So D Lf Er) as Sl.
        destruct Sl as (h' & p' & o & cs & E1 & So1 & F1 & C1 & Sb1 & R1 & _).
        rewrite E1 in *. unfold asked. cbn [bind].
        exists h', p', n', o, cs. split; [reflexivity|]. do 3 (split; [assumption|]). split; [exact Sb1|].
        destruct o as [x|].
        * destruct R1 as [-> D1]. destruct Hu as [->|[h1 Hu]]; [|discriminate]. exists t'. auto with arith.
        * split; [lia|]. left. destruct R1. auto.
      + cbn [h_rm_t].
        eapply (slot_open_t h rc _ _ _ O _ n); [exact So|exact D|cbn [near_t]; apply sub_app_r, sub_refl| |reflexivity|].
        2:{ intros h1 D1 B1. split; [lia|]. left. split; [exact B1|]. now apply remnant_self. }
        intros h1 a pl pr cs S1 Dl Dr C1 Sb.
        cbn [AvlAskModel.rm_t near_t levels pk pv plh prh] in *. unfold question in *. change (1 + n) with (S n) in *. rewrite Ea in *.
        destruct (IHl fuel h1 pl q (S n) (olist pr ++ O)) as (h2 & pl' & n2 & o2 & cs2 & E2 & So2 & F2 & C2 & Sb2 & R2);
          [now apply sess_sub in S1|exact Dl|lia|intros X; now rewrite X in E|].
        rewrite E2. cbn [bind].
        destruct (sess_call _ _ _ _ _ (olist pl') _ _ S1 So2 F2) as [S2 K2]. mv K2.
        destruct o2 as [[kv2 s2]|].
        * destruct R2 as (l' & El & Dl2 & Hn). rewrite El in E |- *. cbn [after snd] in *.
          destruct (after_rm_left nk nv lh rh l' r s2) as [[t1 s1]|] eqn:Et; [|now contradiction E]. cbn [bind plain].
          pose proof (after_rm_left_ok bomb _ _ _ _ _ _ _ _ _ _ _ _ _ _ _ S2 Dl2 Dr Et) as Sl.
          rewrite C2, C1, app_assoc in Sl.
          assert (Sl' : slot O h (clones h) ((beside_l r ++ near_t bor ask (S n) l q) ++ [Pay nk nv lh rh]) False
            (x <- h_after_rm_left bomb h2 a (Pay nk nv lh rh) pl' pr s2;; Ok (then_ x (fun s => (kv2, s))))
            (is_done t1 (kv2, s1)) (remnant (Node nk nv lh rh l r))).
          { eapply then_slot with (f := fun s => (kv2, s)); [exact Sl|apply sub_app; eassumption|]. now rewrite app_assoc. }
          rewrite <- (app_nil_l (clones h)) in Sl'.
          eapply slot_asked; [exact Sl'|apply sub_nil|now rewrite app_nil_r| |].
          -- intros x h' p' [-> Dt]. exists t1. repeat split; auto. lia.
          -- intros h' p' Rm B. split; [|auto]. lia.
        * destruct R2 as (Hn & R2).
          assert (exists tl', den h2 pl' (tv tl') /\ (bombs /\ sub (elems tl') (elems l) \/ rm_t l q (S n) = Ask.Unwound l n2 /\ tl' = l)) as (tl' & Dl2 & B2).
          { destruct R2 as [[B2 (t1 & D1 & Sb1)]|[E1 D1]]; [exists t1|exists l]; auto. }
          destruct (frozen _ _ _ (Pay nk nv lh rh) _ _ _ _ _ S2 Dl2 Dr) as (So3 & F3 & C3 & D3 & R3).
          eexists _, _, _, _, (cs2 ++ cs). split; [reflexivity|]. split; [exact So3|]. split; [exact F3|].
          split; [rewrite C3, C2, C1; apply app_assoc|]. split; [rewrite <- app_assoc; apply sub_app_r, sub_app; auto|].
          split; [lia|]. destruct B2 as [[B2 Se]|[Eu ->]].
          -- left. split; [exact B2|]. exists (Node nk nv lh rh tl' r). split; [exact D3|]. cbn. apply sub_app; auto using sub_refl.
          -- right. rewrite Eu. split; [reflexivity|exact D3].
      + cbn [h_rm_t].
        eapply (slot_open_t h rc _ _ _ O _ n); [exact So|exact D|cbn [near_t]; apply sub_app_r, sub_refl| |reflexivity|].
        2:{ intros h1 D1 B1. split; [lia|]. left. split; [exact B1|]. now apply remnant_self. }
        intros h1 a pl pr cs S1 Dl Dr C1 Sb.
        cbn [AvlAskModel.rm_t near_t levels pk pv plh prh] in *. unfold question in *. change (1 + n) with (S n) in *. rewrite Ea in *.
        assert (S1' : sess h h1 [a] (olist pr ++ olist pl) O) by perm.
        destruct (IHr fuel h1 pr q (S n) (olist pl ++ O)) as (h2 & pr' & n2 & o2 & cs2 & E2 & So2 & F2 & C2 & Sb2 & R2);
          [now apply sess_sub in S1'|exact Dr|lia|intros X; now rewrite X in E|].
        rewrite E2. cbn [bind].
        destruct (sess_call _ _ _ _ _ (olist pr') _ _ S1' So2 F2) as [S2' K2]. mv K2.
        assert (S2 : sess h h2 [a] (olist pl ++ olist pr') O) by perm.
        destruct o2 as [[kv2 s2]|].
        * destruct R2 as (r' & El & Dr2 & Hn). rewrite El in E |- *. cbn [after snd] in *.
          destruct (after_rm_right nk nv lh rh l r' s2) as [[t1 s1]|] eqn:Et; [|now contradiction E]. cbn [bind plain].
          pose proof (after_rm_right_ok bomb _ _ _ _ _ _ _ _ _ _ _ _ _ _ _ S2 Dl Dr2 Et) as Sl.
          rewrite C2, C1, app_assoc in Sl.
          assert (Sl' : slot O h (clones h) ((beside_r l ++ near_t bor ask (S n) r q) ++ [Pay nk nv lh rh]) False
            (x <- h_after_rm_right bomb h2 a (Pay nk nv lh rh) pl pr' s2;; Ok (then_ x (fun s => (kv2, s))))
            (is_done t1 (kv2, s1)) (remnant (Node nk nv lh rh l r))).
          { eapply then_slot with (f := fun s => (kv2, s)); [exact Sl|apply sub_app; eassumption|]. now rewrite app_assoc. }
          rewrite <- (app_nil_l (clones h)) in Sl'.
          eapply slot_asked; [exact Sl'|apply sub_nil|now rewrite app_nil_r| |].
          -- intros x h' p' [-> Dt]. exists t1. repeat split; auto. lia.
          -- intros h' p' Rm B. split; [|auto]. lia.
        * destruct R2 as (Hn & R2).
          assert (exists tl', den h2 pr' (tv tl') /\ (bombs /\ sub (elems tl') (elems r) \/ rm_t r q (S n) = Ask.Unwound r n2 /\ tl' = r)) as (tl' & Dl2 & B2).
          { destruct R2 as [[B2 (t1 & D1 & Sb1)]|[E1 D1]]; [exists t1|exists r]; auto. }
          destruct (frozen _ _ _ (Pay nk nv lh rh) _ _ _ _ _ S2 Dl Dl2) as (So3 & F3 & C3 & D3 & R3).
          eexists _, _, _, _, (cs2 ++ cs). split; [reflexivity|]. split; [exact So3|]. split; [exact F3|].
          split; [rewrite C3, C2, C1; apply app_assoc|]. split; [rewrite <- app_assoc; apply sub_app_r, sub_app; auto|].
          split; [lia|]. destruct B2 as [[B2 Se]|[Eu ->]].
          -- left. split; [exact B2|]. exists (Node nk nv lh rh l tl'). split; [exact D3|]. cbn. apply sub_app; auto using sub_refl. now apply sub_keep.
          -- right. rewrite Eu. split; [reflexivity|exact D3].
      + cbn [h_rm_t].
        eapply (slot_open_t h rc _ _ _ O _ n); [exact So|exact D|cbn [near_t]; apply sub_app_r, sub_refl| |reflexivity|].
        2:{ intros h1 D1 B1. split; [lia|]. left. split; [exact B1|]. now apply remnant_self. }
        intros h1 a pl pr cs S1 Dl Dr C1 Sb.
        cbn [AvlAskModel.rm_t near_t levels pk pv plh prh] in *. unfold question in *. change (1 + n) with (S n) in *. rewrite Ea in *.
        destruct (frozen _ _ _ (Pay nk nv lh rh) _ _ _ _ _ S1 Dl Dr) as (So2 & F2 & C2 & D2 & R2).
        eexists _, _, _, _, cs. split; [reflexivity|]. split; [exact So2|]. split; [exact F2|]. split; [now rewrite C2|].
        split; [exact Sb|]. split; [lia|auto].
  Qed.
End AskSim.
