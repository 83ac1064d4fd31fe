(** Splitting and merging trees that share nodes follow AvlAskModel.v. *)
From Coq Require Import List ZArith Bool Lia Permutation.
From Verif Require AvlProofs AvlProofs2 AvlAnyProofs.
From Verif Require Import Base Spec Heap HeapProofs AvlModel Ask AskAnySpec AskAnyProofs AvlAskModel AvlAskAnyProofs.
From Verif Require Import AvlHeapModel AvlHeapAskModel AvlHeapSpec AskHeapSpec AvlHeapProofs AvlHeapProofs2 AvlHeapProofs3 AvlHeapAskProofs.
Import ListNotations.
Local Open Scope nat_scope.

Section AskMerge.
  Context {K V Q : Type} (bor : K -> Q) (ask : nat -> Q -> Q -> option comparison).
  Variable bomb : nat -> bool.
  Notation pay := (pay K V).
  Notation heap := (heap pay).
  Notation tree := (tree K V).
  Notation split_t := (split_t bor ask).
  Notation merge_t := (merge_t bor ask).
  Notation bombs := (bombs bomb).

  (** As [callB], with the number of comparisons. *)
  Definition call_t {A} (O : list addr) (h : heap) (c0 : list pay) (x : res (heap * nat * out A))
             (own : A -> list addr) (D : A -> nat -> heap -> Prop) (U : nat -> Prop) : Prop :=
    exists h' n' r cs, x = Ok (h', n', r) /\ frame O h h' /\ clones h' = cs ++ c0
      /\ match r with
         | Done a => sound h' (own a ++ O) /\ D a n' h'
         | Unwound => sound h' O /\ U n'
         end.
  Lemma call_asked (B : Prop) {A} O (h : heap) c0 P x n (own : A -> list addr) D (D' : A -> nat -> heap -> Prop) (U : nat -> Prop) :
    callB B O h c0 P x own D -> (forall a h', D a h' -> D' a n h') -> (B -> U n) ->
    call_t O h c0 (asked n x) own D' U.
  Proof.
    intros (h' & r & cs & E & F & C & _ & R) HD HU. rewrite E. unfold asked. cbn [bind].
    exists h', n, r, cs. split; [reflexivity|]. split; [exact F|]. split; [exact C|].
    destruct r; destruct R; split; auto.
  Qed.
  Lemma call_t_done {A} O (h0 h : heap) cs c0 n (a : A) (own : A -> list addr) (D : A -> nat -> heap -> Prop) (U : nat -> Prop) :
    sess h0 h [] (own a) O -> clones h = cs ++ c0 -> D a n h -> call_t O h0 c0 (Ok (h, n, Done a)) own D U.
  Proof. intros S C Hb. destruct (sess_end _ _ _ _ _ S). exists h, n, (Done a), cs. auto 8. Qed.

  Lemma join_call tl tr (h : heap) left k v right t' O :
    sound h (olist left ++ olist right ++ O) -> den h left (tv tl) -> den h right (tv tr) ->
    levels tl < depth -> levels tr < depth -> join tl k v tr = Ok t' ->
    exists h' r cs, h_join bomb h left k v right = Ok (h', r) /\ frame O h h' /\ clones h' = cs ++ clones h
      /\ match r with
         | Done p => sound h' (olist p ++ O) /\ den h' p (tv t')
         | Unwound => sound h' O /\ bombs
         end.
  Proof.
    intros So Dl Dr Ll Lr E.
    destruct (join_ok (Q := unit) (fun _ => tt) (fun _ _ => Eq) bomb tl tr h left k v right t' O So Dl Dr Ll Lr E)
      as (h' & r & cs & E1 & F & C & _ & R).
    exists h', r, cs. do 3 (split; [assumption|]). destruct r; auto. destruct R as (S1 & D1 & _). auto.
  Qed.

  Lemma split_t_parts (t : tree) q n l kv r n' : AvlProofs.avl t -> AvlProofs2.fits (elems t) ->
    split_t t q n = Returned tt (l, kv, r) n' -> n <= n' /\ low l /\ low r.
  Proof.
    intros A Ft E. pose proof (split_copes bor ask t q n A Ft) as C. rewrite E in C.
    destruct C as (Ln & Al & Ar & El & _). split; auto.
    split; apply fits_low; auto; eapply AvlProofs2.fits_le; try exact Ft; rewrite El, !app_length; lia.
  Qed.

  Lemma split_t_ok t : forall fuel (h : heap) p q n O,
    sound h (olist p ++ O) -> den h p (tv t) -> levels t < fuel -> AvlProofs.avl t -> AvlProofs2.fits (elems t) ->
    call_t O h (clones h) (h_split_t bor ask bomb fuel h p q n) own2
      (fun x n' h' => exists l kv r, split_t t q n = Returned tt (l, kv, r) n' /\ are_parts l r kv x h')
      (fun n' => n <= n' /\ (bombs \/ split_t t q n = Ask.Unwound tt n')).
  Proof.
    induction t as [|nk nv lh rh l0 IHl r0 IHr]; intros fuel h p q n O So D Lf A Ft;
      destruct fuel as [|fuel]; try lia.
    - cbn in D. apply den_none in D as ->. cbn [h_split_t].
      eapply call_t_done with (cs := []); auto; [apply sess_start; exact So|].
      exists Leaf, None, Leaf. split; [reflexivity|]. repeat split; constructor.
    - pose proof (split_copes bor ask (Node nk nv lh rh l0 r0) q n A Ft) as NF.
      cbn [tv] in D. destruct (den_some _ _ _ _ D) as [rc ->]. cbn [h_split_t AvlAskModel.split_t] in *.
      unfold question in *. change (1 + n) with (S n) in *.
      destruct (unshare_ok bomb h h [] rc [] O _ _ _ (sess_start _ [rc] _ So) D) as (h1 & r1 & E1 & K1 & P1).
      rewrite E1. cbn [bind].
      destruct A as (Ea & Eb & Hb & Al & Ar). cbn [elems levels] in *.
      assert (Fl : AvlProofs2.fits (elems l0)) by (eapply AvlProofs2.fits_le; [|exact Ft]; rewrite app_length; lia).
      assert (Fr : AvlProofs2.fits (elems r0)) by (eapply AvlProofs2.fits_le; [|exact Ft]; rewrite app_length; cbn [length]; lia).
      destruct r1 as [[[d' pl] pr]|].
      2:{ destruct P1 as (S1 & C1 & B1). destruct (sess_end _ _ _ _ _ S1). exists h1, n, Unwound, [Pay nk nv lh rh].
          split; [reflexivity|]. split; [apply S1|]. split; [exact C1|]. split; [assumption|]. split; [auto|].
          left. now exists (length (clones h)). }
      destruct P1 as (-> & S1 & Dl & Dr & cs & C1 & Sb & _). cbn [pk pv].
      destruct (ask n q (bor nk)) as [[| |]|] eqn:Ec.
      + eapply call_t_done with (cs := cs); auto; [unfold own2; cbn [fst snd]; perm|].
        exists l0, (Some (nk, nv)), r0. split; [reflexivity|]. repeat split; auto.
      + assert (S1' : sess h h1 [] (olist pl ++ olist pr) O) by perm.
        destruct (IHl fuel h1 pl q (S n) (olist pr ++ O)) as (h2 & n2 & o2 & cs2 & E2 & F2 & C2 & R2);
          auto; [now apply sess_sub in S1'|lia|].
        rewrite E2. cbn [bind].
        assert (C2' : clones h2 = (cs2 ++ cs) ++ clones h) by (rewrite C2, C1; apply app_assoc).
        destruct o2 as [[[p1 kv2] p2]|].
        * destruct R2 as (So2 & l1 & kv1 & r1 & Es & D1 & D2 & Ekv). unfold own2 in So2. cbn [fst snd] in *. subst kv2.
          destruct (split_t_parts l0 q (S n) l1 kv1 r1 n2 Al Fl Es) as (Ln & Ll1 & Lr1).
          rewrite Es in *. cbn [after] in *.
          destruct (join r1 nk nv r0) as [r1'|] eqn:Ej; [|destruct NF]. clear NF.
          destruct (sess_call _ _ _ _ _ _ _ _ S1' So2 F2) as [S2 K2]. mv K2.
          assert (S2' : sess h h2 [] (olist p2 ++ olist pr ++ olist p1) O) by perm.
          destruct (join_call r1 r0 h2 p2 nk nv pr r1' (olist p1 ++ O)) as (h3 & o3 & cs3 & E3 & F3 & C3 & R3);
            auto using low_levels, fits_low.
          { rewrite !app_assoc. rewrite !app_assoc in S2'. apply sess_end in S2' as [Hs _]. exact Hs. }
          rewrite E3. cbn [bind].
          assert (C3' : clones h3 = (cs3 ++ cs2 ++ cs) ++ clones h) by (rewrite C3, C2'; apply app_assoc).
          assert (S2a : sess h h2 [] ((olist p2 ++ olist pr) ++ olist p1) O) by perm.
          destruct o3 as [p3|].
          -- destruct R3 as (So3 & D3).
             destruct (sess_call _ _ _ _ _ (olist p3) _ _ S2a So3 F3) as [S3 K3]. mv K3.
             unfold asked. cbn [bind]. eapply call_t_done with (cs := cs3 ++ cs2 ++ cs); auto; [unfold own2; cbn [fst snd]; perm|].
             exists l1, kv1, r1'. split; [reflexivity|]. repeat split; auto.
          -- destruct R3 as (So3 & B). destruct (sess_call _ _ _ _ _ [] _ _ S2a So3 F3) as [S3 K3].
             eapply call_asked with (B := bombs) (P := fun _ => True) (D := fun _ _ => False); [|easy|intros _; split; [lia|auto]].
             eapply call_unwind with (cs := cs3 ++ cs2 ++ cs); eauto; try perm.
        * destruct R2 as (So2 & Ln & B). destruct (sess_call _ _ _ _ _ [] _ _ S1' So2 F2) as [S2 K2].
          eapply call_asked with (B := True) (P := fun _ => True) (D := fun _ _ => False); [|easy|].
          { eapply call_unwind with (cs := cs2 ++ cs); eauto; try perm. }
          intros _. split; [lia|]. destruct B as [B|B]; [auto|]. right. rewrite B. reflexivity.
      + assert (S1' : sess h h1 [] (olist pr ++ olist pl) O) by perm.
        destruct (IHr fuel h1 pr q (S n) (olist pl ++ O)) as (h2 & n2 & o2 & cs2 & E2 & F2 & C2 & R2);
          auto; [now apply sess_sub in S1'|lia|].
        rewrite E2. cbn [bind].
        assert (C2' : clones h2 = (cs2 ++ cs) ++ clones h) by (rewrite C2, C1; apply app_assoc).
        destruct o2 as [[[p1 kv2] p2]|].
        * destruct R2 as (So2 & l1 & kv1 & r1 & Es & D1 & D2 & Ekv). unfold own2 in So2. cbn [fst snd] in *. subst kv2.
          destruct (split_t_parts r0 q (S n) l1 kv1 r1 n2 Ar Fr Es) as (Ln & Ll1 & Lr1).
          rewrite Es in *. cbn [after] in *.
          destruct (join l0 nk nv l1) as [l1'|] eqn:Ej; [|destruct NF]. clear NF.
          destruct (sess_call _ _ _ _ _ _ _ _ S1' So2 F2) as [S2 K2]. mv K2.
          assert (S2' : sess h h2 [] (olist pl ++ olist p1 ++ olist p2) O) by perm.
          destruct (join_call l0 l1 h2 pl nk nv p1 l1' (olist p2 ++ O)) as (h3 & o3 & cs3 & E3 & F3 & C3 & R3);
            auto using low_levels, fits_low.
          { rewrite !app_assoc. rewrite !app_assoc in S2'. apply sess_end in S2' as [Hs _]. exact Hs. }
          rewrite E3. cbn [bind].
          assert (C3' : clones h3 = (cs3 ++ cs2 ++ cs) ++ clones h) by (rewrite C3, C2'; apply app_assoc).
          assert (S2a : sess h h2 [] ((olist pl ++ olist p1) ++ olist p2) O) by perm.
          destruct o3 as [p3|].
          -- destruct R3 as (So3 & D3).
             destruct (sess_call _ _ _ _ _ (olist p3) _ _ S2a So3 F3) as [S3 K3]. mv K3.
             unfold asked. cbn [bind]. eapply call_t_done with (cs := cs3 ++ cs2 ++ cs); auto.
             exists l1', kv1, r1. split; [reflexivity|]. repeat split; auto.
          -- destruct R3 as (So3 & B). destruct (sess_call _ _ _ _ _ [] _ _ S2a So3 F3) as [S3 K3].
             eapply call_asked with (B := bombs) (P := fun _ => True) (D := fun _ _ => False); [|easy|intros _; split; [lia|auto]].
             eapply call_unwind with (cs := cs3 ++ cs2 ++ cs); eauto; try perm.
        * destruct R2 as (So2 & Ln & B). destruct (sess_call _ _ _ _ _ [] _ _ S1' So2 F2) as [S2 K2].
          eapply call_asked with (B := True) (P := fun _ => True) (D := fun _ _ => False); [|easy|].
          { eapply call_unwind with (cs := cs2 ++ cs); eauto; try perm. }
          intros _. split; [lia|]. destruct B as [B|B]; [auto|]. right. rewrite B. reflexivity.
      + eapply call_asked with (B := True) (P := fun _ => True) (D := fun _ _ => False); [|easy|].
        { eapply call_unwind with (cs := cs); eauto; try perm. }
        intros _. split; [lia|auto].
  Qed.

  Lemma merge_t_low keepl keepr dec (t1 t2 t' : tree) n n' : AvlProofs.avl t1 -> AvlProofs.avl t2 ->
    AvlProofs2.fits (elems t1 ++ elems t2) -> merge_t keepl keepr dec t1 t2 n = Returned tt t' n' -> n <= n' /\ low t'.
  Proof.
    intros A1 A2 Ft E. pose proof (merge_copes bor ask keepl keepr dec t1 t2 n A1 A2 Ft) as C. rewrite E in C.
    destruct C as (Ln & A' & oa & ob & both & _ & _ & L). split; auto.
    apply fits_low; auto. eapply AvlProofs2.fits_le; [|exact Ft]. now rewrite app_length.
  Qed.

  (** The parts of a merge of two nodes. *)
  Lemma merge_t_parts nk nv lh rh (l r t2 : tree) n tl kv tr n' :
    AvlProofs.avl (Node nk nv lh rh l r) -> AvlProofs.avl t2 ->
    AvlProofs2.fits (elems (Node nk nv lh rh l r) ++ elems t2) -> split_t t2 (bor nk) n = Returned tt (tl, kv, tr) n' ->
    n <= n' /\ (AvlProofs.avl l /\ AvlProofs.avl tl /\ AvlProofs2.fits (elems l ++ elems tl))
    /\ (AvlProofs.avl r /\ AvlProofs.avl tr /\ AvlProofs2.fits (elems r ++ elems tr)).
  Proof.
    intros (_ & _ & _ & Al & Ar) A2 Ft E. cbn [elems] in *.
    assert (Hf2 : AvlProofs2.fits (elems t2)).
    { eapply AvlProofs2.fits_le; [|exact Ft]. rewrite app_length. lia. }
    pose proof (split_copes bor ask t2 (bor nk) n A2 Hf2) as C. rewrite E in C. destruct C as (Ln & Atl & Atr & El & _).
    assert (Hlen := f_equal (@length _) El). rewrite !app_length in Hlen.
    split; auto. repeat split; auto; eapply AvlProofs2.fits_le; try exact Ft; rewrite !app_length; cbn [length]; lia.
  Qed.

  Lemma merge_t_ok keepl keepr dec t1 : forall t2 fuel (h : heap) p1 p2 n O,
    sound h (olist p1 ++ olist p2 ++ O) -> den h p1 (tv t1) -> den h p2 (tv t2) -> levels t1 < fuel ->
    AvlProofs.avl t1 -> AvlProofs.avl t2 -> AvlProofs2.fits (elems t1 ++ elems t2) ->
    call_t O h (clones h) (h_merge_t bor ask bomb keepl keepr dec fuel h p1 p2 n) olist
      (fun p n' h' => exists t', merge_t keepl keepr dec t1 t2 n = Returned tt t' n' /\ den h' p (tv t'))
      (fun n' => n <= n' /\ (bombs \/ merge_t keepl keepr dec t1 t2 n = Ask.Unwound tt n')).
  Proof.
    induction t1 as [|nk nv lh rh l IHl r IHr]; intros t2 fuel h p1 p2 n O So D1 D2 Lf A1 A2 Ft;
      destruct fuel as [|fuel]; try lia; cbn [h_merge_t].
    - pose proof (sess_start h (olist p1 ++ olist p2) O) as S0. rewrite <- app_assoc in S0. specialize (S0 So).
      cbn [tv] in D1. apply den_none in D1 as ->. cbn [AvlAskModel.merge_t]. destruct keepr.
      + eapply call_t_done with (cs := []); auto. eexists. split; [reflexivity|]. auto.
      + assert (S0' : sess h h [] (olist p2 ++ []) O) by perm.
        destruct (sess_drop1 _ _ _ _ _ _ S0') as (h1 & E1 & S1' & _ & C1). rewrite E1. cbn [bind asked].
        eapply call_t_done with (cs := []); auto. eexists. split; [reflexivity|]. constructor.
    - pose proof (merge_copes bor ask keepl keepr dec (Node nk nv lh rh l r) t2 n A1 A2 Ft) as NF.
      destruct (den_some _ _ _ _ D1) as [a1 ->]. cbn [tv] in D1.
      destruct t2 as [|k2 v2 lh2 rh2 l2 r2].
      { pose proof (sess_start h (olist (Some a1) ++ olist p2) O) as S0. rewrite <- app_assoc in S0. specialize (S0 So).
        cbn [tv] in D2. apply den_none in D2 as ->. cbn [AvlAskModel.merge_t]. destruct keepl.
        - eapply call_t_done with (cs := []); auto. eexists. split; [reflexivity|]. auto.
        - assert (S0' : sess h h [] (olist (Some a1) ++ []) O) by perm.
          destruct (sess_drop1 _ _ _ _ _ _ S0') as (h1 & E1 & S1' & _ & C1). rewrite E1. cbn [bind asked].
          eapply call_t_done with (cs := []); auto. eexists. split; [reflexivity|]. constructor. }
      destruct (den_some _ _ _ _ D2) as [a2 ->]. cbn [AvlAskModel.merge_t] in *.
      assert (Hf2 : AvlProofs2.fits (elems (Node k2 v2 lh2 rh2 l2 r2))).
      { eapply AvlProofs2.fits_le; [|exact Ft]. rewrite app_length. lia. }
      pose proof (low_levels _ (fits_low _ A2 Hf2)) as Lv2.
      remember (Node k2 v2 lh2 rh2 l2 r2) as t2 eqn:Et2. clear Et2.
      destruct (unshare_ok bomb h h [] a1 (olist (Some a2)) O _ _ _ (sess_start _ (a1 :: olist (Some a2)) _ So) D1)
        as (h1 & r1 & E1 & K1 & P1).
      rewrite E1. cbn [bind]. mv K1.
      destruct r1 as [[[d' pl] pr]|].
      2:{ destruct P1 as (Ss1 & C1 & B1). eapply call_asked with (B := True) (P := fun _ => True) (D := fun _ _ => False); [|easy|].
          { eapply call_unwind with (cs := [_]); eauto; try perm. }
          intros _. split; auto. left. now exists (length (clones h)). }
      destruct P1 as (-> & Ss1 & Dl & Dr & cs & C1 & _ & _). cbn [pk pv].
      assert (Ss1' : sess h h1 [] (olist (Some a2) ++ (olist pl ++ olist pr)) O) by perm.
      destruct (split_t_ok t2 depth h1 (Some a2) (bor nk) n ((olist pl ++ olist pr) ++ O))
        as (h2 & n2 & o2 & cs2 & E2 & F2 & C2 & R2); auto; [now apply sess_sub in Ss1'|].
      rewrite E2. cbn [bind].
      assert (C2' : clones h2 = (cs2 ++ cs) ++ clones h) by (rewrite C2, C1; apply app_assoc).
      destruct o2 as [[[q1 kv2] q2]|].
      2:{ destruct R2 as (So2 & Ln & B). destruct (sess_call _ _ _ _ _ [] _ _ Ss1' So2 F2) as [Ss2 K2].
          eapply call_asked with (B := True) (P := fun _ => True) (D := fun _ _ => False); [|easy|].
          { eapply call_unwind with (cs := cs2 ++ cs); eauto; try perm. }
          intros _. split; auto. destruct B as [B|B]; auto. right. now rewrite B. }
      destruct R2 as (So2 & tl & kv & tr & Es & Dq1 & Dq2 & Ekv). unfold own2 in So2. cbn [fst snd] in *. subst kv2.
      destruct (merge_t_parts _ _ _ _ _ _ _ _ _ _ _ _ A1 A2 Ft Es) as (Ln2 & (Al & Atl & Fl) & (Ar & Atr & Fr)).
      rewrite Es in *. cbn [after] in *.
      destruct (sess_call _ _ _ _ _ _ _ _ Ss1' So2 F2) as [Ss2 K2]. mv K2.
      assert (Ss2' : sess h h2 [] ((olist pl ++ olist q1) ++ (olist pr ++ olist q2)) O) by perm.
      destruct (IHl tl fuel h2 pl q1 n2 ((olist pr ++ olist q2) ++ O)) as (h3 & n3 & o3 & cs3 & E3 & F3 & C3 & R3);
        auto; [rewrite app_assoc; now apply sess_sub in Ss2'|cbn [levels] in Lf; lia|].
      rewrite E3. cbn [bind].
      assert (C3' : clones h3 = (cs3 ++ cs2 ++ cs) ++ clones h) by (rewrite C3, C2'; apply app_assoc).
      destruct o3 as [pl'|].
      2:{ destruct R3 as (So3 & Ln3 & B). destruct (sess_call _ _ _ _ _ [] _ _ Ss2' So3 F3) as [Ss3 K3].
          eapply call_asked with (B := True) (P := fun _ => True) (D := fun _ _ => False); [|easy|].
          { eapply call_unwind with (cs := cs3 ++ cs2 ++ cs); eauto; try perm. }
          intros _. split; [lia|]. destruct B as [B|B]; auto. right. now rewrite B. }
      destruct R3 as (So3 & l' & El & Dl').
      destruct (merge_t_low _ _ _ _ _ _ _ _ Al Atl Fl El) as [Ln3 Ll'].
      rewrite El in *. cbn [after] in *.
      destruct (sess_call _ _ _ _ _ _ _ _ Ss2' So3 F3) as [Ss3 K3]. mv K3.
      assert (Ss3' : sess h h3 [] ((olist pr ++ olist q2) ++ olist pl') O) by perm.
      destruct (IHr tr fuel h3 pr q2 n3 (olist pl' ++ O)) as (h4 & n4 & o4 & cs4 & E4 & F4 & C4 & R4);
        auto; [rewrite app_assoc; now apply sess_sub in Ss3'|cbn [levels] in Lf; lia|].
      rewrite E4. cbn [bind].
      assert (C4' : clones h4 = (cs4 ++ cs3 ++ cs2 ++ cs) ++ clones h) by (rewrite C4, C3'; apply app_assoc).
      destruct o4 as [pr'|].
      2:{ destruct R4 as (So4 & Ln4 & B). destruct (sess_call _ _ _ _ _ [] _ _ Ss3' So4 F4) as [Ss4 K4].
          eapply call_asked with (B := True) (P := fun _ => True) (D := fun _ _ => False); [|easy|].
          { eapply call_unwind with (cs := cs4 ++ cs3 ++ cs2 ++ cs); eauto; try perm. }
          intros _. split; [lia|]. destruct B as [B|B]; auto. right. now rewrite B. }
      destruct R4 as (So4 & r' & Er & Dr').
      destruct (merge_t_low _ _ _ _ _ _ _ _ Ar Atr Fr Er) as [Ln4 Lr'].
      rewrite Er in *. cbn [after] in *. cbv zeta in *.
      destruct (sess_call _ _ _ _ _ _ _ _ Ss3' So4 F4) as [Ss4 K4]. mv K4.
      assert (Ss4' : sess h h4 [] (olist pl' ++ olist pr') O) by perm.
      set (o := match kv with Some _ => _ | None => _ end) in *.
      destruct (join2 l' o r') as [t'|] eqn:Ej; [|destruct NF].
      eapply call_asked with (B := bombs) (P := fun _ => True) (D := fun p h' => den h' p (tv t')).
      + eapply call_frame; [apply (s_fr _ _ _ _ _ Ss4')|].
        eapply call_base with (cs0 := cs4 ++ cs3 ++ cs2 ++ cs) (P := fun _ => True); [auto|].
        rewrite <- C4'. eapply (join2_ok (Q := unit) (fun _ => tt) (fun _ _ => Eq)); eauto.
        now apply sess_sub in Ss4'.
      + intros p h' Dp. exists t'. split; [reflexivity|exact Dp].
      + intros B. split; [lia|auto].
  Qed.
End AskMerge.
