(** Proofs about [iter_mut] and [range_mut] of [AvlMap]s on shared nodes: whole sequences of calls. *)
From Coq Require Import List PeanoNat Bool Lia Sorted.
From Verif Require Import Base Spec MapSpec SpecFacts Heap HeapProofs HeapMut HeapMutProofs AvlModel AvlMapProofs AvlIterModel AvlIterProofs
  AvlHeapModel AvlHeapSpec AvlHeapProofs MutSpec AvlHeapMutModel AvlHeapMutProofs AvlHeapMutProofs2.
From Verif Require BTreeHeapMutProofs BTreeHeapMutProofs3.
Import ListNotations.
Local Open Scope nat_scope.

Section Refs.
  Context {K V : Type}.
  Notation tree := (tree K V).
  (** Where an entry is. *)
  Lemma refs_at (t : tree) : forall p x q k, nth_error (refs p t) x = Some (q, k) ->
    exists s v lh rh l r, q = p ++ s /\ t_at t s = Node k v lh rh l r /\ nth_error (elems t) x = Some (k, v).
  Proof.
    induction t as [|tk tv lh rh l IHl r IHr]; intros p x q k E; cbn [refs elems] in *; [now destruct x|].
    pose proof (refs_length (p ++ [false]) l) as L. destruct (Nat.lt_ge_cases x (length (elems l))) as [Hx|Hx].
    - rewrite nth_error_app1 in E |- * by lia. destruct (IHl _ _ _ _ E) as (s & v & a & b & c & d & -> & H1 & H2).
      exists (false :: s), v, a, b, c, d. rewrite <- app_assoc. auto.
    - rewrite nth_error_app2 in E |- * by lia. rewrite L in E. destruct (x - length (elems l)) as [|y].
      + cbn [nth_error] in *. injection E as <- <-. exists [], tv, lh, rh, l, r. rewrite app_nil_r. auto.
      + cbn [nth_error] in *. destruct (IHr _ _ _ _ E) as (s & v & a & b & c & d & -> & H1 & H2).
        exists (true :: s), v, a, b, c, d. rewrite <- app_assoc. auto.
  Qed.
  Lemma refs_in q : forall (t : tree) p k v lh rh l r, t_at t q = Node k v lh rh l r -> In (p ++ q, k) (refs p t).
  Proof.
    induction q as [|b q IH]; intros t p k v lh rh l r E; cbn [t_at] in E.
    - subst t. cbn [refs]. rewrite app_nil_r. apply in_or_app. right. now left.
    - destruct t as [|tk tv a c l0 r0]; [cbn [kid] in E; rewrite t_at_leaf in E; discriminate|]. cbn [kid refs] in *.
      specialize (IH _ (p ++ [b]) _ _ _ _ _ _ E). rewrite <- app_assoc in IH. apply in_or_app. destruct b; [right; right|left]; exact IH.
  Qed.
  Lemma refs_skel : forall (t t' : tree) p, skel t = skel t' -> refs p t = refs p t'.
  Proof.
    induction t as [|k v lh rh l IHl r IHr]; intros [|k' v' lh' rh' l' r'] p E; try discriminate; auto. cbn [skel] in E. injection E as -> _ _ El Er.
    cbn [refs]. now rewrite (IHl _ _ El), (IHr _ _ Er).
  Qed.
End Refs.

Section Run.
  Context {K V Q : Type} (bor : K -> Q) (cmp : Q -> Q -> comparison).
  Variable bomb : nat -> bool.
  Notation tree := (tree K V).
  Notation heap := (heap (pay K V)).
  Notation path := AvlIterModel.path.
  Notation valid := (@valid K V Q bor cmp).
  Variables (h0 : heap) (t0 : tree) (O : list addr) (start : path -> Prop) (len : nat).
  Notation mst := (mst h0 t0 O start).
  Notation minv := (minv h0 t0 O start).
  Notation asims := (asims t0).
  Notation M t := (AvlMap len t).
  Notation R := (refs [] t0).
  Notation gden := (AvlIterProofs.den (@mflat K V)).
  Hypothesis V0 : valid (M t0).
  Hypothesis L0 : levels t0 < depth.

  (** The tree [t] has the entries [l], in the same places as [t0] has its own. *)
  Definition shows_at (t : tree) (l : list (K * V)) : Prop := valid (M t) /\ elems t = l /\ refs [] t = R.

  Lemma write_shows t l x q k w : shows_at t l -> nth_error R x = Some (q, k) -> shows_at (write_at q w t) (upd_nth x w l).
  Proof.
    intros (Hv & <- & Hf) Ex. rewrite <- Hf in Ex. destruct (write_spec bor cmp (M t) x (q, k) w Hv Ex) as (H1 & H2 & H3).
    split; [exact H1|]. split; [exact H2|]. rewrite <- Hf. exact H3.
  Qed.

  (** References handed out, and the indices of their entries. *)
  Definition refs_ok (h : heap) (r : addr) : list addr -> list nat -> Prop :=
    Forall2 (fun a x => exists q k, nth_error R x = Some (q, k) /\ held h r (np q) a).
  Lemma refs_mono h h' r rfs rs : mono h h' r -> refs_ok h r rfs rs -> refs_ok h' r rfs rs.
  Proof. intros Mo F. induction F as [|a b l l' (q & e & A1 & A2) F IH]; constructor; auto. exists q, e. auto. Qed.

  (** The iterator has still to hand out the entries from [i] to [k - 1]. *)
  Definition iter_ok (h : heap) (r : addr) (it : inner_iter addr addr) (i k d : nat) : Prop :=
    exists gs, asims h r (it_work it) gs /\ gden gs = cut i k R /\ i <= k <= length R /\ it_len it = (k - i) + d.
  Lemma iter_mono h h' r it i k d : mono h h' r -> iter_ok h r it i k d -> iter_ok h' r it i k d.
  Proof. intros Mo (gs & H & G). exists gs. split; auto. eapply asims_mono; eauto. Qed.

  Definition on_way (p : path) (x : nat) : Prop := exists q k, nth_error R x = Some (q, k) /\ below_path q p.

  (** One step of the iterator. *)
  Lemma next_run h r t ps it i k d : minv h r t ps -> iter_ok h r it i k d ->
    exists h' it' o nps, am_next bomb h it = Ok (h', it', o) /\ mono h h' r /\ Forall (fun p => i < k /\ on_way p i) nps
      /\ match o with
         | Done None => minv h' r t (nps ++ ps) /\ k <= i /\ iter_ok h' r it' i k d
         | Done (Some rf) => minv h' r t (nps ++ ps) /\ i < k /\ iter_ok h' r it' (i + 1) k d /\ refs_ok h' r [rf] [i]
         | Unwound => mst h' r t (nps ++ ps) /\ (exists n, bomb n = true) /\ nps <> []
         end.
  Proof.
    intros I (gs & W & D & L & Ln).
    destruct (next_m bomb h0 t0 O start depth h r t ps (it_work it) gs (it_len it) I W) as (h' & it' & o & nps & E & Mo & P).
    { pose proof (asims_lv t0 h r _ _ W). lia. }
    { rewrite D, BTreeHeapMutProofs.cut_len; lia. }
    exists h', it', o, nps. split; auto. split; auto. rewrite D in P. destruct (Nat.lt_ge_cases i k) as [Hl|Hl].
    - destruct (BTreeHeapMutProofs.cut_cons i k R) as ([q kk] & He & Ec); [lia..|]. rewrite Ec in P. destruct P as [Fp P].
      split; [eapply Forall_impl; [|exact Fp]; intros p Hp; split; auto; exists q, kk; auto|].
      destruct o as [[x|]|]; [|contradiction|exact P]. destruct P as (I' & Hx & gs' & W' & D' & Ln'). split; auto. split; auto. split.
      + exists gs'. split; auto. split; auto. split; lia.
      + constructor; [|constructor]. exists q, kk. auto.
    - rewrite BTreeHeapMutProofs.cut_none in P by auto. destruct P as (-> & -> & -> & ->). split; [constructor|]. split; auto. split; auto.
      exists []. split; [constructor|]. rewrite BTreeHeapMutProofs.cut_none by auto. split; auto.
  Qed.
  Lemma next_back_run h r t ps it i k d : minv h r t ps -> iter_ok h r it i k d ->
    exists h' it' o nps, am_next_back bomb h it = Ok (h', it', o) /\ mono h h' r /\ Forall (fun p => i < k /\ on_way p (k - 1)) nps
      /\ match o with
         | Done None => minv h' r t (nps ++ ps) /\ k <= i /\ iter_ok h' r it' i k d
         | Done (Some rf) => minv h' r t (nps ++ ps) /\ i < k /\ iter_ok h' r it' i (k - 1) d /\ refs_ok h' r [rf] [k - 1]
         | Unwound => mst h' r t (nps ++ ps) /\ (exists n, bomb n = true) /\ nps <> []
         end.
  Proof.
    intros I (gs & W & D & L & Ln).
    destruct (next_back_m bomb h0 t0 O start depth h r t ps (it_work it) gs (it_len it) I W) as (h' & it' & o & nps & E & Mo & P).
    { pose proof (asims_lvb t0 h r _ _ W). lia. }
    { rewrite D, BTreeHeapMutProofs.cut_len; lia. }
    exists h', it', o, nps. split; auto. split; auto. rewrite D in P. destruct (Nat.lt_ge_cases i k) as [Hl|Hl].
    - destruct (BTreeHeapMutProofs.cut_snoc i k R) as ([q kk] & He & Ec); [lia..|]. rewrite Ec, rev_app_distr in P. cbn [rev app] in P. destruct P as [Fp P].
      split; [eapply Forall_impl; [|exact Fp]; intros p Hp; split; auto; exists q, kk; auto|].
      destruct o as [[x|]|]; [|contradiction|exact P]. destruct P as (I' & Hx & gs' & W' & D' & Ln'). rewrite rev_involutive in D'. split; auto. split; auto. split.
      + exists gs'. split; auto. split; auto. split; lia.
      + constructor; [|constructor]. exists q, kk. auto.
    - rewrite BTreeHeapMutProofs.cut_none in P by auto. destruct P as (-> & -> & -> & ->). split; [constructor|]. split; auto. split; auto.
      exists []. split; [constructor|]. rewrite BTreeHeapMutProofs.cut_none by auto. split; auto.
  Qed.

  (** What holds after the calls [cs], of which [length outs] were completed. *)
  Definition ran (cs : list (mcall V)) (r : addr) (l : list (K * V)) (i k d : nat) (rs : list nat) (ps : list path)
    (h' : heap) (outs : list (option (K * V) * nat)) (b : bool) (nps : list path) : Prop :=
    exists t', mst h' r t' (nps ++ ps) /\ shows_at t' (snd (fst (s_muts (firstn (length outs) cs) l i k rs)))
      /\ outs = map (fun s => (fst s, snd s + d)) (fst (fst (s_muts (firstn (length outs) cs) l i k rs)))
      /\ Forall (fun p => exists x, In x (snd (s_muts (firstn (S (length outs)) cs) l i k rs)) /\ on_way p x) nps
      /\ if b then length outs = length cs /\ mheld t0 start h' r t' (nps ++ ps) else (exists n, bomb n = true) /\ nps ++ ps <> [].

  Lemma run_ok cs : forall h r t l ps it i k d rfs rs, minv h r t ps -> shows_at t l -> iter_ok h r it i k d -> refs_ok h r rfs rs ->
    exists h' it' outs b nps, am_run bomb cs h it rfs = Ok (h', it', outs, b) /\ ran cs r l i k d rs ps h' outs b nps.
  Proof.
    induction cs as [|c cs IH]; intros h r t l ps it i k d rfs rs I Sh It Rf.
    { exists h, it, [], true, []. split; auto. exists t. cbn [length firstn s_muts fst snd app]. split; [exact (proj1 I)|]. split; [exact Sh|]. split; [reflexivity|]. split; [constructor|]. split; [reflexivity|exact (proj2 I)]. }
    (* going on after a call that ended with [out] in place of [sout] *)
    assert (Go : forall h1 it1 t1 l1 i1 k1 rfs1 rs1 n1 o so, minv h1 r t1 (n1 ++ ps) -> shows_at t1 l1 -> iter_ok h1 r it1 i1 k1 d -> refs_ok h1 r rfs1 rs1 ->
      o = (fst so, snd so + d) ->
      (forall cs', s_muts (c :: cs') l i k rs = let '(os, l', rs') := s_muts cs' l1 i1 k1 rs1 in (so :: os, l', rs')) ->
      Forall (fun p => exists x, In x rs1 /\ on_way p x) n1 ->
      exists h' it' outs b nps, ('(h2, it2, outs, b) <- am_run bomb cs h1 it1 rfs1;; Ok (h2, it2, o :: outs, b)) = Ok (h', it', outs, b)
        /\ ran (c :: cs) r l i k d rs ps h' outs b nps).
    { intros h1 it1 t1 l1 i1 k1 rfs1 rs1 n1 o so I1 Sh1 It1 Rf1 Ho Es Hn.
      destruct (IH h1 r t1 l1 _ it1 i1 k1 d rfs1 rs1 I1 Sh1 It1 Rf1) as (h' & it' & outs & b & nps & E & t' & A1 & A2 & A3 & A4 & A5).
      rewrite E. cbn [bind]. eexists _, _, _, _, (nps ++ n1). split; [reflexivity|]. exists t'. cbn [length]. rewrite !firstn_cons, !Es.
      destruct (s_muts (firstn (length outs) cs) l1 i1 k1 rs1) as [[os l'] rs'] eqn:E1. pose proof (BTreeHeapMutProofs3.s_muts_rs (firstn (S (length outs)) cs) l1 i1 k1 rs1) as Hrs.
      destruct (s_muts (firstn (S (length outs)) cs) l1 i1 k1 rs1) as [[os2 l2] rs2] eqn:E2. cbn [fst snd] in *.
      rewrite <- app_assoc. split; auto. split; auto. split; [cbn [map]; now rewrite Ho, <- A3|]. split.
      - apply Forall_app. split; auto. eapply Forall_impl; [|exact Hn]. intros p (x & X1 & X2). eauto.
      - destruct b; auto. destruct A5; split; auto. }
    (* a call that unwinds *)
    assert (Un : forall h1 (it1 : inner_iter addr addr) n1 y, mst h1 r t (n1 ++ ps) -> (exists n, bomb n = true) /\ n1 <> [] -> Forall (fun p => i < k /\ on_way p y) n1 ->
      (i < k -> In y (snd (s_muts [c] l i k rs))) ->
      exists h' it' outs b nps, Ok (h1, it1, @nil (option (K * V) * nat), false) = Ok (h', it', outs, b) /\ ran (c :: cs) r l i k d rs ps h' outs b nps).
    { intros h1 it1 n1 y Hm Hb Hn Hy. exists h1, it1, [], false, n1. split; auto. exists t. cbn [length firstn s_muts fst snd] in *. split; auto. split; auto.
      split; [reflexivity|]. split; [|split; [apply Hb|destruct Hb as [_ Hb]; now destruct n1]]. eapply Forall_impl; [|exact Hn]. intros p [Hk Hp]. exists y. auto. }
    assert (Hnew : forall h1 rf x, refs_ok h1 r rfs rs -> refs_ok h1 r [rf] [x] -> refs_ok h1 r (rfs ++ [rf]) (rs ++ [x])).
    { intros h1 rf x F1 F2. apply Forall2_app; auto. }
    (* an access through a reference *)
    assert (Acc : forall h1 a q kk x w ps1, minv h1 r t ps1 -> nth_error R x = Some (q, kk) -> held h1 r (np q) a ->
      exists e h2, am_read h1 a = Ok e /\ nth_error l x = Some e /\ am_write h1 a w = Ok h2 /\ minv h2 r (write_at q w t) ps1 /\ mono h1 h2 r).
    { intros h1 a q kk x w ps1 I1 Ex Ha. destruct (refs_at t0 [] x q kk Ex) as (s & v0 & lh & rh & l1 & r1 & -> & B1 & _). cbn [app] in *.
      destruct (write_step h0 t0 O start h1 r t ps1 s a kk v0 lh rh l1 r1 w I1 Ha B1) as (v & l2 & r2 & h2 & C1 & C2 & C3 & C4 & C5).
      destruct Sh as (_ & <- & Hf). rewrite <- Hf in Ex. destruct (refs_at t [] x s kk Ex) as (s' & v' & lh' & rh' & l' & r' & -> & D1 & D2). cbn [app] in *.
      rewrite C1 in D1. injection D1 as <- _ _ _ _. eauto 8. }
    assert (Rd : forall h1 rf x ps1, minv h1 r t ps1 -> refs_ok h1 r [rf] [x] -> exists e, am_read h1 rf = Ok e /\ nth_error l x = Some e).
    { intros h1 a x ps1 I1 F. inversion F as [|? ? ? ? (q & e & A1 & A2) _]; subst. destruct (Acc h1 a q e x (fun v => v) ps1 I1 A1 A2) as (e' & _ & B1 & B2 & _). eauto. }
    destruct c as [| |j w]; cbn [am_run].
    - destruct (next_run h r t ps it i k d I It) as (h1 & it1 & o & n1 & E & Mo & Fn & P). rewrite E. cbn [bind]. destruct o as [[rf|]|].
      + destruct P as (I1 & Hl & It1 & Rf1). destruct (Rd h1 rf i _ I1 Rf1) as (e & Er & El). rewrite Er. cbn [bind].
        apply (Go h1 it1 t l (i + 1) k (rfs ++ [rf]) (rs ++ [i]) n1 _ (nth_error l i, k - (i + 1))); auto.
        * apply Hnew; auto. eapply refs_mono; eauto.
        * destruct It1 as (_ & _ & _ & _ & ->). now rewrite El.
        * intros cs'. cbn [s_muts]. apply Nat.ltb_lt in Hl. now rewrite Hl.
        * eapply Forall_impl; [|exact Fn]. intros p [_ Hp]. exists i. split; auto. apply in_or_app. right. now left.
      + destruct P as (I1 & Hl & It1). assert (n1 = []) as -> by (destruct Fn as [|p n1 [? _] _]; [auto|lia]).
        apply (Go h1 it1 t l i k rfs rs [] _ (None, 0)); auto.
        * eapply refs_mono; eauto.
        * destruct It1 as (_ & _ & _ & _ & ->). cbn [fst snd]. f_equal. lia.
        * intros cs'. cbn [s_muts]. apply Nat.ltb_ge in Hl. now rewrite Hl.
      + destruct P as (Hm & Hb). apply (Un h1 it1 n1 i); auto. intros Hl. cbn [s_muts]. apply Nat.ltb_lt in Hl. rewrite Hl. cbn [snd]. apply in_or_app. right. now left.
    - destruct (next_back_run h r t ps it i k d I It) as (h1 & it1 & o & n1 & E & Mo & Fn & P). rewrite E. cbn [bind]. destruct o as [[rf|]|].
      + destruct P as (I1 & Hl & It1 & Rf1). destruct (Rd h1 rf (k - 1) _ I1 Rf1) as (e & Er & El). rewrite Er. cbn [bind].
        apply (Go h1 it1 t l i (k - 1) (rfs ++ [rf]) (rs ++ [k - 1]) n1 _ (nth_error l (k - 1), (k - 1) - i)); auto.
        * apply Hnew; auto. eapply refs_mono; eauto.
        * destruct It1 as (_ & _ & _ & _ & ->). now rewrite El.
        * intros cs'. cbn [s_muts]. apply Nat.ltb_lt in Hl. now rewrite Hl.
        * eapply Forall_impl; [|exact Fn]. intros p [_ Hp]. exists (k - 1). split; auto. apply in_or_app. right. now left.
      + destruct P as (I1 & Hl & It1). assert (n1 = []) as -> by (destruct Fn as [|p n1 [? _] _]; [auto|lia]).
        apply (Go h1 it1 t l i k rfs rs [] _ (None, 0)); auto.
        * eapply refs_mono; eauto.
        * destruct It1 as (_ & _ & _ & _ & ->). cbn [fst snd]. f_equal. lia.
        * intros cs'. cbn [s_muts]. apply Nat.ltb_ge in Hl. now rewrite Hl.
      + destruct P as (Hm & Hb). apply (Un h1 it1 n1 (k - 1)); auto. intros Hl. cbn [s_muts]. apply Nat.ltb_lt in Hl. rewrite Hl. cbn [snd]. apply in_or_app. right. now left.
    - assert (Hl : it_len it = k - i + d) by (destruct It as (_ & _ & _ & _ & Hl); exact Hl). destruct (nth_error rfs j) as [a|] eqn:Ej.
      + destruct (BTreeHeapMutProofs3.f2_nth_l _ _ _ _ _ Rf Ej) as (x & Ex & q & kk & A1 & A2).
        destruct (Acc h a q kk x w ps I A1 A2) as (e & h1 & C1 & C2 & C3 & C4 & C5). rewrite C1. cbn [bind]. rewrite C3. cbn [bind].
        apply (Go h1 it (write_at q w t) (upd_nth x w l) i k rfs rs [] _ (nth_error l x, k - i)); auto.
        * eapply write_shows; eauto.
        * eapply iter_mono; eauto.
        * eapply refs_mono; eauto.
        * cbn [fst snd]. now rewrite C2, Hl.
        * intros cs'. cbn [s_muts]. now rewrite Ex.
      + apply (Go h it t l i k rfs rs [] _ (None, k - i)); auto.
        * intros cs'. cbn [s_muts]. now rewrite (BTreeHeapMutProofs3.f2_none_l _ _ _ _ Rf Ej).
  Qed.
End Run.
