(** Proofs about the [Stack] model. *)
From Coq Require Import List Arith Bool Lia.
From Verif Require Import Base Heap HeapProofs StackModel StackSpec.
Import ListNotations.
Open Scope nat_scope.

Section StackProofs.
  Context {T : Type}.
  Variable bomb : nat -> bool.
  Notation heap := (heap T).

  Lemma den_chain_some (h : heap) a l : den h (Some a) (chain l) ->
    exists x l' c p, l = x :: l' /\ get h a = Some (c, Nd x [p]) /\ den h p (chain l').
  Proof.
    intros H. destruct l as [|x l']; cbn in H; inversion H as [|? c n ts G D]; subst.
    destruct n as [d kids]. cbn in *. inversion D as [|p ps t ts' D1 D2]; subst. inversion D2; subst.
    exists d, l', c, p. auto.
  Qed.
  Lemma den_chain_none (h : heap) l : den h None (chain l) -> l = [].
  Proof. destruct l; auto. cbn. intros H. inversion H. Qed.
  Lemma den_chain_nil (h : heap) p : den h p (chain []) -> p = None.
  Proof. cbn. intros H. inversion H. auto. Qed.
  Lemma dens_one (h : heap) p l : den h p (chain l) -> dens h [p] [chain l].
  Proof. intros. repeat constructor; auto. Qed.
  Lemma olists_one (p : ptr) : olists [p] = olist p.
  Proof. unfold olists. cbn. apply app_nil_r. Qed.

  (** ** new, clone, push *)
  Lemma new_ok (h : heap) : shows h s_new [].
  Proof. split; auto. constructor. Qed.

  Lemma clone_ok (h : heap) s l O : sound h (olist (selems s) ++ O) -> shows h s l ->
    exists h', s_clone h s = Ok (h', s)
      /\ sound h' (olist (selems s) ++ olist (selems s) ++ O) /\ shows h' s l
      /\ frame (olist (selems s) ++ O) h h'
      /\ clones h' = clones h /\ length (cells h') = length (cells h).
  Proof.
    intros [W A] [Hl D]. unfold s_clone.
    destruct (inc_ok h (selems s) _ W A) as (h1 & E & W1 & A1 & S1 & S1' & P1 & L1 & C1).
    { intros x Hx. apply in_or_app. left. apply in_or_app. auto. }
    exists h1. rewrite E. split; auto. split; [split; auto|]. split.
    { split; auto. now apply (den_same h h1 S1). }
    split; auto. now apply same_frame2.
  Qed.

  Lemma push_ok (h : heap) s l v O : sound h (olist (selems s) ++ O) -> shows h s l ->
    exists h' s', s_push h s v = (h', s')
      /\ sound h' (olist (selems s') ++ O) /\ shows h' s' (v :: l) /\ frame O h h'
      /\ clones h' = clones h /\ length (cells h') = S (length (cells h)).
  Proof.
    intros [W A] [Hl D]. unfold s_push.
    destruct (alloc h (Nd v [selems s])) as [h1 a] eqn:E.
    destruct (alloc_ok h v [selems s] [chain l] O) with (h' := h1) (a := a)
      as (W1 & A1 & D1 & G1 & F1 & S1 & L1 & C1 & _); auto.
    { now rewrite olists_one. }
    { now apply dens_one. }
    exists h1, (Stk (slen s + 1) (Some a)). split; auto. split; [split; auto|].
    split. { split; cbn; [lia|exact D1]. }
    split; auto. eapply frame_incl; [|exact F1]. intros x Hx. apply in_or_app. auto.
  Qed.

  Lemma top_ok (h : heap) s l : shows h s l -> s_top h s = Ok (hd_error l).
  Proof.
    intros [Hl D]. unfold s_top. destruct (selems s) as [a|].
    - destruct (den_chain_some h a l D) as (x & l' & c & p & -> & G & _). now rewrite G.
    - apply den_chain_none in D. now subst.
  Qed.

  (** ** Opening a cell for writing: [make_mut], then in-place work, then back. *)
  Lemma lead_taken n : forall (h h' : heap) a O p, wf h (a :: O) -> (exists nd, get h a = Some (1, nd)) ->
    (forall b, b <> a -> get h' b = get h b) -> incl (olist p) (ptrs h) ->
    lead n h' p = lead n h p.
  Proof.
    induction n as [|n IH]; intros h h' a O p W [nd G] He Hi; cbn [lead]; auto.
    destruct p as [b|]; auto.
    assert (Hb : b <> a).
    { intros ->. pose proof (W a) as Wa. rewrite G in Wa. cbn [app] in Wa.
      rewrite cnt_cons, cnt_app in Wa. destruct (Nat.eq_dec a a); [|congruence].
      assert (1 <= cnt a (ptrs h)) by (apply cnt_in, Hi; cbn; auto). lia. }
    rewrite He by auto. destruct (get h b) as [[c m]|] eqn:Gb; auto.
    destruct c as [|[|c]]; auto. f_equal. eapply IH; eauto.
    intros x Hx. eapply ptrs_in; [exact Gb|]. unfold rest in Hx. destruct m as [d [|q qs]]; cbn in *; [contradiction|].
    apply in_or_app. auto.
  Qed.

  Lemma open_ok (h : heap) a l O : sound h (a :: O) -> den h (Some a) (chain l) ->
    exists x l' h1 r, l = x :: l' /\ make_mut bomb h a = Ok (h1, r) /\
      match r with
      | None => sound h1 (a :: O) /\ den h1 (Some a) (chain l) /\ frame O h h1
                /\ bomb (length (clones h)) = true /\ clones h1 = x :: clones h
                /\ lead (length l) h (Some a) = 0
      | Some a1 => exists h2 p,
          take h1 a1 = Ok (h2, Nd x [p])
          /\ sound h2 (olist p ++ O) /\ den h2 p (chain l') /\ frame O h h2
          /\ get h2 a1 = None /\ a1 < length (cells h2)
          /\ (get h a1 <> None \/ length (cells h) <= a1)
          /\ match lead (length l) h (Some a) with
             | 0 => clones h2 = x :: clones h /\ length (cells h2) = S (length (cells h))
                    /\ bomb (length (clones h)) = false /\ lead (length l') h2 p = 0
             | S k => clones h2 = clones h /\ length (cells h2) = length (cells h)
                      /\ a1 = a /\ lead (length l') h2 p = k
             end
      end.
  Proof.
    intros [W A] D. destruct (den_chain_some h a l D) as (x & l' & c & p & -> & G & Dp).
    destruct (make_mut_ok bomb h a c x [p] [chain l'] O W A G (dens_one _ _ _ Dp))
      as (h1 & r & E & F & A1 & R).
    exists x, l', h1, r. split; auto. split; auto.
    assert (Hc : 1 <= c). { pose proof (W a) as Wa. rewrite G in Wa. lia. }
    destruct r as [a1|].
    - destruct R as (W1 & G1 & D1 & R).
      destruct (take_ok h1 a1 _ O W1 A1 G1) as (h2 & E2 & W2 & A2 & F2 & Dk & G2 & L2 & Lc & C2).
      exists h2, p. split; auto. split. { split; auto. now rewrite <- olists_one. }
      assert (Dp2 : den h2 p (chain l')).
      { specialize (Dk _ D1). inversion Dk; auto. }
      split; auto. split; [eapply frame_trans; eauto|]. split; auto. split; auto.
      destruct (Nat.eqb_spec c 1) as [->|Hn].
      + destruct R as [-> ->]. split. { left. congruence. }
        cbn [lead length]. rewrite G. cbn [rest nd_kids hd]. repeat split; auto.
        eapply lead_taken with (a := a) (O := O); eauto.
        * intros b Hb. unfold take in E2. rewrite G in E2. injection E2 as <-. apply get_put_other; auto.
        * intros y Hy. eapply ptrs_in; [exact G|]. cbn. rewrite app_nil_r. auto.
      + destruct R as (Rc & Rl & Rb & Rs & Ra). split. { right. lia. }
        assert (Lz : lead (length (x :: l')) h (Some a) = 0).
        { cbn [lead length]. rewrite G. destruct c as [|[|c]]; auto; lia. }
        rewrite Lz. split; [congruence|]. split; [congruence|]. split; auto.
        destruct p as [b|]; [|destruct (length l'); auto].
        destruct (length l') as [|m]; auto. cbn [lead].
        destruct (Rs a c _ G) as [c1 G1a].
        assert (Na : a1 <> a). { intros ->. apply get_lt in G. lia. }
        assert (G2a : get h2 a = Some (c1, Nd x [Some b])).
        { unfold take in E2. rewrite G1 in E2. injection E2 as <-. rewrite get_put_other; auto. }
        pose proof (W2 b) as Wb. destruct (get h2 b) as [[cb nb]|]; auto.
        destruct Wb as [Wb _]. destruct cb as [|[|cb]]; auto. exfalso.
        cbn [nd_kids olists flat_map olist app] in Wb. rewrite cnt_cons, cnt_app in Wb.
        destruct (Nat.eq_dec b b); [|congruence].
        assert (1 <= cnt b (ptrs h2)). { apply cnt_in. eapply ptrs_in; [exact G2a|]. cbn. auto. }
        lia.
    - destruct R as (Hn & Rb & W1 & D1 & C1 & _). split; [split; auto|]. split; auto. split; auto.
      split; auto. split; auto. cbn [lead length]. rewrite G. destruct c as [|[|c]]; auto; lia.
  Qed.

  Lemma close_ok (h h2 h3 : heap) a1 y p3 l3 O :
    frame O h h2 -> get h2 a1 = None -> a1 < length (cells h2) ->
    (get h a1 <> None \/ length (cells h) <= a1) ->
    sound h3 (olist p3 ++ O) -> den h3 p3 (chain l3) -> frame O h2 h3 ->
    sound (give h3 a1 (Nd y [p3])) (a1 :: O)
    /\ den (give h3 a1 (Nd y [p3])) (Some a1) (chain (y :: l3))
    /\ frame O h (give h3 a1 (Nd y [p3]))
    /\ clones (give h3 a1 (Nd y [p3])) = clones h3
    /\ length (cells (give h3 a1 (Nd y [p3]))) = length (cells h3).
  Proof.
    intros F G2 L2 Hg [W3 A3] D3 F3.
    assert (G3 : get h3 a1 = None). { destruct F3 as (_ & B & _). auto. }
    assert (L3 : a1 < length (cells h3)). { destruct F3 as (_ & _ & C). lia. }
    destruct (give_ok h3 a1 y [p3] [chain l3] O) as (W4 & A4 & D4 & G4 & S4 & L4); auto.
    { now rewrite olists_one. }
    { now apply dens_one. }
    split; [split; auto|]. split; auto. split; [|split; auto].
    eapply take_give_frame; eauto.
  Qed.

  (** ** top_mut *)
  Lemma top_mut_ok (h : heap) s l f O : sound h (olist (selems s) ++ O) -> shows h s l ->
    exists h' s' o, s_top_mut bomb h s f = Ok (h', s', o)
      /\ sound h' (olist (selems s') ++ O) /\ frame O h h'
      /\ match o with
         | Done v => v = hd_error l /\ shows h' s' (write [f] l)
                     /\ clones h' = (if lead 1 h (selems s) =? 0 then firstn 1 l else []) ++ clones h
         | IndexPanic => False
         | Unwound => shows h' s' l /\ exists n, bomb n = true
         end.
  Proof.
    intros H [Hl D]. unfold s_top_mut. destruct (selems s) as [a|] eqn:Es.
    - destruct (open_ok h a l O H D) as (x & l' & h1 & r & -> & E & R). rewrite E. cbn [bind].
      destruct r as [a1|].
      + destruct R as (h2 & p & E2 & I2 & D2 & F2 & G2 & L2 & Hg & C2). rewrite E2. cbn [bind nd_data nd_kids].
        destruct (close_ok h h2 h2 a1 (f x) p l' O F2 G2 L2 Hg I2 D2 (frame_refl _ _)) as (I3 & D3 & F3 & C3 & _).
        eexists _, _, _. split; [reflexivity|]. split; [exact I3|]. split; auto.
        split; auto. split. { split; cbn; auto. }
        rewrite C3. cbn [lead length] in *. destruct (get h a) as [[c nd]|]; cbn; [|tauto].
        destruct c as [|[|c]]; cbn; tauto.
      + destruct R as (I1 & D1 & F1 & B & _). eexists _, _, _. split; [reflexivity|].
        rewrite Es. split; auto. split; auto. split; [|eauto]. split; auto. rewrite Es. auto.
    - apply den_chain_none in D. subst. eexists _, _, _. split; [reflexivity|]. rewrite Es.
      split; auto. split; [apply frame_refl|]. split; auto. split; auto. split; auto. rewrite Es. constructor.
  Qed.

  (** ** unlink, pop *)
  Lemma unlink_ok (h : heap) a l O : sound h (a :: O) -> den h (Some a) (chain l) ->
    exists x l' h' p o, l = x :: l' /\ unlink bomb h a = Ok (h', p, o)
      /\ sound h' (olist p ++ O) /\ den h' p (chain l') /\ frame O h h'
      /\ (o = Done x \/ o = Unwound /\ bomb (length (clones h)) = true /\ lead 1 h (Some a) = 0)
      /\ clones h' = (if lead 1 h (Some a) =? 0 then [x] else []) ++ clones h
      /\ length (cells h') = length (cells h).
  Proof.
    intros [W A] D. destruct (den_chain_some h a l D) as (x & l' & c & p & -> & G & Dp).
    exists x, l'. unfold unlink. rewrite G. cbn [lead]. rewrite G.
    assert (Hc : 1 <= c). { pose proof (W a) as Wa. rewrite G in Wa. lia. }
    destruct (Nat.eq_dec c 1) as [->|Hn].
    - destruct (take_ok h a _ O W A G) as (h2 & E2 & W2 & A2 & F2 & Dk & G2 & L2 & Lc & C2).
      rewrite E2. cbn [bind rest nd_kids hd nd_data].
      eexists _, _, _. split; [reflexivity|]. split; [reflexivity|]. split.
      { split; auto. now rewrite <- olists_one. }
      split. { specialize (Dk _ (dens_one _ _ _ Dp)). inversion Dk; auto. }
      split; auto.
    - destruct (inc_ok h p (a :: O) W A) as (h1 & E1 & W1 & A1 & S1 & S1' & P1 & L1 & C1).
      { intros y Hy. apply in_or_app. right. eapply ptrs_in; [exact G|]. cbn. now rewrite app_nil_r. }
      cbn [rest nd_kids hd nd_data].
      destruct (log_ok h1 x _ W1 A1) as (W2 & A2 & S2 & S2' & L2 & P2).
      destruct (S1 a c _ G) as [c1 G1].
      assert (Hc1 : c1 <> 1).
      { pose proof (W1 a) as Wa. rewrite G1 in Wa. pose proof (W a) as Wa0. rewrite G in Wa0.
        rewrite P1 in Wa. rewrite !cnt_app in *. lia. }
      destruct (dec_ok (log h1 x) a c1 (Nd x [p]) (olist p ++ O)) as (h3 & E3 & W3 & A3 & S3 & S3' & L3 & C3 & _); auto.
      { eapply wf_equiv; [|exact W2]. intros y. cbn [app]. rewrite !cnt_app, !cnt_cons, !cnt_app. lia. }
      exists h3, p, (if bomb (length (clones h1)) then Unwound else Done x).
      split; auto. split.
      { rewrite E1. cbn [bind]. rewrite E3. destruct c as [|[|c]]; try lia. reflexivity. }
      split; [split; auto|]. split.
      { apply (den_same _ _ S3), (den_same _ _ S2), (den_same _ _ S1). exact Dp. }
      split.
      { eapply frame_trans; [apply (same_frame2 O h h1); auto|].
        eapply frame_trans; [apply (same_frame2 O h1 (log h1 x)); auto|]. apply same_frame2; auto. }
      assert (Lz : (match c with 1 => S (lead 0 h p) | _ => 0 end) = 0).
      { destruct c as [|[|c]]; auto; lia. }
      replace (match c with 1 => 1 | _ => 0 end) with 0 by (destruct c as [|[|c]]; auto; lia).
      split. { rewrite C1. destruct (bomb (length (clones h))); auto. }
      split; [|congruence]. rewrite C3. cbn. now rewrite C1.
  Qed.

  Lemma pop_ok (h : heap) s l O : sound h (olist (selems s) ++ O) -> shows h s l ->
    exists h' s' o, s_pop bomb h s = Ok (h', s', o)
      /\ sound h' (olist (selems s') ++ O) /\ frame O h h' /\ shows h' s' (tl l)
      /\ (o = Done (hd_error l) \/ o = Unwound /\ l <> [] /\ bomb (length (clones h)) = true /\ lead 1 h (selems s) = 0)
      /\ clones h' = (if lead 1 h (selems s) =? 0 then firstn 1 l else []) ++ clones h
      /\ length (cells h') = length (cells h).
  Proof.
    intros H [Hl D]. unfold s_pop. destruct (selems s) as [a|] eqn:Es.
    - destruct (unlink_ok h a l O H D) as (x & l' & h' & p & o & -> & E & I' & D' & F' & Ho & C' & L').
      cbn in Hl. rewrite usize_sub_ok by lia. cbn [bind]. rewrite E. cbn [bind].
      eexists _, _, _. split; [reflexivity|]. split; [exact I'|]. split; auto.
      split. { split; cbn; auto. lia. }
      split; [|split; auto]. destruct Ho as [->|(-> & B & L)]; auto. right. repeat split; auto. discriminate.
    - apply den_chain_none in D. subst. eexists _, _, _. split; [reflexivity|]. rewrite Es.
      split; auto. split; [apply frame_refl|]. split. { split; auto. rewrite Es. constructor. }
      split; auto. 
  Qed.

  (** ** clear, drop *)
  Lemma clear_loop_ok fuel : forall (h : heap) p l O, sound h (olist p ++ O) -> den h p (chain l) ->
    length l < fuel ->
    exists h', clear_loop fuel h p = Ok h' /\ sound h' O /\ frame O h h' /\ clones h' = clones h
      /\ length (cells h') = length (cells h).
  Proof.
    induction fuel as [|fuel IH]; intros h p l O H D Hf; [lia|]. cbn [clear_loop].
    destruct p as [a|].
    2:{ exists h. split; auto. split; auto. split; [apply frame_refl|auto]. }
    destruct (den_chain_some h a l D) as (x & l' & c & p & -> & G & Dp). rewrite G.
    destruct H as [W A]. pose proof (get_lt h a _ G) as L.
    destruct (Nat.eq_dec c 1) as [->|Hn].
    - cbn [nd_data rest nd_kids hd]. unfold drop_flat at 1. rewrite get_put_same by auto. cbn [rest nd_kids hd bind].
      assert (Ep : put (put h a (Some (1, Nd x [None]))) a None = put h a None).
      { unfold put. cbn. now rewrite upd_upd. }
      rewrite Ep. destruct (free_ok h a _ O W A G) as (W1 & A1 & F1 & Dk & G1). cbn [nd_kids] in *.
      rewrite olists_one in W1.
      destruct (IH (put h a None) p l' O) as (h' & E & I' & F' & C' & L').
      { split; auto. }
      { specialize (Dk _ (dens_one _ _ _ Dp)). inversion Dk; auto. }
      { cbn in Hf. lia. }
      exists h'. rewrite E. split; auto. split; auto. split; [eapply frame_trans; eauto|]. split; auto.
      rewrite L'. apply cells_put.
    - destruct (dec_ok h a c _ O W A G Hn) as (h' & E & W' & A' & S1 & S2 & L' & C' & _).
      exists h'. split.
      { unfold dec in E. unfold drop_flat. rewrite G in *. destruct c as [|[|c]]; try congruence. }
      split; [split; auto|]. split; [apply same_frame2; auto|auto].
  Qed.

  Lemma clear_ok (h : heap) s l O : sound h (olist (selems s) ++ O) -> shows h s l ->
    exists h', s_clear h s = Ok (h', s_new) /\ sound h' O /\ frame O h h' /\ clones h' = clones h
      /\ length (cells h') = length (cells h).
  Proof.
    intros H [Hl D]. unfold s_clear.
    destruct (clear_loop_ok (S (slen s)) h (selems s) l O H D) as (h' & E & R); [lia|].
    exists h'. rewrite E. auto.
  Qed.
  Lemma sdrop_ok (h : heap) s l O : sound h (olist (selems s) ++ O) -> shows h s l ->
    exists h', s_drop h s = Ok h' /\ sound h' O /\ frame O h h' /\ clones h' = clones h
      /\ length (cells h') = length (cells h).
  Proof.
    intros H S. destruct (clear_ok h s l O H S) as (h' & E & R). exists h'. unfold s_drop. rewrite E. auto.
  Qed.

  (** ** iterators *)
  Lemma it_next_ok (h : heap) p l : den h p (chain l) ->
    exists p', it_next h p = Ok (hd_error l, p') /\ den h p' (chain (tl l)).
  Proof.
    intros D. destruct p as [a|]; cbn [it_next].
    - destruct (den_chain_some h a l D) as (x & l' & c & p & -> & G & Dp). rewrite G. cbn. eauto.
    - apply den_chain_none in D. subst. exists None. split; auto. constructor.
  Qed.
  Lemma it_run_ok n : forall (h : heap) p l, den h p (chain l) -> it_run n h p = Ok (nexts n l).
  Proof.
    induction n as [|n IH]; intros h p l D; cbn [it_run nexts]; auto.
    destruct (it_next_ok h p l D) as (p' & E & D'). rewrite E. cbn [bind].
    rewrite (IH _ _ _ D'). cbn [bind]. destruct l; reflexivity.
  Qed.
  Lemma iter_ok (h : heap) s l n : shows h s l -> s_iter h s n = Ok (nexts n l).
  Proof. intros [_ D]. now apply it_run_ok. Qed.

  Lemma nexts_nil n : nexts (T := T) n [] = repeat None n.
  Proof. induction n; cbn; congruence. Qed.

  Definition copied (k m : nat) (l : list T) : list T := rev (skipn k (firstn m l)).

  Lemma im_run_ok fs : forall (h : heap) p l O, sound h (olist p ++ O) -> den h p (chain l) ->
    exists h' p' xs ok, im_run bomb fs h p = Ok (h', p', xs, ok)
      /\ sound h' (olist p' ++ O) /\ frame O h h'
      /\ if ok : bool then xs = nexts (length fs) l /\ den h' p' (chain (write fs l))
                     /\ clones h' = copied (lead (length l) h p) (length fs) l ++ clones h
         else exists n, n < length fs /\ n < length l /\ den h' p' (chain (write (firstn n fs) l))
                        /\ xs = nexts n l /\ exists b, bomb b = true.
  Proof.
    induction fs as [|f fs IH]; intros h p l O H D; cbn [im_run length].
    { exists h, p, [], true. split; auto. split; auto. split; [apply frame_refl|]. split; auto. split; auto.
      unfold copied. cbn [firstn]. now rewrite skipn_nil. }
    destruct p as [a|].
    - destruct (open_ok h a l O H D) as (x & l' & h1 & r & -> & E & R). rewrite E. cbn [bind].
      destruct r as [a1|].
      + destruct R as (h2 & p & E2 & I2 & D2 & F2 & G2 & L2 & Hg & C2). rewrite E2. cbn [bind nd_data rest nd_kids hd].
        destruct (IH h2 p l' O I2 D2) as (h3 & p3 & xs & ok & E3 & I3 & F3 & R3). rewrite E3. cbn [bind].
        eexists _, _, _, _. split; [reflexivity|].
        assert (Hgen : forall l3, den h3 p3 (chain l3) ->
           sound (give h3 a1 (Nd (f x) [p3])) (a1 :: O)
           /\ den (give h3 a1 (Nd (f x) [p3])) (Some a1) (chain (f x :: l3))
           /\ frame O h (give h3 a1 (Nd (f x) [p3]))
           /\ clones (give h3 a1 (Nd (f x) [p3])) = clones h3
           /\ length (cells (give h3 a1 (Nd (f x) [p3]))) = length (cells h3)).
        { intros l3 D3. exact (close_ok h h2 h3 a1 (f x) p3 l3 O F2 G2 L2 Hg I3 D3 F3). }
        destruct ok.
        * destruct R3 as (-> & D3 & C3). destruct (Hgen _ D3) as (I4 & D4 & F4 & C4 & _).
          split; [exact I4|]. split; [exact F4|]. split; [reflexivity|]. split; [exact D4|].
          rewrite C4, C3. cbn [length] in *.
          destruct (lead (S (length l')) h (Some a)) as [|k].
          -- destruct C2 as (-> & _ & _ & ->). unfold copied. cbn [firstn skipn rev]. rewrite <- app_assoc. reflexivity.
          -- destruct C2 as (-> & _ & _ & ->). unfold copied. cbn [firstn skipn]. reflexivity.
        * destruct R3 as (n & Hn & Hn2 & D3 & -> & B). destruct (Hgen _ D3) as (I4 & D4 & F4 & C4 & _).
          split; [exact I4|]. split; [exact F4|]. exists (S n). cbn [length firstn write nexts].
          split; [lia|]. split; [lia|]. split; [exact D4|]. auto.
      + destruct R as (I1 & D1 & F1 & B & _). eexists _, _, _, _. split; [reflexivity|].
        split; auto. split; auto. exists 0. cbn [length]. split; [lia|]. split; [lia|]. split; [exact D1|]. split; auto. eauto.
    - apply den_chain_none in D as ->.
      destruct (IH h None [] O H ltac:(constructor)) as (h3 & p3 & xs & ok & E3 & I3 & F3 & R3). rewrite E3. cbn [bind].
      eexists _, _, _, _. split; [reflexivity|]. split; auto. split; auto. destruct ok.
      + destruct R3 as (-> & D3 & C3). split; auto. split. { destruct fs; exact D3. }
        rewrite C3. unfold copied. rewrite !firstn_nil, !skipn_nil. reflexivity.
      + destruct R3 as (n & _ & Hn & _). cbn in Hn. lia.
  Qed.

  Lemma write_length fs : forall l : list T, length (write fs l) = length l.
  Proof. induction fs as [|f fs IH]; intros [|x l]; cbn; auto. Qed.

  Lemma iter_mut_ok (h : heap) s l fs O : sound h (olist (selems s) ++ O) -> shows h s l ->
    exists h' s' xs ok, s_iter_mut bomb h s fs = Ok (h', s', xs, ok)
      /\ sound h' (olist (selems s') ++ O) /\ frame O h h'
      /\ if ok : bool then xs = nexts (length fs) l /\ shows h' s' (write fs l)
                     /\ clones h' = copied (lead (length l) h (selems s)) (length fs) l ++ clones h
         else exists n, n < length fs /\ n < length l /\ shows h' s' (write (firstn n fs) l)
                        /\ xs = nexts n l /\ exists b, bomb b = true.
  Proof.
    intros H [Hl D]. unfold s_iter_mut.
    destruct (im_run_ok fs h (selems s) l O H D) as (h' & p' & xs & ok & E & I' & F' & R). rewrite E. cbn [bind].
    eexists _, _, _, _. split; [reflexivity|]. split; auto. split; auto. destruct ok.
    - destruct R as (-> & D' & C'). split; auto. split; auto. split; cbn; [|exact D']. now rewrite write_length.
    - destruct R as (n & Hn & Hn2 & D' & Hx & B). exists n. split; auto. split; auto. split; auto.
      split; cbn; [|exact D']. now rewrite write_length.
  Qed.

  (** ** remove *)
  Lemma rm_at_ok at_ : forall (h : heap) p l O, sound h (olist p ++ O) -> den h p (chain l) -> at_ < length l ->
    exists h' p' o, rm_at bomb at_ h p = Ok (h', p', o)
      /\ sound h' (olist p' ++ O) /\ frame O h h'
      /\ match o with
         | NotYet => den h' p' (chain l) /\ exists b, bomb b = true
         | Gone o' => den h' p' (chain (firstn at_ l ++ skipn (S at_) l))
                      /\ clones h' = copied (lead (length l) h p) (S at_) l ++ clones h
                      /\ match o' with
                         | Done x => nth_error l at_ = Some x
                         | IndexPanic => False
                         | Unwound => exists b, bomb b = true
                         end
         end.
  Proof.
    induction at_ as [|at_ IH]; intros h p l O H D Hat; cbn [rm_at]; destruct p as [a|].
    2,4: apply den_chain_none in D; subst; cbn in Hat; lia.
    - destruct (unlink_ok h a l O H D) as (x & l' & h' & p & o & -> & E & I' & D' & F' & Ho & C' & L').
      rewrite E. cbn [bind]. eexists _, _, _. split; [reflexivity|]. split; auto. split; auto.
      split; [exact D'|]. split.
      { rewrite C'. cbn [length]. cbn [lead]. destruct (get h a) as [[c nd]|]; auto.
        destruct c as [|[|c]]; cbn [Nat.eqb]; unfold copied; cbn [firstn skipn]; auto. now rewrite skipn_nil. }
      destruct Ho as [->|(-> & B & _)]; [reflexivity|eauto].
    - destruct (open_ok h a l O H D) as (x & l' & h1 & r & -> & E & R). rewrite E. cbn [bind].
      destruct r as [a1|].
      + destruct R as (h2 & p & E2 & I2 & D2 & F2 & G2 & L2 & Hg & C2). rewrite E2. cbn [bind nd_data rest nd_kids hd].
        cbn [length] in Hat.
        destruct (IH h2 p l' O I2 D2 ltac:(lia)) as (h3 & p3 & o & E3 & I3 & F3 & R3). rewrite E3. cbn [bind].
        eexists _, _, _. split; [reflexivity|].
        assert (Hgen : forall l3, den h3 p3 (chain l3) ->
           sound (give h3 a1 (Nd x [p3])) (a1 :: O)
           /\ den (give h3 a1 (Nd x [p3])) (Some a1) (chain (x :: l3))
           /\ frame O h (give h3 a1 (Nd x [p3]))
           /\ clones (give h3 a1 (Nd x [p3])) = clones h3
           /\ length (cells (give h3 a1 (Nd x [p3]))) = length (cells h3)).
        { intros l3 D3. exact (close_ok h h2 h3 a1 x p3 l3 O F2 G2 L2 Hg I3 D3 F3). }
        destruct o as [o'|].
        * destruct R3 as (D3 & C3 & R3). destruct (Hgen _ D3) as (I4 & D4 & F4 & C4 & _).
          split; [exact I4|]. split; [exact F4|]. split; [exact D4|]. split; [|exact R3].
          rewrite C4, C3. cbn [length] in *.
          destruct (lead (S (length l')) h (Some a)) as [|k].
          -- destruct C2 as (-> & _ & _ & ->). unfold copied. cbn [firstn skipn rev]. rewrite <- app_assoc. reflexivity.
          -- destruct C2 as (-> & _ & _ & ->). unfold copied. cbn [firstn skipn]. reflexivity.
        * destruct R3 as (D3 & B). destruct (Hgen _ D3) as (I4 & D4 & F4 & C4 & _).
          split; [exact I4|]. split; [exact F4|]. split; [exact D4|]. auto.
      + destruct R as (I1 & D1 & F1 & B & _). eexists _, _, _. split; [reflexivity|].
        split; auto. split; auto. split; [exact D1|]. eauto.
  Qed.

  Lemma removed_eq (l : list T) i : i < length l ->
    removed l i = firstn (length l - 1 - i) l ++ skipn (S (length l - 1 - i)) l.
  Proof.
    intros Hi. unfold removed. rewrite rev_app_distr, skipn_rev, firstn_rev, !rev_involutive.
    f_equal; f_equal; lia.
  Qed.
  Lemma nth_rev (l : list T) i : i < length l -> nth_error (rev l) i = nth_error l (length l - 1 - i).
  Proof.
    intros Hi. destruct l as [|d l0] eqn:El; [cbn in Hi; lia|]. rewrite <- El in *.
    rewrite (nth_error_nth' (rev l) d) by now rewrite rev_length.
    rewrite (nth_error_nth' l d) by lia. rewrite rev_nth by auto. do 2 f_equal. lia.
  Qed.

  Lemma remove_ok (h : heap) s l i O : sound h (olist (selems s) ++ O) -> shows h s l ->
    exists h' s' o, s_remove bomb h s i = Ok (h', s', o)
      /\ sound h' (olist (selems s') ++ O) /\ frame O h h'
      /\ match nth_error (rev l) i with
         | None => o = IndexPanic /\ h' = h /\ s' = s
         | Some x => shows h' s' (removed l i) /\ (o = Done x \/ o = Unwound /\ exists b, bomb b = true)
                     /\ clones h' = copied (lead (length l) h (selems s)) (length l - i) l ++ clones h
                     \/ shows h' s' l /\ o = Unwound /\ exists b, bomb b = true
         end.
  Proof.
    intros H [Hl D]. unfold s_remove. destruct (Nat.leb_spec (slen s) i) as [Hi|Hi].
    - eexists _, _, _. split; [reflexivity|]. split; auto. split; [apply frame_refl|].
      assert (nth_error (rev l) i = None) as ->. { apply nth_error_None. rewrite rev_length. lia. }
      auto.
    - rewrite usize_sub_ok by lia. cbn [bind]. rewrite usize_sub_ok by lia. cbn [bind]. rewrite Hl in *.
      destruct (rm_at_ok (length l - 1 - i) h (selems s) l O H D ltac:(lia)) as (h' & p' & o & E & I' & F' & R).
      rewrite E. cbn [bind]. rewrite nth_rev by lia.
      destruct o as [o'|].
      + destruct R as (D' & C' & R). eexists _, _, _. split; [reflexivity|]. split; auto. split; auto.
        destruct (nth_error l (length l - 1 - i)) as [x|] eqn:En.
        2:{ apply nth_error_None in En. lia. }
        left. split.
        { split; cbn [slen selems].
          - rewrite removed_eq by lia. rewrite app_length, firstn_length, skipn_length. lia.
          - rewrite removed_eq by lia. exact D'. }
        split. { destruct o' as [y| |]; [left; congruence|contradiction|auto]. }
        rewrite C'. replace (S (length l - 1 - i)) with (length l - i) by lia. reflexivity.
      + destruct R as (D' & B). eexists _, _, _. split; [reflexivity|]. split; auto. split; auto.
        destruct (nth_error l (length l - 1 - i)) as [x|] eqn:En.
        2:{ apply nth_error_None in En. lia. }
        right. split; auto. split; auto.
  Qed.

  (** ** split_off *)
  Lemma cut_ok at_ : forall (h : heap) p l O, sound h (olist p ++ O) -> den h p (chain l) -> at_ <= length l ->
    exists h' p' b, cut bomb at_ h p = Ok (h', p', b)
      /\ frame O h h'
      /\ match b with
         | None => sound h' (olist p' ++ O) /\ den h' p' (chain l) /\ exists b, bomb b = true
         | Some q => sound h' (olist p' ++ olist q ++ O)
                     /\ den h' p' (chain (firstn at_ l)) /\ den h' q (chain (skipn at_ l))
                     /\ clones h' = copied (lead (length l) h p) at_ l ++ clones h
         end.
  Proof.
    induction at_ as [|at_ IH]; intros h p l O H D Hat; cbn [cut].
    { eexists _, _, _. split; [reflexivity|]. split; [apply frame_refl|]. split; auto.
      split; [constructor|]. split; auto. unfold copied. cbn [firstn]. now rewrite skipn_nil. }
    destruct p as [a|].
    2: apply den_chain_none in D; subst; cbn in Hat; lia.
    destruct (open_ok h a l O H D) as (x & l' & h1 & r & -> & E & R). rewrite E. cbn [bind].
    destruct r as [a1|].
    + destruct R as (h2 & p & E2 & I2 & D2 & F2 & G2 & L2 & Hg & C2). rewrite E2. cbn [bind nd_data rest nd_kids hd].
      cbn [length] in Hat.
      destruct (IH h2 p l' O I2 D2 ltac:(lia)) as (h3 & p3 & b & E3 & F3 & R3). rewrite E3. cbn [bind].
      eexists _, _, _. split; [reflexivity|]. destruct b as [q|].
      * destruct R3 as (I3 & D3 & Dq & C3).
        assert (F3' : frame (olist q ++ O) h3 h3) by apply frame_refl.
        assert (G3 : get h3 a1 = None). { destruct F3 as (_ & B & _). auto. }
        assert (L3 : a1 < length (cells h3)). { destruct F3 as (_ & _ & C). lia. }
        destruct I3 as [W3 A3].
        destruct (give_ok h3 a1 x [p3] [chain (firstn at_ l')] (olist q ++ O)) as (W4 & A4 & D4 & G4 & S4 & L4); auto.
        { now rewrite olists_one. }
        { now apply dens_one. }
        split. { eapply take_give_frame; eauto. }
        split; [split; auto|]. split; [exact D4|]. split. { now apply (den_same _ _ S4). }
        cbn [clones give put]. change (clones (give h3 a1 (Nd x [p3]))) with (clones h3). rewrite C3.
        cbn [length] in *. destruct (lead (S (length l')) h (Some a)) as [|k].
        -- destruct C2 as (-> & _ & _ & ->). unfold copied. cbn [firstn skipn rev]. rewrite <- app_assoc. reflexivity.
        -- destruct C2 as (-> & _ & _ & ->). unfold copied. cbn [firstn skipn]. reflexivity.
      * destruct R3 as (I3 & D3 & B).
        destruct (close_ok h h2 h3 a1 x p3 l' O F2 G2 L2 Hg I3 D3 F3) as (I4 & D4 & F4 & C4 & _).
        split; [exact F4|]. split; [exact I4|]. split; [exact D4|]. auto.
    + destruct R as (I1 & D1 & F1 & B & _). eexists _, _, _. split; [reflexivity|].
      split; auto. split; auto. split; [exact D1|]. eauto.
  Qed.

  Lemma bottom_eq (l : list T) i : bottom l i = skipn (length l - i) l.
  Proof. unfold bottom. now rewrite firstn_rev, rev_involutive. Qed.
  Lemma above_eq (l : list T) i : above l i = firstn (length l - i) l.
  Proof. unfold above. now rewrite skipn_rev, rev_involutive. Qed.

  Lemma split_off_ok (h : heap) s l i O : sound h (olist (selems s) ++ O) -> shows h s l ->
    exists h' s' o, s_split_off bomb h s i = Ok (h', s', o)
      /\ frame O h h'
      /\ match o with
         | Done t => i <= length l /\ sound h' (olist (selems s') ++ olist (selems t) ++ O)
                     /\ shows h' s' (bottom l i) /\ shows h' t (above l i)
                     /\ clones h' = (if i =? 0 then [] else copied (lead (length l) h (selems s)) (length l - i) l) ++ clones h
         | IndexPanic => length l < i /\ h' = h /\ s' = s
         | Unwound => i <= length l /\ sound h' (olist (selems s') ++ O) /\ shows h' s' l /\ exists b, bomb b = true
         end.
  Proof.
    intros H [Hl D]. unfold s_split_off. rewrite Hl. destruct (Nat.ltb_spec (length l) i) as [Hi|Hi].
    { eexists _, _, _. split; [reflexivity|]. split; [apply frame_refl|]. auto. }
    destruct (Nat.eqb_spec i 0) as [->|H0].
    { eexists _, _, _. split; [reflexivity|]. split; [apply frame_refl|]. split; auto. split; auto.
      split. { rewrite bottom_eq, Nat.sub_0_r, skipn_all. split; auto. constructor. }
      split; auto. rewrite above_eq, Nat.sub_0_r, firstn_all. split; auto. }
    destruct (Nat.eqb_spec i (length l)) as [->|H1].
    { eexists _, _, _. split; [reflexivity|]. split; [apply frame_refl|]. split; auto. split; auto.
      rewrite bottom_eq, above_eq, Nat.sub_diag. split. { split; auto. }
      split. { split; auto. constructor. }
      unfold copied. cbn [firstn]. now rewrite skipn_nil. }
    rewrite usize_sub_ok by lia. cbn [bind]. rewrite usize_sub_ok by lia. cbn [bind].
    destruct (cut_ok (length l - i) h (selems s) l O H D ltac:(lia)) as (h' & p' & b & E & F' & R).
    rewrite E. cbn [bind]. destruct b as [q|].
    - destruct R as (I' & D1 & D2 & C'). eexists _, _, _. split; [reflexivity|]. split; auto. split; auto.
      cbn [selems]. split.
      { destruct I' as [W A]. split; auto. eapply wf_equiv; [|exact W]. intros x. rewrite !cnt_app. lia. }
      rewrite bottom_eq, above_eq. split; [split|split; [split|exact C']]; cbn [slen selems]; auto.
      + rewrite skipn_length. lia.
      + rewrite firstn_length. lia.
    - destruct R as (I' & D' & B). eexists _, _, _. split; [reflexivity|]. split; auto. split; auto. split; auto.
      split; auto. split; auto.
  Qed.

  (** ** comparisons *)
  Lemma it_any_ok f fuel : forall (h : heap) p l, den h p (chain l) -> length l < fuel ->
    it_any fuel h p f = Ok (existsb f l).
  Proof.
    induction fuel as [|fuel IH]; intros h p l D Hf; [lia|]. cbn [it_any].
    destruct (it_next_ok h p l D) as (p' & E & D'). rewrite E. cbn [bind].
    destruct l as [|x l]; cbn [hd_error existsb]; auto. cbn in D', Hf. destruct (f x); cbn; auto. apply IH; auto. lia.
  Qed.
  Lemma contains_ok eqb (h : heap) s l x : shows h s l -> s_contains eqb h s x = Ok (existsb (eqb x) l).
  Proof. intros [Hl D]. apply it_any_ok; auto. lia. Qed.

  Lemma zip_all_ok f fuel : forall (h : heap) p q l r, den h p (chain l) -> den h q (chain r) ->
    length l < fuel -> length l = length r -> zip_all fuel h p q f = Ok (leqb f l r).
  Proof.
    induction fuel as [|fuel IH]; intros h p q l r D Dr Hf He; [lia|]. cbn [zip_all].
    destruct (it_next_ok h p l D) as (p' & E & D'). rewrite E. cbn [bind].
    destruct (it_next_ok h q r Dr) as (q' & E' & Dr').
    destruct l as [|x l], r as [|y r]; cbn in He; try lia; cbn [hd_error leqb]; auto.
    rewrite E'. cbn [bind hd_error]. cbn in *. destruct (f x y); cbn; auto. apply IH; auto; lia.
  Qed.
  Lemma leqb_length f (l r : list T) : length l <> length r -> leqb f l r = false.
  Proof.
    revert r. induction l as [|x l IH]; intros [|y r] H; cbn in *; auto; [lia|].
    rewrite IH by lia. apply andb_false_r.
  Qed.
  Lemma eq_ok eqb (h : heap) s t l r : shows h s l -> shows h t r -> s_eq eqb h s t = Ok (leqb eqb l r).
  Proof.
    intros [Hl D] [Hr Dr]. unfold s_eq. rewrite Hl, Hr. destruct (Nat.eqb_spec (length l) (length r)) as [He|He].
    - apply zip_all_ok; auto.
    - now rewrite leqb_length.
  Qed.
  Lemma c_loop_ok c fuel : forall (h : heap) p q l r, den h p (chain l) -> den h q (chain r) ->
    length l < fuel -> c_loop fuel c h p q = Ok (lcmp c l r).
  Proof.
    induction fuel as [|fuel IH]; intros h p q l r D Dr Hf; [lia|]. cbn [c_loop].
    destruct (it_next_ok h p l D) as (p' & E & D'). rewrite E. cbn [bind].
    destruct (it_next_ok h q r Dr) as (q' & E' & Dr').
    destruct l as [|x l]; cbn [hd_error lcmp]; rewrite E'; cbn [bind].
    - destruct r; reflexivity.
    - destruct r as [|y r]; cbn [hd_error]; auto. cbn in *. destruct (c x y); auto. apply IH; auto. lia.
  Qed.
  Lemma cmp_ok c (h : heap) s t l r : shows h s l -> shows h t r -> s_cmp c h s t = Ok (lcmp c l r).
  Proof. intros [Hl D] [Hr Dr]. apply c_loop_ok; auto. lia. Qed.

  Fixpoint lpcmp (pc : T -> T -> option comparison) (l r : list T) : option comparison :=
    match l, r with
    | [], [] => Some Eq
    | [], _ :: _ => Some Lt
    | _ :: _, [] => Some Gt
    | x :: l', y :: r' => match pc x y with Some Eq => lpcmp pc l' r' | o => o end
    end.
  Lemma pc_loop_ok c fuel : forall (h : heap) p q l r, den h p (chain l) -> den h q (chain r) ->
    length l < fuel -> pc_loop fuel c h p q = Ok (lpcmp c l r).
  Proof.
    induction fuel as [|fuel IH]; intros h p q l r D Dr Hf; [lia|]. cbn [pc_loop].
    destruct (it_next_ok h p l D) as (p' & E & D'). rewrite E. cbn [bind].
    destruct (it_next_ok h q r Dr) as (q' & E' & Dr'). rewrite E'. cbn [bind].
    destruct l as [|x l], r as [|y r]; cbn [hd_error lpcmp]; auto.
    cbn in *. destruct (c x y) as [[| |]|]; auto. apply IH; auto. lia.
  Qed.
  Lemma partial_cmp_ok c (h : heap) s t l r : shows h s l -> shows h t r ->
    s_partial_cmp c h s t = Ok (lpcmp c l r).
  Proof. intros [Hl D] [Hr Dr]. apply pc_loop_ok; auto. lia. Qed.

  Lemma lcmp_laws c : order_laws c -> order_laws (lcmp (T := T) c).
  Proof.
    intros L. split.
    - intros x. induction x as [|a x IH]; intros [|b y]; cbn; auto.
      rewrite (cmp_opp _ L a b). destruct (c a b); cbn; auto.
    - intros x. induction x as [|a x IH]; intros [|b y] [|d z] H1 H2; cbn in *; auto; try discriminate.
      destruct (c a b) eqn:E1; try discriminate.
      + rewrite (cmp_eq_l _ L a b d E1). destruct (c b d); auto. eauto.
      + destruct (c b d) eqn:E2; try discriminate.
        * rewrite (cmp_lt_eq L a b d E1 E2). reflexivity.
        * now rewrite (cmp_lt_trans _ L a b d E1 E2).
    - intros x. induction x as [|a x IH]; intros [|b y] [|d z] H1; cbn in *; auto; try discriminate.
      destruct (c a b) eqn:E1; try discriminate.
      rewrite (cmp_eq_l _ L a b d E1). destruct (c b d); auto.
  Qed.
  Lemma lcmp_leqb c eqb (l r : list T) : (forall x y, eqb x y = true <-> c x y = Eq) ->
    (leqb eqb l r = true <-> lcmp c l r = Eq).
  Proof.
    intros He. revert r. induction l as [|x l IH]; intros [|y r]; cbn; try (split; congruence).
    specialize (He x y). rewrite andb_true_iff, He, IH. destruct (c x y); split; intros H; try tauto; try discriminate;
      destruct H; discriminate.
  Qed.

  (** ** extend *)
  Lemma extend_ok vs : forall (h : heap) s l O, sound h (olist (selems s) ++ O) -> shows h s l ->
    exists h' s', s_extend h s vs = (h', s')
      /\ sound h' (olist (selems s') ++ O) /\ shows h' s' (rev vs ++ l) /\ frame O h h'
      /\ clones h' = clones h /\ length (cells h') = length vs + length (cells h).
  Proof.
    induction vs as [|v vs IH]; intros h s l O H S; cbn [s_extend].
    - exists h, s. split; auto. split; auto. split; auto. split; [apply frame_refl|auto].
    - destruct (push_ok h s l v O H S) as (h1 & s1 & E1 & I1 & S1 & F1 & C1 & L1). rewrite E1.
      destruct (IH h1 s1 (v :: l) O I1 S1) as (h2 & s2 & E2 & I2 & S2 & F2 & C2 & L2).
      exists h2, s2. split; auto. split; auto. split. { cbn. now rewrite <- app_assoc. }
      split; [eapply frame_trans; eauto|]. split; [congruence|]. cbn. lia.
  Qed.

  (** ** into_iter *)
  Lemma into_run_ok n : forall (h : heap) s l O, sound h (olist (selems s) ++ O) -> shows h s l ->
    exists h' xs ok, into_run bomb n h s = Ok (h', xs, ok)
      /\ sound h' O /\ frame O h h'
      /\ if ok : bool then xs = nexts n l
                    /\ clones h' = copied (lead (length l) h (selems s)) n l ++ clones h
         else l <> [] /\ exists b, bomb b = true.
  Proof.
    induction n as [|n IH]; intros h s l O H S; cbn [into_run].
    - destruct (sdrop_ok h s l O H S) as (h' & E & I' & F' & C' & _). rewrite E. cbn [bind].
      eexists _, _, _. split; [reflexivity|]. split; auto. split; auto. split; auto.
      unfold copied. cbn [firstn]. now rewrite skipn_nil.
    - destruct (pop_ok h s l O H S) as (h1 & s1 & o & E1 & I1 & F1 & S1 & Ho & C1 & L1). rewrite E1. cbn [bind].
      destruct Ho as [->|(-> & Hl & B & _)].
      + destruct (IH h1 s1 (tl l) O I1 S1) as (h2 & xs & ok & E2 & I2 & F2 & R). rewrite E2. cbn [bind].
        eexists _, _, _. split; [reflexivity|]. split; auto. split; [eapply frame_trans; eauto|].
        destruct ok.
        * destruct R as [-> C2]. split. { destruct l; reflexivity. }
          rewrite C2, C1. destruct S as [Hl D].
          destruct l as [|x l].
          { apply den_chain_nil in D. unfold copied. rewrite D. cbn [tl length]. rewrite !firstn_nil, !skipn_nil. reflexivity. }
          cbn [tl length firstn]. cbn in S1.
          (* the sharing seen after the pop *)
          assert (Hk : match lead (length (x :: l)) h (selems s) with
                       | 0 => lead 1 h (selems s) = 0 /\ lead (length l) h1 (selems s1) = 0
                       | S k => lead 1 h (selems s) = 1 /\ lead (length l) h1 (selems s1) = k
                       end).
          { destruct (selems s) as [a|] eqn:Es; [|inversion D].
            destruct (den_chain_some h a _ D) as (x0 & l0 & c & p & E0 & G & Dp). injection E0 as <- <-.
            assert (Hc : 1 <= c). { destruct H as [W _]. pose proof (W a) as Wa. rewrite G in Wa. lia. }
            unfold s_pop in E1. rewrite Es in E1. cbn in Hl. rewrite usize_sub_ok in E1 by lia. cbn [bind] in E1.
            unfold unlink in E1. rewrite G in E1.
            cbn [lead length]. rewrite G. destruct (Nat.eq_dec c 1) as [->|Hn].
            - split; auto. unfold take in E1. rewrite G in E1. cbn [bind rest nd_kids hd nd_data] in E1.
              injection E1 as <- <-. cbn [selems rest nd_kids hd].
              eapply lead_taken with (a := a) (O := O); eauto.
              + destruct H as [W _]. exact W.
              + intros b Hb. apply get_put_other; auto.
              + intros y Hy. eapply ptrs_in; [exact G|]. cbn. rewrite app_nil_r. auto.
            - assert (E1' : (h3 <- inc h p;; h4 <- dec (log h3 x) a;;
                 Ok (h4, Stk (slen s - 1) p)) = Ok (h1, s1)).
              { destruct c as [|[|c]]; try lia. cbn [rest nd_kids hd nd_data] in E1.
                destruct (inc h p) as [h3|]; cbn in *; [|discriminate].
                destruct (dec (log h3 x) a) as [h4|]; cbn in *; [|discriminate].
                injection E1 as <- <- _. reflexivity. }
              assert (Hz : forall A (u v : A), match c with 1 => u | _ => v end = v) by (intros; destruct c as [|[|c]]; auto; lia).
              rewrite !Hz. split; auto.
              destruct (inc h p) as [h3|] eqn:E3; cbn in E1'; [|discriminate].
              destruct (dec (log h3 x) a) as [h4|] eqn:E4; cbn in E1'; [|discriminate]. injection E1' as -> <-.
              cbn [selems] in *. destruct p as [b|]; [|destruct (length l); auto].
              destruct (length l) as [|m]; auto. cbn [lead].
              destruct I1 as [W1 _]. pose proof (W1 b) as Wb.
              destruct (get h1 b) as [[cb nb]|]; auto. destruct cb as [|[|cb]]; auto. exfalso.
              destruct Wb as [Wb _]. cbn [selems olist app] in Wb. rewrite cnt_cons, cnt_app in Wb.
              destruct (Nat.eq_dec b b); [|congruence].
              assert (1 <= cnt b (ptrs h1)); [|lia].
              apply cnt_in.
              assert (exists c', get h1 a = Some (c', Nd x [Some b])) as [c' G1].
              { cbn in E3. destruct (get h b) as [[cb' nb']|] eqn:Gb; [|discriminate]. injection E3 as <-.
                unfold dec in E4. rewrite get_log in E4. pose proof (get_lt _ _ _ Gb) as Lb.
                rewrite get_put in E4 by auto. destruct (Nat.eq_dec b a) as [<-|Hba].
                - rewrite Gb in G. injection G as -> ->.
                  destruct c as [|c]; try lia. injection E4 as <-. eexists. rewrite get_put_same; eauto.
                  cbn. rewrite upd_length. exact Lb.
                - rewrite G in E4. destruct c as [|[|c]]; try lia. injection E4 as <-. eexists. rewrite get_put_same; eauto.
                  cbn. rewrite upd_length. eapply get_lt; eauto. }
              eapply ptrs_in; [exact G1|]. cbn. auto. }
          cbn [length] in Hk.
          destruct (lead (S (length l)) h (selems s)) as [|k]; destruct Hk as [-> ->]; unfold copied;
            cbn [firstn skipn rev Nat.eqb app]; auto. rewrite <- app_assoc. reflexivity.
        * destruct R as (Hn & B). split; auto. destruct l; auto. discriminate.
      + destruct (sdrop_ok h1 s1 (tl l) O I1 S1) as (h' & E & I' & F' & C' & _). rewrite E. cbn [bind].
        eexists _, _, _. split; [reflexivity|]. split; auto. split; [eapply frame_trans; eauto|]. eauto.
  Qed.
End StackProofs.
