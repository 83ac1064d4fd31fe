(** Proofs about [iter_mut] of the array-based B-tree map: positions and writes are those of the
    list-based tree that it represents. *)
From Coq Require Import List PeanoNat Bool Lia Permutation.
From Verif Require Import Base Spec MapSpec SpecFacts Vec BTreeModel BTreeProofs BTreeProofs2 BTreeIterModel BTreeMutProofs.
From Verif Require Import FixedModel FixedIterModel FixedSpec FixedProofs FixedProofs4 FixedShows FixedIterProofs FixedIterShows.
Import ListNotations.

Section Pos.
  Context {K V : Type}.
  Notation bt := (bt K V).
  Notation fnode := (fnode K V).

  Lemma repr_ind2 (P : fnode -> bt -> Prop) :
    (forall e es, elems_are e es -> P (FNode e None) (BN es [])) ->
    (forall e d es ns ks, elems_are e es -> kids_are d ns -> Forall2 repr ns ks -> Forall2 P ns ks -> ks <> [] ->
       P (FNode e (Some d)) (BN es ks)) ->
    forall n t, repr n t -> P n t.
  Proof.
    intros H1 H2. fix IH 3. intros n t R. destruct R as [e es He|e d es ns ks He Hd F Hn].
    - now apply H1.
    - apply (H2 e d es ns ks); auto. clear -IH F. induction F; constructor; auto.
  Qed.

  Lemma slots_pos_len p s : forall i, length (slots_pos (K := K) p i s) = length s.
  Proof. induction s; intros i; cbn [slots_pos length]; auto. Qed.
  Lemma slots_pos_app p s r : forall i, slots_pos (K := K) p i (s ++ r) = slots_pos p i s ++ slots_pos p (i + length s) r.
  Proof.
    induction s as [|o s IH]; intros i; cbn [app slots_pos length].
    - now rewrite Nat.add_0_r.
    - rewrite IH. now replace (S i + length s) with (i + S (length s)) by lia.
  Qed.
  Lemma slots_pos_some p (es : list (K * V)) : forall i,
    slots_pos p i (map Some (map fst es)) = map Some (map fst (mapi_from i (pos_of p) es)).
  Proof. induction es as [|e es IH]; intros i; cbn [map slots_pos mapi_from]; auto. now rewrite IH. Qed.
  Lemma vals_pos p (es : list (K * V)) : forall i, map snd (mapi_from i (pos_of p) es) = map snd es.
  Proof. induction es as [|e es IH]; intros i; cbn [map mapi_from]; auto. now rewrite IH. Qed.

  Lemma elems_pos p (e : elems K V) es : elems_are e es ->
    elems_are (Elems (slots_pos p 0 (el_keys e)) (el_vals e) (el_len e)) (mapi_from 0 (pos_of p) es).
  Proof.
    intros ((L & j & E) & Hv & Hl). split; [|split]; cbn [el_keys el_vals el_len].
    - split; [now rewrite slots_pos_len|]. rewrite E, slots_pos_app, slots_pos_some. eauto.
    - now rewrite vals_pos.
    - now rewrite mapi_length.
  Qed.

  Fixpoint kids_pos (p : list nat) (i : nat) (ps : list (option fnode)) : list (option (FixedModel.fnode (@fref K) V)) :=
    match ps with
    | [] => []
    | o :: ps' => match o with Some c => Some (fn_pos (p ++ [i]) c) | None => None end :: kids_pos p (S i) ps'
    end.
  Lemma fn_pos_eq p (e : elems K V) ps len : fn_pos p (FNode e (Some (Kids ps len))) =
    FNode (Elems (slots_pos p 0 (el_keys e)) (el_vals e) (el_len e)) (Some (Kids (kids_pos p 0 ps) len)).
  Proof.
    cbn [fn_pos]. do 3 f_equal. generalize 0. induction ps as [|o ps IH]; intros i; cbn [kids_pos]; auto. now rewrite IH.
  Qed.
  Lemma kids_pos_len p ps : forall i, length (kids_pos p i ps) = length ps.
  Proof. induction ps; intros i; cbn [kids_pos length]; auto. Qed.
  Lemma kids_pos_app p s r : forall i, kids_pos p i (s ++ r) = kids_pos p i s ++ kids_pos p (i + length s) r.
  Proof.
    induction s as [|o s IH]; intros i; cbn [app kids_pos length].
    - now rewrite Nat.add_0_r.
    - rewrite IH. now replace (S i + length s) with (i + S (length s)) by lia.
  Qed.
  Lemma kids_pos_some p (ns : list fnode) : forall i,
    kids_pos p i (map Some ns) = map Some (mapi_from i (fun i c => fn_pos (p ++ [i]) c) ns).
  Proof. induction ns as [|c ns IH]; intros i; cbn [map kids_pos mapi_from]; auto. now rewrite IH. Qed.

  Lemma repr_pos (n : fnode) (t : bt) : repr n t -> forall p, repr (fn_pos p n) (with_pos p t).
  Proof.
    revert n t. apply (repr_ind2 (fun n t => forall p, repr (fn_pos p n) (with_pos p t))); [intros e es He p|intros e d es ns ks He Hd F IH Hn p]; rewrite with_pos_eq.
    - cbn [fn_pos mapi_from]. constructor. now apply elems_pos.
    - destruct d as [ps len]. rewrite fn_pos_eq. destruct Hd as [(L & j & E) Hl]. cbn [kd_ptrs kd_len] in *.
      apply (repr_branch _ _ _ (mapi_from 0 (fun i c => fn_pos (p ++ [i]) c) ns)).
      + now apply elems_pos.
      + split; cbn [kd_ptrs kd_len]; [|now rewrite mapi_length]. split; [now rewrite kids_pos_len|].
        rewrite E, kids_pos_app, kids_pos_some. eauto.
      + clear -IH. generalize 0. induction IH as [|n t ns ks H F IH]; intros i; cbn [mapi_from]; constructor; auto.
      + now destruct ks.
  Qed.

  Lemma frep_pos (m : f_map K V) a : frep m a -> frep (fm_pos m) (map_pos a).
  Proof.
    intros [L R]. split; [exact L|]. unfold fm_pos, map_pos. cbn [fm_root bm_root].
    destruct (fm_root m), (bm_root a); cbn [option_map]; auto. now apply repr_pos.
  Qed.

  Lemma set_val (vs : list (option V)) es i (e : K * V) w : arr MAX_OCCUPANCY vs (map snd es) -> nth_error es i = Some e ->
    arr MAX_OCCUPANCY (set_at i (Some (w (snd e))) vs) (map snd (set_at i (fst e, w (snd e)) es)).
  Proof.
    intros H E. apply nth_cut in E as (l1 & l2 & -> & L). rewrite set_at_mid by auto.
    rewrite map_app in *. cbn [map] in *. eapply set_arr; eauto. now rewrite map_length.
  Qed.

  Lemma repr_write (n : fnode) (t : bt) : repr n t -> forall p i w, repr (fn_write p i w n) (n_write p i w t).
  Proof.
    revert n t. apply (repr_ind2 (fun n t => forall p i w, repr (fn_write p i w n) (n_write p i w t)));
      [intros e es He p i w|intros e d es ns ks He Hd F IH Hn p i w].
    - destruct p as [|j p]; cbn [fn_write n_write].
      + destruct He as (Hk & Hv & Hl). destruct (nth_error es i) as [x|] eqn:E.
        * pose proof (set_val _ _ _ _ w Hv E) as Hs. destruct Hv as (L & j & Ev). rewrite Ev.
          rewrite nth_error_app1 by (rewrite !map_length; apply nth_error_Some; congruence).
          rewrite !nth_error_map, E. cbn [option_map]. rewrite <- Ev. constructor. split; [|split]; cbn [el_keys el_vals el_len]; auto.
          -- rewrite upd_set_at, upd_keys by auto. exact Hk.
          -- now rewrite set_at_length.
        * destruct (nth_error (el_vals e) i) as [[v|]|] eqn:Ev; try (constructor; split; [|split]; auto; fail).
          constructor. split; [|split]; cbn [el_keys el_vals el_len]; auto.
          destruct Hv as (L & j & Evs). split; [now rewrite set_at_length|].
          apply nth_error_None in E. rewrite Evs in Ev |- *. rewrite nth_error_app2 in Ev by (now rewrite !map_length).
          apply nth_cut in Ev as (j1 & j2 & -> & Lj). rewrite app_assoc. rewrite set_at_mid.
          -- rewrite <- app_assoc. eauto.
          -- rewrite app_length, Lj, !map_length. lia.
      + cbn [on_kids fchild]. destruct (nth_error (map _ []) j) eqn:X; [destruct j; discriminate|]. constructor. auto.
    - destruct p as [|j p]; cbn [fn_write n_write].
      + destruct He as (Hk & Hv & Hl). destruct (nth_error es i) as [x|] eqn:E.
        * pose proof (set_val _ _ _ _ w Hv E) as Hs. destruct Hv as (L & j & Ev). rewrite Ev.
          rewrite nth_error_app1 by (rewrite !map_length; apply nth_error_Some; congruence).
          rewrite !nth_error_map, E. cbn [option_map]. rewrite <- Ev. econstructor; eauto. split; [|split]; cbn [el_keys el_vals el_len]; auto.
          -- rewrite upd_set_at, upd_keys by auto. exact Hk.
          -- now rewrite set_at_length.
        * destruct (nth_error (el_vals e) i) as [[v|]|] eqn:Ev; try (econstructor; eauto; split; [|split]; auto; fail).
          econstructor; eauto. split; [|split]; cbn [el_keys el_vals el_len]; auto.
          destruct Hv as (L & j & Evs). split; [now rewrite set_at_length|].
          apply nth_error_None in E. rewrite Evs in Ev |- *. rewrite nth_error_app2 in Ev by (now rewrite !map_length).
          apply nth_cut in Ev as (j1 & j2 & -> & Lj). rewrite app_assoc. rewrite set_at_mid.
          -- rewrite <- app_assoc. eauto.
          -- rewrite app_length, Lj, !map_length. lia.
      + rewrite (fchild_map (fn_write p i w) d ns j Hd (ns_nonempty _ _ F Hn)). rewrite !nth_error_map.
        destruct (nth_error ks j) as [t|] eqn:E; cbn [option_map].
        * apply nth_cut in E as (k1 & k2 & -> & L).
          pose proof IH as IH'. apply Forall2_cut_r in IH' as (n1 & n & n2 & -> & _ & Hr & _ & Ln).
          rewrite nth_mid by lia. cbn [option_map].
          destruct (fput_rep d k1 t k2 j (fn_write p i w n) (n_write p i w t)) as (d' & Ed & Hd'); auto.
          { eexists; eauto. }
          rewrite Ed. rewrite set_at_mid by auto. apply repr_iff. split; auto. split; [now destruct k1|auto].
        * destruct (nth_error ns j) eqn:En.
          { exfalso. apply nth_error_None in E. rewrite <- (Forall2_len _ _ _ F) in E. apply nth_error_None in E. congruence. }
          cbn [option_map]. econstructor; eauto.
  Qed.

  Lemma frep_write (m : f_map K V) a r w : frep m a -> frep (f_write r w m) (b_write r w a).
  Proof.
    intros [L R]. split; [exact L|]. unfold f_write, b_write. cbn [fm_root bm_root].
    destruct (fm_root m), (bm_root a); cbn [option_map]; auto. now apply repr_write.
  Qed.
End Pos.

Section IterMut.
  Context {K V Q : Type} (bor : K -> Q) (cmp : Q -> Q -> comparison).
  Notation f_shows := (@f_shows K V Q bor cmp).
  Notation fref := (@fref K).

  Lemma frep_writes (refs : list (fref * V)) ws : forall m a, frep m a -> frep (f_writes refs ws m) (writes refs ws a).
  Proof.
    induction ws as [|[i w] ws IH]; intros m a R; cbn [f_writes writes fold_left]; auto. cbn [fst snd].
    fold (f_writes refs ws) (writes refs ws). apply IH. clear IH. unfold bref, bpath, FixedIterModel.fref in *. destruct (nth_error refs i); auto. now apply frep_write.
  Qed.

  Lemma f_iter_mut_l m l : f_shows m l ->
    exists refs : list (fref * V), map f_shown refs = l
      /\ (forall n, runs borrowed (fixed_iter_mut m) (repeat Front n) (s_ends (repeat Front n) refs))
      /\ (forall cs, exists p, Permutation p refs
            /\ runs borrowed (fixed_iter_mut m) cs (s_ends (repeat Front (length cs)) p))
      /\ forall ws, f_shows (f_writes refs ws m) (fold_left (fun l iw => upd_nth (fst iw) (snd iw) l) ws l).
  Proof.
    intros H. apply f_shows_is in H. destruct H as (a & R & Hv & <-).
    destruct (map_pos_ok bor cmp MIN_OCCUPANCY a Hv) as [Hm Hc].
    assert (Hp : FixedSpec.f_shows (fun r : fref => bor (snd r)) cmp (fm_pos m) (contents (map_pos a))).
    { apply f_shows_is. exists (map_pos a). split; [now apply frep_pos|]. auto. }
    exists (contents (map_pos a)). split; [exact Hc|]. split; [|split].
    - intros n. apply (iter_front (fun r : fref => bor (snd r)) cmp); auto. apply Forall_forall. intros c Hc'. now apply repeat_spec in Hc'.
    - intros cs. destruct (proj1 (iter_any (fun r : fref => bor (snd r)) cmp _ _ cs Hp)) as (p & P & Hr). exists p. split; auto.
      assert (E : repeat Front (length cs) = map (fun _ => Front) cs) by (clear; induction cs; cbn; congruence). now rewrite E.
    - intros ws. apply f_shows_is. destruct (writes_ok bor cmp MIN_OCCUPANCY (contents (map_pos a)) ws a Hv eq_refl) as (W1 & W2 & _).
      eexists. split; [apply frep_writes; exact R|]. auto.
  Qed.
End IterMut.
