(** [range] and [range_mut] of the AVL map with any comparison function. *)
From Coq Require Import List ZArith Bool Lia.
From Verif Require Import Base Spec MapSpec SpecFacts AvlModel AvlProofs AvlMapProofs AvlIterModel AvlIterProofs AvlHeapSpec AvlHeapProofs
  AnyOrdSpec AnyHeapSpec AvlAnyProofs.
From Verif Require BTreeHeapProofs.
Import ListNotations.
Local Open Scope nat_scope.

Section AnyRange.
  Context {N I : Type} (destr : N -> option N * I * option N) (nsize : N -> nat) (flat : N -> list I).
  Context (Hflat : forall n, let '(l, i, r) := destr n in flat n = oflat flat l ++ i :: oflat flat r).
  Context (Hsize : forall n, let '(l, _, r) := destr n in (osize nsize l + osize nsize r < nsize n)%nat).
  Context {Q : Type} (ikey : I -> Q) (cmp : Q -> Q -> comparison) (lb ub : bound Q).
  Notation work := (list (action N I)).
  Notation den := (den flat).
  Notation wsize := (wsize nsize).
  Notation exp_ := (expand destr ikey cmp lb ub).
  Notation inn i := (contains cmp lb ub (ikey i) = true).

  Notation mid i := (prune_lf cmp lb (ikey i) = false /\ prune_rt cmp ub (ikey i) = false /\ inn i).
  Notation all_mid l := (forall i, In i l -> mid i).
  Lemma expand_all n : all_mid (flat n) -> den (exp_ n) = flat n.
  Proof.
    unfold expand. pose proof (Hflat n) as F. destruct (destr n) as [[l i] r]. rewrite F. intros H.
    destruct (H i) as (-> & -> & ->); [apply in_or_app; right; now left|]. rewrite !den_app, !den_odesc. reflexivity.
  Qed.

  (** The items on the list itself have been told to be in the range. *)
  Definition rets (w : work) : Prop := forall i, In (Return i) w -> inn i.

  Lemma expand_any n : wsize (exp_ n) < nsize n /\ sub (den (exp_ n)) (flat n) /\ rets (exp_ n).
  Proof.
    unfold expand. pose proof (Hflat n) as F. pose proof (Hsize n) as S. destruct (destr n) as [[l i] r].
    rewrite F. split; [|split].
    - rewrite !wsize_app. assert (A : forall (b : bool) o, wsize (if b then [] else odesc o : work) <= osize nsize o).
      { intros [] o; rewrite ?wsize_odesc; cbn; lia. }
      pose proof (A (prune_lf cmp lb (ikey i)) l). pose proof (A (prune_rt cmp ub (ikey i)) r).
      assert (wsize (if contains cmp lb ub (ikey i) then [Return i] else [] : work) = 0) by now destruct (contains _ _ _ _).
      lia.
    - rewrite !den_app. assert (A : forall (b : bool) o, sub (den (if b then [] else odesc o : work)) (oflat flat o)).
      { intros [] o; [apply sub_nil_l|rewrite den_odesc; apply sub_refl]. }
      apply sub_app; [apply A|]. change (i :: oflat flat r) with ([i] ++ oflat flat r). apply sub_app; [|apply A].
      destruct (contains _ _ _ _); cbn; [apply sub_refl|apply sub_nil_l].
    - intros x Hx. apply in_app_or in Hx as [Hx|Hx]; [|apply in_app_or in Hx as [Hx|Hx]].
      + exfalso. destruct (prune_lf _ _ _); [easy|]. destruct l; cbn in Hx; intuition discriminate.
      + destruct (contains cmp lb ub (ikey i)) eqn:C; [|easy]. destruct Hx as [[= <-]|[]]. exact C.
      + exfalso. destruct (prune_rt _ _ _); [easy|]. destruct r; cbn in Hx; intuition discriminate.
  Qed.

  Lemma prune_front_any fuel : forall w, wsize w < fuel -> rets w ->
    exists w', prune_front destr ikey cmp lb ub fuel w = Ok w' /\ sub (den w') (den w) /\ rets w'
      /\ (forall n w'', w' <> Descend n :: w'') /\ (all_mid (den w) -> den w' = den w).
  Proof.
    induction fuel as [|fuel IH]; intros w Hf R; [lia|]. cbn [prune_front]. destruct w as [|[n|i] w].
    - exists []. split; auto. split; [constructor|]. split; auto. split; [discriminate|auto].
    - destruct (expand_any n) as (S1 & S2 & S3). destruct (IH (exp_ n ++ w)) as (w' & E & D & R' & X & Al).
      + rewrite wsize_app. rewrite wsize_cons in Hf. cbn [asize] in Hf. lia.
      + intros i Hi. apply in_app_or in Hi as [Hi|Hi]; [auto|]. apply R. now right.
      + exists w'. split; auto. split; [eapply BTreeHeapProofs.sub_trans; [exact D|]|].
        { rewrite den_app. cbn [AvlIterProofs.den flat_map aden]. apply sub_app; [exact S2|apply sub_refl]. }
        split; auto. split; auto. intros M. change (den (Descend n :: w)) with (flat n ++ den w) in *.
        rewrite den_app in Al. rewrite expand_all in Al; auto. intros i Hi. apply M, in_or_app. auto.
    - exists (Return i :: w). split; auto. split; [apply sub_refl|]. split; auto. split; [discriminate|auto].
  Qed.
  Lemma prune_back_any fuel : forall w, wsize w < fuel -> rets w -> (forall n w'', w <> Descend n :: w'') ->
    exists w', prune_back destr ikey cmp lb ub fuel w = Ok w' /\ sub (den w') (den w) /\ rets w'
      /\ (forall n w'', w' <> Descend n :: w'') /\ (forall n w'', w' <> w'' ++ [Descend n])
      /\ (all_mid (den w) -> den w' = den w).
  Proof.
    induction fuel as [|fuel IH]; intros w Hf R Nd; [lia|]. cbn [prune_back].
    destruct (rev_cases w) as [->|(w0 & [n|i] & ->)].
    - exists []. split; auto. split; [constructor|]. split; auto. split; auto. split; auto. intros ? w'' H. now destruct w''.
    - rewrite rev_app_distr. cbn [rev app]. rewrite rev_involutive.
      destruct (expand_any n) as (S1 & S2 & S3). destruct (IH (w0 ++ exp_ n)) as (w' & E & D & R' & X & Y & Al).
      + rewrite wsize_app in *. rewrite wsize_cons in Hf. cbn [asize] in Hf. lia.
      + intros i Hi. apply in_app_or in Hi as [Hi|Hi]; [|auto]. apply R, in_or_app. auto.
      + destruct w0 as [|[n0|i0] w0]; cbn [app] in *; try discriminate; exfalso; eapply Nd; reflexivity.
      + exists w'. split; auto. split; [eapply BTreeHeapProofs.sub_trans; [exact D|]|].
        { rewrite !den_app. cbn [AvlIterProofs.den flat_map aden]. rewrite app_nil_r. apply sub_app; [apply sub_refl|exact S2]. }
        do 3 (split; auto). intros M. rewrite den_app in *. change (den [Descend n]) with (flat n ++ []) in *. rewrite app_nil_r in *.
        rewrite expand_all in Al; auto. intros i Hi. apply M, in_or_app. auto.
    - rewrite rev_app_distr. cbn [rev app]. exists (w0 ++ [Return i]). split; auto. split; [apply sub_refl|]. do 2 (split; auto). split; auto.
      intros n w'' H. apply app_inj_tail in H as [_ H]. discriminate.
  Qed.

  Lemma range_any root len : exists w, range_iter destr nsize ikey cmp lb ub root len = Ok (InnerIter w len)
    /\ sub (den w) (oflat flat root) /\ (all_mid (oflat flat root) -> den w = oflat flat root)
    /\ forall i, hd_error (den w) = Some i \/ hd_error (rev (den w)) = Some i -> inn i.
  Proof.
    unfold range_iter. destruct (prune_front_any (S (wsize (odesc root : work))) (odesc root)) as (w1 & E1 & D1 & R1 & X1 & A1); [lia| |].
    { intros i Hi. destruct root; cbn in Hi; intuition discriminate. }
    rewrite E1. cbn [bind]. destruct (prune_back_any (S (wsize w1)) w1) as (w2 & E2 & D2 & R2 & X2 & Y2 & A2); auto; try lia.
    rewrite E2. cbn [bind]. exists w2. split; auto. rewrite den_odesc in *. split; [|split].
    - eapply BTreeHeapProofs.sub_trans; eauto.
    - intros M. rewrite A2; auto. now rewrite A1.
    - intros i [H|H].
      + destruct w2 as [|[n|j] w2]; [discriminate|exfalso; eapply X2; reflexivity|]. injection H as <-. apply R2. now left.
      + destruct (rev_cases w2) as [->|(w0 & [n|j] & ->)]; [discriminate|exfalso; eapply Y2; reflexivity|].
        rewrite den_app, rev_app_distr in H. injection H as <-. apply R2, in_or_app. right. now left.
  Qed.
End AnyRange.

Section AvlRange.
  Context {K V Q : Type} (bor : K -> Q) (cmp : Q -> Q -> comparison).
  Notation entry := (K * V)%type.

  Lemma a_range_any (m : avl_map K V) l lo hi : a_any m l -> exists it l', avl_range bor cmp m lo hi = Ok it
    /\ told_range bor cmp lo hi l l'
    /\ forall cs, exists extra, run_ends norm_destr norm_size cs it = Ok (map (fun x => (fst x, snd x + extra)) (s_ends cs l')).
  Proof.
    intros H. apply aany_iff in H as (A & <- & L). unfold avl_range.
    destruct (range_any norm_destr norm_size nflat norm_flat norm_sized (fun e => bor (fst e)) cmp lo hi (mk_nnode (am_root m)) (avl_len m))
      as (w & E & D & M & C).
    rewrite E. rewrite nflat_mk in D, M. do 2 eexists. split; [reflexivity|]. split; [split; [exact D|split]|].
    - intros In. apply M. intros e He. apply In in He as [H1 H2]. unfold prune_lf, prune_rt, contains.
      destruct lo as [|q|q]; [|rewrite H1|rewrite H1];
        (destruct hi as [|p|p]; [|destruct H2 as [H2 H3]; rewrite H2, H3|destruct H2 as [H2 H3]; rewrite H2, H3]); auto.
    - intros e He. specialize (C e He). apply andb_true_iff in C as [C1 C2]. cbn beta in C1, C2. split.
      + destruct lo as [|q|q]; auto; destruct (cmp q (bor (fst e))); congruence.
      + destruct hi as [|q|q]; auto; destruct (cmp (bor (fst e)) q); congruence.
    - intros cs. exists (avl_len m - length (den nflat w)).
      apply (run_ends_ok norm_destr norm_size nflat norm_flat norm_sized cs (InnerIter w (avl_len m))).
      cbn [it_len it_work]. apply sub_length in D. unfold avl_len. lia.
  Qed.

  (** The references that [range_mut] and [iter_mut] give out are to different entries. *)
  Lemma refs_nodup (t : tree K V) : forall p, NoDup (map fst (refs p t)).
  Proof.
    induction t as [|k v lh rh l IHl r IHr]; intros p; cbn [refs]; [constructor|]. rewrite map_app. cbn [map fst].
    assert (P : forall b (t : tree K V) x, In x (map fst (refs (p ++ [b]) t)) -> exists s, x = p ++ b :: s).
    { intros b t x Hx. apply in_map_iff in Hx as (y & <- & Hy). apply refs_prefix in Hy as [s ->]. exists s. now rewrite <- app_assoc. }
    assert (Nl : ~ In p (map fst (refs (p ++ [false]) l)) /\ ~ In p (map fst (refs (p ++ [true]) r))).
    { split; intros Hx; apply P in Hx as [s Hx]; rewrite <- (app_nil_r p) in Hx at 1; apply app_inv_head in Hx; discriminate. }
    assert (Ap : forall a b : list (list bool), NoDup a -> NoDup b -> (forall x, In x a -> ~ In x b) -> NoDup (a ++ b)).
    { clear. induction a as [|x a IH]; intros b Ha Hb D; auto. inversion Ha; subst. cbn [app]. constructor.
      - intros Hx. apply in_app_or in Hx as [Hx|Hx]; auto. apply (D x); cbn; auto.
      - apply IH; auto. intros y Hy. apply D. now right. }
    apply Ap; auto.
    - constructor; [apply Nl|auto].
    - intros x Hx [<-|Hy]; [now apply Nl in Hx|]. apply P in Hx as [s ->]. apply P in Hy as [s' Hy]. apply app_inv_head in Hy. discriminate.
  Qed.
  Lemma sub_image {A B} (f : A -> B) x y : sub x y -> sub (map f x) (map f y).
  Proof. intros S. induction S; cbn [map]; (constructor 1 || (constructor 2; assumption) || (constructor 3; assumption)). Qed.
  Lemma hd_map {A B} (f : A -> B) x e : hd_error (map f x) = Some e -> exists r, e = f r /\ hd_error x = Some r.
  Proof. destruct x as [|r x]; intros [= <-]. exists r. auto. Qed.
  Lemma a_range_mut_any (m : avl_map K V) l lo hi : a_any m l -> exists all it refs, map snd all = map fst l /\ NoDup (map fst all)
    /\ avl_range_mut bor cmp m lo hi = Ok it /\ sub refs all
    /\ told_range bor cmp lo hi (map (fun r => (snd r, tt)) all) (map (fun r => (snd r, tt)) refs)
    /\ (forall cs, exists extra, run_ends mut_destr mut_size cs it = Ok (map (fun x => (fst x, snd x + extra)) (s_ends cs refs)))
    /\ forall i r w, nth_error all i = Some r -> a_any (avl_write r w m) (upd_nth i w l).
  Proof.
    intros H. apply aany_iff in H as (A & <- & L). unfold avl_range_mut.
    destruct (range_any mut_destr mut_size mflat mut_flat mut_sized (fun r => bor (snd r)) cmp lo hi (mk_mnode [] (am_root m)) (avl_len m))
      as (w & E & D & M & C).
    rewrite E. rewrite mflat_mk in D, M. exists (mrefs m). do 2 eexists. split; [apply refs_keys|]. split; [apply refs_nodup|].
    split; [reflexivity|]. split; [exact D|]. split; [split; [|split]|split].
    - now apply sub_image.
    - intros In. f_equal. apply M. intros e He. destruct (In (snd e, tt)) as [H1 H2]; [now apply (in_map (fun r => (snd r, tt)))|].
      cbn [fst] in H1, H2. unfold prune_lf, prune_rt, contains. destruct lo as [|q|q]; [|rewrite H1|rewrite H1];
        (destruct hi as [|p|p]; [|destruct H2 as [H2 H3]; rewrite H2, H3|destruct H2 as [H2 H3]; rewrite H2, H3]); auto.
    - intros e He. assert (H : exists r, e = (snd r, tt) /\ (hd_error (den mflat w) = Some r \/ hd_error (rev (den mflat w)) = Some r)).
      { rewrite <- map_rev in He. destruct He as [He|He]; apply hd_map in He as (r & -> & Hr); exists r; auto. }
      destruct H as (r & -> & Hr). specialize (C r Hr). apply andb_true_iff in C as [C1 C2]. cbn [fst] in *. split.
      + destruct lo as [|q|q]; auto; destruct (cmp q (bor (snd r))); congruence.
      + destruct hi as [|q|q]; auto; destruct (cmp (bor (snd r)) q); congruence.
    - intros cs. exists (avl_len m - length (den mflat w)).
      apply (run_ends_ok mut_destr mut_size mflat mut_flat mut_sized cs (InnerIter w (avl_len m))).
      cbn [it_len it_work]. apply sub_length in D. rewrite refs_length in D. unfold avl_len. lia.
    - intros i [q k] w' Hi. destruct (write_at_ok w' (am_root m) [] i q k Hi) as (E1 & _ & E3).
      apply aany_iff. cbn [avl_write am_root am_len fst]. split; [now apply E3|]. split; auto.
      rewrite L. rewrite <- (map_length fst (upd_nth _ _ _)), upd_nth_keys. now rewrite map_length.
  Qed.
End AvlRange.
