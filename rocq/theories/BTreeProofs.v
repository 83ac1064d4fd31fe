(** Proofs about the B-tree model: shape, order and contents through insertion,
    lookup and removal. *)
From Coq Require Import List PeanoNat Bool Lia.
From Verif Require Import Base Spec SpecFacts Vec BTreeModel.
Import ListNotations.

Section Weave.
  Context {A : Type}.
  (** Contents of children interleaved with separators, child first. *)
  Fixpoint weave (ks : list (list A)) (es : list A) : list A :=
    match ks with
    | [] => es
    | k :: ks' => k ++ match es with [] => concat ks' | e :: es' => e :: weave ks' es' end
    end.
  Definition zipl (ks : list (list A)) (es : list A) : list A :=
    concat (map (fun p => fst p ++ [snd p]) (combine ks es)).
  Definition zipr (es : list A) (ks : list (list A)) : list A :=
    concat (map (fun p => fst p :: snd p) (combine es ks)).

  Lemma zipl_cons k ks e es : zipl (k :: ks) (e :: es) = k ++ e :: zipl ks es.
  Proof. unfold zipl. cbn. now rewrite <- app_assoc. Qed.
  Lemma zipr_cons e es k ks : zipr (e :: es) (k :: ks) = e :: k ++ zipr es ks.
  Proof. reflexivity. Qed.
  Lemma zipl_nil es : zipl [] es = [].
  Proof. reflexivity. Qed.
  Lemma zipr_nil ks : zipr [] ks = [].
  Proof. reflexivity. Qed.

  Lemma weave_zipr k ks es : length ks = length es -> weave (k :: ks) es = k ++ zipr es ks.
  Proof.
    revert k ks. induction es as [|e es IH]; intros k ks H.
    - destruct ks; [|discriminate]. reflexivity.
    - destruct ks as [|k' ks]; [discriminate|]. cbn in H.
      rewrite zipr_cons. change (weave (k :: k' :: ks) (e :: es)) with (k ++ e :: weave (k' :: ks) es).
      rewrite IH by lia. reflexivity.
  Qed.
  Lemma weave_split ks1 c ks2 es1 es2 :
    length ks1 = length es1 -> length ks2 = length es2 ->
    weave (ks1 ++ c :: ks2) (es1 ++ es2) = zipl ks1 es1 ++ c ++ zipr es2 ks2.
  Proof.
    revert es1. induction ks1 as [|k ks1 IH]; intros es1 H1 H2.
    - destruct es1; [|discriminate]. rewrite zipl_nil. cbn [app].
      apply weave_zipr. now rewrite H2.
    - destruct es1 as [|e es1]; [discriminate|]. cbn in H1.
      rewrite zipl_cons. cbn [app].
      change (weave (k :: ks1 ++ c :: ks2) (e :: es1 ++ es2))
        with (k ++ e :: weave (ks1 ++ c :: ks2) (es1 ++ es2)).
      rewrite IH by lia. now rewrite <- app_assoc.
  Qed.
  Lemma zipl_app ks1 es1 ks2 es2 : length ks1 = length es1 ->
    zipl (ks1 ++ ks2) (es1 ++ es2) = zipl ks1 es1 ++ zipl ks2 es2.
  Proof.
    revert es1. induction ks1 as [|k ks1 IH]; intros [|e es1] H; try discriminate; [reflexivity|].
    cbn [app]. rewrite !zipl_cons, IH by (cbn in H; lia). now rewrite <- app_assoc.
  Qed.
  Lemma zipl_snoc ks es k e : length ks = length es ->
    zipl (ks ++ [k]) (es ++ [e]) = zipl ks es ++ k ++ [e].
  Proof. intros H. rewrite zipl_app by auto. rewrite zipl_cons, zipl_nil. reflexivity. Qed.
  Lemma weave_app ks1 c es1 e ks2 es2 : length ks1 = length es1 ->
    weave (ks1 ++ c :: ks2) (es1 ++ e :: es2) = weave (ks1 ++ [c]) es1 ++ e :: weave ks2 es2.
  Proof.
    revert es1. induction ks1 as [|k ks1 IH]; intros [|e1 es1] H; try discriminate.
    - cbn. now rewrite app_nil_r.
    - cbn [app weave]. rewrite IH by (cbn in H; lia). now rewrite <- app_assoc.
  Qed.
  Lemma weave_length ks es : length ks <= S (length es) ->
    length (weave ks es) = length (concat ks) + length es.
  Proof.
    revert es. induction ks as [|k ks IH]; intros es H; [reflexivity|].
    cbn [weave concat]. destruct es as [|e es].
    - cbn in H. destruct ks; [|cbn in H; lia]. cbn. rewrite !app_length. cbn. lia.
    - rewrite !app_length. cbn [length]. rewrite IH by (cbn in H; lia). lia.
  Qed.
End Weave.

Section BTreeProofs.
  Context {K V Q : Type} (bor : K -> Q) (cmp : Q -> Q -> comparison).
  Context (laws : order_laws cmp).
  Context (N : nat) (HN : 1 <= N).
  Notation bt := (bt K V).
  Notation entry := (K * V)%type.
  Notation asc := (@ascending K V Q bor cmp).
  Notation ins := (@s_insert K V Q bor cmp).
  Notation rem := (@s_remove K V Q bor cmp).
  Notation fnd := (@s_find K V Q bor cmp).
  Notation upd := (@s_update K V Q bor cmp).
  Notation mem := (@s_mem K V Q bor cmp).
  Notation key e := (bor (fst e)).
  Notation scan := (@scan K V Q bor cmp).
  Notation MAX := (MAX_OCC N).

  (** The entries below a node, in order. *)
  Fixpoint flat (t : bt) : list entry :=
    match t with BN es ks => weave (map flat ks) es end.

  (** At least [mn] entries in the node, [N] in those below, at most [2N+1]
      anywhere, [h] levels below. *)
  Inductive shape : nat -> nat -> bt -> Prop :=
  | sh_leaf mn es : mn <= length es <= MAX -> shape mn 0 (BN es [])
  | sh_branch mn h es ks : mn <= length es <= MAX -> length ks = S (length es) ->
      Forall (shape N h) ks -> shape mn (S h) (BN es ks).

  Lemma shape_weaken mn mn' h t : mn' <= mn -> shape mn h t -> shape mn' h t.
  Proof. intros H S. inversion S; subst; constructor; auto; lia. Qed.
  Lemma shape_strengthen mn mn' h t : mn' <= n_len t -> shape mn h t -> shape mn' h t.
  Proof. intros H S. inversion S; subst; cbn in H; constructor; auto; lia. Qed.
  Lemma shape_len mn h t : shape mn h t -> mn <= n_len t <= MAX.
  Proof. intros H. now inversion H; subst. Qed.

  Lemma shape_0 mn t : shape mn 0 t -> exists es, t = BN es [] /\ mn <= length es <= MAX.
  Proof. intros H. inversion H; subst. eauto. Qed.
  Lemma shape_S mn h t : shape mn (S h) t -> exists es ks, t = BN es ks /\ mn <= length es <= MAX
    /\ length ks = S (length es) /\ Forall (shape N h) ks.
  Proof. intros H. inversion H; subst. eauto 8. Qed.

  (** *** Segments: [q] falls into the middle part. *)
  Notation all_lt := (@all_lt K V Q bor cmp).
  Notation all_gt := (@all_gt K V Q bor cmp).

  Lemma ins_seg k v l m r : all_lt l (bor k) -> all_gt r (bor k) ->
    ins k v (l ++ m ++ r) = l ++ ins k v m ++ r.
  Proof.
    intros Hl Hr. destruct (all_lt_filters bor cmp l _ Hl) as (E1 & E2 & _).
    destruct (all_gt_filters bor cmp laws r _ Hr) as (E3 & E4 & _).
    unfold s_insert. rewrite !filter_app, E1, E2, E3, E4, app_nil_r. cbn [app].
    now rewrite <- !app_assoc.
  Qed.
  Lemma rem_seg q l m r : all_lt l q -> all_gt r q -> rem q (l ++ m ++ r) = l ++ rem q m ++ r.
  Proof.
    intros Hl Hr. destruct (all_lt_filters bor cmp l _ Hl) as (_ & _ & _ & E1 & _).
    destruct (all_gt_filters bor cmp laws r _ Hr) as (_ & _ & _ & E2 & _).
    unfold s_remove in *. now rewrite !filter_app, E1, E2.
  Qed.
  Lemma fnd_seg q l m r : all_lt l q -> all_gt r q -> fnd q (l ++ m ++ r) = fnd q m.
  Proof.
    intros Hl Hr. destruct (all_lt_filters bor cmp l _ Hl) as (_ & _ & _ & _ & E1 & _).
    destruct (all_gt_filters bor cmp laws r _ Hr) as (_ & _ & _ & _ & E2 & _).
    unfold s_find in *. rewrite !find_app, E1, E2. now destruct (find _ m).
  Qed.
  Lemma upd_seg q f l m r : all_lt l q -> all_gt r q -> upd q f (l ++ m ++ r) = l ++ upd q f m ++ r.
  Proof.
    intros Hl Hr. destruct (all_lt_filters bor cmp l _ Hl) as (_ & _ & _ & _ & _ & _ & E1).
    destruct (all_gt_filters bor cmp laws r _ Hr) as (_ & _ & _ & _ & _ & _ & E2).
    unfold s_update in *. now rewrite !map_app, E1, E2.
  Qed.

  Lemma all_lt_zipl q ks es : length ks = length es -> asc (zipl ks es) ->
    (forall e, In e es -> cmp (key e) q = Lt) -> all_lt (zipl ks es) q.
  Proof.
    revert ks. induction es as [|e es IH]; intros [|k ks] H A He; try discriminate.
    - intros x [].
    - rewrite zipl_cons in *. apply (asc_pivot bor cmp laws) in A as (A1 & A2 & A3 & A4).
      apply (all_lt_app bor cmp). split.
      + apply (all_lt_trans bor cmp laws k (key e) q); [exact A3|]. apply He. now left.
      + apply (all_lt_cons bor cmp). split; [apply He; now left|].
        apply IH; auto. intros x Hx. apply He. now right.
  Qed.
  Lemma all_gt_zipr q ks e es : length ks = length (e :: es) -> asc (zipr (e :: es) ks) ->
    cmp q (key e) = Lt -> all_gt (zipr (e :: es) ks) q.
  Proof.
    intros H A He. destruct ks as [|k ks]; [discriminate|]. rewrite zipr_cons in *.
    apply (asc_cons_iff bor cmp) in A as [_ A].
    apply (all_gt_cons bor cmp). split; [exact He|]. exact (all_gt_trans bor cmp laws _ (key e) q A He).
  Qed.

  (** *** The scan *)
  Lemma scan_spec q es i c : scan q es = (i, c) ->
    match c with
    | Gt => i = length es /\ (forall e, In e es -> cmp (key e) q = Lt)
    | _ => exists es1 e es2, es = es1 ++ e :: es2 /\ length es1 = i /\ cmp q (key e) = c
           /\ (forall e, In e es1 -> cmp (key e) q = Lt)
    end.
  Proof.
    revert i c. induction es as [|e es IH]; cbn; intros i c H.
    - injection H as <- <-. split; auto. intros ? [].
    - destruct (cmp q (key e)) eqn:E.
      + injection H as <- <-. exists [], e, es. repeat split; auto. intros ? [].
      + injection H as <- <-. exists [], e, es. repeat split; auto. intros ? [].
      + destruct (scan q es) as [j c'] eqn:S. injection H as <- <-.
        specialize (IH _ _ eq_refl). apply (cmp_gt_lt laws) in E.
        destruct c'.
        * destruct IH as (es1 & x & es2 & -> & <- & Hx & H1). exists (e :: es1), x, es2.
          repeat split; auto. intros y [<-|Hy]; auto.
        * destruct IH as (es1 & x & es2 & -> & <- & Hx & H1). exists (e :: es1), x, es2.
          repeat split; auto. intros y [<-|Hy]; auto.
        * destruct IH as [-> H1]. split; auto. intros y [<-|Hy]; auto.
  Qed.

  (** The scan of a leaf: the list itself is cut. *)
  Lemma scan_leaf q es i c : asc es -> scan q es = (i, c) ->
    exists es1 es2, es = es1 ++ es2 /\ length es1 = i /\ all_lt es1 q
      /\ match c with
         | Eq => exists e es3, es2 = e :: es3 /\ cmp q (key e) = Eq
         | Lt => es2 <> [] /\ all_gt es2 q
         | Gt => es2 = []
         end.
  Proof.
    intros A H. apply scan_spec in H. destruct c.
    - destruct H as (es1 & e & es2 & -> & <- & He & H1). exists es1, (e :: es2).
      repeat split; auto. eauto.
    - destruct H as (es1 & e & es2 & -> & <- & He & H1). exists es1, (e :: es2).
      repeat split; auto; [discriminate|].
      apply (asc_app_iff bor cmp) in A as (_ & A & _). apply (asc_cons_iff bor cmp) in A as [_ A].
      apply (all_gt_cons bor cmp). split; [exact He|]. exact (all_gt_trans bor cmp laws _ (key e) q A He).
    - destruct H as [-> H1]. exists es, []. repeat split; auto. now rewrite app_nil_r.
  Qed.

  (** The scan of a branch: the child that is visited, with what is on either side. *)
  Lemma scan_branch q es ks i c : length ks = S (length es) -> asc (weave (map flat ks) es) ->
    scan q es = (i, c) -> c <> Eq ->
    exists es1 es2 ks1 t ks2, es = es1 ++ es2 /\ ks = ks1 ++ t :: ks2
      /\ length es1 = i /\ length ks1 = i /\ length ks2 = length es2
      /\ all_lt (zipl (map flat ks1) es1) q /\ all_gt (zipr es2 (map flat ks2)) q
      /\ asc (flat t) /\ (c = Gt -> i = length es /\ ks2 = [] /\ es2 = []).
  Proof.
    intros L A H Hc. apply scan_spec in H.
    assert (exists es1 es2, es = es1 ++ es2 /\ length es1 = i /\ (forall e, In e es1 -> cmp (key e) q = Lt)
            /\ match es2 with [] => True | e :: _ => cmp q (key e) = Lt end /\ (c = Gt -> es2 = []))
      as (es1 & es2 & -> & <- & H1 & H2 & H3).
    { destruct c; [congruence| |].
      - destruct H as (es1 & e & es2 & -> & <- & He & H1). exists es1, (e :: es2).
        repeat split; auto. discriminate.
      - destruct H as [-> H1]. exists es, []. rewrite app_nil_r. repeat split; auto. }
    destruct (cut_mid (length es1) ks) as (ks1 & t & ks2 & -> & L1).
    { rewrite L, app_length. lia. }
    assert (L2 : length ks2 = length es2) by (rewrite !app_length in L; cbn in L; lia).
    rewrite map_app in A. cbn [map] in A. rewrite weave_split in A by (rewrite map_length; lia).
    apply (asc_app_iff bor cmp) in A as (A1 & A & _). apply (asc_app_iff bor cmp) in A as (A2 & A3 & _).
    exists es1, es2, ks1, t, ks2.
    refine (conj eq_refl (conj eq_refl (conj eq_refl (conj L1 (conj L2 (conj _ (conj _ (conj A2 _)))))))).
    - apply all_lt_zipl; auto. rewrite map_length; lia.
    - destruct es2 as [|e es2]; [intros ? []|]. apply all_gt_zipr; auto. rewrite map_length; lia.
    - intros Hg. pose proof (H3 Hg) as ->. rewrite app_nil_r. destruct ks2; [auto|discriminate].
  Qed.
  Lemma scan_branch_eq q es ks i : length ks = S (length es) -> asc (weave (map flat ks) es) ->
    scan q es = (i, Eq) ->
    exists es1 e es2 ks1 t ks2, es = es1 ++ e :: es2 /\ ks = ks1 ++ t :: ks2
      /\ length es1 = i /\ length ks1 = i /\ length ks2 = S (length es2)
      /\ cmp q (key e) = Eq.
  Proof.
    intros L A H. apply scan_spec in H. destruct H as (es1 & e & es2 & -> & <- & He & H1).
    destruct (cut_mid (length es1) ks) as (ks1 & t & ks2 & -> & L1).
    { rewrite L, app_length. lia. }
    exists es1, e, es2, ks1, t, ks2. repeat split; auto.
    rewrite !app_length in L; cbn in L; lia.
  Qed.

  (** *** Building branches *)
  Lemma flat_branch es1 es2 ks1 t ks2 : length ks1 = length es1 -> length ks2 = length es2 ->
    flat (BN (es1 ++ es2) (ks1 ++ t :: ks2)) =
    zipl (map flat ks1) es1 ++ flat t ++ zipr es2 (map flat ks2).
  Proof.
    intros H1 H2. cbn [flat]. rewrite map_app. cbn [map].
    apply weave_split; rewrite map_length; auto.
  Qed.
  Lemma shape_branch mn h es1 es2 ks1 t ks2 :
    length ks1 = length es1 -> length ks2 = length es2 ->
    mn <= length (es1 ++ es2) <= MAX ->
    Forall (shape N h) ks1 -> shape N h t -> Forall (shape N h) ks2 ->
    shape mn (S h) (BN (es1 ++ es2) (ks1 ++ t :: ks2)).
  Proof.
    intros H1 H2 H3 F1 F2 F3. constructor; auto.
    - rewrite !app_length. cbn. lia.
    - apply Forall_app. split; auto.
  Qed.

  (** *** [get] *)
  Lemma nth_map_mid {A B} (f : A -> B) l1 x l2 i : length l1 = i ->
    nth_error (map f (l1 ++ x :: l2)) i = Some (f x).
  Proof. intros <-. rewrite map_app. apply nth_mid. now rewrite map_length. Qed.
  Lemma last_map_snoc {A B} (f : A -> B) l x : last_opt (map f (l ++ [x])) = Some (f x).
  Proof. rewrite map_app. apply last_snoc. Qed.
  Lemma flat_leaf es : flat (BN es []) = es.
  Proof. reflexivity. Qed.


  Lemma flat_pivot es1 e es2 ks1 t ks2 : length ks1 = length es1 ->
    flat (BN (es1 ++ e :: es2) (ks1 ++ t :: ks2))
    = flat (BN es1 (ks1 ++ [t])) ++ e :: flat (BN es2 ks2).
  Proof.
    intros H. cbn [flat]. rewrite !map_app. cbn [map]. apply weave_app. now rewrite map_length.
  Qed.
  Lemma Forall_mid {A} (P : A -> Prop) l1 x l2 :
    Forall P (l1 ++ x :: l2) -> Forall P l1 /\ P x /\ Forall P l2.
  Proof. intros F. apply Forall_app in F as [F1 F]. inversion F; subst. auto. Qed.

  Lemma n_get_ok mn h t q : shape mn h t -> asc (flat t) ->
    n_get bor cmp q t = fnd q (flat t).
  Proof.
    revert mn t. induction h as [|h IH]; intros mn t S A.
    - destruct (shape_0 _ _ S) as (es & -> & Hb). cbn [n_get]. destruct (scan q es) as [i c] eqn:E.
      destruct (scan_leaf q es i c A E) as (es1 & es2 & -> & <- & H1 & H2). destruct c.
      + destruct H2 as (e & es3 & -> & He). rewrite nth_mid by auto.
        symmetry. now apply (fnd_pivot_eq bor cmp laws).
      + cbn [map]. rewrite nth_nil. destruct H2 as [_ H2].
        symmetry. exact (fnd_seg q es1 [] es2 H1 H2).
      + subst. symmetry. exact (fnd_seg q es1 [] [] H1 (all_gt_nil bor cmp q)).
    - destruct (shape_S _ _ _ S) as (es & ks & -> & Hb & Hk & HF). cbn [n_get]. destruct (scan q es) as [i c] eqn:E. destruct c.
      + destruct (scan_branch_eq q es ks i Hk A E) as (es1 & e & es2 & ks1 & t & ks2 & -> & -> & <- & L1 & L2 & He).
        rewrite nth_mid by auto. rewrite flat_pivot in * by auto.
        symmetry. now apply (fnd_pivot_eq bor cmp laws).
      + destruct (scan_branch q es ks i Lt Hk A E) as (es1 & es2 & ks1 & t & ks2 & -> & -> & L0 & L1 & L2 & Hl & Hr & At & _); [discriminate|].
        apply Forall_mid in HF as (_ & F & _).
        rewrite nth_map_mid, flat_branch, fnd_seg by (auto; lia). eapply IH; eauto.
      + destruct (scan_branch q es ks i Gt Hk A E) as (es1 & es2 & ks1 & t & ks2 & -> & -> & L0 & L1 & L2 & Hl & Hr & At & Hg); [discriminate|].
        destruct (Hg eq_refl) as (_ & -> & ->). apply Forall_mid in HF as (_ & F & _).
        rewrite last_map_snoc, flat_branch, fnd_seg by (auto; lia). eapply IH; eauto.
  Qed.

  Lemma n_contains_ok mn h t q : shape mn h t -> asc (flat t) ->
    n_contains bor cmp q t = mem q (flat t).
  Proof.
    intros S A. rewrite (mem_find bor cmp). revert mn t S A.
    induction h as [|h IH]; intros mn t S A.
    - destruct (shape_0 _ _ S) as (es & -> & Hb). rewrite <- (n_get_ok mn 0 (BN es []) q S A).
      cbn [n_contains n_get]. destruct (scan q es) as [i c] eqn:E.
      destruct (scan_leaf q es i c A E) as (es1 & es2 & -> & <- & H1 & H2). destruct c.
      + destruct H2 as (e & es3 & -> & He). now rewrite nth_mid by auto.
      + cbn [map]. rewrite !nth_nil. reflexivity.
      + cbn [map]. rewrite !nth_nil. reflexivity.
    - destruct (shape_S _ _ _ S) as (es & ks & -> & Hb & Hk & HF). cbn [n_contains]. destruct (scan q es) as [i c] eqn:E. destruct c.
      + destruct (scan_branch_eq q es ks i Hk A E) as (es1 & e & es2 & ks1 & t & ks2 & -> & -> & <- & L1 & L2 & He).
        rewrite flat_pivot in * by auto.
        now rewrite (fnd_pivot_eq bor cmp laws q _ _ _ A He).
      + destruct (scan_branch q es ks i Lt Hk A E) as (es1 & es2 & ks1 & t & ks2 & -> & -> & L0 & L1 & L2 & Hl & Hr & At & _); [discriminate|].
        apply Forall_mid in HF as (_ & F & _).
        rewrite nth_map_mid, flat_branch, fnd_seg by (auto; lia). eapply IH; eauto.
      + destruct (scan_branch q es ks i Gt Hk A E) as (es1 & es2 & ks1 & t & ks2 & -> & -> & L0 & L1 & L2 & Hl & Hr & At & Hg); [discriminate|].
        destruct (Hg eq_refl) as (_ & -> & ->). apply Forall_mid in HF as (_ & F & _).
        rewrite nth_map_mid, flat_branch, fnd_seg by (auto; lia). eapply IH; eauto.
  Qed.

  Lemma n_get_mut_ok mn h t q w : shape mn h t -> asc (flat t) ->
    exists t', n_get_mut bor cmp q w t = (t', fnd q (flat t))
      /\ shape mn h t' /\ flat t' = upd q w (flat t).
  Proof.
    revert mn t. induction h as [|h IH]; intros mn t S A.
    - destruct (shape_0 _ _ S) as (es & -> & Hb). cbn [n_get_mut]. destruct (scan q es) as [i c] eqn:E.
      destruct (scan_leaf q es i c A E) as (es1 & es2 & -> & <- & H1 & H2). destruct c.
      + destruct H2 as (e & es3 & -> & He). rewrite nth_mid, set_at_mid by auto.
        rewrite !flat_leaf in *. rewrite (fnd_pivot_eq bor cmp laws q _ _ _ A He).
        eexists. split; [reflexivity|]. split.
        * constructor. rewrite app_length in *. auto.
        * rewrite flat_leaf. symmetry. now apply (upd_pivot_eq bor cmp laws).
      + cbn [map]. rewrite nth_nil. destruct H2 as [_ H2]. rewrite flat_leaf.
        pose proof (fnd_seg q es1 [] es2 H1 H2) as X. cbn [app] in X. rewrite X. eexists. split; [reflexivity|]. split; auto.
        symmetry. exact (upd_seg q w es1 [] es2 H1 H2).
      + subst. rewrite flat_leaf. pose proof (fnd_seg q es1 [] [] H1 (all_gt_nil bor cmp q)) as X.
        cbn [app] in X. rewrite X.
        eexists. split; [reflexivity|]. split; auto.
        symmetry. exact (upd_seg q w es1 [] [] H1 (all_gt_nil bor cmp q)).
    - destruct (shape_S _ _ _ S) as (es & ks & -> & Hb & Hk & HF). cbn [n_get_mut]. destruct (scan q es) as [i c] eqn:E. destruct c.
      + destruct (scan_branch_eq q es ks i Hk A E) as (es1 & e & es2 & ks1 & t & ks2 & -> & -> & <- & L1 & L2 & He).
        rewrite nth_mid, set_at_mid by auto. rewrite flat_pivot in * by auto.
        rewrite (fnd_pivot_eq bor cmp laws q _ _ _ A He).
        eexists. split; [reflexivity|]. split.
        * constructor; auto; rewrite !app_length in *; auto.
        * rewrite flat_pivot by auto. symmetry. now apply (upd_pivot_eq bor cmp laws).
      + destruct (scan_branch q es ks i Lt Hk A E) as (es1 & es2 & ks1 & t & ks2 & -> & -> & L0 & L1 & L2 & Hl & Hr & At & _); [discriminate|].
        apply Forall_mid in HF as (F1 & F & F2). destruct (IH _ t F At) as (t' & E' & S' & Ft).
        rewrite nth_map_mid, flat_branch, fnd_seg, E', set_at_mid by (auto; lia).
        eexists. split; [reflexivity|]. split.
        * apply shape_branch; auto; lia.
        * rewrite flat_branch, upd_seg, Ft by (auto; lia). reflexivity.
      + destruct (scan_branch q es ks i Gt Hk A E) as (es1 & es2 & ks1 & t & ks2 & -> & -> & L0 & L1 & L2 & Hl & Hr & At & Hg); [discriminate|].
        destruct (Hg eq_refl) as (_ & -> & ->). apply Forall_mid in HF as (F1 & F & F2).
        destruct (IH _ t F At) as (t' & E' & S' & Ft).
        rewrite last_map_snoc, flat_branch, fnd_seg, E', set_at_mid by (auto; try lia; rewrite app_length; cbn; lia).
        eexists. split; [reflexivity|]. split.
        * apply shape_branch; auto; lia.
        * rewrite flat_branch, upd_seg, Ft by (auto; lia). reflexivity.
  Qed.

  (** *** [insert] *)
  Definition arity (h : nat) (es : list entry) (ks : list bt) : Prop :=
    match h with
    | O => ks = []
    | S h' => length ks = S (length es) /\ Forall (shape N h') ks
    end.
  Lemma shape_iff mn h es ks : shape mn h (BN es ks) <-> mn <= length es <= MAX /\ arity h es ks.
  Proof.
    split.
    - intros H. inversion H; subst; cbn; auto.
    - destruct h; cbn; [intros [H ->]|intros (H & H1 & H2)]; now constructor.
  Qed.

  Lemma n_split_ok h es ks : length es = S MAX -> arity h es ks ->
    exists lhs k v t', n_split N (BN es ks) = Ok (t', Split (Some lhs) k v)
      /\ shape N h lhs /\ shape N h t' /\ flat lhs ++ (k, v) :: flat t' = flat (BN es ks).
  Proof.
    intros L A. unfold MAX_OCC in *.
    destruct (cut_mid N es) as (lo & [k v] & hi & -> & Llo); [lia|].
    rewrite app_length in L. cbn [length] in L.
    cbn [n_split]. unfold assert_, MAX_OCC, MIN_OCC. rewrite app_length. cbn [length].
    destruct (Nat.ltb_spec (2 * N + 1) (length lo + S (length hi))); [|lia]. cbn [bind].
    replace (lo ++ (k, v) :: hi) with ((lo ++ [(k, v)]) ++ hi) by now rewrite <- app_assoc.
    rewrite vec_split_off_mid by (rewrite app_length; cbn; lia). cbn [bind].
    destruct h as [|h]; cbn [arity] in A.
    - subst ks. cbn [is_nil bind]. rewrite vec_pop_snoc. cbn [unwrap bind fst snd].
      exists (BN lo []), k, v, (BN hi []). split; [reflexivity|].
      split; [apply shape_iff; split; [unfold MAX_OCC; lia|reflexivity]|].
      split; [apply shape_iff; split; [unfold MAX_OCC; lia|reflexivity]|].
      rewrite !flat_leaf, <- app_assoc. reflexivity.
    - destruct A as [Lk F]. rewrite app_length in Lk. cbn [length] in Lk.
      destruct (cut_mid N ks) as (ks1 & c & ks2 & -> & Lk1); [lia|].
      rewrite app_length in Lk. cbn [length] in Lk.
      assert (is_nil (ks1 ++ c :: ks2) = false) as -> by now destruct ks1.
      replace (ks1 ++ c :: ks2) with ((ks1 ++ [c]) ++ ks2) by now rewrite <- app_assoc.
      rewrite vec_split_off_mid by (rewrite app_length; cbn; lia). cbn [bind].
      rewrite vec_pop_snoc. cbn [unwrap bind fst snd].
      exists (BN lo (ks1 ++ [c])), k, v, (BN hi ks2). split; [reflexivity|].
      apply Forall_mid in F as (F1 & F2 & F3).
      split; [|split].
      + apply shape_iff; split; [unfold MAX_OCC; lia|]. split.
        * rewrite app_length. cbn. lia.
        * apply Forall_app. auto.
      + apply shape_iff; split; [unfold MAX_OCC; lia|]. split; auto; lia.
      + replace ((lo ++ [(k, v)]) ++ hi) with (lo ++ (k, v) :: hi) by now rewrite <- app_assoc.
        replace ((ks1 ++ [c]) ++ ks2) with (ks1 ++ c :: ks2) by now rewrite <- app_assoc.
        rewrite flat_pivot by lia. reflexivity.
  Qed.

  Definition ins_good (mn h : nat) (k : K) (v : V) (l : list entry) (t' : bt) (r : ins_res K V) : Prop :=
    match r with
    | Replaced old => option_map snd (fnd (bor k) l) = Some old
        /\ shape mn h t' /\ flat t' = ins k v l
    | Absorbed => fnd (bor k) l = None /\ shape mn h t' /\ flat t' = ins k v l
    | Split None _ _ => False
    | Split (Some lhs) k' v' => fnd (bor k) l = None
        /\ shape N h lhs /\ shape N h t' /\ flat lhs ++ (k', v') :: flat t' = ins k v l
    end.

  Lemma absorb_ok mn h es ks k v l : mn <= length es <= S MAX -> arity h es ks ->
    fnd (bor k) l = None -> flat (BN es ks) = ins k v l ->
    exists t' r, (if length es <=? MAX then Ok (BN es ks, Absorbed) else n_split N (BN es ks)) = Ok (t', r)
      /\ ins_good mn h k v l t' r.
  Proof.
    intros L A Hf E. destruct (Nat.leb_spec (length es) MAX).
    - eexists _, _. split; [reflexivity|]. cbn. repeat split; auto. apply shape_iff. split; [lia|auto].
    - destruct (n_split_ok h es ks) as (lhs & k1 & v1 & t' & E1 & S1 & S2 & F); [lia|auto|].
      eexists _, _. split; [exact E1|]. cbn. repeat split; auto. congruence.
  Qed.

  Lemma n_insert_ok mn h t k v : shape mn h t -> asc (flat t) ->
    exists t' r, n_insert bor cmp N k v t = Ok (t', r) /\ ins_good mn h k v (flat t) t' r.
  Proof.
    revert mn t. induction h as [|h IH]; intros mn t S A.
    - destruct (shape_0 _ _ S) as (es & -> & Hb). cbn [n_insert]. destruct (scan (bor k) es) as [i c] eqn:E.
      destruct (scan_leaf (bor k) es i c A E) as (es1 & es2 & -> & <- & H1 & H2). cbn [map].
      assert (Hins : c <> Eq -> exists t' r,
        ('(ks1, r) <- Ok ([], Split None k v);;
         match r with
         | Split child k1 v1 =>
           es1 <- vec_insert (length es1) (k1, v1) (es1 ++ es2);;
           ks2 <- match child with Some rc => vec_insert (length es1) rc ks1 | None => Ok ks1 end;;
           if length es1 <=? MAX_OCC N then Ok (BN es1 ks2, Absorbed) else n_split N (BN es1 ks2)
         | _ => Ok (BN (es1 ++ es2) ks1, r)
         end) = Ok (t', r) /\ ins_good mn 0 k v (flat (BN (es1 ++ es2) [])) t' r).
      { intros Hc. cbn [bind]. rewrite vec_insert_mid by auto. cbn [bind].
        assert (Hg : all_gt es2 (bor k)).
        { destruct c; [congruence|tauto|subst; intros ? []]. }
        rewrite flat_leaf. apply absorb_ok.
        - rewrite app_length in *. cbn [length]. lia.
        - reflexivity.
        - exact (fnd_seg (bor k) es1 [] es2 H1 Hg).
        - rewrite flat_leaf. symmetry. exact (ins_seg k v es1 [] es2 H1 Hg). }
      destruct c.
      + destruct H2 as (e & es3 & -> & He). rewrite nth_mid, set_at_mid by auto. cbn [unwrap bind].
        eexists _, _. split; [reflexivity|]. cbn [ins_good]. rewrite !flat_leaf in *.
        rewrite (fnd_pivot_eq bor cmp laws _ _ _ _ A He). split; [reflexivity|]. split.
        * apply shape_iff. rewrite app_length in *. split; [exact Hb|reflexivity].
        * symmetry. now apply (ins_pivot_eq bor cmp laws).
      + rewrite nth_nil. apply Hins. discriminate.
      + rewrite nth_nil. apply Hins. discriminate.
    - destruct (shape_S _ _ _ S) as (es & ks & -> & Hb & Hk & HF). cbn [n_insert].
      destruct (scan (bor k) es) as [i c] eqn:E.
      assert (Hins : c <> Eq -> exists t' r,
        ('(ks1, r) <- match nth_error (map (n_insert bor cmp N k v) ks) i with
                     | Some m => '(c', r) <- m;; Ok (set_at i c' ks, r)
                     | None => Ok (ks, Split None k v)
                     end;;
         match r with
         | Split child k1 v1 =>
           es1 <- vec_insert i (k1, v1) es;;
           ks2 <- match child with Some rc => vec_insert i rc ks1 | None => Ok ks1 end;;
           if length es1 <=? MAX_OCC N then Ok (BN es1 ks2, Absorbed) else n_split N (BN es1 ks2)
         | _ => Ok (BN es ks1, r)
         end) = Ok (t', r) /\ ins_good mn (Datatypes.S h) k v (flat (BN es ks)) t' r).
      { intros Hc.
        destruct (scan_branch (bor k) es ks i c Hk A E) as (es1 & es2 & ks1 & t & ks2 & -> & -> & L0 & L1 & L2 & Hl & Hr & At & _); [auto|].
        apply Forall_mid in HF as (F1 & F & F2).
        destruct (IH _ t F At) as (t' & r & E' & G).
        rewrite nth_map_mid, E' by auto. cbn [bind]. rewrite set_at_mid by auto.
        rewrite flat_branch by lia.
        destruct r as [old|[lhs|] k1 v1|]; cbn [ins_good] in G.
        - destruct G as (G1 & G2 & G3). eexists _, _. split; [reflexivity|]. cbn [ins_good].
          rewrite fnd_seg, ins_seg, <- G3 by auto. split; auto. split; [|apply flat_branch; lia].
          apply shape_branch; auto; lia.
        - destruct G as (G1 & G2 & G3 & G4).
          rewrite !vec_insert_mid by auto. cbn [bind].
          apply absorb_ok.
          + rewrite app_length in *. cbn [length]. lia.
          + split; [rewrite !app_length in *; cbn [length] in *; lia|].
            apply Forall_app. repeat constructor; auto.
          + now rewrite fnd_seg.
          + rewrite ins_seg, <- G4 by auto.
            rewrite (flat_pivot es1 (k1, v1) es2 ks1 lhs (t' :: ks2)) by lia.
            replace es1 with (es1 ++ []) at 1 by apply app_nil_r.
            rewrite (flat_branch es1 [] ks1 lhs []) by (cbn; lia).
            replace (BN es2 (t' :: ks2)) with (BN ([] ++ es2) ([] ++ t' :: ks2)) by reflexivity.
            rewrite (flat_branch [] es2 [] t' ks2) by (cbn; lia). cbn [map].
            rewrite zipl_nil, zipr_nil, app_nil_r. cbn [app]. now rewrite <- !app_assoc.
        - destruct G.
        - destruct G as (G1 & G2 & G3). eexists _, _. split; [reflexivity|]. cbn [ins_good].
          rewrite fnd_seg, ins_seg, <- G3 by auto. split; auto. split; [|apply flat_branch; lia].
          apply shape_branch; auto; lia. }
      destruct c.
      + destruct (scan_branch_eq (bor k) es ks i Hk A E) as (es1 & e & es2 & ks1 & t & ks2 & -> & -> & <- & L1 & L2 & He).
        rewrite nth_mid, set_at_mid by auto. cbn [unwrap bind].
        rewrite flat_pivot in * by auto.
        eexists _, _. split; [reflexivity|]. cbn [ins_good].
        rewrite (fnd_pivot_eq bor cmp laws _ _ _ _ A He). split; [reflexivity|]. split.
        * apply shape_iff. split; [rewrite app_length in *; auto|]. split; auto. rewrite !app_length in *. auto.
        * rewrite flat_pivot by auto. symmetry. now apply (ins_pivot_eq bor cmp laws).
      + apply Hins. discriminate.
      + apply Hins. discriminate.
  Qed.
End BTreeProofs.
