(** How fast maps can grow: a bound on their sizes during a history, which shows that the size
    conditions [all_small], [always_small] of the theorems are met by every realistic history. *)
From Coq Require Import List ZArith Bool Lia.
From Verif Require Import Base Spec MapSpec AvlHeapHistSpec AvlHeapProofs5.
Import ListNotations.
Local Open Scope Z_scope.

Section Grow.
  Context {K V Q : Type} (bor : K -> Q) (cmp : Q -> Q -> comparison).
  Context (keq : K -> K -> bool) (veq : V -> V -> bool).
  Context (kcmp : K -> K -> comparison) (vcmp : V -> V -> comparison).
  Notation op := (op K V Q).
  Notation s_step := (s_step bor cmp keq veq kcmp vcmp).
  Notation len l := (Z.of_nat (length l)).

  (** If no map has more than [b] entries before the call, none has more than this after it. *)
  Definition grow1 (o : op) (b : Z) : Z :=
    match o with
    | OInsert _ _ _ | OOrInsert _ _ _ _ => b + 1
    | OFromIter ps | OExtend _ ps => b + len ps
    | OAppend _ _ | OUnion _ _ | OSymDiff _ _ => b + b
    | _ => b
    end.
  Fixpoint grow (os : list op) (b : Z) : Z :=
    match os with [] => b | o :: os' => grow os' (grow1 o b) end.

  Definition upto (b : Z) (l : list (K * V)) : Prop := len l <= b.

  Lemma filter_len {A} (f : A -> bool) l : (length (filter f l) <= length l)%nat.
  Proof. induction l as [|x l IH]; cbn; auto. destruct (f x); cbn; lia. Qed.
  Lemma len_insert k v (l : list (K * V)) : (length (s_insert bor cmp k v l) <= S (length l))%nat.
  Proof.
    unfold s_insert. rewrite app_length. cbn [length].
    enough (length (filter (lt_q bor cmp (bor k)) l) + length (filter (gt_q bor cmp (bor k)) l) <= length l)%nat by lia.
    induction l as [|e l IH]; cbn [filter length]; auto. unfold lt_q at 1, gt_q at 1.
    destruct (cmp (bor (fst e)) (bor k)); cbn [length]; lia.
  Qed.
  Lemma len_extend ps : forall l : list (K * V), (length (s_extend bor cmp l ps) <= length l + length ps)%nat.
  Proof.
    unfold s_extend. induction ps as [|p ps IH]; intros l; cbn [fold_left length]; [lia|].
    pose proof (len_insert (fst p) (snd p) l). specialize (IH (s_insert bor cmp (fst p) (snd p) l)). lia.
  Qed.
  Lemma Forall_set P i (x : list (K * V)) : forall l, Forall P l -> P x -> Forall P (set_nth i x l).
  Proof.
    induction i as [|i IH]; intros [|y l] F Px; rewrite ?set_nth_nil, ?set_nth_0, ?set_nth_S; auto;
      inversion F; subst; constructor; auto.
  Qed.
  Lemma Forall_add P (x : list (K * V)) l : Forall P l -> P x -> Forall P (l ++ [x]).
  Proof. intros. apply Forall_app. auto. Qed.

  Lemma upto_le b b' st : b <= b' -> Forall (upto b) st -> Forall (upto b') st.
  Proof. intros L. apply Forall_impl. unfold upto. intros. lia. Qed.
  Lemma grow1_le o b : 0 <= b -> b <= grow1 o b.
  Proof. destruct o; cbn [grow1]; lia. Qed.
  Lemma grow_le os : forall b, 0 <= b -> b <= grow os b.
  Proof.
    induction os as [|o os IH]; intros b Hb; cbn [grow]; [lia|].
    pose proof (grow1_le o b Hb). pose proof (IH (grow1 o b)). lia.
  Qed.

  Lemma step_grow st o b : 0 <= b -> Forall (upto b) st -> Forall (upto (grow1 o b)) (fst (s_step st o)).
  Proof.
    intros Hb F.
    assert (Nth : forall i l, nth_error st i = Some l -> upto b l).
    { intros i l H. eapply Forall_forall in F; [exact F|]. eapply nth_error_In; eauto. }
    pose proof (upto_le b (grow1 o b) st (grow1_le o b Hb) F) as F'.
    assert (Fl : forall f (l : list (K * V)), upto b l -> upto b (filter f l)).
    { intros f l H. pose proof (filter_len f l). unfold upto in *. lia. }
    assert (Mp : forall f (l : list (K * V)), upto b l -> upto b (map f l)).
    { intros f l H. unfold upto in *. now rewrite map_length. }
    assert (In1 : forall k v l, upto b l -> upto (b + 1) (s_insert bor cmp k v l)).
    { intros k v l H. pose proof (len_insert k v l). unfold upto in *. lia. }
    assert (Ex : forall l ps c, upto b l -> len ps <= c -> upto (b + c) (s_extend bor cmp l ps)).
    { intros l ps c H H'. pose proof (len_extend ps l). unfold upto in *. lia. }
    destruct o; cbn [MapSpec.s_step grow1] in *; cbv zeta;
      repeat match goal with
             | |- Forall _ (fst (match nth_error st ?i with _ => _ end)) =>
               let N := fresh "N" in destruct (nth_error st i) eqn:N; [apply Nth in N|cbn [fst]; assumption]
             | |- Forall _ (fst (match ?x with _ => _ end)) => destruct x
             end; cbn [fst]; auto using Forall_add, Forall_set.
    - apply Forall_add; auto. pose proof (len_extend ps []) as H. unfold upto. cbn [length] in H. lia.
    - apply Forall_set; auto. now apply Fl.
    - apply Forall_set; auto. now apply Fl.
    - apply Forall_set; auto. now apply Mp.
    - apply Forall_set; auto. now apply Mp.
    - apply Forall_set; auto. eapply Z.le_trans; [apply Mp; eauto|]. lia.
    - apply Forall_set; auto. unfold upto in *. destruct l; cbn [tl length] in *; lia.
    - apply Forall_set; auto. unfold upto in *. rewrite removelast_firstn_len, firstn_length. lia.
    - apply Forall_set; auto. apply Ex; auto. lia.
    - apply Forall_set; auto. unfold s_retain. now apply Mp, Fl.
    - apply Forall_set; [apply Forall_set|]; auto. unfold upto. cbn. lia.
    - apply Forall_add; auto. now apply Fl.
    - apply Forall_add; auto. now apply Fl.
    - apply Forall_add; auto. apply Ex; [now apply Fl|]. now apply Fl.
  Qed.

  Lemma unwound_grow st o st' b : 0 <= b -> s_unwound bor cmp st o st' -> Forall (upto b) st -> Forall (upto (grow1 o b)) st'.
  Proof.
    intros Hb U F.
    assert (Nth : forall i l, nth_error st i = Some l -> upto b l).
    { intros i l H. eapply Forall_forall in F; [exact F|]. eapply nth_error_In; eauto. }
    pose proof (upto_le b (grow1 o b) st (grow1_le o b Hb) F) as F'.
    assert (Nil : forall c, b <= c -> upto c []) by (intros c H; unfold upto; cbn; lia).
    destruct o; cbn [s_unwound grow1] in *; cbv zeta in *; try contradiction; subst;
      auto using Forall_set, Z.le_refl.
    - destruct U as [->|U]; auto. destruct (nth_error st h) as [l|] eqn:N; [|contradiction]. subst. apply Forall_set; auto.
      pose proof (len_insert k v l). apply Nth in N. unfold upto in *. lia.
    - destruct (nth_error st h) as [l|] eqn:N; [|contradiction]. destruct U as (d & r & -> & ->).
      apply Forall_set; auto. pose proof (len_extend d l). apply Nth in N. unfold upto in *. rewrite app_length in *. lia.
    - destruct U as [_ ->]. apply Forall_set; [apply Forall_set|]; auto; apply Nil; lia.
  Qed.

  Lemma upto_small b st : b < 2 ^ 63 -> Forall (upto b) st -> Forall small st.
  Proof. intros H. apply Forall_impl. unfold upto, small. intros. lia. Qed.
  Lemma op_grow_small o b : 0 <= b -> grow1 o b < 2 ^ 63 -> op_small o.
  Proof. destruct o; cbn [grow1 op_small]; auto; unfold small; lia. Qed.

  Lemma grow_all_small os : forall st b, 0 <= b -> Forall (upto b) st -> grow os b < 2 ^ 63 ->
    all_small bor cmp keq veq kcmp vcmp st os.
  Proof.
    induction os as [|o os IH]; intros st b Hb F G; cbn [grow all_small] in *.
    - split; auto. eapply upto_small; eauto.
    - pose proof (grow1_le o b Hb). pose proof (grow_le os (grow1 o b)).
      split; [eapply upto_small; [|exact F]; lia|]. split; [eapply op_grow_small; [exact Hb|lia]|].
      apply (IH _ (grow1 o b)); auto; [lia|]. now apply step_grow.
  Qed.
  Lemma grow_always_small os : forall st b, 0 <= b -> Forall (upto b) st -> grow os b < 2 ^ 63 ->
    always_small bor cmp keq veq kcmp vcmp st os.
  Proof.
    induction os as [|o os IH]; intros st b Hb F G; cbn [grow always_small] in *.
    - split; auto. eapply upto_small; eauto.
    - pose proof (grow1_le o b Hb). pose proof (grow_le os (grow1 o b)).
      split; [eapply upto_small; [|exact F]; lia|]. split; [eapply op_grow_small; [exact Hb|lia]|].
      split; [apply (IH _ (grow1 o b)); auto; [lia|]; now apply step_grow|].
      intros st1 U. apply (IH _ (grow1 o b)); auto; [lia|]. eapply unwound_grow; eauto.
  Qed.
End Grow.
