(** [range] and [range_mut] of the AVL map with comparisons that may answer anything and may panic. *)
From Coq Require Import List PeanoNat ZArith Bool Lia.
From Verif Require Import Base Spec MapSpec SpecFacts AvlModel AvlProofs AvlMapProofs AvlIterModel AvlIterProofs AvlHeapSpec AvlHeapProofs
  AnyOrdSpec AnyHeapSpec AvlAnyProofs AvlAnyRange Ask AskSpec AskRangeSpec AvlRangeAskModel Heap AvlHeapModel.
From Verif Require BTreeHeapProofs AvlProofs2 AvlShows AskShows AvlHistProofs.
Import ListNotations.
Local Open Scope nat_scope.

Section Goes.
  Context {Q : Type} (ask : nat -> Q -> Q -> option comparison).
  (** A call that starts after [n] questions and asks at most [most]. *)
  Definition goes {R} (n most : nat) (t : trial unit R) (P : R -> nat -> Prop) : Prop :=
    match t with
    | Returned _ r n' => n <= n' <= n + most /\ P r n'
    | Ask.Unwound _ n' => n < n' <= n + most /\ panicked ask n'
    | Fault => False
    end.
  Lemma goes_after {R R'} n a b c (t : trial unit R) (f : unit -> R -> nat -> trial unit R') P P' : goes n a t P -> a + b <= c ->
    (forall r n1, n <= n1 <= n + a -> P r n1 -> goes n1 b (f tt r n1) P') -> goes n c (after t back f) P'.
  Proof.
    intros G Hc F. destruct t as [[] r n1|u n1|]; cbn in *; [|intuition lia|auto]. destruct G as [L G]. specialize (F r n1 L G).
    destruct (f tt r n1) as [u r' n2|u n2|]; cbn in *; intuition lia.
  Qed.
  Lemma goes_q {R} n a b (g : comparison -> R) (P : R -> nat -> Prop) : (forall c, ask n a b = Some c -> P (g c) (S n)) ->
    goes n 1 (question ask n a b tt (fun c n1 => Returned tt (g c) n1)) P.
  Proof.
    intros H. unfold question. destruct (ask n a b) as [c|] eqn:E; cbn; [split; [lia|auto]|]. split; [lia|]. exists n, a, b. auto.
  Qed.
  Lemma goes_ret {R} n most (r : R) (P : R -> nat -> Prop) : P r n -> goes n most (Returned tt r n) P.
  Proof. cbn. intros H. split; [lia|auto]. Qed.
  Lemma goes_weaken {R} n a b (t : trial unit R) (P P' : R -> nat -> Prop) : goes n a t P -> a <= b -> (forall r n', n <= n' -> P r n' -> P' r n') -> goes n b t P'.
  Proof. intros G L H. destruct t as [u r n1|u n1|]; cbn in *; intuition. Qed.
End Goes.

Section AskRange.
  Context {N I : Type} (destr : N -> option N * I * option N) (nsize : N -> nat) (flat : N -> list I).
  Context (Hflat : forall n, let '(l, i, r) := destr n in flat n = oflat flat l ++ i :: oflat flat r).
  Context (Hsize : forall n, let '(l, _, r) := destr n in (osize nsize l + osize nsize r < nsize n)%nat).
  Context {Q : Type} (ikey : I -> Q) (ask : nat -> Q -> Q -> option comparison) (lb ub : bound Q).
  Notation work := (list (action N I)).
  Notation den := (AvlIterProofs.den flat).
  Notation wsize := (wsize nsize).
  Notation inn := (ask_in ikey ask lb ub).
  Notation mid := (ask_mid ikey ask lb ub).
  Notation all_mid n n' l := (forall i, In i l -> mid n n' i).
  Notation goes := (goes ask).

  Lemma in_mono n n' m m' i : m <= n -> n' <= m' -> inn n n' i -> inn m m' i.
  Proof.
    intros L1 L2 [A B]. split.
    - destruct lb; [exact A|destruct A as (j & c & Hj & E); exists j, c; split; [lia|exact E]|destruct A as (j & Hj & E); exists j; split; [lia|exact E]].
    - destruct ub; [exact B|destruct B as (j & c & Hj & E); exists j, c; split; [lia|exact E]|destruct B as (j & Hj & E); exists j; split; [lia|exact E]].
  Qed.
  Lemma mid_mono n n' m m' l : m <= n -> n' <= m' -> all_mid m m' l -> all_mid n n' l.
  Proof. intros L1 L2 H i Hi j c Hj. apply H; auto. lia. Qed.

  Lemma contains_goes i n : goes n 2 (contains_t ask lb ub (ikey i) n) (fun b n' => (b = true -> inn n n' i) /\ (mid n n' i -> b = true)).
  Proof.
    unfold contains_t. eapply goes_after with (a := 1) (b := 1) (P := fun b n1 => (b = true -> match lb with
      | Unbounded => True | Included q => exists j c, n <= j < n1 /\ ask j q (ikey i) = Some c /\ c <> Gt
      | Excluded q => exists j, n <= j < n1 /\ ask j q (ikey i) = Some Lt end) /\ (mid n n1 i -> b = true)); [|lia|].
    - destruct lb as [|k|k].
      + apply goes_ret. auto.
      + apply goes_q. intros c E. split.
        * intros H. exists n, c. split; [lia|]. split; auto. destruct c; congruence.
        * intros M. destruct (M n c) as [M1 _]; [lia|]. rewrite (M1 E). reflexivity.
      + apply goes_q. intros c E. split.
        * intros H. exists n. split; [lia|]. destruct c; congruence.
        * intros M. destruct (M n c) as [M1 _]; [lia|]. rewrite (M1 E). reflexivity.
    - intros b n1 L [Y M]. assert (Mm : forall m, n1 <= m -> mid n m i -> mid n n1 i) by (intros m Lm H j c Hj; apply H; lia).
      destruct b.
      + specialize (Y eq_refl). clear M. assert (Y' : forall m, n1 <= m -> match lb with
          | Unbounded => True | Included q => exists j c, n <= j < m /\ ask j q (ikey i) = Some c /\ c <> Gt
          | Excluded q => exists j, n <= j < m /\ ask j q (ikey i) = Some Lt end).
        { intros m Lm. destruct lb; auto; [destruct Y as (j & c & Hj & E)|destruct Y as (j & Hj & E)]; repeat eexists; try apply E; lia. }
        destruct ub as [|k|k] eqn:Eu; rewrite <- Eu.
        * apply goes_ret. split; auto. intros _. split; [now apply Y'|]. now rewrite Eu.
        * apply goes_q. intros c E. split.
          -- intros H. split; [apply Y'; lia|]. rewrite Eu. exists n1, c. split; [lia|]. split; auto. destruct c; congruence.
          -- intros H. destruct (H n1 c) as [_ M]; [lia|]. rewrite Eu in M. destruct M as [M _]. now rewrite (M E).
        * apply goes_q. intros c E. split.
          -- intros H. split; [apply Y'; lia|]. rewrite Eu. exists n1. split; [lia|]. destruct c; congruence.
          -- intros H. destruct (H n1 c) as [_ M]; [lia|]. rewrite Eu in M. destruct M as [M _]. now rewrite (M E).
      + apply goes_ret. split; [discriminate|exact M].
  Qed.
  Lemma item_goes i n : goes n 2 (item_t ikey ask lb ub i n : trial unit work)
    (fun w n' => (w = [] \/ (w = [Return i] /\ inn n n' i)) /\ (mid n n' i -> w = [Return i])).
  Proof.
    unfold item_t. eapply goes_after with (b := 0); [apply contains_goes|lia|]. intros b n1 L [Y M]. apply goes_ret. split.
    - destruct b; auto.
    - intros H. now rewrite M.
  Qed.
  Lemma right_goes o i n : goes n 1 (right_t ask ub o (ikey i) n : trial unit work) (fun w n' => (w = [] \/ w = odesc o) /\ (mid n n' i -> w = odesc o)).
  Proof.
    unfold right_t. destruct o as [x|]; [|apply goes_ret; auto]. destruct ub as [|k|k] eqn:Eu; [apply goes_ret; auto| |]; rewrite <- Eu;
      (eapply goes_after with (b := 0) (P := fun b n' => mid n n' i -> b = false);
        [apply goes_q; intros c E M; destruct (M n c) as [_ M2]; [lia|]; rewrite Eu in M2; destruct M2 as [_ M2]; now rewrite (M2 E)|lia|];
       intros b n1 L H; apply goes_ret; split; [destruct b; auto|intros M; now rewrite H]).
  Qed.
  Lemma left_goes o i n : goes n 1 (left_t ask lb o (ikey i) n : trial unit work) (fun w n' => (w = [] \/ w = odesc o) /\ (mid n n' i -> w = odesc o)).
  Proof.
    unfold left_t. destruct o as [x|]; [|apply goes_ret; auto]. destruct lb as [|k|k] eqn:Eu; [apply goes_ret; auto| |]; rewrite <- Eu;
      (eapply goes_after with (b := 0) (P := fun b n' => mid n n' i -> b = false);
        [apply goes_q; intros c E M; destruct (M n c) as [M2 _]; [lia|]; rewrite Eu in M2; now rewrite (M2 E)|lia|];
       intros b n1 L H; apply goes_ret; split; [destruct b; auto|intros M; now rewrite H]).
  Qed.

  Definition rets (n n' : nat) (w : work) : Prop := forall i, In (Return i) w -> inn n n' i.
  (** What a round puts in place of a node. *)
  Definition round (x : N) (n : nat) (w : work) (n' : nat) : Prop :=
    wsize w < nsize x /\ sub (den w) (flat x) /\ rets n n' w /\ (all_mid n n' (flat x) -> den w = flat x).
  Lemma round_of x l i r n n1 n1' n2 n2' n3 n3' n' (wl wi wr : work) : destr x = (l, i, r) ->
    n <= n1 -> n1' <= n' -> n <= n2 -> n2' <= n' -> n <= n3 -> n3' <= n' ->
    (wl = [] \/ wl = odesc l) /\ (mid n1 n1' i -> wl = odesc l) ->
    (wi = [] \/ (wi = [Return i] /\ inn n2 n2' i)) /\ (mid n2 n2' i -> wi = [Return i]) ->
    (wr = [] \/ wr = odesc r) /\ (mid n3 n3' i -> wr = odesc r) -> round x n (wl ++ wi ++ wr) n'.
  Proof.
    intros E L1 L1' L2 L2' L3 L3' [A1 M1] [A2 M2] [A3 M3]. pose proof (Hflat x) as F. pose proof (Hsize x) as Z. rewrite E in F, Z.
    assert (Mi : all_mid n n' (flat x) -> mid n n' i) by (intros M; apply M; rewrite F; apply in_or_app; right; now left).
    split; [|split; [|split]].
    - rewrite !wsize_app. assert (wsize wl <= osize nsize l) by (destruct A1 as [->| ->]; rewrite ?wsize_odesc; cbn; lia).
      assert (wsize wr <= osize nsize r) by (destruct A3 as [->| ->]; rewrite ?wsize_odesc; cbn; lia).
      assert (wsize wi = 0) by (destruct A2 as [->|[-> _]]; reflexivity). lia.
    - rewrite F, !den_app. apply sub_app; [destruct A1 as [->| ->]; [apply sub_nil_l|rewrite den_odesc; apply sub_refl]|].
      change (i :: oflat flat r) with ([i] ++ oflat flat r).
      apply sub_app; [destruct A2 as [->|[-> _]]; [apply sub_nil_l|apply sub_refl]|destruct A3 as [->| ->]; [apply sub_nil_l|rewrite den_odesc; apply sub_refl]].
    - intros y Hy. apply in_app_or in Hy as [Hy|Hy]; [|apply in_app_or in Hy as [Hy|Hy]].
      + exfalso. destruct A1 as [->| ->]; [easy|]. destruct l; cbn in Hy; intuition discriminate.
      + destruct A2 as [->|[-> Y]]; [easy|]. destruct Hy as [[= <-]|[]]. eapply in_mono; [| |exact Y]; lia.
      + exfalso. destruct A3 as [->| ->]; [easy|]. destruct r; cbn in Hy; intuition discriminate.
    - intros M. apply Mi in M. rewrite M1, M2, M3 by (intros j c Hj; apply M; lia). now rewrite F, !den_app, !den_odesc.
  Qed.
  Lemma front_goes x n : goes n 4 (front_t destr ikey ask lb ub x n) (round x n).
  Proof.
    unfold front_t. destruct (destr x) as [[l i] r] eqn:E. eapply goes_after with (b := 3); [apply right_goes|lia|]. intros wr n1 L1 R.
    eapply goes_after with (b := 1); [apply item_goes|lia|]. intros wi n2 L2 C. eapply goes_after with (b := 0); [apply left_goes|lia|]. intros wl n3 L3 Lf.
    apply goes_ret. eapply (round_of x l i r n n2 n3 n1 n2 n n1 n3); eauto; lia.
  Qed.
  Lemma back_goes x n : goes n 4 (back_t destr ikey ask lb ub x n) (round x n).
  Proof.
    unfold back_t. destruct (destr x) as [[l i] r] eqn:E. eapply goes_after with (b := 3); [apply left_goes|lia|]. intros wl n1 L1 Lf.
    eapply goes_after with (b := 1); [apply item_goes|lia|]. intros wi n2 L2 C. eapply goes_after with (b := 0); [apply right_goes|lia|]. intros wr n3 L3 R.
    apply goes_ret. eapply (round_of x l i r n n n1 n1 n2 n2 n3 n3); eauto; lia.
  Qed.

  Definition loop (n0 n : nat) (w w' : work) (n' : nat) : Prop :=
    n' + 4 * wsize w' <= n + 4 * wsize w /\ sub (den w') (den w) /\ rets n0 n' w'
    /\ (forall x w'', w' <> Descend x :: w'') /\ (all_mid n n' (den w) -> den w' = den w).
  Lemma rets_mono n0 n n' w : n <= n' -> rets n0 n w -> rets n0 n' w.
  Proof. intros L R i Hi. eapply in_mono; [| |now apply R]; lia. Qed.
  Lemma prune_front_goes n0 fuel : forall w n, n0 <= n -> wsize w < fuel -> rets n0 n w ->
    goes n (4 * wsize w) (prune_front_t destr ikey ask lb ub fuel w n) (loop n0 n w).
  Proof.
    induction fuel as [|fuel IH]; intros w n L0 Hf R; [lia|]. cbn [prune_front_t].
    assert (Stop : (forall x w'', w <> Descend x :: w'') -> goes n (4 * wsize w) (Returned tt w n) (loop n0 n w)).
    { intros X. apply goes_ret. split; [lia|]. split; [apply sub_refl|]. auto. }
    destruct w as [|[x|i] w]; [apply Stop; discriminate| |apply Stop; discriminate]. clear Stop.
    rewrite wsize_cons in *. cbn [asize] in *. pose proof (front_goes x n) as G.
    assert (0 < nsize x). { pose proof (Hsize x). destruct (destr x) as [[? ?] ?]. lia. }
    eapply goes_after with (b := 4 * (nsize x + wsize w - 1)); [exact G|lia|]. intros e n1 L1 (S1 & S2 & S3 & S4).
    eapply goes_weaken with (a := 4 * wsize (e ++ w)); [apply IH| |].
    - lia.
    - rewrite wsize_app. lia.
    - intros i Hi. apply in_app_or in Hi as [Hi|Hi]; [eapply in_mono; [| |now apply S3]; lia|]. eapply in_mono; [| |apply R; now right]; lia.
    - rewrite wsize_app. lia.
    - intros w' n' L' (B & D & R' & X & M). rewrite wsize_app in B. split; [rewrite wsize_cons; cbn [asize]; lia|].
      rewrite den_app in D, M. change (den (Descend x :: w)) with (flat x ++ den w). split; [eapply BTreeHeapProofs.sub_trans; [exact D|]; apply sub_app; [exact S2|apply sub_refl]|].
      split; auto. split; auto. intros Ml. rewrite S4 in M.
      + apply M. apply mid_mono with (m := n) (m' := n'); [lia|lia|exact Ml].
      + apply mid_mono with (m := n) (m' := n'); [lia|lia|]. intros i Hi. apply Ml, in_or_app. auto.
  Qed.
  Lemma prune_back_goes n0 fuel : forall w n, n0 <= n -> wsize w < fuel -> rets n0 n w -> (forall x w'', w <> Descend x :: w'') ->
    goes n (4 * wsize w) (prune_back_t destr ikey ask lb ub fuel w n)
      (fun w' n' => loop n0 n w w' n' /\ forall x w'', w' <> w'' ++ [Descend x]).
  Proof.
    induction fuel as [|fuel IH]; intros w n L0 Hf R Nd; [lia|]. cbn [prune_back_t].
    assert (Stop : (forall x w'', w <> w'' ++ [Descend x]) -> goes n (4 * wsize w) (Returned tt w n)
      (fun w' n' => loop n0 n w w' n' /\ forall x w'', w' <> w'' ++ [Descend x])).
    { intros X. apply goes_ret. split; [|exact X]. split; [lia|]. split; [apply sub_refl|]. auto. }
    destruct (rev_cases w) as [->|(w0 & [x|i] & ->)].
    - apply Stop. intros x w'' H. now destruct w''.
    - clear Stop. rewrite rev_app_distr. cbn [rev app]. rewrite rev_involutive. rewrite wsize_app, wsize_cons in *. cbn [asize] in *. pose proof (back_goes x n) as G.
      assert (0 < nsize x). { pose proof (Hsize x). destruct (destr x) as [[? ?] ?]. lia. }
      change (AvlIterModel.wsize nsize ([] : work)) with 0 in *.
      eapply goes_after with (b := 4 * (nsize x + wsize w0 - 1)); [exact G|lia|]. intros e n1 L1 (S1 & S2 & S3 & S4).
      eapply goes_weaken with (a := 4 * wsize (w0 ++ e)); [apply IH| |].
      + lia.
      + rewrite wsize_app. lia.
      + intros i Hi. apply in_app_or in Hi as [Hi|Hi]; [|eapply in_mono; [| |now apply S3]; lia]. eapply in_mono; [| |apply R, in_or_app; left; exact Hi]; lia.
      + destruct w0 as [|[y|i0] w0]; cbn [app] in *; try discriminate; exfalso; eapply Nd; reflexivity.
      + rewrite wsize_app. lia.
      + intros w' n' L' ((B & D & R' & X & M) & Y). split; [|exact Y]. rewrite wsize_app in B. split; [rewrite wsize_app, wsize_cons; cbn [asize]; lia|].
        rewrite den_app in D, M. rewrite den_app. change (den [Descend x]) with (flat x ++ []). rewrite app_nil_r.
        split; [eapply BTreeHeapProofs.sub_trans; [exact D|]; apply sub_app; [apply sub_refl|exact S2]|].
        split; auto. split; auto. intros Ml. rewrite S4 in M.
        * apply M. apply mid_mono with (m := n) (m' := n'); [lia|lia|exact Ml].
        * apply mid_mono with (m := n) (m' := n'); [lia|lia|]. intros i Hi. apply Ml, in_or_app. auto.
    - rewrite rev_app_distr. cbn [rev app]. apply Stop. intros x w'' H. apply app_inj_tail in H as [_ H]. discriminate.
  Qed.

  Lemma range_goes root len n : goes n (4 * osize nsize root) (range_iter_t destr nsize ikey ask lb ub root len n)
    (fun it n' => it_len it = len /\ ask_range ikey ask lb ub n n' (oflat flat root) (den (it_work it))).
  Proof.
    unfold range_iter_t. pose proof (prune_front_goes n (S (wsize (odesc root : work))) (odesc root) n (le_n _) (le_n _)) as F.
    rewrite wsize_odesc in F.
    unfold after at 1. assert (R0 : rets n n (odesc root)) by (intros i Hi; destruct root; cbn in Hi; intuition discriminate).
    specialize (F R0). rewrite wsize_odesc. destruct (prune_front_t _ _ _ _ _ _ _ n) as [[] w1 n1|u n1|]; [|exact F|exact F].
    destruct F as [L1 (B1 & D1 & R1 & X1 & M1)]. rewrite wsize_odesc, den_odesc in *.
    pose proof (prune_back_goes n (S (wsize w1)) w1 n1 (proj1 L1) (le_n _) R1 X1) as G.
    unfold after. destruct (prune_back_t _ _ _ _ _ _ _ n1) as [[] w2 n2|u n2|]; cbn [AvlRangeAskProofs.goes it_len it_work] in G |- *; [|destruct G; split; auto; lia|exact G].
    destruct G as [L2 ((B2 & D2 & R2 & X2 & M2) & Y2)]. split; [lia|]. split; auto. split; [|split].
    - eapply BTreeHeapProofs.sub_trans; eauto.
    - intros Ml. rewrite M2; [apply M1|rewrite M1]; try (apply mid_mono with (m := n) (m' := n2); [lia|lia|exact Ml]).
    - intros i [H|H].
      + destruct w2 as [|[x|j] w2]; [discriminate|exfalso; eapply X2; reflexivity|]. injection H as <-. apply R2. now left.
      + destruct (rev_cases w2) as [->|(w0 & [x|j] & ->)]; [discriminate|exfalso; eapply Y2; reflexivity|].
        rewrite den_app, rev_app_distr in H. injection H as <-. apply R2, in_or_app. right. now left.
  Qed.
End AskRange.

(** ** Comparisons of an order that may panic *)
Section Law.
  Context {N I : Type} (destr : N -> option N * I * option N) (nsize : N -> nat) (nlev : N -> nat).
  Context (Hsize : forall n, let '(l, _, r) := destr n in (osize nsize l + osize nsize r < nsize n)%nat).
  Notation olev := (osize nlev).
  Context (Hlev : forall n, let '(l, _, r) := destr n in olev l < nlev n /\ olev r < nlev n).
  Context {Q : Type} (ikey : I -> Q) (ask : nat -> Q -> Q -> option comparison) (lb ub : bound Q) (cmp : Q -> Q -> comparison).
  Context (laws : order_laws cmp) (A : answers cmp ask).
  Notation work := (list (action N I)).
  Notation wsize := (wsize nsize).
  Notation goes := (goes ask).

  Lemma contains_law q n : goes n 2 (contains_t ask lb ub q n) (fun b _ => b = contains cmp lb ub q).
  Proof.
    unfold contains_t, contains. eapply goes_after with (a := 1) (b := 1) (P := fun b _ => b = match lb with
      | Unbounded => true | Included k => match cmp k q with Gt => false | _ => true end
      | Excluded k => match cmp k q with Lt => true | _ => false end end); [|lia|].
    - destruct lb; [now apply goes_ret| |]; apply goes_q; intros c E; apply A in E; now subst.
    - intros b n1 _ <-. destruct b; [|now apply goes_ret]. destruct ub; [now apply goes_ret| |]; apply goes_q; intros c E; apply A in E; now subst.
  Qed.
  Lemma item_law i n : goes n 2 (item_t ikey ask lb ub i n : trial unit work) (fun w _ => w = if contains cmp lb ub (ikey i) then [Return i] else []).
  Proof. unfold item_t. eapply goes_after with (b := 0); [apply contains_law|lia|]. intros b n1 _ ->. now apply goes_ret. Qed.
  Lemma right_law o q n : goes n 1 (right_t ask ub o q n : trial unit work) (fun w _ => w = if prune_rt cmp ub q then [] else odesc o).
  Proof.
    unfold right_t, prune_rt. destruct o as [x|]; [|apply goes_ret; cbn; now destruct (match ub with Unbounded => _ | _ => _ end)].
    destruct ub as [|k|k]; [now apply goes_ret| |];
      (eapply goes_after with (b := 0) (P := fun b _ => b = match cmp k q with Gt => false | _ => true end);
        [apply goes_q; intros c E; apply A in E; now subst|lia|]; intros b n1 _ ->; now apply goes_ret).
  Qed.
  Lemma left_law o q n : goes n 1 (left_t ask lb o q n : trial unit work) (fun w _ => w = if prune_lf cmp lb q then [] else odesc o).
  Proof.
    unfold left_t, prune_lf. destruct o as [x|]; [|apply goes_ret; cbn; now destruct (match lb with Unbounded => _ | _ => _ end)].
    destruct lb as [|k|k]; [now apply goes_ret| |];
      (eapply goes_after with (b := 0) (P := fun b _ => b = match cmp k q with Lt => false | _ => true end);
        [apply goes_q; intros c E; apply A in E; now subst|lia|]; intros b n1 _ ->; now apply goes_ret).
  Qed.
  Notation exp_ := (expand destr ikey cmp lb ub).
  Lemma front_law x n : goes n 4 (front_t destr ikey ask lb ub x n) (fun w _ => w = exp_ x).
  Proof.
    unfold front_t, expand. destruct (destr x) as [[l i] r]. eapply goes_after with (b := 3); [apply right_law|lia|]. intros wr n1 _ ->.
    eapply goes_after with (b := 1); [apply item_law|lia|]. intros wi n2 _ ->. eapply goes_after with (b := 0); [apply left_law|lia|]. intros wl n3 _ ->.
    now apply goes_ret.
  Qed.
  Lemma back_law x n : goes n 4 (back_t destr ikey ask lb ub x n) (fun w _ => w = exp_ x).
  Proof.
    unfold back_t, expand. destruct (destr x) as [[l i] r]. eapply goes_after with (b := 3); [apply left_law|lia|]. intros wl n1 _ ->.
    eapply goes_after with (b := 1); [apply item_law|lia|]. intros wi n2 _ ->. eapply goes_after with (b := 0); [apply right_law|lia|]. intros wr n3 _ ->.
    now apply goes_ret.
  Qed.

  (** No two nodes are neighbours on the list. *)
  Definition first_node (w : work) : Prop := exists x w', w = Descend x :: w'.
  Fixpoint alt (w : work) : Prop :=
    match w with
    | [] => True
    | Descend _ :: w' => ~ first_node w' /\ alt w'
    | Return _ :: w' => alt w'
    end.
  Lemma alt_app u v : alt u -> alt v -> ((exists u' x, u = u' ++ [Descend x]) -> ~ first_node v) -> alt (u ++ v).
  Proof.
    induction u as [|[x|i] u IH]; intros Hu Hv J; auto; cbn [app alt] in *.
    - destruct Hu as [H1 H2]. split.
      + destruct u as [|[y|i] u]; cbn [app].
        * apply J. now exists [], x.
        * exfalso. apply H1. now exists y, u.
        * intros (y & w' & [=]).
      + apply IH; auto. intros (u' & y & ->). apply J. now exists (Descend x :: u'), y.
    - apply IH; auto. intros (u' & y & ->). apply J. now exists (Return i :: u'), y.
  Qed.
  Lemma alt_split u v : alt (u ++ v) -> alt u /\ alt v /\ ((exists u' x, u = u' ++ [Descend x]) -> ~ first_node v).
  Proof.
    induction u as [|[x|i] u IH]; intros H; cbn [app alt] in *.
    - split; auto. split; auto. intros (u' & x & E). now destruct u'.
    - destruct H as [H1 H2]. destruct (IH H2) as (P1 & P2 & P3). split; [|split]; auto.
      + split; auto. intros (y & w' & ->). apply H1. now exists y, (w' ++ v).
      + intros (u' & y & E). destruct u' as [|a u']; cbn [app] in E; injection E as E1 E2; [subst; exact H1|]. apply P3. now exists u', y.
    - destruct (IH H) as (P1 & P2 & P3). split; [|split]; auto.
      intros (u' & y & E). destruct u' as [|a u']; cbn [app] in E; [discriminate|injection E as E1 E2]. apply P3. now exists u', y.
  Qed.
  Lemma exp_alt x : alt (exp_ x).
  Proof.
    unfold expand. destruct (destr x) as [[l i] r].
    assert (C : contains cmp lb ub (ikey i) = false -> prune_lf cmp lb (ikey i) = true \/ prune_rt cmp ub (ikey i) = true).
    { unfold contains, prune_lf, prune_rt. intros H. apply andb_false_iff in H as [H|H].
      - left. destruct lb as [|k|k]; [discriminate| |]; destruct (cmp k (ikey i)); congruence.
      - right. destruct ub as [|k|k]; [discriminate| |]; rewrite (cmp_opp _ laws (ikey i) k); destruct (cmp (ikey i) k); cbn; congruence. }
    destruct (contains cmp lb ub (ikey i)).
    - destruct (prune_lf _ _ _), l as [l|], (prune_rt _ _ _), r as [r|]; cbn [odesc app alt]; repeat split; auto; intros (y & w' & [=]).
    - destruct (C eq_refl) as [-> | ->]; [destruct (prune_rt _ _ _), r as [r|]|destruct (prune_lf _ _ _), l as [l|]]; cbn [odesc app alt]; repeat split; auto;
        intros (y & w' & [=]).
  Qed.
  Definition low (d : nat) (w : work) : Prop := forall x, In (Descend x) w -> nlev x <= d.
  Lemma exp_low x d : nlev x <= S d -> low d (exp_ x).
  Proof.
    intros L y Hy. unfold expand in Hy. pose proof (Hlev x) as H. destruct (destr x) as [[l i] r].
    assert (O : forall o, olev o <= d -> In (Descend y) (odesc o : work) -> nlev y <= d).
    { intros [z|] Ho Hi; [|easy]. destruct Hi as [[= <-]|[]]. exact Ho. }
    apply in_app_or in Hy as [Hy|Hy]; [|apply in_app_or in Hy as [Hy|Hy]].
    - destruct (prune_lf _ _ _); [easy|]. apply (O l); auto. lia.
    - destruct (contains _ _ _ _); [|easy]. destruct Hy as [[=]|[]].
    - destruct (prune_rt _ _ _); [easy|]. apply (O r); auto. lia.
  Qed.
  Lemma exp_size x : wsize (exp_ x) < nsize x.
  Proof.
    unfold expand. pose proof (Hsize x) as Z. destruct (destr x) as [[l i] r]. rewrite !wsize_app.
    assert (B : forall (b : bool) o, wsize (if b then [] else odesc o : work) <= osize nsize o) by (intros [] o; rewrite ?wsize_odesc; cbn; lia).
    pose proof (B (prune_lf cmp lb (ikey i)) l). pose proof (B (prune_rt cmp ub (ikey i)) r).
    assert (wsize (if contains cmp lb ub (ikey i) then [Return i] else [] : work) = 0) by now destruct (contains _ _ _ _). lia.
  Qed.
  Lemma lev_pos x : 0 < nlev x.
  Proof. pose proof (Hlev x). destruct (destr x) as [[? ?] ?]. lia. Qed.

  (** The first node is at level [d]; all are below level [top]. *)
  Lemma prune_front_law top fuel : forall d w n, wsize w < fuel -> alt w -> low top w -> (forall x w', w = Descend x :: w' -> nlev x <= d) ->
    goes n (4 * d) (prune_front_t destr ikey ask lb ub fuel w n)
      (fun w' _ => prune_front destr ikey cmp lb ub fuel w = Ok w' /\ alt w' /\ low top w').
  Proof.
    induction fuel as [|fuel IH]; intros d w n Hf Al Lo Hd; [lia|]. cbn [prune_front_t prune_front].
    destruct w as [|[x|i] w]; [apply goes_ret; auto| |apply goes_ret; auto].
    pose proof (lev_pos x). specialize (Hd x w eq_refl). destruct d as [|d]; [lia|].
    eapply goes_after with (b := 4 * d); [apply front_law|lia|]. intros e n1 _ ->. cbn [alt] in Al. destruct Al as [Nf Al].
    rewrite wsize_cons in Hf. cbn [asize] in Hf. pose proof (exp_size x). pose proof (Lo x (or_introl eq_refl)) as Lx.
    apply IH.
    - rewrite wsize_app. lia.
    - apply alt_app; auto. apply exp_alt.
    - intros y Hy. apply in_app_or in Hy as [Hy|Hy]; [|apply Lo; now right]. apply (exp_low x (nlev x)) in Hy; lia.
    - intros y w' E. destruct (exp_ x) as [|a e'] eqn:Ee; [exfalso; apply Nf; cbn in E; now exists y, w'|].
      cbn [app] in E. injection E as -> _. apply (exp_low x d Hd). rewrite Ee. now left.
  Qed.
  Lemma prune_back_law fuel : forall d w n, wsize w < fuel -> alt w -> (forall x w', w = w' ++ [Descend x] -> nlev x <= d) ->
    goes n (4 * d) (prune_back_t destr ikey ask lb ub fuel w n) (fun w' _ => prune_back destr ikey cmp lb ub fuel w = Ok w').
  Proof.
    induction fuel as [|fuel IH]; intros d w n Hf Al Hd; [lia|]. cbn [prune_back_t prune_back].
    destruct (rev_cases w) as [->|(w0 & [x|i] & ->)]; [apply goes_ret; auto| |rewrite rev_app_distr; apply goes_ret; auto].
    rewrite rev_app_distr. cbn [rev app]. rewrite rev_involutive. pose proof (lev_pos x). specialize (Hd x w0 eq_refl). destruct d as [|d]; [lia|].
    eapply goes_after with (b := 4 * d); [apply back_law|lia|]. intros e n1 _ ->. apply alt_split in Al as (Al & _ & Nf).
    rewrite wsize_app, wsize_cons in Hf. cbn [asize] in Hf. pose proof (exp_size x).
    assert (Nl : forall u y, w0 <> u ++ [Descend y]). { intros u y ->. apply Nf; [now exists u, y|now exists x, []]. }
    apply IH.
    - rewrite wsize_app. lia.
    - apply alt_app; auto. apply exp_alt. intros (u & y & E). now apply Nl in E.
    - intros y w' E. destruct (rev_cases (exp_ x)) as [Ee|(e' & a & Ee)]; rewrite Ee in E.
      + rewrite app_nil_r in E. now apply Nl in E.
      + rewrite app_assoc in E. apply app_inj_tail in E as [_ ->]. apply (exp_low x d Hd). rewrite Ee. apply in_or_app. right. now left.
  Qed.
  Lemma range_law root len n : goes n (8 * olev root) (range_iter_t destr nsize ikey ask lb ub root len n)
    (fun it _ => range_iter destr nsize ikey cmp lb ub root len = Ok it).
  Proof.
    unfold range_iter_t, range_iter.
    assert (L0 : low (olev root) (odesc root)). { intros x Hx. destruct root; [|easy]. destruct Hx as [[= <-]|[]]. cbn. lia. }
    eapply goes_after with (a := 4 * olev root) (b := 4 * olev root); [apply (prune_front_law (olev root))|lia|].
    - lia.
    - destruct root; cbn; auto. split; auto. intros (x & w & [=]).
    - exact L0.
    - intros x w' E. apply L0. rewrite E. now left.
    - intros w1 n1 _ (E1 & A1 & L1). rewrite E1. cbn [bind]. eapply goes_after with (b := 0); [apply (prune_back_law _ (olev root))|lia|].
      + lia.
      + exact A1.
      + intros x w' ->. apply L1, in_or_app. right. now left.
      + intros w2 n2 _ ->. apply goes_ret. reflexivity.
  Qed.
End Law.

Section AvlRange.
  Context {K V Q : Type} (bor : K -> Q) (ask : nat -> Q -> Q -> option comparison).
  Notation entry := (K * V)%type.

  Lemma osize_nnode (t : tree K V) : osize norm_size (mk_nnode t) = length (elems t).
  Proof. destruct t as [|k v lh rh l r]; cbn [mk_nnode osize norm_size elems]; auto. rewrite app_length. cbn [length]. rewrite !AvlProofs2.t_len_elems. lia. Qed.
  Lemma osize_mnode p (t : tree K V) : osize mut_size (mk_mnode p t) = length (elems t).
  Proof. destruct t as [|k v lh rh l r]; cbn [mk_mnode osize mut_size elems]; auto. rewrite app_length. cbn [length]. rewrite !AvlProofs2.t_len_elems. lia. Qed.

  Lemma a_range_ask (m : avl_map K V) l lo hi n : a_any m l ->
    match avl_range_t bor ask m lo hi n with
    | Returned _ it n' => n <= n' <= n + 4 * length l /\ exists l', ask_range (fun e => bor (fst e)) ask lo hi n n' l l'
        /\ forall cs, exists extra, run_ends norm_destr norm_size cs it = Ok (map (fun x => (fst x, snd x + extra)) (s_ends cs l'))
    | Ask.Unwound _ n' => n < n' <= n + 4 * length l /\ panicked ask n'
    | Fault => False
    end.
  Proof.
    intros H. apply aany_iff in H as (A & <- & L). unfold avl_range_t.
    pose proof (range_goes norm_destr norm_size nflat norm_flat norm_sized (fun e => bor (fst e)) ask lo hi (mk_nnode (am_root m)) (avl_len m) n) as G.
    rewrite osize_nnode, nflat_mk in G. destruct (range_iter_t _ _ _ _ _ _ _ _ _) as [u it n'|u n'|]; cbn [goes] in G; auto.
    destruct G as [Ln [E R]]. split; [exact Ln|]. eexists. split; [exact R|]. intros cs. exists (avl_len m - length (AvlIterProofs.den nflat (it_work it))).
    rewrite <- E. apply (run_ends_ok norm_destr norm_size nflat norm_flat norm_sized cs it). rewrite E. destruct R as [D _]. apply sub_length in D. unfold avl_len. lia.
  Qed.
  Lemma a_range_mut_ask (m : avl_map K V) l lo hi n : a_any m l -> exists all, map snd all = map fst l /\ NoDup (map fst all)
    /\ (forall i r w, nth_error all i = Some r -> a_any (avl_write r w m) (upd_nth i w l))
    /\ match avl_range_mut_t bor ask m lo hi n with
       | Returned _ it n' => n <= n' <= n + 4 * length l /\ exists refs, ask_range (fun r => bor (snd r)) ask lo hi n n' all refs
           /\ forall cs, exists extra, run_ends mut_destr mut_size cs it = Ok (map (fun x => (fst x, snd x + extra)) (s_ends cs refs))
       | Ask.Unwound _ n' => n < n' <= n + 4 * length l /\ panicked ask n'
       | Fault => False
       end.
  Proof.
    intros H. destruct (a_range_mut_any bor (fun _ _ => Eq) m l lo hi H) as (all & _ & _ & E1 & E2 & _ & _ & _ & _ & W).
    apply aany_iff in H as (A & <- & L). exists (mrefs m). split; [apply refs_keys|]. split; [apply refs_nodup|]. split.
    - clear all E1 E2 W. intros i [q k] w' Hi. destruct (write_at_ok w' (am_root m) [] i q k Hi) as (E1 & _ & E3).
      apply aany_iff. cbn [avl_write am_root am_len fst]. split; [now apply E3|]. split; auto.
      rewrite L. rewrite <- (map_length fst (upd_nth _ _ _)), upd_nth_keys. now rewrite map_length.
    - unfold avl_range_mut_t.
      pose proof (range_goes mut_destr mut_size mflat mut_flat mut_sized (fun r => bor (snd r)) ask lo hi (mk_mnode [] (am_root m)) (avl_len m) n) as G.
      rewrite osize_mnode, mflat_mk in G. destruct (range_iter_t _ _ _ _ _ _ _ _ _) as [u it n'|u n'|]; cbn [goes] in G; auto.
      destruct G as [Ln [E R]]. split; [exact Ln|]. eexists. split; [exact R|]. intros cs. exists (avl_len m - length (AvlIterProofs.den mflat (it_work it))).
      rewrite <- E. apply (run_ends_ok mut_destr mut_size mflat mut_flat mut_sized cs it). rewrite E. destruct R as [D _]. apply sub_length in D.
      rewrite refs_length in D. unfold avl_len. lia.
  Qed.
  Lemma h_range_ask (h : heap (pay K V)) m l lo hi n : hany h m l ->
    match hm_range_t bor ask h m lo hi n with
    | Returned _ it n' => n <= n' <= n + 4 * length l /\ exists l', ask_range (fun e => bor (fst e)) ask lo hi n n' l l'
        /\ forall cs, exists extra, run_ends norm_destr norm_size cs it = Ok (map (fun x => (fst x, snd x + extra)) (s_ends cs l'))
    | Ask.Unwound _ n' => n < n' <= n + 4 * length l /\ panicked ask n'
    | Fault => False
    end.
  Proof. intros (a & E & H). unfold hm_range_t. rewrite E. now apply a_range_ask. Qed.

  Definition nlev (x : nnode) : nat := let '(_, l, r) := (x : (K * V) * tree K V * tree K V) in S (Nat.max (AvlShows.depth l) (AvlShows.depth r)).
  Definition mlev (x : mnode) : nat := let '(_, l, r) := (x : AvlIterModel.path * K * tree K V * tree K V) in S (Nat.max (AvlShows.depth l) (AvlShows.depth r)).
  Lemma olev_n (t : tree K V) : osize nlev (mk_nnode t) = AvlShows.depth t.
  Proof. now destruct t. Qed.
  Lemma olev_m p (t : tree K V) : osize mlev (mk_mnode p t) = AvlShows.depth t.
  Proof. now destruct t. Qed.
  Lemma a_range_order cmp : order_laws cmp -> answers cmp ask -> forall (m : avl_map K V) l lo hi n, AvlShows.shows bor cmp m l ->
    exists lev, log_bound l lev
      /\ fares ask n (8 * lev) (avl_range_t bor ask m lo hi n)
           (fun _ it => forall cs, exists extra, run_ends norm_destr norm_size cs it = Ok (map (fun x => (fst x, snd x + extra)) (s_ends cs (s_range bor cmp lo hi l))))
           (fun _ => True)
      /\ fares ask n (8 * lev) (avl_range_mut_t bor ask m lo hi n) (fun _ it => avl_range_mut bor cmp m lo hi = Ok it) (fun _ => True).
  Proof.
    intros laws A m l lo hi n H. exists (AvlShows.depth (am_root m)). split; [now apply (AskShows.depth_log bor cmp laws)|]. split.
    - pose proof (range_law norm_destr norm_size nlev norm_sized) as G. specialize (G ltac:(intros [[e x] y]; cbn [norm_destr nlev]; rewrite !olev_n; lia)).
      specialize (G _ (fun e => bor (fst e)) ask lo hi cmp laws A (mk_nnode (am_root m)) (avl_len m) n). rewrite olev_n in G.
      unfold avl_range_t. destruct (range_iter_t _ _ _ _ _ _ _ _ _) as [u it n'|u n'|]; cbn [goes fares] in *; [|destruct G; auto|auto].
      destruct G as [Ln E]. split; auto. intros cs. destruct (AvlShows.range_l bor cmp laws m l lo hi cs H) as (it' & extra & E' & R & _).
      unfold avl_range in E'. rewrite E in E'. injection E' as <-. exists extra. exact R.
    - pose proof (range_law mut_destr mut_size mlev mut_sized) as G. specialize (G ltac:(intros [[[p e] x] y]; cbn [mut_destr mlev]; rewrite !olev_m; lia)).
      specialize (G _ (fun r => bor (snd r)) ask lo hi cmp laws A (mk_mnode [] (am_root m)) (avl_len m) n). rewrite olev_m in G.
      unfold avl_range_mut_t, avl_range_mut. destruct (range_iter_t _ _ _ _ _ _ _ _ _) as [u it n'|u n'|]; cbn [goes fares] in *; [|destruct G; auto|auto].
      destruct G as [Ln E]. auto.
  Qed.
End AvlRange.
