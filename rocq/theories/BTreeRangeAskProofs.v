(** [range] and [range_mut] of the B-tree map with comparisons that may answer anything and may panic.

    In a call an entry is compared at most once with either bound. So a call that does not unwind is a call of the model
    without state on a tree whose keys are the answers they were given ([tag]); where no question was asked, the tag is any [d]. *)
From Coq Require Import List PeanoNat Bool Lia.
From Verif Require Import Base Spec MapSpec Vec BTreeModel BTreeProofs BTreeProofs2 BTreeIterModel BTreeIterProofs BTreeIterProofs2 BTreeRangeProofs
  BTreeMutProofs BTreeShows AvlHeapSpec AnyOrdSpec BAnyRangeSpec BTreeAnyProofs AnyOrdShows BTreeAnyRange Ask AskSpec BAskRangeSpec BTreeRangeAskModel.
From Verif Require Heap BTreeHeapModel BAnyHeapSpec.
Import ListNotations.
Local Open Scope nat_scope.

Notation back := (fun s : unit => s).

(** ** Calls *)
Definition rmap {A B} (f : A -> B) (r : res A) : res B := match r with Ok x => Ok (f x) | Panic => Panic end.
Section Runs.
  Context {Q : Type} (ask : nat -> Q -> Q -> option comparison).
  (** A call that starts after [n] questions, asks at most [most] and ends with [P], unless a question unwinds. *)
  Definition runs {R} (n most : nat) (t : trial unit R) (P : res R -> nat -> Prop) : Prop :=
    match t with
    | Returned _ r n' => n <= n' <= n + most /\ P (Ok r) n'
    | Unwound _ n' => n < n' <= n + most /\ panicked ask n'
    | Fault => exists n', n <= n' <= n + most /\ P Panic n'
    end.
  Lemma runs_after {R R'} n a b c (t : trial unit R) (f : unit -> R -> nat -> trial unit R') (P : res R -> nat -> Prop) (P' : res R' -> nat -> Prop) :
    runs n a t P -> a + b <= c ->
    (forall r n1, n <= n1 -> P (Ok r) n1 -> runs n1 b (f tt r n1) P') -> (forall n1, n <= n1 -> P Panic n1 -> P' Panic n1) -> runs n c (after t back f) P'.
  Proof.
    intros G Hc F Fp. destruct t as [[] r n1|u n1|]; cbn in *; [|intuition lia|].
    - destruct G as [L G]. specialize (F r n1 (proj1 L) G). destruct (f tt r n1) as [u r' n2|u n2|]; cbn in *.
      + intuition lia.
      + intuition lia.
      + destruct F as (n2 & L2 & F). exists n2. split; [lia|auto].
    - destruct G as (n1 & L & G). exists n1. split; [lia|]. apply Fp; auto. lia.
  Qed.
  Lemma runs_mono {R} n a b (t : trial unit R) (P P' : res R -> nat -> Prop) : runs n a t P -> a <= b ->
    (forall r n1, n <= n1 -> P r n1 -> P' r n1) -> runs n b t P'.
  Proof.
    intros G L F. destruct t as [u r n1|u n1|]; cbn in *; [|intuition lia|].
    - split; [lia|]. apply F; [lia|tauto].
    - destruct G as (n1 & L1 & G). exists n1. split; [lia|]. apply F; [lia|auto].
  Qed.
  Lemma runs_ret {R} n most (r : R) (P : res R -> nat -> Prop) : P (Ok r) n -> runs n most (Returned tt r n) P.
  Proof. cbn. intros H. split; [lia|auto]. Qed.
  Lemma runs_fault {R} n most (P : res R -> nat -> Prop) : P Panic n -> runs n most Fault P.
  Proof. cbn. intros H. exists n. split; [lia|auto]. Qed.
End Runs.

(** ** Trees with other entries *)
Section Nest.
  Context {K V : Type} (P : bt K V -> Prop) (H : forall es ks, Forall P ks -> P (BN es ks)).
  Fixpoint bt_nest (t : bt K V) : P t :=
    match t with
    | BN es ks => H es ks ((fix go ks : Forall P ks := match ks with [] => Forall_nil _ | c :: ks' => Forall_cons _ (bt_nest c) (go ks') end) ks)
    end.
End Nest.
Section MapTree.
  Context {K K' V : Type} (f : K' * V -> K * V).
  Fixpoint mapt (t : bt K' V) : bt K V := match t with BN es ks => BN (map f es) (map mapt ks) end.
  Definition mape (g : erg K' V) : erg K V := Erg (map f (g_elems g)) (map mapt (g_kids g)) (g_lf g) (g_rt g).

  Lemma weave_map ks : forall es, weave (map (map f) ks) (map f es) = map f (weave ks es).
  Proof.
    induction ks as [|k ks IH]; intros es; [reflexivity|]. cbn [map weave]. rewrite map_app. f_equal. destruct es as [|e es]; cbn [map].
    - now rewrite concat_map.
    - now rewrite IH.
  Qed.
  Lemma flat_map t : flat (mapt t) = map f (flat t).
  Proof.
    induction t as [es ks IH] using bt_nest. cbn [mapt flat]. rewrite <- weave_map, !map_map. f_equal. apply map_ext_in.
    rewrite Forall_forall in IH. exact IH.
  Qed.
  Lemma den_map g : den (mape g) = map f (den g).
  Proof.
    destruct g as [es ks lf rt]. unfold den, mape. cbn [g_elems g_kids g_lf].
    assert (E : map flat (map mapt ks) = map (map f) (map flat ks)) by (rewrite !map_map; apply map_ext; exact flat_map).
    rewrite E. destruct lf; [apply weave_map|]. destruct es; cbn [map]; [reflexivity|]. now rewrite weave_map.
  Qed.
  Lemma dens_map w : dens (map mape w) = map f (dens w).
  Proof. unfold dens. rewrite map_map, concat_map, map_map. f_equal. apply map_ext. exact den_map. Qed.
  Lemma shape_map N h : forall mn t, shape N mn h (mapt t) <-> shape N mn h t.
  Proof.
    induction h as [|h IH]; intros mn [es ks]; cbn [mapt]; split; intros S.
    - apply shape_0 in S as (es0 & E & Hl). injection E as <- E. apply map_eq_nil in E. subst ks. rewrite map_length in Hl. now constructor.
    - apply shape_0 in S as (es0 & E & Hl). injection E as -> ->. constructor. now rewrite map_length.
    - apply shape_S in S as (es0 & ks0 & E & Hl & Hk & F). injection E as <- <-. rewrite !map_length in *. constructor; auto.
      rewrite Forall_map in F. eapply Forall_impl; [|exact F]. intros c Hc. now apply IH.
    - apply shape_S in S as (es0 & ks0 & E & Hl & Hk & F). injection E as <- <-. constructor; rewrite ?map_length; auto.
      rewrite Forall_map. eapply Forall_impl; [|exact F]. intros c Hc. now apply IH.
  Qed.
  Lemma tidy_map t : tidy t -> tidy (mapt t).
  Proof.
    induction t as [es ks IH] using bt_nest. intros T. inversion T; subst; cbn [mapt].
    - constructor. intros E. now apply map_eq_nil in E.
    - constructor; [now rewrite !map_length|]. rewrite Forall_map. rewrite Forall_forall in *. auto.
  Qed.
  Lemma ok2_map g : ok2 g -> ok2 (mape g).
  Proof.
    destruct g as [es ks lf rt]. intros [B E]. split.
    - unfold bal, mape in *. cbn [g_kids g_elems g_lf g_rt] in *. destruct B as [B|[B L]]; [left; now subst|right]. rewrite !map_length. split; auto. rewrite Forall_map. eapply Forall_impl; [|exact B]. exact tidy_map.
    - unfold g_empty in *. cbn in *. now destruct es, ks.
  Qed.
  Lemma rich_map N g : rich N g -> rich N (mape g).
  Proof.
    unfold rich. cbn [mape g_kids]. rewrite Forall_map. apply Forall_impl. intros c [h S]. exists h. now apply shape_map.
  Qed.
  Lemma slice_map i j l : slice i j (map f l) = rmap (map f) (slice i j l).
  Proof. unfold slice. rewrite map_length. destruct ((i <=? j) && (j <=? length l)); cbn; auto. now rewrite skipn_map, firstn_map. Qed.
End MapTree.
Lemma mapt_inv {K K' V} (f : K' * V -> K * V) (g : K * V -> K' * V) : (forall e, f (g e) = e) -> forall t, mapt f (mapt g t) = t.
Proof.
  intros H t. induction t as [es ks IH] using bt_nest. cbn [mapt]. rewrite !map_map. f_equal.
  - rewrite <- (map_id es) at 2. apply map_ext. exact H.
  - rewrite <- (map_id ks) at 2. apply map_ext_in. rewrite Forall_forall in IH. exact IH.
Qed.
Lemma sod_split {A} i j (l : list A) : exists a b, l = a ++ slice_or_default i j l ++ b /\
  forall B (a' m' b' : list B), length a' = length a -> length m' = length (slice_or_default i j l) -> length b' = length b ->
  slice_or_default i j (a' ++ m' ++ b') = m'.
Proof.
  unfold slice_or_default, slice. destruct ((i <=? j) && (j <=? length l)) eqn:E.
  - apply andb_true_iff in E as [E1 E2]. apply Nat.leb_le in E1, E2. exists (firstn i l), (skipn (j - i) (skipn i l)).
    split; [now rewrite firstn_skipn, firstn_skipn|]. intros B a' m' b' L1 L2 L3. rewrite firstn_length in *. rewrite !skipn_length in *.
    rewrite !app_length. destruct (Nat.leb_spec i j); [|lia]. destruct (Nat.leb_spec j (length a' + (length m' + length b'))); [|lia]. cbn [andb].
    rewrite skipn_app, skipn_all2 by lia. replace (i - length a') with 0 by lia. cbn [app skipn].
    rewrite firstn_app, firstn_all2 by lia. replace (j - i - length m') with 0 by lia. now rewrite firstn_O, app_nil_r.
  - exists l, []. rewrite !app_nil_r. split; [reflexivity|]. intros B a' m' b' L1 L2 L3. cbn [length] in *. destruct m'; [|discriminate]. destruct b'; [|discriminate].
    cbn [app]. rewrite app_nil_r, L1, E. reflexivity.
Qed.

(** ** Tags *)
Section Tags.
  Context {K V Q : Type} (bor : K -> Q) (ask : nat -> Q -> Q -> option comparison) (d : comparison * comparison).
  Notation entry := (K * V)%type.
  Definition tag : Type := comparison * comparison.
  Notation entry' := ((K * tag) * V)%type.
  Definition bor' (k : K * tag) : bool + tag := inr (snd k).
  Definition cmp' (a b : bool + tag) : comparison :=
    match a, b with inl false, inr t => fst t | inl true, inr t => snd t | _, _ => Eq end.
  Definition side (s : bool) (bd : bound Q) : bound (bool + tag) :=
    match bd with Unbounded => Unbounded | Included _ => Included (inl s) | Excluded _ => Excluded (inl s) end.
  Definition er (e : entry') : entry := (fst (fst e), snd e).
  Definition put (t : tag) (e : entry) : entry' := ((fst e, t), snd e).
  Notation unt := (mapt er).
  Notation une := (mape er).
  Notation dft := (mapt (put d)).

  Definition told_at (n n' : nat) (bd : bound Q) (k : Q) (c : comparison) : Prop :=
    match bd with Unbounded => False | Included q | Excluded q => exists j, n <= j < n' /\ ask j q k = Some c end.
  Definition hon (lb ub : bound Q) (n n' : nat) (e : entry') : Prop :=
    (fst (snd (fst e)) = fst d \/ told_at n n' lb (bor (fst (fst e))) (fst (snd (fst e))))
    /\ (snd (snd (fst e)) = snd d \/ told_at n n' ub (bor (fst (fst e))) (snd (snd (fst e)))).

  Lemma er_put t e : er (put t e) = e.
  Proof. now destruct e. Qed.
  Lemma map_put t es : map er (map (put t) es) = es.
  Proof. rewrite map_map. rewrite <- (map_id es) at 2. apply map_ext. apply er_put. Qed.
  Lemma unt_dft t : unt (dft t) = t.
  Proof. apply mapt_inv. apply er_put. Qed.
  Lemma map_dft ks : map unt (map dft ks) = ks.
  Proof. rewrite map_map. rewrite <- (map_id ks) at 2. apply map_ext. exact unt_dft. Qed.
  Lemma hon_put lb ub n n' e : hon lb ub n n' (put d e).
  Proof. split; left; reflexivity. Qed.
  Lemma hon_dft lb ub n n' t : Forall (hon lb ub n n') (flat (dft t)).
  Proof. rewrite flat_map, Forall_map. apply Forall_forall. intros e _. apply hon_put. Qed.
  Lemma told_wide a b a' b' bd k c : a' <= a -> b <= b' -> told_at a b bd k c -> told_at a' b' bd k c.
  Proof. intros L1 L2. destruct bd; cbn; auto; intros (j & L & E); exists j; split; auto; lia. Qed.
  Definition less (x y : bound Q) : Prop := x = Unbounded \/ x = y.
  Lemma hon_wide lb ub lb' ub' a b a' b' e : less lb lb' -> less ub ub' -> a' <= a -> b <= b' -> hon lb ub a b e -> hon lb' ub' a' b' e.
  Proof.
    intros B1 B2 L1 L2 [H1 H2]. split; [destruct H1 as [H1|H1]; [auto|right]|destruct H2 as [H2|H2]; [auto|right]].
    - destruct B1 as [->| ->]; [destruct H1|]. now apply (told_wide a b).
    - destruct B2 as [->| ->]; [destruct H2|]. now apply (told_wide a b).
  Qed.
  Lemma weave_all (P : entry' -> Prop) ks : forall es, Forall (Forall P) ks -> Forall P es -> Forall P (weave ks es).
  Proof.
    induction ks as [|k ks IH]; intros es Fk Fe; [exact Fe|]. inversion Fk; subst. cbn [weave]. apply Forall_app. split; auto.
    destruct es as [|e es]; [now apply Forall_concat|]. inversion Fe; subst. constructor; auto.
  Qed.

  Definition bd_of (bd : bound Q) (c : comparison) : bd_ord :=
    match bd with
    | Unbounded => BUnbounded
    | Excluded _ => match c with Lt => BLess | Eq => BEqual false | Gt => BGreater end
    | Included _ => match c with Lt => BLess | Eq => BEqual true | Gt => BGreater end
    end.
  Lemma bd_low lb t : cmp_bd cmp' (side false lb) (inr t) = bd_of lb (fst t).
  Proof. destruct lb; reflexivity. Qed.
  Lemma bd_high ub t : cmp_bd cmp' (side true ub) (inr t) = bd_of ub (snd t).
  Proof. destruct ub; reflexivity. Qed.
  (** The number of questions to a key. *)
  Definition wt (bd : bound Q) : nat := match bd with Unbounded => 0 | _ => 1 end.
  Lemma bd_asks (c0 : comparison) bd k n : runs ask n (wt bd) (cmp_bd_t ask bd k n)
    (fun r n' => exists c, (c = c0 \/ told_at n n' bd k c) /\ r = Ok (bd_of bd c)).
  Proof.
    destruct bd as [|q|q]; cbn [cmp_bd_t wt].
    - apply runs_ret. eexists. split; [left; reflexivity|reflexivity].
    - unfold question. destruct (ask n q k) as [c|] eqn:E; cbn; [|split; [lia|]; now exists n, q, k].
      split; [lia|]. exists c. split; [right; exists n; split; [lia|auto]|reflexivity].
    - unfold question. destruct (ask n q k) as [c|] eqn:E; cbn; [|split; [lia|]; now exists n, q, k].
      split; [lia|]. exists c. split; [right; exists n; split; [lia|auto]|reflexivity].
  Qed.

  (** *** The edges *)
  Lemma left_runs lb : forall es i n, runs ask n (wt lb * length es) (left_edge_t bor ask lb i es n)
    (fun r n' => exists x j rest pre' c, r = Ok (x, (j, rest)) /\ es = map er pre' ++ rest /\ length rest <= length es /\ Forall (hon lb Unbounded n n') pre'
      /\ (c = fst d \/ match rest with e :: _ => told_at n n' lb (bor (fst e)) c | [] => False end)
      /\ forall rest', map er rest' = rest -> match rest' with e :: _ => fst (snd (fst e)) = c | [] => True end ->
         left_edge bor' cmp' (side false lb) i (pre' ++ rest') = (x, (j, rest'))).
  Proof.
    induction es as [|e es IH]; intros i n; cbn [left_edge_t].
    - apply runs_ret. exists None, i, [], [], (fst d). split; [reflexivity|]. split; [reflexivity|]. split; [auto|]. split; [constructor|]. split; [auto|].
      intros [|r rest'] E; [reflexivity|discriminate].
    - eapply runs_after with (b := wt lb * length es); [apply (bd_asks (fst d))|cbn [length]; nia| |].
      2:{ intros n1 _ (c & _ & [=]). }
      intros o n1 L (c & Hc & [= ->]).
      assert (Hr : forall rest', map er rest' = e :: es -> exists e' es', rest' = e' :: es' /\ er e' = e /\ map er es' = es).
      { intros [|e' es'] E; [discriminate|]. injection E as E1 E2. eauto. }
      assert (Stop : forall x, (forall e' es', er e' = e -> fst (snd (fst e')) = c -> left_edge bor' cmp' (side false lb) i (e' :: es') = (x, (i, e' :: es'))) ->
        runs ask n1 (wt lb * length es) (Returned tt (x, (i, e :: es)) n1)
          (fun r n' => exists x j rest pre' c, r = Ok (x, (j, rest)) /\ e :: es = map er pre' ++ rest /\ length rest <= length (e :: es) /\ Forall (hon lb Unbounded n n') pre'
            /\ (c = fst d \/ match rest with e :: _ => told_at n n' lb (bor (fst e)) c | [] => False end)
            /\ forall rest', map er rest' = rest -> match rest' with e :: _ => fst (snd (fst e)) = c | [] => True end ->
               left_edge bor' cmp' (side false lb) i (pre' ++ rest') = (x, (j, rest')))).
      { intros x Hx. apply runs_ret. exists x, i, (e :: es), [], c. split; [reflexivity|]. split; [reflexivity|]. split; [auto|]. split; [constructor|]. split; [exact Hc|].
        intros rest' E1 E2. destruct (Hr rest' E1) as (e' & es' & -> & E3 & _). cbn [app]. now apply Hx. }
      destruct (bd_of lb c) as [| |is_in|] eqn:Eb.
      + apply Stop. intros e' es' _ Et. cbn [left_edge]. unfold bor' at 1. rewrite bd_low, Et, Eb. reflexivity.
      + apply Stop. intros e' es' _ Et. cbn [left_edge]. unfold bor' at 1. rewrite bd_low, Et, Eb. reflexivity.
      + apply Stop. intros e' es' _ Et. cbn [left_edge]. unfold bor' at 1. rewrite bd_low, Et, Eb. reflexivity.
      + eapply runs_mono; [apply IH|lia|]. intros r n2 L2 (x & j & rest & pre' & c2 & -> & -> & Ll & Fp & Hc2 & Pure).
        exists x, j, rest, (put (c, snd d) e :: pre'), c2. split; [reflexivity|]. split; [cbn [map app]; now rewrite er_put|]. split; [cbn [length]; lia|].
        split; [|split].
        * constructor; [|eapply Forall_impl; [|exact Fp]; intros y; apply hon_wide; auto; try (right; reflexivity); lia].
          split; cbn [put fst snd]; [|auto]. destruct Hc as [Hc|Hc]; [auto|right]. now apply (told_wide n n1).
        * destruct Hc2 as [Hc2|Hc2]; [auto|right]. destruct rest; [auto|]. eapply told_wide; [| |exact Hc2]; lia.
        * intros rest' E1 E2. cbn [app left_edge]. unfold bor' at 1. rewrite bd_low. cbn [put fst snd]. rewrite Eb. now apply Pure.
  Qed.
  Lemma right_runs ub len : forall es i n c, runs ask n (wt ub * length es) (right_edge_t bor ask ub len i es n)
    (fun r n' => exists es', map er es' = es /\ r = Ok (right_edge bor' cmp' (side true ub) len i es')
      /\ Forall (fun e => snd (snd (fst e)) = snd d \/ told_at n n' ub (bor (fst (fst e))) (snd (snd (fst e)))) es'
      /\ match es' with [] => True | e :: es2 => fst (snd (fst e)) = c /\ Forall (fun e => fst (snd (fst e)) = fst d) es2 end).
  Proof.
    induction es as [|e es IH]; intros i n c; cbn [right_edge_t].
    - apply runs_ret. exists []. repeat split; constructor.
    - eapply runs_after with (b := wt ub * length es); [apply (bd_asks (snd d))|cbn [length]; nia| |].
      2:{ intros n1 _ (c1 & _ & [=]). }
      intros o n1 L (c1 & Hc & [= ->]).
      assert (Stop : forall x, (forall es', right_edge bor' cmp' (side true ub) len i (put (c, c1) e :: es') = x) ->
        runs ask n1 (wt ub * length es) (Returned tt x n1)
          (fun r n' => exists es', map er es' = e :: es /\ r = Ok (right_edge bor' cmp' (side true ub) len i es')
            /\ Forall (fun e => snd (snd (fst e)) = snd d \/ told_at n n' ub (bor (fst (fst e))) (snd (snd (fst e)))) es'
            /\ match es' with [] => True | e :: es2 => fst (snd (fst e)) = c /\ Forall (fun e => fst (snd (fst e)) = fst d) es2 end)).
      { intros x Hx. apply runs_ret. exists (put (c, c1) e :: map (put d) es). split; [cbn [map]; now rewrite er_put, map_put|]. split; [now rewrite Hx|].
        split; [|split; [reflexivity|]].
        - constructor; [exact Hc|]. rewrite Forall_map. apply Forall_forall. intros y _. now left.
        - rewrite Forall_map. apply Forall_forall. intros y _. reflexivity. }
      destruct (bd_of ub c1) as [| |is_in|] eqn:Eb.
      + apply Stop. intros es'. cbn [right_edge]. unfold bor' at 1. rewrite bd_high. cbn [put fst snd]. now rewrite Eb.
      + apply Stop. intros es'. cbn [right_edge]. unfold bor' at 1. rewrite bd_high. cbn [put fst snd]. now rewrite Eb.
      + apply Stop. intros es'. cbn [right_edge]. unfold bor' at 1. rewrite bd_high. cbn [put fst snd]. now rewrite Eb.
      + eapply runs_mono; [apply (IH (S i) n1 (fst d))|lia|]. intros r n2 L2 (es' & E1 & -> & F & G).
        exists (put (c, c1) e :: es'). split; [cbn [map]; now rewrite er_put, E1|]. split; [|split; [|split; [reflexivity|]]].
        * cbn [right_edge]. unfold bor' at 2. rewrite bd_high. cbn [put fst snd]. now rewrite Eb.
        * constructor; [cbn [put fst snd]; destruct Hc as [Hc|Hc]; [auto|right; now apply (told_wide n n1)]|].
          eapply Forall_impl; [|exact F]. intros y [H|H]; [auto|right]. eapply told_wide; [| |exact H]; lia.
        * destruct es' as [|y es']; [constructor|]. destruct G as [G1 G2]. now constructor.
  Qed.
  Lemma edges_run es lb ub n : runs ask n ((wt lb + wt ub) * length es) (find_range_edges_t bor ask es lb ub n)
    (fun r n' => exists es', map er es' = es /\ Forall (hon lb ub n n') es' /\ r = Ok (find_range_edges bor' cmp' es' (side false lb) (side true ub))).
  Proof.
    unfold find_range_edges_t. eapply runs_after with (b := wt ub * length es); [apply left_runs|nia| |].
    2:{ intros n1 _ (x & j & rest & pre' & c & [=] & _). }
    intros r n1 L (x & j & rest & pre' & c & [= ->] & Ees & Ll & Fp & Hc & Pure).
    eapply runs_after with (b := 0); [apply (right_runs ub (length es) rest j n1 c)|nia| |].
    2:{ intros n2 _ (es' & _ & [=] & _). }
    intros r n2 L2 (rest' & E1 & [= ->] & F & G). apply runs_ret. exists (pre' ++ rest').
    assert (El : length (pre' ++ rest') = length es) by (rewrite Ees, !app_length, map_length, <- E1, map_length; reflexivity).
    split; [rewrite map_app, E1; now symmetry|]. split.
    - apply Forall_app. split; [eapply Forall_impl; [|exact Fp]; intros y; apply hon_wide; auto; [right|left]; reflexivity|].
      destruct rest' as [|y rest']; [constructor|]. destruct G as [G1 G2]. inversion F as [|y0 l0 F1 F2]; subst. constructor.
      + split; [destruct Hc as [Hc|Hc]; [auto|right]|destruct F1 as [F1|F1]; [auto|right]].
        * cbn [map] in Hc. eapply told_wide; [| |exact Hc]; lia.
        * eapply told_wide; [| |exact F1]; lia.
      + rewrite Forall_forall in *. intros z Hz. specialize (F2 z Hz). specialize (G2 z Hz). split; [auto|]. destruct F2 as [F2|F2]; [auto|right].
        eapply told_wide; [| |exact F2]; lia.
    - unfold find_range_edges. rewrite El. rewrite (Pure rest' E1); [reflexivity|]. destruct rest'; [auto|tauto].
  Qed.

  (** *** The work list *)
  Notation mk' := (make_worklist bor' cmp').
  Definition right' (lb ub : bound (bool + tag)) (edges : (nat * nat * bool) * (nat * nat * bool)) (elems : list entry')
    (kids : list (bt (K * tag) V)) (w1 : list (erg (K * tag) V)) : res (list (erg (K * tag) V)) :=
    let '((lb_elems, lb_kids, left_prune), (ub_elems, ub_kids, right_prune)) := edges in
    let '(kids, to_prune) :=
      if right_prune then (removelast kids, last_opt (map mk' kids)) else (kids, None) in
    let w2 := if (0 <? length elems) || (0 <? length kids)
              then [Erg elems kids (negb left_prune && (lb_elems =? lb_kids))
                                   (negb right_prune && (ub_elems <? ub_kids))]
              else [] in
    w3 <- match to_prune with Some c => c lb ub | None => Ok [] end;;
    Ok (w1 ++ w2 ++ w3).
  Definition node' (lb ub : bound (bool + tag)) (edges : (nat * nat * bool) * (nat * nat * bool)) (elems : list entry')
    (kids : list (bt (K * tag) V)) : res (list (erg (K * tag) V)) :=
    if snd (fst edges) then
      ub' <- (if (length kids =? 1) && snd (snd edges) then _ <- assert_ (length elems =? 0);; Ok ub else Ok Unbounded);;
      w1 <- match kids with c :: _ => mk' c lb ub' | [] => Ok [] end;;
      right' Unbounded ub edges elems (tl kids) w1
    else right' lb ub edges elems kids [].
  Lemma mk_node es (a kids b : list (bt (K * tag) V)) lb ub :
    let edges := find_range_edges bor' cmp' es lb ub in
    slice_or_default (snd (fst (fst edges))) (snd (fst (snd edges))) (a ++ kids ++ b) = kids ->
    slice_or_default (snd (fst (fst edges))) (snd (fst (snd edges))) (map mk' (a ++ kids ++ b)) = map mk' kids ->
    mk' (BN es (a ++ kids ++ b)) lb ub = (elems <- slice (fst (fst (fst edges))) (fst (fst (snd edges))) es;; node' lb ub edges elems kids).
  Proof.
    cbn zeta. cbn [make_worklist]. destruct (find_range_edges bor' cmp' es lb ub) as [[[le lk] lp] [[ue uk] rp]]. cbn [fst snd]. intros E1 E2. rewrite E1, E2.
    destruct (slice le ue es) as [elems|]; [|reflexivity]. cbn [bind]. unfold node'. cbn [fst snd]. destruct lp; [|reflexivity].
    destruct (if (length kids =? 1) && rp then _ else _) as [ub'|]; [|reflexivity]. cbn [bind]. destruct kids as [|c kids]; [reflexivity|]. cbn [map].
    destruct (mk' c lb ub') as [w1|]; [|reflexivity]. reflexivity.
  Qed.

  Notation mk := (make_worklist_t bor ask).
  Definition fine (t : bt K V) (lb ub : bound Q) (n : nat) (r : res (list (erg K V))) (n' : nat) : Prop :=
    exists t', unt t' = t /\ Forall (hon lb ub n n') (flat t') /\ rmap (map une) (mk' t' (side false lb) (side true ub)) = r.
  Definition kidr (C : nat) (c : bt K V) : Prop := forall lb ub n, runs ask n ((wt lb + wt ub) * C) (mk c lb ub n) (fine c lb ub n).

  Lemma right_run C lb ub edges elems' kids w1' n : Forall (kidr C) kids ->
    runs ask n (match kids with [] => 0 | _ => (wt lb + wt ub) * C end)
      (work_right_t lb ub edges (map er elems') kids (map mk kids) (map une w1') n)
      (fun r n' => exists kids', map unt kids' = kids /\ Forall (fun t => Forall (hon lb ub n n') (flat t)) kids'
        /\ rmap (map une) (right' (side false lb) (side true ub) edges elems' kids' w1') = r).
  Proof.
    intros F. destruct edges as [[[le lk] lp] [[ue uk] rp]]. unfold work_right_t, right'. destruct rp.
    - destruct kids as [|x kids0] using rev_ind; [|clear IHkids0].
      + cbn [map removelast last_opt length nth_error Nat.sub after]. apply runs_ret. exists []. split; [reflexivity|]. split; [constructor|].
        cbn [map removelast last_opt length nth_error Nat.sub bind rmap]. rewrite !map_length, !map_app. do 3 f_equal. destruct (0 <? length elems'); reflexivity.
      + apply Forall_app in F as [_ F]. inversion F as [|x0 l0 Fx _]; subst. rewrite map_app. cbn [map]. rewrite removelast_last, last_snoc.
        eapply runs_after with (b := 0); [apply Fx|destruct kids0; cbn [app]; lia| |].
        * intros w3 n1 L (t' & E1 & H & E2). apply runs_ret. exists (map dft kids0 ++ [t']). split; [rewrite map_app, map_dft; cbn [map]; now rewrite E1|].
          split; [apply Forall_app; split; [rewrite Forall_map; apply Forall_forall; intros y _; apply hon_dft|constructor; auto]|].
          rewrite map_app. cbn [map]. rewrite removelast_last, last_snoc. destruct (mk' t' _ _) as [w3'|]; [|discriminate]. cbn [rmap] in E2. injection E2 as <-.
          cbn [bind rmap]. rewrite !map_app, !map_length. do 3 f_equal. destruct ((0 <? length elems') || (0 <? length kids0)); [|reflexivity].
          cbn [map]. unfold mape. cbn [g_elems g_kids g_lf g_rt]. now rewrite map_dft.
        * intros n1 L (t' & E1 & H & E2). exists (map dft kids0 ++ [t']). split; [rewrite map_app, map_dft; cbn [map]; now rewrite E1|].
          split; [apply Forall_app; split; [rewrite Forall_map; apply Forall_forall; intros y _; apply hon_dft|constructor; auto]|].
          rewrite map_app. cbn [map]. rewrite removelast_last, last_snoc. destruct (mk' t' _ _) as [w3'|]; [discriminate|]. reflexivity.
    - cbn [after]. apply runs_ret. exists (map dft kids). split; [apply map_dft|]. split; [rewrite Forall_map; apply Forall_forall; intros y _; apply hon_dft|].
      cbn [bind rmap]. rewrite !map_app, !map_length. do 3 f_equal. destruct ((0 <? length elems') || (0 <? length kids)); [|reflexivity].
      cbn [map]. unfold mape. cbn [g_elems g_kids g_lf g_rt]. now rewrite map_dft.
  Qed.

  Lemma less_refl (b : bound Q) : less b b.
  Proof. right. reflexivity. Qed.
  Lemma less_un (b : bound Q) : less Unbounded b.
  Proof. left. reflexivity. Qed.
  Lemma node_run C lb ub (edges : (nat * nat * bool) * (nat * nat * bool)) elems' kids n : Forall (kidr C) kids ->
    runs ask n ((wt lb + wt ub) * C)
      (if snd (fst edges) then
         match (if (length kids =? 1) && snd (snd edges) then _ <- assert_ (length (map er elems') =? 0);; Ok ub else Ok Unbounded) with
         | Panic => Fault
         | Ok ub' =>
           after (match map mk kids with c :: _ => c lb ub' n | [] => Returned tt [] n end) back (fun _ w1 n2 =>
           work_right_t Unbounded ub edges (map er elems') (tl kids) (tl (map mk kids)) w1 n2)
         end
       else work_right_t lb ub edges (map er elems') kids (map mk kids) [] n)
      (fun r n' => exists kids', map unt kids' = kids /\ Forall (fun t => Forall (hon lb ub n n') (flat t)) kids'
        /\ rmap (map une) (node' (side false lb) (side true ub) edges elems' kids') = r).
  Proof.
    intros F. unfold node'. destruct (snd (fst edges)).
    2:{ eapply runs_mono; [apply (right_run C lb ub edges elems' kids [] n F)|destruct kids; lia|]. intros r n1 _ H. exact H. }
    set (g := (length kids =? 1) && snd (snd edges)).
    assert (Hub : forall (b0 : bound Q), match (if g then _ <- assert_ (length (map er elems') =? 0);; Ok ub else Ok Unbounded) with
       | Ok ub' => (if g then _ <- assert_ (length elems' =? 0);; Ok (side true ub) else Ok Unbounded) = Ok (side true ub')
          /\ less ub' ub /\ (ub' = Unbounded \/ length kids = 1)
       | Panic => (if g then _ <- assert_ (length elems' =? 0);; Ok (side true ub) else Ok Unbounded) = Panic
       end).
    { intros _. rewrite map_length. subst g. destruct ((length kids =? 1) && snd (snd edges)) eqn:E.
      - apply andb_true_iff in E as [E _]. apply Nat.eqb_eq in E. destruct (length elems' =? 0); cbn [assert_ bind]; [|reflexivity].
        split; [reflexivity|]. split; [apply less_refl|auto].
      - split; [reflexivity|]. split; [apply less_un|auto]. }
    specialize (Hub Unbounded). destruct (if g then _ <- assert_ (length (map er elems') =? 0);; Ok ub else Ok Unbounded) as [ub'|].
    2:{ apply runs_fault. exists (map dft kids). split; [apply map_dft|]. split; [rewrite Forall_map; apply Forall_forall; intros y _; apply hon_dft|].
        rewrite map_length. fold g. now rewrite Hub. }
    destruct Hub as (Hub & Lub & One).
    destruct kids as [|c kids].
    - cbn [map tl after]. eapply runs_mono; [apply (right_run C Unbounded ub edges elems' [] [] n (Forall_nil _))|lia|]. intros r n1 L (kids' & E1 & H & E2).
      apply map_eq_nil in E1. subst kids'. exists []. split; [reflexivity|]. split; [constructor|]. cbn [length]. subst g. cbn [length] in *. rewrite Hub. exact E2.
    - inversion F as [|x0 l0 Fc Fk]; subst x0 l0. cbn [map tl].
      eapply runs_after with (b := match kids with [] => 0 | _ => (wt Unbounded + wt ub) * C end); [apply Fc| | |].
      + destruct One as [->|One]; [destruct kids; cbn [wt]; nia|]. destruct kids; [|discriminate]. destruct Lub as [->| ->]; cbn [wt]; nia.
      + intros w1 n1 L (c' & E1 & H1 & E2). destruct (mk' c' _ _) as [w1'|] eqn:Ec; [|discriminate]. cbn [rmap] in E2. injection E2 as <-.
        eapply runs_mono; [apply (right_run C Unbounded ub edges elems' kids w1' n1 Fk)|lia|]. intros r n2 L2 (kids' & E3 & H3 & E4).
        exists (c' :: kids'). split; [cbn [map]; now rewrite E1, E3|]. split.
        * constructor.
          -- eapply Forall_impl; [|exact H1]. intros y. apply hon_wide; auto. apply less_refl.
          -- eapply Forall_impl; [|exact H3]. intros t. apply Forall_impl. intros y. apply hon_wide; auto; [apply less_un|apply less_refl].
        * replace (length (c' :: kids')) with (length (c :: kids)) by (cbn [length]; rewrite <- E3; now rewrite map_length). fold g. rewrite Hub. cbn [bind tl].
          rewrite Ec. cbn [bind]. exact E4.
      + intros n1 L (c' & E1 & H1 & E2). destruct (mk' c' _ _) as [w1'|] eqn:Ec; [discriminate|]. exists (c' :: map dft kids).
        split; [cbn [map]; now rewrite E1, map_dft|]. split.
        * constructor.
          -- eapply Forall_impl; [|exact H1]. intros y. apply hon_wide; auto. apply less_refl.
          -- rewrite Forall_map. apply Forall_forall. intros y _. apply hon_dft.
        * replace (length (c' :: map dft kids)) with (length (c :: kids)) by (cbn [length]; now rewrite map_length). fold g. rewrite Hub. cbn [bind tl].
          rewrite Ec. reflexivity.
  Qed.
  Lemma work_run N h : forall mn t lb ub n, shape N mn h t -> runs ask n ((wt lb + wt ub) * (MAX_OCC N * (h + 1))) (mk t lb ub n) (fine t lb ub n).
  Proof.
    assert (Node : forall C es ks lb ub n, length es <= MAX_OCC N -> Forall (kidr C) ks ->
      runs ask n ((wt lb + wt ub) * (MAX_OCC N + C)) (mk (BN es ks) lb ub n) (fine (BN es ks) lb ub n)).
    { intros C es ks lb ub n Hl F. cbn [make_worklist_t]. eapply runs_after with (b := (wt lb + wt ub) * C); [apply edges_run|nia| |].
      2:{ intros n1 _ (es' & _ & _ & [=]). }
      intros r n1 L (es' & <- & H & E). remember (find_range_edges bor' cmp' es' (side false lb) (side true ub)) as edges eqn:Ee. injection E as ->.
      destruct (sod_split (snd (fst (fst edges))) (snd (fst (snd edges))) ks) as (a & b & Eks & Sod).
      set (kids := slice_or_default (snd (fst (fst edges))) (snd (fst (snd edges))) ks) in *.
      assert (Fk : Forall (kidr C) kids) by (rewrite Eks in F; apply Forall_app in F as [_ F]; now apply Forall_app in F as [F _]).
      assert (Ecalls : slice_or_default (snd (fst (fst edges))) (snd (fst (snd edges))) (map mk ks) = map mk kids).
      { rewrite Eks, !map_app. apply Sod; apply map_length. }
      assert (Whole : forall kids', map unt kids' = kids ->
        mk' (BN es' (map dft a ++ kids' ++ map dft b)) (side false lb) (side true ub)
          = (elems <- slice (fst (fst (fst edges))) (fst (fst (snd edges))) es';; node' (side false lb) (side true ub) edges elems kids')
        /\ unt (BN es' (map dft a ++ kids' ++ map dft b)) = BN (map er es') ks).
      { intros kids' E1. assert (Lk : length kids' = length kids) by (rewrite <- E1; now rewrite map_length). split.
        - rewrite Ee. apply mk_node; rewrite <- Ee.
          + apply Sod; auto; apply map_length.
          + rewrite !map_app. apply Sod; rewrite !map_length; auto.
        - cbn [mapt]. rewrite !map_app, E1, !map_dft. now rewrite <- Eks. }
      assert (Hon : forall n2 kids', n1 <= n2 -> Forall (fun t => Forall (hon lb ub n1 n2) (flat t)) kids' ->
        Forall (hon lb ub n n2) (flat (BN es' (map dft a ++ kids' ++ map dft b)))).
      { intros n2 kids' L2 Hk. cbn [flat]. apply weave_all.
        - rewrite Forall_map. apply Forall_app. split; [rewrite Forall_map; apply Forall_forall; intros y _; apply hon_dft|].
          apply Forall_app. split; [|rewrite Forall_map; apply Forall_forall; intros y _; apply hon_dft].
          eapply Forall_impl; [|exact Hk]. intros t. apply Forall_impl. intros y. apply hon_wide; auto; apply less_refl.
        - eapply Forall_impl; [|exact H]. intros y. apply hon_wide; auto; apply less_refl. }
      destruct edges as [[[le lk] lp] [[ue uk] rp]] eqn:Ed. cbn [fst snd] in *. rewrite slice_map.
      destruct (slice le ue es') as [elems'|] eqn:Es; cbn [rmap].
      - rewrite Ecalls. fold kids. pose proof (node_run C lb ub edges elems' kids n1 Fk) as G. rewrite Ed in G. cbn [fst snd] in G.
        eapply runs_mono; [exact G|lia|]. intros r n2 L2 (kids' & E1 & Hk & E2). destruct (Whole kids' E1) as [W1 W2].
        exists (BN es' (map dft a ++ kids' ++ map dft b)). split; [exact W2|]. split; [now apply Hon|]. rewrite W1. exact E2.
      - apply runs_fault. destruct (Whole (map dft kids) (map_dft kids)) as [W1 W2]. exists (BN es' (map dft a ++ map dft kids ++ map dft b)).
        split; [exact W2|]. split; [apply Hon; auto; rewrite Forall_map; apply Forall_forall; intros y _; apply hon_dft|]. now rewrite W1. }
    induction h as [|h IH]; intros mn t lb ub n S.
    - apply shape_0 in S as (es & -> & Hl). eapply runs_mono; [apply (Node 0); [lia|constructor]|nia|auto].
    - apply shape_S in S as (es & ks & -> & Hl & Hk & F). eapply runs_mono; [apply (Node (MAX_OCC N * (h + 1))); [lia|]|nia|auto].
      eapply Forall_impl; [|exact F]. intros c Sc lb0 ub0 n0. apply (IH N c lb0 ub0 n0 Sc).
  Qed.
End Tags.

(** ** What was told *)
Section Work.
  Context {K V Q : Type} (bor : K -> Q) (ask : nat -> Q -> Q -> option comparison) (N : nat) (HN : 1 <= N).
  Notation entry := (K * V)%type.
  Notation entry' := ((K * tag) * V)%type.
  Notation part := (@asked_part K V Q bor ask).
  Notation gap := (@asked_gap K V Q bor ask).
  Notation told' := (@told_part (K * tag) V (bool + tag) bor' cmp').

  Lemma sub_map {A B} (f : A -> B) (a b : list A) : sub a b -> sub (map f a) (map f b).
  Proof. induction 1; cbn [map]; [constructor 1|constructor 2; auto|constructor 3; auto]. Qed.
  Lemma hd_map {A B} (f : A -> B) l e : hd_error (map f l) = Some e -> exists e', hd_error l = Some e' /\ f e' = e.
  Proof. destruct l as [|x l]; cbn; [discriminate|]. intros [= <-]. eauto. Qed.

  (** Tags that say nothing where no question was asked: for "all is inside". *)
  Lemma all_told lo hi n n' (l l' : list entry') : Forall (hon bor ask (Lt, Gt) lo hi n n') l -> told' (side false lo) (side true hi) l l' ->
    (forall e, In e (map er l) -> asked_within bor ask n n' lo hi e) -> map er l' = map er l.
  Proof.
    intros H T A. f_equal. apply (tp_all _ _ _ _ _ _ T). intros e He. rewrite Forall_forall in H. specialize (H e He) as [H1 H2].
    destruct (A (er e) (in_map er l e He)) as [A1 A2]. unfold told_within, bor'. split.
    - destruct lo as [|q|q]; cbn [side cmp' fst] in *; [exact Logic.I| |]; (destruct H1 as [H1|H1]; [exact H1|]); apply A1; exact H1.
    - destruct hi as [|q|q]; cbn [side cmp' snd] in *; [exact Logic.I| |]; (destruct H2 as [H2|H2]; [exact H2|]); apply A2; exact H2.
  Qed.
  (** Tags that say "outside" where no question was asked: for what was told of the ends. *)
  Lemma first_told lo hi n n' (l l' : list entry') e : Forall (hon bor ask (Gt, Lt) lo hi n n') l -> told' (side false lo) (side true hi) l l' ->
    hd_error (map er l') = Some e -> asked_first bor ask n n' lo (map er l) e.
  Proof.
    intros H T E. apply hd_map in E as (e' & E & <-). pose proof (tp_first _ _ _ _ _ _ T e' E) as F. rewrite Forall_forall in H.
    assert (He : In e' l). { apply (BTreeAnyRange.hd_is) in E as [r E]. pose proof (tp_sub _ _ _ _ _ _ T) as S. rewrite E in S. clear - S.
      remember (e' :: r) as x eqn:Ex. revert Ex. induction S; intros Ex; try discriminate; [right; auto|injection Ex as -> ->; now left]. }
    destruct (H e' He) as [H1 _]. unfold told_first, asked_first in *. destruct lo as [|q|q]; cbn [side] in F; [exact Logic.I| |].
    - cbn [bor' cmp' fst] in F. cbn [fst] in H1. destruct H1 as [H1|H1]; [now destruct F|]. destruct (fst (snd (fst e'))) eqn:Ef; [right|left|now destruct F]; exact H1.
    - destruct F as [F|(l1 & x & l2 & El & F)].
      + cbn [bor' cmp' fst] in F. cbn [fst] in H1. rewrite F in H1. destruct H1 as [H1|H1]; [discriminate|]. left. exact H1.
      + right. exists (map er l1), (er x), (map er l2). split; [rewrite El; rewrite map_app; reflexivity|].
        assert (Hx : In x l) by (rewrite El; apply in_elt). destruct (H x Hx) as [H2 _]. cbn [bor' cmp' fst] in F. cbn [fst] in H2. rewrite F in H2.
        destruct H2 as [H2|H2]; [discriminate|exact H2].
  Qed.
  Lemma last_told lo hi n n' (l l' : list entry') e : Forall (hon bor ask (Gt, Lt) lo hi n n') l -> told' (side false lo) (side true hi) l l' ->
    hd_error (rev (map er l')) = Some e -> asked_last bor ask n n' hi (map er l) e.
  Proof.
    intros H T E. rewrite <- map_rev in E. apply hd_map in E as (e' & E & <-). pose proof (tp_last _ _ _ _ _ _ T e' E) as F. rewrite Forall_forall in H.
    assert (He : In e' l). { apply (BTreeAnyRange.last_is) in E as [r E]. pose proof (tp_sub _ _ _ _ _ _ T) as S.
      assert (Hi : In e' l') by (rewrite E; apply in_elt). clear - S Hi. induction S; [exact Hi|right; auto|]. destruct Hi as [->|Hi]; [now left|right; auto]. }
    destruct (H e' He) as [_ H1]. unfold told_last, asked_last in *. destruct hi as [|q|q]; cbn [side] in F; [exact Logic.I| |].
    - cbn [bor' cmp' snd] in F. cbn [snd] in H1. destruct H1 as [H1|H1]; [now destruct F|]. destruct (snd (snd (fst e'))) eqn:Ef; [right|now destruct F|left]; exact H1.
    - destruct F as [F|(l1 & x & l2 & El & F)].
      + cbn [bor' cmp' snd] in F. cbn [snd] in H1. rewrite F in H1. destruct H1 as [H1|H1]; [discriminate|]. left. exact H1.
      + right. exists (map er l1), (er x), (map er l2). split; [rewrite El; rewrite map_app; reflexivity|].
        assert (Hx : In x l) by (rewrite El; apply in_or_app; right; right; now left). destruct (H x Hx) as [_ H2]. cbn [bor' cmp' snd] in F. cbn [snd] in H2. rewrite F in H2.
        destruct H2 as [H2|H2]; [discriminate|exact H2].
  Qed.
  Lemma gap_told lo hi n n' (l : list entry') : Forall (hon bor ask (Gt, Gt) lo hi n n') l -> told_gap bor' cmp' (side false lo) (side true hi) l ->
    gap n n' lo hi (map er l).
  Proof.
    intros H (e & He & G). exists (er e). split; [now apply in_map|]. rewrite Forall_forall in H. destruct (H e He) as [H1 H2].
    destruct lo as [|a|a]; cbn [side] in G; try (destruct hi; exact G). destruct hi as [|b|b]; cbn [side] in G; [exact G| |];
      unfold bor' in G; cbn [cmp' fst snd] in G, H1, H2; destruct G as [G1 G2]; rewrite G1 in H1; (destruct H1 as [H1|H1]; [discriminate|]); (split; [exact H1|]).
    - rewrite G2 in H2. destruct H2 as [H2|H2]; [discriminate|exact H2].
    - destruct H2 as [H2|H2]; [now destruct G2|]. destruct (snd (snd (fst e))); [right|left|now destruct G2]; exact H2.
  Qed.

  Lemma work_ask h mn t lo hi n : 1 <= mn -> shape N mn h t ->
    runs ask n (2 * ((2 * N + 1) * (h + 1))) (make_worklist_t bor ask t lo hi n)
      (fun r n' => match r with Ok w => Forall ok2 w /\ Forall (rich N) w /\ part n n' lo hi (flat t) (dens w) | Panic => gap n n' lo hi (flat t) end).
  Proof.
    intros Hm S.
    assert (Any : forall t', mapt er t' = t -> match make_worklist bor' cmp' t' (side false lo) (side true hi) with
       | Ok w => Forall ok2 w /\ Forall (rich N) w /\ told' (side false lo) (side true hi) (flat t') (dens w)
       | Panic => told_gap bor' cmp' (side false lo) (side true hi) (flat t') end).
    { intros t' E. apply (work_any bor' cmp' N HN h mn); auto. apply (shape_map er). now rewrite E. }
    pose proof (work_run bor ask (Lt, Gt) N h mn t lo hi n S) as W1. pose proof (work_run bor ask (Gt, Lt) N h mn t lo hi n S) as W2.
    pose proof (work_run bor ask (Gt, Gt) N h mn t lo hi n S) as W3.
    assert (Lw : (wt lo + wt hi) * (MAX_OCC N * (h + 1)) <= 2 * ((2 * N + 1) * (h + 1))).
    { change (MAX_OCC N) with (2 * N + 1). assert (wt lo + wt hi <= 2) by (destruct lo, hi; cbn; lia). now apply Nat.mul_le_mono_r. }
    destruct (make_worklist_t bor ask t lo hi n) as [u w n'|u n'|]; cbn [runs] in *.
    - destruct W1 as [L (t1 & E1 & H1 & R1)], W2 as [_ (t2 & E2 & H2 & R2)]. split; [lia|]. pose proof (Any t1 E1) as A1. pose proof (Any t2 E2) as A2.
      destruct (make_worklist bor' cmp' t1 _ _) as [w1|]; [|discriminate]. destruct (make_worklist bor' cmp' t2 _ _) as [w2|]; [|discriminate].
      cbn [rmap] in R1, R2. injection R1 as R1. injection R2 as R2. destruct A1 as (O1 & I1 & T1), A2 as (_ & _ & T2).
      assert (F1 : flat t = map er (flat t1)) by (rewrite <- E1; apply flat_map). assert (F2 : flat t = map er (flat t2)) by (rewrite <- E2; apply flat_map).
      assert (D1 : dens w = map er (dens w1)) by (rewrite <- R1; apply dens_map). assert (D2 : dens w = map er (dens w2)) by (rewrite <- R2; apply dens_map).
      split; [rewrite <- R1, Forall_map; eapply Forall_impl; [|exact O1]; apply ok2_map|].
      split; [rewrite <- R1, Forall_map; eapply Forall_impl; [|exact I1]; apply rich_map|]. constructor.
      + rewrite F1, D1. apply sub_map, T1.
      + intros ->. destruct (tp_prefix _ _ _ _ _ _ T1 eq_refl) as [r E]. exists (map er r). rewrite F1, D1, E, map_app. reflexivity.
      + intros ->. destruct (tp_suffix _ _ _ _ _ _ T1 eq_refl) as [r E]. exists (map er r). rewrite F1, D1, E, map_app. reflexivity.
      + rewrite F1, D1. now apply (all_told lo hi n n').
      + intros e. rewrite F2, D2. now apply (first_told lo hi n n').
      + intros e. rewrite F2, D2. now apply (last_told lo hi n n').
    - split; [lia|tauto].
    - destruct W3 as (n' & L & t3 & E3 & H3 & R3). exists n'. split; [lia|]. pose proof (Any t3 E3) as A3.
      destruct (make_worklist bor' cmp' t3 _ _) as [w3|]; [discriminate|]. rewrite <- E3, flat_map. now apply gap_told.
  Qed.
End Work.

(** ** Maps *)
Section Maps.
  Context {K V Q : Type} (bor : K -> Q) (ask : nat -> Q -> Q -> option comparison) (N : nat) (HN : 1 <= N).
  Notation entry := (K * V)%type.
  Notation part := (@asked_part K V Q bor ask).
  Notation gap := (@asked_gap K V Q bor ask).

  Lemma bad_runs (lo hi : bound Q) n : runs ask n 1 (bad_range_t ask lo hi n)
    (fun r n' => match r with Ok true => asked_crossed ask n lo hi | Ok false => ~ asked_crossed ask n lo hi | Panic => False end).
  Proof.
    destruct lo as [|a|a], hi as [|b|b]; cbn [bad_range_t]; try (apply runs_ret; cbn; tauto); unfold question;
      (destruct (ask n b a) as [c|] eqn:E; cbn; [|split; [lia|]; now exists n, b, a]); (split; [lia|]); rewrite E; destruct c; congruence.
  Qed.
  Lemma part_wide a b a' lo hi (l l' : list entry) : a' <= a -> part a b lo hi l l' -> part a' b lo hi l l'.
  Proof.
    intros L P. assert (W : forall q (e : entry) c, asked bor ask a b q e c -> asked bor ask a' b q e c) by (intros q e c (j & Lj & E); exists j; split; [lia|auto]).
    constructor; try apply P.
    - intros H. apply (ap_all _ _ _ _ _ _ _ _ P). intros e He. destruct (H e He) as [H1 H2]. split; [destruct lo|destruct hi]; auto.
    - intros e E. pose proof (ap_first _ _ _ _ _ _ _ _ P e E) as F. unfold asked_first in *. destruct lo; auto; destruct F as [F|F]; auto.
      destruct F as (l1 & x & l2 & El & F). right. exists l1, x, l2. auto.
    - intros e E. pose proof (ap_last _ _ _ _ _ _ _ _ P e E) as F. unfold asked_last in *. destruct hi; auto; destruct F as [F|F]; auto.
      destruct F as (l1 & x & l2 & El & F). right. exists l1, x, l2. auto.
  Qed.
  Lemma gap_wide a b a' lo hi (l : list entry) : a' <= a -> gap a b lo hi l -> gap a' b lo hi l.
  Proof.
    intros L (e & He & G). assert (W : forall q (e : entry) c, asked bor ask a b q e c -> asked bor ask a' b q e c) by (intros q x c (j & Lj & E); exists j; split; [lia|auto]).
    exists e. split; [auto|]. destruct lo as [|q|q], hi as [|r|r]; auto; destruct G as [G1 G2]; split; auto. destruct G2; auto.
  Qed.
  Lemma asked_nil n n' lo hi : part n n' lo hi [] [].
  Proof. constructor; try (intros e [=]); auto; [constructor| |]; intros _; exists []; reflexivity. Qed.

  Lemma b_range_ask (m : bt_map K V) l lo hi n : b_any N m l ->
    exists d, level_bound l (N + 1) d /\ match b_range_t bor ask m lo hi n with
    | Returned _ it n' => n <= n' <= n + (1 + 2 * ((2 * N + 1) * (d + 1))) /\ ~ asked_crossed ask n lo hi /\ exists l', part n n' lo hi l l'
        /\ fst (b_range_hint N it) <= length l' <= snd (b_range_hint N it)
        /\ forall cs, exists outs, b_range_calls N cs it = Ok outs
           /\ Forall2 (fun o s => fst o = fst s /\ fst (snd o) <= snd s <= snd (snd o)) outs (s_ends cs l')
    | Unwound _ n' => n < n' <= n + (1 + 2 * ((2 * N + 1) * (d + 1))) /\ panicked ask n'
    | Fault => asked_crossed ask n lo hi \/ exists n', n' <= n + (1 + 2 * ((2 * N + 1) * (d + 1))) /\ gap n n' lo hi l
    end.
  Proof.
    intros H. apply (any_iff N) in H as (L & R).
    assert (W : exists d, level_bound l (N + 1) d /\ forall n1, runs ask n1 (2 * ((2 * N + 1) * (d + 1)))
       (match bm_root m with Some t => make_worklist_t bor ask t lo hi n1 | None => Returned tt [] n1 end)
       (fun r n' => match r with Ok w => Forall ok2 w /\ Forall (rich N) w /\ part n1 n' lo hi l (dens w) | Panic => gap n1 n' lo hi l end)).
    { destruct (bm_root m) as [t|].
      - destruct R as (h & S & <-). exists h. split; [|intros n1; now apply (work_ask bor ask N HN h 1 t lo hi n1)].
        pose proof (proj1 (count_bounds N h 1 t S)). unfold level_bound. lia.
      - subst l. exists 0. split; [unfold level_bound; cbn; lia|]. intros n1. apply runs_ret. split; [constructor|]. split; [constructor|]. apply asked_nil. }
    destruct W as (d & Hd & W). exists d. split; [exact Hd|].
    assert (G : runs ask n (1 + 2 * ((2 * N + 1) * (d + 1))) (b_range_t bor ask m lo hi n)
      (fun r n' => match r with
         | Ok it => ~ asked_crossed ask n lo hi /\ exists w, it = BIter w (b_len m) /\ Forall ok2 w /\ Forall (rich N) w /\ part n n' lo hi l (dens w)
         | Panic => asked_crossed ask n lo hi \/ gap n n' lo hi l end)).
    { unfold b_range_t. eapply runs_after; [apply bad_runs|apply le_n| |intros n1 _ []]. intros bad n1 L1 Hb. destruct bad; [apply runs_fault; now left|].
      eapply runs_after with (b := 0); [apply W|lia| |].
      - intros w n2 L2 (O & I & P). apply runs_ret. split; [exact Hb|]. exists w. split; [reflexivity|]. split; [exact O|]. split; [exact I|]. now apply (part_wide n1).
      - intros n2 L2 Gp. right. now apply (gap_wide n1). }
    destruct (b_range_t bor ask m lo hi n) as [u it n'|u n'|]; cbn [runs] in G; [|exact G|].
    - destruct G as (Ln & Hc & w & -> & O & I & P). split; [exact Ln|]. split; [exact Hc|]. exists (dens w). split; [exact P|].
      assert (Ll : length (dens w) <= bm_len m) by (rewrite L; apply (sub_len N HN), P). unfold b_len. split.
      + split; [apply (hint_ok N HN); auto; now apply ok2s|exact Ll].
      + intros cs. apply (calls_ok N HN cs w (bm_len m)); auto.
    - destruct G as (n' & Ln & [G|G]); [now left|]. right. exists n'. split; [lia|exact G].
  Qed.
  Lemma hb_range_ask (h : Heap.heap (list entry)) m l lo hi n : BAnyHeapSpec.hbany N h m l ->
    exists d, level_bound l (N + 1) d /\ match hb_range_t bor ask h m lo hi n with
    | Returned _ it n' => n <= n' <= n + (1 + 2 * ((2 * N + 1) * (d + 1))) /\ ~ asked_crossed ask n lo hi /\ exists l', part n n' lo hi l l'
        /\ fst (b_range_hint N it) <= length l' <= snd (b_range_hint N it)
        /\ forall cs, exists outs, b_range_calls N cs it = Ok outs
           /\ Forall2 (fun o s => fst o = fst s /\ fst (snd o) <= snd s <= snd (snd o)) outs (s_ends cs l')
    | Unwound _ n' => n < n' <= n + (1 + 2 * ((2 * N + 1) * (d + 1))) /\ panicked ask n'
    | Fault => asked_crossed ask n lo hi \/ exists n', n' <= n + (1 + 2 * ((2 * N + 1) * (d + 1))) /\ gap n n' lo hi l
    end.
  Proof. intros (b & E & H). unfold hb_range_t. rewrite E. now apply b_range_ask. Qed.
End Maps.

Section MapsMut.
  Context {K V Q : Type} (bor : K -> Q) (ask : nat -> Q -> Q -> option comparison) (N : nat) (HN : 1 <= N).
  Notation nob := (fun _ : K => tt).
  Notation noc := (fun _ _ : unit => Lt).
  Lemma b_range_mut_ask (m : bt_map K V) l lo hi n : b_any N m l ->
    exists d refs, level_bound l (N + 1) d /\ map shown refs = l
    /\ (forall ws, b_any N (writes refs ws m) (fold_left (fun l iw => upd_nth (fst iw) (snd iw) l) ws l))
    /\ match b_range_mut_t bor ask m lo hi n with
    | Returned _ it n' => n <= n' <= n + (1 + 2 * ((2 * N + 1) * (d + 1))) /\ ~ asked_crossed ask n lo hi
        /\ exists refs', asked_part (fun r : bref => bor (snd r)) ask n n' lo hi refs refs'
        /\ fst (b_range_hint N it) <= length refs' <= snd (b_range_hint N it)
        /\ forall cs, exists outs, b_range_calls N cs it = Ok outs
           /\ Forall2 (fun o s => fst o = fst s /\ fst (snd o) <= snd s <= snd (snd o)) outs (s_ends cs refs')
    | Unwound _ n' => n < n' <= n + (1 + 2 * ((2 * N + 1) * (d + 1))) /\ panicked ask n'
    | Fault => asked_crossed ask n lo hi \/ exists n', n' <= n + (1 + 2 * ((2 * N + 1) * (d + 1))) /\ asked_gap bor ask n n' lo hi l
    end.
  Proof.
    intros H. destruct (map_pos_any N m l H) as [Hm Hc].
    destruct (b_range_ask (fun r : bref => bor (snd r)) ask N HN (map_pos m) (contents (map_pos m)) lo hi n Hm) as (d & Hd & R).
    exists d, (contents (map_pos m)). split; [unfold level_bound in *; rewrite <- Hc, map_length; exact Hd|]. split; [exact Hc|]. split.
    - intros ws. destruct (any_valid N m l H) as [Hv <-].
      destruct (writes_ok nob noc N (contents (map_pos m)) ws m Hv eq_refl) as (W1 & W2 & _). rewrite <- W2. now apply valid_any.
    - unfold b_range_mut_t. destruct (b_range_t _ _ _ _ _ _) as [u it n'|u n'|]; [exact R|exact R|].
      destruct R as [R|(n' & Ln & e & He & R)]; [now left|]. right. exists n'. split; [exact Ln|]. exists (shown e). split; [rewrite <- Hc; now apply in_map|]. exact R.
  Qed.
End MapsMut.

(** ** Comparisons of an order that may panic *)
Section Law.
  Context {K V Q : Type} (bor : K -> Q) (ask : nat -> Q -> Q -> option comparison) (cmp : Q -> Q -> comparison) (A : answers cmp ask).
  Notation entry := (K * V)%type.
  (** It returns or faults as [r] does. *)
  Definition does {R} (t : trial unit R) (r : res R) : Prop := match t with Returned _ x _ => r = Ok x | Unwound _ _ => True | Fault => r = Panic end.
  Lemma does_after {R R'} (t : trial unit R) (f : unit -> R -> nat -> trial unit R') r g : does t r -> (forall x n, does (f tt x n) (g x)) ->
    does (after t back f) (x <- r;; g x).
  Proof. intros D F. destruct t as [[] x n|u n|]; cbn in *; [subst r; apply F|exact Logic.I|now subst r]. Qed.
  Lemma bd_does bd k n : does (cmp_bd_t ask bd k n) (Ok (cmp_bd cmp bd k)).
  Proof.
    destruct bd as [|q|q]; cbn [cmp_bd_t cmp_bd]; [reflexivity| |]; unfold question; (destruct (ask n q k) as [c|] eqn:E; [|exact Logic.I]); apply A in E; subst c; reflexivity.
  Qed.
  Lemma left_does lb : forall (es : list entry) i n, does (left_edge_t bor ask lb i es n) (Ok (left_edge bor cmp lb i es)).
  Proof.
    induction es as [|e es IH]; intros i n; cbn [left_edge_t left_edge]; [reflexivity|].
    apply (does_after _ _ (Ok (cmp_bd cmp lb (bor (fst e)))) (fun o => Ok (match o with BUnbounded => _ | BLess => _ | BEqual b => _ | BGreater => _ end)) (bd_does _ _ _)).
    intros [| |b|] n1; try reflexivity. apply IH.
  Qed.
  Lemma right_does ub len : forall (es : list entry) i n, does (right_edge_t bor ask ub len i es n) (Ok (right_edge bor cmp ub len i es)).
  Proof.
    induction es as [|e es IH]; intros i n; cbn [right_edge_t right_edge]; [reflexivity|].
    apply (does_after _ _ (Ok (cmp_bd cmp ub (bor (fst e)))) (fun o => Ok (match o with BUnbounded => _ | BLess => _ | BEqual b => _ | BGreater => _ end)) (bd_does _ _ _)).
    intros [| |b|] n1; try reflexivity. apply IH.
  Qed.
  Lemma edges_do (es : list entry) lb ub n : does (find_range_edges_t bor ask es lb ub n) (Ok (find_range_edges bor cmp es lb ub)).
  Proof.
    unfold find_range_edges_t, find_range_edges. pose proof (left_does lb es 0 n) as D. destruct (left_edge_t bor ask lb 0 es n) as [[] [l [i rest]] n1|u n1|]; cbn [does after] in *; [|exact Logic.I|discriminate].
    injection D as ->. pose proof (right_does ub (length es) rest i n1) as D. destruct (right_edge_t bor ask ub (length es) i rest n1) as [[] r n2|u n2|]; cbn [does after] in *; [|exact Logic.I|discriminate].
    injection D as ->. reflexivity.
  Qed.
  Lemma sod_map {X Y} (f : X -> Y) i j l : slice_or_default i j (map f l) = map f (slice_or_default i j l).
  Proof. unfold slice_or_default, slice. rewrite map_length. destruct ((i <=? j) && (j <=? length l)); [now rewrite skipn_map, firstn_map|reflexivity]. Qed.
  Lemma last_map {X Y} (f : X -> Y) (l : list X) : last_opt (map f l) = option_map f (last_opt l).
  Proof. unfold last_opt. rewrite map_length. apply nth_error_map. Qed.
  Lemma last_in {X} (l : list X) x : last_opt l = Some x -> In x l.
  Proof. apply nth_error_In. Qed.
  Lemma work_does (t : bt K V) : forall lb ub n, does (make_worklist_t bor ask t lb ub n) (make_worklist bor cmp t lb ub).
  Proof.
    induction t as [es ks IH] using bt_nest. intros lb ub n. cbn [make_worklist_t make_worklist]. pose proof (edges_do es lb ub n) as D.
    destruct (find_range_edges_t bor ask es lb ub n) as [[] edges n1|u n1|]; cbn [does after] in *; [|exact Logic.I|discriminate]. injection D as ->.
    destruct edges as [[[le lk] lp] [[ue uk] rp]]. destruct (slice le ue es) as [elems|]; [|reflexivity]. cbn [bind]. rewrite !sod_map.
    assert (F : Forall (fun c => forall lb ub n, does (make_worklist_t bor ask c lb ub n) (make_worklist bor cmp c lb ub)) (slice_or_default lk uk ks)).
    { destruct (sod_split lk uk ks) as (a & b & E & _). rewrite E in IH. apply Forall_app in IH as [_ IH]. now apply Forall_app in IH as [IH _]. }
    set (kids := slice_or_default lk uk ks) in *. clearbody kids. clear IH.
    assert (Rt : forall kids lb w1 n, Forall (fun c => forall lb ub n, does (make_worklist_t bor ask c lb ub n) (make_worklist bor cmp c lb ub)) kids ->
      does (work_right_t lb ub ((le, lk, lp), (ue, uk, rp)) elems kids (map (make_worklist_t bor ask) kids) w1 n)
        (let '(kids, to_prune) := if rp then (removelast kids, last_opt (map (make_worklist bor cmp) kids)) else (kids, None) in
         let w2 := if (0 <? length elems) || (0 <? length kids) then [Erg elems kids (negb lp && (le =? lk)) (negb rp && (ue <? uk))] else [] in
         w3 <- match to_prune with Some c => c lb ub | None => Ok [] end;; Ok (w1 ++ w2 ++ w3))).
    { intros kids0 lb0 w1 n0 F0. unfold work_right_t. destruct rp; [|reflexivity]. rewrite !last_map. destruct (last_opt kids0) as [c|] eqn:El; cbn [option_map]; [|reflexivity].
      apply does_after; [|intros x n2; reflexivity]. rewrite Forall_forall in F0. now apply F0, last_in. }
    destruct lp; [|now apply Rt]. destruct (if (length kids =? 1) && rp then _ else _) as [ub'|]; [|reflexivity]. cbn [bind].
    destruct kids as [|c kids]; cbn [map tl].
    - cbn [after bind]. apply (Rt [] Unbounded [] n1). constructor.
    - inversion F as [|x l Fc Fk]; subst. pose proof (Fc lb ub' n1) as D. destruct (make_worklist_t bor ask c lb ub' n1) as [[] w1 n2|u n2|]; cbn [does after] in *.
      + rewrite D. cbn [bind]. now apply (Rt kids Unbounded w1 n2).
      + exact Logic.I.
      + now rewrite D.
  Qed.
  Lemma range_does (m : bt_map K V) lo hi n : does (b_range_t bor ask m lo hi n) (b_range bor cmp m lo hi).
  Proof.
    unfold b_range_t, b_range.
    assert (D : does (bad_range_t ask lo hi n) (Ok (bad_range cmp lo hi))).
    { destruct lo as [|a|a], hi as [|b|b]; cbn [bad_range_t bad_range]; try reflexivity; unfold question;
        (destruct (ask n b a) as [c|] eqn:E; [|exact Logic.I]); apply A in E; subst c; reflexivity. }
    destruct (bad_range_t ask lo hi n) as [[] bad n1|u n1|]; cbn [does after] in *; [|exact Logic.I|discriminate]. injection D as ->. destruct bad; [reflexivity|].
    apply does_after; [|intros w n2; reflexivity]. destruct (bm_root m) as [t|]; [apply work_does|reflexivity].
  Qed.
  Lemma b_range_order N (HN : 1 <= N) (m : bt_map K V) l lo hi n : b_any N m l ->
    exists d, level_bound l (N + 1) d
      /\ tries ask n (1 + 2 * ((2 * N + 1) * (d + 1))) tt (it <- b_range bor cmp m lo hi;; Ok (tt, it)) (b_range_t bor ask m lo hi n).
  Proof.
    intros H. destruct (b_range_ask bor ask N HN m l lo hi n H) as (d & Hd & R). exists d. split; [exact Hd|]. pose proof (range_does m lo hi n) as D.
    destruct (b_range_t bor ask m lo hi n) as [[] it n'|[] n'|]; cbn [does tries] in *.
    - rewrite D. split; [tauto|reflexivity].
    - split; [tauto|]. split; [tauto|reflexivity].
    - now rewrite D.
  Qed.
End Law.
Section LawMut.
  Context {K V Q : Type} (bor : K -> Q) (ask : nat -> Q -> Q -> option comparison) (cmp : Q -> Q -> comparison) (A : answers cmp ask).
  Lemma b_ranges_order N (HN : 1 <= N) (m : bt_map K V) l lo hi n : b_any N m l ->
    exists d, level_bound l (N + 1) d
      /\ tries ask n (1 + 2 * ((2 * N + 1) * (d + 1))) tt (it <- b_range bor cmp m lo hi;; Ok (tt, it)) (b_range_t bor ask m lo hi n)
      /\ tries ask n (1 + 2 * ((2 * N + 1) * (d + 1))) tt (it <- b_range_mut bor cmp m lo hi;; Ok (tt, it)) (b_range_mut_t bor ask m lo hi n).
  Proof.
    intros H. destruct (map_pos_any N m l H) as [Hm Hc]. destruct (b_range_order bor ask cmp A N HN m l lo hi n H) as (d1 & L1 & T1).
    destruct (b_range_order (fun r : bref => bor (snd r)) ask cmp A N HN (map_pos m) _ lo hi n Hm) as (d2 & L2 & T2).
    assert (Wide : forall X (a b : nat) (s : unit) (r : res (unit * X)) t, a <= b -> tries ask n a s r t -> tries ask n b s r t).
    { intros X a b s r [u x k|u k|] Lab; cbn [tries]; [|intros (Lk & P & E)|auto]; [intros (Lk & E); split; [lia|exact E]|]. split; [lia|auto]. }
    exists (Nat.max d1 d2). split; [|split].
    - destruct (Nat.max_spec d1 d2) as [[_ ->]|[_ ->]]; [|exact L1]. unfold level_bound in *. rewrite <- Hc, map_length. exact L2.
    - eapply Wide; [|exact T1]. nia.
    - eapply Wide; [|exact T2]. nia.
  Qed.
End LawMut.
