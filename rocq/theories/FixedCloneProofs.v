(** Proofs about [InlineVec::clone]. *)
From Coq Require Import List PeanoNat Bool Lia.
From Verif Require Import Base Spec Heap Vec BTreeHeapModel FixedModel FixedSpec FixedProofs FixedCloneModel.
Import ListNotations.
Local Open Scope nat_scope.

Section Clone.
  Context {K V : Type}.
  Variables (kb vb : nat -> bool).
  Notation elems := (elems K V).

  Definition filled {A} (n : nat) (l : list A) : list (option A) := map Some l ++ uninit (n - length l).
  Lemma filled_write {A} n (l : list A) x : length l < n -> slot_write (filled n l) (length l) x = Ok (filled n (l ++ [x])).
  Proof.
    intros L. unfold slot_write, filled, uninit. rewrite app_length, map_length, repeat_length.
    destruct (Nat.ltb_spec (length l) (length l + (n - length l))) as [_|?]; [|lia]. f_equal.
    replace (n - length l) with (S (n - length (l ++ [x]))) by (rewrite app_length; cbn [length]; lia). cbn [repeat].
    rewrite set_at_mid by (now rewrite map_length). now rewrite map_app, <- app_assoc.
  Qed.
  Lemma values_filled {A} n (l : list A) : values (filled n l) = l.
  Proof.
    unfold values, filled, uninit. rewrite flat_map_app. assert (E : forall m, flat_map (fun o : option A => match o with Some x => [x] | None => [] end) (repeat None m) = []) by (intros m; induction m; cbn; auto).
    rewrite E, app_nil_r. induction l; cbn; congruence.
  Qed.
  Lemma begins_read {A} n (s : list (option A)) l i x : begins n s l -> nth_error l i = Some x -> slot_read s i = Ok x.
  Proof.
    intros [_ H] E. unfold slot_read. assert (L : i < length l) by (apply nth_error_Some; congruence).
    assert (E1 : nth_error (firstn (length l) s) i = Some (Some x)) by (rewrite H; now apply map_nth_error).
    rewrite <- (firstn_skipn (length l) s), nth_error_app1; [now rewrite E1|]. apply nth_error_Some. congruence.
  Qed.
  Lemma begins_filled {A} n (l : list A) : length l <= n -> begins n (filled n l) l.
  Proof.
    intros L. unfold begins, filled, uninit. rewrite app_length, map_length, repeat_length. split; [lia|].
    rewrite <- (map_length Some l) at 1. now rewrite firstn_app, firstn_all, Nat.sub_diag, app_nil_r.
  Qed.
  Lemma firstn_snoc {A} (l : list A) i x : nth_error l i = Some x -> firstn (S i) l = firstn i l ++ [x].
  Proof. revert i; induction l as [|y l IH]; intros [|i] E; cbn in *; try discriminate; [congruence|]. now rewrite <- IH. Qed.

  Definition safe (i : nat) : Prop := kb i = false /\ vb i = false.
  Definition stops (i : nat) (ks : list K) (vs : list V) : elems := Elems (filled 11 (firstn (if kb i then i else S i) ks)) (filled 11 (firstn i vs)) 0.
  Lemma loop_ok (e : elems) es : elems_at e es -> forall n i, i + n = length es ->
    (forall j, j < i -> safe j) ->
    let ks := map fst es in let vs := map snd es in
    ((forall j, j < length es -> safe j) -> clone_loop kb vb n i e (Elems (filled 11 (firstn i ks)) (filled 11 (firstn i vs)) 0) = Ok (Elems (filled 11 ks) (filled 11 vs) 0, false))
    /\ forall j, i <= j < length es -> (forall j', j' < j -> safe j') -> kb j || vb j = true ->
         clone_loop kb vb n i e (Elems (filled 11 (firstn i ks)) (filled 11 (firstn i vs)) 0) = Ok (stops j ks vs, true).
  Proof.
    intros (Hk & Hv & Hl) n. assert (Lm : length es <= 11).
    { destruct Hk as [L1 L2]. apply (f_equal (@length _)) in L2. rewrite firstn_length, !map_length in L2. lia. }
    induction n as [|n IH]; intros i Hi Sf ks vs; cbn [clone_loop].
    - split; [intros _|intros j Hj; lia]. rewrite !firstn_all2 by (unfold ks, vs; rewrite map_length; lia). reflexivity.
    - destruct (nth_error es i) as [[k v]|] eqn:Ee; [|apply nth_error_None in Ee; lia].
      assert (Ek : nth_error ks i = Some k) by (exact (map_nth_error fst i es Ee)). assert (Ev : nth_error vs i = Some v) by (exact (map_nth_error snd i es Ee)).
      rewrite (begins_read _ _ _ _ _ Hk Ek). cbn [bind el_keys el_vals el_len].
      assert (L1 : length (firstn i ks) = i) by (rewrite firstn_length; unfold ks; rewrite map_length; lia).
      assert (L2 : length (firstn i vs) = i) by (rewrite firstn_length; unfold vs; rewrite map_length; lia).
      assert (W1 : slot_write (filled 11 (firstn i ks)) i k = Ok (filled 11 (firstn (S i) ks))).
      { rewrite (firstn_snoc _ _ _ Ek). rewrite <- L1 at 2. apply filled_write. lia. }
      assert (W2 : slot_write (filled 11 (firstn i vs)) i v = Ok (filled 11 (firstn (S i) vs))).
      { rewrite (firstn_snoc _ _ _ Ev). rewrite <- L2 at 2. apply filled_write. lia. }
      rewrite W1. cbn [bind]. cbv zeta. rewrite (begins_read _ _ _ _ _ Hv Ev). cbn [bind]. rewrite W2. cbn [bind].
      split.
      + intros A. destruct (A i) as [A1 A2]; [lia|]. rewrite A1, A2. apply IH; [lia|intros j Hj; apply A; lia|auto].
      + intros j Hj A B. destruct (Nat.eq_dec i j) as [<-|Hn].
        * unfold stops. destruct (kb i); [reflexivity|]. cbn [orb] in B. now rewrite B.
        * destruct (A i) as [A1 A2]; [lia|]. rewrite A1, A2. apply IH; auto; [lia|intros j' Hj'; apply A; lia|lia].
  Qed.

  Lemma skip_filled {A} (l : list A) : values (skipn (length l) (filled 11 l)) = [].
  Proof.
    unfold filled. rewrite <- (map_length Some l) at 1. rewrite skipn_app, skipn_all, Nat.sub_diag. cbn [skipn app]. exact (values_filled _ []) || idtac.
    generalize (11 - length l). intros m. unfold values, uninit. induction m; cbn; auto.
  Qed.
  Lemma clone_done (e : elems) es : elems_at e es -> (forall i, i < length es -> kb i = false /\ vb i = false) ->
    exists e', el_clone kb vb e = Ok (Done e', ([], [])) /\ elems_at e' es.
  Proof.
    intros H A. pose proof H as (Hk & Hv & Hl). destruct (loop_ok e es H (length es) 0 eq_refl) as [D _]; [intros; lia|]. specialize (D A).
    exists (Elems (filled 11 (map fst es)) (filled 11 (map snd es)) (length es)). unfold el_clone. rewrite Hl.
    cbn [firstn] in D. change (Elems (filled 11 []) (filled 11 []) 0) with (@el_new K V) in D. rewrite D. cbn [bind]. cbv zeta. cbn [el_keys el_vals].
    assert (Lm : length es <= 11).
    { destruct Hk as [L1 L2]. apply (f_equal (@length _)) in L2. rewrite firstn_length, !map_length in L2. lia. }
    split.
    - do 2 f_equal. unfold forgotten. cbn [el_keys el_vals el_len]. rewrite <- (map_length fst es) at 1. rewrite skip_filled.
      rewrite <- (map_length snd es) at 1. now rewrite skip_filled.
    - split; [|split; [|reflexivity]]; apply begins_filled; now rewrite map_length.
  Qed.
  Lemma clone_unwound (e : elems) es i : elems_at e es -> i < length es -> (forall j, j < i -> kb j = false /\ vb j = false) -> kb i || vb i = true ->
    el_clone kb vb e = Ok (Unwound, (firstn (if kb i then i else S i) (map fst es), firstn i (map snd es))).
  Proof.
    intros H Hi A B. pose proof H as (Hk & Hv & Hl). destruct (loop_ok e es H (length es) 0 eq_refl) as [_ D]; [intros; lia|].
    specialize (D i (conj (Nat.le_0_l i) Hi) A B). unfold el_clone. rewrite Hl.
    cbn [firstn] in D. change (Elems (filled 11 []) (filled 11 []) 0) with (@el_new K V) in D. rewrite D. cbn [bind].
    unfold stops, forgotten, el_clear. cbn [el_keys el_vals el_len firstn all_init bind Nat.leb assert_ skipn]. now rewrite !values_filled.
  Qed.
  Lemma clone_same (e : elems) es (d : option (kids addr)) e1 d1 : elems_at e es -> cell_clone e d = Ok (e1, d1) -> (forall i, i < length es -> kb i = false /\ vb i = false) ->
    el_clone kb vb e = Ok (Done e1, ([], [])).
  Proof.
    intros H E A. destruct (clone_done e es H A) as (e' & E' & H'). rewrite E'. do 3 f_equal.
    pose proof H as (Hk & Hv & Hl). unfold cell_clone in E.
    assert (C : forall X n (l : list X) s, begins n s l -> clone_slots (length l) s = Ok (filled n l)).
    { clear. intros X n l. revert n. induction l as [|x l IH]; intros n s [H1 H2]; cbn [clone_slots length].
      - unfold filled. cbn. now rewrite Nat.sub_0_r, <- H1.
      - destruct s as [|[y|] s]; cbn in H2; try discriminate. injection H2 as -> H2. cbn in H1. destruct n as [|n]; [discriminate|].
        rewrite (IH n s); [reflexivity|]. split; [lia|auto]. }
    assert (Ek : clone_slots (el_len e) (el_keys e) = Ok (filled 11 (map fst es))) by (rewrite Hl, <- (map_length fst es); now apply C).
    assert (Ev : clone_slots (el_len e) (el_vals e) = Ok (filled 11 (map snd es))) by (rewrite Hl, <- (map_length snd es); now apply C).
    rewrite Ek, Ev in E. cbn [bind] in E.
    assert (E2 : e1 = Elems (filled 11 (map fst es)) (filled 11 (map snd es)) (el_len e)).
    { destruct d as [b|]; cbn [bind] in E; [destruct (clone_slots (kd_len b) (kd_ptrs b)); [|discriminate]; cbn [bind] in E|]; now injection E as <- _. }
    rewrite E2, Hl. clear - E' H A Hl. destruct (loop_ok e es H (length es) 0 eq_refl) as [D _]; [intros; lia|]. specialize (D A).
    unfold el_clone in E'. rewrite Hl in E'. cbn [firstn] in D. change (Elems (filled 11 []) (filled 11 []) 0) with (@el_new K V) in D. rewrite D in E'. cbn [bind el_keys el_vals] in E'.
    cbv zeta in E'. congruence.
  Qed.
End Clone.
