(** Shared nodes of the fixed [BTreeMap] on the level of lists: the functions of [FixedHeapModel] with the
    entries and children of a node as lists, and with a check wherever arrays would differ from lists (a full
    array, an array of children that is left empty, a search in no entries). *)
From Coq Require Import List PeanoNat Bool Lia.
From Verif Require Import Base Spec Vec Heap HeapProofs BTreeModel BTreeProofs BTreeProofs2 BTreeHeapModel
  BTreeHeapSpec BTreeHeapProofs BTreeHeapProofs2 BTreeHeapProofs3 BTreeHeapProofs4 FixedModel FixedProofs FixedProofs2 FixedProofs3
  FixedHeapModel.
Import ListNotations.
Local Open Scope nat_scope.

Notation ins_at := FixedProofs3.put.

Section Lists.
  Context {K V Q : Type} (bor : K -> Q) (cmp : Q -> Q -> comparison) (small_key : bool).
  Variable bomb : nat -> bool.
  Notation pay := (list (K * V)).
  Notation heap := (heap pay).
  Notation N := MIN_OCCUPANCY.
  Notation entry := (K * V)%type.

  Definition lsearch (q : Q) (es : pay) : res (nat + nat) :=
    _ <- assert_ (negb (is_nil es));;
    if small_key then Ok (lin_search bor cmp q (map fst es) 0)
    else bin_search bor cmp (length (map fst es)) q (map fst es) 0 (length (map fst es)).

  Fixpoint g_get_mut (fuel : nat) (h : heap) (a : addr) (q : Q) (w : V -> V) : res (heap * addr * out (option V)) :=
    match fuel with
    | O => Panic
    | S fuel' =>
      '(h1, r) <- opn bomb h a;;
      match r with
      | Unwound => Ok (h1, a, Unwound)
      | Done (a', es, ks) =>
        s <- lsearch q es;;
        match s with
        | inl i => e <- unwrap (nth_error es i);; Ok (cls h1 a' (set_at i (fst e, w (snd e)) es) ks, a', Done (Some (snd e)))
        | inr i =>
          match nth_error ks i with
          | None => Ok (cls h1 a' es ks, a', Done None)
          | Some c => '(h2, c', o) <- g_get_mut fuel' h1 c q w;; Ok (cls h2 a' es (set_at i c' ks), a', o)
          end
        end
      end
    end.

  Definition g_absorb (h : heap) (a : addr) (es : pay) (ks : list addr) (ub : nat) (kid : option addr) (kv : K * V)
    : res (heap * addr * out (fh_res K V)) :=
    _ <- assert_ (Bool.eqb (negb (is_nil ks)) (is_some kid));;
    _ <- assert_ (is_nil ks || (length ks =? S (length es)));;
    _ <- assert_ (ub <=? length es);;
    _ <- assert_ (length es <=? MAX_OCCUPANCY);;
    let es1 := ins_at ub kv es in
    let ks1 := match kid with Some c => ins_at ub c ks | None => ks end in
    if length es <? MAX_OCCUPANCY then Ok (cls h a es1 ks1, a, Done FHAbsorbed)
    else
      let m := lo_len ub in
      let h1 := cls h a (skipn (S m) es1) (skipn (S m) ks1) in
      let '(h2, b) := alloc h1 (Nd (firstn m es1) (map Some (firstn (S m) ks1))) in
      Ok (h2, a, Done (FHSplit (Some b) (nth m es1 kv))).
  Fixpoint g_insert (fuel : nat) (h : heap) (a : addr) (kv : K * V) : res (heap * addr * out (fh_res K V)) :=
    match fuel with
    | O => Panic
    | S fuel' =>
      '(h1, r) <- opn bomb h a;;
      match r with
      | Unwound => Ok (h1, a, Unwound)
      | Done (a', es, ks) =>
        s <- lsearch (bor (fst kv)) es;;
        match s with
        | inl ub =>
          old <- unwrap (nth_error es ub);;
          Ok (cls h1 a' (set_at ub kv es) ks, a', Done (FHReplaced (fst old) (snd old)))
        | inr ub =>
          '(h2, ks1, r) <- match nth_error ks ub with
                           | Some c => '(h2, c', o) <- g_insert fuel' h1 c kv;; Ok (h2, set_at ub c' ks, o)
                           | None => Ok (h1, ks, Done (FHSplit None kv))
                           end;;
          match r with
          | Done (FHSplit kid kv1) => g_absorb h2 a' es ks1 ub kid kv1
          | _ => Ok (cls h2 a' es ks1, a', r)
          end
        end
      end
    end.

  Definition g_rot_lf (h : heap) (es : pay) (ks : list addr) (idx : nat) : res (heap * pay * list addr * out unit) :=
    _ <- assert_ (negb (is_nil ks));;
    r <- unwrap (nth_error ks (idx + 1));;
    r_es0 <- peek h r;;
    _ <- assert_ (MIN_OCC N <? length r_es0);;
    '(h1, o) <- opn bomb h r;;
    match o with
    | Unwound => Ok (h1, es, ks, Unwound)
    | Done (r', r_es, r_ks) =>
      '(kv2, r_es') <- vec_remove 0 r_es;;
      '(kid, r_ks') <- (if is_nil r_ks then Ok (None, r_ks) else '(x, r_ks') <- vec_remove 0 r_ks;; Ok (Some x, r_ks'));;
      _ <- assert_ (Bool.eqb (is_some kid) (negb (is_nil r_ks')));;
      let h2 := cls h1 r' r_es' r_ks' in
      let ks1 := set_at (idx + 1) r' ks in
      kv1 <- unwrap (nth_error es idx);;
      let es1 := set_at idx kv2 es in
      l <- unwrap (nth_error ks1 idx);;
      l_es0 <- peek h2 l;;
      _ <- assert_ (length l_es0 <? MIN_OCC N);;
      '(h3, o) <- opn bomb h2 l;;
      match o with
      | Unwound => h4 <- drop h3 kid;; Ok (h4, es1, ks1, Unwound)
      | Done (l', l_es, l_ks) =>
        _ <- assert_ (length l_es <? MAX_OCCUPANCY);;
        _ <- assert_ (Bool.eqb (is_some kid) (negb (is_nil l_ks)));;
        _ <- assert_ (length l_ks <? MAX_KIDS);;
        Ok (cls h3 l' (l_es ++ [kv1]) (l_ks ++ olist kid), es1, set_at idx l' ks1, Done tt)
      end
    end.

  Definition g_rot_rt (h : heap) (es : pay) (ks : list addr) (idx : nat) : res (heap * pay * list addr * out unit) :=
    _ <- assert_ (negb (is_nil ks));;
    l <- unwrap (nth_error ks idx);;
    l_es0 <- peek h l;;
    _ <- assert_ (MIN_OCC N <? length l_es0);;
    '(h1, o) <- opn bomb h l;;
    match o with
    | Unwound => Ok (h1, es, ks, Unwound)
    | Done (l', l_es, l_ks) =>
      '(kv0, l_es') <- unwrap (vec_pop l_es);;
      let '(kid, l_ks') := match vec_pop l_ks with
                           | Some (x, l_ks') => (Some x, l_ks')
                           | None => (None, l_ks)
                           end in
      _ <- assert_ (Bool.eqb (is_some kid) (negb (is_nil l_ks')));;
      let h2 := cls h1 l' l_es' l_ks' in
      let ks1 := set_at idx l' ks in
      kv1 <- unwrap (nth_error es idx);;
      let es1 := set_at idx kv0 es in
      r <- unwrap (nth_error ks1 (idx + 1));;
      '(h3, o) <- opn bomb h2 r;;
      match o with
      | Unwound => h4 <- drop h3 kid;; Ok (h4, es1, ks1, Unwound)
      | Done (r', r_es, r_ks) =>
        _ <- assert_ (length r_es <? MAX_OCCUPANCY);;
        _ <- assert_ (Bool.eqb (is_some kid) (negb (is_nil r_ks)));;
        _ <- assert_ (length r_ks <? MAX_KIDS);;
        r_es' <- vec_insert 0 kv1 r_es;;
        r_ks' <- match kid with Some x => vec_insert 0 x r_ks | None => Ok r_ks end;;
        Ok (cls h3 r' r_es' r_ks', es1, set_at (idx + 1) r' ks1, Done tt)
      end
    end.

  Definition g_merge (h : heap) (es : pay) (ks : list addr) (at_ : nat) : res (heap * pay * list addr * out unit) :=
    '(r, ks1) <- vec_remove (at_ + 1) ks;;
    _ <- assert_ (negb (is_nil ks1));;
    '(h1, o) <- own bomb h r;;
    match o with
    | Unwound => Ok (h1, es, ks1, Unwound)
    | Done (r_es, r_ks) =>
      '(mid, es1) <- vec_remove at_ es;;
      l <- unwrap (nth_error ks1 at_);;
      '(h2, o) <- opn bomb h1 l;;
      match o with
      | Unwound => h3 <- drops h2 (map Some r_ks);; Ok (h3, es1, ks1, Unwound)
      | Done (l', l_es, l_ks) =>
        _ <- assert_ (length l_es + 1 + length r_es <=? MAX_OCCUPANCY);;
        _ <- assert_ (negb (is_nil r_es));;
        _ <- assert_ (Bool.eqb (is_nil l_ks) (is_nil r_ks));;
        _ <- assert_ (length l_ks + length r_ks <=? MAX_KIDS);;
        Ok (cls h2 l' (l_es ++ mid :: r_es) (l_ks ++ r_ks), es1, set_at at_ l' ks1, Done tt)
      end
    end.

  Definition g_rebal (h : heap) (es : pay) (ks : list addr) (at_ : nat) : res (heap * pay * list addr * out bool) :=
    _ <- assert_ (negb (is_nil ks));;
    c <- unwrap (nth_error ks at_);;
    c_es <- peek h c;;
    _ <- assert_ (length c_es =? N - 1);;
    let threshold := MAX_OCC N - MIN_OCC N in
    '(h1, es1, ks1, o) <-
      (if 0 <? at_ then
         s <- unwrap (nth_error ks (at_ - 1));;
         s_es <- peek h s;;
         if threshold <? length s_es then g_rot_rt h es ks (at_ - 1) else g_merge h es ks (at_ - 1)
       else
         s <- unwrap (nth_error ks (at_ + 1));;
         s_es <- peek h s;;
         if threshold <? length s_es then g_rot_lf h es ks at_ else g_merge h es ks at_);;
    Ok (h1, es1, ks1, match o with Done _ => Done (length es1 <? MIN_OCC N) | Unwound => Unwound end).

  Definition g_rebal_cls (h : heap) (a : addr) (es : pay) (ks : list addr) (at_ : nat) (kv : entry)
    : res (heap * addr * out (option (entry * bool))) :=
    '(h1, es1, ks1, o) <- g_rebal h es ks at_;;
    Ok (cls h1 a es1 ks1, a, match o with Done u => Done (Some (kv, u)) | Unwound => Unwound end).

  Fixpoint g_pop_last (fuel : nat) (h : heap) (a : addr) : res (heap * addr * out (option (entry * bool))) :=
    match fuel with
    | O => Panic
    | S fuel' =>
      '(h1, r) <- opn bomb h a;;
      match r with
      | Unwound => Ok (h1, a, Unwound)
      | Done (a', es, ks) =>
        match last_opt ks with
        | Some c =>
          '(h2, c', o) <- g_pop_last fuel' h1 c;;
          let ks1 := set_at (length ks - 1) c' ks in
          match o with
          | Done (Some (kv, true)) => g_rebal_cls h2 a' es ks1 (length es) kv
          | _ => Ok (cls h2 a' es ks1, a', o)
          end
        | None =>
          '(kv, es') <- unwrap (vec_pop es);;
          Ok (cls h1 a' es' ks, a', Done (Some (kv, length es' <? MIN_OCC N)))
        end
      end
    end.

  Fixpoint g_remove (fuel : nat) (h : heap) (a : addr) (q : Q) : res (heap * addr * out (option (entry * bool))) :=
    match fuel with
    | O => Panic
    | S fuel' =>
      '(h1, r) <- opn bomb h a;;
      match r with
      | Unwound => Ok (h1, a, Unwound)
      | Done (a', es, ks) =>
        s <- lsearch q es;;
        match s with
        | inr i =>
          match nth_error ks i with
          | None => Ok (cls h1 a' es ks, a', Done None)
          | Some c =>
            '(h2, c', o) <- g_remove fuel' h1 c q;;
            let ks1 := set_at i c' ks in
            match o with
            | Done (Some (kv, true)) => g_rebal_cls h2 a' es ks1 i kv
            | _ => Ok (cls h2 a' es ks1, a', o)
            end
          end
        | inl i =>
          if is_nil ks then
            '(kv, es') <- vec_remove i es;;
            Ok (cls h1 a' es' ks, a', Done (Some (kv, length es' <? MIN_OCC N)))
          else
            c <- unwrap (nth_error ks i);;
            '(h2, c', o) <- g_pop_last fuel' h1 c;;
            let ks1 := set_at i c' ks in
            match o with
            | Unwound => Ok (cls h2 a' es ks1, a', Unwound)
            | Done ret =>
              '(kv, under) <- unwrap ret;;
              old <- unwrap (nth_error es i);;
              let es1 := set_at i kv es in
              if (under : bool) then g_rebal_cls h2 a' es1 ks1 i old
              else Ok (cls h2 a' es1 ks1, a', Done (Some (old, false)))
            end
        end
      end
    end.
End Lists.

(** ** Rebalancing *)
Section Remove.
  Context {K V Q : Type} (bor : K -> Q) (cmp : Q -> Q -> comparison) (small_key : bool).
  Variable bomb : nat -> bool.
  Notation pay := (list (K * V)).
  Notation heap := (heap pay).
  Notation bt := (bt K V).
  Notation N := MIN_OCCUPANCY.
  Notation scan := (@scan K V Q bor cmp).
  Notation rank := (@rank K V Q bor cmp).
  Notation hit := (@hit K V Q bor cmp).
  Notation near := (@near K V Q bor cmp).
  Notation loose := (@loose K V).
  Notation flat := (@flat K V).

  Lemma loose_leaf_or d e k : loose d (BN e k) -> k = [] /\ d = 0 \/ length k = Datatypes.S (length e) /\ d <> 0.
  Proof. intros L. apply loose_inv in L as [[-> ->]|(d' & -> & L & _)]; auto. Qed.

  (** The checks of the list level functions, on regular nodes. *)
  Lemma is_nil_len {A} (l : list A) : is_nil l = (length l =? 0).
  Proof. destruct l; reflexivity. Qed.
  Lemma moved_ok {A} d e (tk : list bt) (rest : list A) (b : bool) : loose d (BN e tk) -> 1 <= length e ->
    b = negb (is_nil tk) -> length tk = length rest + (if b then 1 else 0) -> Bool.eqb b (negb (is_nil rest)) = true.
  Proof.
    intros L Le -> Lr. rewrite !is_nil_len in *. destruct (loose_leaf_or _ _ _ L) as [[-> _]|[Lt _]].
    - cbn [length Nat.eqb negb] in *. replace (length rest) with 0 by lia. reflexivity.
    - rewrite Lt in *. cbn [Nat.eqb negb] in *. destruct (length rest) eqn:E; [lia|reflexivity].
  Qed.
  Lemma fits_ok {A} d e1 (k1 : list bt) e2 k2 (l : list A) (b : bool) : loose d (BN e1 k1) -> loose d (BN e2 k2) ->
    b = negb (is_nil k1) -> length l = length k2 -> Bool.eqb b (negb (is_nil l)) = true.
  Proof.
    intros L1 L2 -> El. rewrite !is_nil_len, El.
    destruct (loose_leaf_or _ _ _ L1) as [[-> ->]|[Lt Hd]], (loose_leaf_or _ _ _ L2) as [[-> H2]|[Lt2 Hd2]]; try congruence; [reflexivity|].
    rewrite Lt, Lt2. reflexivity.
  Qed.
  Lemma few_kids {A} d e k (l : list A) n : loose d (BN e k) -> length l = length k -> length e < n -> length l <? n + 1 = true.
  Proof. intros L El Le. apply Nat.ltb_lt. rewrite El. destruct (loose_leaf_or _ _ _ L) as [[-> _]|[-> _]]; cbn; lia. Qed.

  Section Pair.
    Variables (h0 h : heap) (R X O : list addr).
    Variables (e1 e2 : pay) (m : K * V) (k1 k2 : list addr) (a b : addr) (t1 t2 : list bt) (ea eb : pay) (ka kb : list bt) (d : nat).
    Notation A := (BN ea ka).
    Notation B := (BN eb kb).
    Hypothesis S : sess h0 h R ((k1 ++ a :: b :: k2) ++ X) O.
    Hypothesis F1 : Forall2 (ns h) k1 t1.
    Hypothesis DA : ns h a A.
    Hypothesis DB : ns h b B.
    Hypothesis F2 : Forall2 (ns h) k2 t2.
    Hypothesis L1 : length e1 = length t1.
    Hypothesis Lo : loose (Datatypes.S d) (BN (e1 ++ m :: e2) (t1 ++ A :: B :: t2)).
    Notation T := (BN (e1 ++ m :: e2) (t1 ++ A :: B :: t2)).
    Notation es := (e1 ++ m :: e2).
    Notation ks := (k1 ++ a :: b :: k2).

    Let Lk : length k1 = length t1.
    Proof. exact (f2_length _ _ _ F1). Qed.

    Definition reb_ok (M : list pay) (res_ : res (heap * pay * list addr * out unit)) (t' : bt) : Prop :=
      exists h1 es1 ks1 o, res_ = Ok (h1, es1, ks1, o) /\ sess h0 h1 R (ks1 ++ X) O /\ keep (X ++ O) h h1
        /\ none_lost h h1 M
        /\ match o with
           | Done _ => exists ts', t' = BN es1 ts' /\ Forall2 (ns h1) ks1 ts'
           | Unwound => (exists n, bomb n = true) /\ exists ts1, Forall2 (ns h1) ks1 ts1
           end.

    Lemma reb_same (M : list pay) (h1 : heap) t' : sess h0 h1 R (ks ++ X) O -> keep (ks ++ X ++ O) h h1 -> none_lost h h1 M ->
      (exists n, bomb n = true) -> reb_ok M (Ok (h1, es, ks, Unwound)) t'.
    Proof.
      intros S1 K1 NL Bb. eexists _, _, _, _. split; [reflexivity|]. split; auto. split; [eapply keep_incl; [|exact K1]; inc|].
      split; auto. split; auto. exists (t1 ++ A :: B :: t2).
      eapply keep_f2; [exact K1|inc|]. apply f2_set; auto.
    Qed.

    Lemma g_rot_rt_ok idx t' : idx = length e1 -> unique h b = true -> length eb < MAX_OCCUPANCY -> rot_rt N T idx = Ok t' ->
      reb_ok [ea] (g_rot_rt bomb h es ks idx) t'.
    Proof.
      intros -> U Leb E. destruct (loose_pair _ _ _ _ _ _ _ _ L1 Lo) as (L2 & LA & LB & LP & LC).
      unfold rot_rt in E. unfold g_rot_rt. unfold is_branch, is_leaf, kids_of in E. rewrite (ks_not_nil t1) in E. rewrite (ks_not_nil k1). cbn [negb assert_ bind] in *.
      rewrite (nth_mid t1) in E by lia. rewrite (nth_mid k1) by lia. cbn [unwrap bind] in *. rewrite (ns_peek _ _ _ _ DA). cbn [bind].
      destruct (MIN_OCC N <? length ea) eqn:Em; cbn [assert_ bind] in *; [|discriminate].
      destruct (snoc_cases ea) as [Eea|(ea' & kv0 & Eea)]; [apply Nat.ltb_lt in Em; rewrite Eea in Em; cbn in Em; lia|].
      assert (S' : sess h0 h R (a :: k1 ++ b :: k2 ++ X) O) by perm.
      destruct (sess_open bomb h0 h R a (k1 ++ b :: k2 ++ X) O _ _ S' DA) as (h1 & o & Eo & P).
      rewrite Eo. rewrite Eea, vec_pop_snoc in E. cbn [bind unwrap] in *.
      destruct o as [[[a' ea1] ka1]|].
      - destruct P as (-> & S1 & Fk & K1 & Us & cs & C1 & Sc & _). rewrite Eea, vec_pop_snoc. cbn [unwrap bind].
        (* the child that moves *)
        assert (Mv : exists ka' kx ts_a tx,
          (match vec_pop ka1 with Some (x, l_ks') => (Some x, l_ks') | None => (None, ka1) end) = (kx, ka')
          /\ (match vec_pop ka with Some (x, l_ks') => (Some x, l_ks') | None => (None, ka) end) = (tx, ts_a)
          /\ ka1 = ka' ++ olist kx /\ ka = ts_a ++ (match tx with Some x => [x] | None => [] end)
          /\ Forall2 (ns h1) ka' ts_a /\ opt_ns h1 kx tx
          /\ is_some kx = negb (is_nil ka) /\ length ka = length ka' + (if is_some kx then 1 else 0)).
        { destruct (snoc_cases ka) as [Eka|(ts_a & tx & Eka)]; rewrite Eka in *.
          - inversion Fk; subst. exists [], None, [], None. cbn. auto 12.
          - apply f2_snoc_inv in Fk as (ka' & kx & -> & Fk & Dx). rewrite !vec_pop_snoc.
            exists ka', (Some kx), ts_a, (Some tx). rewrite is_nil_len, app_length, (f2_length _ _ _ Fk). cbn.
            replace (length ts_a + 1) with (Datatypes.S (length ts_a)) by lia. auto 12. }
        destruct Mv as (ka' & kx & ts_a & tx & EM1 & EM2 & -> & Eka & Fa & Ox & Xs & Xl).
        rewrite EM1. rewrite (moved_ok _ _ _ _ _ LA) by (auto; rewrite Eea, app_length; cbn; lia). cbn [assert_ bind]. rewrite EM2 in E. clear EM1 EM2.
        assert (S1' : sess h0 h1 (a' :: R) (ka' ++ olist kx ++ k1 ++ b :: k2 ++ X) O) by perm.
        destruct (sess_close h0 h1 R a' ka' (olist kx ++ k1 ++ b :: k2 ++ X) O ea' ts_a S1' Fa) as (S2 & D2 & K2 & _ & G2 & C2).
        rewrite (set_at_mid k1 a a' (b :: k2)) by lia. rewrite (set_at_mid t1 _ _ _) in E by lia.
        rewrite (nth_second k1 a' b k2) by lia. rewrite (nth_second t1 _ _ t2) in E by lia.
        rewrite (nth_mid e1 m e2) in * by lia. cbn [unwrap bind] in *.
        set (h2 := cls h1 a' ea' ka') in *.
        assert (Kb : forall q t, In q (k1 ++ b :: k2 ++ X ++ O) -> ns h q t -> ns h2 q t).
        { intros q t Hq Dq. apply K2, K1; auto. mem. }
        assert (Db2 : ns h2 b (BN eb kb)) by (apply Kb; [mem|auto]).
        assert (Hab : b <> a').
        { intros ->. destruct S1 as [_ _ _ _ Rs]. destruct (Rs a' (or_introl eq_refl)) as (G & _).
          specialize (Us a'). apply unique_get in U as U'. destruct U' as [n0 U'].
          assert (U1 : unique h1 a' = true) by (apply Us; [mem|auto]). apply unique_get in U1 as [n1 U1]. congruence. }
        assert (U2 : unique h2 b = true).
        { unfold unique. rewrite G2 by auto. apply Us; [mem|auto]. }
        assert (S2' : sess h0 h2 R (b :: a' :: olist kx ++ k1 ++ k2 ++ X) O) by perm.
        destruct (sess_open bomb h0 h2 R b (a' :: olist kx ++ k1 ++ k2 ++ X) O _ _ S2' Db2) as (h3 & o & Eo3 & P3).
        rewrite Eo3. cbn [bind]. destruct o as [[[b' eb3] kb3]|].
        2:{ destruct P3 as (_ & _ & _ & _ & _ & U3). congruence. }
        destruct P3 as (-> & S3 & Fb & K3 & _ & cs3 & C3 & _ & Cs3). rewrite (Cs3 U2) in C3. cbn [app] in C3.
        assert (Ea' : ns h3 a' (BN ea' ts_a)) by (apply K3; [mem|exact D2]).
        assert (Ox3 : opt_ns h3 kx tx).
        { destruct kx, tx; cbn [opt_ns] in *; auto. apply K3; [mem|]. apply K2. exact Ox. }
        assert (Fk1 : Forall2 (ns h3) k1 t1).
        { eapply keep_f2; [exact K3|inc|]. eapply keep_f2 with (O := k1); [|apply incl_refl|exact F1]. intros q t Hq. apply Kb. mem. }
        assert (Fk2 : Forall2 (ns h3) k2 t2).
        { eapply keep_f2; [exact K3|inc|]. eapply keep_f2 with (O := k2); [|apply incl_refl|exact F2]. intros q t Hq. apply Kb. mem. }
        assert (Ei : exists rk tk, match kx with Some x => vec_insert 0 x kb3 | None => Ok kb3 end = Ok rk
           /\ match tx with Some x => vec_insert 0 x kb | None => Ok kb end = Ok tk
           /\ rk = olist kx ++ kb3 /\ tk = (match tx with Some x => [x] | None => [] end) ++ kb /\ Forall2 (ns h3) rk tk).
        { destruct kx as [x|], tx as [x'|]; cbn [opt_ns] in Ox3; try contradiction; eexists _, _; repeat (split; [reflexivity|]); auto.
          cbn. constructor; auto. }
        rewrite (proj2 (Nat.ltb_lt _ _) Leb). cbn [assert_ bind].
        rewrite (fits_ok _ _ _ _ _ _ _ LA LB Xs (f2_length _ _ _ Fb)). cbn [assert_ bind].
        assert (Fw : length kb3 <? MAX_KIDS = true) by (apply (few_kids _ _ _ _ _ LB (f2_length _ _ _ Fb) Leb)).
        rewrite Fw. cbn [assert_ bind].
        destruct Ei as (rk & tk & -> & Et & -> & -> & Frk). rewrite Et in E. unfold vec_insert in E |- *. cbn [Nat.leb firstn skipn app bind] in E |- *.
        injection E as <-.
        rewrite (set_second k1 a' b b' k2) by lia. rewrite !(set_at_mid e1 m kv0 e2) by lia. rewrite (set_second t1 _ _ _ t2) by lia.
        assert (S3' : sess h0 h3 (b' :: R) ((olist kx ++ kb3) ++ a' :: k1 ++ k2 ++ X) O) by perm.
        destruct (sess_close h0 h3 R b' (olist kx ++ kb3) (a' :: k1 ++ k2 ++ X) O (m :: eb) _ S3' Frk) as (S4 & D4 & K4 & _ & _ & C4).
        eexists _, _, _, _. split; [reflexivity|]. split; [perm|]. split; [|split].
        + intros q t Hq Dq. apply K4, K3; [mem|]. apply Kb; auto. mem.
        + exists cs. split; [|first [exact Sc|rewrite <- Eea; exact Sc]]. rewrite C4, C3, C2. exact C1.
        + eexists. split; [reflexivity|]. apply f2_set; [|apply K4; exact Ea'|].
          * eapply keep_f2 with (O := k1); [|apply incl_refl|exact Fk1]. intros q t _. apply K4.
          * constructor; [exact D4|]. eapply keep_f2 with (O := k2); [|apply incl_refl|exact Fk2]. intros q t _. apply K4.
      - destruct P as (S1 & K1 & C1 & _ & Bb & _).
        apply reb_same; auto; [perm|eapply keep_incl; [|exact K1]; inc| |eauto].
        apply nl_one. exact C1.
    Qed.

    Lemma g_rot_lf_ok idx t' : idx = length e1 -> unique h a = true -> rot_lf N T idx = Ok t' ->
      reb_ok [eb] (g_rot_lf bomb h es ks idx) t'.
    Proof.
      intros -> U E. destruct (loose_pair _ _ _ _ _ _ _ _ L1 Lo) as (L2 & LA & LB & LP & LC).
      unfold rot_lf in E. unfold g_rot_lf. unfold is_branch, is_leaf, kids_of in E. rewrite (ks_not_nil t1) in E. rewrite (ks_not_nil k1). cbn [negb assert_ bind] in *.
      rewrite (nth_second t1 _ _ t2) in E by lia. rewrite (nth_second k1 _ _ k2) by lia. cbn [unwrap bind] in *. rewrite (ns_peek _ _ _ _ DB). cbn [bind].
      destruct (MIN_OCC N <? length eb) eqn:Em; cbn [assert_ bind] in *; [|discriminate].
      assert (Eeb : exists kv2 eb', eb = kv2 :: eb').
      { revert Em. destruct eb; intros Em; [apply Nat.ltb_lt in Em; cbn in Em; lia|eauto]. }
      destruct Eeb as (kv2 & eb' & Eeb).
      assert (S' : sess h0 h R (b :: k1 ++ a :: k2 ++ X) O) by perm.
      destruct (sess_open bomb h0 h R b (k1 ++ a :: k2 ++ X) O _ _ S' DB) as (h1 & o & Eo & P).
      rewrite Eo. rewrite Eeb in E. change (vec_remove 0 (kv2 :: eb')) with (Ok (kv2, eb')) in E. cbn [bind unwrap] in *.
      destruct o as [[[b' eb1] kb1]|].
      - destruct P as (-> & S1 & Fk & K1 & Us & cs & C1 & Sc & _). rewrite Eeb. change (vec_remove 0 (kv2 :: eb')) with (Ok (kv2, eb')). cbn [unwrap bind].
        (* the child that moves *)
        assert (Mv : exists kb' kx ts_b tx,
          (if is_nil kb1 then Ok (None, kb1) else '(x, r_ks') <- vec_remove 0 kb1;; Ok (Some x, r_ks')) = Ok (kx, kb')
          /\ (if is_nil kb then Ok (None, kb) else '(x, r_ks') <- vec_remove 0 kb;; Ok (Some x, r_ks')) = Ok (tx, ts_b)
          /\ kb1 = olist kx ++ kb' /\ Forall2 (ns h1) kb' ts_b /\ opt_ns h1 kx tx
          /\ is_some kx = negb (is_nil kb) /\ length kb = length kb' + (if is_some kx then 1 else 0)).
        { destruct Fk as [|kx tx kb' ts_b Dx Fk].
          - exists [], None, [], None. cbn. auto 10.
          - exists kb', (Some kx), ts_b, (Some tx). cbn. rewrite (f2_length _ _ _ Fk).
            replace (length ts_b + 1) with (Datatypes.S (length ts_b)) by lia. auto 10. }
        destruct Mv as (kb' & kx & ts_b & tx & EM1 & EM2 & -> & Fb & Ox & Xs & Xl).
        rewrite EM1. rewrite EM2 in E. clear EM1 EM2. cbn [bind] in *.
        rewrite (moved_ok _ _ _ _ _ LB) by (auto; rewrite Eeb; cbn; lia). cbn [assert_ bind].
        assert (S1' : sess h0 h1 (b' :: R) (kb' ++ olist kx ++ k1 ++ a :: k2 ++ X) O) by perm.
        destruct (sess_close h0 h1 R b' kb' (olist kx ++ k1 ++ a :: k2 ++ X) O eb' ts_b S1' Fb) as (S2 & D2 & K2 & _ & G2 & C2).
        rewrite (set_second k1 a b b' k2) by lia. rewrite (set_second t1 _ _ _ t2) in E by lia.
        rewrite (nth_mid k1 a (b' :: k2)) by lia. rewrite (nth_mid t1 _ _) in E by lia.
        rewrite (nth_mid e1 m e2) in * by lia. cbn [unwrap bind] in *.
        set (h2 := cls h1 b' eb' kb') in *.
        assert (Kb : forall q t, In q (k1 ++ a :: k2 ++ X ++ O) -> ns h q t -> ns h2 q t).
        { intros q t Hq Dq. apply K2, K1; auto. mem. }
        assert (Da2 : ns h2 a (BN ea ka)) by (apply Kb; [mem|auto]).
        assert (Hab : a <> b').
        { intros ->. destruct S1 as [_ _ _ _ Rs]. destruct (Rs b' (or_introl eq_refl)) as (G & _).
          assert (U1 : unique h1 b' = true) by (apply Us; [mem|auto]). apply unique_get in U1 as [n1 U1]. congruence. }
        assert (U2 : unique h2 a = true).
        { unfold unique. rewrite G2 by auto. apply Us; [mem|auto]. }
        rewrite (ns_peek _ _ _ _ Da2). cbn [bind].
        destruct (length ea <? MIN_OCC N) eqn:Em2; cbn [assert_ bind] in *; [|discriminate].
        assert (S2' : sess h0 h2 R (a :: b' :: olist kx ++ k1 ++ k2 ++ X) O) by perm.
        destruct (sess_open bomb h0 h2 R a (b' :: olist kx ++ k1 ++ k2 ++ X) O _ _ S2' Da2) as (h3 & o & Eo3 & P3).
        rewrite Eo3. cbn [bind]. destruct o as [[[a' ea3] ka3]|].
        2:{ destruct P3 as (_ & _ & _ & _ & _ & U3). congruence. }
        destruct P3 as (-> & S3 & Fa & K3 & _ & cs3 & C3 & _ & Cs3). rewrite (Cs3 U2) in C3. cbn [app] in C3.
        assert (Eb' : ns h3 b' (BN eb' ts_b)) by (apply K3; [mem|exact D2]).
        assert (Ox3 : opt_ns h3 kx tx).
        { destruct kx, tx; cbn [opt_ns] in *; auto. apply K3; [mem|]. apply K2. exact Ox. }
        assert (Fk1 : Forall2 (ns h3) k1 t1).
        { eapply keep_f2; [exact K3|inc|]. eapply keep_f2 with (O := k1); [|apply incl_refl|exact F1]. intros q t Hq. apply Kb. mem. }
        assert (Fk2 : Forall2 (ns h3) k2 t2).
        { eapply keep_f2; [exact K3|inc|]. eapply keep_f2 with (O := k2); [|apply incl_refl|exact F2]. intros q t Hq. apply Kb. mem. }
        assert (Ei : Forall2 (ns h3) (ka3 ++ olist kx) (match tx with Some x => ka ++ [x] | None => ka end)).
        { destruct kx as [x|], tx as [x'|]; cbn [opt_ns olist] in *; try contradiction.
          - apply f2_app; auto.
          - rewrite app_nil_r. auto. }
        assert (Lea : length ea < MAX_OCCUPANCY) by (apply Nat.ltb_lt in Em2; change (MIN_OCC N) with 5 in Em2; change MAX_OCCUPANCY with 11; lia).
        rewrite (proj2 (Nat.ltb_lt _ _) Lea). cbn [assert_ bind].
        rewrite (fits_ok _ _ _ _ _ _ _ LB LA Xs (f2_length _ _ _ Fa)). cbn [assert_ bind].
        assert (Fw : length ka3 <? MAX_KIDS = true) by (apply (few_kids _ _ _ _ _ LA (f2_length _ _ _ Fa) Lea)).
        rewrite Fw. cbn [assert_ bind].
        rewrite !(set_at_mid e1 m kv2 e2) in * by lia. rewrite (set_at_mid k1 a a' (b' :: k2)) by lia. rewrite (set_at_mid t1) in E by lia.
        injection E as <-.
        assert (S3' : sess h0 h3 (a' :: R) ((ka3 ++ olist kx) ++ b' :: k1 ++ k2 ++ X) O) by perm.
        destruct (sess_close h0 h3 R a' (ka3 ++ olist kx) (b' :: k1 ++ k2 ++ X) O (ea ++ [m]) _ S3' Ei) as (S4 & D4 & K4 & _ & _ & C4).
        eexists _, _, _, _. split; [reflexivity|]. split; [perm|]. split; [|split].
        + intros q t Hq Dq. apply K4, K3; [mem|]. apply Kb; auto. mem.
        + exists cs. split; [|first [exact Sc|rewrite <- Eeb; exact Sc]]. rewrite C4, C3, C2. exact C1.
        + eexists. split; [reflexivity|]. apply f2_set; [|exact D4|].
          * eapply keep_f2 with (O := k1); [|apply incl_refl|exact Fk1]. intros q t _. apply K4.
          * constructor; [apply K4; exact Eb'|]. eapply keep_f2 with (O := k2); [|apply incl_refl|exact Fk2]. intros q t _. apply K4.
      - destruct P as (S1 & K1 & C1 & _ & Bb & _).
        apply reb_same; auto; [perm|eapply keep_incl; [|exact K1]; inc| |eauto].
        apply nl_one. exact C1.
    Qed.

    Lemma g_merge_ok idx t' M : idx = length e1 -> length ea + 1 + length eb <= MAX_OCCUPANCY -> 1 <= length eb ->
      (unique h a = true /\ M = [eb] \/ unique h b = true /\ M = [ea]) -> merge_kids T idx = Ok t' ->
      reb_ok M (g_merge bomb h es ks idx) t'.
    Proof.
      intros -> Ls Lb U E. destruct (loose_pair _ _ _ _ _ _ _ _ L1 Lo) as (L2 & LA & LB & LP & LC).
      unfold merge_kids in E. unfold g_merge.
      rewrite (vec_remove_mid e1) in * by lia. cbn [bind] in *. rewrite (vec_remove_mid t1) in E by lia.
      replace (k1 ++ a :: b :: k2) with ((k1 ++ [a]) ++ b :: k2) by (rewrite <- app_assoc; reflexivity).
      rewrite (vec_remove_mid (k1 ++ [a])) by (rewrite app_length; cbn; lia). cbn [bind] in *.
      replace ((k1 ++ [a]) ++ k2) with (k1 ++ a :: k2) by (rewrite <- app_assoc; reflexivity).
      rewrite (ks_not_nil k1). cbn [negb assert_ bind].
      rewrite nth_mid in E by lia. cbn [unwrap bind] in E. rewrite set_at_mid in E by lia. injection E as <-.
      assert (S' : sess h0 h R (b :: (k1 ++ a :: k2) ++ X) O) by perm.
      destruct (sess_own bomb h0 h R b ((k1 ++ a :: k2) ++ X) O _ _ S' DB) as (h1 & o & Eo & K1 & P).
      rewrite Eo. cbn [bind]. destruct o as [[r_es r_ks]|].
      2:{ destruct P as (S1 & C1 & Bb & Ub). destruct U as [[U ->]|[U ->]]; [|congruence].
          eexists _, _, _, _. split; [reflexivity|]. split; [auto|]. split; [eapply keep_incl; [|exact K1]; inc|].
          split; [apply nl_one; exact C1|]. split; [eauto|]. exists (t1 ++ A :: t2). eapply keep_f2; [exact K1|inc|].
          apply f2_set; auto. }
      destruct P as (-> & S1 & Fb & Us & cs & C1 & Sc & Cs). rewrite (nth_mid k1) by lia. cbn [unwrap bind].
      assert (Da1 : ns h1 a A) by (apply K1; [mem|auto]).
      assert (S1' : sess h0 h1 R (a :: r_ks ++ k1 ++ k2 ++ X) O) by perm.
      destruct (sess_open bomb h0 h1 R a (r_ks ++ k1 ++ k2 ++ X) O _ _ S1' Da1) as (h2 & o & Eo2 & P2).
      rewrite Eo2. cbn [bind]. destruct o as [[[a' l_es] l_ks]|].
      - destruct P2 as (-> & S2 & Fa & K2 & _ & cs2 & C2 & Sc2 & Cs2).
        rewrite (proj2 (Nat.leb_le _ _) Ls). cbn [assert_ bind].
        rewrite (is_nil_len eb), (proj2 (Nat.eqb_neq (length eb) 0)) by lia. cbn [negb assert_ bind].
        assert (Bool.eqb (is_nil l_ks) (is_nil r_ks) = true /\ length l_ks + length r_ks <=? MAX_KIDS = true) as [-> Hk2].
        { rewrite !is_nil_len, (f2_length _ _ _ Fa), (f2_length _ _ _ Fb).
          destruct (loose_leaf_or _ _ _ LA) as [[-> ->]|[Lt Hd]], (loose_leaf_or _ _ _ LB) as [[-> H2]|[Lt2 Hd2]]; try congruence; [split; reflexivity|].
          rewrite Lt, Lt2. split; [reflexivity|]. apply Nat.leb_le. unfold MAX_KIDS. lia. }
        cbn [assert_ bind]. rewrite Hk2. cbn [assert_ bind].
        assert (Fj : Forall2 (ns h2) (l_ks ++ r_ks) (ka ++ kb)).
        { apply f2_app; auto. eapply keep_f2; [exact K2|inc|exact Fb]. }
        assert (S2' : sess h0 h2 (a' :: R) ((l_ks ++ r_ks) ++ k1 ++ k2 ++ X) O) by perm.
        destruct (sess_close h0 h2 R a' (l_ks ++ r_ks) (k1 ++ k2 ++ X) O (ea ++ m :: eb) _ S2' Fj) as (S3 & D3 & K3 & _ & _ & C3).
        rewrite (set_at_mid k1) by lia.
        eexists _, _, _, _. split; [reflexivity|]. split; [perm|]. split; [|split].
        + intros q t Hq Dq. apply K3, K2; [mem|]. apply K1; auto. mem.
        + destruct U as [[U ->]|[U ->]].
          * exists cs. split; auto. rewrite C3, C2, C1. rewrite Cs2; auto. apply Us; auto. mem.
          * exists cs2. split; auto. rewrite C3, C2, C1, (Cs U). reflexivity.
        + eexists. split; [reflexivity|]. apply f2_set; [|rewrite <- app_assoc; exact D3|].
          * eapply keep_f2 with (O := k1); [|apply incl_refl|exact F1]. intros q t Hq Dq. apply K3, K2; [mem|]. apply K1; auto. mem.
          * eapply keep_f2 with (O := k2); [|apply incl_refl|exact F2]. intros q t Hq Dq. apply K3, K2; [mem|]. apply K1; auto. mem.
      - destruct P2 as (S2 & K2 & C2 & _ & Bb & Ua). destruct U as [[U ->]|[U ->]].
        1:{ exfalso. rewrite (Us a) in Ua; [discriminate|mem|auto]. }
        assert (S2' : sess h0 h2 R (r_ks ++ a :: k1 ++ k2 ++ X) O) by perm.
        destruct (sess_drops h0 h2 R r_ks (a :: k1 ++ k2 ++ X) O S2') as (h3 & E3 & S3 & K3 & C3 & _).
        rewrite E3. cbn [bind]. eexists _, _, _, _. split; [reflexivity|]. split; [perm|].
        assert (Kk : keep (k1 ++ a :: k2 ++ X ++ O) h h3).
        { intros q t Hq Dq. apply K3; [mem|]. apply K2; [mem|]. apply K1; auto. mem. }
        split; [eapply keep_incl; [|exact Kk]; inc|].
        split; [apply nl_one; rewrite C3, C2, C1, (Cs U); reflexivity|].
        split; [eauto|]. exists (t1 ++ A :: t2). eapply keep_f2; [exact Kk|inc|]. apply f2_set; auto.
    Qed.
  End Pair.

  Lemma g_rebal_ok (h0 h : heap) R X O es ks ts at_ c d t' u :
    sess h0 h R (ks ++ X) O -> Forall2 (ns h) ks ts -> loose (S d) (BN es ts) ->
    nth_error ks at_ = Some c -> unique h c = true -> rebal N (BN es ts) at_ = Ok (t', u) ->
    Forall (fun t => 1 <= n_len t) ts -> (forall tc, nth_error ts at_ = Some tc -> n_len tc = N - 1) ->
    exists h1 es1 ks1 o, g_rebal bomb h es ks at_ = Ok (h1, es1, ks1, o) /\ sess h0 h1 R (ks1 ++ X) O /\ keep (X ++ O) h h1
      /\ none_lost h h1 (beside at_ ts)
      /\ match o with
         | Done u' => u' = u /\ exists ts', t' = BN es1 ts' /\ Forall2 (ns h1) ks1 ts'
         | Unwound => (exists n, bomb n = true) /\ exists ts1, Forall2 (ns h1) ks1 ts1
         end.
  Proof.
    intros Se F L Hc U E Ge1 Sh.
    destruct (f2_at _ _ _ _ _ F Hc) as (kl & kr & tl & tc & tr & Ek & Et & Lk & Lt & Fl & Dc & Fr).
    assert (Htc : nth_error ts at_ = Some tc) by (rewrite Et, nth_mid; auto).
    specialize (Sh _ Htc).
    destruct (rebal_inv _ _ _ _ _ _ _ _ L Htc E) as (e1 & m & e2 & t1 & A & B & t2 & -> & Et2 & L1 & -> & Cs).
    assert (exists k1 a b k2, ks = k1 ++ a :: b :: k2 /\ length k1 = length t1 /\ Forall2 (ns h) k1 t1 /\ ns h a A /\ ns h b B /\ Forall2 (ns h) k2 t2)
      as (k1 & a & b & k2 & Ek2 & Lk1 & Fk1 & Da & Db & Fk2).
    { rewrite Et2 in F. apply f2_cut_r in F as (k1 & a & k2 & -> & Lk1 & F1 & Da & F2). inversion F2 as [|b ? k3 ? Db F3]; subst.
      exists k1, a, b, k3. auto 10. }
    clear Ek Et Fl Fr Lk Lt. subst ks ts. destruct A as [ea ka]. destruct B as [eb kb].
    apply Forall_app in Ge1 as [_ Ge1]. inversion Ge1 as [|? ? Ga Ge2]; subst. inversion Ge2 as [|? ? Gb _]; subst.
    unfold n_len in Ga, Gb. cbn [elems_of] in Ga, Gb.
    assert (G : exists res_ M, g_rebal bomb h (e1 ++ m :: e2) (k1 ++ a :: b :: k2) at_ =
        ('(h1, es1, ks1, o) <- res_;; Ok (h1, es1, ks1, match o with Done _ => Done (length es1 <? MIN_OCC N) | Unwound => Unwound end))
      /\ reb_ok h0 h R X O M res_ t' /\ M = beside at_ (t1 ++ BN ea ka :: BN eb kb :: t2)).
    { unfold g_rebal. rewrite (ks_not_nil k1). cbn [negb assert_ bind]. rewrite Hc. cbn [unwrap bind]. unfold beside.
      destruct tc as [ec kc]. rewrite (ns_peek _ _ _ _ Dc). cbn [bind]. unfold n_len in Sh. cbn [elems_of] in Sh.
      rewrite (proj2 (Nat.eqb_eq _ _) Sh). cbn [assert_ bind].
      destruct Cs as [(Ea & EB & E1)|(-> & -> & EA & E1)].
      - injection EB as -> ->. assert (0 <? at_ = true) as -> by (apply Nat.ltb_lt; lia). replace (at_ - 1) with (length e1) in * by lia.
        rewrite (nth_mid k1) by lia. rewrite (nth_mid t1) by lia. cbn [unwrap bind]. rewrite (ns_peek _ _ _ _ Da). cbn [bind].
        assert (U' : unique h b = true).
        { rewrite Ea in Hc. replace (S (length t1)) with (length k1 + 1) in Hc by lia. rewrite nth_second in Hc by lia. injection Hc as ->. auto. }
        change (n_len (BN ea ka)) with (length ea) in E1. destruct (MAX_OCC N - MIN_OCC N <? length ea) eqn:Eth; eexists _, _; (split; [reflexivity|]); split; eauto.
        + eapply g_rot_rt_ok; eauto. rewrite Sh. vm_compute. lia.
        + apply Nat.ltb_ge in Eth. eapply g_merge_ok; eauto. rewrite Sh. change (MAX_OCC N - MIN_OCC N) with 6 in Eth. change MAX_OCCUPANCY with 11. change (N - 1) with 4. lia.
      - injection EA as -> ->. destruct k1; [|discriminate]. destruct e1; [|discriminate]. change (0 <? 0) with false. cbn [Nat.add app nth_error] in *. cbn [unwrap bind]. rewrite (ns_peek _ _ _ _ Db). cbn [bind].
        injection Hc as ->.
        change (n_len (BN eb kb)) with (length eb) in E1. destruct (MAX_OCC N - MIN_OCC N <? length eb) eqn:Eth; eexists _, [eb]; (split; [reflexivity|]); (split; [|reflexivity]).
        + eapply (g_rot_lf_ok _ _ _ _ _ [] e2 m [] k2 c b [] t2); eauto.
        + apply Nat.ltb_ge in Eth. eapply (g_merge_ok _ _ _ _ _ [] e2 m [] k2 c b [] t2); eauto. rewrite Sh. change (MAX_OCC N - MIN_OCC N) with 6 in Eth. change MAX_OCCUPANCY with 11. change (N - 1) with 4. lia. }
    destruct G as (res_ & M & -> & (h1 & es1 & ks1 & o & -> & S1 & K1 & NL & P) & ->). cbn [bind].
    eexists _, _, _, _. split; [reflexivity|]. split; auto. split; auto. split; auto.
    destruct o; [|exact P]. destruct P as (ts' & -> & F'). split; [reflexivity|]. eauto.
  Qed.

  Definition rm_ok (h : heap) (O : list addr) (M : list pay) (t' : bt) (r : option ((K * V) * bool))
      (res_ : res (heap * addr * out (option ((K * V) * bool)))) : Prop :=
    exists h' a' o, res_ = Ok (h', a', o) /\ sound h' (a' :: O) /\ frame O h h' /\ none_lost h h' M
      /\ match o with
         | Done r' => r' = r /\ ns h' a' t' /\ unique h' a' = true
         | Unwound => (exists n, bomb n = true) /\ exists t1, ns h' a' t1
         end.

  Lemma g_rebal_cls_ok (h0 h : heap) O a es ks ts at_ c d t' u kv M :
    sess h0 h [a] (ks ++ []) O -> Forall2 (ns h) ks ts -> loose (S d) (BN es ts) ->
    nth_error ks at_ = Some c -> unique h c = true -> rebal N (BN es ts) at_ = Ok (t', u) ->
    Forall (fun t => 1 <= n_len t) ts -> (forall tc, nth_error ts at_ = Some tc -> n_len tc = N - 1) ->
    none_lost h0 h M ->
    rm_ok h0 O (beside at_ ts ++ M) t' (Some (kv, u)) (g_rebal_cls bomb h a es ks at_ kv).
  Proof.
    intros Se F L Hc U E Ge1 Sh NL.
    destruct (g_rebal_ok h0 h [a] [] O es ks ts at_ c d t' u Se F L Hc U E Ge1 Sh) as (h1 & es1 & ks1 & o & E1 & S1 & K1 & NL1 & P).
    unfold g_rebal_cls. rewrite E1. cbn [bind]. eexists _, _, _. split; [reflexivity|].
    destruct o as [u'|].
    - destruct P as (-> & ts' & -> & F'). destruct (node_close _ _ _ _ _ es1 _ S1 F') as (A1 & A2 & A3 & A4 & A5).
      split; auto. split; auto. split; auto. eapply nl_eq; [exact A3|]. eapply nl_trans; eauto.
    - destruct P as (Bb & ts1 & F'). destruct (node_close _ _ _ _ _ es1 _ S1 F') as (A1 & A2 & A3 & A4 & A5).
      split; auto. split; auto. split; [eapply nl_eq; [exact A3|]; eapply nl_trans; eauto|].
      split; auto. eexists. exact A4.
  Qed.
End Remove.
