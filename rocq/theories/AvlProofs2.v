(** Size bounds, split, merge and retain of the AVL value model. *)
From Coq Require Import List ZArith Bool Lia Sorted Permutation.
From Verif Require Import Base Spec SpecFacts AvlModel AvlProofs.
Import ListNotations.
Open Scope Z_scope.

(** ** Fibonacci numbers *)
Lemma fib_SS n : fib (S (S n)) = fib (S n) + fib n.
Proof. reflexivity. Qed.

Lemma fib_nonneg n : 0 <= fib n /\ 0 <= fib (S n).
Proof.
  induction n as [|n [IH1 IH2]]; [cbn; lia|]. split; auto. rewrite fib_SS. lia.
Qed.

Lemma fib_mono_S n : fib (S n) <= fib (S (S n)).
Proof. rewrite fib_SS. pose proof (fib_nonneg n). lia. Qed.

Lemma fib_mono n m : (n <= m)%nat -> fib (S n) <= fib (S m).
Proof.
  induction 1 as [|m H IH]; [lia|]. pose proof (fib_mono_S m). lia.
Qed.

Fixpoint fib_pair (n : nat) : Z * Z :=
  match n with O => (0, 1) | S m => let '(a, b) := fib_pair m in (b, a + b) end.

Lemma fib_pair_ok n : fib_pair n = (fib n, fib (S n)).
Proof.
  induction n as [|n IH]; [reflexivity|]. cbn [fib_pair]. rewrite IH, fib_SS.
  f_equal. lia.
Qed.

Lemma fib_2 : fib 2 = 1.
Proof. reflexivity. Qed.

Opaque fib.

Lemma fib_ge_94 n : (94 <= n)%nat -> 2 ^ 64 < fib n.
Proof.
  intros H. destruct n as [|n]; [lia|].
  assert (E : fst (fib_pair 94) = 19740274219868223167) by (vm_compute; reflexivity).
  rewrite fib_pair_ok in E. cbn [fst] in E.
  assert (Hm : fib (S 93) <= fib (S n)) by (apply fib_mono; lia).
  rewrite E in Hm. lia.
Qed.

(** Number of entries representable in a [usize]. *)
Definition fits {A} (l : list A) : Prop := Z.of_nat (length l) < 2 ^ 64.

Section AvlProofs2.
  Context {K V Q : Type} (bor : K -> Q) (cmp : Q -> Q -> comparison).
  Context (laws : order_laws cmp).

  Notation tree := (tree K V).
  Notation asc := (@ascending K V Q bor cmp).
  Notation key e := (bor (fst e)).
  Notation fnd := (@s_find K V Q bor cmp).

  Lemma t_len_elems (t : tree) : t_len t = length (elems t).
  Proof.
    induction t as [|k v lh rh l IHl r IHr]; cbn [t_len elems]; auto.
    rewrite app_length. cbn [length]. lia.
  Qed.

  Lemma avl_fib (t : tree) :
    avl t -> fib (Z.to_nat (ht t) + 2) <= Z.of_nat (length (elems t)) + 1.
  Proof.
    induction t as [|k v lh rh l IHl r IHr]; intros H; [exact (Z.eq_le_incl _ _ fib_2)|].
    destruct H as (-> & -> & Hb & Hl & Hr). specialize (IHl Hl). specialize (IHr Hr).
    cbn [ht elems]. rewrite app_length. cbn [length].
    pose proof (ht_nonneg l). pose proof (ht_nonneg r).
    set (a := Z.to_nat (ht l)) in *. set (b := Z.to_nat (ht r)) in *.
    assert (Hm : Z.to_nat (1 + Z.max (ht l) (ht r)) = S (Nat.max a b)) by lia.
    rewrite Hm. clear Hm.
    replace (S (Nat.max a b) + 2)%nat with (S (S (S (Nat.max a b)))) by lia.
    rewrite fib_SS.
    replace (a + 2)%nat with (S (S a)) in IHl by lia.
    replace (b + 2)%nat with (S (S b)) in IHr by lia.
    assert (b <= S a /\ a <= S b)%nat as [Hab Hba] by lia.
    destruct (Nat.max_spec a b) as [[Hc ->]|[Hc ->]].
    - assert (fib (S b) <= fib (S (S a))) by (apply fib_mono; lia). lia.
    - assert (fib (S a) <= fib (S (S b))) by (apply fib_mono; lia). lia.
  Qed.

  Lemma avl_ht_bound (t : tree) : avl t -> fits (elems t) -> ht t <= 91.
  Proof.
    intros Ht Hf. pose proof (avl_fib t Ht) as H. unfold fits in Hf.
    destruct (Z_le_gt_dec (ht t) 91) as [|Hg]; auto. exfalso.
    pose proof (fib_ge_94 (Z.to_nat (ht t) + 2)) as Hbig. lia.
  Qed.

  Lemma fits_le {A B} (l : list A) (r : list B) :
    (length l <= length r)%nat -> fits r -> fits l.
  Proof. unfold fits. lia. Qed.

  Definition olist {A} (o : option A) : list A :=
    match o with Some x => [x] | None => [] end.

  (** ** Split *)
  Lemma split_ok t q :
    avl t -> fits (elems t) ->
    exists l kv r,
      split bor cmp t q = Ok (l, kv, r)
      /\ avl l /\ avl r /\ elems t = elems l ++ olist kv ++ elems r
      /\ (asc (elems t) ->
          all_lt bor cmp (elems l) q /\ all_gt bor cmp (elems r) q
          /\ (forall e, kv = Some e -> cmp (key e) q = Eq)).
  Proof.
    induction t as [|nk nv lh rh l IHl r IHr]; intros Ht Hf.
    - cbn. do 3 eexists. split; [reflexivity|]. repeat split; auto; try easy.
    - destruct Ht as (-> & -> & Hb & Hl & Hr). cbn [elems] in *.
      assert (Hfl : fits (elems l)).
      { eapply fits_le; [|exact Hf]. rewrite app_length. lia. }
      assert (Hfr : fits (elems r)).
      { eapply fits_le; [|exact Hf]. rewrite app_length. cbn. lia. }
      cbn [split]. destruct (cmp q (bor nk)) eqn:Ec.
      + do 3 eexists. split; [reflexivity|]. cbn [olist app].
        split; [exact Hl|]. split; [exact Hr|]. split; [reflexivity|].
        intros Ha. apply (asc_pivot bor cmp laws) in Ha as (_ & _ & Hlt & Hgt).
        apply (cmp_eq_sym laws) in Ec.
        repeat split.
        * eapply all_lt_eq; eauto.
        * eapply all_gt_eq; eauto.
        * intros e [= <-]. exact Ec.
      + destruct (IHl Hl Hfl) as (l1 & kv & r1 & E & Hl1 & Hr1 & He & Hs).
        rewrite E. cbn [bind].
        assert (ht l1 <= 91 /\ ht r1 <= 91 /\ ht r <= 91) as (B1 & B2 & B3).
        { repeat split; apply avl_ht_bound; auto; eapply fits_le; try exact Hfl;
            rewrite He, !app_length; lia. }
        destruct (join_ok r1 nk nv r) as (r1' & E' & Hr1' & _ & He'); auto; try lia.
        rewrite E'. cbn [bind]. do 3 eexists. split; [reflexivity|].
        split; [exact Hl1|]. split; [exact Hr1'|]. split.
        { rewrite He, He'. now rewrite <- !app_assoc. }
        intros Ha. apply (asc_pivot bor cmp laws) in Ha as (Hla & _ & Hlt & Hgt).
        destruct (Hs Hla) as (Hs1 & Hs2 & Hs3). repeat split; auto.
        rewrite He'. apply all_gt_app. split; auto. apply all_gt_cons.
        split; auto. eapply all_gt_trans; eauto.
      + destruct (IHr Hr Hfr) as (l1 & kv & r1 & E & Hl1 & Hr1 & He & Hs).
        rewrite E. cbn [bind].
        assert (ht l1 <= 91 /\ ht r1 <= 91 /\ ht l <= 91) as (B1 & B2 & B3).
        { repeat split; apply avl_ht_bound; auto; eapply fits_le; try exact Hfr;
            rewrite He, !app_length; lia. }
        destruct (join_ok l nk nv l1) as (l1' & E' & Hl1' & _ & He'); auto; try lia.
        rewrite E'. cbn [bind]. do 3 eexists. split; [reflexivity|].
        split; [exact Hl1'|]. split; [exact Hr1|]. split.
        { rewrite He, He'. now rewrite <- !app_assoc. }
        intros Ha. apply (asc_pivot bor cmp laws) in Ha as (_ & Hra & Hlt & Hgt).
        destruct (Hs Hra) as (Hs1 & Hs2 & Hs3). repeat split; auto.
        apply (cmp_gt_lt laws) in Ec.
        rewrite He'. apply all_lt_app. split; [eapply all_lt_trans; eauto|].
        apply all_lt_cons. split; auto.
  Qed.

  (** ** Lists split at an optional pivot *)
  Section OptPivot.
    Context (L R : list (K * V)) (o : option (K * V)) (p : Q).
    Context (HL : all_lt bor cmp L p) (HR : all_gt bor cmp R p).
    Context (Ho : forall e, o = Some e -> cmp (key e) p = Eq).

    Lemma opt_pivot_asc : asc L -> asc R -> asc (L ++ olist o ++ R).
    Proof.
      intros HaL HaR. destruct o as [e|]; cbn [olist app].
      - specialize (Ho e eq_refl). apply (asc_pivot bor cmp laws). repeat split; auto.
        + eapply all_lt_eq; eauto. now apply (cmp_eq_sym laws).
        + eapply all_gt_eq; eauto. now apply (cmp_eq_sym laws).
      - apply (asc_app_iff bor cmp). repeat split; auto.
        intros x y Hx Hy. eapply (cmp_lt_trans _ laws); [apply HL|apply HR]; auto.
    Qed.

    Lemma opt_pivot_find q :
      fnd q (L ++ olist o ++ R) =
      match cmp q p with Lt => fnd q L | Eq => o | Gt => fnd q R end.
    Proof.
      unfold s_find. rewrite !find_app. destruct (cmp q p) eqn:E.
      - apply (cmp_eq_sym laws) in E.
        pose proof (all_lt_eq bor cmp laws _ _ _ HL E) as HL'.
        pose proof (all_gt_eq bor cmp laws _ _ _ HR E) as HR'.
        destruct (all_lt_filters bor cmp _ _ HL') as (_ & _ & _ & _ & E1 & _).
        destruct (all_gt_filters bor cmp laws _ _ HR') as (_ & _ & _ & _ & E2 & _).
        unfold s_find in *. rewrite E1, E2. destruct o as [e|]; cbn [olist find]; auto.
        specialize (Ho e eq_refl). unfold eq_q.
        now rewrite (cmp_eq_trans laws _ _ _ Ho E).
      - pose proof (all_gt_trans bor cmp laws _ _ _ HR E) as HR'.
        destruct (all_gt_filters bor cmp laws _ _ HR') as (_ & _ & _ & _ & E2 & _).
        unfold s_find in *. rewrite E2.
        replace (find (eq_q bor cmp q) (olist o)) with (@None (K * V)).
        { now destruct (find _ L). }
        destruct o as [e|]; cbn [olist find]; auto. specialize (Ho e eq_refl).
        unfold eq_q. rewrite (cmp_eq_l _ laws _ _ q Ho).
        apply (cmp_lt_gt laws) in E. now rewrite E.
      - apply (cmp_gt_lt laws) in E.
        pose proof (all_lt_trans bor cmp laws _ _ _ HL E) as HL'.
        destruct (all_lt_filters bor cmp _ _ HL') as (_ & _ & _ & _ & E1 & _).
        unfold s_find in *. rewrite E1.
        replace (find (eq_q bor cmp q) (olist o)) with (@None (K * V)); auto.
        destruct o as [e|]; cbn [olist find]; auto. specialize (Ho e eq_refl).
        unfold eq_q. rewrite (cmp_eq_l _ laws _ _ q Ho). now rewrite E.
    Qed.
  End OptPivot.

  (** The lookups of a merge in terms of the lookups of its arguments. *)
  Definition merge_entry (keepl keepr : bool) (dec : K * V -> K * V -> option (K * V))
             (a b : option (K * V)) : option (K * V) :=
    match a, b with
    | Some x, Some y => dec x y
    | Some x, None => if keepl then Some x else None
    | None, Some y => if keepr then Some y else None
    | None, None => None
    end.

  Definition dec_picks (dec : K * V -> K * V -> option (K * V)) : Prop :=
    forall a b e, dec a b = Some e -> e = a \/ e = b.

  Lemma merge_entry_from keepl keepr dec a b e :
    dec_picks dec -> merge_entry keepl keepr dec a b = Some e -> a = Some e \/ b = Some e.
  Proof.
    intros Hd. destruct a as [x|], b as [y|]; cbn.
    - intros H. destruct (Hd _ _ _ H) as [->| ->]; auto.
    - destruct keepl; intros [= <-]; auto.
    - destruct keepr; intros [= <-]; auto.
    - discriminate.
  Qed.

  Lemma find_self l e : asc l -> In e l -> fnd (key e) l = Some e.
  Proof. intros Ha Hi. apply (fnd_iff bor cmp laws); auto using (cmp_refl laws). Qed.

  (** Entries of an ascending list whose lookups are those of a merge come from
      the arguments. *)
  Lemma merged_in keepl keepr dec l1 l2 l e :
    dec_picks dec -> asc l ->
    (forall q, fnd q l = merge_entry keepl keepr dec (fnd q l1) (fnd q l2)) ->
    In e l -> In e l1 \/ In e l2.
  Proof.
    intros Hd Ha H Hi. pose proof (find_self l e Ha Hi) as Hf. rewrite H in Hf.
    apply merge_entry_from in Hf; auto.
    destruct Hf as [Hf|Hf]; apply fnd_some in Hf as [Hf _]; auto.
  Qed.

  Lemma asc_nodup l : asc l -> NoDup l.
  Proof.
    induction l as [|a l IH]; intros H; constructor.
    - intros Hi. apply (asc_cons_iff bor cmp) in H as [_ H].
      apply H in Hi. now apply (cmp_lt_irrefl laws) in Hi.
    - apply IH. now apply (asc_cons_iff bor cmp) in H.
  Qed.

  (** ** Merge *)
  Lemma merge_ok keepl keepr dec t1 :
    dec_picks dec ->
    forall t2,
    avl t1 -> avl t2 -> asc (elems t1) -> asc (elems t2) ->
    fits (elems t1 ++ elems t2) ->
    exists t',
      merge bor cmp keepl keepr dec t1 t2 = Ok t' /\ avl t' /\ asc (elems t')
      /\ forall q, fnd q (elems t')
                   = merge_entry keepl keepr dec (fnd q (elems t1)) (fnd q (elems t2)).
  Proof.
    intros Hd.
    induction t1 as [|nk nv lh rh l IHl r IHr]; intros t2 H1 H2 A1 A2 Hf.
    - cbn [merge]. destruct keepr.
      + exists t2. repeat split; auto. intros q. cbn. now destruct (fnd q (elems t2)).
      + exists Leaf. repeat split; auto. intros q. cbn. now destruct (fnd q (elems t2)).
    - destruct t2 as [|k2 v2 lh2 rh2 l2 r2].
      { cbn [merge]. destruct keepl.
        - eexists. split; [reflexivity|]. repeat split; auto; try apply H1.
          intros q. cbn [elems]. cbn [s_find find]. now destruct (fnd q _).
        - exists Leaf. repeat split; auto. intros q. cbn [elems]. cbn [s_find find].
          now destruct (fnd q _). }
      cbn [merge]. remember (Node k2 v2 lh2 rh2 l2 r2) as t2 eqn:Et2. clear Et2.
      assert (Hf2 : fits (elems t2)).
      { eapply fits_le; [|exact Hf]. rewrite app_length. lia. }
      destruct (split_ok t2 (bor nk)) as (tl & kv & tr & E & Htl & Htr & He & Hs); auto.
      rewrite E. cbn [bind]. destruct (Hs A2) as (Hlt & Hgt & Hkv).
      destruct H1 as (-> & -> & Hb & Hl & Hr). cbn [elems] in *.
      pose proof A1 as A1'. apply (asc_pivot bor cmp laws) in A1' as (Al & Ar & Lt1 & Gt1).
      pose proof A2 as A2'. rewrite He in A2'.
      apply (asc_app_iff bor cmp) in A2' as (Atl & A2' & _).
      apply (asc_app_iff bor cmp) in A2' as (_ & Atr & _).
      assert (Hlen : length (elems t2) = (length (elems tl) + length (olist kv) + length (elems tr))%nat).
      { rewrite He, !app_length. lia. }
      assert (Hfl : fits (elems l ++ elems tl)).
      { eapply fits_le; [|exact Hf]. rewrite !app_length, Hlen. lia. }
      assert (Hfr : fits (elems r ++ elems tr)).
      { eapply fits_le; [|exact Hf]. rewrite !app_length, Hlen. cbn [length]. lia. }
      destruct (IHl tl) as (l' & El & Hl' & Al' & Fl); auto.
      destruct (IHr tr) as (r' & Er & Hr' & Ar' & Fr); auto.
      rewrite El, Er. cbn [bind]. clear IHl IHr El Er.
      assert (Il : forall e, In e (elems l') -> In e (elems l) \/ In e (elems tl)).
      { intros e He'. apply (merged_in keepl keepr dec (elems l) (elems tl) (elems l') e); auto. }
      assert (Ir : forall e, In e (elems r') -> In e (elems r) \/ In e (elems tr)).
      { intros e He'. apply (merged_in keepl keepr dec (elems r) (elems tr) (elems r') e); auto. }
      assert (Fl' : fits (elems l')).
      { eapply fits_le; [|exact Hfl]. apply NoDup_incl_length; [now apply asc_nodup|].
        intros e He'. apply in_or_app. auto. }
      assert (Fr' : fits (elems r')).
      { eapply fits_le; [|exact Hfr]. apply NoDup_incl_length; [now apply asc_nodup|].
        intros e He'. apply in_or_app. auto. }
      pose proof (avl_ht_bound _ Hl' Fl'). pose proof (avl_ht_bound _ Hr' Fr').
      set (o := match kv with
                | Some kv2 => dec (nk, nv) kv2
                | None => if keepl then Some (nk, nv) else None end).
      destruct (join2_ok l' o r') as (t' & Ej & Ht' & Hel); auto; try lia.
      exists t'. split; [exact Ej|]. split; [exact Ht'|].
      change (match o with Some e => [e] | None => [] end) with (olist o) in Hel.
      assert (PL : all_lt bor cmp (elems l') (bor nk)).
      { intros x Hx. apply Il in Hx as [Hx|Hx]; [now apply Lt1|now apply Hlt]. }
      assert (PR : all_gt bor cmp (elems r') (bor nk)).
      { intros x Hx. apply Ir in Hx as [Hx|Hx]; [now apply Gt1|now apply Hgt]. }
      assert (Po : forall e, o = Some e -> cmp (key e) (bor nk) = Eq).
      { intros e. unfold o. destruct kv as [kv2|].
        - intros Hde. destruct (Hd _ _ _ Hde) as [->| ->]; [apply (cmp_refl laws)|].
          now apply Hkv.
        - destruct keepl; intros [= <-]. apply (cmp_refl laws). }
      rewrite Hel. split; [eapply opt_pivot_asc; eauto|].
      intros q. rewrite He.
      rewrite (opt_pivot_find _ _ _ (bor nk)) by auto.
      rewrite (opt_pivot_find (elems tl) _ _ (bor nk)) by auto.
      change (elems l ++ (nk, nv) :: elems r) with (elems l ++ olist (Some (nk, nv)) ++ elems r).
      rewrite (opt_pivot_find (elems l) _ _ (bor nk))
        by (auto; intros e [= <-]; apply (cmp_refl laws)).
      destruct (cmp q (bor nk)); auto.
  Qed.

  (** ** Retain *)


  Lemma run_calls_app {S} (f : S -> K -> V -> S * V * bool) s xs ys :
    run_calls f s (xs ++ ys) =
    let '(o1, s1) := run_calls f s xs in
    let '(o2, s2) := run_calls f s1 ys in (o1 ++ o2, s2).
  Proof.
    revert s. induction xs as [|[k v] xs IH]; intros s; cbn [app run_calls].
    - now destruct (run_calls f s ys).
    - destruct (f s k v) as [[s1 v1] b]. rewrite IH.
      destruct (run_calls f s1 xs) as [o1 s1']. destruct (run_calls f s1' ys). reflexivity.
  Qed.

  Lemma run_calls_keys {S} (f : S -> K -> V -> S * V * bool) s es :
    map (fun o => fst (fst o)) (fst (run_calls f s es)) = es.
  Proof.
    revert s. induction es as [|[k v] es IH]; intros s; cbn [run_calls]; auto.
    destruct (f s k v) as [[s1 v1] b]. specialize (IH s1).
    destruct (run_calls f s1 es) as [o s2]. cbn in *. now rewrite IH.
  Qed.

  (** Order in which [retain] visits. *)
  Fixpoint visit_order (t : tree) : list (K * V) :=
    match t with
    | Leaf => []
    | Node k v _ _ l r => visit_order l ++ visit_order r ++ [(k, v)]
    end.

  Lemma visit_order_perm t : Permutation (visit_order t) (elems t).
  Proof.
    induction t as [|k v lh rh l IHl r IHr]; cbn [visit_order elems]; auto.
    rewrite IHl, IHr. apply Permutation_app_head.
    symmetry. apply Permutation_cons_append.
  Qed.

  Lemma retain_ok {S} (f : S -> K -> V -> S * V * bool) t s :
    avl t -> asc (elems t) -> fits (elems t) ->
    exists t' n s',
      retain f t s = Ok (t', n, s') /\ avl t' /\ asc (elems t') /\ n = length (elems t')
      /\ s' = snd (run_calls f s (visit_order t))
      /\ (forall k v', In (k, v') (elems t') <->
            exists v, In ((k, v), v', true) (fst (run_calls f s (visit_order t))))
      /\ (length (elems t') <= length (elems t))%nat.
  Proof.
    revert s. induction t as [|nk nv lh rh l IHl r IHr]; intros s H A Hf.
    - cbn. do 3 eexists. split; [reflexivity|].
      split; [exact I|]. split; [constructor|]. split; [reflexivity|].
      split; [reflexivity|]. split; [|cbn; lia].
      intros k v'. cbn. split; [intros []|intros [? []]].
    - destruct H as (-> & -> & Hb & Hl & Hr). cbn [elems] in *.
      pose proof A as A'. apply (asc_pivot bor cmp laws) in A' as (Al & Ar & Lt1 & Gt1).
      assert (Hfl : fits (elems l)).
      { eapply fits_le; [|exact Hf]. rewrite app_length. lia. }
      assert (Hfr : fits (elems r)).
      { eapply fits_le; [|exact Hf]. rewrite app_length. cbn. lia. }
      destruct (IHl s Hl Al Hfl) as (l' & nl & s1 & El & Hl' & Al' & -> & Hs1 & Il & Ll).
      destruct (IHr s1 Hr Ar Hfr) as (r' & nr & s2 & Er & Hr' & Ar' & -> & Hs2 & Ir & Lr).
      cbn [retain]. rewrite El. cbn [bind]. rewrite Er. cbn [bind].
      cbn [visit_order]. rewrite run_calls_app.
      destruct (run_calls f s (visit_order l)) as [o1 s1'] eqn:R1. cbn [fst snd] in *. subst s1'.
      rewrite run_calls_app.
      destruct (run_calls f s1 (visit_order r)) as [o2 s2'] eqn:R2. cbn [fst snd] in *. subst s2'.
      cbn [run_calls].
      destruct (f s2 nk nv) as [[s3 v3] b] eqn:Efn. cbn [fst snd].
      assert (Hk1 : forall k v v' b', In (k, v, v', b') o1 -> In (k, v) (elems l)).
      { intros k v v' b' Hi. eapply Permutation_in; [apply visit_order_perm|].
        rewrite <- (run_calls_keys f s (visit_order l)), R1. cbn [fst].
        apply in_map_iff. exists (k, v, v', b'). auto. }
      assert (Hk2 : forall k v v' b', In (k, v, v', b') o2 -> In (k, v) (elems r)).
      { intros k v v' b' Hi. eapply Permutation_in; [apply visit_order_perm|].
        rewrite <- (run_calls_keys f s1 (visit_order r)), R2. cbn [fst].
        apply in_map_iff. exists (k, v, v', b'). auto. }
      assert (PL : all_lt bor cmp (elems l') (bor nk)).
      { intros [k v'] Hx. apply Il in Hx as [v Hx]. apply Hk1 in Hx. apply (Lt1 (k, v) Hx). }
      assert (PR : all_gt bor cmp (elems r') (bor nk)).
      { intros [k v'] Hx. apply Ir in Hx as [v Hx]. apply Hk2 in Hx. apply (Gt1 (k, v) Hx). }
      pose proof (avl_ht_bound _ Hl' (fits_le _ _ Ll Hfl)).
      pose proof (avl_ht_bound _ Hr' (fits_le _ _ Lr Hfr)).
      destruct b.
      + destruct (join_ok l' nk v3 r') as (t' & Ej & Ht' & _ & He); auto; try lia.
        rewrite Ej. cbn [bind]. do 3 eexists. split; [reflexivity|].
        split; [exact Ht'|]. rewrite He. split.
        { apply (asc_pivot bor cmp laws). auto. }
        split; [rewrite app_length; cbn; lia|]. split; [reflexivity|]. split.
        * intros k v'. rewrite in_app_iff. cbn [In]. rewrite Il, Ir. split.
          -- intros [[v Hv]|[[= <- <-]|[v Hv]]].
             ++ exists v. apply in_or_app. auto.
             ++ exists nv. apply in_or_app. right. apply in_or_app. right. now left.
             ++ exists v. apply in_or_app. right. apply in_or_app. auto.
          -- intros [v Hv]. apply in_app_or in Hv as [Hv|Hv]; [left; eauto|].
             apply in_app_or in Hv as [Hv|[[= <- <- <-]|[]]]; eauto.
        * rewrite !app_length. cbn [length]. lia.
      + destruct (join2_ok l' None r') as (t' & Ej & Ht' & He); auto; try lia.
        rewrite Ej. cbn [bind]. do 3 eexists. split; [reflexivity|].
        split; [exact Ht'|]. rewrite He. cbn [app]. split.
        { apply (opt_pivot_asc (elems l') (elems r') None (bor nk)); auto; discriminate. }
        split; [now rewrite app_length|]. split; [reflexivity|]. split.
        * intros k v'. rewrite in_app_iff. rewrite Il, Ir. split.
          -- intros [[v Hv]|[v Hv]].
             ++ exists v. apply in_or_app. auto.
             ++ exists v. apply in_or_app. right. apply in_or_app. auto.
          -- intros [v Hv]. apply in_app_or in Hv as [Hv|Hv]; [left; eauto|].
             apply in_app_or in Hv as [Hv|[[=]|[]]]; eauto.
        * rewrite !app_length. cbn [length]. lia.
  Qed.
End AvlProofs2.
