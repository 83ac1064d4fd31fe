(** Every call on AVL maps, with any comparison function, on the lists of entries. *)
From Coq Require Import List ZArith Bool Lia Permutation Sorted.
From Verif Require Import Base Spec MapSpec SpecFacts AvlModel AvlProofs AvlProofs2 AvlMapProofs AvlIterModel AvlIterProofs
  AvlHistModel AnyOrdSpec AvlAnyProofs AnyOrdShows AnyHeapSpec AvlAnyRange AvlHeapProofs5.
From Verif Require BTreeAnyProofs.
Import ListNotations.
Local Open Scope Z_scope.

Section AvlAnyHist.
  Context {K V Q : Type} (bor : K -> Q) (cmp : Q -> Q -> comparison).
  Context (keq : K -> K -> bool) (veq : V -> V -> bool).
  Context (kcmp : K -> K -> comparison) (vcmp : V -> V -> comparison).
  Notation tree := (tree K V).
  Notation amap := (avl_map K V).
  Notation entry := (K * V)%type.
  Notation op := (op K V Q).
  Notation step := (step bor cmp keq veq kcmp vcmp).
  Notation nob := (fun _ : K => tt).
  Notation noc := (fun _ _ : unit => Lt).

  (** *** A predicate without state sees each entry once: the order does not matter. *)
  Lemma retain_pure (g : K -> V -> V * bool) (t : tree) : avl t -> fits (elems t) ->
    exists t', retain (fun (s : unit) k v => (s, fst (g k v), snd (g k v))) t tt = Ok (t', length (elems t'), tt)
      /\ avl t' /\ elems t' = s_retain g (elems t).
  Proof.
    induction t as [|nk nv lh rh l IHl r IHr]; intros H Hf.
    - exists Leaf. cbn. auto.
    - destruct H as (-> & -> & Hb & Hl & Hr). cbn [elems] in *.
      assert (Hfl : fits (elems l)) by (eapply fits_le; [|exact Hf]; rewrite app_length; lia).
      assert (Hfr : fits (elems r)) by (eapply fits_le; [|exact Hf]; rewrite app_length; cbn; lia).
      destruct (IHl Hl Hfl) as (l' & El & Hl' & Il). destruct (IHr Hr Hfr) as (r' & Er & Hr' & Ir).
      cbn [retain]. rewrite El. cbn [bind]. rewrite Er. cbn [bind].
      assert (Le : forall x : list entry, (length (s_retain g x) <= length x)%nat).
      { intros x. unfold s_retain. rewrite map_length. induction x as [|e x IH]; cbn [filter length]; [lia|].
        destruct (snd (g (fst e) (snd e))); cbn [length]; lia. }
      assert (Bl : ht l' <= 91). { apply avl_ht_bound; auto. rewrite Il. eapply fits_le; [|exact Hfl]. apply Le. }
      assert (Br : ht r' <= 91). { apply avl_ht_bound; auto. rewrite Ir. eapply fits_le; [|exact Hfr]. apply Le. }
      assert (Es : s_retain g (elems l ++ (nk, nv) :: elems r)
                   = s_retain g (elems l) ++ (if snd (g nk nv) then [(nk, fst (g nk nv))] else []) ++ s_retain g (elems r)).
      { unfold s_retain. rewrite filter_app, map_app. cbn [filter fst snd]. now destruct (snd (g nk nv)). }
      rewrite Es, <- Il, <- Ir. destruct (snd (g nk nv)).
      + destruct (join_ok l' nk (fst (g nk nv)) r') as (t' & Ej & Ht' & _ & He); auto; try lia.
        rewrite Ej. cbn [bind]. exists t'. rewrite He. split; [|split; auto].
        repeat f_equal. rewrite app_length. cbn [length]. lia.
      + destruct (join2_ok l' None r') as (t' & Ej & Ht' & He); auto; try lia.
        rewrite Ej. cbn [bind]. exists t'. rewrite He. split; [|split; auto].
        repeat f_equal. now rewrite app_length.
  Qed.
  Lemma a_retain_pure (g : K -> V -> V * bool) (m : amap) l : a_any m l -> small l ->
    exists m', avl_retain (fun (s : unit) k v => (s, fst (g k v), snd (g k v))) m tt = Ok (m', tt) /\ a_any m' (s_retain g l).
  Proof.
    intros H Hs. apply aany_iff in H as (A & <- & L).
    destruct (retain_pure g (am_root m) A (small_fit _ Hs)) as (t' & E & A' & El).
    unfold avl_retain. rewrite E. cbn [bind]. eexists. split; [reflexivity|]. apply aany_iff. cbn [am_root am_len]. rewrite El. auto.
  Qed.

  (** *** [check] *)
  Notation before := (fun x y : K => cmp (bor x) (bor y) = Lt).
  Lemma sorted_join (l r : list K) x : Sorted before l -> Sorted before (x :: r) ->
    (forall y, hd_error (rev l) = Some y -> before y x) -> Sorted before (l ++ x :: r).
  Proof.
    intros Sl Sr. induction l as [|a l IH]; intros H; [exact Sr|].
    inversion Sl as [|? ? Sl' Ha]; subst. cbn [app]. constructor.
    - apply IH; auto. intros y Hy. apply H. cbn [rev]. destruct (rev l); [discriminate|exact Hy].
    - destruct l as [|b l]; cbn [app]; constructor.
      + apply H. reflexivity.
      + now inversion Ha.
  Qed.
  Notation opt g := (match g with Some k => [k] | None => [] end).
  Lemma chk_any (t : tree) g : avl t -> ht t <= 100 -> exists r, chk bor cmp t g = Ok r
    /\ forall n g', r = inl (n, g') -> Sorted before (opt g ++ map fst (elems t))
         /\ g' = hd_error (rev (opt g ++ map fst (elems t))).
  Proof.
    revert g. induction t as [|k v lh rh l IHl r IHr]; intros g H Hb.
    { eexists. split; [reflexivity|]. intros n g' [= <- <-]. cbn. destruct g; cbn; auto. }
    destruct H as (-> & -> & Hbal & Hl & Hr). cbn [ht elems] in *.
    pose proof (ht_nonneg l). pose proof (ht_nonneg r). cbn [chk].
    destruct (ge_key bor cmp g k); [eexists; split; [reflexivity|discriminate]|].
    rewrite !height_ok by (auto; lia). cbn [bind]. rewrite !Z.eqb_refl. cbn [negb orb].
    rewrite is_bal_ok by lia. cbn [bind].
    destruct (negb _); [eexists; split; [reflexivity|discriminate]|].
    destruct (IHl g Hl) as (rl & El & Il); [lia|]. rewrite El. cbn [bind].
    destruct rl as [[nl gl]|]; [|eexists; split; [reflexivity|discriminate]].
    destruct (Il _ _ eq_refl) as [Sl Gl].
    destruct (ge_key bor cmp gl k) eqn:Eg; [eexists; split; [reflexivity|discriminate]|].
    destruct (IHr (Some k) Hr) as (rr & Er & Ir); [lia|]. rewrite Er. cbn [bind].
    destruct rr as [[nr gr]|]; [|eexists; split; [reflexivity|discriminate]].
    destruct (Ir _ _ eq_refl) as [Sr Gr].
    eexists. split; [reflexivity|]. intros n g' [= <- <-]. rewrite map_app, app_assoc. cbn [map fst app] in *. split.
    - apply sorted_join; auto. intros y Hy. rewrite Hy in Gl. subst gl. cbn [ge_key] in Eg.
      destruct (cmp (bor y) (bor k)); congruence.
    - rewrite Gr. rewrite rev_app_distr. cbn [rev]. now destruct (rev (map fst (elems r))).
  Qed.
  Lemma sorted_keys (l : list entry) : Sorted before (map fst l) ->
    Sorted (fun x y : entry => cmp (bor (fst x)) (bor (fst y)) = Lt) l.
  Proof.
    induction l as [|e x IH]; intros S; constructor.
    - apply IH. now inversion S.
    - inversion S as [|? ? _ Hd]; subst. destruct x; cbn in *; constructor. now inversion Hd.
  Qed.
  Lemma a_chk_any (m : amap) l : a_any m l -> small l -> exists r, avl_chk bor cmp m = Ok r
    /\ (r = inl tt -> Sorted (fun x y : entry => cmp (bor (fst x)) (bor (fst y)) = Lt) l).
  Proof.
    intros H Hs. pose proof (any_ht m l H Hs). apply aany_iff in H as (A & <- & L).
    destruct (chk_any (am_root m) None A) as (r & E & I); [lia|]. unfold avl_chk. rewrite E. cbn [bind].
    destruct r as [[n g]|]; [|eexists; split; [reflexivity|discriminate]].
    destruct (I _ _ eq_refl) as [S _]. cbn [app] in S.
    destruct (Nat.eqb n (am_len m)); eexists; split; try reflexivity; try discriminate. intros _.
    now apply sorted_keys.
  Qed.

  Lemma a_new_any : a_any (avl_new : amap) [].
  Proof. split; auto. exists 0. constructor. Qed.
  Lemma a_eq_any (a b : amap) la lb : a_any a la -> a_any b lb ->
    avl_eq keq veq a b = Ok (seq_eqb keq veq la lb) /\ avl_cmp kcmp vcmp a b = Ok (seq_cmp kcmp vcmp la lb).
  Proof.
    intros H H'. apply aany_iff in H as (A & <- & L). apply aany_iff in H' as (A' & <- & L').
    assert (Va : forall m : amap, avl (am_root m) -> am_len m = length (elems (am_root m)) -> valid nob noc m).
    { intros m X Y. split; auto. split; auto. apply BTreeAnyProofs.sorted_any. }
    split; [apply (eq_spec nob noc)|apply (cmp_spec nob noc)]; auto.
  Qed.

  Definition op_fits (ls : list (list entry)) (o : op) : Prop :=
    match o with
    | OFromIter ps => small ps
    | OExtend i ps => forall l, nth_error ls i = Some l -> Z.of_nat (length l + length ps) < 2 ^ 63
    | _ => True
    end.
  Lemma step_any (st : list amap) ls (o : op) : Forall2 a_any st ls -> Forall small ls -> tame o ->
    op_fits ls o ->
    exists st' r ls', step st o = Ok (st', r) /\ Forall2 a_any st' ls' /\ any_did bor keq veq kcmp vcmp cmp ls o r ls'.
  Proof.
    intros R Sm Ta Os.
    assert (Hs : forall i l, nth_error ls i = Some l -> small l).
    { intros i l E. eapply Forall_forall in Sm; [exact Sm|]. eapply nth_error_In; eauto. }
    assert (At1 : forall i (f : amap -> res (list amap * obs K V)) (P : list entry -> obs K V -> list (list entry) -> Prop),
      (forall a l, nth_error ls i = Some l -> small l -> a_any a l ->
         exists st' r ls', f a = Ok (st', r) /\ Forall2 a_any st' ls' /\ P l r ls') ->
      exists st' r ls', on st i f = Ok (st', r) /\ Forall2 a_any st' ls'
        /\ match nth_error ls i with Some l => P l r ls' | None => r = RUnit /\ ls' = ls end).
    { intros i f P H. unfold on. pose proof (Forall2_nth _ _ _ i R) as X.
      destruct (nth_error st i) as [a|] eqn:E1, (nth_error ls i) as [l|] eqn:E2; try contradiction.
      - apply (H a l); eauto.
      - exists st, RUnit, ls. auto. }
    assert (Add : forall a l, a_any a l -> Forall2 a_any (st ++ [a]) (ls ++ [l])).
    { intros a l H. apply Forall2_app; auto. }
    assert (Put : forall i a l, a_any a l -> Forall2 a_any (set_nth i a st) (set_nth i l ls)).
    { intros i a l H. now apply Forall2_set. }
    destruct o as [|i|ps|i k v|i q|i q|i q|i q|i q|i q w|i k w|i k v w|i|i|i|i|i|i|i|i ps|i g|i q|i j|i j|i j|i j|i j|i cs|i lo hi cs|i j|i j|i];
      cbn [tame] in Ta; try contradiction; cbn [AvlHistModel.step any_did op_fits] in *; unfold on2; cbv zeta.
    - do 3 eexists. split; [reflexivity|]. split; [apply Add, a_new_any|]. eauto.
    - apply At1. intros a l N Hl Ha. do 3 eexists. split; [reflexivity|]. split; [apply Add, Ha|]. eauto.
    - destruct (a_extend_any bor cmp ps avl_new [] a_new_any) as (m' & l' & E & A' & I); [exact Os|].
      unfold avl_from_iter. rewrite E. cbn [bind]. do 3 eexists. split; [reflexivity|]. split; [apply Add, A'|]. eauto.
    - apply At1. intros a l N Hl Ha. destruct (a_insert_any bor cmp a l k v Ha Hl) as (m' & r & l' & E & A' & I).
      rewrite E. cbn [bind]. do 3 eexists. split; [reflexivity|]. split; [apply Put, A'|]. eauto.
    - apply At1. intros a l N Hl Ha. destruct (a_remove_any bor cmp a l q Ha Hl) as (m' & r & l' & E & A' & I).
      rewrite E. cbn [bind]. do 3 eexists. split; [reflexivity|]. split; [apply Put, A'|]. eauto.
    - apply At1. intros a l N Hl Ha. destruct (a_remove_entry_any bor cmp a l q Ha Hl) as (m' & r & l' & E & A' & I).
      rewrite E. cbn [bind]. do 3 eexists. split; [reflexivity|]. split; [apply Put, A'|]. eauto.
    - apply At1. intros a l N Hl Ha. do 3 eexists. split; [reflexivity|]. split; [exact R|]. split; auto. eexists. split; [reflexivity|].
      now apply a_get_any.
    - apply At1. intros a l N Hl Ha. do 3 eexists. split; [reflexivity|]. split; [exact R|]. split; auto. eexists. split; [reflexivity|].
      intros e E. pose proof (a_get_kv_any bor cmp a l q Ha) as X. rewrite E in X. exact X.
    - apply At1. intros a l N Hl Ha. do 3 eexists. split; [reflexivity|]. split; [exact R|]. split; auto. eexists. split; [reflexivity|].
      intros E. pose proof (a_get_kv_any bor cmp a l q Ha) as X. unfold avl_contains_key, avl_get in E.
      destruct (avl_get_key_value bor cmp a q) as [e|]; [eauto|discriminate].
    - apply At1. intros a l N Hl Ha. destruct (a_get_mut_any bor cmp a l q w Ha) as (m' & r & l' & E & A' & I).
      rewrite E. do 3 eexists. split; [reflexivity|]. split; [apply Put, A'|]. eauto.
    - apply At1. intros a l N Hl Ha. destruct (a_get_mut_any bor cmp a l (bor k) w Ha) as (m' & r & l' & E & A' & I).
      unfold entry_and_modify. rewrite E. do 3 eexists. split; [reflexivity|]. split; [apply Put, A'|]. eauto.
    - apply At1. intros a l N Hl Ha. destruct (a_ends_any a l Ha) as [E1 E2]. do 3 eexists. split; [reflexivity|]. split; [exact R|].
      rewrite E1. auto.
    - apply At1. intros a l N Hl Ha. destruct (a_ends_any a l Ha) as [E1 E2]. do 3 eexists. split; [reflexivity|]. split; [exact R|].
      rewrite E2. auto.
    - apply At1. intros a l N Hl Ha. destruct (a_pops_any a l Ha Hl) as [(m1 & E1 & A1) _]. rewrite E1. cbn [bind].
      do 3 eexists. split; [reflexivity|]. split; [apply Put, A1|]. auto.
    - apply At1. intros a l N Hl Ha. destruct (a_pops_any a l Ha Hl) as [_ (m1 & E1 & A1)]. rewrite E1. cbn [bind].
      do 3 eexists. split; [reflexivity|]. split; [apply Put, A1|]. auto.
    - apply At1. intros a l N Hl Ha. do 3 eexists. split; [reflexivity|]. split; [exact R|]. unfold avl_len. rewrite (proj1 Ha). auto.
    - apply At1. intros a l N Hl Ha. do 3 eexists. split; [reflexivity|]. split; [exact R|]. unfold avl_is_empty. rewrite (proj1 Ha). auto.
    - apply At1. intros a l N Hl Ha. do 3 eexists. split; [reflexivity|]. split; [apply Put, a_new_any|]. auto.
    - apply At1. intros a l N Hl Ha. destruct (a_extend_any bor cmp ps a l Ha) as (m' & l' & E & A' & I); [eauto|].
      rewrite E. cbn [bind]. do 3 eexists. split; [reflexivity|]. split; [apply Put, A'|]. eauto.
    - apply At1. intros a l N Hl Ha. destruct (a_retain_pure g a l Ha Hl) as (m' & E & A').
      rewrite E. cbn [bind]. do 3 eexists. split; [reflexivity|]. split; [apply Put, A'|]. auto.
    - apply At1. intros a l N Hl Ha. apply At1. intros b l2 N2 Hl2 Hb. destruct (Nat.eqb i j).
      { do 3 eexists. split; [reflexivity|]. split; [exact R|]. auto. }
      destruct (a_union_any bor cmp a b l l2 Ha Hb Hl Hl2) as (m & l' & oa & ob & both & _ & E & A' & P & Pm).
      rewrite E. cbn [bind]. do 3 eexists. split; [reflexivity|]. split; [apply Forall2_set; [apply Put, A'|apply a_new_any]|].
      split; auto. exists oa, ob, both. eauto.
    - apply At1. intros a l N Hl Ha. apply At1. intros b l2 N2 Hl2 Hb.
      destruct (a_union_any bor cmp a b l l2 Ha Hb Hl Hl2) as (m & l' & oa & ob & both & E & _ & A' & P & Pm).
      rewrite E. cbn [bind]. do 3 eexists. split; [reflexivity|]. split; [apply Add, A'|]. exists oa, ob, both. eauto.
    - apply At1. intros a l N Hl Ha. apply At1. intros b l2 N2 Hl2 Hb.
      destruct (a_intersect_any bor cmp a b l l2 Ha Hb Hl Hl2) as (m & l' & oa & ob & both & E & A' & P & Pm).
      rewrite E. cbn [bind]. do 3 eexists. split; [reflexivity|]. split; [apply Add, A'|]. exists oa, ob, both. eauto.
    - apply At1. intros a l N Hl Ha. apply At1. intros b l2 N2 Hl2 Hb.
      destruct (a_diff_any bor cmp a b l l2 Ha Hb Hl Hl2) as (m & oa & ob & both & l' & E & A' & P & Pm).
      rewrite E. cbn [bind]. do 3 eexists. split; [reflexivity|]. split; [apply Add, A'|]. exists oa, ob, both. eauto.
    - apply At1. intros a l N Hl Ha. apply At1. intros b l2 N2 Hl2 Hb.
      destruct (a_sym_diff_any bor cmp a b l l2 Ha Hb Hl Hl2) as (m & oa & ob & both & l' & E & A' & P & Pm).
      rewrite E. cbn [bind]. do 3 eexists. split; [reflexivity|]. split; [apply Add, A'|]. exists oa, ob, both. eauto.
    - apply At1. intros a l N Hl Ha. rewrite (a_iter_any a l cs Ha). cbn [bind]. do 3 eexists. split; [reflexivity|]. split; [exact R|]. auto.
    - apply At1. intros a l N Hl Ha. destruct (a_range_any bor cmp a l lo hi Ha) as (it & l' & E & T & Rn). rewrite E. cbn [bind].
      destruct (Rn cs) as (extra & Er). rewrite Er. cbn [bind]. do 3 eexists. split; [reflexivity|]. split; [exact R|]. split; auto.
      exists l'. split; auto. rewrite map_map. reflexivity.
    - apply At1. intros a l N Hl Ha. apply At1. intros b l2 N2 Hl2 Hb. destruct (a_eq_any a b l l2 Ha Hb) as [E _].
      rewrite E. cbn [bind]. do 3 eexists. split; [reflexivity|]. split; [exact R|]. auto.
    - apply At1. intros a l N Hl Ha. apply At1. intros b l2 N2 Hl2 Hb. destruct (a_eq_any a b l l2 Ha Hb) as [_ E].
      rewrite E. cbn [bind]. do 3 eexists. split; [reflexivity|]. split; [exact R|]. auto.
    - apply At1. intros a l N Hl Ha. destruct (a_chk_any a l Ha Hl) as (r & E & I). rewrite E. cbn [bind].
      do 3 eexists. split; [reflexivity|]. split; [exact R|]. split; auto. eexists. split; [reflexivity|].
      destruct r as [[]|]; [auto|discriminate].
  Qed.
End AvlAnyHist.
