(** Insertion into the array-based B-tree, and its map operations. *)
From Coq Require Import List PeanoNat Bool Lia.
From Verif Require Import Base Spec SpecFacts Vec BTreeModel BTreeProofs BTreeProofs2 FixedModel FixedProofs FixedProofs2.
Import ListNotations.

Section FixedProofs3.
  Context {K V Q : Type} (bor : K -> Q) (cmp : Q -> Q -> comparison).
  Context (laws : order_laws cmp) (small_key : bool).
  Notation bt := (bt K V).
  Notation fnode := (fnode K V).
  Notation entry := (K * V)%type.
  Notation asc := (@ascending K V Q bor cmp).
  Notation ins := (@s_insert K V Q bor cmp).
  Notation fnd := (@s_find K V Q bor cmp).
  Notation key e := (bor (fst e)).
  Notation scan := (@scan K V Q bor cmp).
  Notation flat := (@flat K V).
  Notation shape := (@shape K V MIN_OCCUPANCY).
  Notation arity := (@arity K V MIN_OCCUPANCY).
  Notation MIN := MIN_OCCUPANCY.

  (** ** The split *)
  Definition lo_len (idx : nat) : nat := if idx <=? MIN then MIN else S MIN.
  Definition put {A} (idx : nat) (x : A) (l : list A) : list A := firstn idx l ++ x :: skipn idx l.

  Lemma arr_full {A} n s (l : list A) : arr n s l -> length l = n -> s = map Some l.
  Proof.
    intros (Hn & j & ->) L. rewrite app_length, map_length in Hn. destruct j; [apply app_nil_r|cbn in Hn; lia].
  Qed.

  Ltac cut11 es L := do 11 (destruct es as [|[? ?] es]; [discriminate L|]); destruct es; [|discriminate L]; clear L.
  Ltac cut12 ns L := do 12 (destruct ns as [|? ns]; [discriminate L|]); destruct ns; [|discriminate L]; clear L.
  Ltac each idx tac := do 12 (destruct idx as [|idx]; [solve [tac]|]); exfalso; lia.

  Lemma cell_split_leaf {A} (e : elems K V) es idx kv : elems_are e es -> length es = MAX_OCCUPANCY -> idx <= MAX_OCCUPANCY ->
    exists le he, cell_split e (@None (kids A)) idx None kv
      = Ok ((he, None), (le, None), nth (lo_len idx) (put idx kv es) kv)
      /\ elems_are le (firstn (lo_len idx) (put idx kv es))
      /\ elems_are he (skipn (S (lo_len idx)) (put idx kv es)).
  Proof.
    intros (Hk & Hv & Hl) L Hi. destruct e as [ks vs n]. cbn in *.
    apply arr_full in Hk; [|now rewrite map_length]. apply arr_full in Hv; [|now rewrite map_length]. subst ks vs n.
    change MAX_OCCUPANCY with 11 in *. destruct kv as [k v]. cut11 es L.
    each idx ltac:(eexists _, _; (split; [vm_compute; reflexivity|]); split; (split; [|split]);
      try reflexivity; (split; [reflexivity|]); eexists; reflexivity).
  Qed.

  Lemma ins_split_leaf (e : elems K V) es idx kv : elems_are e es -> length es = MAX_OCCUPANCY -> idx <= MAX_OCCUPANCY ->
    exists le he, ins_split (FNode e None) idx None kv
      = Ok (FNode he None, FSplit (Some (FNode le None)) (nth (lo_len idx) (put idx kv es) kv))
      /\ elems_are le (firstn (lo_len idx) (put idx kv es))
      /\ elems_are he (skipn (S (lo_len idx)) (put idx kv es)).
  Proof.
    intros H1 H2 H3. destruct (@cell_split_leaf fnode e es idx kv H1 H2 H3) as (le & he & E & H).
    exists le, he. split; [unfold ins_split; rewrite E; reflexivity|exact H].
  Qed.

  Lemma cell_split_branch {A} (e : elems K V) es (d : kids A) ns idx kid kv : elems_are e es -> kids_are d ns ->
    length es = MAX_OCCUPANCY -> length ns = MAX_KIDS -> idx <= MAX_OCCUPANCY ->
    exists le he ld hd, cell_split e (Some d) idx (Some kid) kv
      = Ok ((he, Some hd), (le, Some ld), nth (lo_len idx) (put idx kv es) kv)
      /\ elems_are le (firstn (lo_len idx) (put idx kv es))
      /\ elems_are he (skipn (S (lo_len idx)) (put idx kv es))
      /\ kids_are ld (firstn (S (lo_len idx)) (put idx kid ns))
      /\ kids_are hd (skipn (S (lo_len idx)) (put idx kid ns)).
  Proof.
    intros (Hk & Hv & Hl) [Hd Hdl] L Ln Hi. destruct e as [ks vs n], d as [ps dn]. cbn in *.
    apply arr_full in Hk; [|now rewrite map_length]. apply arr_full in Hv; [|now rewrite map_length].
    apply arr_full in Hd; auto. subst ks vs n ps dn.
    change MAX_OCCUPANCY with 11 in *. change MAX_KIDS with 12 in *. destruct kv as [k v]. cut11 es L. cut12 ns Ln.
    each idx ltac:(eexists _, _, _, _; (split; [vm_compute; reflexivity|]);
      (split; [split; [|split]|split; [split; [|split]|split; split]]);
      try reflexivity; (split; [reflexivity|]); eexists; reflexivity).
  Qed.

  Lemma ins_split_branch (e : elems K V) es d ns idx kid kv : elems_are e es -> kids_are d ns ->
    length es = MAX_OCCUPANCY -> length ns = MAX_KIDS -> idx <= MAX_OCCUPANCY ->
    exists le he ld hd, ins_split (FNode e (Some d)) idx (Some kid) kv
      = Ok (FNode he (Some hd), FSplit (Some (FNode le (Some ld))) (nth (lo_len idx) (put idx kv es) kv))
      /\ elems_are le (firstn (lo_len idx) (put idx kv es))
      /\ elems_are he (skipn (S (lo_len idx)) (put idx kv es))
      /\ kids_are ld (firstn (S (lo_len idx)) (put idx kid ns))
      /\ kids_are hd (skipn (S (lo_len idx)) (put idx kid ns)).
  Proof.
    intros H1 H2 H3 H4 H5. destruct (cell_split_branch e es d ns idx kid kv H1 H2 H3 H4 H5) as (le & he & ld & hd & E & H).
    exists le, he, ld, hd. split; [unfold ins_split; rewrite E; reflexivity|exact H].
  Qed.

  Lemma put_mid {A} idx (x : A) l1 l2 : idx = length l1 -> put idx x (l1 ++ l2) = l1 ++ x :: l2.
  Proof. intros H. unfold put. now rewrite firstn_len, skipn_len. Qed.
  Lemma Forall2_firstn {A B} (R : A -> B -> Prop) l1 l2 n : Forall2 R l1 l2 -> Forall2 R (firstn n l1) (firstn n l2).
  Proof. intros F. revert n. induction F; intros [|n]; cbn; constructor; auto. Qed.
  Lemma Forall2_skipn {A B} (R : A -> B -> Prop) l1 l2 n : Forall2 R l1 l2 -> Forall2 R (skipn n l1) (skipn n l2).
  Proof. intros F. revert n. induction F; intros [|n]; cbn; auto. Qed.
  Lemma Forall2_put {A B} (R : A -> B -> Prop) l1 l2 n x y : Forall2 R l1 l2 -> R x y ->
    Forall2 R (put n x l1) (put n y l2).
  Proof. intros F H. apply Forall2_app; [now apply Forall2_firstn|]. constructor; auto. now apply Forall2_skipn. Qed.

  (** What an insertion of [(k, v)] into a node with contents [l] leaves. *)
  Definition f_ins_good (mn h : nat) (k : K) (v : V) (l : list entry) (n' : fnode) (r : f_res K V) : Prop :=
    match r with
    | FReplaced k0 v0 => fnd (bor k) l = Some (k0, v0)
        /\ exists t', repr n' t' /\ shape mn h t' /\ flat t' = ins k v l
    | FAbsorbed => fnd (bor k) l = None
        /\ exists t', repr n' t' /\ shape mn h t' /\ flat t' = ins k v l
    | FSplit None _ => False
    | FSplit (Some c) kv => fnd (bor k) l = None
        /\ exists lhs t', repr c lhs /\ repr n' t' /\ shape MIN h lhs /\ shape MIN h t'
             /\ flat lhs ++ kv :: flat t' = ins k v l
    end.

  Lemma lo_len_cases idx : lo_len idx = 5 \/ lo_len idx = 6.
  Proof. unfold lo_len, MIN_OCCUPANCY. destruct (idx <=? 5); auto. Qed.

  Lemma f_absorb mn h n es1 es2 ks1 ks2 lks kid kv i k v l :
    repr n (BN (es1 ++ es2) (ks1 ++ ks2)) -> i = length es1 ->
    mn <= length (es1 ++ es2) <= MAX_OCCUPANCY ->
    match h with
    | 0 => kid = None /\ lks = [] /\ ks1 = [] /\ ks2 = []
    | S _ => exists c lhs, kid = Some c /\ lks = [lhs] /\ repr c lhs /\ length ks1 = length es1
               /\ length ks2 = S (length es2)
    end ->
    arity h (es1 ++ kv :: es2) (ks1 ++ lks ++ ks2) ->
    fnd (bor k) l = None -> flat (BN (es1 ++ kv :: es2) (ks1 ++ lks ++ ks2)) = ins k v l ->
    exists n' r, (if fn_len n <? MAX_OCCUPANCY then ins_no_split n i kid kv else ins_split n i kid kv) = Ok (n', r)
      /\ f_ins_good mn h k v l n' r.
  Proof.
    intros R Hi B Hk A Hf Fl. rewrite (repr_len _ _ R). unfold n_len. cbn [elems_of].
    pose proof max_kids_val as HMK. pose proof max_val as HMO.
    destruct n as [e d]. apply repr_iff in R as [He Hd]. pose proof (proj2 (proj2 He)) as Le.
    destruct (Nat.ltb_spec (length (es1 ++ es2)) MAX_OCCUPANCY) as [Hlt|Hge].
    - unfold ins_no_split, cell_absorb. rewrite Le. destruct (Nat.ltb_spec (length (es1 ++ es2)) MAX_OCCUPANCY); [|lia]. cbn [assert_ bind].
      destruct (Nat.leb_spec i (length (es1 ++ es2))); [|rewrite app_length in *; lia]. cbn [assert_ bind].
      destruct (el_insert_ok e es1 es2 kv i He) as (e' & E & He'); auto.
      assert (Sh : shape mn h (BN (es1 ++ kv :: es2) (ks1 ++ lks ++ ks2))).
      { apply shape_iff. split; auto. rewrite max_is, app_length in *. cbn [length]. lia. }
      destruct h.
      + destruct Hk as (-> & -> & -> & ->). destruct d as [d|]; [cbn in Hd; destruct Hd; congruence|]. cbn [is_some Bool.eqb assert_ bind].
        rewrite E. cbn [bind app] in *. eexists _, _. split; [reflexivity|]. cbn [f_ins_good]. split; auto.
        eexists. split; [apply repr_iff; split; [exact He'|reflexivity]|]. auto.
      + destruct Hk as (c & lhs & -> & -> & Rc & L1 & L2). destruct d as [d|]; cbn in Hd; [|now destruct ks1, ks2].
        destruct Hd as [_ Hd]. cbn [is_some Bool.eqb assert_ bind]. rewrite E. cbn [bind unwrap].
        assert (Lk : length (ks1 ++ ks2) < MAX_KIDS) by (rewrite app_length in *; lia).
        assert (Hik : i = length ks1) by lia.
        destruct (kd_insert_rep d ks1 ks2 c lhs i Hd Lk Hik Rc) as (d' & -> & Hd'). cbn [bind].
        eexists _, _. split; [reflexivity|]. cbn [f_ins_good]. split; auto.
        eexists. split; [|split; [exact Sh|exact Fl]]. apply repr_iff. split; [exact He'|]. split; auto. now destruct ks1.
    - assert (Len : length (es1 ++ es2) = MAX_OCCUPANCY) by lia.
      assert (Hi11 : i <= MAX_OCCUPANCY) by (rewrite app_length in Len; lia).
      assert (La : length (es1 ++ kv :: es2) = S MAX_OCCUPANCY) by (rewrite app_length in *; cbn [length]; lia).
      pose proof (lo_len_cases i) as HL.
      destruct (cut_mid (lo_len i) (es1 ++ kv :: es2)) as (lo & dv & hi & Ecut & Llo).
      { rewrite La. unfold MAX_OCCUPANCY, max_occupancy, MIN_OCCUPANCY. lia. }
      assert (Lhi : length hi = MAX_OCCUPANCY - lo_len i).
      { rewrite Ecut, app_length in La. cbn [length] in La. lia. }
      assert (E1 : firstn (lo_len i) (put i kv (es1 ++ es2)) = lo).
      { rewrite put_mid, Ecut by auto. now apply firstn_len. }
      assert (E2 : skipn (S (lo_len i)) (put i kv (es1 ++ es2)) = hi).
      { rewrite put_mid, Ecut by auto. replace (lo ++ dv :: hi) with ((lo ++ [dv]) ++ hi) by now rewrite <- app_assoc.
        apply skipn_len. rewrite app_length. cbn. lia. }
      assert (E3 : nth (lo_len i) (put i kv (es1 ++ es2)) kv = dv).
      { rewrite put_mid, Ecut by auto. rewrite <- Llo. rewrite app_nth2 by lia. now rewrite Nat.sub_diag. }
      assert (Blo : MIN <= length lo <= MAX_OCC MIN) by (unfold MAX_OCC, MIN_OCCUPANCY; lia).
      assert (Bhi : MIN <= length hi <= MAX_OCC MIN).
      { rewrite Lhi. unfold MAX_OCC, MAX_OCCUPANCY, max_occupancy, MIN_OCCUPANCY. lia. }
      destruct h.
      + destruct Hk as (-> & -> & -> & ->). destruct d as [d|]; [cbn in Hd; destruct Hd; congruence|].
        destruct (ins_split_leaf e _ i kv He Len Hi11) as (le & he & -> & Hle & Hhe).
        rewrite E1 in Hle. rewrite E2 in Hhe. rewrite E3.
        eexists _, _. split; [reflexivity|]. cbn [f_ins_good]. split; auto.
        exists (BN lo []), (BN hi []). split; [apply repr_iff; split; [auto|reflexivity]|].
        split; [apply repr_iff; split; [auto|reflexivity]|].
        split; [apply shape_iff; split; [auto|reflexivity]|]. split; [apply shape_iff; split; [auto|reflexivity]|].
        rewrite <- Fl. cbn [app]. rewrite !flat_leaf. auto.
      + destruct Hk as (c & lhs & -> & -> & Rc & L1 & L2). destruct d as [d|]; cbn in Hd; [|now destruct ks1, ks2].
        destruct Hd as [_ (ns & Hns & Fns)]. pose proof (Forall2_len _ _ _ Fns) as Lns. rewrite app_length in Lns.
        assert (Ln : length ns = MAX_KIDS) by (rewrite app_length in Len; lia).
        destruct (ins_split_branch e _ d ns i c kv He Hns Len Ln Hi11) as (le & he & ld & hd & -> & Hle & Hhe & Hld & Hhd).
        rewrite E1 in Hle. rewrite E2 in Hhe. rewrite E3.
        destruct A as [LA FA]. cbn [app] in *.
        pose proof (Forall2_put _ _ _ i _ _ Fns Rc) as Fp. rewrite (put_mid i lhs ks1 ks2) in Fp by lia.
        set (kall := ks1 ++ lhs :: ks2) in *. rewrite La in LA.
        assert (Hka : exists ka x, firstn (S (lo_len i)) kall = ka ++ [x] /\ length ka = lo_len i).
        { destruct (snoc_cases (firstn (S (lo_len i)) kall)) as [X|(ka & x & X)].
          - apply (f_equal (@length _)) in X. rewrite firstn_length, LA in X. cbn in X. unfold MAX_OCCUPANCY, max_occupancy, MIN_OCCUPANCY in X. lia.
          - exists ka, x. split; auto. apply (f_equal (@length _)) in X. rewrite firstn_length, LA, app_length in X. cbn in X.
            unfold MAX_OCCUPANCY, max_occupancy, MIN_OCCUPANCY in X. lia. }
        destruct Hka as (ka & x & Eka & Lka).
        assert (Lkb : length (skipn (S (lo_len i)) kall) = S (length hi)).
        { rewrite skipn_length, LA, Lhi. unfold MAX_OCCUPANCY, max_occupancy, MIN_OCCUPANCY. lia. }
        rewrite <- (firstn_skipn (S (lo_len i)) kall) in FA. apply Forall_app in FA as [FA1 FA2].
        eexists _, _. split; [reflexivity|]. cbn [f_ins_good]. split; auto.
        exists (BN lo (firstn (S (lo_len i)) kall)), (BN hi (skipn (S (lo_len i)) kall)).
        split; [|split; [|split; [|split]]].
        * apply repr_iff. split; auto. split; [rewrite Eka; now destruct ka|]. exists (firstn (S (lo_len i)) (put i c ns)). split; auto.
          now apply Forall2_firstn.
        * apply repr_iff. split; auto. split; [intros X; rewrite X in Lkb; discriminate|].
          exists (skipn (S (lo_len i)) (put i c ns)). split; auto. now apply Forall2_skipn.
        * apply shape_iff. split; auto. split; auto. rewrite Eka, app_length. cbn. lia.
        * apply shape_iff. split; auto. split; auto.
        * rewrite <- Fl, Ecut. rewrite <- (firstn_skipn (S (lo_len i)) kall) at 3. rewrite Eka, <- app_assoc. cbn [app].
          symmetry. apply flat_pivot. lia.
  Qed.

  Lemma fn_insert_ok k v h : forall mn n t, 1 <= mn -> shape mn h t -> repr n t -> asc (flat t) ->
    exists n' r, fn_insert bor cmp small_key (k, v) n = Ok (n', r) /\ f_ins_good mn h k v (flat t) n' r.
  Proof.
    pose proof min_pos as HN.
    induction h as [|h IH]; intros mn n t Hm S R A.
    - destruct (shape_0 _ _ _ S) as (es & -> & Hb). destruct n as [el d]. pose proof R as R0. apply repr_iff in R as [He Hd].
      destruct d as [d|]; [destruct Hd; congruence|].
      cbn [fn_insert fst]. destruct (scan (bor k) es) as [i c] eqn:E.
      rewrite (search_ok bor cmp laws small_key (bor k) el es i c He) by (auto; intros ->; cbn in Hb; lia). cbn [bind].
      destruct (scan_leaf bor cmp laws (bor k) es i c A E) as (es1 & es2 & -> & <- & H1 & H2). rewrite flat_leaf in *.
      assert (Hins : c <> Eq -> exists n' r,
        (if fn_len (FNode el None) <? MAX_OCCUPANCY then ins_no_split (FNode el None) (length es1) None (k, v)
         else ins_split (FNode el None) (length es1) None (k, v)) = Ok (n', r)
        /\ f_ins_good mn 0 k v (es1 ++ es2) n' r).
      { intros Hc. assert (Hg : all_gt bor cmp es2 (bor k)).
        { destruct c; [congruence|tauto|subst; intros ? []]. }
        apply (f_absorb mn 0 _ es1 es2 [] [] []); auto.
        - exact (fnd_seg bor cmp laws (bor k) es1 [] es2 H1 Hg).
        - cbn [app]. rewrite flat_leaf. symmetry. exact (ins_seg bor cmp laws k v es1 [] es2 H1 Hg). }
      destruct c.
      + destruct H2 as (e & es3 & -> & Hc).
        destruct (el_replace_ok el es1 es3 e (k, v) _ He eq_refl) as (el' & -> & He'). cbn [bind].
        eexists _, _. split; [reflexivity|]. cbn [f_ins_good].
        rewrite (fnd_pivot_eq bor cmp laws _ _ _ _ A Hc). split; [now destruct e|].
        exists (BN (es1 ++ (k, v) :: es3) []). split; [apply repr_iff; split; [auto|reflexivity]|]. split.
        * apply shape_iff. rewrite app_length in *. split; [exact Hb|reflexivity].
        * rewrite flat_leaf. symmetry. now apply (ins_pivot_eq bor cmp laws).
      + cbn [on_kids fchild bind]. apply Hins. discriminate.
      + cbn [on_kids fchild bind]. apply Hins. discriminate.
    - destruct (shape_S _ _ _ _ S) as (es & ks & -> & Hb & Hk & HF).
      destruct n as [el d]. apply repr_iff in R as [He Hd].
      destruct d as [d|]; cbn in Hd; [|now subst]. destruct Hd as [Hn Hd].
      cbn [fn_insert fst]. destruct (scan (bor k) es) as [i c] eqn:E.
      rewrite (search_ok bor cmp laws small_key (bor k) el es i c He)
        by (eauto using asc_elems; intros ->; cbn in Hb; lia). cbn [bind].
      assert (Hins : c <> Eq -> exists n' r,
        (c <- fchild (on_kids (fn_insert bor cmp small_key (k, v)) (Some d)) i;;
         '(n1, r) <- match c with
                    | Some m => '(c', r) <- m;; Ok (FNode el (fput (Some d) i c'), r)
                    | None => Ok (FNode el (Some d), FSplit None (k, v))
                    end;;
        match r with
        | FSplit kid kv1 =>
          if fn_len n1 <? MAX_OCCUPANCY then ins_no_split n1 i kid kv1
          else ins_split n1 i kid kv1
        | _ => Ok (n1, r)
        end) = Ok (n', r) /\ f_ins_good mn (Datatypes.S h) k v (flat (BN es ks)) n' r).
      { intros Hc.
        destruct (scan_branch bor cmp laws MIN HN (bor k) es ks i c Hk A E) as (es1 & es2 & ks1 & t & ks2 & -> & -> & L0 & L1 & L2 & Hl & Hr & At & _); [auto|].
        apply Forall_mid in HF as (F1 & F & F2).
        destruct (map_child (fn_insert bor cmp small_key (k, v)) d ks1 t ks2 i Hd) as (cn & -> & Rc & _); [lia|]. cbn [bind].
        destruct (IH MIN cn t HN F Rc At) as (cn' & r & -> & G). cbn [bind].
        assert (Hput : forall t', repr cn' t' -> repr (FNode el (fput (Some d) i cn')) (BN (es1 ++ es2) (ks1 ++ t' :: ks2))).
        { intros t' Rt. destruct (fput_rep d ks1 t ks2 i cn' t' Hd) as (d1 & -> & Hd1); [lia|auto|].
          apply repr_iff. split; auto. split; auto. now destruct ks1. }
        rewrite flat_branch by lia.
        destruct r as [|k0 v0|[c0|] kv1]; cbn [f_ins_good] in G.
        - destruct G as (G1 & t' & G2 & G3 & G4). eexists _, _. split; [reflexivity|]. cbn [f_ins_good].
          rewrite (fnd_seg bor cmp laws), (ins_seg bor cmp laws), <- G4 by auto. split; auto.
          exists (BN (es1 ++ es2) (ks1 ++ t' :: ks2)). split; auto. split; [|apply flat_branch; lia].
          apply shape_branch; auto; lia.
        - destruct G as (G1 & t' & G2 & G3 & G4). eexists _, _. split; [reflexivity|]. cbn [f_ins_good].
          rewrite (fnd_seg bor cmp laws), (ins_seg bor cmp laws), <- G4 by auto. split; auto.
          exists (BN (es1 ++ es2) (ks1 ++ t' :: ks2)). split; auto. split; [|apply flat_branch; lia].
          apply shape_branch; auto; lia.
        - destruct G as (G1 & lhs & t' & G2 & G3 & G4 & G5 & G6).
          apply (f_absorb mn (Datatypes.S h) _ es1 es2 ks1 (t' :: ks2) [lhs]); auto.
          + exists c0, lhs. cbn [length]. repeat split; auto; lia.
          + cbn [app]. split; [rewrite !app_length in *; cbn [length] in *; lia|].
            apply Forall_app. repeat constructor; auto.
          + now rewrite (fnd_seg bor cmp laws).
          + cbn [app]. rewrite (ins_seg bor cmp laws), <- G6 by auto.
            rewrite (flat_pivot es1 kv1 es2 ks1 lhs (t' :: ks2)) by lia.
            replace es1 with (es1 ++ []) at 1 by apply app_nil_r.
            rewrite (flat_branch es1 [] ks1 lhs []) by (cbn; lia).
            replace (BN es2 (t' :: ks2)) with (BN ([] ++ es2) ([] ++ t' :: ks2)) by reflexivity.
            rewrite (flat_branch [] es2 [] t' ks2) by (cbn; lia). cbn [map].
            rewrite zipl_nil, zipr_nil, app_nil_r. cbn [app]. now rewrite <- !app_assoc.
        - destruct G. }
      destruct c.
      + destruct (scan_branch_eq bor cmp laws MIN HN (bor k) es ks i Hk A E) as (es1 & e & es2 & ks1 & t & ks2 & -> & -> & <- & L1 & L2 & Hc).
        destruct (el_replace_ok el es1 es2 e (k, v) _ He eq_refl) as (el' & -> & He'). cbn [bind].
        rewrite flat_pivot in * by auto.
        eexists _, _. split; [reflexivity|]. cbn [f_ins_good].
        rewrite (fnd_pivot_eq bor cmp laws _ _ _ _ A Hc). split; [now destruct e|].
        exists (BN (es1 ++ (k, v) :: es2) (ks1 ++ t :: ks2)).
        split; [apply repr_iff; split; [auto|split; auto]|]. split.
        * apply shape_iff. split; [rewrite app_length in *; auto|]. split; auto. rewrite !app_length in *. auto.
        * rewrite flat_pivot by auto. symmetry. now apply (ins_pivot_eq bor cmp laws).
      + apply Hins. discriminate.
      + apply Hins. discriminate.
  Qed.
End FixedProofs3.
