(** The slots of the array-based B-tree, and how its nodes represent list-based ones. *)
From Coq Require Import List PeanoNat Bool Lia.
From Verif Require Import Base Spec SpecFacts Vec BTreeModel BTreeProofs BTreeProofs2 FixedModel.
Import ListNotations.

(** ** Arrays: [n] slots that begin with the values [l]. *)
Section Slots.
  Context {A : Type}.
  Definition arr (n : nat) (s : list (option A)) (l : list A) : Prop :=
    length s = n /\ exists j, s = map Some l ++ j.

  Lemma arr_len n s l : arr n s l -> length l <= n.
  Proof. intros (<- & j & ->). rewrite app_length, map_length. lia. Qed.
  Lemma arr_uninit n : arr n (uninit n) [].
  Proof. split; [apply repeat_length|]. exists (uninit n). reflexivity. Qed.
  Lemma arr_prefix n s l1 l2 : arr n s (l1 ++ l2) -> arr n s l1.
  Proof. intros (H & j & ->). split; auto. exists (map Some l2 ++ j). now rewrite map_app, app_assoc. Qed.

  Lemma read_mid n s l1 x l2 i : arr n s (l1 ++ x :: l2) -> i = length l1 -> slot_read s i = Ok x.
  Proof.
    intros (H & j & ->) ->. unfold slot_read. rewrite map_app, <- app_assoc. cbn [map app].
    rewrite nth_mid; auto. now rewrite map_length.
  Qed.
  Lemma read_nth n s l i x : arr n s l -> nth_error l i = Some x -> slot_read s i = Ok x.
  Proof.
    intros H E. apply nth_error_split in E as (l1 & l2 & -> & E).
    eapply read_mid; eauto.
  Qed.
  Lemma all_init_some (l : list A) : all_init (map Some l) = Ok l.
  Proof. induction l as [|x l IH]; cbn; auto. now rewrite IH. Qed.
  Lemma firstn_len {B} (l1 l2 : list B) i : i = length l1 -> firstn i (l1 ++ l2) = l1.
  Proof. intros ->. now rewrite firstn_app, firstn_all, Nat.sub_diag, app_nil_r. Qed.
  Lemma skipn_len {B} (l1 l2 : list B) i : i = length l1 -> skipn i (l1 ++ l2) = l2.
  Proof. intros ->. now rewrite skipn_app, skipn_all, Nat.sub_diag. Qed.
  Lemma live_ok n s l len : arr n s l -> l <> [] -> len = length l -> live s len = Ok l.
  Proof.
    intros H Hl ->. destruct l as [|x l]; [congruence|]. pose proof (arr_len _ _ _ H) as L.
    unfold live. rewrite (read_mid n s [] x l 0) by auto. cbn [bind].
    destruct H as (H & j & E). rewrite H. cbn [length] in *.
    destruct (Nat.leb_spec (S (length l)) n); [|lia]. cbn [assert_ bind].
    rewrite E, firstn_len by (now rewrite map_length). apply all_init_some.
  Qed.

  Lemma set_arr n s l1 x y l2 i : arr n s (l1 ++ x :: l2) -> i = length l1 ->
    arr n (set_at i (Some y) s) (l1 ++ y :: l2).
  Proof.
    intros (H & j & E) Hi. split; [now rewrite set_at_length|]. exists j.
    rewrite E, !map_app. cbn [map]. rewrite <- !app_assoc. cbn [app]. apply set_at_mid.
    now rewrite map_length.
  Qed.
  Lemma live_set_ok n s l1 x y l2 i len : arr n s (l1 ++ x :: l2) -> i = length l1 ->
    len = length (l1 ++ x :: l2) ->
    exists s', live_set s len i y = Ok s' /\ arr n s' (l1 ++ y :: l2).
  Proof.
    intros H Hi ->. unfold live_set. erewrite live_ok; eauto; [|now destruct l1]. cbn [bind].
    rewrite app_length. cbn [length]. destruct (Nat.ltb_spec i (length l1 + S (length l2))); [|lia].
    cbn [assert_ bind]. eexists. split; [reflexivity|]. eapply set_arr; eauto.
  Qed.

  (** Writing the first slot behind the values. *)
  Lemma write_end n s l i x : arr n s l -> i = length l -> length l < n ->
    exists s', slot_write s i x = Ok s' /\ arr n s' (l ++ [x]).
  Proof.
    intros (H & j & E) -> L. unfold slot_write. rewrite H.
    destruct (Nat.ltb_spec (length l) n); [|lia]. eexists. split; [reflexivity|].
    split; [now rewrite set_at_length|].
    destruct j as [|o j].
    - rewrite app_nil_r in E. subst s. rewrite map_length in H. lia.
    - exists j. subst s. rewrite set_at_mid by now rewrite map_length.
      rewrite map_app, <- app_assoc. reflexivity.
  Qed.

  (** The general copy: the values [m] from behind [p] go behind the values [d]. *)
  Lemma copy_ok ns nd src p m r dst d rest i j cnt :
    arr ns src (p ++ m ++ r) -> arr nd dst (d ++ rest) -> i = length p -> j = length d -> cnt = length m ->
    length d + length m <= nd ->
    exists s', slot_copy src i dst j cnt = Ok s' /\ arr nd s' (d ++ m).
  Proof.
    intros (Hs & js & Es) (Hd & jd & Ed) -> -> -> L. unfold slot_copy.
    assert (Ls : length p + length m <= length src).
    { subst src. rewrite app_length, !map_app, !app_length, !map_length. lia. }
    destruct (Nat.leb_spec (length p + length m) (length src)); [|lia].
    destruct (Nat.leb_spec (length d + length m) (length dst)); [|lia]. cbn [andb].
    eexists. split; [reflexivity|].
    assert (E : firstn (length m) (skipn (length p) src) = map Some m).
    { subst src. rewrite map_app, <- app_assoc, skipn_len by now rewrite map_length.
      rewrite map_app, <- app_assoc. apply firstn_len. now rewrite map_length. }
    assert (F : firstn (length d) dst = map Some d).
    { subst dst. rewrite map_app, <- app_assoc. apply firstn_len. now rewrite map_length. }
    rewrite E, F. split.
    - rewrite !app_length, !map_length, skipn_length. lia.
    - eexists. rewrite map_app, <- app_assoc. reflexivity.
  Qed.

  Lemma slot_insert_ok n s l1 l2 x idx len : arr n s (l1 ++ l2) -> idx = length l1 ->
    len = length (l1 ++ l2) -> len < n ->
    exists s', slot_insert s len idx x = Ok s' /\ arr n s' (l1 ++ x :: l2).
  Proof.
    intros (H & j & E) -> -> L. unfold slot_insert, slot_copy.
    assert (Lj : length j = n - length (l1 ++ l2)).
    { subst s. rewrite app_length, map_length in H. lia. }
    rewrite app_length in *. rewrite H.
    destruct (Nat.leb_spec (length l1 + (length l1 + length l2 - length l1)) n); [|lia].
    destruct (Nat.leb_spec (length l1 + 1 + (length l1 + length l2 - length l1)) n); [|lia].
    cbn [andb bind].
    destruct j as [|o j]; [cbn in Lj; lia|].
    assert (E1 : firstn (length l1 + 1) s = map Some l1 ++ [hd None (map Some l2 ++ o :: j)]).
    { subst s. rewrite map_app, <- app_assoc. rewrite firstn_app, map_length.
      rewrite firstn_all2 by (rewrite map_length; lia).
      replace (length l1 + 1 - length l1) with 1 by lia. now destruct l2. }
    assert (E2 : firstn (length l1 + length l2 - length l1) (skipn (length l1) s) = map Some l2).
    { subst s. rewrite map_app, <- app_assoc, skipn_len by now rewrite map_length.
      apply firstn_len. rewrite map_length. lia. }
    assert (E3 : skipn (length l1 + 1 + (length l1 + length l2 - length l1)) s = j).
    { subst s. rewrite skipn_app, skipn_all2 by (rewrite map_length, app_length; lia).
      rewrite map_length, app_length.
      replace (length l1 + 1 + (length l1 + length l2 - length l1) - (length l1 + length l2)) with 1 by lia.
      reflexivity. }
    rewrite E1, E2, E3. unfold slot_write.
    match goal with |- context [_ <? length ?l] => assert (Ll : length l = n) end.
    { rewrite !app_length, !map_length. cbn [length] in *. lia. }
    rewrite Ll. destruct (Nat.ltb_spec (length l1) n); [|lia].
    eexists. split; [reflexivity|]. split; [now rewrite set_at_length|].
    exists j. rewrite <- app_assoc. cbn [app]. rewrite set_at_mid by now rewrite map_length.
    rewrite map_app, <- app_assoc. reflexivity.
  Qed.

  Lemma slot_remove_ok n s l1 l2 x idx len : arr n s (l1 ++ x :: l2) -> idx = length l1 ->
    len = length (l1 ++ x :: l2) ->
    exists s', slot_remove s len idx = Ok (x, s') /\ arr n s' (l1 ++ l2).
  Proof.
    intros Ha -> ->. pose proof (arr_len _ _ _ Ha) as L. unfold slot_remove.
    rewrite (read_mid _ _ _ _ _ _ Ha eq_refl). cbn [bind].
    rewrite app_length in *. cbn [length] in *.
    replace (length l1 + S (length l2) - length l1 - 1) with (length l2) by lia.
    destruct (copy_ok n n s (l1 ++ [x]) l2 [] s l1 (x :: l2) (length l1 + 1) (length l1) (length l2))
      as (s' & E & H); auto.
    - now rewrite app_nil_r, <- app_assoc.
    - rewrite app_length. cbn. lia.
    - lia.
    - rewrite E. cbn [bind]. eauto.
  Qed.
End Slots.

Lemma arr_map {A B} (f : A -> B) n s l : arr n s l ->
  arr n (map (fun o => match o with Some c => Some (f c) | None => None end) s) (map f l).
Proof.
  intros (H & j & ->). split; [now rewrite map_length|].
  eexists. rewrite map_app, !map_map. reflexivity.
Qed.

(** Finding positions in a list. *)
Lemma nth_cut {A} (l : list A) i x : nth_error l i = Some x -> exists l1 l2, l = l1 ++ x :: l2 /\ length l1 = i.
Proof. intros E. apply nth_error_split in E as (l1 & l2 & -> & E). eauto. Qed.
Lemma vec_remove_cut {A} i (l : list A) x l' : vec_remove i l = Ok (x, l') ->
  exists l1 l2, l = l1 ++ x :: l2 /\ l' = l1 ++ l2 /\ length l1 = i.
Proof.
  unfold vec_remove. destruct (skipn i l) as [|y r] eqn:E; [discriminate|]. intros X. injection X as -> <-.
  exists (firstn i l), r. split; [now rewrite <- E, firstn_skipn|]. split; auto.
  apply firstn_length_le. assert (length (skipn i l) <> 0) by now rewrite E. rewrite skipn_length in *. lia.
Qed.
Lemma vec_pop_cut {A} (l : list A) x l' : vec_pop l = Some (x, l') -> l = l' ++ [x].
Proof.
  unfold vec_pop. destruct (rev l) as [|y r] eqn:E; [discriminate|]. intros X. injection X as -> <-.
  rewrite <- (rev_involutive l), E. reflexivity.
Qed.
Lemma Forall2_len {A B} (R : A -> B -> Prop) l1 l2 : Forall2 R l1 l2 -> length l1 = length l2.
Proof. induction 1; cbn; auto. Qed.
Lemma Forall2_cut_r {A B} (R : A -> B -> Prop) ns k1 k k2 : Forall2 R ns (k1 ++ k :: k2) ->
  exists n1 n n2, ns = n1 ++ n :: n2 /\ Forall2 R n1 k1 /\ R n k /\ Forall2 R n2 k2 /\ length n1 = length k1.
Proof.
  intros H. apply Forall2_app_inv_r in H as (n1 & nr & H1 & H2 & ->). inversion H2; subst.
  repeat eexists; eauto. eapply Forall2_len; eauto.
Qed.
Lemma Forall2_mid {A B} (R : A -> B -> Prop) n1 n n2 k1 k k2 :
  Forall2 R n1 k1 -> R n k -> Forall2 R n2 k2 -> Forall2 R (n1 ++ n :: n2) (k1 ++ k :: k2).
Proof. intros. apply Forall2_app; auto. Qed.

Section Repr.
  Context {K V : Type}.
  Notation bt := (bt K V).
  Notation fnode := (fnode K V).
  Notation entry := (K * V)%type.

  (** ** Entries *)
  Definition elems_are (e : elems K V) (es : list entry) : Prop :=
    arr MAX_OCCUPANCY (el_keys e) (map fst es) /\ arr MAX_OCCUPANCY (el_vals e) (map snd es)
    /\ el_len e = length es.

  Lemma elems_len e es : elems_are e es -> length es <= MAX_OCCUPANCY.
  Proof. intros (H & _). apply arr_len in H. now rewrite map_length in H. Qed.
  Lemma el_new_ok : elems_are el_new [].
  Proof. repeat split; try apply arr_uninit; auto. Qed.

  Ltac by_len := rewrite ?app_length; cbn [length]; rewrite ?map_length; lia.

  Lemma el_insert_ok e es1 es2 kv i : elems_are e (es1 ++ es2) -> length (es1 ++ es2) < MAX_OCCUPANCY ->
    i = length es1 -> exists e', el_insert e i kv = Ok e' /\ elems_are e' (es1 ++ kv :: es2).
  Proof.
    intros (Hk & Hv & Hl) L ->. unfold el_insert. rewrite Hl.
    destruct (Nat.leb_spec (length es1) (length (es1 ++ es2))); [|rewrite app_length in *; lia]. cbn [assert_ bind].
    destruct (Nat.ltb_spec (length (es1 ++ es2)) MAX_OCCUPANCY); [|lia]. cbn [assert_ bind].
    rewrite map_app in Hk, Hv.
    destruct (slot_insert_ok _ _ _ _ (fst kv) (length es1) (length (es1 ++ es2)) Hk) as (k' & -> & Hk'); try by_len; auto.
    destruct (slot_insert_ok _ _ _ _ (snd kv) (length es1) (length (es1 ++ es2)) Hv) as (v' & -> & Hv'); try by_len; auto.
    cbn [bind]. eexists. split; [reflexivity|]. split; [|split]; cbn [el_keys el_vals el_len]; rewrite ?map_app; auto. by_len.
  Qed.
  Lemma el_push_ok e es kv : elems_are e es -> length es < MAX_OCCUPANCY ->
    exists e', el_push e kv = Ok e' /\ elems_are e' (es ++ [kv]).
  Proof.
    intros (Hk & Hv & Hl) L. unfold el_push. rewrite Hl.
    destruct (Nat.ltb_spec (length es) MAX_OCCUPANCY); [|lia]. cbn [assert_ bind].
    destruct (write_end _ _ _ (length es) (fst kv) Hk) as (k' & -> & Hk'); try by_len.
    destruct (write_end _ _ _ (length es) (snd kv) Hv) as (v' & -> & Hv'); try by_len.
    cbn [bind]. eexists. split; [reflexivity|]. split; [|split]; cbn [el_keys el_vals el_len]; rewrite ?map_app; auto. by_len.
  Qed.
  Lemma el_pop_ok e es kv : elems_are e (es ++ [kv]) ->
    exists e', el_pop e = Ok (kv, e') /\ elems_are e' es.
  Proof.
    intros (Hk & Hv & Hl). unfold el_pop. rewrite Hl, app_length. cbn [length].
    destruct (Nat.ltb_spec 0 (length es + 1)); [|lia]. cbn [assert_ bind].
    rewrite map_app in Hk, Hv. cbn [map] in *.
    rewrite (read_mid _ _ _ _ _ _ Hk), (read_mid _ _ _ _ _ _ Hv) by by_len. cbn [bind].
    eexists. split; [destruct kv; reflexivity|].
    split; [|split]; cbn [el_keys el_vals el_len]; [| |lia].
    - eapply (arr_prefix MAX_OCCUPANCY); eauto.
    - eapply (arr_prefix MAX_OCCUPANCY); eauto.
  Qed.
  Lemma el_remove_ok e es1 es2 kv i : elems_are e (es1 ++ kv :: es2) -> i = length es1 ->
    exists e', el_remove e i = Ok (kv, e') /\ elems_are e' (es1 ++ es2).
  Proof.
    intros (Hk & Hv & Hl) ->. unfold el_remove. rewrite Hl.
    destruct (Nat.ltb_spec (length es1) (length (es1 ++ kv :: es2))); [|rewrite app_length in *; cbn [length] in *; lia]. cbn [assert_ bind].
    rewrite map_app in Hk, Hv. cbn [map] in *.
    destruct (slot_remove_ok _ _ _ _ _ (length es1) (length (es1 ++ kv :: es2)) Hk) as (k' & -> & Hk'); try by_len.
    cbn [bind]. destruct (slot_remove_ok _ _ _ _ _ (length es1) (length (es1 ++ kv :: es2)) Hv) as (v' & -> & Hv'); try by_len.
    cbn [bind]. eexists. split; [destruct kv; reflexivity|]. split; [|split]; cbn [el_keys el_vals el_len]; rewrite ?map_app; auto. by_len.
  Qed.
  Lemma el_live e es : elems_are e es -> es <> [] ->
    live (el_keys e) (el_len e) = Ok (map fst es) /\ live (el_vals e) (el_len e) = Ok (map snd es).
  Proof.
    intros (Hk & Hv & Hl) Hn. rewrite Hl. split; eapply live_ok; eauto; rewrite ?map_length; auto; now destruct es.
  Qed.
  Lemma el_get_ok e es i kv : elems_are e es -> nth_error es i = Some kv -> el_get e i = Ok kv.
  Proof.
    intros H E. destruct (el_live e es H) as [Ek Ev]; [intros ->; now destruct i|].
    unfold el_get. rewrite Ek, Ev. cbn [bind]. rewrite !nth_error_map, E. cbn. now destruct kv.
  Qed.
  Lemma el_replace_ok e es1 es2 old kv i : elems_are e (es1 ++ old :: es2) -> i = length es1 ->
    exists e', el_replace e i kv = Ok (old, e') /\ elems_are e' (es1 ++ kv :: es2).
  Proof.
    intros H ->. unfold el_replace. rewrite (el_get_ok _ _ _ old H) by now apply nth_mid. cbn [bind].
    destruct H as (Hk & Hv & Hl). rewrite Hl. rewrite map_app in Hk, Hv. cbn [map] in *.
    destruct (live_set_ok _ _ _ _ (fst kv) _ (length es1) (length (es1 ++ old :: es2)) Hk) as (k' & -> & Hk'); try by_len.
    destruct (live_set_ok _ _ _ _ (snd kv) _ (length es1) (length (es1 ++ old :: es2)) Hv) as (v' & -> & Hv'); try by_len.
    cbn [bind]. eexists. split; [reflexivity|]. split; [|split]; cbn [el_keys el_vals el_len]; rewrite ?map_app; auto. by_len.
  Qed.

  (** ** Children *)
  Definition kids_are {A} (d : kids A) (ns : list A) : Prop :=
    arr MAX_KIDS (kd_ptrs d) ns /\ kd_len d = length ns.

  Section Kids.
    Context {A : Type}.
    Implicit Types (d : kids A) (ns : list A).
    Lemma kd_new_ok : kids_are (@kd_new A) [].
    Proof. split; auto. apply arr_uninit. Qed.
    Lemma kd_insert_ok d n1 n2 x i : kids_are d (n1 ++ n2) -> length (n1 ++ n2) < MAX_KIDS ->
      i = length n1 -> exists d', kd_insert d i x = Ok d' /\ kids_are d' (n1 ++ x :: n2).
    Proof.
      intros (Hp & Hl) L ->. unfold kd_insert. rewrite Hl.
      destruct (Nat.leb_spec (length n1) (length (n1 ++ n2))); [|rewrite app_length in *; lia]. cbn [assert_ bind].
      destruct (Nat.ltb_spec (length (n1 ++ n2)) MAX_KIDS); [|lia]. cbn [assert_ bind].
      destruct (slot_insert_ok _ _ _ _ x (length n1) (length (n1 ++ n2)) Hp) as (p' & -> & Hp'); auto.
      cbn [bind]. eexists. split; [reflexivity|]. split; cbn [kd_ptrs kd_len]; auto. by_len.
    Qed.
    Lemma kd_push_ok d ns x : kids_are d ns -> length ns < MAX_KIDS ->
      exists d', kd_push d x = Ok d' /\ kids_are d' (ns ++ [x]).
    Proof.
      intros (Hp & Hl) L. unfold kd_push. rewrite Hl.
      destruct (Nat.ltb_spec (length ns) MAX_KIDS); [|lia]. cbn [assert_ bind].
      destruct (write_end _ _ _ (length ns) x Hp) as (p' & -> & Hp'); auto.
      cbn [bind]. eexists. split; [reflexivity|]. split; cbn [kd_ptrs kd_len]; auto. by_len.
    Qed.
    Lemma kd_pop_ok d ns x : kids_are d (ns ++ [x]) ->
      exists d', kd_pop d = Ok (x, d') /\ kids_are d' ns.
    Proof.
      intros (Hp & Hl). unfold kd_pop. rewrite Hl, app_length. cbn [length].
      destruct (Nat.ltb_spec 0 (length ns + 1)); [|lia]. cbn [assert_ bind].
      rewrite (read_mid _ _ _ _ _ _ Hp) by lia. cbn [bind].
      eexists. split; [reflexivity|]. split; cbn [kd_ptrs kd_len]; [|lia]. eapply (arr_prefix MAX_KIDS); eauto.
    Qed.
    Lemma kd_remove_ok d n1 n2 x i : kids_are d (n1 ++ x :: n2) -> i = length n1 ->
      exists d', kd_remove d i = Ok (x, d') /\ kids_are d' (n1 ++ n2).
    Proof.
      intros (Hp & Hl) ->. unfold kd_remove. rewrite Hl.
      destruct (Nat.ltb_spec (length n1) (length (n1 ++ x :: n2))); [|rewrite app_length in *; cbn [length] in *; lia]. cbn [assert_ bind].
      destruct (slot_remove_ok _ _ _ _ _ (length n1) (length (n1 ++ x :: n2)) Hp) as (p' & -> & Hp'); auto.
      cbn [bind]. eexists. split; [reflexivity|]. split; cbn [kd_ptrs kd_len]; auto. by_len.
    Qed.
    Lemma kd_live d ns : kids_are d ns -> ns <> [] -> live (kd_ptrs d) (kd_len d) = Ok ns.
    Proof. intros (Hp & Hl) Hn. eapply live_ok; eauto. Qed.
    Lemma fchild_ok d ns i : kids_are d ns -> ns <> [] -> fchild (Some d) i = Ok (nth_error ns i).
    Proof. intros H Hn. unfold fchild. now rewrite (kd_live _ _ H Hn). Qed.
    Lemma flast_ok d ns x : kids_are d (ns ++ [x]) -> flast (Some d) = Ok (Some x).
    Proof.
      intros H. unfold flast. rewrite (kd_live _ _ H) by now destruct ns. destruct H as (Hp & ->).
      rewrite app_length. cbn [length]. destruct (Nat.ltb_spec 0 (length ns + 1)); [|lia]. cbn [bind].
      rewrite nth_mid by lia. reflexivity.
    Qed.
  End Kids.
  Lemma on_kids_ok {A B} (f : A -> B) d ns : kids_are d ns ->
    exists d', on_kids f (Some d) = Some d' /\ kids_are d' (map f ns).
  Proof.
    intros (Hp & Hl). destruct d as [ps n]. cbn in Hp, Hl. eexists. split; [reflexivity|].
    split; cbn [kd_ptrs kd_len]; [now apply arr_map|now rewrite map_length].
  Qed.
  Lemma fchild_map {A B} (f : A -> B) d ns i : kids_are d ns -> ns <> [] ->
    fchild (on_kids f (Some d)) i = Ok (nth_error (map f ns) i).
  Proof.
    intros H Hn. destruct (on_kids_ok f d ns H) as (d' & -> & H').
    apply fchild_ok; auto. now destruct ns.
  Qed.

  (** ** Nodes: a leaf has no children array, a branch has a non-empty one. *)
  Inductive repr : fnode -> bt -> Prop :=
  | repr_leaf e es : elems_are e es -> repr (FNode e None) (BN es [])
  | repr_branch e d es ns ks : elems_are e es -> kids_are d ns -> Forall2 repr ns ks -> ks <> [] ->
      repr (FNode e (Some d)) (BN es ks).

  Definition kids_rep (d : kids fnode) (ks : list bt) : Prop :=
    exists ns, kids_are d ns /\ Forall2 repr ns ks.

  (** The same, in a form that follows the list of children. *)
  Definition okids_rep (d : option (kids fnode)) (ks : list bt) : Prop :=
    match d with None => ks = [] | Some d => ks <> [] /\ kids_rep d ks end.
  Lemma repr_iff e d es ks : repr (FNode e d) (BN es ks) <-> elems_are e es /\ okids_rep d ks.
  Proof.
    split.
    - intros H. inversion H; subst; split; auto; [reflexivity|]. split; auto. eexists; eauto.
    - intros [He Hd]. destruct d as [d|]; cbn in Hd.
      + destruct Hd as (Hn & ns & H1 & H2). econstructor; eauto.
      + subst. now constructor.
  Qed.
  Lemma repr_len n t : repr n t -> fn_len n = n_len t.
  Proof. intros H. inversion H as [e es He|e d es ns ks He]; subst; apply He. Qed.
  Lemma kids_rep_len d ks : kids_rep d ks -> kd_len d = length ks /\ length ks <= MAX_KIDS.
  Proof.
    intros (ns & (Ha & Hl) & F). rewrite Hl, <- (Forall2_len _ _ _ F). split; auto. eapply arr_len; eauto.
  Qed.
  Lemma ns_nonempty ns ks : Forall2 repr ns ks -> ks <> [] -> ns <> [].
  Proof. intros F H ->. inversion F; subst. congruence. Qed.

  Lemma fchild_rep d ks1 t ks2 i : kids_rep d (ks1 ++ t :: ks2) -> i = length ks1 ->
    exists n, fchild (Some d) i = Ok (Some n) /\ repr n t.
  Proof.
    intros (ns & H & F) ->. pose proof (ns_nonempty _ _ F ltac:(now destruct ks1)) as Hn.
    apply Forall2_cut_r in F as (n1 & n & n2 & -> & F1 & R & F2 & L).
    rewrite (fchild_ok _ _ _ H Hn), nth_mid by auto. eauto.
  Qed.
  Lemma fput_rep d ks1 t ks2 i n' t' : kids_rep d (ks1 ++ t :: ks2) -> i = length ks1 -> repr n' t' ->
    exists d', fput (Some d) i n' = Some d' /\ kids_rep d' (ks1 ++ t' :: ks2).
  Proof.
    intros (ns & [H Hl] & F) -> R'. apply Forall2_cut_r in F as (n1 & n & n2 & -> & F1 & R & F2 & L).
    eexists. split; [reflexivity|]. exists (n1 ++ n' :: n2). split; [|now apply Forall2_mid].
    split; cbn [kd_ptrs kd_len].
    - eapply set_arr; eauto.
    - rewrite Hl, !app_length. reflexivity.
  Qed.
  Lemma kd_remove_rep d ks1 t ks2 i : kids_rep d (ks1 ++ t :: ks2) -> i = length ks1 ->
    exists n d', kd_remove d i = Ok (n, d') /\ repr n t /\ kids_rep d' (ks1 ++ ks2).
  Proof.
    intros (ns & H & F) ->. apply Forall2_cut_r in F as (n1 & n & n2 & -> & F1 & R & F2 & L).
    destruct (kd_remove_ok d n1 n2 n (length ks1) H) as (d' & E & H'); auto.
    exists n, d'. repeat split; auto. exists (n1 ++ n2). split; auto. now apply Forall2_app.
  Qed.
  Lemma kd_insert_rep d ks1 ks2 n t i : kids_rep d (ks1 ++ ks2) -> length (ks1 ++ ks2) < MAX_KIDS ->
    i = length ks1 -> repr n t -> exists d', kd_insert d i n = Ok d' /\ kids_rep d' (ks1 ++ t :: ks2).
  Proof.
    intros (ns & H & F) L -> R. pose proof (Forall2_len _ _ _ F) as Ll.
    apply Forall2_app_inv_r in F as (n1 & n2 & F1 & F2 & ->). pose proof (Forall2_len _ _ _ F1) as L1.
    destruct (kd_insert_ok d n1 n2 n (length ks1) H) as (d' & E & H'); [lia|auto|].
    exists d'. split; auto. exists (n1 ++ n :: n2). split; auto. now apply Forall2_mid.
  Qed.
  Lemma kd_push_rep d ks n t : kids_rep d ks -> length ks < MAX_KIDS -> repr n t ->
    exists d', kd_push d n = Ok d' /\ kids_rep d' (ks ++ [t]).
  Proof.
    intros (ns & H & F) L R. pose proof (Forall2_len _ _ _ F) as Ll.
    destruct (kd_push_ok d ns n H) as (d' & E & H'); [lia|].
    exists d'. split; auto. exists (ns ++ [n]). split; auto. apply Forall2_app; auto.
  Qed.
  Lemma kd_pop_rep d ks t : kids_rep d (ks ++ [t]) ->
    exists n d', kd_pop d = Ok (n, d') /\ repr n t /\ kids_rep d' ks.
  Proof.
    intros (ns & H & F). apply Forall2_cut_r in F as (n1 & n & n2 & -> & F1 & R & F2 & L).
    inversion F2; subst.
    destruct (kd_pop_ok d n1 n H) as (d' & E & H').
    exists n, d'. repeat split; auto. exists n1. auto.
  Qed.
  Lemma kd_new_rep : kids_rep kd_new [].
  Proof. exists []. split; auto. apply kd_new_ok. Qed.
End Repr.
