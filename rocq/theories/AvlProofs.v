(** Proofs about the value model of the AVL tree functions. *)
From Coq Require Import List ZArith Bool Lia Sorted.
From Verif Require Import Base Spec SpecFacts AvlModel.
Import ListNotations.
Open Scope Z_scope.

Section AvlProofs.
  Context {K V Q : Type} (bor : K -> Q) (cmp : Q -> Q -> comparison).
  Context (laws : order_laws cmp).

  Notation tree := (tree K V).
  Notation asc := (@ascending K V Q bor cmp).

  (** ** Invariants *)

  (** The true height. *)
  Fixpoint ht (t : tree) : Z :=
    match t with
    | Leaf => 0
    | Node _ _ _ _ l r => 1 + Z.max (ht l) (ht r)
    end.

  (** Recorded heights are true, every node is balanced. *)
  Fixpoint avl (t : tree) : Prop :=
    match t with
    | Leaf => True
    | Node _ _ lh rh l r =>
      lh = ht l /\ rh = ht r /\ -1 <= ht r - ht l <= 1 /\ avl l /\ avl r
    end.

  Definition tbal (t : tree) : Z :=
    match t with Leaf => 0 | Node _ _ _ _ l r => ht r - ht l end.

  Lemma ht_nonneg t : 0 <= ht t.
  Proof. induction t; cbn [ht]; lia. Qed.

  Lemma ht_pos_node t : 0 < ht t -> exists k v lh rh l r, t = Node k v lh rh l r.
  Proof. destruct t; cbn [ht]; [lia|]. intros _. eauto 10. Qed.

  Lemma ht_0_leaf t : ht t <= 0 -> t = Leaf.
  Proof.
    destruct t as [|k v lh rh l r]; auto. cbn [ht].
    pose proof (ht_nonneg l). pose proof (ht_nonneg r). lia.
  Qed.

  Lemma height_ok t : avl t -> ht t <= 126 -> height t = Ok (ht t).
  Proof.
    destruct t as [|k v lh rh l r]; cbn [ht avl height]; auto.
    intros (-> & -> & _) H.
    pose proof (ht_nonneg l). pose proof (ht_nonneg r).
    rewrite i8_add_ok by lia. f_equal. lia.
  Qed.

  Lemma height_node_ok (k : K) (v : V) lh rh l r :
    lh = ht l -> rh = ht r -> ht l <= 126 -> ht r <= 126 ->
    height (Node k v lh rh l r) = Ok (ht (Node k v lh rh l r)).
  Proof.
    intros -> -> H1 H2. cbn [ht height].
    pose proof (ht_nonneg l). pose proof (ht_nonneg r).
    rewrite i8_add_ok by lia. f_equal. lia.
  Qed.

  Lemma bal_ok lh rh : -120 <= rh - lh <= 120 -> bal lh rh = Ok (rh - lh).
  Proof. intros H. unfold bal. apply i8_sub_ok. lia. Qed.

  Lemma is_bal_ok lh rh : -120 <= rh - lh <= 120 ->
    is_bal lh rh = Ok ((-1 <=? rh - lh) && (rh - lh <=? 1)).
  Proof.
    intros H. unfold is_bal. rewrite bal_ok by lia. cbn [bind].
    rewrite i8_add_ok by lia. cbn [bind]. f_equal.
    set (b := rh - lh) in *.
    destruct (Z.leb_spec (-1) b) as [H1|H1]; cbn.
    - rewrite Z.mod_small by lia.
      destruct (Z.leb_spec b 1), (Z.leb_spec (b + 1) 2); auto; lia.
    - rewrite <- (Z_mod_plus_full (b + 1) 1 256).
      rewrite Z.mod_small by lia.
      destruct (Z.leb_spec (b + 1 + 1 * 256) 2); auto; lia.
  Qed.

  (** ** Automation: run the checked arithmetic *)
  Ltac nonneg :=
    repeat match goal with
    | t : AvlModel.tree _ _ |- _ =>
      lazymatch goal with
      | _ : 0 <= ht t |- _ => fail
      | _ => pose proof (ht_nonneg t)
      end
    end.

  Ltac run1 :=
    match goal with
    | |- context [bal ?a ?b] => rewrite (bal_ok a b) by (cbn [ht] in *; lia)
    | |- context [is_bal ?a ?b] => rewrite (is_bal_ok a b) by (cbn [ht] in *; lia)
    | |- context [i8_add ?a ?b] => rewrite (i8_add_ok a b) by (cbn [ht b2z] in *; lia)
    | |- context [i8_sub ?a ?b] => rewrite (i8_sub_ok a b) by (cbn [ht b2z] in *; lia)
    | |- context [height (Node ?k ?v ?lh ?rh ?l ?r)] =>
      rewrite (height_node_ok k v lh rh l r) by (cbn [ht] in *; lia)
    end; cbn [bind].
  Ltac run := repeat run1.

  (** ** Rotations and rebalancing *)
  Lemma rebal_lf_to_rt_ok k v lh rh l r :
    avl l -> avl r -> lh = ht l -> rh = ht r -> ht l = ht r + 2 -> ht l <= 120 ->
    exists t' s,
      rebal_lf_to_rt (Node k v lh rh l r) = Ok (t', s)
      /\ avl t' /\ ht t' = ht l + 1 - b2z s
      /\ elems t' = elems l ++ (k, v) :: elems r
      /\ s = negb (tbal l =? 0).
  Proof.
    intros Hl Hr -> -> Hh Hb.
    destruct l as [|bk bv blh brh x y]; [cbn in Hh; pose proof (ht_nonneg r); lia|].
    destruct Hl as (-> & -> & Hbb & Hx & Hy).
    nonneg. cbn [ht] in Hh, Hb. unfold rebal_lf_to_rt. run.
    destruct (Z.leb_spec (ht y - ht x) 0) as [Hle|Hgt].
    - unfold rot_rt. run.
      do 2 eexists. split; [reflexivity|].
      cbn [avl ht elems tbal]. rewrite <- app_assoc. cbn [app].
      destruct (Z.eqb_spec (ht y - ht x) 0); cbn [negb b2z]; repeat split; auto; lia.
    - destruct y as [|ck cv clh crh y z]; [cbn [ht] in *; lia|].
      destruct Hy as (-> & -> & Hcb & Hy & Hz). nonneg. cbn [ht] in *.
      unfold rot_lf_rt. run.
      do 2 eexists. split; [reflexivity|].
      cbn [avl ht elems tbal]. repeat (rewrite <- app_assoc; cbn [app]).
      destruct (Z.eqb_spec (1 + Z.max (ht y) (ht z) - ht x) 0); cbn [negb b2z];
        repeat split; auto; lia.
  Qed.

  Lemma rebal_rt_to_lf_ok k v lh rh l r :
    avl l -> avl r -> lh = ht l -> rh = ht r -> ht r = ht l + 2 -> ht r <= 120 ->
    exists t' s,
      rebal_rt_to_lf (Node k v lh rh l r) = Ok (t', s)
      /\ avl t' /\ ht t' = ht r + 1 - b2z s
      /\ elems t' = elems l ++ (k, v) :: elems r
      /\ s = negb (tbal r =? 0).
  Proof.
    intros Hl Hr -> -> Hh Hb.
    destruct r as [|bk bv blh brh y z]; [cbn in Hh; pose proof (ht_nonneg l); lia|].
    destruct Hr as (-> & -> & Hbb & Hy & Hz).
    nonneg. cbn [ht] in Hh, Hb. unfold rebal_rt_to_lf. run.
    destruct (Z.leb_spec 0 (ht z - ht y)) as [Hle|Hgt].
    - unfold rot_lf. run.
      do 2 eexists. split; [reflexivity|].
      cbn [avl ht elems tbal]. repeat (rewrite <- app_assoc; cbn [app]).
      destruct (Z.eqb_spec (ht z - ht y) 0); cbn [negb b2z]; repeat split; auto; lia.
    - destruct y as [|ck cv clh crh y w]; [cbn [ht] in *; lia|].
      destruct Hy as (-> & -> & Hcb & Hy & Hw). nonneg. cbn [ht] in *.
      unfold rot_rt_lf. run.
      do 2 eexists. split; [reflexivity|].
      cbn [avl ht elems tbal]. repeat (rewrite <- app_assoc; cbn [app]).
      destruct (Z.eqb_spec (ht z - (1 + Z.max (ht y) (ht w))) 0); cbn [negb b2z];
        repeat split; auto; lia.
  Qed.

  (** ** Insertion *)
  Lemma ins_ok t k v :
    avl t -> ht t <= 110 ->
    exists t' old taller,
      ins bor cmp t k v = Ok (t', old, taller)
      /\ avl t' /\ ht t' = ht t + b2z taller
      /\ (taller = true -> tbal t' <> 0 \/ ht t' = 1)
      /\ (asc (elems t) ->
          elems t' = s_insert bor cmp k v (elems t)
          /\ old = s_get bor cmp (bor k) (elems t)).
  Proof.
    induction t as [|nk nv lh rh l IHl r IHr]; intros Ht Hb.
    - cbn. do 3 eexists. split; [reflexivity|]. cbn. repeat split; auto; lia.
    - destruct Ht as (-> & -> & Hbal & Hl & Hr). cbn [ht] in Hb. nonneg.
      cbn [ins]. destruct (cmp (bor k) (bor nk)) eqn:Ec.
      + do 3 eexists. split; [reflexivity|]. cbn [avl ht b2z elems].
        repeat split; auto; try lia; try discriminate.
        * rewrite (ins_pivot_eq bor cmp laws) by auto. reflexivity.
        * unfold s_get. rewrite (fnd_pivot_eq bor cmp laws) by auto. reflexivity.
      + destruct IHl as (l' & old & taller & E & Hl' & Hh' & Htb & Hel); auto; [lia|].
        rewrite E. cbn [bind]. clear E.
        assert (Hlb : ht l' <= ht l + 1) by (destruct taller; cbn in *; lia).
        assert (Hel2 : asc (elems l ++ (nk, nv) :: elems r) ->
                  elems l' ++ (nk, nv) :: elems r = s_insert bor cmp k v (elems l ++ (nk, nv) :: elems r)
                  /\ old = s_get bor cmp (bor k) (elems l ++ (nk, nv) :: elems r)).
        { intros Ha. pose proof (proj1 (asc_pivot bor cmp laws _ _ _) Ha) as (Hla & _).
          destruct (Hel Hla) as [-> ->].
          rewrite (ins_pivot_lt bor cmp laws) by auto. split; auto.
          unfold s_get. now rewrite (fnd_pivot_lt bor cmp laws) by auto. }
        rewrite (i8_add_ok (ht l)) by (destruct taller; cbn; lia). cbn [bind].
        rewrite <- Hh'. nonneg.
        destruct taller; cbn [b2z] in *.
        * run. destruct (Z.ltb_spec (ht r - ht l') (-1)) as [Hc|Hc].
          -- destruct (rebal_lf_to_rt_ok nk nv (ht l') (ht r) l' r)
               as (t' & s & E & Ht' & Hht & Hee & Hs); auto; try lia.
             rewrite E. cbn [bind]. do 3 eexists. split; [reflexivity|].
             assert (s = true) as ->.
             { destruct (Htb eq_refl) as [Hz|Hz]; [|lia].
               rewrite Hs. destruct (Z.eqb_spec (tbal l') 0); auto; lia. }
             cbn [b2z ht elems] in *. rewrite Hee. repeat split; auto; try lia; try discriminate.
             ++ now apply Hel2.
             ++ now apply Hel2.
          -- do 3 eexists. split; [reflexivity|]. cbn [avl ht elems tbal].
             split; [repeat split; auto; lia|].
             destruct (Z.ltb_spec (ht r - ht l') 0); cbn [b2z].
             ++ split; [lia|]. split; [intros _; left; lia|]. exact Hel2.
             ++ split; [lia|]. split; [discriminate|]. exact Hel2.
        * do 3 eexists. split; [reflexivity|]. cbn [avl ht elems tbal b2z].
          repeat split; auto; try lia; try discriminate; now apply Hel2.
      + destruct IHr as (r' & old & taller & E & Hr' & Hh' & Htb & Hel); auto; [lia|].
        rewrite E. cbn [bind]. clear E.
        assert (Hlb : ht r' <= ht r + 1) by (destruct taller; cbn in *; lia).
        assert (Hel2 : asc (elems l ++ (nk, nv) :: elems r) ->
                  elems l ++ (nk, nv) :: elems r' = s_insert bor cmp k v (elems l ++ (nk, nv) :: elems r)
                  /\ old = s_get bor cmp (bor k) (elems l ++ (nk, nv) :: elems r)).
        { intros Ha. pose proof (proj1 (asc_pivot bor cmp laws _ _ _) Ha) as (_ & Hra & _).
          destruct (Hel Hra) as [-> ->].
          rewrite (ins_pivot_gt bor cmp laws) by auto. split; auto.
          unfold s_get. now rewrite (fnd_pivot_gt bor cmp laws) by auto. }
        rewrite (i8_add_ok (ht r)) by (destruct taller; cbn; lia). cbn [bind].
        rewrite <- Hh'. nonneg.
        destruct taller; cbn [b2z] in *.
        * run. destruct (Z.ltb_spec 1 (ht r' - ht l)) as [Hc|Hc].
          -- destruct (rebal_rt_to_lf_ok nk nv (ht l) (ht r') l r')
               as (t' & s & E & Ht' & Hht & Hee & Hs); auto; try lia.
             rewrite E. cbn [bind]. do 3 eexists. split; [reflexivity|].
             assert (s = true) as ->.
             { destruct (Htb eq_refl) as [Hz|Hz]; [|lia].
               rewrite Hs. destruct (Z.eqb_spec (tbal r') 0); auto; lia. }
             cbn [b2z ht elems] in *. rewrite Hee. repeat split; auto; try lia; try discriminate.
             ++ now apply Hel2.
             ++ now apply Hel2.
          -- do 3 eexists. split; [reflexivity|]. cbn [avl ht elems tbal].
             split; [repeat split; auto; lia|].
             destruct (Z.ltb_spec 0 (ht r' - ht l)); cbn [b2z].
             ++ split; [lia|]. split; [intros _; left; lia|]. exact Hel2.
             ++ split; [lia|]. split; [discriminate|]. exact Hel2.
        * do 3 eexists. split; [reflexivity|]. cbn [avl ht elems tbal b2z].
          repeat split; auto; try lia; try discriminate; now apply Hel2.
  Qed.

  (** ** Removal *)
  Lemma after_rm_left_ok nk nv l0 l' r shorter :
    avl l' -> avl r -> ht l0 = ht l' + b2z shorter -> -1 <= ht r - ht l0 <= 1 ->
    ht l0 <= 110 ->
    exists t' s,
      after_rm_left nk nv (ht l0) (ht r) l' r shorter = Ok (t', s)
      /\ avl t' /\ 1 + Z.max (ht l0) (ht r) = ht t' + b2z s
      /\ elems t' = elems l' ++ (nk, nv) :: elems r.
  Proof.
    intros Hl' Hr Hh Hb H110. unfold after_rm_left. nonneg.
    rewrite i8_sub_ok by (destruct shorter; cbn; lia). cbn [bind].
    replace (ht l0 - b2z shorter) with (ht l') by lia.
    destruct shorter; cbn [b2z] in *.
    - run. destruct (Z.ltb_spec 1 (ht r - ht l')).
      + destruct (rebal_rt_to_lf_ok nk nv (ht l') (ht r) l' r)
          as (t' & s & E & Ht' & Hht & Hee & Hs); auto; try lia.
        exists t', s. repeat split; auto. lia.
      + do 2 eexists. split; [reflexivity|]. cbn [avl ht elems].
        destruct (Z.eqb_spec (ht r - ht l') 0); cbn [b2z]; repeat split; auto; lia.
    - do 2 eexists. split; [reflexivity|]. cbn [avl ht elems b2z]. repeat split; auto; lia.
  Qed.

  Lemma after_rm_right_ok nk nv l r0 r' shorter :
    avl l -> avl r' -> ht r0 = ht r' + b2z shorter -> -1 <= ht r0 - ht l <= 1 ->
    ht l <= 110 -> ht r0 <= 110 ->
    exists t' s,
      after_rm_right nk nv (ht l) (ht r0) l r' shorter = Ok (t', s)
      /\ avl t' /\ 1 + Z.max (ht l) (ht r0) = ht t' + b2z s
      /\ elems t' = elems l ++ (nk, nv) :: elems r'.
  Proof.
    intros Hl Hr' Hh Hb H110 H110'. unfold after_rm_right. nonneg.
    rewrite i8_sub_ok by (destruct shorter; cbn; lia). cbn [bind].
    replace (ht r0 - b2z shorter) with (ht r') by lia.
    destruct shorter; cbn [b2z] in *.
    - run. destruct (Z.ltb_spec (ht r' - ht l) (-1)).
      + destruct (rebal_lf_to_rt_ok nk nv (ht l) (ht r') l r')
          as (t' & s & E & Ht' & Hht & Hee & Hs); auto; try lia.
        exists t', s. repeat split; auto. lia.
      + do 2 eexists. split; [reflexivity|]. cbn [avl ht elems].
        destruct (Z.eqb_spec (ht r' - ht l) 0); cbn [b2z]; repeat split; auto; lia.
    - do 2 eexists. split; [reflexivity|]. cbn [avl ht elems b2z]. repeat split; auto; lia.
  Qed.

  Lemma rm_leftmost_ok t :
    avl t -> ht t <= 110 ->
    exists t' kv s,
      rm_leftmost t = Ok (t', kv, s)
      /\ avl t' /\ ht t = ht t' + b2z s
      /\ kv = hd_error (elems t) /\ elems t' = tl (elems t).
  Proof.
    induction t as [|nk nv lh rh l IHl r IHr]; intros Ht Hb.
    - cbn. do 3 eexists. split; [reflexivity|]. cbn. auto.
    - destruct Ht as (-> & -> & Hbal & Hl & Hr). cbn [ht] in Hb. nonneg.
      cbn [rm_leftmost]. destruct l as [|lk lv llh lrh ll lr].
      + do 3 eexists. split; [reflexivity|]. cbn [ht elems app hd_error tl b2z] in *.
        repeat split; auto. lia.
      + set (l := Node lk lv llh lrh ll lr) in *.
        destruct IHl as (l' & kv & s & E & Hl' & Hh & Hkv & Hel); auto; [lia|].
        rewrite E. cbn [bind].
        destruct (after_rm_left_ok nk nv l l' r s)
          as (t' & s' & E' & Ht' & Hh' & Hel'); auto; try lia.
        rewrite E'. cbn [bind]. do 3 eexists. split; [reflexivity|].
        cbn [elems ht]. repeat split; auto.
        * rewrite Hkv. unfold l. cbn [elems]. destruct (elems ll); reflexivity.
        * rewrite Hel', Hel. unfold l. cbn [elems]. destruct (elems ll); reflexivity.
  Qed.

  Lemma last_app_cons {A} (x y : list A) e :
    hd_error (rev (x ++ e :: y)) = match hd_error (rev y) with Some z => Some z | None => Some e end.
  Proof.
    rewrite rev_app_distr. cbn. destruct (rev y); reflexivity.
  Qed.

  Lemma removelast_app_cons {A} (x y : list A) e :
    removelast (x ++ e :: y) = match y with [] => x | _ => x ++ e :: removelast y end.
  Proof.
    rewrite removelast_app by discriminate. destruct y; [cbn; now rewrite app_nil_r|]. reflexivity.
  Qed.

  Lemma elems_node_nonnil (k : K) (v : V) lh rh l r : elems (Node k v lh rh l r) <> [].
  Proof. cbn. destruct (elems l); discriminate. Qed.

  Lemma rm_rightmost_ok t :
    avl t -> ht t <= 110 ->
    exists t' kv s,
      rm_rightmost t = Ok (t', kv, s)
      /\ avl t' /\ ht t = ht t' + b2z s
      /\ kv = hd_error (rev (elems t)) /\ elems t' = removelast (elems t).
  Proof.
    induction t as [|nk nv lh rh l IHl r IHr]; intros Ht Hb.
    - cbn. do 3 eexists. split; [reflexivity|]. cbn. auto.
    - destruct Ht as (-> & -> & Hbal & Hl & Hr). cbn [ht] in Hb. nonneg.
      cbn [rm_rightmost]. destruct r as [|lk lv llh lrh ll lr].
      + do 3 eexists. split; [reflexivity|]. cbn [ht elems b2z] in *.
        rewrite last_app_cons, removelast_app_cons. repeat split; auto. lia.
      + pose proof (elems_node_nonnil lk lv llh lrh ll lr) as Hnn.
        set (r := Node lk lv llh lrh ll lr) in *.
        destruct IHr as (r' & kv & s & E & Hr' & Hh & Hkv & Hel); auto; [lia|].
        rewrite E. cbn [bind].
        destruct (after_rm_right_ok nk nv l r r' s)
          as (t' & s' & E' & Ht' & Hh' & Hel'); auto; try lia.
        rewrite E'. cbn [bind]. do 3 eexists. split; [reflexivity|].
        cbn [elems ht]. rewrite last_app_cons, removelast_app_cons.
        repeat split; auto.
        * rewrite Hkv. destruct (rev (elems r)) eqn:Er; auto.
          apply (f_equal (@rev _)) in Er. rewrite rev_involutive in Er. exfalso; exact (Hnn Er).
        * rewrite Hel', Hel. destruct (elems r); congruence.
  Qed.

  Lemma rm_ok t q :
    avl t -> ht t <= 110 ->
    exists t' kv s,
      rm bor cmp t q = Ok (t', kv, s)
      /\ avl t' /\ ht t = ht t' + b2z s
      /\ (asc (elems t) ->
          elems t' = s_remove bor cmp q (elems t) /\ kv = s_find bor cmp q (elems t)).
  Proof.
    induction t as [|nk nv lh rh l IHl r IHr]; intros Ht Hb.
    - cbn. do 3 eexists. split; [reflexivity|]. cbn. auto.
    - destruct Ht as (-> & -> & Hbal & Hl & Hr). cbn [ht] in Hb. nonneg.
      cbn [rm]. destruct (cmp q (bor nk)) eqn:Ec.
      + (* Eq *)
        assert (Hdone : forall t' s,
          avl t' -> 1 + Z.max (ht l) (ht r) = ht t' + b2z s -> elems t' = elems l ++ elems r ->
          exists t'0 kv0 s0, Ok (t', Some (nk, nv), s) = Ok (t'0, kv0, s0) /\ avl t'0
          /\ ht (Node nk nv (ht l) (ht r) l r) = ht t'0 + b2z s0
          /\ (asc (elems (Node nk nv (ht l) (ht r) l r)) ->
              elems t'0 = s_remove bor cmp q (elems (Node nk nv (ht l) (ht r) l r))
              /\ kv0 = s_find bor cmp q (elems (Node nk nv (ht l) (ht r) l r)))).
        { intros t' s Ht' Hh He. do 3 eexists. split; [reflexivity|].
          split; [exact Ht'|]. split; [exact Hh|]. intros Ha. cbn [elems] in *.
          rewrite (rem_pivot_eq bor cmp laws), (fnd_pivot_eq bor cmp laws) by auto. auto. }
        destruct l as [|lk lv llh lrh ll lr], r as [|rk rv rlh rrh rl rr].
        * apply Hdone; cbn; auto.
        * apply Hdone; auto. cbn [ht] in *. nonneg. cbn [b2z]. lia.
        * apply Hdone; auto.
          -- cbn [ht] in *. nonneg. cbn [b2z]. lia.
          -- cbn [elems]. now rewrite app_nil_r.
        * set (l := Node lk lv llh lrh ll lr) in *. set (r := Node rk rv rlh rrh rl rr) in *.
          destruct (rm_leftmost_ok r) as (r' & kv & s & E & Hr' & Hh & Hkv & Hel); auto; [lia|].
          rewrite E. cbn [bind].
          assert (Hnn : elems r <> []) by apply elems_node_nonnil.
          destruct (elems r) as [|[sk sv] er] eqn:Er; [congruence|]. clear Hnn.
          cbn [hd_error tl] in *. subst kv. cbn [unwrap bind].
          destruct (after_rm_right_ok sk sv l r r' s)
            as (t' & s' & E' & Ht' & Hh' & Hel'); auto; try lia.
          rewrite E'. cbn [bind]. apply Hdone; auto. rewrite Hel', Hel. reflexivity.
      + destruct IHl as (l' & kv & s & E & Hl' & Hh & Hel); auto; [lia|].
        rewrite E. cbn [bind].
        destruct (after_rm_left_ok nk nv l l' r s)
          as (t' & s' & E' & Ht' & Hh' & Hel'); auto; try lia.
        rewrite E'. cbn [bind]. do 3 eexists. split; [reflexivity|].
        cbn [elems ht]. split; [exact Ht'|]. split; [exact Hh'|]. intros Ha.
        pose proof (proj1 (asc_pivot bor cmp laws _ _ _) Ha) as (Hla & _).
        destruct (Hel Hla) as [E1 E2].
        rewrite Hel', E1, E2.
        rewrite (rem_pivot_lt bor cmp laws), (fnd_pivot_lt bor cmp laws) by auto. auto.
      + destruct IHr as (r' & kv & s & E & Hr' & Hh & Hel); auto; [lia|].
        rewrite E. cbn [bind].
        destruct (after_rm_right_ok nk nv l r r' s)
          as (t' & s' & E' & Ht' & Hh' & Hel'); auto; try lia.
        rewrite E'. cbn [bind]. do 3 eexists. split; [reflexivity|].
        cbn [elems ht]. split; [exact Ht'|]. split; [exact Hh'|]. intros Ha.
        pose proof (proj1 (asc_pivot bor cmp laws _ _ _) Ha) as (_ & Hra & _).
        destruct (Hel Hra) as [E1 E2].
        rewrite Hel', E1, E2.
        rewrite (rem_pivot_gt bor cmp laws), (fnd_pivot_gt bor cmp laws) by auto. auto.
  Qed.

  (** ** Join *)
  Lemma join_rt_ok left k v right :
    avl left -> avl right -> ht left > ht right + 1 -> ht left <= 110 ->
    exists t',
      join_rt left k v right = Ok t'
      /\ avl t'
      /\ (ht t' = ht left \/ (ht t' = ht left + 1 /\ tbal t' = 1))
      /\ elems t' = elems left ++ (k, v) :: elems right.
  Proof.
    induction left as [|nk nv lh rh l IHl c IHc]; intros Hl Hr Hh Hb.
    - cbn in Hh. pose proof (ht_nonneg right). lia.
    - pose proof Hl as Hl0.
      destruct Hl as (-> & -> & Hbal & Hll & Hc). nonneg.
      cbn [join_rt].
      rewrite (height_ok (Node nk nv (ht l) (ht c) l c)) by (auto; lia).
      rewrite (height_ok right) by (auto; lia).
      rewrite (height_ok c) by (auto; cbn [ht] in *; lia).
      cbn [bind ht] in *. run.
      destruct (Z.ltb_spec (ht right + 1) (1 + Z.max (ht l) (ht c))); [|lia].
      cbn [assert_ bind]. clear IHl.
      destruct (Z.leb_spec (ht c) (ht right + 1)) as [Hle|Hgt].
      + unfold opt_new.
        rewrite (height_ok right) by (auto; lia).
        rewrite (height_ok c) by (auto; lia). cbn [bind]. run.
        destruct ((-1 <=? _) && _) eqn:Eb.
        * exists (Node nk nv (ht l) (1 + Z.max (ht c) (ht right)) l
                    (Node k v (ht c) (ht right) c right)).
          apply andb_true_iff in Eb as [Eb1 Eb2].
          rewrite Z.leb_le in Eb1, Eb2. cbn [ht] in Eb1, Eb2.
          split; [reflexivity|]. cbn [avl ht elems tbal].
          split; [repeat split; auto; lia|]. split; [lia|].
          repeat (rewrite <- app_assoc; cbn [app]). reflexivity.
        * apply andb_false_iff in Eb. cbn [ht] in Eb.
          rewrite !Z.leb_gt in Eb.
          assert (ht c = ht right + 1 /\ ht l = ht right) as [Hcr Hlr] by lia.
          destruct c as [|ck cv clh crh cl cr]; [cbn [ht] in *; lia|].
          destruct Hc as (-> & -> & Hcb & Hcl & Hcr'). nonneg. cbn [ht] in *.
          unfold rot_rt. run.
          destruct (negb _); cbn [bind]; run; unfold rot_lf; run;
            (eexists; split; [reflexivity|]; cbn [avl ht elems tbal];
             split; [repeat split; auto; lia|]; split; [left; lia|];
             repeat (rewrite <- app_assoc; cbn [app]); reflexivity).
      + destruct IHc as (t1 & E & Ht1 & Hht & Hel); auto; try lia.
        rewrite E. cbn [bind]. nonneg.
        rewrite (height_ok t1) by (auto; lia). cbn [bind]. run.
        destruct ((-1 <=? _) && _) eqn:Eb.
        * apply andb_true_iff in Eb as [Eb1 Eb2]. rewrite Z.leb_le in Eb1, Eb2.
          eexists. split; [reflexivity|]. cbn [avl ht elems tbal].
          split; [repeat split; auto; lia|]. split; [lia|].
          rewrite Hel. repeat (rewrite <- app_assoc; cbn [app]). reflexivity.
        * apply andb_false_iff in Eb. rewrite !Z.leb_gt in Eb.
          destruct Hht as [Hht|[Hht Hb1]]; [lia|].
          destruct t1 as [|bk bv blh brh y z]; [cbn [ht] in *; lia|].
          destruct Ht1 as (-> & -> & Hb2 & Hy & Hz). nonneg. cbn [ht tbal] in *.
          unfold rot_lf. run. eexists. split; [reflexivity|].
          cbn [avl ht elems tbal].
          split; [repeat split; auto; lia|]. split; [left; lia|].
          cbn [elems] in Hel.
          replace (elems l ++ (nk, nv) :: elems c) with (elems l ++ [(nk, nv)] ++ elems c) by reflexivity.
          repeat (rewrite <- app_assoc; cbn [app]).
          rewrite <- Hel. reflexivity.
  Qed.

  Lemma join_lf_ok left k v right :
    avl left -> avl right -> ht right > ht left + 1 -> ht right <= 110 ->
    exists t',
      join_lf left k v right = Ok t'
      /\ avl t'
      /\ (ht t' = ht right \/ (ht t' = ht right + 1 /\ tbal t' = -1))
      /\ elems t' = elems left ++ (k, v) :: elems right.
  Proof.
    induction right as [|nk nv lh rh c IHc r IHr]; intros Hl Hr Hh Hb.
    - cbn in Hh. pose proof (ht_nonneg left). lia.
    - pose proof Hr as Hr0.
      destruct Hr as (-> & -> & Hbal & Hc & Hrr). nonneg.
      cbn [join_lf].
      rewrite (height_ok (Node nk nv (ht c) (ht r) c r)) by (auto; lia).
      rewrite (height_ok left) by (auto; lia).
      rewrite (height_ok c) by (auto; cbn [ht] in *; lia).
      cbn [bind ht] in *. run.
      destruct (Z.ltb_spec (ht left + 1) (1 + Z.max (ht c) (ht r))); [|lia].
      cbn [assert_ bind]. clear IHr.
      destruct (Z.leb_spec (ht c) (ht left + 1)) as [Hle|Hgt].
      + unfold opt_new.
        rewrite (height_ok left) by (auto; lia).
        rewrite (height_ok c) by (auto; lia). cbn [bind]. run.
        destruct ((-1 <=? _) && _) eqn:Eb.
        * exists (Node nk nv (1 + Z.max (ht left) (ht c)) (ht r)
                    (Node k v (ht left) (ht c) left c) r).
          apply andb_true_iff in Eb as [Eb1 Eb2].
          rewrite Z.leb_le in Eb1, Eb2. cbn [ht] in Eb1, Eb2.
          split; [reflexivity|]. cbn [avl ht elems tbal].
          split; [repeat split; auto; lia|]. split; [lia|].
          repeat (rewrite <- app_assoc; cbn [app]). reflexivity.
        * apply andb_false_iff in Eb. cbn [ht] in Eb.
          rewrite !Z.leb_gt in Eb.
          assert (ht c = ht left + 1 /\ ht r = ht left) as [Hcr Hlr] by lia.
          destruct c as [|ck cv clh crh cl cr]; [cbn [ht] in *; lia|].
          destruct Hc as (-> & -> & Hcb & Hcl & Hcr'). nonneg. cbn [ht] in *.
          unfold rot_lf. run.
          destruct (negb _); cbn [bind]; run; unfold rot_rt; run; cbn [ht];
            (match goal with |- context [assert_ (?a && ?b)] => replace (a && b) with true
               by (symmetry; apply andb_true_iff; rewrite !Z.leb_le; lia) end;
             cbn [assert_ bind];
             eexists; split; [reflexivity|]; cbn [avl ht elems tbal];
             split; [repeat split; auto; lia|]; split; [left; lia|];
             repeat (rewrite <- app_assoc; cbn [app]); reflexivity).
      + destruct IHc as (t1 & E & Ht1 & Hht & Hel); auto; try lia.
        rewrite E. cbn [bind]. nonneg.
        rewrite (height_ok t1) by (auto; lia). cbn [bind]. run.
        destruct ((-1 <=? _) && _) eqn:Eb.
        * apply andb_true_iff in Eb as [Eb1 Eb2]. rewrite Z.leb_le in Eb1, Eb2.
          eexists. split; [reflexivity|]. cbn [avl ht elems tbal].
          split; [repeat split; auto; lia|]. split; [lia|].
          rewrite Hel. repeat (rewrite <- app_assoc; cbn [app]). reflexivity.
        * apply andb_false_iff in Eb. rewrite !Z.leb_gt in Eb.
          destruct Hht as [Hht|[Hht Hb1]]; [lia|].
          destruct t1 as [|bk bv blh brh y z]; [cbn [ht] in *; lia|].
          destruct Ht1 as (-> & -> & Hb2 & Hy & Hz). nonneg. cbn [ht tbal] in *.
          unfold rot_rt. run. eexists. split; [reflexivity|].
          cbn [avl ht elems tbal].
          split; [repeat split; auto; lia|]. split; [left; lia|].
          cbn [elems] in Hel.
          change (elems left ++ (k, v) :: elems c ++ (nk, nv) :: elems r)
            with (elems left ++ ((k, v) :: elems c) ++ (nk, nv) :: elems r).
          rewrite app_assoc, <- Hel, <- app_assoc. reflexivity.
  Qed.

  Lemma join_ok left k v right :
    avl left -> avl right -> ht left <= 105 -> ht right <= 105 ->
    exists t',
      join left k v right = Ok t' /\ avl t'
      /\ Z.max (ht left) (ht right) <= ht t' <= 1 + Z.max (ht left) (ht right)
      /\ elems t' = elems left ++ (k, v) :: elems right.
  Proof.
    intros Hl Hr H1 H2. unfold join. nonneg.
    rewrite !height_ok by (auto; lia). cbn [bind]. run.
    destruct (Z.ltb_spec (ht right - ht left) (-1)).
    - destruct (join_rt_ok left k v right) as (t' & E & Ht' & Hh & He); auto; try lia.
      exists t'. repeat split; auto; lia.
    - destruct (Z.ltb_spec 1 (ht right - ht left)).
      + destruct (join_lf_ok left k v right) as (t' & E & Ht' & Hh & He); auto; try lia.
        exists t'. repeat split; auto; lia.
      + unfold opt_new. rewrite !height_ok by (auto; lia). cbn [bind].
        eexists. split; [reflexivity|]. cbn [avl ht elems]. repeat split; auto; lia.
  Qed.

  Lemma join2_ok left okv right :
    avl left -> avl right -> ht left <= 105 -> ht right <= 105 ->
    exists t',
      join2 left okv right = Ok t' /\ avl t'
      /\ elems t' = elems left ++ match okv with Some e => [e] | None => [] end ++ elems right.
  Proof.
    intros Hl Hr H1 H2. unfold join2. destruct okv as [[k v]|].
    - destruct (join_ok left k v right) as (t' & E & Ht' & _ & He); auto. eauto.
    - destruct left as [|lk lv llh lrh ll lr]; [eauto|].
      destruct right as [|rk rv rlh rrh rl rr].
      { exists (Node lk lv llh lrh ll lr). cbn [elems app]. rewrite app_nil_r. auto. }
      set (l := Node lk lv llh lrh ll lr) in *. set (r := Node rk rv rlh rrh rl rr) in *.
      destruct (rm_leftmost_ok r) as (r' & kv & s & E & Hr' & Hh & Hkv & Hel); auto; [lia|].
      rewrite E. cbn [bind].
      assert (Hnn : elems r <> []) by apply elems_node_nonnil.
      destruct (elems r) as [|[sk sv] er] eqn:Er; [congruence|]. clear Hnn.
      cbn [hd_error tl] in *. subst kv. cbn [unwrap bind].
      assert (ht r' <= ht r) by (destruct s; cbn in *; lia).
      destruct (join_ok l sk sv r') as (t' & E' & Ht' & _ & He); auto; [lia|].
      exists t'. rewrite Hel in He. auto.
  Qed.
End AvlProofs.
