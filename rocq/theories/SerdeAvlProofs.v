(** The halves of [avl.rs] meet the conditions of the visitor. *)
From Coq Require Import List NArith ZArith Bool Lia.
From Verif Require Import Base Vec Spec MapSpec SpecFacts AvlModel AvlProofs AvlProofs2 AvlMapProofs
  AvlIterModel AvlIterProofs AvlShows SerdeModel SerdeProofs.
Import ListNotations.
Local Open Scope Z_scope.

Section SerdeAvl.
  Context {K V Q : Type} (bor : K -> Q) (cmp : Q -> Q -> comparison) (laws : order_laws cmp).
  Notation entry := (K * V)%type.
  Notation tree := (tree K V).
  Notation half := (@avl_half K V).

  (** Recorded heights are true. *)
  Fixpoint hts (t : tree) : Prop :=
    match t with
    | Leaf => True
    | Node _ _ lh rh l r => lh = ht l /\ rh = ht r /\ hts l /\ hts r
    end.
  Lemma avl_hts t : avl t -> hts t.
  Proof. induction t as [|k v lh rh l IHl r IHr]; cbn; auto. intros (-> & -> & _ & Hl & Hr). auto. Qed.
  Lemma hts_height t : hts t -> ht t <= 126 -> height t = Ok (ht t).
  Proof.
    destruct t as [|k v lh rh l r]; cbn [ht hts]; auto. intros (-> & -> & _) H.
    apply (height_node_ok k v); auto; lia.
  Qed.
  Lemma opt_new_hts k v l r : hts l -> hts r -> ht l <= 126 -> ht r <= 126 ->
    opt_new k v l r = Ok (Node k v (ht l) (ht r) l r).
  Proof. intros. unfold opt_new. rewrite !hts_height; auto. Qed.

  Lemma chk_total t : forall g, hts t -> ht t <= 100 -> exists r, chk bor cmp t g = Ok r
    /\ (avl t -> match r with inl _ => True | inr e => e = AvlModel.Unsorted end).
  Proof.
    induction t as [|k v lh rh l IHl r IHr]; intros g H Hb; [eexists; split; [reflexivity|]; cbn; auto|].
    destruct H as (-> & -> & Hl & Hr). cbn [ht avl chk] in *.
    pose proof (ht_nonneg l). pose proof (ht_nonneg r).
    destruct (ge_key bor cmp g k); [eexists; split; [reflexivity|]; intros _; reflexivity|].
    rewrite !hts_height by (auto; lia). cbn [bind]. rewrite !Z.eqb_refl. cbn [negb orb].
    rewrite is_bal_ok by lia. cbn [bind].
    destruct ((-1 <=? ht r - ht l) && (ht r - ht l <=? 1)) eqn:Eb; cbn [negb].
    2:{ eexists. split; [reflexivity|]. intros (_ & _ & B & _). lia. }
    destruct (IHl g Hl ltac:(lia)) as (rl & -> & Al). cbn [bind]. destruct rl as [[n1 g1]|e1].
    2:{ eexists. split; [reflexivity|]. intros (_ & _ & _ & X & _). now apply Al. }
    destruct (ge_key bor cmp g1 k); [eexists; split; [reflexivity|]; intros _; reflexivity|].
    destruct (IHr (Some k) Hr ltac:(lia)) as (rr & -> & Ar). cbn [bind]. destruct rr as [[n2 g2]|e2].
    2:{ eexists. split; [reflexivity|]. intros (_ & _ & _ & _ & X). now apply Ar. }
    eexists. split; [reflexivity|]. now cbn.
  Qed.

  Lemma chk_len (t : tree) : forall g len, chk bor cmp t g <> Ok (inr (AvlModel.BadLen len)).
  Proof.
    induction t as [|k v lh rh l IHl r IHr]; intros g len E; [discriminate|]. cbn [chk] in E.
    destruct (ge_key bor cmp g k); [discriminate|].
    destruct (height l); [|discriminate]. destruct (height r); [|discriminate]. cbn [bind] in E.
    destruct (_ || _); [discriminate|]. destruct (is_bal lh rh) as [[]|]; try discriminate. cbn [bind negb] in E.
    destruct (chk bor cmp l g) as [[[]|]|] eqn:El; cbn [bind] in E; try discriminate.
    - destruct (ge_key bor cmp o k); [discriminate|].
      destruct (chk bor cmp r (Some k)) as [[[]|]|] eqn:Er2; cbn [bind] in E; try discriminate.
      injection E as ->. now apply IHr in Er2.
    - injection E as ->. now apply IHl in El.
  Qed.

  Definition a_full (s : N) (h : half) (l : list entry) : Prop :=
    let '(n, k, v) := h in
    l = elems n ++ [(k, v)] /\ Z.of_N s = Z.of_nat (length l) /\ avl n /\ Z.of_N s <= 2 ^ ht n < 2 * Z.of_N s.
  Definition a_part (s : N) (h : half) (l : list entry) : Prop :=
    let '(n, k, v) := h in l = elems n ++ [(k, v)] /\ hts n /\ 2 ^ ht n < 2 * Z.of_N s.
  Definition a_rep (m : avl_map K V) (l : list entry) : Prop := shows bor cmp m (s_extend bor cmp [] l).
  Definition a_lim (n : nat) : Prop := Z.of_nat n < 2 ^ 63.

  Lemma ht_64 (n : tree) s : 2 ^ ht n < 2 * s -> s < 2 ^ 64 -> ht n <= 64.
  Proof.
    intros H1 H2. destruct (Z.le_gt_cases (ht n) 64) as [|H]; auto. exfalso.
    pose proof (Z.pow_le_mono_r 2 65 (ht n) ltac:(lia) ltac:(lia)). lia.
  Qed.
  Lemma pow_le_inv a b c : 0 <= b -> 2 ^ a < 2 ^ b * c -> c <= 2 -> a <= b.
  Proof.
    intros Hb H Hc. destruct (Z.le_gt_cases a b) as [|G]; auto. exfalso.
    pose proof (Z.pow_le_mono_r 2 (Z.succ b) a ltac:(lia) ltac:(lia)) as X. rewrite Z.pow_succ_r in X by lia.
    pose proof (Z.pow_pos_nonneg 2 b ltac:(lia) Hb). nia.
  Qed.

  Lemma extend_snoc (l : list entry) k v :
    s_extend bor cmp [] (l ++ [(k, v)]) = s_insert bor cmp k v (s_extend bor cmp [] l).
  Proof. unfold s_extend. now rewrite fold_left_app. Qed.
  Lemma a_lim_small (l l' : list entry) : a_lim (length l) -> (length l' <= length l)%nat -> small l'.
  Proof. unfold a_lim, small. lia. Qed.

  Lemma a_rep_insert m l k v : a_rep m l -> a_lim (length (l ++ [(k, v)])) ->
    exists m' o, avl_insert bor cmp m k v = Ok (m', o) /\ a_rep m' (l ++ [(k, v)]).
  Proof.
    intros R L. destruct (insert_l bor cmp laws m _ k v R) as (m' & E & R').
    { eapply a_lim_small; [exact L|]. rewrite app_length. cbn.
      pose proof (extend_length bor cmp laws l [] ltac:(constructor)) as X. cbn in X. lia. }
    exists m'. eexists. split; [exact E|]. unfold a_rep. now rewrite extend_snoc.
  Qed.

  Lemma s_extend_asc (l : list entry) : ascending bor cmp l -> s_extend bor cmp [] l = l.
  Proof. intros A. now apply (extend_asc_app bor cmp laws). Qed.

  Lemma collect_any (m : avl_map K V) : (length (elems (am_root m)) <= am_len m)%nat ->
    avl_collect m = Ok (elems (am_root m)).
  Proof.
    intros L. unfold avl_collect. pose proof (iter_den m) as D. unfold contents in D.
    rewrite collect_ok; rewrite D; auto; cbn; lia.
  Qed.

  Lemma a_whole s h l : a_part s h l -> (s < 2 ^ 64)%N -> (N.of_nat (length l) <= s)%N -> a_lim (length l) ->
    exists m, avl_make_whole bor cmp h s = Ok m /\ a_rep m l.
  Proof.
    destruct h as [[n k] v]. intros (-> & Hh & Hp) Hs Hl L. unfold avl_make_whole.
    pose proof (ht_64 n (Z.of_N s) Hp ltac:(lia)) as H64.
    rewrite app_length in Hl. cbn [length] in Hl.
    destruct (chk_total n None Hh ltac:(lia)) as (r & Er & _).
    set (m := AvlMap (N.to_nat (N.pred s)) n).
    assert (F : fits (elems n)) by (unfold fits, a_lim in *; rewrite app_length in L; cbn in L; lia).
    assert (X : exists m1, (c <- avl_chk bor cmp m;;
       match c with
       | inr (AvlModel.BadLen correct_len) => Ok (AvlMap correct_len n)
       | inr _ => l <- avl_collect m;; avl_extend bor cmp avl_new l
       | inl _ => Ok m
       end) = Ok m1 /\ a_rep m1 (elems n)).
    { destruct (avl_chk bor cmp m) as [c|] eqn:Ec.
      2:{ unfold avl_chk in Ec. cbn [am_root m] in Ec. rewrite Er in Ec. cbn [bind] in Ec.
          destruct r as [[? ?]|]; [destruct (Nat.eqb _ _)|]; discriminate. }
      cbn [bind].
      assert (B : exists m1, (l <- avl_collect m;; avl_extend bor cmp avl_new l) = Ok m1 /\ a_rep m1 (elems n)).
      { rewrite collect_any by (cbn; lia). cbn [bind am_root m].
        destruct (extend_l bor cmp laws avl_new [] (elems n)) as (m1 & E1 & R1).
        - apply shows_new.
        - unfold small. cbn. lia.
        - eapply a_lim_small; [exact L|]. rewrite app_length. lia.
        - exists m1. auto. }
      destruct c as [u|e].
      - exists m. split; auto. destruct u. pose proof (check_sound bor cmp laws m Ec) as Hv. unfold a_rep.
        rewrite s_extend_asc by apply (valid_asc bor cmp m Hv). apply (valid_shows bor cmp laws); auto.
      - destruct e; auto. eexists. split; [reflexivity|].
        unfold avl_chk in Ec. cbn [am_root m] in Ec. rewrite Er in Ec. cbn [bind] in Ec.
        destruct r as [[n1 g1]|e1].
        + destruct (Nat.eqb n1 (am_len m)); [discriminate|]. injection Ec as <-.
          apply (chk_sound bor cmp laws) in Er as (A1 & A2 & -> & _).
          unfold a_rep. rewrite s_extend_asc by exact A2. apply (valid_shows bor cmp laws); auto.
          repeat split; auto.
        + injection Ec as ->.
          (* [chk] itself never reports a wrong length *)
          exfalso.
          now apply chk_len in Er. }
    destruct X as (m1 & E1 & R1).
    destruct (a_rep_insert m1 (elems n) k v R1 L) as (m2 & o & E2 & R2).
    exists m2. split; auto. destruct (avl_chk bor cmp m) as [c|]; [|discriminate]. cbn [bind] in *.
    rewrite E1. cbn [bind]. now rewrite E2.
  Qed.

  Lemma a_stitch_ht s1 s2 h1 : (2 < s1 + s2 < 2 ^ 64)%N -> (s2 <= s1 <= s2 + 1)%N -> 0 <= h1 ->
    Z.of_N s1 <= 2 ^ h1 < 2 * Z.of_N s1 -> Z.of_N (s1 + s2) <= 2 ^ (1 + h1) < 2 * Z.of_N (s1 + s2).
  Proof.
    intros U1 U2 H0 H. rewrite Z.pow_add_r by lia. change (2 ^ 1) with 2. split; [lia|].
    assert (h1 <> 0) by (intros ->; cbn in H; lia).
    replace h1 with (1 + (h1 - 1)) in * by lia. rewrite Z.pow_add_r in * by lia. change (2 ^ 1) with 2 in *. lia.
  Qed.

  Lemma avl_visitor_ok : visitor_ok (avl_impl bor cmp) a_full a_part a_rep a_lim.
  Proof.
    constructor; cbn [avl_impl mi_max_half_len mi_new mi_insert mi_make_half mi_make_whole mi_stitch mi_check_half].
    - lia.
    - intros s [[n k] v] l (_ & H & _). lia.
    - intros [|[k v] [|[k1 v1] [|]]] H1 H2; try congruence; cbn [length] in H2; try lia.
      + eexists. split; [reflexivity|]. cbn. auto with zarith.
      + eexists. split; [reflexivity|]. cbn. intuition lia.
    - intros s s' [[n k] v] l (-> & H1 & H2 & H3) Hs. split; auto. split; [now apply avl_hts|]. lia.
    - intros s s' [[n k] v] l (-> & H1 & H2) Hs. split; auto. split; [auto|]. lia.
    - intros s1 s2 [[n1 k1] v1] [[n2 k2] v2] l1 l2 (U1 & U2 & U3) (-> & F1 & F2 & F3) (-> & G1 & G2 & G3).
      cbn [avl_impl mi_max_half_len] in U2.
      unfold avl_stitch. pose proof (ht_nonneg n1). pose proof (ht_nonneg n2).
      pose proof (ht_64 n1 (Z.of_N s1) ltac:(lia) ltac:(lia)). pose proof (ht_64 n2 (Z.of_N s2) ltac:(lia) ltac:(lia)).
      rewrite opt_new_hts by (auto using avl_hts; lia). cbn [bind].
      eexists. split; [reflexivity|]. unfold a_full.
      assert (H21 : ht n2 <= ht n1) by (apply (pow_le_inv _ _ 2); lia).
      assert (H12 : ht n1 <= 1 + ht n2).
      { apply (pow_le_inv _ _ 2); [lia| |lia]. rewrite Z.pow_add_r by lia. change (2 ^ 1) with 2.
        pose proof (Z.pow_pos_nonneg 2 (ht n2) ltac:(lia) ltac:(lia)). lia. }
      cbn [elems avl ht]. split; [rewrite <- !app_assoc; reflexivity|]. split; [rewrite app_length; lia|].
      split; [repeat split; auto; lia|].
      rewrite Z.max_l by lia. apply a_stitch_ht; auto; lia.
    - intros s1 s2 [[n1 k1] v1] [[n2 k2] v2] l1 l2 (U1 & U2 & U3) (-> & F1 & F2 & F3) (-> & G2 & G3).
      cbn [avl_impl mi_max_half_len] in U2.
      unfold avl_stitch. pose proof (ht_nonneg n1). pose proof (ht_nonneg n2).
      pose proof (ht_64 n1 (Z.of_N s1) ltac:(lia) ltac:(lia)). pose proof (ht_64 n2 (Z.of_N s2) ltac:(lia) ltac:(lia)).
      rewrite opt_new_hts by (auto using avl_hts; lia). cbn [bind].
      eexists. split; [reflexivity|]. unfold a_part. cbn [elems hts ht].
      split; [rewrite <- !app_assoc; reflexivity|]. split; [repeat split; auto using avl_hts|].
      pose proof (a_stitch_ht s1 s2 (ht n1) ltac:(lia) ltac:(lia) ltac:(lia) F3) as X.
      destruct (Z.max_spec (ht n1) (ht n2)) as [[_ ->]|[_ ->]]; [|lia].
      rewrite Z.pow_add_r by lia. change (2 ^ 1) with 2. lia.
    - intros s [[n k] v] l (-> & F1 & F2 & F3) Hs L. unfold avl_check_half.
      pose proof (ht_64 n (Z.of_N s) ltac:(lia) ltac:(lia)).
      destruct (chk_total n None (avl_hts n F2) ltac:(lia)) as (r & Er & X). rewrite Er. cbn [bind].
      destruct r as [[len g]|e].
      + apply (chk_sound bor cmp laws) in Er as (_ & _ & -> & _). destruct (ge_key bor cmp g k).
        * eexists. split; [reflexivity|]. reflexivity.
        * eexists. split; [reflexivity|]. cbv beta iota. rewrite app_length in F1. cbn [length] in F1. lia.
      + rewrite (X F2). eexists. split; [reflexivity|]. reflexivity.
    - exact a_whole.
    - apply shows_new.
    - intros m l k v R L. destruct (a_rep_insert m l k v R L) as (m' & o & E & R'). rewrite E. cbn [bind]. eauto.
    - intros n n' Hn Hl. unfold a_lim in *. lia.
  Qed.
End SerdeAvl.
