(** A map none of whose nodes is shared is changed in place: no clone is made, and no other cell is touched. *)
From Coq Require Import List ZArith Bool Lia.
From Verif Require Import Base Spec Heap HeapProofs AvlModel AvlHeapModel AvlHeapSpec AvlHeapHistModel.
Import ListNotations.
Local Open Scope nat_scope.

Section Lazy.
  Context {K V : Type}.
  Variable bomb : nat -> bool.
  Variable U : addr -> Prop.
  Variable c0 : list (pay K V).
  Variable g0 : addr -> option (nat * node (pay K V)).
  Notation pay := (pay K V).
  Notation heap := (heap pay).
  Notation alone := (alone U).

  Definition pin (p : ptr) : Prop := forall b, In b (olist p) -> U b.
  Lemma pin_none : pin None.
  Proof. intros b []. Qed.
  Lemma pin_some a : U a -> pin (Some a).
  Proof. intros H b [<-|[]]. exact H. Qed.
  Lemma pin_inv a : pin (Some a) -> U a.
  Proof. intros H. apply H. now left. Qed.

  (** In place so far. *)
  Definition ok (h : heap) : Prop := alone h /\ clones h = c0 /\ forall a, ~ U a -> get h a = g0 a.

  Lemma put_other (h : heap) a b x : a <> b -> get (put h a x) b = get h b.
  Proof.
    intros N. destruct (Nat.lt_ge_cases a (length (cells h))) as [L|L].
    - rewrite get_put by auto. destruct (Nat.eq_dec a b); [congruence|auto].
    - unfold put. now rewrite upd_beyond by auto.
  Qed.
  Lemma put_none_ok (h : heap) a : ok h -> U a -> ok (put h a None).
  Proof.
    intros [[A1 A2] [C G0]] Ha. split; [|split; [exact C|intros b Hb; rewrite put_other; [auto|intros ->; auto]]]. split.
    - intros b Hb. rewrite cells_put in Hb. auto.
    - intros b c n Hb G. destruct (Nat.lt_ge_cases a (length (cells h))) as [L|L].
      + rewrite get_put in G by auto. destruct (Nat.eq_dec a b); [discriminate|]. eauto.
      + unfold put in G. rewrite upd_beyond in G by auto. eapply A2; eauto.
  Qed.
  Lemma cls_ok (h : heap) a d l r : ok h -> U a -> pin l -> pin r -> ok (cls h a d l r).
  Proof.
    intros [[A1 A2] [C G0]] Ha Hl Hr. unfold cls, give.
    split; [|split; [exact C|intros b Hb; rewrite put_other; [auto|intros ->; auto]]]. split.
    - intros b Hb. rewrite cells_put in Hb. auto.
    - intros b c n Hb G. destruct (Nat.lt_ge_cases a (length (cells h))) as [L|L].
      + rewrite get_put in G by auto. destruct (Nat.eq_dec a b) as [<-|Hn]; [|eauto]. injection G as <- <-.
        split; auto. cbn [nd_kids olists flat_map]. intros x Hx. apply in_app_or in Hx as [Hx|Hx]; auto.
        apply in_app_or in Hx as [Hx|[]]; auto.
      + unfold put in G. rewrite upd_beyond in G by auto. eapply A2; eauto.
  Qed.
  Lemma alloc_lone (h : heap) d l r h1 a : ok h -> pin l -> pin r -> alloc h (Nd d [l; r]) = (h1, a) -> ok h1 /\ U a.
  Proof.
    intros [[A1 A2] [C G0]] Hl Hr E. assert (Ea : a = length (cells h)) by (unfold alloc in E; congruence).
    assert (E1 : h1 = fst (alloc h (Nd d [l; r]))) by (rewrite E; auto). subst h1 a.
    split; [|apply A1; auto].
    split; [|split; [exact C|intros b Hb; rewrite get_alloc; destruct (Nat.eq_dec _ b) as [<-|_]; [destruct Hb; auto|auto]]]. split.
    - intros b Hb. apply A1. unfold alloc in Hb. cbn in Hb. rewrite app_length in Hb. lia.
    - intros b c n Hb G. rewrite get_alloc in G. destruct (Nat.eq_dec _ b) as [_|Hn]; [|eauto]. injection G as <- <-.
      split; auto. cbn [nd_kids olists flat_map]. intros x Hx. apply in_app_or in Hx as [Hx|Hx]; auto.
      apply in_app_or in Hx as [Hx|[]]; auto.
  Qed.

  Definition lone {A} (P : A -> Prop) (x : res (heap * A)) : Prop :=
    match x with Ok (h, y) => ok h /\ P y | Panic => True end.
  (** [Done], with the pointers in place. *)
  Definition isd {A} (P : A -> Prop) (x : out A) : Prop := match x with Done a => P a | Unwound => False end.

  (** The outcome of a slot function. *)
  Definition lslot {A} (x : res (heap * ptr * out A)) : Prop :=
    match x with Ok (h, p, o) => ok h /\ pin p /\ isd (fun _ => True) o | Panic => True end.
  (** The outcome of a by-value function. *)
  Definition lval {A} (P : A -> Prop) (x : res (heap * out A)) : Prop :=
    match x with Ok (h, o) => ok h /\ isd P o | Panic => True end.

  Lemma opn_lone (h : heap) a : ok h -> U a ->
    match opn bomb h a with
    | Ok (h1, Done (a', d, l, r)) => a' = a /\ ok h1 /\ pin l /\ pin r
    | Ok (_, Unwound) => False
    | Panic => True
    end.
  Proof.
    intros O Ha. pose proof O as O'. destruct O' as [[A1 A2] C]. unfold opn, make_mut.
    destruct (get h a) as [[c n]|] eqn:G; [|exact I].
    destruct (A2 a c n Ha G) as [-> Hk]. cbn [bind]. unfold take. rewrite G. cbn [bind].
    destruct n as [d [|l [|r [|]]]]; cbn [nd_kids nd_data]; auto.
    split; auto. split; [now apply put_none_ok|]. cbn in Hk. rewrite app_nil_r in Hk.
    split; intros b Hb; apply Hk, in_or_app; auto.
  Qed.

  (** Binding. *)
  Lemma b_opn_s {A} (h : heap) a k : ok h -> U a ->
    (forall h1 d l r, ok h1 -> pin l -> pin r -> lslot (A := A) (k (h1, Done (a, d, l, r)))) ->
    lslot (bind (opn bomb h a) k).
  Proof.
    intros O Ha H. pose proof (opn_lone h a O Ha) as P. destruct (opn bomb h a) as [[h1 [[[[a' d] l] r]|]]|]; cbn [bind]; auto.
    - destruct P as (-> & O1 & Pl & Pr). auto.
    - contradiction.
  Qed.
  Lemma b_opn_v {A} (P : A -> Prop) (h : heap) a k : ok h -> U a ->
    (forall h1 d l r, ok h1 -> pin l -> pin r -> lval P (k (h1, Done (a, d, l, r)))) ->
    lval P (bind (opn bomb h a) k).
  Proof.
    intros O Ha H. pose proof (opn_lone h a O Ha) as R. destruct (opn bomb h a) as [[h1 [[[[a' d] l] r]|]]|]; cbn [bind]; auto.
    - destruct R as (-> & O1 & Pl & Pr). auto.
    - contradiction.
  Qed.
  Lemma b_slot_s {A B} (x : res (heap * ptr * out A)) k : lslot x ->
    (forall h1 p a, ok h1 -> pin p -> lslot (A := B) (k (h1, p, Done a))) -> lslot (bind x k).
  Proof.
    intros X H. destruct x as [[[h1 p] [a|]]|]; cbn in X |- *; auto; destruct X as (O & Pp & Hd); auto. contradiction.
  Qed.
  Lemma b_slot_v {A B} (P : B -> Prop) (x : res (heap * ptr * out A)) k : lslot x ->
    (forall h1 p a, ok h1 -> pin p -> lval P (k (h1, p, Done a))) -> lval P (bind x k).
  Proof.
    intros X H. destruct x as [[[h1 p] [a|]]|]; cbn in X |- *; auto; destruct X as (O & Pp & Hd); auto. contradiction.
  Qed.
  Lemma b_val_v {A B} (R : A -> Prop) (P : B -> Prop) (x : res (heap * out A)) k : lval R x ->
    (forall h1 a, ok h1 -> R a -> lval P (k (h1, Done a))) -> lval P (bind x k).
  Proof.
    intros X H. destruct x as [[h1 [a|]]|]; cbn in X |- *; auto; destruct X as (O & Hd); auto. contradiction.
  Qed.
  Lemma b_pure_s {A B} (x : res A) k : (forall y, x = Ok y -> lslot (A := B) (k y)) -> lslot (bind x k).
  Proof. intros H. destruct x; cbn; auto. Qed.
  Lemma b_pure_v {A B} (P : B -> Prop) (x : res A) k : (forall y, x = Ok y -> lval P (k y)) -> lval P (bind x k).
  Proof. intros H. destruct x; cbn; auto. Qed.
  Lemma l_slot {A} (h : heap) p (a : A) : ok h -> pin p -> lslot (Ok (h, p, Done a)).
  Proof. intros; cbn; auto. Qed.
  Lemma l_val {A} (P : A -> Prop) (h : heap) (a : A) : ok h -> P a -> lval P (Ok (h, Done a)).
  Proof. intros; cbn; auto. Qed.
  Lemma unwrap_pin p a : pin p -> unwrap p = Ok a -> U a.
  Proof. destruct p; [|discriminate]. intros H [= <-]. now apply pin_inv. Qed.

  Hint Resolve cls_ok pin_none pin_some pin_inv l_slot l_val I : lz.

  Ltac open_s := apply b_opn_s; [solve [eauto with lz]..|]; intros ? ? ? ? ? ? ?.
  Ltac open_v := apply b_opn_v; [solve [eauto with lz]..|]; intros ? ? ? ? ? ? ?.
  Ltac un_s := let E := fresh "Eu" in apply b_pure_s; intros ? E; try (apply unwrap_pin in E; [|solve [eauto with lz]]).
  Ltac un_v := let E := fresh "Eu" in apply b_pure_v; intros ? E; try (apply unwrap_pin in E; [|solve [eauto with lz]]).

  Lemma rot_lf_lone (h : heap) p : ok h -> pin p -> lslot (h_rot_lf bomb h p).
  Proof.
    intros O Pp. unfold h_rot_lf. un_s. open_s. un_s. open_s. un_s. un_s. cbn. split; eauto 8 with lz.
  Qed.
  Lemma rot_rt_lone (h : heap) p : ok h -> pin p -> lslot (h_rot_rt bomb h p).
  Proof.
    intros O Pp. unfold h_rot_rt. un_s. open_s. un_s. open_s. un_s. un_s. cbn. split; eauto 8 with lz.
  Qed.
  Lemma rot_rt_lf_lone (h : heap) p : ok h -> pin p -> lslot (h_rot_rt_lf bomb h p).
  Proof.
    intros O Pp. unfold h_rot_rt_lf. un_s. open_s. un_s. open_s. un_s. open_s. un_s. un_s. cbn. split; eauto 12 with lz.
  Qed.
  Lemma rot_lf_rt_lone (h : heap) p : ok h -> pin p -> lslot (h_rot_lf_rt bomb h p).
  Proof.
    intros O Pp. unfold h_rot_lf_rt. un_s. open_s. un_s. open_s. un_s. open_s. un_s. un_s. cbn. split; eauto 12 with lz.
  Qed.
  Lemma rebal_lf_to_rt_lone (h : heap) p : ok h -> pin p -> lslot (h_rebal_lf_to_rt bomb h p).
  Proof.
    intros O Pp. unfold h_rebal_lf_to_rt. un_s.
    destruct (get h y) as [[[|[|c]] [d [|l [|r [|]]]]]|]; try exact I.
    un_s. un_s. un_s. destruct (_ <=? 0)%Z; auto using rot_rt_lone, rot_lf_rt_lone.
  Qed.
  Lemma rebal_rt_to_lf_lone (h : heap) p : ok h -> pin p -> lslot (h_rebal_rt_to_lf bomb h p).
  Proof.
    intros O Pp. unfold h_rebal_rt_to_lf. un_s.
    destruct (get h y) as [[[|[|c]] [d [|l [|r [|]]]]]|]; try exact I.
    un_s. un_s. un_s. destruct (0 <=? _)%Z; auto using rot_lf_lone, rot_rt_lf_lone.
  Qed.
  Lemma then_lone {A B} (x : res (heap * ptr * out A)) (f : A -> B) : lslot x -> lslot (y <- x;; Ok (then_ y f)).
  Proof. destruct x as [[[h p] [a|]]|]; cbn; auto. Qed.
  Hint Resolve rebal_lf_to_rt_lone rebal_rt_to_lf_lone then_lone : lz.

  Section Q.
    Context {Q : Type} (bor : K -> Q) (cmp : Q -> Q -> comparison).
    Lemma ins_lone fuel : forall (h : heap) p k v, ok h -> pin p -> lslot (h_ins bor cmp bomb fuel h p k v).
    Proof.
      induction fuel as [|fuel IH]; intros h p k v O Pp; [exact I|]. cbn [h_ins]. destruct p as [rc|].
      2:{ destruct (alloc h _) as [h1 a] eqn:E. destruct (alloc_lone _ _ _ _ _ _ O pin_none pin_none E). cbn; eauto with lz. }
      open_s. destruct (cmp _ _).
      - cbn. split; eauto with lz.
      - eapply b_slot_s; [apply IH; auto|]. intros h2 l' [old tl] O2 Pl. un_s. destruct tl.
        + un_s. destruct (_ <? -1)%Z; eauto 6 with lz.
        + eauto with lz.
      - eapply b_slot_s; [apply IH; auto|]. intros h2 l' [old tl] O2 Pl. un_s. destruct tl.
        + un_s. destruct (1 <? _)%Z; eauto 6 with lz.
        + eauto with lz.
    Qed.
    Lemma get_mut_lone fuel w : forall (h : heap) p q, ok h -> pin p -> lslot (h_get_mut bor cmp bomb fuel h p q w).
    Proof.
      induction fuel as [|fuel IH]; intros h p q O Pp; [exact I|]. cbn [h_get_mut]. destruct p as [rc|]; [|cbn; auto].
      open_s. destruct (cmp _ _).
      - cbn. split; eauto with lz.
      - eapply b_slot_s; [apply IH; auto|]. intros h2 l' o O2 Pl. eauto with lz.
      - eapply b_slot_s; [apply IH; auto|]. intros h2 l' o O2 Pl. eauto with lz.
    Qed.
  End Q.

  Lemma for_each_mut_lone {S} (g : S -> K -> V -> S * V) fuel : forall (h : heap) p s, ok h -> pin p ->
    lslot (h_for_each_mut bomb g fuel h p s).
  Proof.
    induction fuel as [|fuel IH]; intros h p s O Pp; [exact I|]. cbn [h_for_each_mut]. destruct p as [rc|]; [|cbn; auto].
    open_s. eapply b_slot_s; [apply IH; auto|]. intros h2 l' s1 O2 Pl. destruct (g s1 _ _) as [s2 v'].
    eapply b_slot_s; [apply IH; auto|]. intros h3 r' s3 O3 Pr. eauto with lz.
  Qed.

  Lemma after_rm_left_lone (h : heap) a d l r s : ok h -> U a -> pin l -> pin r -> lslot (h_after_rm_left bomb h a d l r s).
  Proof.
    intros. unfold h_after_rm_left. un_s. destruct s; [|eauto with lz]. un_s. destruct (1 <? _)%Z; eauto 6 with lz.
  Qed.
  Lemma after_rm_right_lone (h : heap) a d l r s : ok h -> U a -> pin l -> pin r -> lslot (h_after_rm_right bomb h a d l r s).
  Proof.
    intros. unfold h_after_rm_right. un_s. destruct s; [|eauto with lz]. un_s. destruct (_ <? -1)%Z; eauto 6 with lz.
  Qed.
  Hint Resolve after_rm_left_lone after_rm_right_lone : lz.
  Lemma take_node_lone {A} (h : heap) a d l r (k : heap * pay * ptr * ptr -> res (heap * ptr * out A)) :
    ok h -> U a -> pin l -> pin r ->
    (forall h1 d' l' r', ok h1 -> pin l' -> pin r' -> lslot (k (h1, d', l', r'))) ->
    lslot (bind (h_take_node h a d l r) k).
  Proof.
    intros O Ha Hl Hr H. unfold h_take_node, take. pose proof (cls_ok h a d l r O Ha Hl Hr) as O1.
    destruct (get (cls h a d l r) a) as [[[|[|c]] n]|] eqn:G; cbn [bind]; try exact I.
    pose proof O1 as O2. destruct O2 as [[A1 A2] _]. destruct (A2 a _ _ Ha G) as [_ Hk].
    destruct n as [d' [|l' [|r' [|]]]]; cbn [nd_kids nd_data bind]; try exact I.
    cbn in Hk. rewrite app_nil_r in Hk.
    apply H; [now apply put_none_ok| |]; intros b Hb; apply Hk, in_or_app; auto.
  Qed.

  Lemma rm_leftmost_lone fuel : forall (h : heap) p, ok h -> pin p -> lslot (h_rm_leftmost bomb fuel h p).
  Proof.
    induction fuel as [|fuel IH]; intros h p O Pp; [exact I|]. cbn [h_rm_leftmost]. destruct p as [rc|]; [|cbn; auto].
    open_s. destruct l as [l|].
    - eapply b_slot_s; [apply IH; auto|]. intros h2 l' [kv s] O2 Pl. eauto 6 with lz.
    - apply take_node_lone; eauto with lz.
  Qed.
  Lemma rm_rightmost_lone fuel : forall (h : heap) p, ok h -> pin p -> lslot (h_rm_rightmost bomb fuel h p).
  Proof.
    induction fuel as [|fuel IH]; intros h p O Pp; [exact I|]. cbn [h_rm_rightmost]. destruct p as [rc|]; [|cbn; auto].
    open_s. destruct r as [r|].
    - eapply b_slot_s; [apply IH; auto|]. intros h2 l' [kv s] O2 Pl. eauto 6 with lz.
    - apply take_node_lone; eauto with lz.
  Qed.
  Lemma rm_lone {Q} (bor : K -> Q) cmp fuel : forall (h : heap) p q, ok h -> pin p -> lslot (h_rm bor cmp bomb fuel h p q).
  Proof.
    induction fuel as [|fuel IH]; intros h p q O Pp; [exact I|]. cbn [h_rm]. destruct p as [rc|]; [|cbn; auto].
    open_s. destruct (cmp _ _).
    - destruct l as [l|], r as [r|].
      + eapply b_slot_s; [apply rm_leftmost_lone; auto|]. intros h2 l' [kv s] O2 Pl. un_s. destruct y as [sk sv]. eauto 6 with lz.
      + apply take_node_lone; eauto with lz.
      + apply take_node_lone; eauto with lz.
      + apply take_node_lone; eauto with lz.
    - eapply b_slot_s; [apply IH; auto|]. intros h2 l' [kv s] O2 Pl. eauto 6 with lz.
    - eapply b_slot_s; [apply IH; auto|]. intros h2 l' [kv s] O2 Pl. eauto 6 with lz.
  Qed.

  (** By value. *)
  Lemma join_rt_lone fuel : forall (h : heap) a k v r, ok h -> U a -> pin r -> lval pin (h_join_rt bomb fuel h a k v r).
  Proof.
    induction fuel as [|fuel IH]; intros h a k v r O Ha Pr; [exact I|]. cbn [h_join_rt].
    un_v. un_v. un_v. un_v. open_v. un_v. destruct (_ <=? _)%Z.
    - un_v. destruct (alloc h1 _) as [h2 t1] eqn:E. destruct (alloc_lone _ _ _ _ _ _ H H1 Pr E). un_v. un_v.
      destruct y6; [eauto with lz|].
      eapply b_slot_v; [apply rot_rt_lone; eauto with lz|]. intros h3 t1' s O3 P3. un_v.
      eapply b_slot_v; [apply rot_lf_lone; eauto with lz|]. intros h4 t2' s4 O4 P4. eauto with lz.
    - un_v. eapply b_val_v; [apply IH; eauto with lz|]. intros h2 t1 O2 P2. un_v. un_v.
      destruct y6; [eauto with lz|].
      eapply b_slot_v; [apply rot_lf_lone; eauto with lz|]. intros h4 t2' s4 O4 P4. eauto with lz.
  Qed.
  Lemma join_lf_lone fuel : forall (h : heap) l k v a, ok h -> U a -> pin l -> lval pin (h_join_lf bomb fuel h l k v a).
  Proof.
    induction fuel as [|fuel IH]; intros h l k v a O Ha Pr; [exact I|]. cbn [h_join_lf].
    un_v. un_v. un_v. un_v. open_v. un_v. destruct (_ <=? _)%Z.
    - un_v. destruct (alloc h1 _) as [h2 t1] eqn:E. destruct (alloc_lone _ _ _ _ _ _ H Pr H0 E). un_v. un_v.
      destruct y6; [eauto with lz|].
      eapply b_slot_v; [apply rot_lf_lone; eauto with lz|]. intros h3 t1' s O3 P3. un_v.
      eapply b_slot_v; [apply rot_rt_lone; eauto with lz|]. intros h4 t2' s4 O4 P4. un_v. un_v. un_v. un_v. eauto with lz.
    - un_v. eapply b_val_v; [apply IH; eauto with lz|]. intros h2 t1 O2 P2. un_v. un_v.
      destruct y6; [eauto with lz|].
      eapply b_slot_v; [apply rot_rt_lone; eauto with lz|]. intros h4 t2' s4 O4 P4. eauto with lz.
  Qed.
  Lemma join_lone (h : heap) l k v r : ok h -> pin l -> pin r -> lval pin (h_join bomb h l k v r).
  Proof.
    intros O Pl Pr. unfold h_join. un_v. un_v. un_v. destruct (_ <? -1)%Z; [|destruct (1 <? _)%Z].
    - un_v. apply join_rt_lone; auto.
    - un_v. apply join_lf_lone; auto.
    - destruct (alloc h _) as [h1 a] eqn:E. destruct (alloc_lone _ _ _ _ _ _ O Pl Pr E). eauto with lz.
  Qed.
  Lemma join2_lone (h : heap) l kv r : ok h -> pin l -> pin r -> lval pin (h_join2 bomb h l kv r).
  Proof.
    intros O Pl Pr. unfold h_join2. destruct kv as [[k v]|]; [now apply join_lone|].
    destruct l as [l|], r as [r|]; eauto with lz.
    eapply b_slot_v; [apply rm_leftmost_lone; auto|]. intros h1 r' [kv s] O1 P1. un_v. destruct y as [k v]. now apply join_lone.
  Qed.
  Lemma unshare_lone {A} (P : A -> Prop) (h : heap) a k : ok h -> U a ->
    (forall h1 d l r, ok h1 -> pin l -> pin r -> lval P (k (h1, Done (d, l, r)))) ->
    lval P (bind (unshare bomb h a) k).
  Proof.
    intros O Ha H. unfold unshare. pose proof O as O'. destruct O' as [[A1 A2] C].
    destruct (get h a) as [[c n]|] eqn:G; [|exact I]. destruct (A2 a c n Ha G) as [-> Hk].
    destruct n as [d [|l [|r [|]]]]; try exact I. unfold take. rewrite G. cbn [bind].
    cbn in Hk. rewrite app_nil_r in Hk.
    apply H; [now apply put_none_ok| |]; intros b Hb; apply Hk, in_or_app; auto.
  Qed.
  Definition pin2 (x : ptr * option (K * V) * ptr) : Prop := pin (fst (fst x)) /\ pin (snd x).
  Lemma split_lone {Q} (bor : K -> Q) cmp fuel : forall (h : heap) p q, ok h -> pin p -> lval pin2 (h_split bor cmp bomb fuel h p q).
  Proof.
    induction fuel as [|fuel IH]; intros h p q O Pp; [exact I|]. cbn [h_split]. destruct p as [rc|].
    2:{ cbn. split; auto. split; apply pin_none. }
    apply unshare_lone; auto with lz. intros h1 d l r O1 Pl Pr. destruct (cmp _ _).
    - cbn. split; auto. now split.
    - eapply b_val_v; [apply IH; auto|]. intros h2 [[l1 kv] r1] O2 [P1 P2]. cbn [fst snd] in *.
      eapply b_val_v; [apply join_lone; auto|]. intros h3 r' O3 P3. cbn. split; auto. now split.
    - eapply b_val_v; [apply IH; auto|]. intros h2 [[l1 kv] r1] O2 [P1 P2]. cbn [fst snd] in *.
      eapply b_val_v; [apply join_lone; auto|]. intros h3 r' O3 P3. cbn. split; auto. now split.
  Qed.

  Lemma drops_lone fuel : forall (h : heap) ps, ok h -> (forall p, In p ps -> pin p) ->
    match drops_fuel fuel h ps with Ok h' => ok h' | Panic => True end.
  Proof.
    induction fuel as [|fuel IH]; intros h ps O Hp; [exact I|]. cbn [drops_fuel].
    destruct ps as [|[a|] ps]; auto.
    - destruct (get h a) as [[[|[|c]] n]|] eqn:G; try exact I.
      + apply IH; [apply put_none_ok; auto; apply (pin_inv _ (Hp _ (or_introl eq_refl)))|]. intros p Hi. apply in_app_or in Hi as [Hi|Hi]; [|apply Hp; now right].
        destruct O as [[A1 A2] C]. destruct (A2 a _ _ (pin_inv _ (Hp _ (or_introl eq_refl))) G) as [_ Hk].
        intros b Hb. apply Hk. apply in_flat_map. eauto.
      + destruct O as [[A1 A2] C]. destruct (A2 a _ _ (pin_inv _ (Hp _ (or_introl eq_refl))) G) as [Hc _]. lia.
    - apply IH; auto. intros p Hi. apply Hp. now right.
  Qed.
  Lemma drop_lone {A} (P : A -> Prop) (h : heap) p k : ok h -> pin p ->
    (forall h1, ok h1 -> lval P (k h1)) -> lval P (bind (drop h p) k).
  Proof.
    intros O Pp H. unfold drop, drops. pose proof (drops_lone (S (length [p] + slots h)) h [p] O) as D.
    destruct (drops_fuel _ h [p]); cbn [bind]; [|exact I]. apply H, D. intros x [<-|[]]. exact Pp.
  Qed.

  Lemma merge_lone {Q} (bor : K -> Q) cmp kl kr dec fuel : forall (h : heap) p1 p2, ok h -> pin p1 -> pin p2 ->
    lval pin (h_merge bor cmp bomb kl kr dec fuel h p1 p2).
  Proof.
    induction fuel as [|fuel IH]; intros h p1 p2 O P1 P2; [exact I|]. cbn [h_merge].
    destruct p1 as [a1|]; [destruct p2 as [a2|]|].
    - apply unshare_lone; auto with lz. intros h1 d l r O1 Pl Pr.
      eapply b_val_v; [apply split_lone; auto|]. intros h2 [[l1 kv] r1] O2 [Q1 Q2]. cbn [fst snd] in *.
      eapply b_val_v; [apply IH; auto|]. intros h3 lf O3 P3.
      eapply b_val_v; [apply IH; auto|]. intros h4 rt O4 P4. now apply join2_lone.
    - destruct kl; [eauto with lz|]. apply drop_lone; auto. intros. eauto with lz.
    - destruct kr; [eauto with lz|]. apply drop_lone; auto. intros. eauto with lz.
  Qed.
End Lazy.
