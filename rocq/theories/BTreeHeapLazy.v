(** A [BTreeMap] none of whose nodes is shared is changed in place: no clone is made. *)
From Coq Require Import List PeanoNat Bool Lia.
From Verif Require Import Base Spec Vec Heap HeapProofs BTreeModel BTreeIterModel BTreeHeapModel BTreeHeapSpec.
Import ListNotations.
Local Open Scope nat_scope.

Section Lazy.
  Context {K V : Type}.
  Variable N : nat.
  Variable bomb : nat -> bool.
  Variable U : addr -> Prop.
  Notation pay := (list (K * V)).
  Notation heap := (heap pay).
  Variable c0 : list pay.
  Notation alone := (alone U).
  Notation pins := (Forall U).

  (** In place so far. *)
  Definition ok (h : heap) : Prop := alone h /\ clones h = c0.

  Lemma put_none_ok (h : heap) a : ok h -> ok (put h a None).
  Proof.
    intros [[A1 A2] C]. split; auto. split.
    - intros b Hb. rewrite cells_put in Hb. auto.
    - intros b c n Hb G. destruct (Nat.lt_ge_cases a (length (cells h))) as [L|L].
      + rewrite get_put in G by auto. destruct (Nat.eq_dec a b); [discriminate|]. eauto.
      + unfold put in G. rewrite upd_beyond in G by auto. eapply A2; eauto.
  Qed.
  Lemma olists_map (ks : list addr) : olists (map Some ks) = ks.
  Proof. induction ks as [|k ks IH]; cbn; [auto|]. unfold olists in IH. now rewrite IH. Qed.
  Lemma cls_ok (h : heap) a es ks : ok h -> U a -> pins ks -> ok (cls h a es ks).
  Proof.
    intros [[A1 A2] C] Ha Hk. split; auto. unfold cls, give. split.
    - intros b Hb. rewrite cells_put in Hb. auto.
    - intros b c n Hb G. destruct (Nat.lt_ge_cases a (length (cells h))) as [L|L].
      + rewrite get_put in G by auto. destruct (Nat.eq_dec a b) as [<-|Hn]; [|eauto]. injection G as <- <-.
        split; auto. cbn [nd_kids]. rewrite olists_map. now apply Forall_forall.
      + unfold put in G. rewrite upd_beyond in G by auto. eapply A2; eauto.
  Qed.
  Lemma alloc_lone (h : heap) es ks h1 a : ok h -> pins (olists ks) -> alloc h (Nd es ks) = (h1, a) -> ok h1 /\ U a.
  Proof.
    intros [[A1 A2] C] Hk E. assert (Ea : a = length (cells h)) by (unfold alloc in E; congruence).
    assert (E1 : h1 = fst (alloc h (Nd es ks))) by (rewrite E; auto). subst h1 a.
    split; [|apply A1; auto]. split; auto. split.
    - intros b Hb. apply A1. unfold alloc in Hb. cbn in Hb. rewrite app_length in Hb. lia.
    - intros b c n Hb G. rewrite get_alloc in G. destruct (Nat.eq_dec _ b) as [_|Hn]; [|eauto]. injection G as <- <-.
      split; auto. cbn [nd_kids]. now apply Forall_forall.
  Qed.

  Definition lres {A} (P : A -> Prop) (x : res A) : Prop := match x with Ok a => P a | Panic => True end.
  Definition isd {A} (P : A -> Prop) (x : out A) : Prop := match x with Done a => P a | Unwound => False end.
  Definition any {A} (_ : A) : Prop := True.
  Lemma l_bind {A B} (P : A -> Prop) (R : B -> Prop) x k : lres P x -> (forall a, P a -> lres R (k a)) -> lres R (bind x k).
  Proof. destruct x; cbn; auto. Qed.
  Lemma l_pure {A B} (R : B -> Prop) (x : res A) k : (forall a, x = Ok a -> lres R (k a)) -> lres R (bind x k).
  Proof. destruct x; cbn; auto. Qed.

  Definition opened (a : addr) (r : heap * out (addr * pay * list addr)) : Prop :=
    ok (fst r) /\ isd (fun x => fst (fst x) = a /\ pins (snd x)) (snd r).
  Lemma take_lone (h : heap) a : ok h -> U a -> lres (fun r => ok (fst r) /\ pins (olists (nd_kids (snd r)))) (take h a).
  Proof.
    intros O Ha. pose proof O as O'. destruct O' as [[A1 A2] C]. unfold take. destruct (get h a) as [[c n]|] eqn:G; try exact I.
    destruct (A2 a c n Ha G) as [-> Hk]. cbn. split; [now apply put_none_ok|]. now apply Forall_forall.
  Qed.
  Lemma opn_lone (h : heap) a : ok h -> U a -> lres (opened a) (opn bomb h a).
  Proof.
    intros O Ha. pose proof O as O'. destruct O' as [[A1 A2] C]. unfold opn, make_mut.
    destruct (get h a) as [[c n]|] eqn:G; try exact I. destruct (A2 a c n Ha G) as [-> Hk]. cbn [bind].
    eapply l_bind; [now apply take_lone|]. intros [h1 n1] [O1 P1]. split; cbn in *; auto.
  Qed.
  Lemma own_lone (h : heap) a : ok h -> U a ->
    lres (fun r : heap * out (pay * list addr) => ok (fst r) /\ isd (fun x => pins (snd x)) (snd r)) (own bomb h a).
  Proof.
    intros O Ha. pose proof O as O'. destruct O' as [[A1 A2] C]. unfold own.
    destruct (get h a) as [[c n]|] eqn:G; try exact I. destruct (A2 a c n Ha G) as [-> Hk].
    eapply l_bind; [now apply take_lone|]. intros [h1 n1] [O1 P1]. cbn in *. split; auto.
  Qed.
  Lemma drops_lone fuel : forall (h : heap) ps, ok h -> pins (olists ps) -> lres ok (drops_fuel fuel h ps).
  Proof.
    induction fuel as [|fuel IH]; intros h ps O P; [exact I|]. cbn [drops_fuel]. destruct ps as [|[a|] ps]; [exact O| |].
    - cbn [olists flat_map olist app] in P. inversion P as [|? ? Ha Hp]; subst. pose proof O as O'. destruct O' as [[A1 A2] C].
      destruct (get h a) as [[c n]|] eqn:G; try exact I. destruct (A2 a c n Ha G) as [-> Hk]. apply IH; [now apply put_none_ok|].
      unfold olists. rewrite flat_map_app. apply Forall_app. split; auto. now apply Forall_forall.
    - now apply IH.
  Qed.

  (** Vectors of pointers. *)
  Lemma pins_incl ks ks' : pins ks -> incl ks' ks -> pins ks'.
  Proof. rewrite !Forall_forall. auto. Qed.
  Lemma pins_nth ks i c : pins ks -> nth_error ks i = Some c -> U c.
  Proof. intros P E. eapply Forall_forall; [exact P|]. eapply nth_error_In; eauto. Qed.
  Lemma pins_parts i (ks : list addr) : pins ks -> pins (firstn i ks) /\ pins (skipn i ks).
  Proof. intros P. rewrite <- (firstn_skipn i ks) in P. now apply Forall_app in P. Qed.
  Lemma pins_set i c ks : pins ks -> U c -> pins (set_at i c ks).
  Proof.
    intros P Hc. unfold set_at. destruct (pins_parts i ks P) as [P1 P2]. destruct (skipn i ks) as [|x r]; auto. inversion P2; subst.
    apply Forall_app; split; auto.
  Qed.
  Lemma pins_insert i c ks ks' : pins ks -> U c -> vec_insert i c ks = Ok ks' -> pins ks'.
  Proof.
    intros P Hc E. unfold vec_insert in E. destruct (_ <=? _); [|discriminate]. injection E as <-. destruct (pins_parts i ks P).
    apply Forall_app; split; auto.
  Qed.
  Lemma pins_remove i ks c ks' : pins ks -> vec_remove i ks = Ok (c, ks') -> U c /\ pins ks'.
  Proof.
    intros P E. unfold vec_remove in E. destruct (pins_parts i ks P) as [P1 P2]. destruct (skipn i ks) as [|x r]; [discriminate|]. injection E as <- <-.
    inversion P2; subst. split; auto. apply Forall_app; split; auto.
  Qed.
  Lemma pins_pop ks c ks' : pins ks -> vec_pop ks = Some (c, ks') -> U c /\ pins ks'.
  Proof.
    intros P E. unfold vec_pop in E. apply Forall_rev in P. destruct (rev ks) as [|x r]; [discriminate|]. injection E as <- <-. inversion P; subst.
    split; auto. now apply Forall_rev.
  Qed.
  Lemma pins_some ks : pins ks -> pins (olists (map Some ks)).
  Proof. now rewrite olists_map. Qed.
  Lemma unwrap_ok {A} (o : option A) x : unwrap o = Ok x -> o = Some x.
  Proof. destruct o; cbn; congruence. Qed.

  Hint Resolve cls_ok pins_set pins_some : lz.

  (** The outcomes of node functions. *)
  Definition lnode {A} (P : A -> Prop) (r : heap * addr * out A) : Prop := ok (fst (fst r)) /\ U (snd (fst r)) /\ isd P (snd r).
  Definition lpart {A} (r : heap * pay * list addr * out A) : Prop := ok (fst (fst (fst r))) /\ pins (snd (fst r)) /\ isd any (snd r).

  Ltac opn_ hx ex kx Ox Px := eapply l_bind; [apply opn_lone; [solve [auto with lz]..|solve [eauto using pins_nth with lz]]|];
    intros [hx [[[? ex] kx]|]] [Ox Px]; cbn [fst snd isd] in Ox, Px; [destruct Px as [-> Px]|destruct Px].
  Ltac un := apply l_pure; let E := fresh "Eu" in intros ? E; try apply unwrap_ok in E.

  Lemma rot_lf_lone (h : heap) es ks i : ok h -> pins ks -> lres lpart (h_rot_lf N bomb h es ks i).
  Proof.
    intros O P. unfold h_rot_lf. un. un. pose proof (pins_nth _ _ _ P Eu0). un. un. opn_ h1 es1 ks1 O1 P1.
    apply l_pure. intros [kv2 r'] E1.
    eapply l_bind with (P := fun x => pins (olist (fst x)) /\ pins (snd x)).
    { destruct (is_nil ks1); [split; cbn; auto|]. apply l_pure. intros [x l1] E2. apply pins_remove in E2 as [? ?]; auto. split; cbn; auto. }
    intros [kid ks'] [Pk1 Pk2]. cbn [fst snd] in *. un. un. assert (Ua : U a4) by (eapply pins_nth; [|exact Eu4]; auto with lz).
    un. un. opn_ h2 es2 ks2 O2 P2. split; [|split]; cbn [fst snd isd]; auto using I with lz; try exact I.
    apply cls_ok; auto. apply Forall_app; auto.
  Qed.
  Lemma rot_rt_lone (h : heap) es ks i : ok h -> pins ks -> lres lpart (h_rot_rt N bomb h es ks i).
  Proof.
    intros O P. unfold h_rot_rt. un. un. pose proof (pins_nth _ _ _ P Eu0). un. un. opn_ h1 es1 ks1 O1 P1.
    apply l_pure. intros [kv2 r'] E1.
    destruct (match vec_pop ks1 with Some (x, l_ks') => (Some x, l_ks') | None => (None, ks1) end) as [kid ks'] eqn:Ek.
    assert (Pk' : pins (olist kid) /\ pins ks').
    { destruct (vec_pop ks1) as [[x l']|] eqn:Ep; injection Ek as <- <-; cbn; auto. apply pins_pop in Ep as [? ?]; auto. }
    destruct Pk' as [Pk1 Pk2]. un. un. assert (Ua : U a4) by (eapply pins_nth; [|exact Eu4]; auto with lz).
    opn_ h2 es2 ks2 O2 P2. un. eapply l_bind with (P := pins).
    { destruct kid as [x|]; [|exact P2]. inversion Pk1; subst. unfold lres. destruct (vec_insert 0 x ks2) eqn:Ei; auto. eapply pins_insert; [| |exact Ei]; auto. }
    intros r_ks' Pr. split; [|split]; cbn [fst snd isd]; auto using I with lz; exact I.
  Qed.
  Lemma merge_kids_lone (h : heap) es ks i : ok h -> pins ks -> lres lpart (h_merge_kids bomb h es ks i).
  Proof.
    intros O P. unfold h_merge_kids. apply l_pure. intros [mid es1] _. apply l_pure. intros [l ks0] E. apply pins_remove in E as [Ul P0]; auto.
    eapply l_bind; [apply own_lone; auto|]. intros [h1 [[l_es l_ks]|]] [O1 Pl]; cbn [fst snd isd] in *; [|contradiction].
    un. assert (Ur : U a) by (eapply pins_nth; [exact P0|eauto]). opn_ h2 es2 ks2 O2 P2. split; [|split]; cbn [fst snd isd]; auto using I with lz; try exact I.
    apply cls_ok; auto. apply Forall_app; auto.
  Qed.
  Lemma rebal_lone (h : heap) es ks i : ok h -> pins ks -> lres lpart (h_rebal N bomb h es ks i).
  Proof.
    intros O P. unfold h_rebal. un. eapply l_bind with (P := lpart).
    - destruct (0 <? i); un; un; destruct (_ <? _); auto using rot_rt_lone, rot_lf_lone, merge_kids_lone.
    - intros [[[h1 es1] ks1] [[]|]] (O1 & P1 & D1); cbn [fst snd isd] in *; [|contradiction]. split; auto.
  Qed.
  Lemma rebal_cls_lone (h : heap) a es ks i kv : ok h -> U a -> pins ks -> lres (lnode any) (h_rebal_cls N bomb h a es ks i kv).
  Proof.
    intros O Ua P. unfold h_rebal_cls. eapply l_bind; [now apply rebal_lone|].
    intros [[[h1 es1] ks1] [u|]] (O1 & P1 & D1); cbn [fst snd isd] in *; [|contradiction]. split; [|split]; cbn; auto with lz; exact I.
  Qed.
  Lemma l_node {A} (P : A -> Prop) (h : heap) a o : ok h -> U a -> P o -> lres (lnode P) (Ok (h, a, Done o)).
  Proof. intros. split; [|split]; auto. Qed.
  Hint Resolve l_node rebal_cls_lone I : lz.

  Lemma pop_first_lone fuel : forall (h : heap) a, ok h -> U a -> lres (lnode any) (h_pop_first N bomb fuel h a).
  Proof.
    induction fuel as [|fuel IH]; intros h a O Ua; [exact I|]. cbn [h_pop_first]. opn_ h0 p l O0 Pk. destruct (nth_error l 0) as [c|] eqn:Ec.
    - eapply l_bind; [apply IH; [auto|eapply pins_nth; eauto]|]. intros [[h2 c'] [o|]] (O2 & Uc & D2); cbn [fst snd isd] in *; [|contradiction].
      destruct o as [[kv [|]]|]; auto 6 with lz; apply l_node; auto with lz; exact I.
    - apply l_pure. intros [kv es'] _. apply l_node; auto with lz; exact I.
  Qed.
  Lemma pop_last_lone fuel : forall (h : heap) a, ok h -> U a -> lres (lnode any) (h_pop_last N bomb fuel h a).
  Proof.
    induction fuel as [|fuel IH]; intros h a O Ua; [exact I|]. cbn [h_pop_last]. opn_ h0 p l O0 Pk. destruct (last_opt l) as [c|] eqn:Ec.
    - eapply l_bind; [apply IH; [auto|eapply pins_nth; eauto]|]. intros [[h2 c'] [o|]] (O2 & Uc & D2); cbn [fst snd isd] in *; [|contradiction].
      destruct o as [[kv [|]]|]; auto 6 with lz; apply l_node; auto with lz; exact I.
    - apply l_pure. intros [kv es'] _. apply l_node; auto with lz; exact I.
  Qed.

  (** The result of [Node::insert] may hold a new node. *)
  Definition pinned_ins (r : hins K V) : Prop := match r with HSplit c _ _ => pins (olist c) | _ => True end.

  Section Q.
    Context {Q : Type} (bor : K -> Q) (cmp : Q -> Q -> comparison).
    Lemma get_mut_lone fuel w : forall (h : heap) a q, ok h -> U a -> lres (lnode any) (h_get_mut bor cmp bomb fuel h a q w).
    Proof.
      induction fuel as [|fuel IH]; intros h a q O Ua; [exact I|]. cbn [h_get_mut]. opn_ h0 p l O0 Pk. cbv zeta.
      assert (Bl : forall i, lres (lnode any) (match nth_error l i with
        | None => Ok (cls h0 a p l, a, Done None)
        | Some c => '(h2, c', o) <- h_get_mut bor cmp bomb fuel h0 c q w;; Ok (cls h2 a p (set_at i c' l), a, o)
        end)).
      { intros i. destruct (nth_error l i) as [c|] eqn:Ec; [|apply l_node; auto with lz; exact I].
        eapply l_bind; [apply IH; [auto|eapply pins_nth; eauto]|]. intros [[h2 c'] [o|]] (O2 & Uc & D2); cbn [fst snd isd] in *; [|contradiction].
        apply l_node; auto with lz. }
      destruct (scan bor cmp q p) as [i [| |]]; auto. destruct (nth_error p i); apply l_node; auto with lz; exact I.
    Qed.
    Lemma remove_lone fuel : forall (h : heap) a q, ok h -> U a -> lres (lnode any) (h_remove bor cmp N bomb fuel h a q).
    Proof.
      induction fuel as [|fuel IH]; intros h a q O Ua; [exact I|]. cbn [h_remove]. opn_ h0 p l O0 Pk. cbv zeta.
      assert (Bl : forall i at_, lres (lnode any) (match nth_error l i with
        | None => Ok (cls h0 a p l, a, Done None)
        | Some c =>
          '(h2, c', o) <- h_remove bor cmp N bomb fuel h0 c q;;
          let ks1 := set_at i c' l in
          match o with
          | Done (Some (kv, true)) => h_rebal_cls N bomb h2 a p ks1 at_ kv
          | _ => Ok (cls h2 a p ks1, a, o)
          end
        end)).
      { intros i at_. destruct (nth_error l i) as [c|] eqn:Ec; [|apply l_node; auto with lz; exact I].
        eapply l_bind; [apply IH; [auto|eapply pins_nth; eauto]|]. intros [[h2 c'] [o|]] (O2 & Uc & D2); cbn [fst snd isd] in *; [|contradiction].
        cbv zeta. destruct o as [[kv [|]]|]; auto 6 with lz; apply l_node; auto with lz; exact I. }
      destruct (scan bor cmp q p) as [i [| |]]; auto. destruct (is_nil l).
      - apply l_pure. intros [kv es'] _. apply l_node; auto with lz; exact I.
      - un. eapply l_bind; [apply pop_last_lone; [auto|eapply pins_nth; eauto]|]. intros [[h2 c'] [o|]] (O2 & Uc & D2); cbn [fst snd isd] in *; [|contradiction].
        apply l_pure. intros [kv under] _. un. destruct under; auto with lz; apply l_node; auto with lz; exact I.
    Qed.
    Lemma split_lone (h : heap) a es ks : ok h -> U a -> pins ks ->
      lres (fun r : heap * hins K V => ok (fst r) /\ pinned_ins (snd r)) (h_split N h a es ks).
    Proof.
      intros O Ua P. unfold h_split. un. apply l_pure. intros [lo_es hi_es] _.
      eapply l_bind with (P := fun x => pins (fst x) /\ pins (snd x)).
      { destruct (is_nil ks); [split; cbn; auto|]. unfold vec_split_off. destruct (_ <=? _); cbn; auto. now apply pins_parts. }
      intros [lo_ks hi_ks] [P1 P2]. cbn [fst snd] in *. apply l_pure. intros [mid lo_es'] _.
      destruct (alloc (cls h a hi_es hi_ks) (Nd lo_es' (map Some lo_ks))) as [h2 b] eqn:E. apply alloc_lone in E as [O2 Ub]; auto with lz.
      cbn. auto.
    Qed.
    Lemma insert_lone fuel : forall (h : heap) a k v, ok h -> U a -> lres (lnode pinned_ins) (h_insert bor cmp N bomb fuel h a k v).
    Proof.
      induction fuel as [|fuel IH]; intros h a k v O Ua; [exact I|]. cbn [h_insert]. opn_ h0 p l O0 Pk.
      assert (Go : forall ub, lres (lnode pinned_ins)
        ('(h2, ks1, r) <- match nth_error l ub with
                          | Some c => '(h2, c', o) <- h_insert bor cmp N bomb fuel h0 c k v;; Ok (h2, set_at ub c' l, o)
                          | None => Ok (h0, l, Done (HSplit None k v))
                          end;;
         match r with
         | Unwound => Ok (cls h2 a p ks1, a, Unwound)
         | Done (HSplit child k1 v1) =>
           es1 <- vec_insert ub (k1, v1) p;;
           ks2 <- match child with Some rc => vec_insert ub rc ks1 | None => Ok ks1 end;;
           if length es1 <=? MAX_OCC N then Ok (cls h2 a es1 ks2, a, Done HAbsorbed)
           else '(h3, s) <- h_split N h2 a es1 ks2;; Ok (h3, a, Done s)
         | Done s => Ok (cls h2 a p ks1, a, Done s)
         end)).
      { intros ub. eapply l_bind with (P := fun x : heap * list addr * out (hins K V) => ok (fst (fst x)) /\ pins (snd (fst x)) /\ isd pinned_ins (snd x)).
        { destruct (nth_error l ub) as [c|] eqn:Ec; [|cbn; auto].
          eapply l_bind; [apply IH; [auto|eapply pins_nth; eauto]|]. intros [[h2 c'] [o|]] (O2 & Uc & D2); cbn [fst snd isd] in *; [|contradiction]. cbn. auto with lz. }
        intros [[h2 ks1] [r|]] (O2 & P2 & D2); cbn [fst snd isd] in *; [|contradiction].
        destruct r as [v'|child k1 v1|]; try (apply l_node; auto with lz; exact I). cbn [pinned_ins] in D2. un.
        eapply l_bind with (P := pins).
        { destruct child as [x|]; [|exact P2]. inversion D2; subst. unfold lres. destruct (vec_insert ub x ks1) eqn:Ei; auto. eapply pins_insert; [| |exact Ei]; auto. }
        intros ks2 Pk2. destruct (_ <=? _); [apply l_node; auto with lz; exact I|].
        eapply l_bind; [apply split_lone; auto|]. intros [h3 s] [O3 P3]. apply l_node; auto. }
      destruct (scan bor cmp (bor k) p) as [ub [| |]]; auto. un. apply l_node; auto with lz; exact I.
    Qed.

    (** ** Maps *)
    Definition lmap {A} (P : A -> Prop) (r : heap * hbmap * out A) : Prop :=
      ok (fst (fst r)) /\ pins (olist (hb_root (snd (fst r)))) /\ isd P (snd r).
    Lemma l_map {A} (P : A -> Prop) (h : heap) m o : ok h -> pins (olist (hb_root m)) -> P o -> lres (lmap P) (Ok (h, m, Done o)).
    Proof. intros. split; [|split]; auto. Qed.

    Lemma hb_get_mut_lone (h : heap) m q w : ok h -> pins (olist (hb_root m)) -> lres (lmap any) (hb_get_mut bor cmp bomb h m q w).
    Proof.
      intros O P. unfold hb_get_mut. destruct (hb_root m) as [a|] eqn:E; [|apply l_map; auto; [now rewrite E|exact I]]. inversion P; subst.
      eapply l_bind; [apply get_mut_lone; auto|]. intros [[h1 a1] [o|]] (O1 & U1 & D1); cbn [fst snd isd] in *; [|contradiction].
      apply l_map; cbn; auto; exact I.
    Qed.
    Lemma hb_insert_lone (h : heap) m k v : ok h -> pins (olist (hb_root m)) -> lres (lmap any) (hb_insert bor cmp N bomb h m k v).
    Proof.
      intros O P. unfold hb_insert. destruct (hb_root m) as [a|] eqn:E.
      - inversion P; subst. eapply l_bind; [apply insert_lone; auto|]. intros [[h1 a1] [o|]] (O1 & U1 & D1); cbn [fst snd isd] in *; [|contradiction].
        destruct o as [v'|c k1 v1|]; try (apply l_map; cbn; auto; exact I). un. subst. cbn [pinned_ins olist] in D1.
        destruct (alloc h1 _) as [h2 r] eqn:Ea. apply alloc_lone in Ea as [O2 Ur]; auto; [apply l_map; cbn; auto; exact I|].
        cbn. inversion D1; subst. auto.
      - destruct (alloc h _) as [h2 r] eqn:Ea. apply alloc_lone in Ea as [O2 Ur]; cbn; auto. apply l_map; cbn; auto; exact I.
    Qed.
    Lemma rm_lone (h : heap) m remover : ok h -> pins (olist (hb_root m)) ->
      (forall h a, ok h -> U a -> lres (lnode any) (remover h a)) -> lres (lmap any) (@h_rm_and_rebal K V h m remover).
    Proof.
      intros O P H. unfold h_rm_and_rebal. destruct (hb_root m) as [a|] eqn:E; [|apply l_map; auto; [now rewrite E|exact I]]. inversion P; subst.
      eapply l_bind; [apply H; auto|]. intros [[h1 a1] [o|]] (O1 & U1 & D1); cbn [fst snd isd] in *; [|contradiction].
      destruct o as [[old under]|]; [|apply l_map; cbn; auto; exact I]. un. eapply l_bind; [apply take_lone; auto|]. intros [h2 n] [O2 P2]. cbn [fst snd] in *.
      cbv zeta. destruct (under && is_nil (nd_data n)); [|apply l_map; cbn; auto with lz; exact I]. un.
      destruct (match vec_pop (olists (nd_kids n)) with Some (c, ks') => (Some c, ks') | None => (None, olists (nd_kids n)) end) as [root ks'] eqn:Ek.
      assert (Pk' : pins (olist root) /\ pins ks').
      { destruct (vec_pop (olists (nd_kids n))) as [[x l']|] eqn:Ep; injection Ek as <- <-; cbn; auto. apply pins_pop in Ep as [? ?]; auto. }
      destruct Pk' as [Pk1 Pk2]. eapply l_bind; [apply drops_lone; cbn; auto with lz|]. intros h3 O3. apply l_map; cbn; auto; exact I.
    Qed.
    Lemma hb_remove_lone (h : heap) m q : ok h -> pins (olist (hb_root m)) -> lres (lmap any) (hb_remove bor cmp N bomb h m q).
    Proof.
      intros O P. unfold hb_remove. un. destruct (negb _); [apply l_map; auto; exact I|].
      eapply l_bind; [apply rm_lone; auto; intros; now apply remove_lone|]. intros [[h1 m1] [o|]] (O1 & U1 & D1); cbn [fst snd isd] in *; [|contradiction].
      apply l_map; auto; exact I.
    Qed.
    Lemma hb_extend_lone ps : forall (h : heap) m, ok h -> pins (olist (hb_root m)) -> lres (lmap any) (hb_extend bor cmp N bomb h m ps).
    Proof.
      induction ps as [|[k v] ps IH]; intros h m O P; cbn [hb_extend]; [apply l_map; auto; exact I|].
      eapply l_bind; [apply hb_insert_lone; auto|]. intros [[h1 m1] [o|]] (O1 & U1 & D1); cbn [fst snd isd] in *; [|contradiction]. auto.
    Qed.
    Lemma hb_or_insert_lone (h : heap) m k v w : ok h -> pins (olist (hb_root m)) -> lres (lmap any) (hb_or_insert bor cmp N bomb h m k v w).
    Proof.
      intros O P. unfold hb_or_insert. un. eapply l_bind with (P := lmap any).
      - destruct (negb _); [|apply l_map; auto; exact I]. eapply l_bind; [apply hb_insert_lone; auto|].
        intros [[h1 m1] [o|]] (O1 & U1 & D1); cbn [fst snd isd] in *; [|contradiction]. apply l_map; auto; exact I.
      - intros [[h1 m1] [[]|]] (O1 & U1 & D1); cbn [fst snd isd] in *; [|contradiction].
        eapply l_bind; [apply hb_get_mut_lone; auto|]. intros [[h2 m2] [o|]] (O2 & U2 & D2); cbn [fst snd isd] in *; [|contradiction].
        un. apply l_map; auto; exact I.
    Qed.

    (** ** Owning iteration *)
    Definition wpin (w : @hwork K V) : Prop := match w with HOwned _ ks _ _ => pins ks | HArc _ _ _ _ _ _ _ => False end.
    Lemma try_unwrap_lone (h : heap) a : ok h -> U a -> lres (fun r => ok (fst r) /\ wpin (snd r)) (w_try_unwrap h a).
    Proof.
      intros O Ua. pose proof O as O'. destruct O' as [[A1 A2] C]. unfold w_try_unwrap, unique.
      destruct (get h a) as [[c n]|] eqn:G; [|cbn; unfold w_shared, node_at; rewrite G; exact I].
      destruct (A2 a c n Ua G) as [-> Hk]. eapply l_bind; [apply take_lone; auto|]. intros [h1 n1] [O1 P1]. cbn in *. auto.
    Qed.
    Lemma next_kid_lone (h : heap) w : ok h -> wpin w ->
      lres (fun r => ok (fst (fst r)) /\ wpin (snd (fst r)) /\ match snd r with Some c => wpin c | None => True end) (w_next_kid h w).
    Proof.
      intros O P. destruct w as [|es ks lf rt]; [contradiction|]. cbn [w_next_kid wpin] in *. un. destruct ks as [|c ks]; [cbn; auto|]. inversion P; subst.
      eapply l_bind; [apply try_unwrap_lone; auto|]. intros [h1 w] [O1 W1]. cbn in *. auto.
    Qed.
    Lemma next_back_kid_lone (h : heap) w : ok h -> wpin w ->
      lres (fun r => ok (fst (fst r)) /\ wpin (snd (fst r)) /\ match snd r with Some c => wpin c | None => True end) (w_next_back_kid h w).
    Proof.
      intros O P. destruct w as [|es ks lf rt]; [contradiction|]. cbn [w_next_back_kid wpin] in *. un.
      destruct (vec_pop ks) as [[c ks']|] eqn:Ep; [|cbn; auto]. apply pins_pop in Ep as [Uc Pk]; auto.
      eapply l_bind; [apply try_unwrap_lone; auto|]. intros [h1 w] [O1 W1]. cbn in *. auto.
    Qed.
    Lemma next_elem_lone (h : heap) w : ok h -> wpin w ->
      lres (fun r => ok (fst (fst r)) /\ wpin (snd (fst r)) /\ isd any (snd r)) (w_next_elem bomb h w)
      /\ lres (fun r => ok (fst (fst r)) /\ wpin (snd (fst r)) /\ isd any (snd r)) (w_next_back_elem bomb h w).
    Proof.
      intros O P. destruct w as [|es ks lf rt]; [contradiction|]. cbn [w_next_elem w_next_back_elem wpin] in *.
      split; un; (split; [exact O|split; [exact P|exact I]]).
    Qed.
    Lemma w_drop_lone (h : heap) w : ok h -> wpin w -> lres ok (w_drop h w).
    Proof.
      intros O P. destruct w as [|es ks lf rt]; [contradiction|]. apply drops_lone; auto with lz.
    Qed.
    Lemma pop_work (w : list (@hwork K V)) e w' : Forall wpin w -> vec_pop w = Some (e, w') -> wpin e /\ Forall wpin w'.
    Proof.
      intros P E. unfold vec_pop in E. apply Forall_rev in P. destruct (rev w) as [|x r]; [discriminate|]. injection E as <- <-. inversion P; subst.
      split; auto. now apply Forall_rev.
    Qed.
    Lemma des_lf_lone fuel : forall (h : heap) w, ok h -> Forall wpin w -> lres (fun r => ok (fst r) /\ Forall wpin (snd r)) (h_des_lf fuel h w).
    Proof.
      induction fuel as [|fuel IH]; intros h w O P; [exact I|]. cbn [h_des_lf]. destruct w as [|e w]; [exact I|]. inversion P; subst.
      eapply l_bind; [apply next_kid_lone; auto|]. intros [[h1 e1] [c|]] (O1 & W1 & Wc); cbn [fst snd] in *; [|cbn; auto].
      destruct (w_empty e1); [|auto]. eapply l_bind; [apply w_drop_lone; auto|]. intros h2 O2. auto.
    Qed.
    Lemma des_rt_lone fuel : forall (h : heap) w, ok h -> Forall wpin w -> lres (fun r => ok (fst r) /\ Forall wpin (snd r)) (h_des_rt fuel h w).
    Proof.
      induction fuel as [|fuel IH]; intros h w O P; [exact I|]. cbn [h_des_rt]. apply l_pure. intros [e w'] E. apply unwrap_ok in E. apply pop_work in E as [We Ww]; auto.
      eapply l_bind; [apply next_back_kid_lone; auto|]. intros [[h1 e1] [c|]] (O1 & W1 & Wc); cbn [fst snd] in *; [|cbn; split; auto; apply Forall_app; auto].
      destruct (w_empty e1); [|apply IH; auto; apply Forall_app; auto]. eapply l_bind; [apply w_drop_lone; auto|]. intros h2 O2. apply IH; auto. apply Forall_app; auto.
    Qed.
    Definition lit {A} (r : heap * h_iter * out A) : Prop := ok (fst (fst r)) /\ Forall wpin (hi_work (snd (fst r))) /\ isd any (snd r).
    Lemma next_lone (h : heap) it : ok h -> Forall wpin (hi_work it) -> lres lit (h_next bomb h it).
    Proof.
      intros O P. unfold h_next. destruct (hi_work it) as [|e w] eqn:Ew; [split; [exact O|split; [cbn [fst snd]; rewrite Ew; constructor|exact I]]|].
      eapply l_bind with (P := fun r => ok (fst r) /\ Forall wpin (snd r)).
      { destruct (w_lf e); [now apply des_lf_lone|cbn; auto]. }
      intros [h1 [|e1 w1]] [O1 P1]; cbn [fst snd] in *; [exact I|]. inversion P1; subst.
      eapply l_bind; [apply next_elem_lone; auto|]. intros [[h2 e2] [o|]] (O2 & W2 & D2); cbn [fst snd isd] in *; [|contradiction]. un. un.
      destruct (w_empty e2).
      - eapply l_bind; [apply w_drop_lone; auto|]. intros h3 O3. split; [|split]; cbn; auto using I; exact I.
      - split; [|split]; cbn; auto using I; exact I.
    Qed.
    Lemma next_back_lone (h : heap) it : ok h -> Forall wpin (hi_work it) -> lres lit (h_next_back bomb h it).
    Proof.
      intros O P. unfold h_next_back. destruct (vec_pop (hi_work it)) as [[e w]|] eqn:Ew; [|split; [|split]; cbn; auto; exact I].
      eapply l_bind with (P := fun r => ok (fst r) /\ Forall wpin (snd r)).
      { destruct (w_rt e); [now apply des_rt_lone|cbn; auto]. }
      intros [h1 w1] [O1 P1]; cbn [fst snd] in *. apply l_pure. intros [e1 w1'] E. apply unwrap_ok in E. apply pop_work in E as [We Ww]; auto.
      eapply l_bind; [apply next_elem_lone; auto|]. intros [[h2 e2] [o|]] (O2 & W2 & D2); cbn [fst snd isd] in *; [|contradiction]. un. un.
      destruct (w_empty e2).
      - eapply l_bind; [apply w_drop_lone; auto|]. intros h3 O3. split; [|split]; cbn; auto using I; exact I.
      - split; [|split]; cbn; auto using I; try exact I. apply Forall_app; auto.
    Qed.
    Lemma into_iter_lone (h : heap) m : ok h -> pins (olist (hb_root m)) -> lres (fun r => ok (fst r) /\ Forall wpin (hi_work (snd r))) (@hb_into_iter K V h m).
    Proof.
      intros O P. unfold hb_into_iter. destruct (hb_root m) as [a|]; [|cbn; auto]. inversion P; subst.
      eapply l_bind; [apply try_unwrap_lone; auto|]. intros [h1 w] [O1 W1]. cbn in *. auto.
    Qed.
    Lemma hi_drop_lone (h : heap) it : ok h -> Forall wpin (hi_work it) -> lres ok (@hi_drop K V h it).
    Proof.
      intros O P. apply drops_lone; auto. apply pins_some. induction P as [|w ws W P IH]; cbn; auto. apply Forall_app. split; auto.
      destruct w; [contradiction|exact W].
    Qed.
    Lemma run_ends_lone cs : forall (h : heap) it, ok h -> Forall wpin (hi_work it) -> lres lit (h_run_ends bomb cs h it).
    Proof.
      induction cs as [|c cs IH]; intros h it O P; cbn [h_run_ends]; [split; [|split]; cbn; auto; exact I|].
      eapply l_bind with (P := lit); [destruct c; [now apply next_lone|now apply next_back_lone]|].
      intros [[h1 it1] [x|]] (O1 & W1 & D1); cbn [fst snd isd] in *; [|contradiction].
      eapply l_bind; [apply IH; auto|]. intros [[h2 it2] [l|]] (O2 & W2 & D2); cbn [fst snd isd] in *; [|contradiction]. split; [|split]; cbn; auto; exact I.
    Qed.
    Lemma into_calls_lone (h : heap) m cs : ok h -> pins (olist (hb_root m)) -> lres (fun r => ok (fst r) /\ isd any (snd r)) (hb_into_calls bomb h m cs).
    Proof.
      intros O P. unfold hb_into_calls. eapply l_bind; [apply into_iter_lone; auto|]. intros [h1 it] [O1 W1]. cbn [fst snd] in *.
      eapply l_bind; [apply run_ends_lone; auto|]. intros [[h2 it2] [l|]] (O2 & W2 & D2); cbn [fst snd isd] in *; [|contradiction].
      eapply l_bind; [apply hi_drop_lone; auto|]. intros h3 O3. cbn. split; auto; exact I.
    Qed.
    Lemma extend_iter_lone fuel : forall (h : heap) m it, ok h -> pins (olist (hb_root m)) -> Forall wpin (hi_work it) ->
      lres (lmap any) (h_extend_iter bor cmp N bomb fuel h m it).
    Proof.
      induction fuel as [|fuel IH]; intros h m it O P W; [exact I|]. cbn [h_extend_iter].
      eapply l_bind; [apply next_lone; auto|]. intros [[h1 it1] [x|]] (O1 & W1 & D1); cbn [fst snd isd] in *; [|contradiction].
      destruct x as [[k v]|].
      - eapply l_bind; [apply hb_insert_lone; auto|]. intros [[h2 m2] [o|]] (O2 & U2 & D2); cbn [fst snd isd] in *; [|contradiction]. auto.
      - eapply l_bind; [apply hi_drop_lone; auto|]. intros h2 O2. apply l_map; auto; exact I.
    Qed.
    Lemma append_lone (h : heap) m other : ok h -> pins (olist (hb_root m)) -> pins (olist (hb_root other)) ->
      lres (fun r => ok (fst (fst (fst r))) /\ pins (olist (hb_root (snd (fst (fst r))))) /\ snd (fst r) = hb_new /\ isd any (snd r)) (hb_append bor cmp N bomb h m other).
    Proof.
      intros O P1 P2. unfold hb_append. eapply l_bind; [apply into_iter_lone; auto|]. intros [h1 it] [O1 W1]. cbn [fst snd] in *.
      eapply l_bind; [apply extend_iter_lone; auto|]. intros [[h2 m2] [o|]] (O2 & U2 & D2); cbn [fst snd isd] in *; [|contradiction]. cbn. auto.
    Qed.
    Lemma retain_lone {S'} (f : S' -> K -> V -> S' * V * bool) (h : heap) m s : ok h -> pins (olist (hb_root m)) ->
      lres (lmap any) (hb_retain bor cmp N bomb f (fun _ _ _ => false) h m s).
    Proof.
      intros O P. unfold hb_retain. eapply l_bind; [apply into_iter_lone; auto|]. intros [h1 it] [O1 W1]. cbn [fst snd] in *.
      eapply l_bind with (P := fun r : heap * out (hbmap * S') => ok (fst r) /\ isd (fun x => pins (olist (hb_root (fst x)))) (snd r)).
      2:{ intros [h2 [[m' s']|]] [O2 P2]; cbn [fst snd isd] in *; [|contradiction]. apply l_map; auto; exact I. }
      assert (P0 : pins (olist (hb_root hb_new))) by constructor. revert h1 it O1 W1 P0. generalize hb_new as m0. revert s. generalize (S (hb_len m)) as fuel.
      clear h m O P. induction fuel as [|fuel IH]; intros s m0 h it O W P; [exact I|]. cbn [h_retain_iter].
      eapply l_bind; [apply next_lone; auto|]. intros [[h1 it1] [x|]] (O1 & W1 & D1); cbn [fst snd isd] in *; [|contradiction].
      destruct x as [[k v]|].
      - destruct (f s k v) as [[s1 v1] [|]]; [|auto].
        eapply l_bind; [apply hb_insert_lone; auto|]. intros [[h2 m2] [o|]] (O2 & U2 & D2); cbn [fst snd isd] in *; [|contradiction]. auto.
      - eapply l_bind; [apply hi_drop_lone; auto|]. intros h2 O2. cbn. auto.
    Qed.
    Lemma split_off_lone (h : heap) m q : ok h -> pins (olist (hb_root m)) ->
      lres (lmap (fun m2 => pins (olist (hb_root m2)))) (hb_split_off bor cmp N bomb h m q).
    Proof.
      intros O P. unfold hb_split_off. eapply l_bind; [apply into_iter_lone; auto|]. intros [h1 it] [O1 W1]. cbn [fst snd] in *.
      eapply l_bind with (P := fun r : heap * out (hbmap * hbmap) => ok (fst r) /\ isd (fun x => pins (olist (hb_root (fst x))) /\ pins (olist (hb_root (snd x)))) (snd r)).
      2:{ intros [h2 [[m1 m2]|]] [O2 P2]; cbn [fst snd isd] in *; [|contradiction]. destruct P2. apply l_map; auto. }
      assert (P1 : pins (olist (hb_root hb_new))) by constructor. pose proof P1 as P2. revert h1 it O1 W1 P1 P2.
      generalize hb_new at 1 3 as m1. generalize hb_new as m2. generalize (S (hb_len m)) as fuel.
      clear h m O P. induction fuel as [|fuel IH]; intros m2 m1 h it O W P1 P2; [exact I|]. cbn [h_partition_iter].
      eapply l_bind; [apply next_lone; auto|]. intros [[h1 it1] [x|]] (O1 & W1 & D1); cbn [fst snd isd] in *; [|contradiction].
      destruct x as [[k v]|].
      - destruct (cmp q (bor k)); (eapply l_bind; [apply hb_insert_lone; auto|]); intros [[h2 mm] [o|]] (O2 & U2 & D2); cbn [fst snd isd] in *; try contradiction; auto.
      - eapply l_bind; [apply hi_drop_lone; auto|]. intros h2 O2. cbn. auto.
    Qed.
  End Q.
End Lazy.
