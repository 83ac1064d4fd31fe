(** The entry API, for every map whose [contains_key], [get_mut] and [insert] do what they may. *)
From Coq Require Import List PeanoNat Lia.
From Verif Require Import Base Spec SpecFacts Ask AskSpec AskAnySpec AskAnyProofs EntryAskModel EntryAskSpec.
From Verif Require AvlMapProofs AvlHistProofs.
Import ListNotations.
Local Open Scope nat_scope.

Section Entry.
  Context {H M K V Q : Type} (bor : K -> Q) (ask : nat -> Q -> Q -> option comparison).
  Context (contains : H -> M -> Q -> nat -> res (nat * option bool)).
  Context (get_mut : H -> M -> Q -> (V -> V) -> nat -> res (H * M * nat * option (option V))).
  Context (insert : H -> M -> K -> V -> nat -> res (H * M * nat * option (option V))).
  Notation entry := (K * V)%type.
  Notation said := (said bor ask).
  (** [G h m l]: the map [m] is good and has the entries [l]. [T h h']: what is kept between [h] and [h']. [R j l]: there is
      room for [j] more entries. [B]: some clone panics. *)
  Context (G : H -> M -> list entry -> Prop) (T : H -> H -> Prop) (R : nat -> list entry -> Prop) (B : Prop).
  Hypothesis T_refl : forall h, T h h.
  Hypothesis T_trans : forall h1 h2 h3, T h1 h2 -> T h2 h3 -> T h1 h3.
  Hypothesis R_less : forall l l', R 1 l -> length l' <= length l + 1 -> R 0 l'.
  Hypothesis contains_ok : forall h m l q n, G h m l -> R 0 l -> exists n' o, contains h m q n = Ok (n', o) /\ n <= n'
    /\ match o with Some b => b = true -> exists e, In e l /\ said n n' q e | None => panicked ask n' end.
  Hypothesis get_mut_ok : forall h m l q w n, G h m l -> R 0 l -> exists h' m' n' o l', get_mut h m q w n = Ok (h', m', n', o) /\ n <= n'
    /\ T h h' /\ G h' m' l' /\ match o with Some r => may_get_mut (said n n') q w l l' r | None => l' = l /\ (B \/ panicked ask n') end.
  Hypothesis insert_ok : forall h m l k v n, G h m l -> R 0 l -> exists h' m' n' o l', insert h m k v n = Ok (h', m', n', o) /\ n <= n'
    /\ T h h' /\ G h' m' l' /\ match o with Some r => may_insert bor (said n n') k v l l' r | None => l' = l /\ (B \/ panicked ask n') end.
  Hypothesis contains_law : forall cmp, order_laws cmp -> answers cmp ask -> forall h m l q n n' b, G h m l -> R 0 l -> ascending bor cmp l ->
    contains h m q n = Ok (n', Some b) -> b = s_mem bor cmp q l.
  Hypothesis get_mut_law : forall cmp, order_laws cmp -> answers cmp ask -> forall h m l q w n h' m' n' r, G h m l -> R 0 l -> ascending bor cmp l ->
    get_mut h m q w n = Ok (h', m', n', Some r) -> r = s_get bor cmp q l /\ G h' m' (s_update bor cmp q w l).
  Hypothesis insert_law : forall cmp, order_laws cmp -> answers cmp ask -> forall h m l k v n h' m' n' r, G h m l -> R 0 l -> ascending bor cmp l ->
    insert h m k v n = Ok (h', m', n', Some r) -> r = s_get bor cmp (bor k) l /\ G h' m' (s_insert bor cmp k v l).

  Lemma and_modify_any h m l k f n : G h m l -> R 0 l ->
    exists h' m' n' o l', e_and_modify bor get_mut h m k f n = Ok (h', m', n', o) /\ n <= n' /\ T h h' /\ G h' m' l'
      /\ match o with
         | Some _ => may_modify bor (said n n') k f l l' true
         | None => l' = l /\ (B \/ panicked ask n') \/ may_modify bor (said n n') k f l l' false
         end.
  Proof.
    intros Hg Hr. unfold e_and_modify.
    destruct (get_mut_ok h m l (bor k) (fun v => fst (f v)) n Hg Hr) as (h1 & m1 & n1 & o & l1 & -> & Ln & Ht & H1 & P). cbn [bind].
    exists h1, m1, n1. eexists. exists l1. split; [reflexivity|]. do 3 (split; [assumption|]).
    destruct o as [[v|]|]; [|exists None; auto|auto].
    destruct (snd (f v)) eqn:E; [|right]; exists (Some v); auto.
  Qed.

  Lemma mem_get cmp q (l : list entry) : s_mem bor cmp q l = match s_get bor cmp q l with Some _ => true | None => false end.
  Proof. unfold s_mem, s_get, s_find. induction l as [|e l IH]; cbn; auto. destruct (eq_q bor cmp q e); cbn; auto. Qed.
  Lemma get_inserted cmp (laws : order_laws cmp) k v (l : list entry) : ascending bor cmp l -> s_get bor cmp (bor k) (s_insert bor cmp k v l) = Some v.
  Proof. intros A. unfold s_get. rewrite (AvlMapProofs.find_insert bor cmp laws) by auto. now rewrite (cmp_refl laws). Qed.
  Lemma insert_length cmp (laws : order_laws cmp) k v (l : list entry) : ascending bor cmp l -> length (s_insert bor cmp k v l) <= length l + 1.
  Proof. intros A. rewrite (length_insert bor cmp laws) by auto. destruct (s_mem bor cmp (bor k) l); lia. Qed.

  Lemma or_insert_any h m l k f w n : G h m l -> R 1 l ->
    exists h' m' n' o l', e_or_insert bor contains get_mut insert h m k f w n = Ok (h', m', n', o) /\ n <= n' /\ T h h' /\ G h' m' l'
      /\ match o with
         | Some x => may_or_insert bor (said n n') k f w l l' x
         | None => (l' = l \/ exists v r, f = Some v /\ may_insert bor (said n n') k v l l' r)
             /\ (B \/ panicked ask n' \/ (f = None /\ l' = l) \/ contrary bor ask l)
         end.
  Proof.
    intros Hg R1. assert (Hr : R 0 l) by (apply (R_less l); auto; lia). unfold e_or_insert.
    destruct (contains_ok h m l (bor k) n Hg Hr) as (n1 & o & Ec & Ln & P). rewrite Ec. cbn [bind].
    destruct o as [there|]; [|exists h, m, n1, None, l; auto 10]. destruct there; cbn [bind].
    - destruct (get_mut_ok h m l (bor k) w n1 Hg Hr) as (h2 & m2 & n2 & o2 & l2 & E2 & L2 & T2 & G2 & P2). rewrite E2. cbn [bind].
      eexists _, _, _, _, l2. split; [reflexivity|]. split; [lia|]. do 2 (split; [assumption|]).
      assert (W : forall x (y : entry), said n1 n2 x y -> said n n2 x y) by (intros ? ?; apply said_mono; lia).
      destruct o2 as [[x|]|].
      + exists l. split; [left; split; auto|].
        { destruct (P eq_refl) as (e & I & S). exists e. split; auto. eapply said_mono; [| |exact S]; lia. }
        eapply get_mut_mono; [|exact P2]; auto.
      + cbn in P2. subst l2. split; auto. right; right; right. intros cmp laws A As.
        pose proof (contains_law cmp laws A h m l (bor k) n n1 true Hg Hr As Ec) as C1. rewrite mem_get in C1.
        destruct (get_mut_law cmp laws A _ _ _ _ _ _ _ _ _ _ Hg Hr As E2) as [C2 _]. rewrite <- C2 in C1. discriminate.
      + destruct P2 as [-> P2]. split; auto. tauto.
    - destruct f as [v|]; [|cbn [bind]; exists h, m, n1, None, l; auto 10].
      destruct (insert_ok h m l k v n1 Hg Hr) as (h2 & m2 & n2 & o2 & l2 & E2 & L2 & T2 & G2 & P2). rewrite E2. cbn [bind].
      destruct o2 as [r2|]; cbn [option_map].
      2:{ destruct P2 as [-> P2]. exists h2, m2, n2, None, l. split; [reflexivity|]. split; [lia|]. do 2 (split; [assumption|]). split; auto. tauto. }
      assert (R2 : R 0 l2). { apply (R_less l); auto. rewrite (len_insert _ _ _ _ _ _ _ P2). destruct r2; lia. }
      destruct (get_mut_ok h2 m2 l2 (bor k) w n2 G2 R2) as (h3 & m3 & n3 & o3 & l3 & E3 & L3 & T3 & G3 & P3). rewrite E3. cbn [bind].
      eexists _, _, _, _, l3. split; [reflexivity|]. split; [lia|]. split; [eapply T_trans; eauto|]. split; [assumption|].
      assert (P2' : may_insert bor (said n n3) k v l l2 r2). { eapply insert_mono; [|exact P2]. intros ? ?; apply said_mono; lia. }
      destruct o3 as [[x|]|].
      + exists l2. split; [right; eauto|]. eapply get_mut_mono; [|exact P3]. intros ? ?; apply said_mono; lia.
      + cbn in P3. subst l3. split; [right; eauto|]. right; right; right. intros cmp laws A As.
        destruct (insert_law cmp laws A _ _ _ _ _ _ _ _ _ _ Hg Hr As E2) as [_ G2'].
        assert (C2 : None = s_get bor cmp (bor k) (s_insert bor cmp k v l)).
        { refine (proj1 (get_mut_law cmp laws A _ _ _ _ _ _ _ _ _ _ G2' _ (asc_insert bor cmp laws k v l As) E3)).
          apply (R_less l); auto. now apply insert_length. }
        rewrite (get_inserted cmp laws) in C2 by auto. discriminate.
      + destruct P3 as [-> P3]. split; [right; eauto|]. tauto.
  Qed.

  (** With an order that may panic, a call that returns has done what the specification says. *)
  Lemma and_modify_law cmp (laws : order_laws cmp) (A : answers cmp ask) h m l k f n h' m' n' : G h m l -> R 0 l -> ascending bor cmp l ->
    e_and_modify bor get_mut h m k f n = Ok (h', m', n', Some tt) -> G h' m' (s_update bor cmp (bor k) (fun v => fst (f v)) l).
  Proof.
    intros Hg Hr As E. unfold e_and_modify in E.
    destruct (get_mut h m (bor k) (fun v => fst (f v)) n) as [[[[h1 m1] n1] o]|] eqn:E1; [|discriminate]. cbn [bind] in E.
    destruct o as [r|]; [|congruence]. destruct (get_mut_law cmp laws A _ _ _ _ _ _ _ _ _ _ Hg Hr As E1) as [_ G1].
    injection E as <- <- <- _. exact G1.
  Qed.
  Lemma or_insert_law cmp (laws : order_laws cmp) (A : answers cmp ask) h m l k f w n h' m' n' x : G h m l -> R 1 l -> ascending bor cmp l ->
    e_or_insert bor contains get_mut insert h m k f w n = Ok (h', m', n', Some x) ->
    match s_get bor cmp (bor k) l with
    | Some v => x = v /\ G h' m' (s_update bor cmp (bor k) w l)
    | None => f = Some x /\ G h' m' (s_insert bor cmp k (w x) l)
    end.
  Proof.
    intros Hg R1 As E. assert (Hr : R 0 l) by (apply (R_less l); auto; lia). unfold e_or_insert in E.
    destruct (contains h m (bor k) n) as [[n1 o]|] eqn:Ec; [|discriminate]. cbn [bind] in E. destruct o as [there|]; [|congruence].
    pose proof (contains_law cmp laws A _ _ _ _ _ _ _ Hg Hr As Ec) as C. rewrite mem_get in C. destruct there; cbn [bind] in E.
    - destruct (get_mut h m (bor k) w n1) as [[[[h2 m2] n2] o2]|] eqn:E2; [|discriminate]. cbn [bind] in E. destruct o2 as [r|]; [|congruence].
      destruct (get_mut_law cmp laws A _ _ _ _ _ _ _ _ _ _ Hg Hr As E2) as [-> G2]. injection E as <- <- <- E.
      destruct (s_get bor cmp (bor k) l) as [v|]; [|discriminate]. injection E as ->. auto.
    - destruct f as [v|]; [|cbn [bind] in E; congruence]. destruct (insert h m k v n1) as [[[[h2 m2] n2] o2]|] eqn:E2; [|discriminate]. cbn [bind] in E.
      destruct o2 as [r2|]; cbn [option_map] in E; [|congruence].
      destruct (insert_law cmp laws A _ _ _ _ _ _ _ _ _ _ Hg Hr As E2) as [_ G2].
      destruct (get_mut h2 m2 (bor k) w n2) as [[[[h3 m3] n3] o3]|] eqn:E3; [|discriminate]. cbn [bind] in E. destruct o3 as [r|]; [|congruence].
      assert (C3 : r = s_get bor cmp (bor k) (s_insert bor cmp k v l) /\ G h3 m3 (s_update bor cmp (bor k) w (s_insert bor cmp k v l))).
      { refine (get_mut_law cmp laws A _ _ _ _ _ _ _ _ _ _ G2 _ (asc_insert bor cmp laws k v l As) E3). apply (R_less l); auto. now apply insert_length. }
      rewrite (get_inserted cmp laws), (AvlHistProofs.update_insert bor cmp laws) in C3 by auto. destruct C3 as [-> G3]. injection E as <- <- <- <-.
      destruct (s_get bor cmp (bor k) l); [discriminate|]. auto.
  Qed.

  Lemma or_insert_order_gen cmp (laws : order_laws cmp) (A : answers cmp ask) h m l k f w n : G h m l -> R 1 l -> ascending bor cmp l ->
    exists h' m' n' o, e_or_insert bor contains get_mut insert h m k f w n = Ok (h', m', n', o) /\ (exists l', G h' m' l') /\ T h h'
      /\ match o with
         | Some x => match s_get bor cmp (bor k) l with
             | Some v => x = v /\ G h' m' (s_update bor cmp (bor k) w l)
             | None => f = Some x /\ G h' m' (s_insert bor cmp k (w x) l)
             end
         | None => (G h' m' l \/ exists v, f = Some v /\ s_get bor cmp (bor k) l = None /\ G h' m' (s_insert bor cmp k v l))
             /\ (B \/ panicked ask n' \/ (f = None /\ s_get bor cmp (bor k) l = None))
         end.
  Proof.
    intros Hg R1 As. destruct (or_insert_any h m l k f w n Hg R1) as (h' & m' & n' & o & l' & E & _ & Ht & Hg' & P).
    exists h', m', n', o. split; [exact E|]. split; [exists l'; exact Hg'|]. split; [exact Ht|].
    destruct o as [x|]; [exact (or_insert_law cmp laws A h m l k f w n h' m' n' x Hg R1 As E)|].
    assert (Hr : R 0 l) by (apply (R_less l); auto; lia). revert E. unfold e_or_insert.
    destruct (contains_ok h m l (bor k) n Hg Hr) as (n1 & o & Ec & Ln & Pc). rewrite Ec. cbn [bind].
    destruct o as [there|]; [|intros X; injection X as <- <- <-; auto].
    pose proof (contains_law cmp laws A _ _ _ _ _ _ _ Hg Hr As Ec) as C. rewrite mem_get in C. destruct there; cbn [bind].
    - destruct (get_mut_ok h m l (bor k) w n1 Hg Hr) as (h2 & m2 & n2 & o2 & l2 & E2 & L2 & T2 & G2 & P2). rewrite E2. cbn [bind].
      destruct o2 as [[y|]|]; [discriminate| |]; intros X; injection X as <- <- <-.
      + destruct (get_mut_law cmp laws A _ _ _ _ _ _ _ _ _ _ Hg Hr As E2) as [C2 _]. rewrite <- C2 in C. discriminate.
      + destruct P2 as [-> P2]. tauto.
    - assert (C' : s_get bor cmp (bor k) l = None) by (destruct (s_get bor cmp (bor k) l); [discriminate|reflexivity]).
      destruct f as [v|]; [|cbn [bind]; intros X; injection X as <- <- <-; auto].
      destruct (insert_ok h m l k v n1 Hg Hr) as (h2 & m2 & n2 & o2 & l2 & E2 & L2 & T2 & G2 & P2). rewrite E2. cbn [bind].
      destruct o2 as [r2|]; cbn [option_map].
      2:{ intros X; injection X as <- <- <-. destruct P2 as [-> P2]. tauto. }
      destruct (insert_law cmp laws A _ _ _ _ _ _ _ _ _ _ Hg Hr As E2) as [_ G2'].
      assert (R2 : R 0 (s_insert bor cmp k v l)) by (apply (R_less l); auto; now apply insert_length).
      destruct (get_mut_ok h2 m2 _ (bor k) w n2 G2' R2) as (h3 & m3 & n3 & o3 & l3 & E3 & L3 & T3 & G3 & P3). rewrite E3. cbn [bind].
      destruct o3 as [[y|]|]; [discriminate| |]; intros X; injection X as <- <- <-.
      + destruct (get_mut_law cmp laws A _ _ _ _ _ _ _ _ _ _ G2' R2 (asc_insert bor cmp laws k v l As) E3) as [C2 _].
        rewrite (get_inserted cmp laws) in C2 by auto. discriminate.
      + destruct P3 as [-> P3]. split; [right; exists v; auto|tauto].
  Qed.
End Entry.
