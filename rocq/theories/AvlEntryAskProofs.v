(** The entry API and [split_off] of AVL maps that share nodes, with comparisons that may answer anything and may panic; and
    with an order whose comparisons may panic. *)
From Coq Require Import List ZArith Bool Lia Permutation.
From Verif Require AvlProofs AvlProofs2 AvlIterProofs.
From Verif Require Import Base Spec MapSpec SpecFacts Heap HeapProofs AvlModel AvlMapProofs AvlShows Ask AskSpec AskAnySpec AskAnyProofs AskShows AvlAskModel AvlAskProofs AvlAskAnyProofs AnyOrdSpec AvlAnyProofs
  EntryAskModel EntryAskSpec EntryAskProofs.
From Verif Require Import AvlHeapModel AvlHeapAskModel AvlEntryAskModel AvlHeapSpec AskHeapSpec AnyHeapSpec AvlHeapProofs AvlHeapProofs2 AvlHeapProofs3 AvlHeapProofs4 AvlHeapProofs5 AvlHeapProofs6
  AvlHeapAnyProofs AvlHeapAnyProofs2 AvlHeapAskProofs AvlHeapAskProofs2 AvlHeapAskProofs3 AvlHeapAskProofs5.
Import ListNotations.
Local Open Scope nat_scope.

Section AvlEntry.
  Context {K V Q : Type} (bor : K -> Q) (ask : nat -> Q -> Q -> option comparison).
  Variable bomb : nat -> bool.
  Notation pay := (pay K V).
  Notation heap := (heap pay).
  Notation amap := (avl_map K V).
  Notation entry := (K * V)%type.
  Notation said := (said bor ask).
  Notation bombs := (bombs bomb).
  Notation reason n := (bombs \/ panicked ask n).

  Section Law.
    Context (cmp : Q -> Q -> comparison) (laws : order_laws cmp) (A : answers cmp ask).
    Notation asc := (ascending bor cmp).

    Lemma any_shows (a : amap) l : a_any a l -> asc l -> small l -> shows bor cmp a l.
    Proof.
      intros H As Sm. apply aany_iff in H as (Av & E & L). apply (valid_shows bor cmp laws); [|exact E|].
      - split; [exact Av|]. unfold contents. rewrite E. auto.
      - now apply small_fit.
    Qed.
    Lemma shows_any (a : amap) l : shows bor cmp a l -> a_any a l.
    Proof.
      intros H. apply (shows_valid bor cmp laws) in H as [(Av & _ & L) E]. apply aany_iff. unfold contents in *. subst l. auto.
    Qed.

    Lemma insert_law_m (h : heap) m l k v n O h' m' n' r : sound h (olist (hm_root m) ++ O) -> stands h m l -> small l -> asc l ->
      hm_insert_t bor ask bomb h m k v n = Ok (h', m', n', Done r) -> r = s_get bor cmp (bor k) l /\ stands h' m' (s_insert bor cmp k v l).
    Proof.
      intros So (a & [L D] & Va) Sm As E. pose proof (a_insert_copes bor ask a l k v n Va Sm) as C.
      destruct (a_insert_ask bor cmp ask laws A a l k v n (any_shows a l Va As Sm) Sm) as (most & _ & F). unfold a_insert_t in C, F.
      destruct (ins_t_ok bor ask bomb (am_root a) AvlHeapModel.depth h (hm_root m) k v n O So D (any_levels a l Va Sm))
        as (h1 & p1 & n1 & r1 & cs & E1 & So1 & F1 & C1 & Sb1 & R1).
      { intros X. rewrite X in C. exact C. }
      revert E. unfold hm_insert_t. rewrite E1. cbn [bind]. intros E. destruct r1 as [[old tl]|]; [|discriminate]. injection E as <- <- <- <-.
      destruct R1 as (t' & Ei & D1 & _). rewrite Ei in F. destruct F as (_ & -> & Sh). split; [reflexivity|].
      eexists. split; [|apply shows_any; exact Sh]. split; auto. cbn. now rewrite L.
    Qed.
    Lemma get_mut_law_m (h : heap) m l q w n O h' m' n' r : sound h (olist (hm_root m) ++ O) -> stands h m l -> small l -> asc l ->
      hm_get_mut_t bor ask bomb h m q w n = Ok (h', m', n', Done r) -> r = s_get bor cmp q l /\ stands h' m' (s_update bor cmp q w l).
    Proof.
      intros So (a & [L D] & Va) Sm As E.
      destruct (a_get_mut_ask bor cmp ask laws A a l q w n (any_shows a l Va As Sm) Sm) as (most & _ & F). unfold a_get_mut_t in F.
      destruct (get_mut_t_ok bor ask bomb (am_root a) AvlHeapModel.depth h (hm_root m) q w n O So D (any_levels a l Va Sm))
        as (h1 & p1 & n1 & r1 & cs & E1 & So1 & F1 & C1 & Sb1 & R1).
      revert E. unfold hm_get_mut_t. rewrite E1. cbn [bind]. intros E. destruct r1 as [x|]; [|discriminate]. injection E as <- <- <- <-.
      destruct R1 as (t' & Ei & D1). rewrite Ei in F. destruct F as (_ & -> & Sh). split; [reflexivity|].
      eexists. split; [|apply shows_any; exact Sh]. split; auto.
    Qed.
    Lemma remove_law_m (h : heap) m l q n O h' m' n' r : sound h (olist (hm_root m) ++ O) -> stands h m l -> small l -> asc l ->
      hm_remove_entry_t bor ask bomb h m q n = Ok (h', m', n', Done r) -> r = s_find bor cmp q l /\ stands h' m' (s_remove bor cmp q l).
    Proof.
      intros So (a & [L D] & Va) Sm As E. pose proof (a_remove_entry_copes bor ask a l q n Va Sm) as C.
      destruct (a_remove_entry_ask bor cmp ask laws A a l q n (any_shows a l Va As Sm) Sm) as (most & _ & F). unfold a_remove_entry_t in C, F.
      destruct (rm_t_ok bor ask bomb (am_root a) AvlHeapModel.depth h (hm_root m) q n O So D (any_levels a l Va Sm))
        as (h1 & p1 & n1 & r1 & cs & E1 & So1 & F1 & C1 & Sb1 & R1).
      { intros X. rewrite X in C. exact C. }
      revert E. unfold hm_remove_entry_t. rewrite E1. cbn [bind]. intros E. unfold hm_shrink in E. destruct r1 as [[kv s]|]; [|discriminate].
      destruct R1 as (t' & Ei & D1 & _). rewrite Ei in F. cbn [after] in F. destruct kv as [e|].
      - rewrite L in E. destruct (usize_sub (am_len a) 1) as [y|]; [|discriminate]. cbn [bind asked plain] in *. injection E as <- <- <- <-.
        destruct F as (_ & -> & Sh). split; [reflexivity|]. eexists. split; [|apply shows_any; exact Sh]. split; auto.
      - cbn [bind asked plain] in *. injection E as <- <- <- <-.
        destruct F as (_ & -> & Sh). split; [reflexivity|]. eexists. split; [|apply shows_any; exact Sh]. split; auto.
    Qed.
    Lemma get_law_m (h : heap) m l q n n' r : stands h m l -> small l -> asc l ->
      hm_get_key_value_t bor ask h m q n = Ok (n', Done r) -> r = s_find bor cmp q l.
    Proof.
      intros (a & M & Va) Sm As E. pose proof Va as Va0. apply aany_iff in Va0 as (Av & El & _).
      pose proof (any_shows a l Va As Sm) as Sh.
      revert E. unfold hm_get_key_value_t. rewrite (read_s h m a M Av) by (unfold contents; rewrite El; now apply small_fit). cbn [bind]. intros E.
      pose proof (get_tries bor cmp ask A (am_root a) q n) as T. destruct (lookup_l bor cmp laws a l q Sh) as (G & _).
      destruct (t_get_t bor ask (am_root a) q n) as [s x n1|s n1|]; cbn [tries] in T; [|discriminate|discriminate].
      injection E as <- <-. destruct T as [_ T]. injection T as _ <-. exact G.
    Qed.
  End Law.

  (** ** The entry API *)
  Definition good (O : list addr) (h : heap) (m : hmap) (l : list entry) : Prop := sound h (olist (hm_root m) ++ O) /\ stands h m l.
  Definition room (j : nat) (l : list entry) : Prop := (Z.of_nat (length l + j) < 2 ^ 63)%Z.
  Lemma room0 l : room 0 l -> small l.
  Proof. unfold room, small. rewrite Nat.add_0_r. auto. Qed.
  Lemma room_less l l' : room 1 l -> length l' <= length l + 1 -> room 0 l'.
  Proof. unfold room. lia. Qed.

  Lemma contains_any O (h : heap) m l q n : good O h m l -> room 0 l -> exists n' o, hm_contains_ bor ask h m q n = Ok (n', o) /\ n <= n'
    /\ match o with Some b => b = true -> exists e, In e l /\ said n n' q e | None => panicked ask n' end.
  Proof.
    intros [_ (a & M & Va)] Sm. apply room0 in Sm. destruct (get_t_m bor ask h m a l q n M Va Sm) as (n' & r & E & Ln & P).
    unfold hm_contains_. rewrite E. cbn [bind]. eexists _, _. split; [reflexivity|]. split; [exact Ln|].
    destruct r as [[e|]|]; cbn; [|discriminate|exact P]. intros _. exists e. auto.
  Qed.
  Lemma get_mut_any O (h : heap) m l q w n : good O h m l -> room 0 l ->
    exists h' m' n' o l', hm_get_mut_ bor ask bomb h m q w n = Ok (h', m', n', o) /\ n <= n' /\ frame O h h' /\ good O h' m' l'
      /\ match o with Some r => may_get_mut (said n n') q w l l' r | None => l' = l /\ reason n' end.
  Proof.
    intros [So (a & M & Va)] Sm. apply room0 in Sm.
    destruct (get_mut_t_m bor ask bomb h m a l q w n O So M Va Sm) as (h' & m' & n' & r & cs & E & So' & F & _ & _ & Ln & R).
    unfold hm_get_mut_. rewrite E. cbn [bind]. destruct r as [x|]; cbn [came].
    - destruct R as (l' & St & X). eexists _, _, _, _, l'. split; [reflexivity|]. split; [exact Ln|]. split; [exact F|]. split; [split; auto|exact X].
    - destruct R as [M' Re]. eexists _, _, _, _, l. split; [reflexivity|]. split; [exact Ln|]. split; [exact F|]. split; [split; auto; exists a; auto|auto].
  Qed.
  Lemma insert_any O (h : heap) m l k v n : good O h m l -> room 0 l ->
    exists h' m' n' o l', hm_insert_ bor ask bomb h m k v n = Ok (h', m', n', o) /\ n <= n' /\ frame O h h' /\ good O h' m' l'
      /\ match o with Some r => may_insert bor (said n n') k v l l' r | None => l' = l /\ reason n' end.
  Proof.
    intros [So (a & M & Va)] Sm. apply room0 in Sm.
    destruct (insert_t_m bor ask bomb h m a l k v n O So M Va Sm) as (h' & m' & n' & r & cs & E & So' & F & _ & _ & Ln & R).
    unfold hm_insert_. rewrite E. cbn [bind]. destruct r as [x|]; cbn [came].
    - destruct R as (l' & St & X). eexists _, _, _, _, l'. split; [reflexivity|]. split; [exact Ln|]. split; [exact F|]. split; [split; auto|exact X].
    - destruct R as [M' Re]. eexists _, _, _, _, l. split; [reflexivity|]. split; [exact Ln|]. split; [exact F|]. split; [split; auto; exists a; auto|auto].
  Qed.
  Lemma contains_law O cmp : order_laws cmp -> answers cmp ask -> forall (h : heap) m l q n n' b, good O h m l -> room 0 l -> ascending bor cmp l ->
    hm_contains_ bor ask h m q n = Ok (n', Some b) -> b = s_mem bor cmp q l.
  Proof.
    intros laws A h m l q n n' b [_ St] Sm As E. apply room0 in Sm. revert E. unfold hm_contains_.
    destruct (hm_get_key_value_t bor ask h m q n) as [[n1 [r|]]|] eqn:E1; cbn [bind came option_map]; intros E; try discriminate.
    apply (get_law_m cmp laws A h m l q n n1 r St Sm As) in E1. rewrite mem_get. unfold s_get. rewrite <- E1. injection E as _ <-. now destruct r.
  Qed.
  Lemma get_mut_law O cmp : order_laws cmp -> answers cmp ask -> forall (h : heap) m l q w n h' m' n' r, good O h m l -> room 0 l -> ascending bor cmp l ->
    hm_get_mut_ bor ask bomb h m q w n = Ok (h', m', n', Some r) -> r = s_get bor cmp q l /\ good O h' m' (s_update bor cmp q w l).
  Proof.
    intros laws A h m l q w n h' m' n' r [So St] Sm As E. pose proof (room0 _ Sm) as Sm'.
    destruct (get_mut_any O h m l q w n (conj So St) Sm) as (h1 & m1 & n1 & o1 & l1 & E1 & _ & _ & [So1 _] & _).
    rewrite E1 in E. injection E as -> -> -> ->. revert E1. unfold hm_get_mut_.
    destruct (hm_get_mut_t bor ask bomb h m q w n) as [[[[h2 m2] n2] [x|]]|] eqn:E2; cbn [bind came]; intros E; try discriminate. injection E as -> -> -> ->.
    eapply (get_mut_law_m cmp laws A) in E2 as [-> St2]; eauto. split; [reflexivity|]. split; auto.
  Qed.
  Lemma insert_law O cmp : order_laws cmp -> answers cmp ask -> forall (h : heap) m l k v n h' m' n' r, good O h m l -> room 0 l -> ascending bor cmp l ->
    hm_insert_ bor ask bomb h m k v n = Ok (h', m', n', Some r) -> r = s_get bor cmp (bor k) l /\ good O h' m' (s_insert bor cmp k v l).
  Proof.
    intros laws A h m l k v n h' m' n' r [So St] Sm As E. pose proof (room0 _ Sm) as Sm'.
    destruct (insert_any O h m l k v n (conj So St) Sm) as (h1 & m1 & n1 & o1 & l1 & E1 & _ & _ & [So1 _] & _).
    rewrite E1 in E. injection E as -> -> -> ->. revert E1. unfold hm_insert_.
    destruct (hm_insert_t bor ask bomb h m k v n) as [[[[h2 m2] n2] [x|]]|] eqn:E2; cbn [bind came]; intros E; try discriminate. injection E as -> -> -> ->.
    eapply (insert_law_m cmp laws A) in E2 as [-> St2]; eauto. split; [reflexivity|]. split; auto.
  Qed.

  Lemma good_hany O (h : heap) m l : good O h m l -> (Z.of_nat (length l) <= 2 ^ 63)%Z -> sound h (olist (hm_root m) ++ O) /\ hany h m l.
  Proof. intros [So St] Le. split; auto. now apply stands_hany. Qed.
  Lemma hany_good O (h : heap) m l : sound h (olist (hm_root m) ++ O) -> hany h m l -> good O h m l.
  Proof. intros So (a & E & Va). split; auto. exists a. split; auto. now apply read_mapped. Qed.

  Lemma and_modify_lazy (h : heap) m l k f n O : sound h (olist (hm_root m) ++ O) -> hany h m l -> small l ->
    exists h' m' n' o l', hm_and_modify_t bor ask bomb h m k f n = Ok (h', m', n', o) /\ n <= n'
      /\ sound h' (olist (hm_root m') ++ O) /\ frame O h h' /\ hany h' m' l'
      /\ match o with
         | Some _ => may_modify bor (said n n') k f l l' true
         | None => l' = l /\ reason n' \/ may_modify bor (said n n') k f l l' false
         end.
  Proof.
    intros So Ha Sm. assert (R0 : room 0 l) by (unfold room; now rewrite Nat.add_0_r).
    destruct (and_modify_any bor ask (hm_get_mut_ bor ask bomb) (good O) (frame O) room bombs (get_mut_any O) h m l k f n (hany_good O h m l So Ha) R0)
      as (h' & m' & n' & o & l' & E & Ln & F & Hg & P).
    assert (Le : length l' <= length l). { destruct o; [|destruct P as [[-> _]|P]; [lia|]]; destruct P as (r & P & _); apply len_get_mut in P; lia. }
    apply good_hany in Hg as [So' Ha']; [|unfold small in Sm; lia]. exists h', m', n', o, l'. auto 10.
  Qed.
  Lemma or_insert_lazy (h : heap) m l k f w n O : sound h (olist (hm_root m) ++ O) -> hany h m l -> (Z.of_nat (length l) + 1 < 2 ^ 63)%Z ->
    exists h' m' n' o l', hm_or_insert_t bor ask bomb h m k f w n = Ok (h', m', n', o) /\ n <= n'
      /\ sound h' (olist (hm_root m') ++ O) /\ frame O h h' /\ hany h' m' l'
      /\ match o with
         | Some x => may_or_insert bor (said n n') k f w l l' x
         | None => (l' = l \/ exists v r, f = Some v /\ may_insert bor (said n n') k v l l' r)
             /\ (bombs \/ panicked ask n' \/ (f = None /\ l' = l) \/ contrary bor ask l)
         end.
  Proof.
    intros So Ha Sm. assert (R1 : room 1 l) by (unfold room; lia).
    destruct (or_insert_any bor ask (hm_contains_ bor ask) (hm_get_mut_ bor ask bomb) (hm_insert_ bor ask bomb) (good O) (frame O) room bombs
        (frame_refl O) (fun h1 h2 h3 => frame_trans O h1 h2 h3) room_less (contains_any O) (get_mut_any O) (insert_any O)
        (contains_law O) (get_mut_law O) (insert_law O) h m l k f w n (hany_good O h m l So Ha) R1)
      as (h' & m' & n' & o & l' & E & Ln & F & Hg & P).
    assert (Le : length l' <= length l + 1).
    { destruct o as [x|].
      - destruct P as (l1 & [[-> _]|(v & r & _ & P1)] & P2); apply len_get_mut in P2; [lia|]. apply len_insert in P1. destruct r; lia.
      - destruct P as [[->|(v & r & _ & P1)] _]; [lia|]. apply len_insert in P1. destruct r; lia. }
    apply good_hany in Hg as [So' Ha']; [|lia]. exists h', m', n', o, l'. auto 10.
  Qed.

  (** ** [split_off] *)
  Lemma split_off_t_m (h : heap) m a l q n O : sound h (olist (hm_root m) ++ O) -> mapped h m a -> a_any a l -> small l ->
    exists h' m' n' o, hm_split_off_t bor ask bomb h m q n = Ok (h', m', n', o) /\ n <= n' /\ frame O h h'
      /\ match o with
         | Done m2 => sound h' (olist (hm_root m') ++ olist (hm_root m2) ++ O)
             /\ exists a1 a2, a_split_off_t bor ask a q n = Returned a1 a2 n' /\ mapped h' m' a1 /\ mapped h' m2 a2
         | Unwound => sound h' (olist (hm_root m') ++ O)
             /\ (m' = HMap (am_len a) None \/ exists l1 e l2, l = l1 ++ e :: l2 /\ said n n' q e /\ stands h' m' l1) /\ reason n'
         end.
  Proof.
    intros So [L D] Va Sm. pose proof Va as Va0. apply aany_iff in Va0 as (Av & El & Le).
    assert (Ft : AvlProofs2.fits (elems (am_root a))) by (rewrite El; now apply small_fit).
    pose proof (a_split_off_copes bor ask a l q n Va Sm) as C. unfold a_split_off_t in *.
    pose proof (split_copes bor ask (am_root a) q n Av Ft) as C1.
    destruct (split_t_ok bor ask bomb (am_root a) AvlHeapModel.depth h (hm_root m) q n O So D (any_levels a l Va Sm) Av Ft)
      as (h1 & n1 & r1 & cs & E1 & F1 & Cl & R1).
    unfold hm_split_off_t. rewrite E1. cbn [bind]. destruct r1 as [[[pl kv'] pr]|].
    2:{ destruct R1 as (So1 & Ln & R1). eexists _, _, _, _. split; [reflexivity|]. split; [exact Ln|]. split; [exact F1|]. split; [exact So1|].
        split; [left; now rewrite L|]. destruct R1 as [B|X]; [left; exact B|right]. rewrite X in C1. apply C1. }
    destruct R1 as (So1 & tl & kv & tr & Es & Dl & Dr & Ek). unfold own2 in So1. cbn [fst snd] in *. subst kv'. rewrite Es in *. cbn [after] in *.
    destruct C1 as (Ln1 & Al & Ar & He & Hk). destruct (split_t_parts bor ask _ _ _ _ _ _ _ Av Ft Es) as (_ & Ll & Lr).
    rewrite (h_len_ok _ _ tl) by auto. cbn [bind]. rewrite L. cbv zeta in C.
    destruct (usize_sub (am_len a) (t_len tl)) as [len|]; [|destruct C]. cbn [bind]. destruct kv as [[k v]|].
    - assert (So1' : sound h1 (olist pr ++ olist pl ++ O)).
      { destruct So1 as [W Ac]. split; auto. eapply wf_equiv; [|exact W]. intros x. rewrite !cnt_app. lia. }
      destruct (ins_t_ok bor ask bomb tr AvlHeapModel.depth h1 pr k v n1 (olist pl ++ O) So1' Dr (low_levels tr Lr))
        as (h2 & p2 & n2 & r2 & cs2 & E2 & So2 & F2 & C2 & _ & R2).
      { intros X. rewrite X in C. exact C. }
      rewrite E2. cbn [bind].
      assert (Dl2 : den h2 pl (tv tl)). { apply F2; auto. intros x Hx. apply in_or_app. auto. }
      assert (Fr2 : frame O h h2).
      { eapply frame_trans; [exact F1|]. eapply frame_incl; [|exact F2]. intros x Hx. apply in_or_app. auto. }
      destruct r2 as [[o2 tl2]|].
      + destruct R2 as (t' & Ei & D2 & _). rewrite Ei in *. cbn [after copes] in *. destruct C as (Ln & _).
        eexists _, _, _, _. split; [reflexivity|]. split; [exact Ln|]. split; [exact Fr2|]. split.
        * destruct So2 as [W Ac]. split; auto. eapply wf_equiv; [|exact W]. intros x. cbn [hm_root]. rewrite !cnt_app. lia.
        * eexists _, _. split; [reflexivity|]. split; split; auto.
      + destruct R2 as (D2 & Ln2 & R2). destruct So2 as [W2 A2]. destruct (drop_ok _ _ _ W2 A2) as (h3 & E3 & W3 & A3 & F3 & C3 & _).
        rewrite E3. cbn [bind]. eexists _, _, _, _. split; [reflexivity|]. split; [lia|]. split.
        { eapply frame_trans; [exact Fr2|]. eapply frame_incl; [|exact F3]. intros x Hx. apply in_or_app. auto. }
        split; [split; assumption|]. split.
        * right. exists (elems tl), (k, v), (elems tr). split; [rewrite <- El; exact He|]. split; [eapply said_mono; [| |apply (Hk _ eq_refl)]; lia|].
          exists (AvlMap (t_len tl) tl). split; [split; auto; apply F3; auto; intros x Hx; apply in_or_app; auto|].
          apply aany_iff. cbn [am_root am_len]. rewrite AvlProofs2.t_len_elems. auto.
        * destruct R2 as [B|X]; [left; exact B|right]. rewrite X in C. apply C.
    - cbn [copes] in C. destruct C as (Ln & _). eexists _, _, _, _. split; [reflexivity|]. split; [exact Ln|]. split; [exact F1|]. split.
      + destruct So1 as [W Ac]. split; auto. eapply wf_equiv; [|exact W]. intros x. cbn [hm_root]. rewrite !cnt_app. lia.
      + eexists _, _. split; [reflexivity|]. split; split; auto.
  Qed.
  Lemma split_off_t_lazy (h : heap) m l q n O : sound h (olist (hm_root m) ++ O) -> hany h m l -> small l ->
    exists h' m' n' o, hm_split_off_t bor ask bomb h m q n = Ok (h', m', n', o) /\ n <= n' /\ frame O h h'
      /\ match o with
         | Done m2 => sound h' (olist (hm_root m') ++ olist (hm_root m2) ++ O)
             /\ exists l1 mid l2, l = l1 ++ match mid with Some e => [e] | None => [] end ++ l2 /\ hany h' m' l1
                /\ match mid with
                   | None => hany h' m2 l2
                   | Some e => said n n' q e /\ exists l2' r t d, may_insert bor (said n n') (fst e) (snd e) l2 l2' r
                       /\ hm_read h' m2 = Ok (AvlMap (1 + length l2) t) /\ t_holds d t l2'
                   end
         | Unwound => sound h' (olist (hm_root m') ++ O)
             /\ (m' = HMap (length l) None \/ exists l1 e l2, l = l1 ++ e :: l2 /\ said n n' q e /\ hany h' m' l1) /\ reason n'
         end.
  Proof.
    intros So (a & E & Va) Sm. apply read_mapped in E as M.
    destruct (split_off_t_m h m a l q n O So M Va Sm) as (h' & m' & n' & o & E' & Ln & F & R). exists h', m', n', o. do 3 (split; [assumption|]).
    destruct o as [m2|].
    - destruct R as (So' & a1 & a2 & Es & M1 & M2). split; [exact So'|].
      pose proof (a_split_off_copes bor ask a l q n Va Sm) as C. rewrite Es in C. cbn [copes] in C. destruct C as (_ & l1 & mid & l2 & El & V1 & P).
      exists l1, mid, l2. split; [exact El|].
      assert (Le : length l1 + length (AvlProofs2.olist mid) + length l2 = length l) by (rewrite El, !app_length; lia). unfold small in Sm.
      split; [apply stands_hany; [exists a1; auto|lia]|]. destruct mid as [e|].
      + destruct P as (T & l2' & r & I & (d & Hd) & Len). split; [exact T|]. exists l2', r, (am_root a2), d. split; [exact I|]. split; [|exact Hd].
        pose proof (proj1 (holds_avl _ _ _) Hd) as (Av2 & _ & E2).
        rewrite (read_s h' m2 a2 M2 Av2). { destruct a2; cbn [AvlModel.am_root AvlModel.am_len] in *. now rewrite Len. }
        unfold contents. rewrite E2. apply len_insert in I. cbn [AvlProofs2.olist length] in Le. unfold AvlProofs2.fits. destruct r; lia.
      + apply stands_hany; [exists a2; auto|lia].
    - destruct R as (So' & P & Re). split; [exact So'|]. split; [|exact Re].
      destruct P as [->|(l1 & e & l2 & El & T & St)]; [left|right].
      + f_equal. apply aany_iff in Va as (_ & _ & L). exact L.
      + exists l1, e, l2. split; [exact El|]. split; [exact T|]. apply stands_hany; auto. unfold small in Sm. rewrite El, app_length in Sm. lia.
  Qed.

  (** ** An order whose comparisons may panic *)
  Section Order.
    Context (cmp : Q -> Q -> comparison) (laws : order_laws cmp) (A : answers cmp ask).
    Notation asc := (ascending bor cmp).

    Lemma insert_t_order (h : heap) m l k v n O : sound h (olist (hm_root m) ++ O) -> hany h m l -> asc l -> small l ->
      exists h' m' n' o, hm_insert_t bor ask bomb h m k v n = Ok (h', m', n', o) /\ sound h' (olist (hm_root m') ++ O) /\ frame O h h'
        /\ match o with
           | Done r => r = s_get bor cmp (bor k) l /\ hany h' m' (s_insert bor cmp k v l)
           | Unwound => hany h' m' l /\ reason n'
           end.
    Proof.
      intros So Ha As Sm. destruct (hany_good O h m l So Ha) as [_ St]. destruct Ha as (a & E & Va).
      destruct (insert_t_lazy bor ask bomb h m a l k v n O So E Va Sm) as (h' & m' & n' & o & cs & E' & _ & So' & F & _ & _ & P).
      exists h', m', n', o. do 3 (split; [assumption|]). destruct o as [x|]; [|destruct P as [P Re]; split; [exists a; auto|exact Re]].
      destruct (insert_law_m cmp laws A h m l k v n O h' m' n' x So St Sm As E') as [-> St']. split; [reflexivity|].
      apply stands_hany; auto. pose proof (insert_length bor cmp laws k v l As). unfold small in Sm. lia.
    Qed.
    Lemma get_mut_t_order (h : heap) m l q w n O : sound h (olist (hm_root m) ++ O) -> hany h m l -> asc l -> small l ->
      exists h' m' n' o, hm_get_mut_t bor ask bomb h m q w n = Ok (h', m', n', o) /\ sound h' (olist (hm_root m') ++ O) /\ frame O h h'
        /\ match o with
           | Done r => r = s_get bor cmp q l /\ hany h' m' (s_update bor cmp q w l)
           | Unwound => hany h' m' l /\ reason n'
           end.
    Proof.
      intros So Ha As Sm. destruct (hany_good O h m l So Ha) as [_ St]. destruct Ha as (a & E & Va).
      destruct (get_mut_t_lazy bor ask bomb h m a l q w n O So E Va Sm) as (h' & m' & n' & o & cs & E' & _ & So' & F & _ & _ & P).
      exists h', m', n', o. do 3 (split; [assumption|]). destruct o as [x|]; [|destruct P as [P Re]; split; [exists a; auto|exact Re]].
      destruct (get_mut_law_m cmp laws A h m l q w n O h' m' n' x So St Sm As E') as [-> St']. split; [reflexivity|].
      apply stands_hany; auto. unfold s_update. rewrite map_length. unfold small in Sm. lia.
    Qed.
    Lemma remove_t_order (h : heap) m l q n O : sound h (olist (hm_root m) ++ O) -> hany h m l -> asc l -> small l ->
      exists h' m' n' o, hm_remove_entry_t bor ask bomb h m q n = Ok (h', m', n', o) /\ sound h' (olist (hm_root m') ++ O) /\ frame O h h'
        /\ match o with
           | Done r => r = s_find bor cmp q l /\ hany h' m' (s_remove bor cmp q l)
           | Unwound => (hany h' m' l /\ panicked ask n')
               \/ (bombs /\ hm_len m' = length l /\ exists t, den h' (hm_root m') (tv t) /\ sub (elems t) l)
           end.
    Proof.
      intros So Ha As Sm. destruct (hany_good O h m l So Ha) as [_ St]. destruct Ha as (a & E & Va).
      destruct (remove_t_lazy bor ask bomb h m a l q n O So E Va Sm) as (h' & m' & n' & o & cs & E' & _ & So' & F & _ & _ & P).
      exists h', m', n', o. do 3 (split; [assumption|]). destruct o as [x|]; [|destruct P as [[P Re]|P]; [left; split; [exists a; auto|exact Re]|right; exact P]].
      destruct (remove_law_m cmp laws A h m l q n O h' m' n' x So St Sm As E') as [-> St']. split; [reflexivity|].
      apply stands_hany; auto. pose proof (AvlShows.len_remove bor cmp q l). unfold small in Sm. lia.
    Qed.
    Lemma get_t_order (h : heap) m l q n : hany h m l -> asc l -> small l ->
      exists n' o, hm_get_key_value_t bor ask h m q n = Ok (n', o)
        /\ match o with Done r => r = s_find bor cmp q l | Unwound => panicked ask n' end.
    Proof.
      intros Ha As Sm. destruct (get_t_lazy bor ask h m l q n Ha Sm) as (n' & o & E & _ & P). exists n', o. split; [exact E|].
      destruct o as [x|]; [|exact P]. destruct Ha as (a & Er & Va).
      apply (get_law_m cmp laws A h m l q n n' x); auto. exists a. split; auto. now apply read_mapped.
    Qed.
    Lemma split_off_t_order (h : heap) m l q n O : sound h (olist (hm_root m) ++ O) -> hany h m l -> asc l -> small l ->
      exists h' m' n' o, hm_split_off_t bor ask bomb h m q n = Ok (h', m', n', o) /\ frame O h h'
        /\ match o with
           | Done m2 => sound h' (olist (hm_root m') ++ olist (hm_root m2) ++ O)
               /\ hany h' m' (filter (lt_q bor cmp q) l) /\ hany h' m2 (filter (fun e => negb (lt_q bor cmp q e)) l)
           | Unwound => sound h' (olist (hm_root m') ++ O)
               /\ (m' = HMap (length l) None \/ exists l1 e l2, l = l1 ++ e :: l2 /\ said n n' q e /\ hany h' m' l1) /\ reason n'
           end.
    Proof.
      intros So Ha As Sm. destruct (split_off_t_lazy h m l q n O So Ha Sm) as (h' & m' & n' & o & E' & _ & F & P).
      exists h', m', n', o. do 2 (split; [assumption|]). destruct o as [m2|]; [|exact P]. destruct P as [So' _]. split; [exact So'|].
      destruct Ha as (a & Er & Va). apply read_mapped in Er as M. destruct (split_off_t_m h m a l q n O So M Va Sm) as (h2 & m2' & n2 & o2 & E2 & _ & _ & R).
      rewrite E' in E2. injection E2 as <- <- <- <-. destruct R as (_ & a1 & a2 & Es & M1 & M2).
      pose proof (a_split_off_ask bor cmp ask laws A a l q n (any_shows cmp laws a l Va As Sm) Sm) as C. rewrite Es in C. destruct C as [C1 C2].
      assert (Le : forall g : entry -> bool, (Z.of_nat (length (filter g l)) <= 2 ^ 63)%Z).
      { intros g. pose proof (AvlIterProofs.filter_length_le g l). unfold small in Sm. lia. }
      split; (apply stands_hany; [eexists; split; [eassumption|]; eapply (shows_any cmp laws); eassumption|apply Le]).
    Qed.
    Lemma and_modify_order (h : heap) m l k f n O : sound h (olist (hm_root m) ++ O) -> hany h m l -> asc l -> small l ->
      exists h' m' n' o, hm_and_modify_t bor ask bomb h m k f n = Ok (h', m', n', o) /\ sound h' (olist (hm_root m') ++ O) /\ frame O h h'
        /\ match o with
           | Some _ => hany h' m' (s_update bor cmp (bor k) (fun v => fst (f v)) l)
           | None => hany h' m' l /\ reason n'
               \/ exists v, s_get bor cmp (bor k) l = Some v /\ snd (f v) = false /\ hany h' m' (s_update bor cmp (bor k) (fun v => fst (f v)) l)
           end.
    Proof.
      intros So Ha As Sm. unfold hm_and_modify_t, e_and_modify, hm_get_mut_.
      destruct (get_mut_t_order h m l (bor k) (fun v => fst (f v)) n O So Ha As Sm) as (h' & m' & n' & o & E & So' & F & P). rewrite E. cbn [bind].
      eexists _, _, _, _. split; [reflexivity|]. do 2 (split; [assumption|]). destruct o as [[v|]|]; cbn [came].
      - destruct P as [G Ha']. destruct (snd (f v)) eqn:Ef; [exact Ha'|]. right. exists v. auto.
      - apply P.
      - left. exact P.
    Qed.
    Lemma or_insert_order (h : heap) m l k f w n O : sound h (olist (hm_root m) ++ O) -> hany h m l -> asc l -> (Z.of_nat (length l) + 1 < 2 ^ 63)%Z ->
      exists h' m' n' o, hm_or_insert_t bor ask bomb h m k f w n = Ok (h', m', n', o) /\ sound h' (olist (hm_root m') ++ O) /\ frame O h h'
        /\ match o with
           | Some x => match s_get bor cmp (bor k) l with
               | Some v => x = v /\ hany h' m' (s_update bor cmp (bor k) w l)
               | None => f = Some x /\ hany h' m' (s_insert bor cmp k (w x) l)
               end
           | None => (hany h' m' l \/ exists v, f = Some v /\ s_get bor cmp (bor k) l = None /\ hany h' m' (s_insert bor cmp k v l))
               /\ (bombs \/ panicked ask n' \/ (f = None /\ s_get bor cmp (bor k) l = None))
           end.
    Proof.
      intros So Ha As Sm. pose proof (hany_good O h m l So Ha) as Hg. assert (R1 : room 1 l) by (unfold room; lia). assert (Sl : small l) by (unfold small; lia).
      destruct (or_insert_order_gen bor ask (hm_contains_ bor ask) (hm_get_mut_ bor ask bomb) (hm_insert_ bor ask bomb) (good O) (frame O) room bombs
        (frame_refl O) (fun h1 h2 h3 => frame_trans O h1 h2 h3) room_less (contains_any O) (get_mut_any O) (insert_any O)
        (contains_law O) (get_mut_law O) (insert_law O) cmp laws A h m l k f w n Hg R1 As) as (h' & m' & n' & o & E & (l0 & So' & _) & F & P).
      exists h', m', n', o. split; [exact E|]. do 2 (split; [assumption|]).
      assert (L1 : forall v, (Z.of_nat (length (s_insert bor cmp k v l)) <= 2 ^ 63)%Z) by (intros v; pose proof (insert_length bor cmp laws k v l As); lia).
      assert (L2 : (Z.of_nat (length (s_update bor cmp (bor k) w l)) <= 2 ^ 63)%Z) by (unfold s_update; rewrite map_length; lia).
      destruct o as [x|].
      - destruct (s_get bor cmp (bor k) l) as [v|]; destruct P as [P1 P2]; (split; [exact P1|]); apply good_hany in P2 as [_ P2]; auto.
      - destruct P as [P Re]. split; [|exact Re]. destruct P as [P|(v & Ev & G & P)]; [left|right].
        + apply good_hany in P as [_ P]; auto. lia.
        + exists v. split; [exact Ev|]. split; [exact G|]. apply good_hany in P as [_ P]; auto.
    Qed.
    Lemma extend_t_order ps : forall (h : heap) m l n O, sound h (olist (hm_root m) ++ O) -> hany h m l -> asc l -> (Z.of_nat (length l + length ps) < 2 ^ 63)%Z ->
      exists h' m' n' o, hm_extend_t bor ask bomb h m ps n = Ok (h', m', n', o) /\ sound h' (olist (hm_root m') ++ O) /\ frame O h h'
        /\ match o with
           | Done _ => hany h' m' (s_extend bor cmp l ps)
           | Unwound => (exists ps1 p ps2, ps = ps1 ++ p :: ps2 /\ hany h' m' (s_extend bor cmp l ps1)) /\ reason n'
           end.
    Proof.
      induction ps as [|[k v] ps IH]; intros h m l n O So Ha As Sm; cbn [hm_extend_t].
      - eexists _, _, _, _. split; [reflexivity|]. split; [exact So|]. split; [apply frame_refl|exact Ha].
      - cbn [length] in Sm. assert (Sl : small l) by (unfold small; lia).
        destruct (insert_t_order h m l k v n O So Ha As Sl) as (h1 & m1 & n1 & o1 & E1 & So1 & F1 & P1). rewrite E1. cbn [bind]. destruct o1 as [r|].
        + destruct P1 as [_ Ha1]. pose proof (insert_length bor cmp laws k v l As) as Le.
          destruct (IH h1 m1 _ n1 O So1 Ha1 (asc_insert bor cmp laws k v l As)) as (h2 & m2 & n2 & o2 & E2 & So2 & F2 & P2); [lia|].
          exists h2, m2, n2, o2. split; [exact E2|]. split; [exact So2|]. split; [eapply frame_trans; eauto|]. destruct o2 as [u|]; [exact P2|].
          destruct P2 as [(ps1 & p & ps2 & -> & P2) Re]. split; [|exact Re]. exists ((k, v) :: ps1), p, ps2. split; auto.
        + destruct P1 as [Ha1 Re]. eexists _, _, _, _. split; [reflexivity|]. do 2 (split; [assumption|]). split; [|exact Re]. exists [], (k, v), ps. split; auto.
    Qed.

    Lemma merged_len keepl keepr dec oa ob both (l1 l2 l : list entry) (told : Q -> entry -> Prop) : may_pair bor told l1 l2 oa ob both ->
      Permutation l (merged keepl keepr dec oa ob both) -> length l <= length l1 + length l2.
    Proof.
      intros (P1 & P2 & _) P. apply Permutation_length in P1, P2, P. rewrite app_length, map_length in P1, P2. rewrite P. unfold merged. rewrite !app_length.
      assert (X : length (flat_map (fun p => AvlProofs2.olist (dec (fst p) (snd p))) both) <= length both).
      { clear. induction both as [|[x y] both IH]; cbn [flat_map length]; [lia|]. rewrite app_length. cbn [fst snd]. destruct (dec x y); cbn [AvlProofs2.olist length]; lia. }
      destruct keepl, keepr; cbn [length]; lia.
    Qed.
    Lemma merge_order keepl keepr dec (h : heap) m1 m2 a1 a2 l1 l2 n O :
      sound h (olist (hm_root m1) ++ olist (hm_root m2) ++ O) -> mapped h m1 a1 -> mapped h m2 a2 ->
      a_any a1 l1 -> a_any a2 l2 -> small l1 -> small l2 ->
      AvlHeapAskProofs2.call_t O h (clones h) (h_merge_t bor ask bomb keepl keepr dec AvlHeapModel.depth h (hm_root m1) (hm_root m2) n) olist
        (fun p n' h' => exists t, merge_t bor ask keepl keepr dec (am_root a1) (am_root a2) n = Returned tt t n' /\ den h' p (tv t) /\ low t
           /\ length (elems t) <= length l1 + length l2)
        (fun n' => reason n').
    Proof.
      intros So [L1 D1] [L2 D2] V1 V2 S1 S2. pose proof (merge_t_m bor ask bomb keepl keepr dec h m1 m2 a1 a2 l1 l2 n O So (conj L1 D1) (conj L2 D2) V1 V2 S1 S2) as Mm.
      pose proof V1 as V1'. pose proof V2 as V2'. apply aany_iff in V1' as (A1 & E1 & _). apply aany_iff in V2' as (A2 & E2 & _).
      assert (Ft : AvlProofs2.fits (elems (am_root a1) ++ elems (am_root a2))) by (rewrite E1, E2; now apply small_fit2).
      destruct (merge_t_ok bor ask bomb keepl keepr dec (am_root a1) (am_root a2) AvlHeapModel.depth h (hm_root m1) (hm_root m2) n O So D1 D2
                  (any_levels a1 l1 V1 S1) A1 A2 Ft) as (h' & n' & r & cs & E & F & Cl & R).
      destruct Mm as (h2 & n2 & r2 & cs2 & E' & _ & _ & R2). rewrite E in E'. injection E' as <- <- <-.
      exists h', n', r, cs. do 3 (split; [assumption|]). destruct r as [p|].
      - destruct R as (So' & t' & Em & Dp). split; [exact So'|]. exists t'. split; [exact Em|]. split; [exact Dp|].
        split; [exact (proj2 (merge_t_low bor ask _ _ _ _ _ _ _ _ A1 A2 Ft Em))|].
        destruct R2 as (_ & _ & t & oa & ob & both & l & Dp2 & _ & Pr & Va & X). apply aany_iff in Va as (_ & El & Ll). cbn [AvlModel.am_root AvlModel.am_len] in *.
        pose proof (a_merge_copes bor ask keepl keepr dec a1 a2 l1 l2 n V1 V2 S1 S2) as C. rewrite Em in C.
        destruct C as (_ & oa' & ob' & both' & l' & Pr' & Va' & X'). apply aany_iff in Va' as (_ & El' & _). cbn [AvlModel.am_root] in El'.
        rewrite El'. exact (merged_len keepl keepr dec oa' ob' both' l1 l2 l' _ Pr' X').
      - destruct R2 as (So' & _ & Re). auto.
    Qed.

    Definition set_call (O : list addr) (h : heap) (x : res (heap * nat * out hmap)) (P : list entry -> Prop) : Prop :=
      exists h' n' o, x = Ok (h', n', o) /\ frame O h h'
        /\ match o with
           | Done m => sound h' (olist (hm_root m) ++ O) /\ exists l, hany h' m l /\ P l
           | Unwound => sound h' O /\ reason n'
           end.
    Lemma set_order keepl keepr dec (h : heap) m1 m2 a1 a2 l1 l2 n O (P : list entry -> Prop) most :
      sound h (olist (hm_root m1) ++ olist (hm_root m2) ++ O) -> mapped h m1 a1 -> mapped h m2 a2 ->
      a_any a1 l1 -> a_any a2 l2 -> small l1 -> small l2 -> (Z.of_nat (length l1 + length l2) <= 2 ^ 63)%Z ->
      fares ask n most (a_of_root_t (merge_t bor ask keepl keepr dec (am_root a1) (am_root a2) n)) (fun _ m => exists l, shows bor cmp m l /\ P l) (fun _ => True) ->
      set_call O h (hm_of_root_t (h_merge_t bor ask bomb keepl keepr dec AvlHeapModel.depth h (hm_root m1) (hm_root m2) n)) P.
    Proof.
      intros So M1 M2 V1 V2 S1 S2 Le F.
      destruct (merge_order keepl keepr dec h m1 m2 a1 a2 l1 l2 n O So M1 M2 V1 V2 S1 S2) as (h' & n' & r & cs & E & Fr & _ & R).
      unfold hm_of_root_t, set_call. rewrite E. cbn [bind]. destruct r as [p|].
      - destruct R as (So' & t & Em & Dp & Lo & Lt). rewrite (h_len_ok _ _ t) by auto. cbn [bind]. eexists _, _, _. split; [reflexivity|]. split; [exact Fr|].
        split; [exact So'|]. unfold a_of_root_t in F. rewrite Em in F. destruct F as (_ & l & Sh & Pl). exists l. split; [|exact Pl].
        apply stands_hany. { eexists. split; [|eapply (shows_any cmp laws); exact Sh]. split; auto. }
        apply (shows_any cmp laws), aany_iff in Sh as (_ & El & _). cbn [AvlModel.am_root] in El. rewrite <- El. lia.
      - eexists _, _, _. split; [reflexivity|]. split; [exact Fr|]. exact R.
    Qed.
    Lemma sets_order (h : heap) m1 m2 l1 l2 n O : sound h (olist (hm_root m1) ++ olist (hm_root m2) ++ O) ->
      hany h m1 l1 -> hany h m2 l2 -> asc l1 -> asc l2 -> small l1 -> small l2 -> (Z.of_nat (length l1 + length l2) <= 2 ^ 63)%Z ->
      set_call O h (hm_new_union_t bor ask bomb h m1 m2 n)
        (fun l => forall q, s_find bor cmp q l = match s_find bor cmp q l2 with Some e => Some e | None => s_find bor cmp q l1 end)
      /\ set_call O h (hm_new_intersect_t bor ask bomb h m1 m2 n) (fun l => l = s_inter bor cmp l1 l2)
      /\ set_call O h (hm_new_diff_t bor ask bomb h m1 m2 n) (fun l => l = s_diff bor cmp l1 l2)
      /\ set_call O h (hm_new_sym_diff_t bor ask bomb h m1 m2 n)
           (fun l => forall q, s_find bor cmp q l = match s_find bor cmp q l1, s_find bor cmp q l2 with
                                                    | Some e, None => Some e
                                                    | None, Some e => Some e
                                                    | _, _ => None
                                                    end).
    Proof.
      intros So (a1 & E1 & V1) (a2 & E2 & V2) As1 As2 S1 S2 Le. apply read_mapped in E1 as M1, E2 as M2.
      pose proof (any_shows cmp laws a1 l1 V1 As1 S1) as Sh1. pose proof (any_shows cmp laws a2 l2 V2 As2 S2) as Sh2.
      destruct (a_union_ask bor cmp ask laws A a1 a2 l1 l2 n Sh1 Sh2 S1 S2) as (x1 & F1).
      destruct (a_intersect_ask bor cmp ask laws A a1 a2 l1 l2 n Sh1 Sh2 S1 S2) as (x2 & F2).
      destruct (a_diff_ask bor cmp ask laws A a1 a2 l1 l2 n Sh1 Sh2 S1 S2) as (x3 & F3).
      destruct (a_sym_diff_ask bor cmp ask laws A a1 a2 l1 l2 n Sh1 Sh2 S1 S2) as (x4 & F4).
      assert (W : forall most (t : trial unit amap) (l : list entry), fares ask n most t (fun (_ : unit) m => shows bor cmp m l) (fun _ => True) ->
                  fares ask n most t (fun (_ : unit) m => exists l0, shows bor cmp m l0 /\ l0 = l) (fun _ => True)).
      { intros most t l. unfold fares. destruct t; auto. intros [X Y]. split; [exact X|]. exists l. auto. }
      split; [|split; [|split]].
      - eapply set_order; eauto.
      - eapply set_order; eauto.
      - eapply set_order; eauto.
      - eapply set_order; eauto.
    Qed.
    Lemma append_t_order (h : heap) m1 m2 l1 l2 n O : sound h (olist (hm_root m1) ++ olist (hm_root m2) ++ O) ->
      hany h m1 l1 -> hany h m2 l2 -> asc l1 -> asc l2 -> small l1 -> small l2 -> (Z.of_nat (length l1 + length l2) <= 2 ^ 63)%Z ->
      exists h' m1' m2' n' o, hm_append_t bor ask bomb h m1 m2 n = Ok (h', m1', m2', n', o)
        /\ sound h' (olist (hm_root m1') ++ olist (hm_root m2') ++ O) /\ frame O h h'
        /\ match o with
           | Done _ => m2' = hm_new /\ exists l, hany h' m1' l
               /\ forall q, s_find bor cmp q l = match s_find bor cmp q l2 with Some e => Some e | None => s_find bor cmp q l1 end
           | Unwound => m1' = HMap (length l1) None /\ m2' = HMap (length l2) None /\ reason n'
           end.
    Proof.
      intros So H1 H2 As1 As2 S1 S2 Le.
      destruct (append_t_lazy bor ask bomb h m1 m2 l1 l2 n O So H1 H2 Le S1 S2) as (h' & m1' & m2' & n' & o & E & _ & So' & Fr & P).
      exists h', m1', m2', n', o. do 3 (split; [assumption|]). destruct o as [u|]; [|exact P]. destruct P as [-> _]. split; [reflexivity|].
      destruct (sets_order h m1 m2 l1 l2 n O So H1 H2 As1 As2 S1 S2 Le) as [(h2 & n2 & o2 & E2 & _ & P2) _].
      revert E E2. unfold hm_append_t, hm_new_union_t, hm_of_root_t. destruct (h_union_t bor ask bomb h (hm_root m1) (hm_root m2) n) as [[[h3 n3] [p|]]|]; cbn [bind]; [|discriminate|discriminate].
      destruct (h_len h3 p) as [len|]; cbn [bind]; [|discriminate]. intros X Y. injection X as <- <- <-. injection Y as <- <- <-.
      destruct P2 as (_ & l & Hl & Pl). exists l. auto.
    Qed.
  End Order.
End AvlEntry.
