(** The entry API of [BTreeMap]s that share nodes, with comparisons that may answer anything and may panic; and calls with an
    order whose comparisons may panic. *)
From Coq Require Import List PeanoNat Bool Lia.
From Verif Require Import Base Spec MapSpec BTreeSpec SpecFacts Vec Heap HeapProofs BTreeModel BTreeProofs BTreeProofs2 BTreeShows
  Ask AskSpec AskAnySpec AskAnyProofs AskShows BTreeAskModel BTreeAskAnyProofs EntryAskModel EntryAskSpec EntryAskProofs
  BTreeHeapModel BTreeHeapSpec BTreeHeapHistSpec
  BTreeHeapProofs BTreeHeapProofs2 BTreeHeapProofs3 BTreeHeapProofs4 BTreeHeapProofs5 BTreeHeapProofs6 BTreeHeapProofs7
  AnyOrdSpec BTreeAnyProofs AnyOrdShows AnyHeapSpec BAnyHeapSpec BTreeHeapAnyProofs
  BTreeHeapAskModel BTreeEntryAskModel BAskHeapSpec BTreeHeapAskProofs BTreeHeapAskProofs2 BTreeHeapAskProofs3 BTreeHeapAskProofs4 BTreeHeapAskProofs5.
Import ListNotations.
Local Open Scope nat_scope.

Section BTreeEntry.
  Context {K V Q : Type} (bor : K -> Q) (ask : nat -> Q -> Q -> option comparison) (N : nat) (HN : 1 <= N).
  Variable bomb : nat -> bool.
  Notation entry := (K * V)%type.
  Notation heap := (heap (list (K * V))).
  Notation bmap := (bt_map K V).
  Notation hbany := (@hbany K V N).
  Notation said := (said bor ask).
  Notation bombs := (exists i, bomb i = true).
  Notation reason n := (bombs \/ panicked ask n).

  Section Law.
    Context (cmp : Q -> Q -> comparison) (laws : order_laws cmp) (A : answers cmp ask).
    Notation asc := (ascending bor cmp).

    Lemma b_shows_any (b : bmap) l : b_shows bor cmp N b l <-> b_any N b l /\ asc l.
    Proof.
      rewrite (b_shows_iff bor cmp N laws HN), (any_iff N). unfold valid, contents. destruct (bm_root b) as [t|]; split.
      - intros ((As & L & d & S) & <-). split; auto. split; auto. exists d. auto.
      - intros ((L & d & S & <-) & As). split; auto. split; auto. split; auto. exists d. exact S.
      - intros ((As & L & _) & <-). auto.
      - intros ((L & ->) & As). auto.
    Qed.

    Lemma insert_t_order (h : heap) m l k v n O : sound h (olist (hb_root m) ++ O) -> hbany h m l -> asc l ->
      exists h' m' n' o, hb_insert_t bor ask N bomb h m k v n = Ok (h', m', n', o) /\ sound h' (olist (hb_root m') ++ O) /\ frame O h h'
        /\ match o with
           | Done r => r = s_get bor cmp (bor k) l /\ hbany h' m' (s_insert bor cmp k v l)
           | Unwound => hbany h' m' l /\ reason n'
           end.
    Proof.
      intros S H As. apply hbany_b in H as (b & M & Lo & B). pose proof (proj2 (b_shows_any b l) (conj B As)) as Sh.
      destruct (b_insert_ask bor cmp ask laws A N HN b l k v n Sh) as (d & _ & F).
      destruct (hb_insert_t_ok bor ask N bomb h m b k v O n Lo S M) as (h' & m' & n' & o & E & L & S1 & F1 & N1 & P).
      { intros X. now rewrite X in F. }
      exists h', m', n', o. do 3 (split; [assumption|]). destruct o as [x|].
      - destruct P as (b' & Eb & M'). rewrite Eb in F. destruct F as (_ & -> & Sh'). split; [reflexivity|]. eapply hbm_any; [exact M'|]. now apply b_shows_any in Sh'.
      - destruct P as [M' W]. split; [eapply hbm_any; eauto|exact W].
    Qed.
    Lemma get_mut_t_order (h : heap) m l q w n O : sound h (olist (hb_root m) ++ O) -> hbany h m l -> asc l ->
      exists h' m' n' o, hb_get_mut_t bor ask bomb h m q w n = Ok (h', m', n', o) /\ sound h' (olist (hb_root m') ++ O) /\ frame O h h'
        /\ match o with
           | Done r => r = s_get bor cmp q l /\ hbany h' m' (s_update bor cmp q w l)
           | Unwound => hbany h' m' l /\ reason n'
           end.
    Proof.
      intros S H As. apply hbany_b in H as (b & M & Lo & B). pose proof (proj2 (b_shows_any b l) (conj B As)) as Sh.
      destruct (b_get_mut_ask bor cmp ask laws A N HN b l q w n Sh) as (d & _ & F).
      destruct (hb_get_mut_t_ok bor ask bomb h m b q w O n Lo S M) as (h' & m' & n' & o & E & L & S1 & F1 & N1 & P).
      exists h', m', n', o. do 3 (split; [assumption|]). destruct o as [x|].
      - destruct P as (b' & Eb & M'). rewrite Eb in F. destruct F as (_ & -> & Sh'). split; [reflexivity|]. eapply hbm_any; [exact M'|]. now apply b_shows_any in Sh'.
      - destruct P as [M' W]. split; [eapply hbm_any; eauto|exact W].
    Qed.
    Lemma remove_t_order (h : heap) m l q n O : sound h (olist (hb_root m) ++ O) -> hbany h m l -> asc l ->
      exists h' m' n' o, hb_remove_t bor ask N bomb h m q n = Ok (h', m', n', o) /\ sound h' (olist (hb_root m') ++ O) /\ frame O h h'
        /\ match o with
           | Done r => r = s_get bor cmp q l /\ hbany h' m' (s_remove bor cmp q l)
           | Unwound => (hbany h' m' l /\ panicked ask n')
               \/ (bombs /\ exists t, hb_read h' m' = Ok (BMap (length l) (Some t)) /\ sub (in_order t) l)
           end.
    Proof.
      intros S H As. destruct H as (b & Er & B). pose proof (proj2 (b_shows_any b l) (conj B As)) as Sh. apply read_iff in Er as M.
      destruct (b_remove_ask bor cmp ask laws A N HN b l q n Sh) as (d & _ & F). pose proof (b_contains_copes bor ask N HN b l q n B) as Cc.
      destruct (hb_remove_t_ok bor ask N bomb h m b q O n (any_loose N _ _ B) S M) as (h2 & m2 & k2 & n2 & o2 & E2 & _ & _ & _ & _ & P2).
      { intros X. now rewrite X in F. }
      { intros n1 u r X. rewrite X in Cc. apply Cc. }
      { intros n1 u X. rewrite X in Cc. destruct Cc as (L & P & _). split; [lia|exact P]. }
      destruct (remove_t_lazy bor ask N HN bomb h m b l q n O S Er B) as (h' & m' & n1 & n' & o & cs & E & L & S1 & F1 & _ & _ & P).
      rewrite E in E2. injection E2 as <- <- <- <-.
      exists h', m', n', o. do 3 (split; [assumption|]). destruct o as [x|].
      - destruct P2 as (b' & Eb & M'). rewrite Eb in F. destruct F as (_ & -> & Sh'). split; [reflexivity|]. eapply hbm_any; [exact M'|]. now apply b_shows_any in Sh'.
      - destruct P as [[P W]|P]; [left; split; [exists b; auto|exact W]|right; exact P].
    Qed.
    Lemma look_order {R} (h : heap) m b (f : bmap -> trial unit R) n most (x : R) : hbm h m b ->
      fares ask n most (f b) (fun _ r => r = x) (fun _ => True) ->
      exists n' o, h_look_t h m f = Ok (n', o) /\ match o with Done r => r = x | Unwound => panicked ask n' end.
    Proof.
      intros M F. unfold h_look_t. rewrite (proj2 (read_iff h m b) M). cbn [bind]. destruct (f b) as [u r n'|u n'|]; cbn [fares] in F; [| |contradiction].
      - exists n', (Done r). split; [reflexivity|]. apply F.
      - exists n', Unwound. split; [reflexivity|]. apply F.
    Qed.
    Lemma get_t_order (h : heap) m l q n : hbany h m l -> asc l ->
      exists n' o, hb_get_t bor ask h m q n = Ok (n', o) /\ match o with Done r => r = s_get bor cmp q l | Unwound => panicked ask n' end.
    Proof.
      intros H As. apply hbany_b in H as (b & M & _ & B). destruct (b_lookup_ask bor cmp ask laws A N HN b l q n (proj2 (b_shows_any b l) (conj B As))) as (d & _ & F & _).
      eapply (look_order h m b (fun b => b_get_t bor ask b q n)); eauto.
    Qed.
    Lemma contains_t_order (h : heap) m l q n : hbany h m l -> asc l ->
      exists n' o, hb_contains_t bor ask h m q n = Ok (n', o) /\ match o with Done r => r = s_mem bor cmp q l | Unwound => panicked ask n' end.
    Proof.
      intros H As. apply hbany_b in H as (b & M & _ & B). destruct (b_lookup_ask bor cmp ask laws A N HN b l q n (proj2 (b_shows_any b l) (conj B As))) as (d & _ & _ & F).
      eapply (look_order h m b (fun b => b_contains_t bor ask b q n)); eauto.
    Qed.
  End Law.

  (** ** The entry API *)
  Definition good (O : list addr) (h : heap) (m : hbmap) (l : list entry) : Prop := sound h (olist (hb_root m) ++ O) /\ hbany h m l.
  Definition room (j : nat) (l : list entry) : Prop := True.

  Lemma contains_any O (h : heap) m l q n : good O h m l -> room 0 l -> exists n' o, hb_contains_ bor ask h m q n = Ok (n', o) /\ n <= n'
    /\ match o with Some b => b = true -> exists e, In e l /\ said n n' q e | None => panicked ask n' end.
  Proof.
    intros [_ H] _. destruct (contains_t_a bor ask N HN h m l q n H) as (n' & r & E & Ln & P).
    unfold hb_contains_. rewrite E. cbn [bind]. eexists _, _. split; [reflexivity|]. split; [exact Ln|]. destruct r; exact P.
  Qed.
  Lemma get_mut_any O (h : heap) m l q w n : good O h m l -> room 0 l ->
    exists h' m' n' o l', hb_get_mut_ bor ask bomb h m q w n = Ok (h', m', n', o) /\ n <= n' /\ frame O h h' /\ good O h' m' l'
      /\ match o with Some r => may_get_mut (said n n') q w l l' r | None => l' = l /\ reason n' end.
  Proof.
    intros [So (b & E & B)] _. destruct (get_mut_t_lazy bor ask N HN bomb h m b l q w n O So E B) as (h' & m' & n' & r & cs & E' & Ln & So' & F & _ & _ & P).
    unfold hb_get_mut_. rewrite E'. cbn [bind]. destruct r as [x|]; cbn [came].
    - destruct P as (l' & X & H'). eexists _, _, _, _, l'. split; [reflexivity|]. split; [exact Ln|]. split; [exact F|]. split; [split; auto|exact X].
    - destruct P as [M' Re]. eexists _, _, _, _, l. split; [reflexivity|]. split; [exact Ln|]. split; [exact F|]. split; [split; auto; exists b; auto|auto].
  Qed.
  Lemma insert_any O (h : heap) m l k v n : good O h m l -> room 0 l ->
    exists h' m' n' o l', hb_insert_ bor ask N bomb h m k v n = Ok (h', m', n', o) /\ n <= n' /\ frame O h h' /\ good O h' m' l'
      /\ match o with Some r => may_insert bor (said n n') k v l l' r | None => l' = l /\ reason n' end.
  Proof.
    intros [So (b & E & B)] _. destruct (insert_t_lazy bor ask N HN bomb h m b l k v n O So E B) as (h' & m' & n' & r & cs & E' & Ln & So' & F & _ & _ & P).
    unfold hb_insert_. rewrite E'. cbn [bind]. destruct r as [x|]; cbn [came].
    - destruct P as (l' & X & H'). eexists _, _, _, _, l'. split; [reflexivity|]. split; [exact Ln|]. split; [exact F|]. split; [split; auto|exact X].
    - destruct P as [M' Re]. eexists _, _, _, _, l. split; [reflexivity|]. split; [exact Ln|]. split; [exact F|]. split; [split; auto; exists b; auto|auto].
  Qed.
  Lemma contains_law O cmp : order_laws cmp -> answers cmp ask -> forall (h : heap) m l q n n' b, good O h m l -> room 0 l -> ascending bor cmp l ->
    hb_contains_ bor ask h m q n = Ok (n', Some b) -> b = s_mem bor cmp q l.
  Proof.
    intros laws A h m l q n n' b [_ H] _ As E. revert E. unfold hb_contains_.
    destruct (contains_t_order cmp laws A h m l q n H As) as (n1 & o & E1 & P). rewrite E1. cbn [bind]. destruct o as [r|]; cbn [came]; intros E; [|discriminate].
    injection E as _ <-. exact P.
  Qed.
  Lemma get_mut_law O cmp : order_laws cmp -> answers cmp ask -> forall (h : heap) m l q w n h' m' n' r, good O h m l -> room 0 l -> ascending bor cmp l ->
    hb_get_mut_ bor ask bomb h m q w n = Ok (h', m', n', Some r) -> r = s_get bor cmp q l /\ good O h' m' (s_update bor cmp q w l).
  Proof.
    intros laws A h m l q w n h' m' n' r [So H] _ As E. revert E. unfold hb_get_mut_.
    destruct (get_mut_t_order cmp laws A h m l q w n O So H As) as (h1 & m1 & n1 & o & E1 & So1 & _ & P). rewrite E1. cbn [bind]. destruct o as [x|]; cbn [came]; intros E; [|discriminate].
    injection E as <- <- <- <-. destruct P as [-> P]. split; [reflexivity|]. split; auto.
  Qed.
  Lemma insert_law O cmp : order_laws cmp -> answers cmp ask -> forall (h : heap) m l k v n h' m' n' r, good O h m l -> room 0 l -> ascending bor cmp l ->
    hb_insert_ bor ask N bomb h m k v n = Ok (h', m', n', Some r) -> r = s_get bor cmp (bor k) l /\ good O h' m' (s_insert bor cmp k v l).
  Proof.
    intros laws A h m l k v n h' m' n' r [So H] _ As E. revert E. unfold hb_insert_.
    destruct (insert_t_order cmp laws A h m l k v n O So H As) as (h1 & m1 & n1 & o & E1 & So1 & _ & P). rewrite E1. cbn [bind]. destruct o as [x|]; cbn [came]; intros E; [|discriminate].
    injection E as <- <- <- <-. destruct P as [-> P]. split; [reflexivity|]. split; auto.
  Qed.

  Lemma and_modify_lazy (h : heap) m l k f n O : sound h (olist (hb_root m) ++ O) -> hbany h m l ->
    exists h' m' n' o l', hb_and_modify_t bor ask bomb h m k f n = Ok (h', m', n', o) /\ n <= n'
      /\ sound h' (olist (hb_root m') ++ O) /\ frame O h h' /\ hbany h' m' l'
      /\ match o with
         | Some _ => may_modify bor (said n n') k f l l' true
         | None => l' = l /\ reason n' \/ may_modify bor (said n n') k f l l' false
         end.
  Proof.
    intros So H.
    destruct (and_modify_any bor ask (hb_get_mut_ bor ask bomb) (good O) (frame O) room bombs (get_mut_any O) h m l k f n (conj So H) Logic.I)
      as (h' & m' & n' & o & l' & E & Ln & F & [So' H'] & P). exists h', m', n', o, l'. auto 10.
  Qed.
  Lemma or_insert_lazy (h : heap) m l k f w n O : sound h (olist (hb_root m) ++ O) -> hbany h m l ->
    exists h' m' n' o l', hb_or_insert_t bor ask N bomb h m k f w n = Ok (h', m', n', o) /\ n <= n'
      /\ sound h' (olist (hb_root m') ++ O) /\ frame O h h' /\ hbany h' m' l'
      /\ match o with
         | Some x => may_or_insert bor (said n n') k f w l l' x
         | None => (l' = l \/ exists v r, f = Some v /\ may_insert bor (said n n') k v l l' r)
             /\ (bombs \/ panicked ask n' \/ (f = None /\ l' = l) \/ contrary bor ask l)
         end.
  Proof.
    intros So H.
    destruct (or_insert_any bor ask (hb_contains_ bor ask) (hb_get_mut_ bor ask bomb) (hb_insert_ bor ask N bomb) (good O) (frame O) room bombs
        (frame_refl O) (fun h1 h2 h3 => frame_trans O h1 h2 h3) (fun _ _ _ _ => Logic.I) (contains_any O) (get_mut_any O) (insert_any O)
        (contains_law O) (get_mut_law O) (insert_law O) h m l k f w n (conj So H) Logic.I)
      as (h' & m' & n' & o & l' & E & Ln & F & [So' H'] & P). exists h', m', n', o, l'. auto 10.
  Qed.

  Section Order.
    Context (cmp : Q -> Q -> comparison) (laws : order_laws cmp) (A : answers cmp ask).
    Notation asc := (ascending bor cmp).
    Lemma and_modify_order (h : heap) m l k f n O : sound h (olist (hb_root m) ++ O) -> hbany h m l -> asc l ->
      exists h' m' n' o, hb_and_modify_t bor ask bomb h m k f n = Ok (h', m', n', o) /\ sound h' (olist (hb_root m') ++ O) /\ frame O h h'
        /\ match o with
           | Some _ => hbany h' m' (s_update bor cmp (bor k) (fun v => fst (f v)) l)
           | None => hbany h' m' l /\ reason n'
               \/ exists v, s_get bor cmp (bor k) l = Some v /\ snd (f v) = false /\ hbany h' m' (s_update bor cmp (bor k) (fun v => fst (f v)) l)
           end.
    Proof.
      intros So Ha As. unfold hb_and_modify_t, e_and_modify, hb_get_mut_.
      destruct (get_mut_t_order cmp laws A h m l (bor k) (fun v => fst (f v)) n O So Ha As) as (h' & m' & n' & o & E & So' & F & P). rewrite E. cbn [bind].
      eexists _, _, _, _. split; [reflexivity|]. do 2 (split; [assumption|]). destruct o as [[v|]|]; cbn [came].
      - destruct P as [G Ha']. destruct (snd (f v)) eqn:Ef; [exact Ha'|]. right. exists v. auto.
      - apply P.
      - left. exact P.
    Qed.
    Lemma or_insert_order (h : heap) m l k f w n O : sound h (olist (hb_root m) ++ O) -> hbany h m l -> asc l ->
      exists h' m' n' o, hb_or_insert_t bor ask N bomb h m k f w n = Ok (h', m', n', o) /\ sound h' (olist (hb_root m') ++ O) /\ frame O h h'
        /\ match o with
           | Some x => match s_get bor cmp (bor k) l with
               | Some v => x = v /\ hbany h' m' (s_update bor cmp (bor k) w l)
               | None => f = Some x /\ hbany h' m' (s_insert bor cmp k (w x) l)
               end
           | None => (hbany h' m' l \/ exists v, f = Some v /\ s_get bor cmp (bor k) l = None /\ hbany h' m' (s_insert bor cmp k v l))
               /\ (bombs \/ panicked ask n' \/ (f = None /\ s_get bor cmp (bor k) l = None))
           end.
    Proof.
      intros So H As.
      destruct (or_insert_order_gen bor ask (hb_contains_ bor ask) (hb_get_mut_ bor ask bomb) (hb_insert_ bor ask N bomb) (good O) (frame O) room bombs
        (frame_refl O) (fun h1 h2 h3 => frame_trans O h1 h2 h3) (fun _ _ _ _ => Logic.I) (contains_any O) (get_mut_any O) (insert_any O)
        (contains_law O) (get_mut_law O) (insert_law O) cmp laws A h m l k f w n (conj So H) Logic.I As) as (h' & m' & n' & o & E & (l0 & So' & _) & F & P).
      exists h', m', n', o. split; [exact E|]. do 2 (split; [assumption|]). unfold good in P. destruct o as [x|].
      - destruct (s_get bor cmp (bor k) l) as [v|]; tauto.
      - destruct P as [P Re]. split; [|exact Re]. destruct P as [P|(v & Ev & G & P)]; [left; apply P|right]. exists v. tauto.
    Qed.
    Lemma extend_t_order ps : forall (h : heap) m l n O, sound h (olist (hb_root m) ++ O) -> hbany h m l -> asc l ->
      exists h' m' n' o, hb_extend_t bor ask N bomb h m ps n = Ok (h', m', n', o) /\ sound h' (olist (hb_root m') ++ O) /\ frame O h h'
        /\ match o with
           | Done _ => hbany h' m' (s_extend bor cmp l ps)
           | Unwound => (exists ps1 p ps2, ps = ps1 ++ p :: ps2 /\ hbany h' m' (s_extend bor cmp l ps1)) /\ reason n'
           end.
    Proof.
      induction ps as [|[k v] ps IH]; intros h m l n O So Ha As; cbn [hb_extend_t].
      - eexists _, _, _, _. split; [reflexivity|]. split; [exact So|]. split; [apply frame_refl|exact Ha].
      - destruct (insert_t_order cmp laws A h m l k v n O So Ha As) as (h1 & m1 & n1 & o1 & E1 & So1 & F1 & P1). rewrite E1. cbn [bind]. destruct o1 as [r|].
        + destruct P1 as [_ Ha1].
          destruct (IH h1 m1 _ n1 O So1 Ha1 (asc_insert bor cmp laws k v l As)) as (h2 & m2 & n2 & o2 & E2 & So2 & F2 & P2).
          exists h2, m2, n2, o2. split; [exact E2|]. split; [exact So2|]. split; [eapply frame_trans; eauto|]. destruct o2 as [u|]; [exact P2|].
          destruct P2 as [(ps1 & p & ps2 & -> & P2) Re]. split; [|exact Re]. exists ((k, v) :: ps1), p, ps2. split; auto.
        + destruct P1 as [Ha1 Re]. eexists _, _, _, _. split; [reflexivity|]. do 2 (split; [assumption|]). split; [|exact Re]. exists [], (k, v), ps. split; auto.
    Qed.
  End Order.
End BTreeEntry.
