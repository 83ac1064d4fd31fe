(** Histories of calls on shared [BTreeMap]s, with comparisons that may answer anything and may panic. *)
From Coq Require Import List PeanoNat Bool Lia.
From Verif Require Import Base Spec MapSpec BTreeSpec SpecFacts Vec Heap HeapProofs BTreeModel BTreeProofs BTreeProofs2 BTreeIterModel
  BTreeIterProofs BTreeIterProofs2 BTreeHistModel BTreeHistProofs BTreeShows Ask AskSpec AskAnySpec AskAnyProofs BTreeAskModel BTreeAskAnyProofs
  BTreeHeapModel BTreeHeapSpec BTreeHeapHistModel BTreeHeapHistSpec
  BTreeHeapProofs BTreeHeapProofs2 BTreeHeapProofs3 BTreeHeapProofs4 BTreeHeapProofs5 BTreeHeapProofs6 BTreeHeapProofs7
  AnyOrdSpec BTreeAnyProofs AnyOrdShows AnyHeapSpec BAnyHeapSpec BTreeHeapAnyProofs BTreeHeapAnyProofs2
  BTreeHeapAskModel BTreeHeapAskHistModel BAskHeapSpec BTreeHeapAskProofs BTreeHeapAskProofs2 BTreeHeapAskProofs3 BTreeHeapAskProofs4.
From Verif Require AskHeapSpec BTreeHeapProofs8 BTreeHeapProofs9 BTreeMutProofs AvlHeapProofs5.
Import ListNotations.
Local Open Scope nat_scope.

Section AskRuns.
  Context {K V Q : Type} (bor : K -> Q) (ask : nat -> Q -> Q -> option comparison) (N : nat) (HN : 1 <= N).
  Context (keq : K -> K -> bool) (veq : V -> V -> bool).
  Context (kcmp : K -> K -> comparison) (vcmp : V -> V -> comparison).
  Variable bomb : nat -> bool.
  Variable fbomb : K -> V -> bool.
  Notation heap := (heap (list (K * V))).
  Notation op := (op K V Q).
  Notation bmap := (bt_map K V).
  Notation hbany := (@hbany K V N).
  Notation held := (BTreeHeapAnyProofs2.held N).
  Notation focus := (BTreeHeapAnyProofs2.focus N HN).
  Notation hb_step_t := (hb_step_t bor ask N keq veq kcmp vcmp bomb fbomb).
  Notation hb_run_t := (hb_run_t bor ask N keq veq kcmp vcmp bomb fbomb).
  Notation bask_did := (bask_did bor ask keq veq kcmp vcmp).
  Notation bask_unwound := (bask_unwound bor ask).
  Notation faults := (BTreeHeapProofs8.faults bomb fbomb).
  Notation bask_follows := (bask_follows bor ask keq veq kcmp vcmp faults).
  Notation sound_equiv := BTreeHeapProofs8.sound_equiv.
  Notation frame_z := BTreeHeapProofs8.frame_z.
  Notation said := (said bor ask).
  Notation why := (why ask bomb).
  Notation set_same := AvlHeapProofs5.set_nth_same.

  Lemma why_out n : why n -> faults \/ panicked ask n.
  Proof. intros [H|H]; [left; now left|right; exact H]. Qed.

  Definition stepped_t (h : heap) ms (sst : list (list (K * V))) (o : op) (n : nat) : Prop :=
    exists h' ms' n' r sst', hb_step_t (h, ms) n o = Ok ((h', ms'), n', r) /\ n <= n' /\ held h' ms' sst' []
      /\ match r with
         | Done x => bask_did n n' sst o x sst'
         | Unwound => (faults \/ panicked ask n') /\ bask_unwound n n' sst o sst'
         end.
  (** The calls that ask nothing. *)
  Lemma step_quiet (h : heap) ms sst (o : op) n : held h ms sst [] -> b_tame o ->
    hb_step_t (h, ms) n o = asked n (hb_step bor (fun _ _ => Eq) N keq veq kcmp vcmp bomb fbomb (h, ms) o) ->
    (forall r st', bany_did bor keq veq kcmp vcmp (fun _ _ => Eq) sst o r st' -> bask_did n n sst o r st') ->
    (forall st', bany_unwound bor (fun _ _ => Eq) sst o st' -> bask_unwound n n sst o st') ->
    stepped_t h ms sst o n.
  Proof.
    intros H T E D U. destruct (step_any bor N HN keq veq kcmp vcmp bomb fbomb (fun _ _ => Eq) h ms sst o H T) as (h' & ms' & r & E1 & sst' & H' & P).
    exists h', ms', n, r, sst'. rewrite E, E1. cbn [asked bind]. split; [reflexivity|]. split; [lia|]. split; [exact H'|].
    destruct r as [x|]; [auto|]. destruct P as [Bb P]. auto.
  Qed.

  Lemma step_t_ok (h : heap) ms sst (o : op) n : held h ms sst [] -> b_calm o -> stepped_t h ms sst o n.
  Proof.
    intros H T.
    destruct o; try contradiction;
      try (apply step_quiet; [exact H|exact I|reflexivity|cbn; auto|cbn; auto]; fail); unfold stepped_t;
      cbn [BTreeHeapAskHistModel.hb_step_t BAskHeapSpec.bask_did AskHeapSpec.ask_did BAskHeapSpec.bask_unwound]; cbv zeta;
      try (match goal with |- context [match nth_error ms ?i with _ => _ end] => destruct (nth_error ms i) as [m|] eqn:Em;
             [destruct (focus h ms sst [] i m H Em) as (l & Z & El & Sh & So1 & Cl); rewrite El
             | rewrite (held_none N _ _ _ _ _ H Em); eexists _, _, _, _, _; split; [reflexivity|]; split; [lia|]; split; [exact H|]; now auto]
           end).
    - (* from_iter *) destruct H as [S0 F0]. rewrite app_nil_r in S0. destruct (from_iter_t_a bor ask N HN bomb h ps _ n S0) as (h1 & n1 & o & E & L & F1 & P). rewrite E. cbn [bind].
      assert (F0' : Forall2 (hbany h1) ms sst) by (eapply (shows_frame N); [exact F1|apply incl_refl|exact F0]).
      destruct o as [m|].
      + destruct P as [S1 (l' & X & Sh)]. eexists _, _, _, _, (sst ++ [l']). split; [reflexivity|]. split; [exact L|]. split; [|split; eauto]. apply (push N); [|exact Sh]. split; [|exact F0'].
        eapply sound_equiv; [|exact S1]. intros x. rewrite !cnt_app. cbn. lia.
      + destruct P as [S1 Bb]. eexists _, _, _, _, sst. split; [reflexivity|]. split; [exact L|]. split; [|split; [now apply why_out|reflexivity]]. split; [now rewrite app_nil_r|exact F0'].
    - (* insert *) destruct (insert_t_a bor ask N HN bomb h m l k v _ n So1 Sh) as (h1 & m1 & n1 & o & E & L & S1 & F1 & P). rewrite E. cbn [bind].
      apply frame_z in F1. destruct o as [x|].
      + destruct P as (l' & X & P). eexists _, _, _, _, (set_nth h0 l' sst). split; [reflexivity|]. split; [exact L|]. split; [auto|]. exists l'. split; [reflexivity|]. exists x. auto.
      + destruct P as [P Bb]. eexists _, _, _, _, sst. split; [reflexivity|]. split; [exact L|]. split; [|split; [now apply why_out|reflexivity]].
        replace sst with (set_nth h0 l sst) by (now apply set_same). auto.
    - (* remove *) pose proof Sh as Sh0. apply (hbany_b N) in Sh0 as (b & M & _ & A).
      destruct (remove_t_m bor ask N HN bomb h m b l q _ n So1 M A) as (h1 & m1 & n1 & n2 & o & E & L & S1 & F1 & _ & P). rewrite E. cbn [bind].
      assert (L' : n <= n2) by lia. destruct o as [x|].
      + destruct P as (l' & X & P). apply frame_z in F1. eexists _, _, _, _, (set_nth h0 l' sst). split; [reflexivity|]. split; [exact L'|]. split; [auto|]. exists l'. split; [reflexivity|]. exists x. auto.
      + destruct (hb_clear_ok h1 m1 _ S1) as (h2 & E2 & S2 & F2 & _). rewrite E2. cbn [bind].
        eexists _, _, _, _, _. split; [reflexivity|]. split; [exact L'|]. split; [|split; [|reflexivity]].
        * apply Cl; [|exact S2|apply (hbany_new N)]. eapply frame_z, frame_trans; eauto.
        * destruct P as [[P _]|[P _]]; [right; exact P|left; now left].
    - (* get *) destruct (get_t_a bor ask N HN h m l q n Sh) as (n1 & o & E & L & P). rewrite E. cbn [bind].
      eexists _, _, _, _, sst. split; [reflexivity|]. split; [exact L|]. split; [exact H|]. destruct o as [r|]; eauto.
    - (* get_key_value *) destruct (get_key_value_t_a bor ask N HN h m l q n Sh) as (n1 & o & E & L & P). rewrite E. cbn [bind].
      eexists _, _, _, _, sst. split; [reflexivity|]. split; [exact L|]. split; [exact H|]. destruct o as [r|]; eauto.
    - (* contains *) destruct (contains_t_a bor ask N HN h m l q n Sh) as (n1 & o & E & L & P). rewrite E. cbn [bind].
      eexists _, _, _, _, sst. split; [reflexivity|]. split; [exact L|]. split; [exact H|]. destruct o as [r|]; eauto.
    - (* get_mut *) pose proof Sh as Sh0. apply (hbany_b N) in Sh0 as (b & M & _ & A).
      destruct (get_mut_t_m bor ask N HN bomb h m b l q w _ n So1 M A) as (h1 & m1 & n1 & o & E & L & S1 & F1 & _ & P). rewrite E. cbn [bind].
      apply frame_z in F1. destruct o as [x|].
      + destruct P as (l' & X & P). eexists _, _, _, _, (set_nth h0 l' sst). split; [reflexivity|]. split; [exact L|]. split; [auto|]. exists l'. split; [reflexivity|]. exists x. auto.
      + destruct P as [P Bb]. eexists _, _, _, _, sst. split; [reflexivity|]. split; [exact L|]. split; [|split; [now apply why_out|reflexivity]].
        replace sst with (set_nth h0 l sst) by (now apply set_same). apply Cl; auto. eapply (hbm_any N); eauto.
    - (* and_modify *) pose proof Sh as Sh0. apply (hbany_b N) in Sh0 as (b & M & _ & A).
      destruct (get_mut_t_m bor ask N HN bomb h m b l (bor k) w _ n So1 M A) as (h1 & m1 & n1 & o & E & L & S1 & F1 & _ & P). rewrite E. cbn [bind].
      apply frame_z in F1. destruct o as [x|].
      + destruct P as (l' & X & P). eexists _, _, _, _, (set_nth h0 l' sst). split; [reflexivity|]. split; [exact L|]. split; [auto|]. split; [reflexivity|]. exists l'. split; [reflexivity|]. exists x. auto.
      + destruct P as [P Bb]. eexists _, _, _, _, sst. split; [reflexivity|]. split; [exact L|]. split; [|split; [now apply why_out|reflexivity]].
        replace sst with (set_nth h0 l sst) by (now apply set_same). apply Cl; auto. eapply (hbm_any N); eauto.
    - (* extend *) destruct (extend_t_a bor ask N HN bomb ps h m l _ n So1 Sh) as (h1 & m1 & n1 & o & E & L & S1 & F1 & P). rewrite E. cbn [bind].
      apply frame_z in F1. destruct o as [x|].
      + destruct P as (l' & X & P). eexists _, _, _, _, (set_nth h0 l' sst). split; [reflexivity|]. split; [exact L|]. split; [auto|]. split; [reflexivity|]. exists l'. auto.
      + destruct P as [(dn & p & rest & l' & -> & X & P) Bb]. eexists _, _, _, _, (set_nth h0 l' sst). split; [reflexivity|]. split; [exact L|]. split; [auto|]. split; [now apply why_out|].
        exists l, dn, p, rest, l'. auto.
    - (* retain *) destruct (retain_t_a bor ask N HN bomb (fun s k v => (s, fst (g k v), snd (g k v))) (fun _ k v => fbomb k v) h m l tt _ n So1 Sh)
        as (h1 & m1 & n1 & o & E & L & S1 & F1 & P). rewrite E. cbn [bind]. apply frame_z in F1. destruct o as [x|].
      + destruct P as [(l' & X & P) _]. rewrite BTreeHeapProofs8.kept_retain in X. eexists _, _, _, _, (set_nth h0 l' sst). split; [reflexivity|]. split; [exact L|]. split; [auto|]. split; [reflexivity|]. exists l'. auto.
      + destruct P as [P Bb]. eexists _, _, _, _, _. split; [reflexivity|]. split; [exact L|]. split; [apply Cl; [exact F1|exact S1|exact P]|]. split; [|reflexivity].
        destruct Bb as [Bb|(s & k & v & Bb)]; [now apply why_out|]. left. right. eauto.
    - (* split_off *) destruct (split_off_t_a bor ask N HN bomb h m l q _ n So1 Sh) as (h1 & m1 & n1 & o & E & L & F1 & P). rewrite E. cbn [bind].
      apply frame_z in F1. destruct o as [m2|].
      + destruct P as (S1 & p1 & p2 & l1 & l2 & X0 & X1 & X2 & Sh1 & Sh2). eexists _, _, _, _, (set_nth h0 l1 sst ++ [l2]). split; [reflexivity|]. split; [exact L|].
        split; [|split; [reflexivity|]; exists p1, p2, l1, l2; auto]. apply (push N); [|exact Sh2]. apply Cl; [exact F1| |exact Sh1].
        eapply sound_equiv; [|exact S1]. intros x. rewrite !cnt_app. lia.
      + destruct P as (S1 & Sh1 & Bb). eexists _, _, _, _, _. split; [reflexivity|]. split; [exact L|]. split; [apply Cl; [exact F1|exact S1|exact Sh1]|]. split; [now apply why_out|reflexivity].
    - (* append *) destruct (nth_error ms h2) as [m2|] eqn:Em2.
      2:{ rewrite (held_none N _ _ _ _ _ H Em2). eexists _, _, _, _, sst. split; [reflexivity|]. auto. }
      destruct (focus h ms sst [] h2 m2 H Em2) as (l2 & Z2 & El2 & Sh2 & So2 & Cl2). rewrite El2.
      destruct (Nat.eqb h1 h2) eqn:Ei; [eexists _, _, _, _, sst; split; [reflexivity|]; auto|]. apply Nat.eqb_neq in Ei.
      assert (H2 : held h (set_nth h2 hb_new ms) (set_nth h2 [] sst) (olist (hb_root m2))).
      { apply Cl2; [apply frame_refl| |apply (hbany_new N)]. cbn [hb_root hb_new olist app].
        eapply sound_equiv; [|exact So2]. intros x. rewrite !cnt_app. cbn. lia. }
      assert (Em' : nth_error (set_nth h2 hb_new ms) h1 = Some m) by (rewrite AvlHeapProofs5.set_nth_other; auto).
      destruct (focus h _ _ _ h1 m H2 Em') as (l' & Z' & El' & Sh' & So1' & Cl'). rewrite AvlHeapProofs5.set_nth_other in El' by auto.
      assert (l' = l) by congruence. subst l'. clear Sh So1 Cl Z. rename Sh' into Sh, So1' into So1, Cl' into Cl, Z' into Z.
      assert (S' : sound h (olist (hb_root m) ++ olist (hb_root m2) ++ Z)).
      { eapply sound_equiv; [|exact So1]. intros x. rewrite !cnt_app. lia. }
      destruct (append_t_a bor ask N HN bomb h m m2 l l2 Z n S' Sh Sh2) as (h' & a' & n1 & o & E & L & S1 & F1 & P). rewrite E. cbn [bind].
      rewrite (AvlHeapProofs5.set_nth_comm h2) by auto. destruct o as [x|].
      + destruct P as (l' & X & P). eexists _, _, _, _, (set_nth h2 [] (set_nth h1 l' sst)). split; [reflexivity|]. split; [exact L|]. split; [|split; [reflexivity|]; exists l'; auto].
        rewrite (AvlHeapProofs5.set_nth_comm h2) by auto. apply Cl; [exact F1| |exact P]. now rewrite app_nil_r.
      + destruct P as [(dn & p & rest & l' & -> & X & P) Bb]. eexists _, _, _, _, (set_nth h2 [] (set_nth h1 l' sst)). split; [reflexivity|]. split; [exact L|].
        split; [|split; [now apply why_out|]; split; [exact Ei|]; exists l, (dn ++ p :: rest), dn, p, rest, l'; auto].
        rewrite (AvlHeapProofs5.set_nth_comm h2) by auto. apply Cl; [exact F1| |exact P]. now rewrite app_nil_r.
  Qed.

  (** ** Histories *)
  Lemma run_t_ok (os : list op) : Forall b_calm os -> forall (h : heap) ms sst n, held h ms sst [] ->
    exists h' ms' n' rs sst', hb_run_t (h, ms) n os = Ok ((h', ms'), n', rs) /\ bask_follows n sst os rs n' sst' /\ held h' ms' sst' [].
  Proof.
    induction 1 as [|o os Ta _ IH]; intros h ms sst n H; cbn [BTreeHeapAskHistModel.hb_run_t].
    { exists h, ms, n, [], sst. split; [reflexivity|]. split; [split; reflexivity|exact H]. }
    destruct (step_t_ok h ms sst o n H Ta) as (h1 & ms1 & n1 & r & sst1 & E1 & L1 & H1 & P1). rewrite E1. cbn [bind].
    destruct (IH h1 ms1 sst1 n1 H1) as (h' & ms' & n' & rs & sst' & E & F & H'). rewrite E. cbn [bind].
    exists h', ms', n', (r :: rs), sst'. split; [reflexivity|]. split; [|exact H'].
    destruct r as [x|]; cbn [BAskHeapSpec.bask_follows]; exists n1, sst1; [auto|]. destruct P1. auto.
  Qed.
  Lemma history_t (os : list op) : Forall b_calm os ->
    exists h ms n rs ls, hb_run_t (empty_heap, []) 0 os = Ok ((h, ms), n, rs) /\ bask_follows 0 [] os rs n ls
      /\ sound h (broots ms) /\ Forall2 (hbany h) ms ls
      /\ exists h', hb_drop_all h ms = Ok h' /\ forall a, get h' a = None.
  Proof.
    intros Ta. destruct (run_t_ok os Ta empty_heap [] [] 0) as (h & ms & n & rs & ls & E & F & H). { split; [exact empty_ok|constructor]. }
    apply (held_out N) in H as [? ?]. exists h, ms, n, rs, ls. repeat (split; [assumption|]). now apply BTreeHeapProofs8.drop_all_none.
  Qed.
  Lemma call_t (h : heap) ms ls (o : op) n : sound h (broots ms) -> Forall2 (hbany h) ms ls -> b_calm o ->
    exists h' ms' n' r ls', hb_step_t (h, ms) n o = Ok ((h', ms'), n', r) /\ n <= n' /\ sound h' (broots ms') /\ Forall2 (hbany h') ms' ls'
      /\ match r with
         | Done ob => bask_did n n' ls o ob ls'
         | Unwound => (faults \/ panicked ask n') /\ bask_unwound n n' ls o ls'
         end.
  Proof.
    intros S F T. destruct (step_t_ok h ms ls o n (held_in N _ _ _ S F) T) as (h' & ms' & n' & r & ls' & E & L & H & P). apply (held_out N) in H as [S' F'].
    exists h', ms', n', r, ls'. auto.
  Qed.
End AskRuns.

(** *** One map among others *)
Section AskLazy.
  Context {K V Q : Type} (bor : K -> Q) (ask : nat -> Q -> Q -> option comparison) (N : nat) (HN : 1 <= N).
  Variable bomb : nat -> bool.
  Notation heap := (heap (list (K * V))).
  Notation hbany := (@hbany K V N).
  Notation said := (said bor ask).
  Notation why n := ((exists i, bomb i = true) \/ panicked ask n).
  Notation top b f := (match bm_root b with Some t => f t | None => [] end).

  Lemma insert_t_lazy (h : heap) m b l k v n O : sound h (olist (hb_root m) ++ O) -> hb_read h m = Ok b -> b_any N b l ->
    exists h' m' n' o cs, hb_insert_t bor ask N bomb h m k v n = Ok (h', m', n', o) /\ n <= n' /\ sound h' (olist (hb_root m') ++ O) /\ frame O h h'
      /\ clones h' = cs ++ clones h /\ sub cs (top b (fun t => path_t bor ask (bor k) t n))
      /\ match o with
         | Done x => exists l', may_insert bor (said n n') k v l l' x /\ hbany h' m' l'
         | Unwound => hb_read h' m' = Ok b /\ why n'
         end.
  Proof.
    intros S E A. apply read_iff in E. destruct (insert_t_m bor ask N HN bomb h m b l k v O n S E A) as (h' & m' & n' & o & E1 & L & S1 & F1 & (cs & C & Sb) & P).
    exists h', m', n', o, cs. repeat (split; [assumption|]). destruct o as [x|]; [exact P|]. destruct P as [P W]. split; [now apply read_iff|exact W].
  Qed.
  Lemma get_mut_t_lazy (h : heap) m b l q w n O : sound h (olist (hb_root m) ++ O) -> hb_read h m = Ok b -> b_any N b l ->
    exists h' m' n' o cs, hb_get_mut_t bor ask bomb h m q w n = Ok (h', m', n', o) /\ n <= n' /\ sound h' (olist (hb_root m') ++ O) /\ frame O h h'
      /\ clones h' = cs ++ clones h /\ sub cs (top b (fun t => path_t bor ask q t n))
      /\ match o with
         | Done x => exists l', may_get_mut (said n n') q w l l' x /\ hbany h' m' l'
         | Unwound => hb_read h' m' = Ok b /\ why n'
         end.
  Proof.
    intros S E A. apply read_iff in E. destruct (get_mut_t_m bor ask N HN bomb h m b l q w O n S E A) as (h' & m' & n' & o & E1 & L & S1 & F1 & (cs & C & Sb) & P).
    exists h', m', n', o, cs. repeat (split; [assumption|]). destruct o as [x|]; [exact P|]. destruct P as [P W]. split; [now apply read_iff|exact W].
  Qed.
  Lemma remove_t_lazy (h : heap) m b l q n O : sound h (olist (hb_root m) ++ O) -> hb_read h m = Ok b -> b_any N b l ->
    exists h' m' n1 n' o cs, hb_remove_t bor ask N bomb h m q n = Ok (h', m', n', o) /\ n <= n1 <= n' /\ sound h' (olist (hb_root m') ++ O) /\ frame O h h'
      /\ clones h' = cs ++ clones h /\ sub cs (top b (fun t => near_t bor ask q t n1))
      /\ match o with
         | Done x => exists l', may_remove_val (said n n') q l l' x /\ hbany h' m' l'
         | Unwound => (hb_read h' m' = Ok b /\ panicked ask n')
             \/ ((exists i, bomb i = true) /\ exists t, hb_read h' m' = Ok (BMap (length l) (Some t)) /\ sub (in_order t) l)
         end.
  Proof.
    intros S E A. apply read_iff in E. destruct (remove_t_m bor ask N HN bomb h m b l q O n S E A) as (h' & m' & n1 & n' & o & E1 & L & S1 & F1 & (cs & C & Sb) & P).
    exists h', m', n1, n', o, cs. repeat (split; [assumption|]). destruct o as [x|]; [exact P|]. destruct P as [[W P]|[W (t & d & Et & _ & Sl)]]; [left|right].
    - split; [now apply read_iff|exact W].
    - split; [exact W|]. exists t. rewrite in_order_flat. auto.
  Qed.
  Lemma get_t_lazy (h : heap) m l q n : hbany h m l ->
    exists n' o, hb_get_t bor ask h m q n = Ok (n', o) /\ n <= n'
      /\ match o with Done r => may_get (said n n') q l r | Unwound => panicked ask n' end.
  Proof. exact (get_t_a bor ask N HN h m l q n). Qed.
  Lemma append_t_lazy (h : heap) m1 m2 l1 l2 n O : sound h (olist (hb_root m1) ++ olist (hb_root m2) ++ O) -> hbany h m1 l1 -> hbany h m2 l2 ->
    exists h' m' n' o, hb_append_t bor ask N bomb h m1 m2 n = Ok (h', m', hb_new, n', o) /\ n <= n' /\ sound h' (olist (hb_root m') ++ O) /\ frame O h h'
      /\ match o with
         | Done _ => exists l', may_extend bor (said n n') l2 l1 l' /\ hbany h' m' l'
         | Unwound => (exists done p rest l', l2 = done ++ p :: rest /\ may_extend bor (said n n') done l1 l' /\ hbany h' m' l') /\ why n'
         end.
  Proof. exact (append_t_a bor ask N HN bomb h m1 m2 l1 l2 O n). Qed.
  Lemma retain_t_lazy (g : K -> V -> V * bool) (fbomb : K -> V -> bool) (h : heap) m l n O : sound h (olist (hb_root m) ++ O) -> hbany h m l ->
    exists h' m' n' o, hb_retain_t bor ask N bomb (fun s k v => (s, fst (g k v), snd (g k v))) (fun _ k v => fbomb k v) h m tt n = Ok (h', m', n', o)
      /\ n <= n' /\ sound h' (olist (hb_root m') ++ O) /\ frame O h h'
      /\ match o with
         | Done _ => exists l', may_extend bor (said n n') (s_retain g l) [] l' /\ hbany h' m' l'
         | Unwound => hbany h' m' [] /\ (why n' \/ exists k v, fbomb k v = true)
         end.
  Proof.
    intros S H. destruct (retain_t_a bor ask N HN bomb (fun s k v => (s, fst (g k v), snd (g k v))) (fun _ k v => fbomb k v) h m l tt O n S H)
      as (h' & m' & n' & o & E & L & S1 & F1 & P). exists h', m', n', o. repeat (split; [assumption|]). destruct o as [x|].
    - destruct P as [(l' & X & P) _]. rewrite BTreeHeapProofs8.kept_retain in X. eauto.
    - destruct P as [P [W|(s & k & v & B)]]; split; eauto.
  Qed.
  Lemma split_off_t_lazy (h : heap) m l q n O : sound h (olist (hb_root m) ++ O) -> hbany h m l ->
    exists h' m' n' o, hb_split_off_t bor ask N bomb h m q n = Ok (h', m', n', o) /\ n <= n' /\ frame O h h'
      /\ match o with
         | Done m2 => sound h' (olist (hb_root m') ++ olist (hb_root m2) ++ O)
             /\ exists p1 p2 l1 l2, may_part bor ask n n' q l p1 p2 /\ may_extend bor (said n n') p1 [] l1 /\ may_extend bor (said n n') p2 [] l2
                /\ hbany h' m' l1 /\ hbany h' m2 l2
         | Unwound => sound h' (olist (hb_root m') ++ O) /\ hbany h' m' [] /\ why n'
         end.
  Proof. exact (split_off_t_a bor ask N HN bomb h m l q O n). Qed.
  (** How many nodes there are on a way. *)
  Lemma path_t_len q d : forall (t : bt K V) n, loose d t -> length (path_t bor ask q t n) <= d + 1.
  Proof.
    induction d as [|d IH]; intros t n L; inversion L; subst; cbn [path_t]; rewrite app_length; cbn [length map];
      destruct (walk bor ask q es n) as [[[i [|]] n']|]; cbn [length]; try lia.
    - destruct i; cbn; lia.
    - rewrite nth_error_map. destruct (nth_error ks i) as [c|] eqn:E; cbn [option_map length]; [|lia].
      pose proof (IH c n' (BTreeHeapProofs9.nth_loose _ _ _ _ H1 E)). lia.
  Qed.
  Lemma near_t_len q d : forall (t : bt K V) n, loose d t -> length (near_t bor ask q t n) <= 2 * d + 1.
  Proof.
    induction d as [|d IH]; intros t n L; inversion L; subst; cbn [near_t]; rewrite app_length; cbn [length map];
      destruct (walk bor ask q es n) as [[[i hit] n']|]; cbn [length]; try lia.
    - destruct i; cbn; lia.
    - rewrite nth_error_map. destruct (nth_error ks i) as [c|] eqn:E; cbn [option_map]; [|cbn; lia]. rewrite app_length.
      pose proof (BTreeHeapProofs9.nth_loose _ _ _ _ H1 E) as Lc. pose proof (BTreeHeapProofs9.beside_len i ks).
      destruct hit; [pose proof (BTreeHeapProofs9.near_last_len d c Lc)|pose proof (IH c n' Lc)]; lia.
  Qed.
  Lemma few_t (b : bt_map K V) l t q n : b_any N b l -> bm_root b = Some t ->
    exists d, 2 * (N + 1) ^ d <= length l + 1 /\ length (path_t bor ask q t n) <= d + 1 /\ length (near_t bor ask q t n) <= 2 * d + 1.
  Proof.
    intros A Er. apply (any_valid N) in A as [(_ & _ & Sh) <-]. rewrite Er in Sh. destruct Sh as [d Sh].
    pose proof (shape_loose _ _ _ _ Sh) as Lo. exists d. split; [|split; [now apply path_t_len|now apply near_t_len]].
    unfold contents. rewrite Er. apply (BTreeMutProofs.count_bounds N d 1 t Sh).
  Qed.
End AskLazy.
