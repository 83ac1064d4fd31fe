(** Histories and single calls on AVL maps that share nodes, with comparisons that may answer anything and may panic: the
    statements in terms of [hm_read]. *)
From Coq Require Import List ZArith Bool Lia Permutation.
From Verif Require AvlProofs AvlProofs2.
From Verif Require Import Base Spec MapSpec Heap HeapProofs AvlModel AvlIterModel AvlHistModel AvlMapProofs AvlHistProofs
  Ask AskSpec AskAnySpec AskAnyProofs AvlAskModel AvlAskAnyProofs AnyOrdSpec AvlAnyProofs AvlAnyHist SmallFacts.
From Verif Require Import AvlHeapModel AvlHeapAskModel AvlHeapSpec AvlHeapHistModel AvlHeapHistSpec AvlHeapAskHistModel AskHeapSpec AnyHeapSpec
  AvlHeapProofs AvlHeapProofs2 AvlHeapProofs3 AvlHeapProofs4 AvlHeapProofs5 AvlHeapProofs6
  AvlHeapAnyProofs AvlHeapAnyProofs2 AvlHeapAskProofs AvlHeapAskProofs2 AvlHeapAskProofs3 AvlHeapAskProofs4.
Import ListNotations.
Local Open Scope Z_scope.

Section AskRuns.
  Context {K V Q : Type} (bor : K -> Q) (ask : nat -> Q -> Q -> option comparison).
  Context (keq : K -> K -> bool) (veq : V -> V -> bool).
  Context (kcmp : K -> K -> comparison) (vcmp : V -> V -> comparison).
  Notation op := (op K V Q).
  Notation entry := (K * V)%type.

  Lemma ask_grows_le (os : list op) : forall b, 0 <= b -> b <= ask_grows os b.
  Proof.
    induction os as [|o os IH]; intros b Hb; cbn [ask_grows]; [lia|].
    pose proof (grows1_le o b Hb). pose proof (IH (grows1 o b)). lia.
  Qed.
  Lemma may_extend_len (told : Q -> entry -> Prop) ps : forall (l l' : list entry),
    may_extend bor told ps l l' -> (length l' <= length l + length ps)%nat.
  Proof.
    induction ps as [|[k v] ps IH]; cbn [may_extend length]; intros l l'; [intros ->; lia|].
    intros (l1 & r & I & E). apply IH in E. apply AskAnyProofs.len_insert in I. destruct r; lia.
  Qed.
  Lemma may_pair_len (told : Q -> entry -> Prop) (a b oa ob : list entry) both : may_pair bor told a b oa ob both ->
    (length oa <= length a /\ length ob <= length b /\ length both <= length a)%nat.
  Proof.
    intros (Pa & Pb & _). apply Permutation_length in Pa, Pb. rewrite app_length, map_length in Pa, Pb. lia.
  Qed.

  Lemma ask_did_upto n n' ls (o : op) r ls' b : 0 <= b -> calm o -> Forall (upto b) ls ->
    ask_did bor ask keq veq kcmp vcmp n n' ls o r ls' -> Forall (upto (grows1 o b)) ls'.
  Proof.
    intros Hb Ta F D.
    assert (Nth : forall i l, nth_error ls i = Some l -> upto b l).
    { intros i l H. eapply Forall_forall in F; [exact F|]. eapply nth_error_In; eauto. }
    pose proof (upto_le b (grows1 o b) ls (grows1_le o b Hb) F) as F'.
    assert (Nil : upto (grows1 o b) (@nil entry)) by (pose proof (grows1_le o b Hb); unfold upto; cbn [length]; lia).
    destruct o; cbn [calm] in Ta; try contradiction; cbn [ask_did] in D;
      try (eapply (did_upto bor keq veq kcmp vcmp (fun _ _ => Eq)); [exact Hb|exact Logic.I|exact F|exact D]);
      cbn [grows1] in *; cbv zeta in D;
      repeat match type of D with
             | match nth_error ls ?i with _ => _ end => let N := fresh "N" in destruct (nth_error ls i) eqn:N; [apply Nth in N|now destruct D as [_ ->]]
             end;
      repeat match type of D with
             | exists _, _ => destruct D as [? D]
             | _ /\ _ => destruct D as [? D]
             end; subst; auto.
    - apply Forall_add; auto. apply may_extend_len in D. unfold upto. cbn [length] in D. lia.
    - apply Forall_set; auto. apply AskAnyProofs.len_insert in D. unfold upto in *. match type of D with context [match ?x with _ => _ end] => destruct x end; lia.
    - apply Forall_set; auto. destruct D as (o & D & _). apply AskAnyProofs.len_remove in D. unfold upto in *. lia.
    - apply Forall_set; auto. apply AskAnyProofs.len_remove in D. unfold upto in *. lia.
    - apply Forall_set; auto. apply AskAnyProofs.len_get_mut in D. unfold upto in *. lia.
    - apply Forall_set; auto. apply AskAnyProofs.len_get_mut in D. unfold upto in *. lia.
    - apply Forall_set; auto. apply may_extend_len in D. unfold upto in *. lia.
    - destruct (Nat.eqb h1 h2); [subst; auto|]. destruct D as (oa & ob & both & P & l' & Pm & ->).
      apply may_pair_len in P. apply Permutation_length in Pm. rewrite app_length in Pm. unfold upto in *.
      apply Forall_set; auto. apply Forall_set; auto. lia.
    - apply Forall_add; auto. match goal with P : may_pair _ _ _ _ _ _ _ |- _ => apply may_pair_len in P end.
      apply Permutation_length in D. rewrite app_length in D. unfold upto in *. lia.
    - apply Forall_add; auto. match goal with P : may_pair _ _ _ _ _ _ _ |- _ => apply may_pair_len in P end.
      apply Permutation_length in D. rewrite map_length in D. unfold upto in *. lia.
    - apply Forall_add; auto. match goal with P : may_pair _ _ _ _ _ _ _ |- _ => apply may_pair_len in P end.
      apply Permutation_length in D. unfold upto in *. lia.
    - apply Forall_add; auto. match goal with P : may_pair _ _ _ _ _ _ _ |- _ => apply may_pair_len in P end.
      apply Permutation_length in D. rewrite app_length in D. unfold upto in *. lia.
  Qed.
  Lemma ask_unwound_upto n n' ls (o : op) ls' b : 0 <= b -> Forall (upto b) ls -> ask_unwound bor ask n n' ls o ls' -> Forall (upto (grows1 o b)) ls'.
  Proof.
    intros Hb F D.
    pose proof (upto_le b (grows1 o b) ls (grows1_le o b Hb) F) as F'.
    assert (Nil : upto (grows1 o b) (@nil entry)) by (pose proof (grows1_le o b Hb); unfold upto; cbn [length]; lia).
    destruct o; cbn [ask_unwound grows1] in *; try contradiction; subst; auto; try (now apply Forall_set).
    - destruct D as (l & done & p & rest & l' & N & -> & E & ->). apply Forall_set; auto. apply may_extend_len in E.
      eapply nth_error_In, Forall_forall in N; [|exact F]. unfold upto in *. rewrite app_length. lia.
    - destruct D as [_ ->]. now repeat apply Forall_set.
  Qed.

  Variable bomb : nat -> bool.
  Variable fbomb : K -> V -> bool.
  Notation heap := (heap (pay K V)).
  Notation faults := (faults bomb fbomb).
  Notation h_run_t := (h_run_t bor ask keq veq kcmp vcmp bomb fbomb).
  Notation h_step_t := (h_step_t bor ask keq veq kcmp vcmp bomb fbomb).
  Notation ask_follows := (ask_follows bor ask keq veq kcmp vcmp faults).

  Lemma run_t_ok (os : list op) : Forall calm os -> forall (h : heap) ms st ls n b,
    inv h ms st -> rela st ls -> Forall (upto b) ls -> 0 <= b -> ask_grows os b < 2 ^ 63 ->
    exists h' ms' n' rs st' ls', h_run_t (h, ms) n os = Ok ((h', ms'), n', rs) /\ ask_follows n ls os rs n' ls'
      /\ inv h' ms' st' /\ rela st' ls' /\ Forall small ls'.
  Proof.
    induction 1 as [|o os Ta _ IH]; intros h ms st ls n b I R U Hb G; cbn [AvlHeapAskHistModel.h_run_t ask_grows] in *.
    { exists h, ms, n, [], st, ls. split; auto. split; [split; auto|]. do 2 (split; auto). eapply upto_small; eauto. }
    pose proof (grows1_le o b Hb) as G1. pose proof (ask_grows_le os (grows1 o b)) as G2.
    assert (Sm : Forall small ls) by (eapply upto_small; [|exact U]; lia).
    destruct (step_t_ok bor ask keq veq kcmp vcmp bomb fbomb h ms st ls o n I R Sm Ta) as (h1 & ms1 & n1 & r1 & st1 & ls1 & E1 & Ln & I1 & R1 & P1).
    { eapply upto_fits; eauto. lia. }
    rewrite E1. cbn [bind].
    destruct (IH h1 ms1 st1 ls1 n1 (grows1 o b)) as (h' & ms' & n' & rs & st' & ls' & E' & Fo & I' & R' & S'); auto; [|lia|].
    { destruct r1; [eapply ask_did_upto; eauto|]. destruct P1. eapply ask_unwound_upto; eauto. }
    rewrite E'. cbn [bind]. exists h', ms', n', (r1 :: rs), st', ls'. split; auto. split; [|auto].
    destruct r1 as [ob|]; cbn [AskHeapSpec.ask_follows]; exists n1, ls1; [auto|]. destruct P1. auto.
  Qed.

  Lemma history_t (os : list op) : Forall calm os -> ask_grows os 0 < 2 ^ 63 ->
    exists h ms n rs ls, h_run_t (empty_heap, []) 0%nat os = Ok ((h, ms), n, rs) /\ ask_follows 0%nat [] os rs n ls
      /\ sound h (roots ms) /\ Forall2 (hany h) ms ls
      /\ exists h', h_drop_all h ms = Ok h' /\ forall a, get h' a = None.
  Proof.
    intros Ta G.
    destruct (run_t_ok os Ta empty_heap [] [] [] 0%nat 0) as (h & ms & n & rs & st & ls & E & Fo & I & R & S); auto; try lia.
    { split; [exact empty_ok|constructor]. } { constructor. }
    destruct (inv_hany h ms st ls I R S) as [So Hs].
    exists h, ms, n, rs, ls. do 4 (split; auto). now apply drop_all_none.
  Qed.

  Lemma call_t (h : heap) ms ls (o : op) n : sound h (roots ms) -> Forall2 (hany h) ms ls -> calm o ->
    (forall l, In l ls -> Z.of_nat (length l) <= 2 ^ 61) ->
    match o with OFromIter ps | OExtend _ ps => Z.of_nat (length ps) <= 2 ^ 61 | _ => True end ->
    exists h' ms' n' r ls', h_step_t (h, ms) n o = Ok ((h', ms'), n', r) /\ (n <= n')%nat /\ sound h' (roots ms')
      /\ Forall2 (hany h') ms' ls'
      /\ match r with
         | Done ob => ask_did bor ask keq veq kcmp vcmp n n' ls o ob ls'
         | Unwound => (faults \/ panicked ask n') /\ ask_unwound bor ask n n' ls o ls'
         end.
  Proof.
    intros So Hs Ta U Os. destruct (hany_inv h ms ls So Hs) as (st & I & R).
    assert (U' : Forall (upto (2 ^ 61)) ls) by (apply Forall_forall; exact U).
    assert (Hb : (0 <= 2 ^ 61)) by lia. assert (G : grows1 o (2 ^ 61) < 2 ^ 63) by (destruct o; cbn [grows1]; lia).
    destruct (step_t_ok bor ask keq veq kcmp vcmp bomb fbomb h ms st ls o n I R) as (h1 & ms1 & n1 & r1 & st1 & ls1 & E1 & Ln & I1 & R1 & P1); auto.
    { eapply upto_small; [|exact U']. lia. } { eapply upto_fits; eauto. }
    destruct (inv_hany h1 ms1 st1 ls1 I1 R1) as [So1 Hs1].
    { eapply upto_small; [exact G|]. destruct r1; [eapply ask_did_upto; eauto|]. destruct P1. eapply ask_unwound_upto; eauto. }
    exists h1, ms1, n1, r1, ls1. auto.
  Qed.
End AskRuns.

(** *** One map among others *)
Section AskLazy.
  Context {K V Q : Type} (bor : K -> Q) (ask : nat -> Q -> Q -> option comparison).
  Variable bomb : nat -> bool.
  Notation heap := (heap (pay K V)).
  Notation entry := (K * V)%type.
  Notation said := (said bor ask).
  Notation bombs := (exists i, bomb i = true).

  Lemma stands_hany (h : heap) m (l : list entry) : stands h m l -> Z.of_nat (length l) <= 2 ^ 63 -> hany h m l.
  Proof. intros (a & M & A) F. eapply mapped_hany; eauto. unfold AvlProofs2.fits. lia. Qed.

  Lemma insert_t_lazy (h : heap) m a l k v n O : sound h (olist (hm_root m) ++ O) -> hm_read h m = Ok a -> a_any a l -> small l ->
    exists h' m' n' o cs, hm_insert_t bor ask bomb h m k v n = Ok (h', m', n', o) /\ (n <= n')%nat
      /\ sound h' (olist (hm_root m') ++ O) /\ frame O h h'
      /\ clones h' = cs ++ clones h /\ sub cs (path_t bor ask n (am_root a) (bor k))
      /\ match o with
         | Done x => exists l', hany h' m' l' /\ may_insert bor (said n n') k v l l' x
         | Unwound => hm_read h' m' = Ok a /\ (bombs \/ panicked ask n')
         end.
  Proof.
    intros So E A Sm. apply read_mapped in E as M.
    destruct (insert_t_m bor ask bomb h m a l k v n O So M A Sm) as (h' & m' & n' & r & cs & E' & So' & F & C & P & Ln & R).
    exists h', m', n', r, cs. do 6 (split; [assumption|]). destruct r as [x|].
    - destruct R as (l' & St & X). exists l'. split; auto. apply stands_hany; auto. apply AskAnyProofs.len_insert in X. unfold small in Sm. destruct x; lia.
    - destruct R as [M' Re]. split; auto. destruct (any_isany _ _ A) as [Va C']. subst l. apply read_s; auto using isany_shaped, small_fit.
  Qed.
  Lemma get_mut_t_lazy (h : heap) m a l q w n O : sound h (olist (hm_root m) ++ O) -> hm_read h m = Ok a -> a_any a l -> small l ->
    exists h' m' n' o cs, hm_get_mut_t bor ask bomb h m q w n = Ok (h', m', n', o) /\ (n <= n')%nat
      /\ sound h' (olist (hm_root m') ++ O) /\ frame O h h'
      /\ clones h' = cs ++ clones h /\ sub cs (path_t bor ask n (am_root a) q)
      /\ match o with
         | Done x => exists l', hany h' m' l' /\ may_get_mut (said n n') q w l l' x
         | Unwound => hm_read h' m' = Ok a /\ (bombs \/ panicked ask n')
         end.
  Proof.
    intros So E A Sm. apply read_mapped in E as M.
    destruct (get_mut_t_m bor ask bomb h m a l q w n O So M A Sm) as (h' & m' & n' & r & cs & E' & So' & F & C & P & Ln & R).
    exists h', m', n', r, cs. do 6 (split; [assumption|]). destruct r as [x|].
    - destruct R as (l' & St & X). exists l'. split; auto. apply stands_hany; auto. apply AskAnyProofs.len_get_mut in X. unfold small in Sm. lia.
    - destruct R as [M' Re]. split; auto. destruct (any_isany _ _ A) as [Va C']. subst l. apply read_s; auto using isany_shaped, small_fit.
  Qed.
  Lemma remove_t_lazy (h : heap) m a l q n O : sound h (olist (hm_root m) ++ O) -> hm_read h m = Ok a -> a_any a l -> small l ->
    exists h' m' n' o cs, hm_remove_entry_t bor ask bomb h m q n = Ok (h', m', n', o) /\ (n <= n')%nat
      /\ sound h' (olist (hm_root m') ++ O) /\ frame O h h'
      /\ clones h' = cs ++ clones h /\ sub cs (near_t bor ask n (am_root a) q)
      /\ match o with
         | Done x => exists l', hany h' m' l' /\ may_remove (said n n') q l l' x
         | Unwound => (hm_read h' m' = Ok a /\ panicked ask n')
             \/ (bombs /\ hm_len m' = length l /\ exists t, den h' (hm_root m') (tv t) /\ sub (elems t) l)
         end.
  Proof.
    intros So E A Sm. apply read_mapped in E as M.
    destruct (remove_t_m bor ask bomb h m a l q n O So M A Sm) as (h' & m' & n' & r & cs & E' & So' & F & C & P & Ln & R).
    exists h', m', n', r, cs. do 6 (split; [assumption|]). destruct r as [x|].
    - destruct R as (l' & St & X). exists l'. split; auto. apply stands_hany; auto. apply AskAnyProofs.len_remove in X. unfold small in Sm. lia.
    - destruct R as [[M' Re]|[[L (t & D & S)] B]].
      2:{ right. destruct (any_isany _ _ A) as [_ C']. subst l. split; [exact B|]. split; [rewrite L; apply A|eauto]. }
      left. split; auto. destruct (any_isany _ _ A) as [Va C']. subst l. apply read_s; auto using isany_shaped, small_fit.
  Qed.
  Lemma get_t_lazy (h : heap) m l q n : hany h m l -> small l ->
    exists n' r, hm_get_key_value_t bor ask h m q n = Ok (n', r) /\ (n <= n')%nat
      /\ match r with Done x => forall e, x = Some e -> In e l /\ said n n' q e | Unwound => panicked ask n' end.
  Proof. intros (a & E & A) Sm. apply read_mapped in E. eapply get_t_m; eauto. Qed.
  Lemma append_t_lazy (h : heap) m1 m2 l1 l2 n O : sound h (olist (hm_root m1) ++ olist (hm_root m2) ++ O) ->
    hany h m1 l1 -> hany h m2 l2 -> Z.of_nat (length l1 + length l2) <= 2 ^ 63 -> small l1 -> small l2 ->
    exists h' m1' m2' n' r, hm_append_t bor ask bomb h m1 m2 n = Ok (h', m1', m2', n', r) /\ (n <= n')%nat
      /\ sound h' (olist (hm_root m1') ++ olist (hm_root m2') ++ O) /\ frame O h h'
      /\ match r with
         | Done _ => m2' = hm_new /\ exists only_a only_b both l, may_pair bor (said n n') l1 l2 only_a only_b both
             /\ hany h' m1' l /\ Permutation l (only_a ++ l2)
         | Unwound => m1' = HMap (length l1) None /\ m2' = HMap (length l2) None /\ (bombs \/ panicked ask n')
         end.
  Proof.
    intros So (a1 & E1 & A1) (a2 & E2 & A2) Ft S1 S2. apply read_mapped in E1, E2.
    destruct (append_t_m bor ask bomb h m1 m2 a1 a2 l1 l2 n O So E1 E2 A1 A2 S1 S2) as (h' & m1' & m2' & n' & r & cs & E & F & C & So' & Ln & R).
    exists h', m1', m2', n', r. do 4 (split; [assumption|]). destruct r as [u|].
    - destruct R as (-> & oa & ob & both & l & P & St & X). split; auto. exists oa, ob, both, l. split; auto. split; auto.
      apply stands_hany; auto. apply Permutation_length in X. rewrite app_length in X. apply may_pair_len in P. lia.
    - destruct R as (-> & -> & Re). destruct E1 as [L1 _], E2 as [L2 _]. rewrite L1, L2.
      assert (Hl : forall (a : avl_map K V) l, a_any a l -> am_len a = length l) by (intros a l X; apply X).
      rewrite (Hl _ _ A1), (Hl _ _ A2). auto.
  Qed.
End AskLazy.
