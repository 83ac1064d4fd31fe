(** Histories of calls on AVL maps that share nodes, with any comparison functions. *)
From Coq Require Import List ZArith Bool Lia Permutation.
From Verif Require Import Base Spec MapSpec Heap HeapProofs AvlModel AvlIterModel AvlHistModel AvlMapProofs
  AvlHeapModel AvlHeapSpec AvlHeapProofs AvlHeapProofs2 AvlHeapProofs3 AvlHeapHistModel AvlHeapHistSpec AvlHeapProofs4 AvlHeapProofs5 AvlHeapProofs6
  AnyOrdSpec AnyHeapSpec AvlAnyProofs AvlAnyHist AvlHeapAnyProofs SmallFacts.
From Verif Require AvlProofs AvlProofs2 BTreeAnyProofs.
Import ListNotations.
Local Open Scope Z_scope.

Section Grow.
  Context {K V Q : Type} (bor : K -> Q).
  Context (keq : K -> K -> bool) (veq : V -> V -> bool).
  Context (kcmp : K -> K -> comparison) (vcmp : V -> V -> comparison).
  Notation op := (op K V Q).
  Notation entry := (K * V)%type.
  Notation len l := (Z.of_nat (length l)).
  Notation ord := (Q -> Q -> comparison).

  Lemma grows1_le (o : op) b : 0 <= b -> b <= grows1 o b.
  Proof. destruct o; cbn [grows1]; lia. Qed.
  Lemma grows_le (os : list (ord * op)) : forall b, 0 <= b -> b <= grows os b.
  Proof.
    induction os as [|[c o] os IH]; intros b Hb; cbn [grows]; [lia|].
    pose proof (grows1_le o b Hb). pose proof (IH (grows1 o b)). lia.
  Qed.
  Lemma any_extend_len cmp ps : forall (l l' : list entry), any_extend bor cmp ps l l' -> (length l' <= length l + length ps)%nat.
  Proof.
    induction ps as [|[k v] ps IH]; cbn [any_extend length]; intros l l'; [intros ->; lia|].
    intros (l1 & r & I & E). apply IH in E. apply BTreeAnyProofs.len_insert in I. destruct r; lia.
  Qed.
  Lemma pairs_len cmp (a b oa ob : list entry) both : any_pairs bor cmp a b oa ob both ->
    (length oa <= length a /\ length ob <= length b /\ length both <= length a)%nat.
  Proof.
    intros (Pa & Pb & _). apply Permutation_length in Pa, Pb. rewrite app_length, map_length in Pa, Pb. lia.
  Qed.

  Lemma did_upto cmp ls (o : op) r ls' b : 0 <= b -> tame o -> Forall (upto b) ls ->
    any_did bor keq veq kcmp vcmp cmp ls o r ls' -> Forall (upto (grows1 o b)) ls'.
  Proof.
    intros Hb Ta F D.
    assert (Nth : forall i l, nth_error ls i = Some l -> upto b l).
    { intros i l H. eapply Forall_forall in F; [exact F|]. eapply nth_error_In; eauto. }
    pose proof (upto_le b (grows1 o b) ls (grows1_le o b Hb) F) as F'.
    assert (Nil : upto (grows1 o b) (@nil entry)) by (pose proof (grows1_le o b Hb); unfold upto; cbn [length]; lia).
    destruct o; cbn [tame] in Ta; try contradiction; cbn [any_did grows1] in *; cbv zeta in D;
      repeat match type of D with
             | match nth_error ls ?i with _ => _ end => let N := fresh "N" in destruct (nth_error ls i) eqn:N; [apply Nth in N|now destruct D as [_ ->]]
             end;
      repeat match type of D with
             | exists _, _ => destruct D as [? D]
             | _ /\ _ => destruct D as [? D]
             end; subst; auto.
    - now apply Forall_add.
    - now apply Forall_add.
    - apply Forall_add; auto. apply any_extend_len in D. unfold upto. cbn [length] in D. lia.
    - apply Forall_set; auto. apply BTreeAnyProofs.len_insert in D. unfold upto in *. match type of D with context [match ?x with _ => _ end] => destruct x end; lia.
    - apply Forall_set; auto. destruct D as (o & D & _). apply BTreeAnyProofs.len_remove in D. unfold upto in *. lia.
    - apply Forall_set; auto. apply BTreeAnyProofs.len_remove in D. unfold upto in *. lia.
    - apply Forall_set; auto. unfold upto in *. match type of D with any_get_mut _ _ _ _ _ _ ?r => destruct r; cbn in D end.
      + destruct D as (l1 & e & l2 & -> & -> & _). rewrite app_length in *. exact N.
      + subst. exact N.
    - apply Forall_set; auto. unfold upto in *. match type of D with any_get_mut _ _ _ _ _ _ ?r => destruct r; cbn in D end.
      + destruct D as (l1 & e & l2 & -> & -> & _). rewrite app_length in *. exact N.
      + subst. exact N.
    - apply Forall_set; auto. unfold upto in *. destruct l; cbn [tl length] in *; lia.
    - apply Forall_set; auto. unfold upto in *. rewrite removelast_firstn_len, firstn_length. lia.
    - now apply Forall_set.
    - apply Forall_set; auto. apply any_extend_len in D. unfold upto in *. lia.
    - apply Forall_set; auto. unfold upto, s_retain in *. rewrite map_length. pose proof (filter_len (fun e => snd (g (fst e) (snd e))) l). lia.
    - destruct (Nat.eqb h1 h2); [subst; auto|]. destruct D as (oa & ob & both & P & l' & Pm & ->).
      apply pairs_len in P. apply Permutation_length in Pm. rewrite app_length in Pm. unfold upto in *.
      apply Forall_set; auto. apply Forall_set; auto. lia.
    - apply Forall_add; auto. match goal with P : any_pairs _ _ _ _ _ _ _ |- _ => apply pairs_len in P end.
      apply Permutation_length in D. rewrite app_length in D. unfold upto in *. lia.
    - apply Forall_add; auto. match goal with P : any_pairs _ _ _ _ _ _ _ |- _ => apply pairs_len in P end.
      apply Permutation_length in D. rewrite map_length in D. unfold upto in *. lia.
    - apply Forall_add; auto. match goal with P : any_pairs _ _ _ _ _ _ _ |- _ => apply pairs_len in P end.
      apply Permutation_length in D. unfold upto in *. lia.
    - apply Forall_add; auto. match goal with P : any_pairs _ _ _ _ _ _ _ |- _ => apply pairs_len in P end.
      apply Permutation_length in D. rewrite app_length in D. unfold upto in *. lia.
  Qed.
  Lemma unwound_upto cmp ls (o : op) ls' b : 0 <= b -> Forall (upto b) ls -> any_unwound bor cmp ls o ls' -> Forall (upto (grows1 o b)) ls'.
  Proof.
    intros Hb F D.
    pose proof (upto_le b (grows1 o b) ls (grows1_le o b Hb) F) as F'.
    assert (Nil : upto (grows1 o b) (@nil entry)) by (pose proof (grows1_le o b Hb); unfold upto; cbn [length]; lia).
    destruct o; cbn [any_unwound grows1] in *; try contradiction; subst; auto; try (now apply Forall_set).
    - destruct D as (l & done & rest & l' & N & -> & E & ->). apply Forall_set; auto. apply any_extend_len in E.
      eapply nth_error_In, Forall_forall in N; [|exact F]. unfold upto in *. rewrite app_length. lia.
    - destruct D as [_ ->]. now repeat apply Forall_set.
  Qed.
  Lemma upto_small b (ls : list (list entry)) : b < 2 ^ 63 -> Forall (upto b) ls -> Forall small ls.
  Proof. intros Hb. apply Forall_impl. unfold upto, small. intros. lia. Qed.
  Lemma upto_fits b ls (o : op) : 0 <= b -> grows1 o b < 2 ^ 63 -> Forall (upto b) ls -> op_fits ls o.
  Proof.
    intros Hb Hg F. destruct o; cbn [op_fits grows1] in *; auto.
    - unfold small. lia.
    - intros l N. eapply nth_error_In, Forall_forall in N; [|exact F]. unfold upto in N. lia.
  Qed.
End Grow.

Section Calls.
  Context {K V Q : Type} (bor : K -> Q).
  Context (keq : K -> K -> bool) (veq : V -> V -> bool).
  Context (kcmp : K -> K -> comparison) (vcmp : V -> V -> comparison).
  Variable bomb : nat -> bool.
  Variable fbomb : K -> V -> bool.
  Notation heap := (heap (pay K V)).
  Notation op := (op K V Q).
  Notation obs := (obs K V).
  Notation entry := (K * V)%type.
  Notation ord := (Q -> Q -> comparison).
  Notation faults := (faults bomb fbomb).
  Notation h_step cmp := (h_step bor cmp keq veq kcmp vcmp bomb fbomb).
  Notation h_calls := (h_calls bor keq veq kcmp vcmp bomb fbomb).
  Notation any_did := (any_did bor keq veq kcmp vcmp).
  Notation any_follows := (any_follows bor keq veq kcmp vcmp).

  Lemma hany_inv (h : heap) ms ls : sound h (roots ms) -> Forall2 (hany h) ms ls -> exists st, inv h ms st /\ rela st ls.
  Proof.
    intros So F. assert (H : exists st, Forall2 (mapped h) ms st /\ rela st ls).
    { clear So. induction F as [|m l ms ls (a & E & A) F (st & M & R)]; [exists []; split; constructor|].
      exists (a :: st). split; constructor; auto. now apply read_mapped. }
    destruct H as (st & M & R). exists st. split; auto. split; auto.
  Qed.
  Lemma inv_hany (h : heap) ms st ls : inv h ms st -> rela st ls -> Forall small ls -> sound h (roots ms) /\ Forall2 (hany h) ms ls.
  Proof.
    intros [So F] R Sm. split; auto. clear So. revert ls R Sm.
    induction F as [|m a ms st M F IH]; intros ls R Sm; inversion R; subst; constructor.
    - inversion Sm; subst. exists a. split; auto. destruct (any_isany _ _ H1) as [Va <-].
      apply read_s; auto using isany_shaped, small_fit.
    - apply IH; auto. now inversion Sm.
  Qed.

  Lemma h_calls_any (os : list (ord * op)) : Forall (fun c => tame (snd c)) os -> forall (h : heap) ms st ls b,
    inv h ms st -> rela st ls -> Forall (upto b) ls -> 0 <= b -> grows os b < 2 ^ 63 ->
    exists h' ms' rs st' ls', h_calls (h, ms) os = Ok ((h', ms'), rs) /\ any_follows ls os rs ls'
      /\ inv h' ms' st' /\ rela st' ls' /\ Forall small ls' /\ (In Unwound rs -> faults).
  Proof.
    induction 1 as [|[c o] os Ta _ IH]; intros h ms st ls b I R U Hb G; cbn [AnyHeapSpec.h_calls grows snd] in *.
    { exists h, ms, [], st, ls. repeat split; auto. all: try apply I. { eapply upto_small; eauto. } contradiction. }
    pose proof (grows1_le o b Hb) as G1. pose proof (grows_le os (grows1 o b)) as G2.
    assert (Sm : Forall small ls) by (eapply upto_small; [|exact U]; lia).
    destruct (h_step_any bor c keq veq kcmp vcmp bomb fbomb h ms st ls o I R Sm Ta) as (st1 & r & ls1 & R1 & D & h1 & ms1 & r1 & E1 & P1).
    { eapply upto_fits; eauto. lia. }
    rewrite E1. cbn [bind].
    destruct r1 as [ob|].
    - destruct P1 as [-> I1].
      destruct (IH h1 ms1 st1 ls1 (grows1 o b)) as (h' & ms' & rs & st' & ls' & E' & Fo & I' & R' & S' & Fa); auto; [|lia|].
      { eapply did_upto; eauto. }
      rewrite E'. cbn [bind]. exists h', ms', (Done r :: rs), st', ls'. split; auto. split; [cbn [AnyHeapSpec.any_follows]; eauto|].
      do 3 (split; auto). intros [X|X]; [discriminate|auto].
    - destruct P1 as (Fl & st2 & ls2 & Un & I2 & R2).
      destruct (IH h1 ms1 st2 ls2 (grows1 o b)) as (h' & ms' & rs & st' & ls' & E' & Fo & I' & R' & S' & Fa); auto; [|lia|].
      { eapply unwound_upto; eauto. }
      rewrite E'. cbn [bind]. exists h', ms', (Unwound :: rs), st', ls'. split; auto. split; [cbn [AnyHeapSpec.any_follows]; eauto|].
      do 3 (split; auto).
  Qed.

  Lemma history_any (os : list (ord * op)) : Forall (fun c => tame (snd c)) os -> grows os 0 < 2 ^ 63 ->
    exists h ms rs ls, h_calls (empty_heap, []) os = Ok ((h, ms), rs) /\ any_follows [] os rs ls
      /\ sound h (roots ms) /\ Forall2 (hany h) ms ls /\ (In Unwound rs -> faults)
      /\ exists h', h_drop_all h ms = Ok h' /\ forall a, get h' a = None.
  Proof.
    intros Ta G.
    destruct (h_calls_any os Ta empty_heap [] [] [] 0) as (h & ms & rs & st & ls & E & Fo & I & R & S & Fa); auto; try lia.
    { split; [exact empty_ok|constructor]. } { constructor. }
    destruct (inv_hany h ms st ls I R S) as [So Hs].
    exists h, ms, rs, ls. do 5 (split; auto). now apply drop_all_none.
  Qed.

  (** One call, on any heap. *)
  Lemma call_any cmp (h : heap) ms ls (o : op) : sound h (roots ms) -> Forall2 (hany h) ms ls -> tame o ->
    (forall l, In l ls -> Z.of_nat (length l) <= 2 ^ 61) ->
    match o with OFromIter ps | OExtend _ ps => Z.of_nat (length ps) <= 2 ^ 61 | _ => True end ->
    exists h' ms' r, h_step cmp (h, ms) o = Ok ((h', ms'), r) /\ sound h' (roots ms')
      /\ match r with
         | Done ob => exists ls', any_did cmp ls o ob ls' /\ Forall2 (hany h') ms' ls'
         | Unwound => exists ls', any_unwound bor cmp ls o ls' /\ Forall2 (hany h') ms' ls' /\ faults
         end.
  Proof.
    intros So Hs Ta U Os. destruct (hany_inv h ms ls So Hs) as (st & I & R).
    assert (U' : Forall (upto (2 ^ 61)) ls) by (apply Forall_forall; exact U).
    assert (Hb : (0 <= 2 ^ 61)) by lia. assert (G : grows1 o (2 ^ 61) < 2 ^ 63) by (destruct o; cbn [grows1]; lia).
    destruct (h_step_any bor cmp keq veq kcmp vcmp bomb fbomb h ms st ls o I R) as (st1 & r & ls1 & R1 & D & h1 & ms1 & r1 & E1 & P1); auto.
    { eapply upto_small; [|exact U']. lia. } { eapply upto_fits; eauto. }
    exists h1, ms1, r1. split; auto. destruct r1 as [ob|].
    - destruct P1 as [-> I1]. destruct (inv_hany h1 ms1 st1 ls1 I1 R1) as [So1 Hs1]; eauto.
      { eapply upto_small; [exact G|]. eapply did_upto; eauto. }
    - destruct P1 as (Fl & st2 & ls2 & Un & I2 & R2). destruct (inv_hany h1 ms1 st2 ls2 I2 R2) as [So2 Hs2]; eauto.
      { eapply upto_small; [exact G|]. eapply unwound_upto; eauto. }
  Qed.
End Calls.

(** *** One map among others: what is cloned, and what stays. *)
Section Lazy.
  Context {K V Q : Type} (bor : K -> Q) (cmp : Q -> Q -> comparison).
  Variable bomb : nat -> bool.
  Notation heap := (heap (pay K V)).
  Notation entry := (K * V)%type.

  Lemma mapped_hany (h : heap) m a l : mapped h m a -> a_any a l -> AvlProofs2.fits l -> hany h m l.
  Proof.
    intros M A F. exists a. split; auto. destruct (any_isany _ _ A) as [Va <-]. apply read_s; auto using isany_shaped.
  Qed.
  Lemma frame_hany O (h h' : heap) m l : frame O h h' -> incl (olist (hm_root m)) O -> small l -> hany h m l -> hany h' m l.
  Proof.
    intros F I Sm (a & E & A). apply read_mapped in E as [L D]. eapply mapped_hany; eauto using small_fit. split; auto. now apply F.
  Qed.

  Lemma insert_lazy (h : heap) m a l k v O : sound h (olist (hm_root m) ++ O) -> hm_read h m = Ok a -> a_any a l -> small l ->
    exists h' m' o cs, hm_insert bor cmp bomb h m k v = Ok (h', m', o) /\ sound h' (olist (hm_root m') ++ O) /\ frame O h h'
      /\ clones h' = cs ++ clones h /\ sub cs (path bor cmp (am_root a) (bor k))
      /\ match o with
         | Done x => exists l', hany h' m' l' /\ any_insert bor cmp k v l l' x
         | Unwound => hany h' m' l /\ exists n, bomb n = true
         end.
  Proof.
    intros So E A Sm. apply read_mapped in E as M. destruct (any_isany _ _ A) as [Va C].
    destruct (a_insert_any bor cmp a l k v A Sm) as (a' & x & l' & Ei & A' & In). subst l.
    destruct (insert_s bor cmp bomb h m a k v a' x O So M (isany_shaped _ Va) (small_fit _ Sm) Ei) as (h' & m' & o & cs & E' & So' & F & Cl & P & R).
    exists h', m', o, cs. do 5 (split; auto). destruct o as [y|].
    - destruct R as [-> M']. exists l'. split; auto. apply (mapped_hany _ _ a'); auto. apply BTreeAnyProofs.len_insert in In.
      unfold small, AvlProofs2.fits in *. destruct x; lia.
    - destruct R as [M' B]. split; auto. apply (mapped_hany _ _ a); auto using small_fit.
  Qed.
  Lemma get_mut_lazy (h : heap) m a l q w O : sound h (olist (hm_root m) ++ O) -> hm_read h m = Ok a -> a_any a l -> small l ->
    exists h' m' o cs, hm_get_mut bor cmp bomb h m q w = Ok (h', m', o) /\ sound h' (olist (hm_root m') ++ O) /\ frame O h h'
      /\ clones h' = cs ++ clones h /\ sub cs (path bor cmp (am_root a) q)
      /\ match o with
         | Done x => exists l', hany h' m' l' /\ any_get_mut bor cmp q w l l' x
         | Unwound => hany h' m' l /\ exists n, bomb n = true
         end.
  Proof.
    intros So E A Sm. apply read_mapped in E as M. destruct (any_isany _ _ A) as [Va C].
    destruct (a_get_mut_any bor cmp a l q w A) as (a' & x & l' & Ei & A' & In). subst l.
    destruct (get_mut_s bor cmp bomb h m a q w O So M (isany_shaped _ Va) (small_fit _ Sm)) as (h' & m' & o & cs & E' & So' & F & Cl & P & R).
    rewrite Ei in R. cbn [fst snd] in R.
    exists h', m', o, cs. do 5 (split; auto). destruct o as [y|].
    - destruct R as [-> M']. exists l'. split; auto. apply (mapped_hany _ _ a'); auto.
      apply small_fit. assert (L : length l' = length (contents a)); [|unfold small in *; now rewrite L].
      destruct x as [x|]; cbn in In; [|now subst]. destruct In as (l1 & e & l2 & -> & -> & _). rewrite !app_length. reflexivity.
    - destruct R as [M' B]. split; auto. apply (mapped_hany _ _ a); auto using small_fit.
  Qed.
  Lemma remove_lazy (h : heap) m a l q O : sound h (olist (hm_root m) ++ O) -> hm_read h m = Ok a -> a_any a l -> small l ->
    exists h' m' o cs, hm_remove_entry bor cmp bomb h m q = Ok (h', m', o) /\ sound h' (olist (hm_root m') ++ O) /\ frame O h h'
      /\ clones h' = cs ++ clones h /\ sub cs (near bor cmp (am_root a) q)
      /\ match o with
         | Done x => exists l', hany h' m' l' /\ any_remove bor cmp q l l' x
         | Unwound => (hm_len m' = length l /\ exists t, den h' (hm_root m') (tv t) /\ sub (elems t) l) /\ exists n, bomb n = true
         end.
  Proof.
    intros So E A Sm. apply read_mapped in E as M. destruct (any_isany _ _ A) as [Va C].
    destruct (a_remove_entry_any bor cmp a l q A Sm) as (a' & x & l' & Ei & A' & In). subst l.
    destruct (remove_s bor cmp bomb h m a q a' x O So M (isany_shaped _ Va) (small_fit _ Sm) Ei) as (h' & m' & o & cs & E' & So' & F & Cl & P & R).
    exists h', m', o, cs. do 5 (split; auto). destruct o as [y|].
    - destruct R as [-> M']. exists l'. split; auto. apply (mapped_hany _ _ a'); auto. apply BTreeAnyProofs.len_remove in In.
      apply small_fit. unfold small in *. lia.
    - destruct R as [[L (t & D & S)] B]. split; auto. split; [rewrite L; apply A|eauto].
  Qed.
End Lazy.
