(** Proofs about [range] of the B-tree map when [cmp] is any function. *)
From Coq Require Import List PeanoNat Bool Lia.
From Verif Require Import Base Spec MapSpec SpecFacts Vec BTreeModel BTreeProofs BTreeProofs2
  BTreeIterModel BTreeIterProofs BTreeIterProofs2 BTreeRangeProofs BTreeMutProofs BTreeShows AvlHeapSpec AnyOrdSpec BAnyRangeSpec
  BTreeAnyProofs AnyOrdShows.
Import ListNotations.
Local Hint Constructors Forall2 Forall : core.

(** ** Parts of lists *)
Section Parts.
  Context {A : Type}.
  Lemma sub_refl (l : list A) : sub l l.
  Proof. induction l; [constructor 1|constructor 3; auto]. Qed.
  Lemma sub_empty (l : list A) : sub [] l.
  Proof. induction l; [constructor 1|constructor 2; auto]. Qed.
  Lemma sub_join (a b c d : list A) : sub a b -> sub c d -> sub (a ++ c) (b ++ d).
  Proof. induction 1; intros H1; cbn; auto; [constructor 2|constructor 3]; auto. Qed.
  Lemma sub_right (a b c : list A) : sub a c -> sub a (b ++ c).
  Proof. intros H. apply (sub_join [] b a c); auto. apply sub_empty. Qed.
  Lemma sub_left (a b c : list A) : sub a b -> sub a (b ++ c).
  Proof. intros H. rewrite <- (app_nil_r a). apply sub_join; auto. apply sub_empty. Qed.
  Lemma hd_app (a b : list A) x : hd_error (a ++ b) = Some x -> hd_error a = Some x \/ a = [] /\ hd_error b = Some x.
  Proof. destruct a; cbn; auto. Qed.
  Lemma last_app (a b : list A) x : hd_error (rev (a ++ b)) = Some x ->
    hd_error (rev b) = Some x \/ b = [] /\ hd_error (rev a) = Some x.
  Proof.
    rewrite rev_app_distr. intros H. apply hd_app in H as [H|[E H]]; auto. right. split; auto.
    destruct b as [|y b]; auto. apply (f_equal (@length _)) in E. cbn in E. rewrite app_length in E. cbn in E. lia.
  Qed.
  Lemma last_is (l : list A) x : hd_error (rev l) = Some x -> exists r, l = r ++ [x].
  Proof.
    intros H. destruct (rev l) as [|y r] eqn:E; [discriminate|]. injection H as ->.
    exists (rev r). apply (f_equal (@rev _)) in E. rewrite rev_involutive in E. exact E.
  Qed.
  Lemma hd_is (l : list A) x : hd_error l = Some x -> exists r, l = x :: r.
  Proof. destruct l; cbn; [discriminate|]. intros E. injection E as ->. eauto. Qed.
End Parts.

Section Edges.
  Context {K V Q : Type} (bor : K -> Q) (cmp : Q -> Q -> comparison).
  Notation entry := (K * V)%type.
  Notation key e := (bor (fst e)).
  Notation cmp_bd := (@cmp_bd Q cmp).
  Notation within := (@told_within K V Q bor cmp).
  Notation first := (@told_first K V Q bor cmp).
  Notation lastt := (@told_last K V Q bor cmp).
  Notation part := (@told_part K V Q bor cmp).
  Notation gap := (@told_gap K V Q bor cmp).

  Context {C : Type} (fl : C -> list entry).
  Notation wv := (@wv K V C fl).
  Notation dn := (@dn K V C fl).
  Notation right_of := (@right_of K V Q bor cmp).
  Notation left_of := (@left_of K V Q bor cmp).

  Lemma bd_unb bd (k : Q) : cmp_bd bd k = BUnbounded -> bd = Unbounded.
  Proof. destruct bd as [|q|q]; cbn; auto; destruct (cmp q k); discriminate. Qed.

  (** *** The right edge *)
  Inductive rcut (ub : bound Q) (a : nat) (lf : bool) (ks : list C) (es : list entry) : nat * nat * bool -> Prop :=
  | rc_before u v :
      lf = false -> u = a -> v = a + 1 -> (forall e es', es = e :: es' -> cmp_bd ub (key e) = BLess) ->
      rcut ub a lf ks es (u, v, true)
  | rc_prune u v es3 es4 ks3 c ks4 up :
      es = es3 ++ es4 -> ks = ks3 ++ c :: ks4 -> u = a + length es3 ->
      v + Nat.b2n lf = a + 1 + S (length ks3) -> length ks3 + 1 = length es3 + Nat.b2n lf ->
      dn lf ks es = dn lf ks3 es3 ++ fl c ++ up -> ub <> Unbounded ->
      (forall e, In e es3 -> cmp_bd ub (key e) = BGreater) ->
      (dn lf ks3 es3 = [] \/ exists d e, dn lf ks3 es3 = d ++ [e] /\ In e es3) ->
      (up = [] \/ exists e es', es4 = e :: es' /\ cmp_bd ub (key e) = BLess) ->
      rcut ub a lf ks es (u, v, true)
  | rc_clean u v es3 es4 ks3 ks4 up :
      es = es3 ++ es4 -> ks = ks3 ++ ks4 -> u = a + length es3 ->
      v + Nat.b2n lf = a + 1 + length ks3 ->
      length ks3 + 1 = length es3 + Nat.b2n lf + Nat.b2n (u <? v) ->
      dn lf ks es = dn lf ks3 es3 ++ up ->
      (ub = Unbounded /\ up = []
       \/ (exists d e, dn lf ks3 es3 = d ++ [e] /\ In e es /\ cmp_bd ub (key e) = BEqual true)
       \/ (exists e up', up = e :: up' /\ In e es /\ cmp_bd ub (key e) = BEqual false)) ->
      rcut ub a lf ks es (u, v, false).

  Lemma right_true ub : forall es ks a n, n = a + length es -> length ks = S (length es) -> (es = [] -> ub <> Unbounded) ->
    rcut ub a true ks es (right_of ub n a es).
  Proof.
    induction es as [|e es IH]; intros ks a n Hn Hk Hu.
    - destruct ks as [|k [|? ?]]; try discriminate. cbn in Hn. unfold BTreeRangeProofs.right_of. cbn [right_edge].
      apply (rc_prune ub a true [k] [] n (n + 1) [] [] [] k [] []); cbn -[Nat.ltb]; auto; try lia.
    - destruct ks as [|k ks]; [discriminate|]. cbn [length] in *.
      unfold BTreeRangeProofs.right_of. cbn [right_edge]. destruct (cmp_bd ub (key e)) eqn:Eb.
      + apply bd_unb in Eb as ->.
        apply (rc_clean Unbounded a true (k :: ks) (e :: es) n (n + 1) (e :: es) [] (k :: ks) [] []);
          rewrite ?app_nil_r; auto; cbn [length Nat.b2n]; try lia.
        destruct (Nat.ltb_spec n (n + 1)); cbn -[Nat.ltb]; lia.
      + assert (ub <> Unbounded) by (intros ->; discriminate).
        apply (rc_prune ub a true (k :: ks) (e :: es) a (a + 1) [] (e :: es) [] k ks (e :: wv ks es)); cbn -[Nat.ltb]; auto; try lia. right. eauto.
      + assert (ub <> Unbounded) by (intros ->; discriminate). destruct is_in; cbn [Nat.b2n].
        * apply (rc_clean ub a true (k :: ks) (e :: es) (a + 1) (a + 1) [e] es [k] ks (wv ks es)); cbn -[Nat.ltb]; auto; try lia.
          -- destruct (Nat.ltb_spec (a + 1) (a + 1)); cbn -[Nat.ltb]; lia.
          -- rewrite <- app_assoc. reflexivity.
          -- right. left. exists (fl k), e. auto.
        * rewrite Nat.add_0_r.
          apply (rc_clean ub a true (k :: ks) (e :: es) a (a + 1) [] (e :: es) [k] ks (e :: wv ks es)); cbn -[Nat.ltb]; auto; try lia.
          -- destruct (Nat.ltb_spec a (a + 1)); cbn -[Nat.ltb]; lia.
          -- now rewrite app_nil_r.
          -- right. right. exists e, (wv ks es). auto.
      + specialize (IH ks (S a) n). unfold BTreeRangeProofs.right_of in IH.
        destruct IH as [u v X|u v es3 es4 ks3 c ks4 up E1 E2 E3 E4 E5 E6 E7 E8 E9 E10|u v es3 es4 ks3 ks4 up E1 E2 E3 E4 E5 E6 E7];
          auto; try lia; try discriminate.
        { intros -> ->. discriminate. }
        * cbn -[Nat.ltb] in *. apply (rc_prune ub a true _ _ u v (e :: es3) es4 (k :: ks3) c ks4 up); cbn -[Nat.ltb]; subst; auto; try lia.
          -- unfold BTreeRangeProofs.wv in *. rewrite E6, <- app_assoc. reflexivity.
          -- intros x [<-|Hx]; auto.
          -- right. destruct E9 as [E9|(d & x & E9 & Hx)].
             ++ exists (fl k), e. unfold BTreeRangeProofs.wv in E9. rewrite E9. auto.
             ++ exists (fl k ++ e :: d), x. unfold BTreeRangeProofs.wv in E9. rewrite E9, <- app_assoc. auto.
        * cbn -[Nat.ltb] in *. apply (rc_clean ub a true _ _ u v (e :: es3) es4 (k :: ks3) ks4 up); cbn -[Nat.ltb]; subst; auto; try lia.
          -- unfold BTreeRangeProofs.wv in *. rewrite E6, <- app_assoc. reflexivity.
          -- destruct E7 as [E7|[(d & x & E7 & H1 & H2)|(x & up' & E7 & H1 & H2)]]; auto.
             ++ right. left. exists (fl k ++ e :: d), x. unfold BTreeRangeProofs.wv in E7. rewrite E7, <- app_assoc. auto.
             ++ right. right. exists x, up'. auto.
  Qed.

  Lemma right_any ub lf : forall es ks a n, n = a + length es -> length ks = length es + Nat.b2n lf ->
    (lf = true -> es = [] -> ub <> Unbounded) -> rcut ub a lf ks es (right_of ub n a es).
  Proof.
    destruct lf; intros es ks a n Hn Hk Hu.
    { apply right_true; auto. cbn in Hk. lia. }
    destruct es as [|e es].
    - cbn in Hn, Hk. apply rc_before; auto; try lia. discriminate.
    - cbn in Hn, Hk.
      unfold BTreeRangeProofs.right_of. cbn [right_edge]. destruct (cmp_bd ub (key e)) eqn:Eb.
      + apply bd_unb in Eb as ->.
        apply (rc_clean Unbounded a false ks (e :: es) n (n + 1) (e :: es) [] ks [] []);
          rewrite ?app_nil_r; auto; cbn [length Nat.b2n]; try lia.
        destruct (Nat.ltb_spec n (n + 1)); cbn -[Nat.ltb]; lia.
      + apply rc_before; auto. intros x y E. now injection E as <- <-.
      + destruct is_in; cbn [Nat.b2n].
        * apply (rc_clean ub a false ks (e :: es) (a + 1) (a + 1) [e] es [] ks (wv ks es)); cbn [length Nat.b2n BTreeRangeProofs.dn app]; auto; try lia.
          -- destruct (Nat.ltb_spec (a + 1) (a + 1)); cbn -[Nat.ltb]; lia.
          -- right. left. exists [], e. cbn. auto.
        * rewrite Nat.add_0_r.
          apply (rc_clean ub a false ks (e :: es) a (a + 1) [] (e :: es) [] ks (e :: wv ks es)); cbn [length Nat.b2n BTreeRangeProofs.dn app]; auto; try lia.
          -- destruct (Nat.ltb_spec a (a + 1)); cbn -[Nat.ltb]; lia.
          -- right. right. exists e, (wv ks es). cbn. auto.
      + pose proof (right_true ub es ks (S a) n) as IH. unfold BTreeRangeProofs.right_of in IH.
        destruct IH as [u v X|u v es3 es4 ks3 c ks4 up E1 E2 E3 E4 E5 E6 E7 E8 E9 E10|u v es3 es4 ks3 ks4 up E1 E2 E3 E4 E5 E6 E7];
          auto; try lia; try discriminate.
        { intros -> ->. discriminate. }
        * cbn -[Nat.ltb] in *. apply (rc_prune ub a false _ _ u v (e :: es3) es4 ks3 c ks4 up); cbn -[Nat.ltb]; subst; auto; try lia.
          -- unfold BTreeRangeProofs.wv in *. rewrite E6. reflexivity.
          -- intros x [<-|Hx]; auto.
          -- right. destruct E9 as [E9|(d & x & E9 & Hx)].
             ++ exists [], e. unfold BTreeRangeProofs.wv in *. cbn [app]. rewrite E9. auto.
             ++ exists (e :: d), x. unfold BTreeRangeProofs.wv in *. rewrite E9. auto.
        * cbn -[Nat.ltb] in *. apply (rc_clean ub a false _ _ u v (e :: es3) es4 ks3 ks4 up); cbn -[Nat.ltb]; subst; auto; try lia.
          -- unfold BTreeRangeProofs.wv in *. rewrite E6. reflexivity.
          -- destruct E7 as [E7|[(d & x & E7 & H1 & H2)|(x & up' & E7 & H1 & H2)]]; auto.
             ++ right. left. exists (e :: d), x. unfold BTreeRangeProofs.wv in *. rewrite E7. auto.
             ++ right. right. exists x, up'. auto.
  Qed.

  (** *** The left edge; [i] and [rest] are where the search for the right edge starts *)
  Inductive lcut (lb : bound Q) (a0 : nat) (ks : list C) (es : list entry)
    : nat * nat * bool -> nat -> list entry -> Prop :=
  | lc_prune a es1 es2 ks1 c ks2 lo :
      es = es1 ++ es2 -> ks = ks1 ++ c :: ks2 -> a = a0 + length es1 ->
      length ks1 = length es1 -> length ks2 = length es2 ->
      wv ks es = lo ++ fl c ++ dn false ks2 es2 ->
      (forall e es', es2 = e :: es' -> cmp_bd lb (key e) = BLess) ->
      (lo = [] /\ es1 = [] \/ exists e, In e es1 /\ cmp_bd lb (key e) = BGreater) ->
      lcut lb a0 ks es (a, a, true) a es2
  | lc_all a : lb = Unbounded -> a = a0 -> lcut lb a0 ks es (a, a, false) a es
  | lc_incl a es1 es2 ks1 ks2 lo :
      es = es1 ++ es2 -> ks = ks1 ++ ks2 -> a = a0 + length es1 ->
      length ks1 = length es1 + 1 -> length ks2 = length es2 ->
      wv ks es = lo ++ dn false ks2 es2 ->
      (exists e es', es2 = e :: es' /\ cmp_bd lb (key e) = BEqual true) ->
      lcut lb a0 ks es (a, a + 1, false) a es2
  | lc_excl a es1 e es2 ks1 ks2 lo q :
      es = es1 ++ e :: es2 -> ks = ks1 ++ ks2 -> a = a0 + length es1 ->
      length ks1 = length es1 + 1 -> length ks2 = length es2 + 1 ->
      wv ks es = (lo ++ [e]) ++ dn true ks2 es2 ->
      lb = Excluded q -> cmp q (key e) = Eq -> lcut lb a0 ks es (a + 1, a + 1, false) a (e :: es2).

  Lemma left_any lb : forall es ks a n, n = a + length es -> length ks = S (length es) ->
    (lb = Unbounded -> a = 0) ->
    lcut lb a ks es (left_of lb n a es) (fst (snd (left_edge bor cmp lb a es))) (snd (snd (left_edge bor cmp lb a es))).
  Proof.
    induction es as [|e es IH]; intros ks a n Hn Hk Hu.
    - destruct ks as [|k [|? ?]]; try discriminate. cbn in Hn. unfold BTreeRangeProofs.left_of. cbn [left_edge fst snd].
      replace n with a by lia.
      apply (lc_prune lb a [k] [] a [] [] [] k [] []); cbn -[Nat.ltb]; auto. discriminate.
    - destruct ks as [|k ks]; [discriminate|]. cbn [length] in *.
      unfold BTreeRangeProofs.left_of. cbn [left_edge]. destruct (cmp_bd lb (key e)) eqn:Eb; cbn [fst snd].
      + apply bd_unb in Eb as ->. rewrite Hu by auto. now apply lc_all.
      + apply (lc_prune lb a (k :: ks) (e :: es) a [] (e :: es) [] k ks []); cbn -[Nat.ltb]; auto.
        intros x y E. now injection E as <- <-.
      + destruct is_in; cbn [negb Nat.b2n].
        * rewrite Nat.add_0_r.
          apply (lc_incl lb a (k :: ks) (e :: es) a [] (e :: es) [k] ks (fl k)); cbn -[Nat.ltb]; auto; try lia. eauto.
        * destruct lb as [|q|q]; [discriminate|cbn in Eb; destruct (cmp q (key e)); discriminate|].
          cbn in Eb. destruct (cmp q (key e)) eqn:Eq; try discriminate.
          apply (lc_excl (Excluded q) a (k :: ks) (e :: es) a [] e es [k] ks (fl k) q); cbn [length app]; auto; try lia.
          rewrite wv_cons, <- app_assoc. reflexivity.
      + specialize (IH ks (S a) n). unfold BTreeRangeProofs.left_of in IH.
        destruct IH as [b es1 es2 ks1 c ks2 lo E1 E2 E3 E4 E5 E6 E7 E8|b E1 E2
                       |b es1 es2 ks1 ks2 lo E1 E2 E3 E4 E5 E6 E7
                       |b es1 e' es2 ks1 ks2 lo q E1 E2 E3 E4 E5 E6 E7 E8]; auto; try lia.
        * intros ->. discriminate.
        * apply (lc_prune lb a _ _ b (e :: es1) es2 (k :: ks1) c ks2 ((fl k ++ [e]) ++ lo)); cbn [length app]; subst; auto; try lia.
          -- rewrite wv_cons, E6, <- !app_assoc. reflexivity.
          -- right. exists e. split; [now left|auto].
        * subst lb. discriminate.
        * apply (lc_incl lb a _ _ b (e :: es1) es2 (k :: ks1) ks2 ((fl k ++ [e]) ++ lo)); cbn [length app]; subst; auto; try lia.
          rewrite wv_cons, E6, <- !app_assoc. reflexivity.
        * apply (lc_excl lb a _ _ b (e :: es1) e' es2 (k :: ks1) ks2 ((fl k ++ [e]) ++ lo) q); cbn [length app]; subst; auto; try lia.
          rewrite wv_cons, E6, <- !app_assoc. reflexivity.
  Qed.

  (** *** Both edges *)
  Inductive lfact (lb : bound Q) (lf lp : bool) (es : list entry) (lo : list entry) (es2 : list entry) (po : list C) : Prop :=
  | lf_prune c es1 : es = es1 ++ es2 -> lp = true -> lf = false -> po = [c] -> (forall e es', es2 = e :: es' -> cmp_bd lb (key e) = BLess) ->
      (lo = [] /\ es1 = [] \/ exists e, In e es1 /\ cmp_bd lb (key e) = BGreater) -> lfact lb lf lp es lo es2 po
  | lf_all : lb = Unbounded -> lp = false -> lf = true -> po = [] -> lo = [] -> es2 = es -> lfact lb lf lp es lo es2 po
  | lf_incl e es' : lp = false -> lf = false -> po = [] -> es2 = e :: es' -> In e es -> cmp_bd lb (key e) = BEqual true -> lfact lb lf lp es lo es2 po
  | lf_excl lo' e q : lp = false -> lf = true -> po = [] -> lo = lo' ++ [e] -> In e es -> lb = Excluded q -> cmp q (key e) = Eq -> lfact lb lf lp es lo es2 po.

  Lemma in_wv (x : entry) ks es : In x es -> length ks = S (length es) -> In x (wv ks es).
  Proof.
    revert ks. induction es as [|e es IH]; intros [|k ks] Hi Hl; try easy. rewrite wv_cons. apply in_or_app. right.
    destruct Hi as [->|Hi]; [now left|right]. apply IH; auto.
  Qed.

  Lemma edges_any lb ub es ks : length ks = S (length es) -> es <> [] ->
    exists a b lp r, find_range_edges bor cmp es lb ub = ((a, b, lp), r) /\
    (fst (fst r) < a /\ gap lb ub (wv ks es) \/
     (a <= length es /\ lp = false /\ b = a /\ r = (a, a, false) /\ exists e, In e es /\ cmp_bd lb (key e) = BEqual false /\ cmp_bd ub (key e) = BEqual true) \/
     exists es1 es2 ks1 po ks2 lo lf,
      es = es1 ++ es2 /\ length es1 = a /\ ks = ks1 ++ po ++ ks2 /\ length ks1 = b
      /\ length ks2 = length es2 + Nat.b2n lf /\ b + length po + Nat.b2n lf = a + 1
      /\ lf = negb lp && (a =? b)
      /\ wv ks es = lo ++ concat (map fl po) ++ dn lf ks2 es2
      /\ lfact lb lf lp es lo es2 po
      /\ rcut ub a lf ks2 es2 r).
  Proof.
    intros Hk Hne. unfold find_range_edges.
    pose proof (left_any lb es ks 0 (length es) eq_refl Hk (fun _ => eq_refl)) as L. unfold BTreeRangeProofs.left_of in L.
    destruct (left_edge bor cmp lb 0 es) as [l [i rest]]. cbn [fst snd] in L.
    fold (right_of ub (length es) i rest).
    remember (match l with Some x => x | None => (length es, length es, true) end) as al eqn:El. clear El l.
    destruct L as [a es1 es2 ks1 c ks2 lo E1 E2 E3 E4 E5 E6 E7 E8|a E1 E2
                  |a es1 es2 ks1 ks2 lo E1 E2 E3 E4 E5 E6 E7
                  |a es1 e es2 ks1 ks2 lo q E1 E2 E3 E4 E5 E6 E7 E8].
    - exists a, a, true, (right_of ub (length es) a es2). split; [reflexivity|]. right; right.
      exists es1, es2, ks1, [c], ks2, lo, false.
      cbn [length map concat Nat.b2n negb andb app] in *. rewrite app_nil_r.
      do 7 (split; [solve [auto; lia]|]). split; [exact E6|]. split; [now apply (lf_prune _ _ _ _ _ _ _ c es1)|].
      apply right_any; [|cbn; lia|discriminate]. subst es. rewrite app_length. lia.
    - subst a. exists 0, 0, false, (right_of ub (length es) 0 es). split; [reflexivity|]. right; right. exists [], es, [], [], ks, [], true.
      cbn [length map concat Nat.b2n negb andb app Nat.eqb BTreeRangeProofs.dn] in *.
      do 8 (split; [solve [auto; lia]|]). split; [now apply lf_all|].
      apply right_any; [reflexivity|cbn; lia|congruence].
    - exists a, (a + 1), false, (right_of ub (length es) a es2). split; [reflexivity|]. right; right. exists es1, es2, ks1, [], ks2, lo, false.
      cbn [length map concat Nat.b2n negb andb app] in *.
      do 6 (split; [solve [auto; lia]|]).
      split. { destruct (Nat.eqb_spec a (a + 1)); auto; lia. }
      split; [auto|]. split.
      { destruct E7 as (e & es' & E7 & E8). apply (lf_incl _ _ _ _ _ _ _ e es'); auto. subst. apply in_elt. }
      apply right_any; [|cbn; lia|discriminate]. subst es. rewrite app_length. lia.
    - exists (a + 1), (a + 1), false, (right_of ub (length es) a (e :: es2)). split; [reflexivity|].
      assert (Hin : In e (wv ks es)) by (rewrite E6; apply in_or_app; left; apply in_elt).
      assert (He : In e es) by (subst es; apply in_elt).
      assert (Hn : length es = a + 1 + length es2) by (subst es; rewrite app_length; cbn; lia).
      assert (Mk : rcut ub (a + 1) true ks2 es2 (right_of ub (length es) a (e :: es2)) ->
        exists es3 es4 ks3 po ks4 lo0 lf, es = es3 ++ es4 /\ length es3 = a + 1 /\ ks = ks3 ++ po ++ ks4 /\ length ks3 = a + 1
          /\ length ks4 = length es4 + Nat.b2n lf /\ a + 1 + length po + Nat.b2n lf = a + 1 + 1
          /\ lf = negb false && (a + 1 =? a + 1)
          /\ wv ks es = lo0 ++ concat (map fl po) ++ dn lf ks4 es4
          /\ lfact lb lf false es lo0 es4 po /\ rcut ub (a + 1) lf ks4 es4 (right_of ub (length es) a (e :: es2))).
      { intros R. exists (es1 ++ [e]), es2, ks1, [], ks2, (lo ++ [e]), true.
        cbn [length map concat Nat.b2n negb andb app] in *.
        split; [now rewrite <- app_assoc|]. split; [rewrite app_length; cbn; lia|].
        do 4 (split; [solve [auto; lia]|]). split; [now rewrite Nat.eqb_refl|]. split; [auto|]. split; [|exact R].
        now apply (lf_excl _ _ _ _ _ _ _ lo e q). }
      unfold BTreeRangeProofs.right_of in *. cbn [right_edge] in *. destruct (cmp_bd ub (key e)) eqn:Eb.
      + right; right. apply Mk. apply bd_unb in Eb as ->.
        apply (rc_clean Unbounded (a + 1) true ks2 es2 (length es) (length es + 1) es2 [] ks2 [] []);
          rewrite ?app_nil_r; auto; cbn [Nat.b2n]; try lia.
        destruct (Nat.ltb_spec (length es) (length es + 1)); cbn -[Nat.ltb]; lia.
      + left. split; [cbn; lia|]. exists e. split; auto. subst lb. destruct ub as [|q'|q']; cbn in Eb; try discriminate;
          destruct (cmp q' (key e)); try discriminate; split; auto; discriminate.
      + destruct is_in; cbn [Nat.b2n].
        * right. left. split; [lia|]. do 3 (split; [auto|]). exists e. split; auto. split; auto. subst lb. cbn. now rewrite E8.
        * left. split; [cbn; lia|]. exists e. split; auto. subst lb. destruct ub as [|q'|q']; cbn in Eb; try discriminate;
          destruct (cmp q' (key e)); try discriminate; split; auto; discriminate.
      + right; right. apply Mk. replace (a + 1) with (S a) by lia. apply (right_any ub true es2 ks2 (S a) (length es)); [lia|cbn; lia|].
        intros _ _ ->. discriminate.
  Qed.

  (** *** What comes out of a node *)
  Lemma sub_nil (s : list entry) : sub s [] -> s = [].
  Proof. inversion 1; auto. Qed.
  Lemma part_nil lb ub : part lb ub [] [].
  Proof. constructor; try discriminate; auto; [constructor 1|exists []; auto|exists []; auto]. Qed.
  Lemma first_ext lb P e pre post : first lb P e -> first lb (pre ++ P ++ post) e.
  Proof.
    destruct lb as [|q|q]; cbn; auto. intros [H|(l1 & x & l2 & -> & H)]; auto. right. exists (pre ++ l1), x, (l2 ++ post).
    split; auto. rewrite <- !app_assoc. reflexivity.
  Qed.
  Lemma last_ext ub P e pre post : lastt ub P e -> lastt ub (pre ++ P ++ post) e.
  Proof.
    destruct ub as [|q|q]; cbn; auto. intros [H|(l1 & x & l2 & -> & H)]; auto. right. exists (pre ++ l1), x, (l2 ++ post).
    split; auto. rewrite <- !app_assoc. reflexivity.
  Qed.
  Lemma bd_first lb l e : cmp_bd lb (key e) = BLess \/ cmp_bd lb (key e) = BEqual true -> first lb l e.
  Proof. destruct lb as [|q|q]; cbn; auto; destruct (cmp q (key e)); intros [H|H]; try discriminate; auto. Qed.
  Lemma bd_last ub l e : cmp_bd ub (key e) = BGreater \/ cmp_bd ub (key e) = BEqual true -> lastt ub l e.
  Proof. destruct ub as [|q|q]; cbn; auto; destruct (cmp q (key e)); intros [H|H]; try discriminate; auto. Qed.
  Lemma within_lo lb ub (e : entry) : within lb ub e -> cmp_bd lb (key e) = BUnbounded \/ cmp_bd lb (key e) = BLess.
  Proof. intros [H _]. destruct lb as [|q|q]; cbn; auto; rewrite H; auto. Qed.
  Lemma within_hi lb ub (e : entry) : within lb ub e -> cmp_bd ub (key e) = BUnbounded \/ cmp_bd ub (key e) = BGreater.
  Proof. intros [_ H]. destruct ub as [|q|q]; cbn; auto; rewrite H; auto. Qed.
  Lemma within_l lb ub (e : entry) : within lb ub e -> within lb Unbounded e.
  Proof. intros [H _]. split; [exact H|exact Logic.I]. Qed.
  Lemma within_r lb ub (e : entry) : within lb ub e -> within Unbounded ub e.
  Proof. intros [_ H]. split; [exact Logic.I|exact H]. Qed.

  (** The pruned child on the left, or nothing. *)
  Lemma before_part lb ub lf lp es lo es2 ks2 po s : es <> [] -> lfact lb lf lp es lo es2 po -> lf = false ->
    (forall e es', es2 = e :: es' -> cmp_bd ub (key e) = BLess) ->
    (forall e, In e es -> In e (lo ++ concat (map fl po) ++ dn lf ks2 es2)) ->
    part lb ub (concat (map fl po)) s -> part lb ub (lo ++ concat (map fl po) ++ dn lf ks2 es2) s.
  Proof.
    intros Hne L Hlf Hu Hin P.
    assert (H2 : forall e es', es2 = e :: es' -> In e es).
    { intros e es' E. destruct L; subst; try discriminate; [apply in_or_app; right; now left|]. now injection E as <- <-. }
    constructor.
    - apply sub_right, sub_left, P.
    - intros ->. exfalso. destruct L as [c es1 E1 _ _ _ E2 E3|? ? X|e es' ? ? ? ? ? X|lo' e q ? X]; try congruence; [|discriminate X].
      destruct es2 as [|e es']; [|now specialize (E2 e es' eq_refl)].
      rewrite app_nil_r in E1. subst es1. destruct E3 as [[_ E3]|(e & _ & E3)]; [congruence|discriminate].
    - intros ->. destruct es2 as [|e es']; [|now specialize (Hu e es' eq_refl)]. subst lf. cbn [BTreeRangeProofs.dn].
      rewrite app_nil_r. destruct (tp_suffix _ _ _ _ _ _ P eq_refl) as [r ->]. exists (lo ++ r). now rewrite app_assoc.
    - intros W.
      assert (es2 = []) as ->.
      { destruct es2 as [|e es']; auto. exfalso. specialize (Hu e es' eq_refl).
        destruct (within_hi _ _ _ (W e (Hin e (H2 e es' eq_refl)))); congruence. }
      subst lf. cbn [BTreeRangeProofs.dn] in *. rewrite app_nil_r in *.
      rewrite (tp_all _ _ _ _ _ _ P) by (intros e He; apply W, in_or_app; auto).
      destruct L as [c es1 E1 _ _ _ E2 E3|? ? X|e es' ? ? ? X|lo' e q ? X]; try discriminate.
      destruct E3 as [[-> _]|(e & He & E3)]; auto. exfalso. rewrite app_nil_r in E1. subst es1.
      destruct (within_lo _ _ _ (W e (Hin e He))); congruence.
    - intros e He. apply first_ext. now apply P.
    - intros e He. apply last_ext. now apply P.
  Qed.

  (** What every cut on the right does to the left. *)
  Lemma left_part lb ub lf lp es lo es2 po s D r : es <> [] -> lfact lb lf lp es lo es2 po ->
    (lf = false -> forall e, hd_error D = Some e -> exists es', es2 = e :: es') ->
    part lb Unbounded (concat (map fl po)) s ->
    (forall e, In e es -> In e (lo ++ concat (map fl po) ++ D ++ r)) ->
    (lb = Unbounded -> lo = [] /\ concat (map fl po) = [] /\ s = [])
    /\ ((forall e, In e (lo ++ concat (map fl po) ++ D ++ r) -> within lb ub e) -> lo = [] /\ s = concat (map fl po))
    /\ (lp = false -> concat (map fl po) = [] /\ s = [])
    /\ forall e, hd_error (s ++ D) = Some e -> first lb (lo ++ concat (map fl po) ++ D ++ r) e.
  Proof.
    intros Hne L HD P Hin. pose proof (tp_sub _ _ _ _ _ _ P) as Ps.
    destruct L as [c es1 E1 E4 E5 E6 E2 E3|E1 E2 E3 E4 E5 E6|e es' E1 E2 E3 E4 E5 E6|lo' e q E1 E2 E3 E4 E5 E6 E7].
    - subst lp lf po. split; [|split; [|split]].
      + intros ->. exfalso. destruct es2 as [|e es']; [|now specialize (E2 e es' eq_refl)].
        rewrite app_nil_r in E1. subst es1. destruct E3 as [[_ E3]|(e & _ & E3)]; [congruence|discriminate].
      + intros W. split.
        * destruct E3 as [[-> _]|(e & He & E3)]; auto. exfalso.
          destruct (within_lo _ _ _ (W e (Hin e ltac:(subst es; apply in_or_app; auto)))); congruence.
        * apply P. intros e He. apply (within_l lb ub), W. apply in_or_app. right. apply in_or_app. auto.
      + discriminate.
      + intros e He. apply hd_app in He as [He|[-> He]].
        * apply (first_ext lb (concat (map fl [c])) e lo (D ++ r)). now apply P.
        * destruct (HD eq_refl e He) as [es' E]. apply bd_first. left. eauto.
    - subst po. cbn [map concat app] in *. apply sub_nil in Ps. subst s lo. split; [auto|]. split; [auto|]. split; [auto|].
      intros e _. subst lb. exact Logic.I.
    - subst po. cbn [map concat app] in *. apply sub_nil in Ps. subst s. split; [|split; [|split]]; auto.
      + intros ->. discriminate.
      + intros W. exfalso. destruct (within_lo _ _ _ (W e (Hin e E5))); congruence.
      + cbn [app]. intros x Hx. destruct (HD E2 x Hx) as [es0 E]. rewrite E4 in E. injection E as <- _. apply bd_first. auto.
    - subst po. cbn [map concat app] in *. apply sub_nil in Ps. subst s. split; [|split; [|split]]; auto.
      + congruence.
      + intros W. exfalso. destruct (W e (Hin e E5)) as [W1 _]. subst lb. congruence.
      + cbn [app]. intros x Hx. apply hd_is in Hx as [D' ->]. subst lb lo. right. exists lo', e, (D' ++ r). split; auto.
        now rewrite <- app_assoc.
  Qed.

  Lemma clean_part lb ub lf lp es lo es2 es3 es4 ks3 up po s : es <> [] -> lfact lb lf lp es lo es2 po ->
    es2 = es3 ++ es4 -> incl es2 es ->
    (ub = Unbounded /\ up = []
       \/ (exists d e, dn lf ks3 es3 = d ++ [e] /\ In e es2 /\ cmp_bd ub (key e) = BEqual true)
       \/ (exists e up', up = e :: up' /\ In e es2 /\ cmp_bd ub (key e) = BEqual false)) ->
    (forall e, In e es -> In e (lo ++ concat (map fl po) ++ dn lf ks3 es3 ++ up)) ->
    part lb Unbounded (concat (map fl po)) s ->
    part lb ub (lo ++ concat (map fl po) ++ dn lf ks3 es3 ++ up) (s ++ dn lf ks3 es3).
  Proof.
    intros Hne L E2 I2 F Hin P.
    assert (Hlf : lf = false -> forall e, hd_error (dn lf ks3 es3) = Some e -> exists es', es2 = e :: es').
    { intros -> e He. cbn [BTreeRangeProofs.dn] in He. destruct es3 as [|x es3]; [discriminate|]. injection He as ->.
      exists (es3 ++ es4). exact E2. }
    destruct (left_part lb ub lf lp es lo es2 po s (dn lf ks3 es3) up Hne L Hlf P Hin) as (A1 & A2 & A3 & A4).
    destruct (tp_suffix _ _ _ _ _ _ P eq_refl) as [p Hp]. set (D := dn lf ks3 es3) in *. set (PP := concat (map fl po)) in *.
    constructor.
    - apply sub_right. apply sub_join; [apply P|]. apply sub_left, sub_refl.
    - intros H. destruct (A1 H) as (-> & -> & ->). exists up. reflexivity.
    - intros ->. destruct F as [[_ ->]|[(d & e & _ & _ & F)|(e & up' & _ & _ & F)]]; try discriminate.
      exists (lo ++ p). rewrite Hp, app_nil_r, <- !app_assoc. reflexivity.
    - intros W. destruct (A2 W) as [-> ->].
      destruct F as [[_ ->]|[(d & e & _ & Hi & F)|(e & up' & _ & Hi & F)]].
      + now rewrite app_nil_r.
      + exfalso. destruct (within_hi _ _ _ (W e (Hin e (I2 _ Hi)))); congruence.
      + exfalso. destruct (within_hi _ _ _ (W e (Hin e (I2 _ Hi)))); congruence.
    - exact A4.
    - intros e He. destruct F as [[-> _]|[(d & x & Ed & _ & F)|(x & up' & -> & _ & F)]].
      + exact Logic.I.
      + rewrite Ed, app_assoc, rev_app_distr in He. injection He as <-. apply bd_last. auto.
      + apply last_is in He as [r He]. destruct ub as [|b|b]; [discriminate|cbn in F; destruct (cmp b (key x)); discriminate|].
        right. exists (lo ++ p ++ r), x, up'. split.
        * rewrite Hp. transitivity (lo ++ p ++ (s ++ D) ++ x :: up'); [now rewrite <- !app_assoc|]. rewrite He, <- !app_assoc. reflexivity.
        * cbn in F. now destruct (cmp b (key x)).
  Qed.

  Lemma prune_part lb ub lf lp es lo es2 es3 es4 (ks3 : list C) C0 up po s c' : es <> [] -> lfact lb lf lp es lo es2 po ->
    es2 = es3 ++ es4 -> incl es2 es -> length ks3 + 1 = length es3 + Nat.b2n lf -> ub <> Unbounded ->
    (forall e, In e es3 -> cmp_bd ub (key e) = BGreater) ->
    (dn lf ks3 es3 = [] \/ exists d e, dn lf ks3 es3 = d ++ [e] /\ In e es3) ->
    (up = [] \/ exists e es', es4 = e :: es' /\ cmp_bd ub (key e) = BLess) ->
    (forall e, In e es -> In e (lo ++ concat (map fl po) ++ dn lf ks3 es3 ++ C0 ++ up)) ->
    part lb Unbounded (concat (map fl po)) s -> part (if lp then Unbounded else lb) ub C0 c' ->
    part lb ub (lo ++ concat (map fl po) ++ dn lf ks3 es3 ++ C0 ++ up) (s ++ dn lf ks3 es3 ++ c').
  Proof.
    intros Hne L E2 I2 HL HU F3 FD F4 Hin P Pc.
    assert (Hlf : lf = false -> forall e, hd_error (dn lf ks3 es3) = Some e -> exists es', es2 = e :: es').
    { intros -> e He. cbn [BTreeRangeProofs.dn] in He. destruct es3 as [|x es3]; [discriminate|]. injection He as ->.
      exists (es3 ++ es4). exact E2. }
    assert (HD : dn lf ks3 es3 = [] -> lp = false).
    { destruct lf; [destruct L; congruence|]. cbn [BTreeRangeProofs.dn Nat.b2n] in *. destruct es3; [cbn in HL; lia|discriminate]. }
    destruct (left_part lb ub lf lp es lo es2 po s (dn lf ks3 es3) (C0 ++ up) Hne L Hlf P Hin) as (A1 & A2 & A3 & A4).
    set (D := dn lf ks3 es3) in *. set (PP := concat (map fl po)) in *.
    constructor.
    - apply sub_right. apply sub_join; [apply P|]. apply sub_join; [apply sub_refl|]. apply sub_left, Pc.
    - intros H. destruct (A1 H) as (-> & -> & ->). destruct (tp_prefix _ _ _ _ _ _ Pc) as [r ->]; [now destruct lp|].
      exists (r ++ up). cbn [app]. now rewrite <- !app_assoc.
    - congruence.
    - intros W. destruct (A2 W) as [-> ->]. rewrite (tp_all _ _ _ _ _ _ Pc).
      + destruct F4 as [->|(e & es' & -> & F)]; [now rewrite app_nil_r|]. exfalso.
        destruct (within_hi _ _ _ (W e (Hin e (I2 _ ltac:(subst es2; apply in_elt))))); congruence.
      + intros e He. specialize (W e). destruct lp; [apply (within_r lb)|]; apply W; cbn [app];
          (apply in_or_app; right; apply in_or_app; right; apply in_or_app; now left).
    - intros e He. rewrite app_assoc in He. apply hd_app in He as [He|[E He]]; auto.
      apply app_eq_nil in E as [-> E]. rewrite (HD E) in Pc. rewrite !app_assoc, <- app_assoc. apply first_ext. now apply Pc.
    - intros e He. rewrite app_assoc in He. apply last_app in He as [He|[-> He]].
      + rewrite !app_assoc, <- (app_assoc _ C0). apply last_ext. now apply Pc.
      + destruct FD as [E|(d & x & E & Hx)].
        * rewrite E, app_nil_r in He. destruct (A3 (HD E)) as [_ ->]. discriminate.
        * rewrite E, app_assoc, rev_app_distr in He. injection He as <-. apply bd_last. auto.
  Qed.
End Edges.

(** ** Trees *)
Section Work.
  Context {K V Q : Type} (bor : K -> Q) (cmp : Q -> Q -> comparison) (N : nat) (HN : 1 <= N).
  Notation entry := (K * V)%type.
  Notation key e := (bor (fst e)).
  Notation bt := (bt K V).
  Notation erg := (erg K V).
  Notation flat := (@flat K V).
  Notation shape := (@shape K V N).
  Notation ok2 := (@ok2 K V).
  Notation rich := (@rich K V N).
  Notation part := (@told_part K V Q bor cmp).
  Notation gap := (@told_gap K V Q bor cmp).
  Notation work := (@make_worklist K V Q bor cmp).

  Lemma gap_hi lb l : gap lb Unbounded l -> False.
  Proof. intros (e & _ & H). destruct lb; exact H. Qed.
  Lemma gap_lo ub l : gap Unbounded ub l -> False.
  Proof. intros (e & _ & H). exact H. Qed.
  Lemma gap_in lb ub l l' : incl l l' -> gap lb ub l -> gap lb ub l'.
  Proof. intros I (e & He & H). exists e. auto. Qed.
  Lemma slice_bad {A} a u (l : list A) : u < a -> slice a u l = Panic.
  Proof. intros H. unfold slice. destruct (Nat.leb_spec a u); [lia|]. reflexivity. Qed.
  Lemma units_nil (l : list unit) : concat (map (fun _ => []) l) = [] :> list entry.
  Proof. induction l; auto. Qed.
  Lemma slice_empty {A} a (l : list A) : a <= length l -> slice a a l = Ok [].
  Proof.
    intros H. unfold slice. rewrite Nat.leb_refl. destruct (Nat.leb_spec a (length l)); [|lia]. cbn [andb].
    now rewrite Nat.sub_diag.
  Qed.
  Lemma part_within lb ub l e : In e l -> ~ told_within bor cmp lb ub e -> lb <> Unbounded -> ub <> Unbounded -> part lb ub l [].
  Proof.
    intros Hi Hn H1 H2. constructor; try discriminate; try congruence.
    - apply sub_empty.
    - intros W. destruct (Hn (W e Hi)).
  Qed.

  Lemma leaf_any es lb ub : es <> [] ->
    match work (BN es []) lb ub with Ok w => Forall ok2 w /\ Forall rich w /\ part lb ub es (dens w) | Panic => gap lb ub es end.
  Proof.
    intros He.
    set (us := repeat tt (S (length es))).
    assert (Hus : length us = S (length es)) by apply repeat_length.
    destruct (edges_any bor cmp (fun _ : unit => []) lb ub es us Hus He) as (a & b & lp & r & E1 & E2).
    unfold us in E2 at 1. rewrite dummy_wv in E2. cbn [make_worklist map]. rewrite E1.
    assert (Hd : forall {A} i j, slice_or_default i j (@nil A) = []).
    { intros B i j. unfold slice_or_default, slice. destruct ((i <=? j) && (j <=? length (@nil B))); auto.
      now rewrite skipn_nil, firstn_nil. }
    destruct r as [[u v] rp]. rewrite !Hd. cbn [fst snd] in E2. destruct E2 as [[E2 G]|[(Ha & -> & -> & E2 & e & Hi & Hl & Hu)|E2]].
    { now rewrite slice_bad. }
    { injection E2 as -> -> ->. rewrite slice_empty by auto. cbn. split; auto. split; auto.
      apply (part_within lb ub es e); auto.
      - intros W. destruct (within_lo bor cmp lb ub e W); congruence.
      - intros ->. discriminate.
      - intros ->. discriminate. }
    destruct E2 as (es1 & es2 & ks1 & po & ks2 & lo & lf & F1 & F2 & F3 & F4 & F5 & F6 & F7 & F8 & F9 & F10).
    unfold us in F8. rewrite dummy_wv in F8.
    assert (I2 : incl es2 es) by (intros x Hx; rewrite F1; apply in_or_app; auto).
    assert (Fin : exists es3, slice a u es = Ok es3 /\ part lb ub es es3).
    { inversion F10 as [u' v' X1 X2 X3 X4|u' v' es3 es4 ks3 c ks4 up X1 X2 X3 X4 X5 X6 X7 X8 X9 X10|u' v' es3 es4 ks3 ks4 up X1 X2 X3 X4 X5 X6 X7]; subst u' v' rp.
      - exists []. split; [rewrite X2; apply slice_empty; rewrite F1, app_length; lia|].
        pose proof (before_part bor cmp (fun _ : unit => []) lb ub lf lp es lo es2 ks2 po []) as B. rewrite <- F8 in B.
        apply B; auto. rewrite units_nil. apply part_nil.
      - exists es3. split; [rewrite F1, X1, X3, <- F2; apply slice_mid; lia|].
        rewrite X6 in F8.
        pose proof (prune_part bor cmp (fun _ : unit => []) lb ub lf lp es lo es2 es3 es4 ks3 [] up po [] []) as B. cbn [app] in *.
        rewrite <- F8 in B. rewrite !(dummy_dn N) in B by (destruct lf; cbn in *; lia). rewrite app_nil_r in B.
        rewrite !(dummy_dn N) in X9 by (destruct lf; cbn in *; lia).
        apply B; auto; [rewrite units_nil|]; apply part_nil.
      - exists es3. split; [rewrite F1, X1, X3, <- F2; apply slice_mid; lia|].
        rewrite X6 in F8.
        pose proof (clean_part bor cmp (fun _ : unit => []) lb ub lf lp es lo es2 es3 es4 ks3 up po []) as B. cbn [app] in *.
        rewrite <- F8 in B.
        assert (Hl : length ks3 + 1 <= length es3 + Nat.b2n lf + 1) by (destruct (u <? v); cbn in *; lia).
        rewrite !(dummy_dn N) in B by (exact HN || exact Hl).
        rewrite !(dummy_dn N) in X7 by (exact HN || exact Hl).
        apply B; auto; rewrite units_nil; apply part_nil. }
    destruct Fin as (es3 & Es & P). rewrite Es. cbn [bind length Nat.eqb andb].
    destruct lp, rp; cbn [bind removelast last_opt tl nth_error length Nat.ltb Nat.leb orb app];
      (destruct es3 as [|e es3]; cbn [length Nat.leb orb app];
       (split; [|split]); auto; try exact P;
         try (constructor; auto; split; [now left|reflexivity]);
         try (constructor; auto; constructor);
         unfold dens; cbn [map concat]; rewrite app_nil_r, den_leaf by discriminate; exact P).
  Qed.

  Lemma work_any h : forall mn t lb ub, 1 <= mn -> shape mn h t ->
    match work t lb ub with Ok w => Forall ok2 w /\ Forall rich w /\ part lb ub (flat t) (dens w) | Panic => gap lb ub (flat t) end.
  Proof.
    induction h as [|h IH]; intros mn t lb ub Hm S.
    { apply shape_0 in S as (es & -> & Hl). rewrite flat_leaf. apply leaf_any. destruct es; [cbn in Hl; lia|easy]. }
    apply shape_S in S as (es & ks & -> & Hl & Hk & HF).
    assert (He : es <> []) by (destruct es; [cbn in Hl; lia|easy]).
    destruct (edges_any bor cmp flat lb ub es ks Hk He) as (a & b & lp & r & E1 & E2).
    rewrite <- wv_flat. cbn [make_worklist]. rewrite E1. destruct r as [[u v] rp]. cbn [fst snd] in E2.
    destruct E2 as [[E2 G]|[(Ha & -> & -> & E2 & e & Hi & Hlo & Hhi)|E2]].
    { now rewrite slice_bad. }
    { injection E2 as -> -> ->. rewrite slice_empty by auto. cbn [bind].
      assert (Hs : forall {B} (f : bt -> B), slice_or_default a a (map f ks) = []).
      { intros B f. unfold slice_or_default. rewrite slice_empty; auto. rewrite map_length. lia. }
      pose proof (Hs bt (fun x => x)) as Hs'. rewrite map_id in Hs'. rewrite Hs'. cbn. split; auto. split; auto.
      apply (part_within lb ub _ e).
      - apply (in_wv flat); auto.
      - intros W. destruct (within_lo bor cmp lb ub e W); congruence.
      - intros ->. discriminate.
      - intros ->. discriminate. }
    destruct E2 as (es1 & es2 & ks1 & po & ks2 & lo & lf & F1 & F2 & F3 & F4 & F5 & F6 & F7 & F8 & F9 & F10).
    assert (I2 : incl es2 es) by (intros x Hx; rewrite F1; apply in_or_app; auto).
    assert (HF2 : Forall (shape N h) ks2) by (rewrite F3 in HF; apply Forall_app in HF as [_ HF]; now apply Forall_app in HF).
    assert (Htidy : forall l, Forall (shape N h) l -> Forall tidy l /\ Forall (fun c => exists h, shape N h c) l).
    { intros l HFl. rewrite !Forall_forall in *. split; intros x Hx; specialize (HFl x Hx); eauto.
      now apply (shape_tidy N N h). }
    assert (Hin : forall e, In e es -> In e (wv flat ks es)) by (intros e Hx; apply (in_wv flat); auto).
    assert (Hkin : forall c, In c ks -> incl (flat c) (wv flat ks es)).
    { intros c Hc x Hx. rewrite wv_flat. now apply (branch_in N HN es ks c). }
    assert (Hkid : forall c, In c ks -> shape N h c) by (intros c Hc; rewrite Forall_forall in HF; auto).
    assert (Wany : forall c, In c ks -> match work c lb ub with Ok w => Forall ok2 w /\ Forall rich w /\ part lb ub (flat c) (dens w)
                                        | Panic => gap lb ub (wv flat ks es) end).
    { intros c Hc. specialize (IH N c lb ub HN (Hkid c Hc)). destruct (work c lb ub); auto.
      eapply gap_in; [|exact IH]. now apply Hkin. }
    assert (Wl : forall c, In c ks -> exists w, work c lb Unbounded = Ok w /\ Forall ok2 w /\ Forall rich w /\ part lb Unbounded (flat c) (dens w)).
    { intros c Hc. specialize (IH N c lb Unbounded HN (Hkid c Hc)). destruct (work c lb Unbounded) as [w|]; [eauto|].
      now apply gap_hi in IH. }
    assert (Wr : forall c, In c ks -> exists w, work c Unbounded ub = Ok w /\ Forall ok2 w /\ Forall rich w /\ part Unbounded ub (flat c) (dens w)).
    { intros c Hc. specialize (IH N c Unbounded ub HN (Hkid c Hc)). destruct (work c Unbounded ub) as [w|]; [eauto|].
      now apply gap_lo in IH. }
    assert (Hpo : match lp with true => exists c, po = [c] | false => po = [] end).
    { destruct F9; subst; eauto. }
    assert (Hmid : forall es3 ks3 lf' rt', lf' = lf -> Forall (shape N h) ks3 ->
        length ks3 + 1 = length es3 + Nat.b2n lf + Nat.b2n rt' ->
        let w2 := if (0 <? length es3) || (0 <? length ks3) then [Erg es3 ks3 lf' rt'] else [] in
        Forall ok2 w2 /\ Forall rich w2 /\ dens w2 = dn flat lf ks3 es3).
    { intros es3 ks3 lf' rt' -> HF3 HL. cbn zeta. destruct ((0 <? length es3) || (0 <? length ks3)) eqn:Ez.
      - destruct (Htidy ks3 HF3) as [T1 T2]. split; [|split].
        + constructor; auto. split.
          * right. split; auto.
          * unfold g_empty. cbn [g_elems g_kids]. now destruct es3, ks3.
        + constructor; auto.
        + unfold dens. cbn [map concat]. rewrite app_nil_r. reflexivity.
      - destruct es3, ks3; try discriminate. repeat split; auto. destruct lf; reflexivity. }
    inversion F10 as [u' v' X1 X2 X3 X4|u' v' es3 es4 ks3 c ks4 up X1 X2 X3 X4 X5 X6 X7 X8 X9 X10|u' v' es3 es4 ks3 ks4 up X1 X2 X3 X4 X5 X6 X7]; subst u' v' rp.
    - (* only the pruned child, if any *)
      assert (Hs : slice a u es = Ok []) by (rewrite X2; apply slice_empty; rewrite F1, app_length; lia).
      rewrite Hs. cbn [bind].
      assert (Hk1 : forall {B} (f : bt -> B), slice_or_default b v (map f ks) = map f po).
      { intros B f. unfold slice_or_default. rewrite F3, !map_app, slice_mid; auto; rewrite map_length; [lia|].
        rewrite map_length. rewrite X1 in F6. cbn [Nat.b2n] in F6. lia. }
      pose proof (Hk1 bt (fun x => x)) as Hk2. rewrite !map_id in Hk2. rewrite Hk2, Hk1.
      assert (B : forall s, part lb ub (concat (map flat po)) s -> part lb ub (wv flat ks es) s).
      { intros s. pose proof (before_part bor cmp flat lb ub lf lp es lo es2 ks2 po s) as B. rewrite <- F8 in B. apply B; auto. }
      destruct lp.
      + destruct Hpo as [c ->]. cbn [length Nat.eqb andb bind map assert_].
        assert (Hc : In c ks) by (rewrite F3; apply in_elt). specialize (Wany c Hc).
        destruct (work c lb ub) as [w|]; [|exact Wany]. destruct Wany as (W1 & W2 & W3).
        cbn [bind tl removelast last_opt nth_error length Nat.ltb Nat.leb orb app concat]. rewrite last_nil. cbn [bind].
        rewrite !app_nil_r. split; auto. split; auto. apply B. cbn [map concat]. now rewrite app_nil_r.
      + subst po. cbn [length Nat.eqb andb bind map assert_ removelast last_opt nth_error Nat.ltb Nat.leb orb app concat].
        split; auto. split; auto. apply B. apply part_nil.
    - (* the last child kept must be pruned *)
      assert (Hs : slice a u es = Ok es3) by (rewrite F1, X1; apply slice_mid; lia).
      rewrite Hs. cbn [bind].
      assert (Hk1 : forall {B} (f : bt -> B), slice_or_default b v (map f ks) = map f po ++ map f ks3 ++ [f c]).
      { intros B f. unfold slice_or_default. rewrite F3, X2.
        replace (ks1 ++ po ++ ks3 ++ c :: ks4) with (ks1 ++ (po ++ ks3 ++ [c]) ++ ks4)
          by now rewrite <- !app_assoc.
        rewrite !map_app, slice_mid; auto; rewrite ?app_length, !map_length; auto. cbn. lia. }
      pose proof (Hk1 bt (fun x => x)) as Hk2. rewrite !map_id in Hk2. rewrite Hk2, Hk1. clear Hk1 Hk2.
      assert (Hc : In c ks). { rewrite F3, X2. apply in_or_app; right. apply in_or_app; right. apply in_elt. }
      assert (HF3 : Forall (shape N h) ks3) by (rewrite X2 in HF2; now apply Forall_app in HF2 as [HF3 _]).
      rewrite X6 in F8.
      assert (B : forall s c', part lb Unbounded (concat (map flat po)) s -> part (if lp then Unbounded else lb) ub (flat c) c' ->
        part lb ub (wv flat ks es) (s ++ dn flat lf ks3 es3 ++ c')).
      { intros s c' P1 P2.
        pose proof (prune_part bor cmp flat lb ub lf lp es lo es2 es3 es4 ks3 (flat c) up po s c') as B. rewrite <- F8 in B. apply B; auto. }
      destruct lp.
      + destruct Hpo as [p ->]. cbn [negb andb] in F7. subst lf. cbn [Nat.b2n] in *.
        assert (Hp : In p ks) by (rewrite F3; apply in_elt).
        replace (length (([p] ++ ks3 ++ [c])) =? 1) with false
          by (cbn; rewrite app_length; cbn; destruct (Nat.eqb_spec (length ks3 + 1) 0); [lia|reflexivity]).
        cbn [andb bind map app].
        destruct (Wl p Hp) as (w1 & Ew1 & W11 & W12 & W13). rewrite Ew1.
        cbn [bind tl]. rewrite removelast_last, last_snoc.
        destruct (Wr c Hc) as (w3 & Ew3 & W31 & W32 & W33). rewrite Ew3.
        cbn [bind].
        destruct (Hmid es3 ks3 (negb true && (a =? b)) (negb true && (u <? v)) eq_refl HF3) as (M1 & M2 & M3); [cbn; lia|].
        split; [|split].
        * apply Forall_app. split; auto. apply Forall_app. auto.
        * apply Forall_app. split; auto. apply Forall_app. auto.
        * unfold dens in *. rewrite !map_app, !concat_app, M3. apply B; auto. cbn [map concat]. now rewrite app_nil_r.
      + subst po. cbn [negb andb app] in *. cbn [bind map app].
        rewrite removelast_last, last_snoc. specialize (Wany c Hc). destruct (work c lb ub) as [w3|]; [|exact Wany].
        destruct Wany as (W31 & W32 & W33). cbn [bind].
        destruct (Hmid es3 ks3 (a =? b) false (eq_sym F7) HF3) as (M1 & M2 & M3); [cbn; lia|].
        split; [|split].
        * apply Forall_app. auto.
        * apply Forall_app. auto.
        * unfold dens in *. rewrite !map_app, !concat_app, M3. apply (B []); auto. apply part_nil.
    - (* the right edge is at an element *)
      assert (Hs : slice a u es = Ok es3) by (rewrite F1, X1; apply slice_mid; lia).
      rewrite Hs. cbn [bind].
      assert (Hk1 : forall {B} (f : bt -> B), slice_or_default b v (map f ks) = map f po ++ map f ks3).
      { intros B f. unfold slice_or_default. rewrite F3, X2.
        replace (ks1 ++ po ++ ks3 ++ ks4) with (ks1 ++ (po ++ ks3) ++ ks4) by now rewrite <- !app_assoc.
        rewrite !map_app, slice_mid; auto; rewrite ?app_length, !map_length; auto. lia. }
      pose proof (Hk1 bt (fun x => x)) as Hk2. rewrite !map_id in Hk2. rewrite Hk2, Hk1. clear Hk1 Hk2.
      assert (HF3 : Forall (shape N h) ks3) by (rewrite X2 in HF2; now apply Forall_app in HF2 as [HF3 _]).
      rewrite X6 in F8.
      assert (B : forall s, part lb Unbounded (concat (map flat po)) s -> part lb ub (wv flat ks es) (s ++ dn flat lf ks3 es3)).
      { intros s P1.
        pose proof (clean_part bor cmp flat lb ub lf lp es lo es2 es3 es4 ks3 up po s) as B. rewrite <- F8 in B. apply B; auto. }
      destruct (Hmid es3 ks3 (negb lp && (a =? b)) (negb false && (u <? v)) (eq_sym F7) HF3 X5) as (M1 & M2 & M3).
      destruct lp.
      + destruct Hpo as [p ->]. cbn [negb andb] in F7. subst lf. cbn [Nat.b2n] in *.
        assert (Hp : In p ks) by (rewrite F3; apply in_elt).
        rewrite andb_false_r. cbn [andb bind map app].
        destruct (Wl p Hp) as (w1 & Ew1 & W11 & W12 & W13). rewrite Ew1.
        cbn [bind tl]. rewrite app_nil_r. split; [|split].
        * apply Forall_app. auto.
        * apply Forall_app. auto.
        * unfold dens in *. rewrite !map_app, !concat_app, M3. apply B. cbn [map concat]. now rewrite app_nil_r.
      + subst po. cbn [bind map app]. rewrite app_nil_r. cbn [concat map app].
        split; auto. split; auto. rewrite M3. apply (B []). apply part_nil.
  Qed.
End Work.

(** ** Maps *)
Section Maps.
  Context {K V Q : Type} (bor : K -> Q) (cmp : Q -> Q -> comparison) (N : nat) (HN : 1 <= N).
  Notation entry := (K * V)%type.
  Notation part := (@told_part K V Q bor cmp).
  Notation gap := (@told_gap K V Q bor cmp).

  Lemma bad_crossed (lo hi : bound Q) : bad_range cmp lo hi = true <-> told_crossed cmp lo hi.
  Proof. destruct lo as [|a|a], hi as [|b|b]; cbn; try easy; destruct (cmp b a); easy. Qed.
  Lemma sub_len {A} (a b : list A) : sub a b -> length a <= length b.
  Proof. induction 1; cbn; lia. Qed.

  Lemma b_range_any (m : bt_map K V) l lo hi : b_any N m l ->
    match b_range bor cmp m lo hi with
    | Ok it => ~ told_crossed cmp lo hi /\ exists l', part lo hi l l'
        /\ fst (b_range_hint N it) <= length l' <= snd (b_range_hint N it)
        /\ forall cs, exists outs, b_range_calls N cs it = Ok outs
           /\ Forall2 (fun o s => fst o = fst s /\ fst (snd o) <= snd s <= snd (snd o)) outs (s_ends cs l')
    | Panic => told_crossed cmp lo hi \/ gap lo hi l
    end.
  Proof.
    intros H. apply (any_iff N) in H as (L & R). unfold b_range, b_len.
    destruct (bad_range cmp lo hi) eqn:Eb; [left; now apply bad_crossed|].
    assert (Hc : ~ told_crossed cmp lo hi) by (intros C; apply bad_crossed in C; congruence).
    assert (W : match match bm_root m with Some t => make_worklist bor cmp t lo hi | None => Ok [] end with
                | Ok w => Forall ok2 w /\ Forall (rich N) w /\ part lo hi l (dens w) | Panic => gap lo hi l end).
    { destruct (bm_root m) as [t|].
      - destruct R as (h & S & <-). apply (work_any bor cmp N HN h 1 t lo hi (le_n 1) S).
      - subst l. split; auto. split; auto. apply part_nil. }
    destruct (match bm_root m with Some t => make_worklist bor cmp t lo hi | None => Ok [] end) as [w|]; cbn [bind]; auto.
    destruct W as (W1 & W2 & W3). split; auto. exists (dens w). split; auto.
    assert (Ll : length (dens w) <= bm_len m) by (rewrite L; apply sub_len, W3).
    split.
    - split; [apply (hint_ok N HN); auto; now apply ok2s|exact Ll].
    - intros cs. apply (calls_ok N HN cs w (bm_len m)); auto.
  Qed.
End Maps.

(** [range_mut]: the same on the references; they are to different entries. *)
Section MapsMut.
  Context {K V Q : Type} (bor : K -> Q) (cmp : Q -> Q -> comparison) (N : nat) (HN : 1 <= N).
  Notation nob := (fun _ : K => tt).
  Notation noc := (fun _ _ : unit => Lt).
  Notation gap := (@told_gap K V Q bor cmp).

  Lemma valid_any (m : bt_map K V) : valid nob noc N m -> b_any N m (contents m).
  Proof.
    intros (_ & L & S). apply (any_iff N). split; auto. unfold contents. destruct (bm_root m) as [t|]; auto.
    destruct S as [h S]. eauto.
  Qed.
  Lemma map_pos_any (m : bt_map K V) l : b_any N m l -> b_any N (map_pos m) (contents (map_pos m)) /\ map shown (contents (map_pos m)) = l.
  Proof.
    intros H. destruct (any_valid N m l H) as [Hv <-]. destruct (map_pos_ok nob noc N m Hv) as [Hm Hc]. split; [|exact Hc].
    destruct Hm as (_ & L & S). apply (any_iff N). split; auto. unfold contents. destruct (bm_root (map_pos m)) as [t|]; auto.
    destruct S as [h S]. eauto.
  Qed.
  Lemma b_range_mut_any (m : bt_map K V) l lo hi : b_any N m l ->
    match b_range_mut bor cmp m lo hi with
    | Ok it => ~ told_crossed cmp lo hi /\ exists refs refs', map shown refs = l
        /\ told_part (fun r : bref => bor (snd r)) cmp lo hi refs refs'
        /\ fst (b_range_hint N it) <= length refs' <= snd (b_range_hint N it)
        /\ (forall cs, exists outs, b_range_calls N cs it = Ok outs
           /\ Forall2 (fun o s => fst o = fst s /\ fst (snd o) <= snd s <= snd (snd o)) outs (s_ends cs refs'))
        /\ forall ws, b_any N (writes refs ws m) (fold_left (fun l iw => upd_nth (fst iw) (snd iw) l) ws l)
    | Panic => told_crossed cmp lo hi \/ gap lo hi l
    end.
  Proof.
    intros H. destruct (map_pos_any m l H) as [Hm Hc].
    pose proof (b_range_any (fun r : bref => bor (snd r)) cmp N HN (map_pos m) (contents (map_pos m)) lo hi Hm) as R.
    match type of R with match ?x with Ok _ => _ | Panic => _ end => assert (E : x = b_range_mut bor cmp m lo hi) by reflexivity; rewrite E in R; clear E end.
    destruct (b_range_mut bor cmp m lo hi) as [it|].
    - destruct R as (R1 & refs' & R2 & R3 & R4). split; auto. exists (contents (map_pos m)), refs'. repeat (split; [assumption|]).
      intros ws. destruct (any_valid N m l H) as [Hv <-].
      destruct (writes_ok nob noc N (contents (map_pos m)) ws m Hv eq_refl) as (W1 & W2 & _). rewrite <- W2. now apply valid_any.
    - destruct R as [R|(e & He & R)]; auto. right. exists (shown e). split; [rewrite <- Hc; now apply in_map|]. exact R.
  Qed.
End MapsMut.
