(** Proofs about [iter_mut] and [range_mut] on shared nodes: whole sequences of calls. *)
From Coq Require Import List PeanoNat Bool Lia Sorted.
From Verif Require Import Base Spec MapSpec SpecFacts Vec Heap HeapProofs HeapMut HeapMutProofs BTreeModel BTreeProofs BTreeProofs2
  BTreeIterModel BTreeRangeProofs BTreeMutProofs BTreeHeapModel BTreeHeapSpec BTreeHeapProofs MutSpec BTreeHeapMutModel
  BTreeHeapMutProofs BTreeHeapMutProofs2.
From Verif Require BTreeIterProofs.
Import ListNotations.
Local Open Scope nat_scope.

(** Where an entry is. *)
Section PosAt.
  Context {K V : Type} (N : nat).
  Notation shape := (@shape K V N).
  Lemma pos_at ht : forall mn (t : bt K V) p x e, shape mn ht t -> nth_error (BTreeProofs.flat (with_pos p t)) x = Some e ->
    exists q j es ks, fst (fst e) = (p ++ q, j) /\ n_at t q = Some (BN es ks) /\ nth_error es j = Some (unpos e).
  Proof.
    induction ht as [|ht IH]; intros mn t p i x S E.
    - apply shape_0 in S as (es & -> & Hl). rewrite with_pos_eq in E. cbn [mapi_from BTreeProofs.flat map weave] in E.
      rewrite mapi_nth in E. cbn [Nat.add] in E. destruct (nth_error es i) as [[k v]|] eqn:Ee; [|discriminate]. injection E as <-.
      exists [], i, es, []. rewrite app_nil_r. auto.
    - apply shape_S in S as (es & ks & -> & Hl & Hk & F). rewrite with_pos_eq in *. cbn [BTreeProofs.flat] in *.
      apply weave_at in E; [|now rewrite map_length, !mapi_length].
      destruct E as [(j & E1 & _)|(j & l & i' & E1 & E2 & _)].
      + rewrite mapi_nth in E1. cbn [Nat.add] in E1. destruct (nth_error es j) as [[k v]|] eqn:Ee; [|discriminate]. injection E1 as <-.
        exists [], j, es, ks. rewrite app_nil_r. auto.
      + rewrite nth_error_map, mapi_nth in E1. cbn [Nat.add] in E1.
        destruct (nth_error ks j) as [c|] eqn:Ec; [|discriminate]. cbn in E1. injection E1 as <-.
        assert (Sc : shape N ht c). { rewrite Forall_forall in F. apply F. eapply nth_error_In; eauto. }
        destruct (IH N c (p ++ [j]) i' x Sc E2) as (q & j' & es' & ks' & Hx & H1 & H2).
        exists (j :: q), j', es', ks'. rewrite <- app_assoc in Hx. cbn [n_at]. rewrite Ec. auto.
  Qed.
End PosAt.

(** The window of a range. *)
Section Window.
  Context {A : Type} (R : A -> A -> Prop).
  Lemma filter_all_true (f : A -> bool) l : (forall x, In x l -> f x = true) -> filter f l = l.
  Proof. induction l as [|x l IH]; intros H; cbn [filter]; auto. rewrite (H x) by (now left). f_equal. apply IH. intros y Hy. apply H. now right. Qed.
  Lemma filter_length_le (f : A -> bool) l : length (filter f l) <= length l.
  Proof. induction l as [|x l IH]; cbn [filter length]; [lia|]. destruct (f x); cbn [length]; lia. Qed.
  Lemma filter_up (f : A -> bool) l : StronglySorted R l -> (forall x y, R x y -> f x = true -> f y = true) ->
    filter f l = skipn (length (filter (fun x => negb (f x)) l)) l.
  Proof.
    intros S H. induction S as [|x l S IH F]; auto. cbn [filter]. destruct (f x) eqn:E; cbn [negb].
    - rewrite Forall_forall in F. assert (G : forall y, In y l -> f y = true) by eauto.
      rewrite (filter_all_true f l G). replace (filter (fun y => negb (f y)) l) with (@nil A); auto.
      clear - G. induction l as [|y l IH]; auto. cbn [filter]. rewrite (G y) by (now left). cbn [negb]. apply IH. intros z Hz. apply G. now right.
    - cbn [length skipn]. exact IH.
  Qed.
  Lemma filter_down (f : A -> bool) l : StronglySorted R l -> (forall x y, R x y -> f y = true -> f x = true) ->
    filter f l = firstn (length (filter f l)) l.
  Proof.
    intros S H. induction S as [|x l S IH F]; auto. cbn [filter]. destruct (f x) eqn:E.
    - cbn [length firstn]. now f_equal.
    - assert (G : filter f l = []); [|now rewrite G]. rewrite Forall_forall in F.
      assert (G : forall y, In y l -> f y = false). { intros y Hy. destruct (f y) eqn:Ey; auto. rewrite (H x y) in E; auto. }
      clear - G. induction l as [|y l IH]; auto. cbn [filter]. rewrite (G y) by (now left). apply IH. intros z Hz. apply G. now right.
  Qed.
  Lemma skipn_sorted n l : StronglySorted R l -> StronglySorted R (skipn n l).
  Proof. revert l. induction n as [|n IH]; intros [|x l] S; auto. cbn [skipn]. apply IH. now inversion S. Qed.
End Window.

Section WindowQ.
  Context {K V Q : Type} (bor : K -> Q) (cmp : Q -> Q -> comparison) (laws : order_laws cmp).
  Lemma range_cut lo hi (l : list (K * V)) : ascending bor cmp l -> s_range bor cmp lo hi l = cut (s_lo bor cmp lo l) (s_hi bor cmp lo hi l) l.
  Proof.
    intros A. unfold s_hi, cut. replace (s_lo bor cmp lo l + length (s_range bor cmp lo hi l) - s_lo bor cmp lo l) with (length (s_range bor cmp lo hi l)) by lia.
    assert (E : s_range bor cmp lo hi l = filter (below bor cmp hi) (skipn (s_lo bor cmp lo l) l)).
    { unfold s_lo. rewrite <- (filter_up _ (above bor cmp lo) l A).
      - unfold s_range. clear. induction l as [|x l IH]; auto. cbn [filter]. destruct (above bor cmp lo x); cbn [andb filter]; [|auto].
        destruct (below bor cmp hi x); now rewrite IH.
      - intros x y Rxy Hx. rewrite (bd_above bor cmp laws) in *. rewrite (bd_up cmp laws lo _ _ Rxy); [now destruct lo|].
        intros X. now rewrite X in Hx. }
    rewrite E. apply filter_down with (R := fun a b => cmp (bor (fst a)) (bor (fst b)) = Lt).
    - now apply skipn_sorted.
    - intros x y Rxy Hx. rewrite (bd_below bor cmp laws) in *. rewrite (bd_down cmp laws hi _ _ Rxy); [now destruct hi|].
      intros X. now rewrite X in Hx.
  Qed.
  Lemma hi_le lo hi (l : list (K * V)) : ascending bor cmp l -> s_lo bor cmp lo l <= s_hi bor cmp lo hi l <= length l.
  Proof.
    intros A. split; [unfold s_hi; lia|]. pose proof (f_equal (@length _) (range_cut lo hi l A)) as E. unfold cut in E.
    rewrite firstn_length, skipn_length in E. unfold s_hi in *. 
    assert (L : s_lo bor cmp lo l <= length l). { unfold s_lo. apply filter_length_le. }
    lia.
  Qed.
End WindowQ.

Lemma s_muts_rs {K V} (cs : list (mcall V)) : forall (l : list (K * V)) i k rs x, In x rs -> In x (snd (s_muts cs l i k rs)).
Proof.
  induction cs as [|c cs IH]; intros l i k rs x H; auto. destruct c as [| |j w]; cbn [s_muts].
  - destruct (i <? k); [pose proof (IH l (i + 1) k (rs ++ [i]) x)|pose proof (IH l i k rs x)]; destruct (s_muts _ _ _ _ _) as [[? ?] ?]; cbn [snd] in *; auto.
    apply H0, in_or_app. auto.
  - destruct (i <? k); [pose proof (IH l i (k - 1) (rs ++ [k - 1]) x)|pose proof (IH l i k rs x)]; destruct (s_muts _ _ _ _ _) as [[? ?] ?]; cbn [snd] in *; auto.
    apply H0, in_or_app. auto.
  - destruct (nth_error rs j) as [y|]; [pose proof (IH (upd_nth y w l) i k rs x)|pose proof (IH l i k rs x)]; destruct (s_muts _ _ _ _ _) as [[? ?] ?]; cbn [snd] in *; auto.
Qed.

Section Run.
  Context {K V Q : Type} (bor : K -> Q) (cmp : Q -> Q -> comparison) (laws : order_laws cmp) (N : nat) (HN : 1 <= N).
  Variable bomb : nat -> bool.
  Notation bt := (bt K V).
  Notation pay := (list (K * V)).
  Notation heap := (heap pay).
  Notation bref := (@bref K).
  Notation gerg := (erg bref V).
  Notation ns := (@ns K V).
  Notation valid := (@valid K V Q bor cmp N).
  Variables (h0 : heap) (t0 : bt) (O : list addr) (start : list nat -> Prop) (len : nat).
  Notation mst := (mst h0 t0 O start).
  Notation minv := (minv h0 t0 O start).
  Notation wsims := (wsims t0).
  Notation M t := (BMap len (Some t)).
  Notation R := (contents (map_pos (M t0))).
  Hypothesis V0 : valid (M t0).

  (** The tree [t] has the entries [l], in the same places as [t0] has its own. *)
  Definition shows_at (t : bt) (l : list (K * V)) : Prop :=
    valid (M t) /\ contents (M t) = l /\ map fst (contents (map_pos (M t))) = map fst R.

  Lemma at_entry t l x e : shows_at t l -> nth_error R x = Some e ->
    exists q j es ks es0 ks0 e', fst (fst e) = (q, j) /\ n_at t q = Some (BN es ks) /\ nth_error es j = Some e' /\ nth_error l x = Some e'
      /\ n_at t0 q = Some (BN es0 ks0) /\ j < length es0.
  Proof.
    intros (Hv & <- & Hf) Ex. assert (Ef : nth_error (map fst (contents (map_pos (M t)))) x = Some (fst e)) by (rewrite Hf, nth_error_map, Ex; auto).
    rewrite nth_error_map in Ef. destruct (nth_error (contents (map_pos (M t))) x) as [e1|] eqn:E1; [|discriminate]. injection Ef as Ef.
    pose proof Hv as (_ & _ & ht & S). pose proof V0 as (_ & _ & ht0 & S0). cbn [bm_root] in *.
    destruct (pos_at N ht _ t [] x e1 S E1) as (q & j & es & ks & A1 & A2 & A3).
    destruct (pos_at N ht0 _ t0 [] x e S0 Ex) as (q' & j' & es0 & ks0 & B1 & B2 & B3).
    cbn [app] in *. rewrite Ef, B1 in A1. injection A1 as <- <-. exists q', j', es, ks, es0, ks0, (unpos e1). split; auto. split; auto. split; auto. split; auto.
    - rewrite <- (proj2 (map_pos_ok bor cmp N (M t) Hv)), nth_error_map, E1. reflexivity.
    - split; auto. apply nth_error_Some. congruence.
  Qed.

  Lemma write_at t l x e w q j : shows_at t l -> nth_error R x = Some e -> fst (fst e) = (q, j) -> shows_at (n_write q j w t) (upd_nth x w l).
  Proof.
    intros (Hv & <- & Hf) Ex Eq. assert (Ef : nth_error (map fst (contents (map_pos (M t)))) x = Some (fst e)) by (rewrite Hf, nth_error_map, Ex; auto).
    rewrite nth_error_map in Ef. destruct (nth_error (contents (map_pos (M t))) x) as [e1|] eqn:E1; [|discriminate]. injection Ef as Ef.
    destruct (b_write_ok bor cmp N (M t) x e1 w Hv E1) as (H1 & H2 & H3). rewrite Ef in *. unfold b_write in *. rewrite Eq in *. cbn [fst snd bm_len bm_root option_map] in *.
    split; auto. split; auto. rewrite H3, upd_keys. exact Hf.
  Qed.

  (** References handed out, and the indices of their entries. *)
  Definition refs_ok (h : heap) (r : addr) : list mref -> list nat -> Prop :=
    Forall2 (fun rf x => exists q e, nth_error R x = Some e /\ fst (fst e) = (q, snd rf) /\ held h r q (fst rf)).
  Lemma refs_mono h h' r refs rs : mono h h' r -> refs_ok h r refs rs -> refs_ok h' r refs rs.
  Proof. intros Mo F. induction F as [|a b l l' (q & e & A1 & A2 & A3) F IH]; constructor; auto. exists q, e. auto. Qed.

  (** The iterator has still to hand out the entries from [i] to [k - 1]. *)
  Definition iter_ok (h : heap) (r : addr) (it : m_iter) (i k d : nat) : Prop :=
    exists gs, wsims h r (mi_work it) gs /\ Forall BTreeIterProofs.ok2 gs /\ Forall (rich N) gs /\ BTreeIterProofs.dens gs = cut i k R
      /\ i <= k <= length R /\ mi_len it = (k - i) + d.
  Lemma iter_mono h h' r it i k d : mono h h' r -> iter_ok h r it i k d -> iter_ok h' r it i k d.
  Proof. intros Mo (gs & H & G). exists gs. split; auto. eapply wsims_mono; eauto. Qed.

  Lemma iter_hint h r it i k d : iter_ok h r it i k d -> fst (mi_hint N it) <= k - i /\ snd (mi_hint N it) = (k - i) + d.
  Proof.
    intros (gs & W & O2 & Ri & D & L & Ln). split; [|exact Ln].
    assert (E : fst (mi_hint N it) = fst (b_range_hint N (BIter gs 0))).
    { unfold mi_hint, b_range_hint. cbn [fst bi_work]. clear - W. unfold wsims in W. induction W as [|w g ws gs [p H] F IH]; auto. cbn [fold_right].
      destruct (wsim_flags _ _ _ _ _ _ H) as (_ & _ & _ & E1 & E2). now rewrite E1, E2, IH. }
    rewrite E. etransitivity; [apply (hint_ok N HN gs 0); auto; now apply BTreeIterProofs.ok2s|]. rewrite D, cut_len; lia.
  Qed.

  Definition on_way (p : list nat) (x : nat) : Prop := exists e q j, nth_error R x = Some e /\ fst (fst e) = (q, j) /\ prefix p q.

  (** One step of the iterator. *)
  Lemma next_run h r t l ps it i k d : minv h r t ps -> shows_at t l -> iter_ok h r it i k d ->
    exists h' it' o nps, hm_next bomb h it = Ok (h', it', o) /\ mono h h' r /\ Forall (fun p => i < k /\ on_way p i) nps
      /\ match o with
         | Done None => minv h' r t (nps ++ ps) /\ k <= i /\ iter_ok h' r it' i k d
         | Done (Some rf) => minv h' r t (nps ++ ps) /\ i < k /\ iter_ok h' r it' (i + 1) k d /\ refs_ok h' r [rf] [i]
         | Unwound => mst h' r t (nps ++ ps) /\ (exists n, bomb n = true) /\ nps <> []
         end.
  Proof.
    intros I Sh (gs & W & O2 & Ri & D & L & Ln). destruct (BTreeIterProofs.next_ok gs (mi_len it)) as (gs' & E & O1' & D' & B').
    { now apply BTreeIterProofs.ok2s. }
    { rewrite D. intros X. destruct (Nat.lt_ge_cases i k); [lia|]. rewrite cut_none in X by auto. congruence. }
    destruct (next_m bomb h0 t0 O start h r t ps it (BIter gs (mi_len it)) _ _ I W eq_refl E) as (h' & it' & o & nps & Eh & Mo & P).
    pose proof (next_keeps N _ _ _ E Ri) as Ri'. cbn [bi_work bi_len] in *.
    assert (O2' : Forall BTreeIterProofs.ok2 gs') by (apply BTreeIterProofs.ok2s in O2 as [_ O2]; apply BTreeIterProofs.ok2s; auto).
    exists h', it', o, nps. split; auto. split; auto. rewrite D in *. destruct (Nat.lt_ge_cases i k) as [Hl|Hl].
    - destruct (cut_cons i k R) as (e & He & Ec); [lia..|]. rewrite Ec in *. cbn [hd_error tl] in *. destruct o as [s|].
      + destruct P as (I' & W' & Ln' & q & Rs & Fp & _). unfold ref_sim in Rs. destruct s as [[a j]|]; [|contradiction]. destruct Rs as [Hh Hq].
        split; [eapply Forall_impl; [|exact Fp]; intros p Hp; split; auto; exists e, q, j; auto|]. split; auto. split; auto. split.
        * exists gs'. repeat split; auto; try lia.
        * constructor; [|constructor]. exists q, e. auto.
      + destruct P as (I' & Hb & Hne & e' & q & j & [= <-] & Hq & Fp). split; auto.
        eapply Forall_impl; [|exact Fp]. intros p Hp. split; auto. exists e, q, j. auto.
    - rewrite cut_none in * by auto. cbn [hd_error tl] in *. destruct o as [s|].
      + destruct P as (I' & W' & Ln' & q & Rs & _ & Hn). rewrite (Hn eq_refl) in *. unfold ref_sim in Rs. destruct s; [now destruct m|]. split; auto. split; auto. split; auto.
        exists gs'. repeat split; auto; try lia. now rewrite cut_none.
      + destruct P as (_ & _ & _ & e' & _ & _ & X & _). discriminate.
  Qed.
  Lemma next_back_run h r t l ps it i k d : minv h r t ps -> shows_at t l -> iter_ok h r it i k d ->
    exists h' it' o nps, hm_next_back bomb h it = Ok (h', it', o) /\ mono h h' r /\ Forall (fun p => i < k /\ on_way p (k - 1)) nps
      /\ match o with
         | Done None => minv h' r t (nps ++ ps) /\ k <= i /\ iter_ok h' r it' i k d
         | Done (Some rf) => minv h' r t (nps ++ ps) /\ i < k /\ iter_ok h' r it' i (k - 1) d /\ refs_ok h' r [rf] [k - 1]
         | Unwound => mst h' r t (nps ++ ps) /\ (exists n, bomb n = true) /\ nps <> []
         end.
  Proof.
    intros I Sh (gs & W & O2 & Ri & D & L & Ln). destruct (BTreeIterProofs.next_back_ok gs (mi_len it) O2) as (gs' & E & O2' & D').
    { rewrite D. intros X. destruct (Nat.lt_ge_cases i k); [lia|]. rewrite cut_none in X by auto. congruence. }
    destruct (next_back_m bomb h0 t0 O start h r t ps it (BIter gs (mi_len it)) _ _ I W eq_refl E) as (h' & it' & o & nps & Eh & Mo & P).
    pose proof (next_back_keeps N _ _ _ E Ri) as Ri'. cbn [bi_work bi_len] in *.
    exists h', it', o, nps. split; auto. split; auto. rewrite D in *. destruct (Nat.lt_ge_cases i k) as [Hl|Hl].
    - destruct (cut_snoc i k R) as (e & He & Ec); [lia..|]. rewrite Ec in *. rewrite rev_app_distr, removelast_snoc in *. cbn [rev app hd_error] in *.
      assert (Hc : match cut i (k - 1) R ++ [e] with [] => 0 | _ => 1 end = 1) by (now destruct (cut i (k - 1) R)). rewrite Hc in *. destruct o as [s|].
      + destruct P as (I' & W' & Ln' & q & Rs & Fp & _). unfold ref_sim in Rs. destruct s as [[a j]|]; [|contradiction]. destruct Rs as [Hh Hq].
        split; [eapply Forall_impl; [|exact Fp]; intros p Hp; split; auto; exists e, q, j; auto|]. split; auto. split; auto. split.
        * exists gs'. repeat split; auto; try lia.
        * constructor; [|constructor]. exists q, e. auto.
      + destruct P as (I' & Hb & Hne & e' & q & j & [= <-] & Hq & Fp). split; auto.
        eapply Forall_impl; [|exact Fp]. intros p Hp. split; auto. exists e, q, j. auto.
    - rewrite cut_none in * by auto. cbn [hd_error rev removelast] in *. destruct o as [s|].
      + destruct P as (I' & W' & Ln' & q & Rs & _ & Hn). rewrite (Hn eq_refl) in *. unfold ref_sim in Rs. destruct s; [now destruct m|]. split; auto. split; auto. split; auto.
        exists gs'. repeat split; auto; try lia. now rewrite cut_none.
      + destruct P as (_ & _ & _ & e' & _ & _ & X & _). discriminate.
  Qed.

  (** What holds after the calls [cs], of which [length outs] were completed. *)
  Definition ran (cs : list (mcall V)) (r : addr) (l : list (K * V)) (i k d : nat) (rs : list nat) (ps : list (list nat))
    (h' : heap) (outs : list (option (K * V) * (nat * nat))) (b : bool) (nps : list (list nat)) : Prop :=
    exists t', mst h' r t' (nps ++ ps) /\ shows_at t' (snd (fst (s_muts (firstn (length outs) cs) l i k rs)))
      /\ Forall2 (mut_out d) outs (fst (fst (s_muts (firstn (length outs) cs) l i k rs)))
      /\ Forall (fun p => exists x, In x (snd (s_muts (firstn (S (length outs)) cs) l i k rs)) /\ on_way p x) nps
      /\ if b then length outs = length cs /\ BTreeHeapMutProofs.mheld t0 start h' r t' (nps ++ ps) else (exists n, bomb n = true) /\ nps ++ ps <> [].

  Lemma f2_nth_l {A B} (P : A -> B -> Prop) xs ys j x : Forall2 P xs ys -> nth_error xs j = Some x ->
    exists y, nth_error ys j = Some y /\ P x y.
  Proof.
    intros F. revert j. induction F as [|a b l l' Hab F IH]; intros [|j] H; try discriminate; cbn [nth_error] in *; [injection H as <-|]; eauto.
  Qed.
  Lemma f2_none_l {A B} (P : A -> B -> Prop) xs ys j : Forall2 P xs ys -> nth_error xs j = None -> nth_error ys j = None.
  Proof. intros F H. apply nth_error_None in H. apply nth_error_None. rewrite <- (f2_length _ _ _ F). auto. Qed.

  Lemma run_ok cs : forall h r t l ps it i k d refs rs, minv h r t ps -> shows_at t l -> iter_ok h r it i k d -> refs_ok h r refs rs ->
    exists h' it' outs b nps, hm_run N bomb cs h it refs = Ok (h', it', outs, b) /\ ran cs r l i k d rs ps h' outs b nps.
  Proof.
    induction cs as [|c cs IH]; intros h r t l ps it i k d refs rs I Sh It Rf.
    { exists h, it, [], true, []. split; auto. exists t. cbn [length firstn s_muts fst snd app]. split; [exact (proj1 I)|]. split; [exact Sh|]. split; [constructor|]. split; [constructor|]. split; [reflexivity|exact (proj2 I)]. }
    (* going on after a call that ended with [out] in place of [sout] *)
    assert (Go : forall h1 it1 t1 l1 i1 k1 refs1 rs1 n1 o so, minv h1 r t1 (n1 ++ ps) -> shows_at t1 l1 -> iter_ok h1 r it1 i1 k1 d -> refs_ok h1 r refs1 rs1 ->
      mut_out d o so ->
      (forall cs', s_muts (c :: cs') l i k rs = let '(os, l', rs') := s_muts cs' l1 i1 k1 rs1 in (so :: os, l', rs')) ->
      Forall (fun p => exists x, In x rs1 /\ on_way p x) n1 ->
      exists h' it' outs b nps, ('(h2, it2, outs, b) <- hm_run N bomb cs h1 it1 refs1;; Ok (h2, it2, o :: outs, b)) = Ok (h', it', outs, b)
        /\ ran (c :: cs) r l i k d rs ps h' outs b nps).
    { intros h1 it1 t1 l1 i1 k1 refs1 rs1 n1 o so I1 Sh1 It1 Rf1 Ho Es Hn.
      destruct (IH h1 r t1 l1 _ it1 i1 k1 d refs1 rs1 I1 Sh1 It1 Rf1) as (h' & it' & outs & b & nps & E & t' & A1 & A2 & A3 & A4 & A5).
      rewrite E. cbn [bind]. eexists _, _, _, _, (nps ++ n1). split; [reflexivity|]. exists t'. cbn [length]. rewrite !firstn_cons, !Es.
      destruct (s_muts (firstn (length outs) cs) l1 i1 k1 rs1) as [[os l'] rs'] eqn:E1. pose proof (s_muts_rs (firstn (S (length outs)) cs) l1 i1 k1 rs1) as Hrs.
      destruct (s_muts (firstn (S (length outs)) cs) l1 i1 k1 rs1) as [[os2 l2] rs2] eqn:E2. cbn [fst snd] in *.
      rewrite <- app_assoc. split; auto. split; auto. split; [constructor; auto|]. split.
      - apply Forall_app. split; auto. eapply Forall_impl; [|exact Hn]. intros p (x & X1 & X2). eauto.
      - destruct b; auto. destruct A5; split; auto. }
    (* a call that unwinds *)
    assert (Un : forall h1 (it1 : m_iter) n1 y, mst h1 r t (n1 ++ ps) -> (exists n, bomb n = true) /\ n1 <> [] -> Forall (fun p => i < k /\ on_way p y) n1 ->
      (i < k -> In y (snd (s_muts [c] l i k rs))) ->
      exists h' it' outs b nps, Ok (h1, it1, @nil (option (K * V) * (nat * nat)), false) = Ok (h', it', outs, b) /\ ran (c :: cs) r l i k d rs ps h' outs b nps).
    { intros h1 it1 n1 y Hm Hb Hn Hy. exists h1, it1, [], false, n1. split; auto. exists t. cbn [length firstn s_muts fst snd] in *. split; auto. split; auto.
      split; [constructor|]. split; [|split; [apply Hb|destruct Hb as [_ Hb]; now destruct n1]]. eapply Forall_impl; [|exact Hn]. intros p [Hk Hp]. exists y. auto. }
    assert (Hnew : forall h1 rf x, refs_ok h1 r refs rs -> refs_ok h1 r [rf] [x] -> refs_ok h1 r (refs ++ [rf]) (rs ++ [x])).
    { intros h1 rf x F1 F2. apply Forall2_app; auto. }
    assert (Rd : forall h1 rf x t1 ps1, minv h1 r t1 ps1 -> shows_at t1 l -> refs_ok h1 r [rf] [x] -> exists e, ref_read h1 rf = Ok e /\ nth_error l x = Some e).
    { intros h1 [a j] x t1 ps1 I1 S1 F. inversion F as [|? ? ? ? (q & e & A1 & A2 & A3) _]; subst. cbn [fst snd] in *.
      destruct (at_entry t1 l x e S1 A1) as (q' & j' & es & ks & es0 & ks0 & e' & B1 & B2 & B3 & B4 & B5 & B6). rewrite A2 in B1. injection B1 as <- <-.
      destruct (write_step h0 t0 O start h1 r t1 ps1 q a j es0 ks0 (fun v => v) I1 A3 B5 B6) as (e1 & es1 & ks1 & h2 & C1 & C2 & C3 & _).
      rewrite B2 in C1. injection C1 as <- <-. rewrite B3 in C2. injection C2 as <-. eauto. }
    destruct c as [| |j w]; cbn [hm_run].
    - destruct (next_run h r t l ps it i k d I Sh It) as (h1 & it1 & o & n1 & E & Mo & Fn & P). rewrite E. cbn [bind]. destruct o as [[rf|]|].
      + destruct P as (I1 & Hl & It1 & Rf1). destruct (Rd h1 rf i t _ I1 Sh Rf1) as (e & Er & El). rewrite Er. cbn [bind].
        apply (Go h1 it1 t l (i + 1) k (refs ++ [rf]) (rs ++ [i]) n1 _ (nth_error l i, k - (i + 1))); auto.
        * apply Hnew; auto. eapply refs_mono; eauto.
        * destruct (iter_hint _ _ _ _ _ _ It1) as [Hh1 Hh2]. split; [now rewrite El|]. cbn [fst snd]. auto.
        * intros cs'. cbn [s_muts]. apply Nat.ltb_lt in Hl. now rewrite Hl.
        * eapply Forall_impl; [|exact Fn]. intros p [_ Hp]. exists i. split; auto. apply in_or_app. right. now left.
      + destruct P as (I1 & Hl & It1). assert (n1 = []) as -> by (destruct Fn as [|p n1 [? _] _]; [auto|lia]).
        apply (Go h1 it1 t l i k refs rs [] _ (None, 0)); auto.
        * eapply refs_mono; eauto.
        * destruct (iter_hint _ _ _ _ _ _ It1) as [Hh1 Hh2]. split; auto. cbn [fst snd]. lia.
        * intros cs'. cbn [s_muts]. apply Nat.ltb_ge in Hl. now rewrite Hl.
      + destruct P as (Hm & Hb). apply (Un h1 it1 n1 i); auto. intros Hl. cbn [s_muts]. apply Nat.ltb_lt in Hl. rewrite Hl. cbn [snd]. apply in_or_app. right. now left.
    - destruct (next_back_run h r t l ps it i k d I Sh It) as (h1 & it1 & o & n1 & E & Mo & Fn & P). rewrite E. cbn [bind]. destruct o as [[rf|]|].
      + destruct P as (I1 & Hl & It1 & Rf1). destruct (Rd h1 rf (k - 1) t _ I1 Sh Rf1) as (e & Er & El). rewrite Er. cbn [bind].
        apply (Go h1 it1 t l i (k - 1) (refs ++ [rf]) (rs ++ [k - 1]) n1 _ (nth_error l (k - 1), (k - 1) - i)); auto.
        * apply Hnew; auto. eapply refs_mono; eauto.
        * destruct (iter_hint _ _ _ _ _ _ It1) as [Hh1 Hh2]. split; [now rewrite El|]. cbn [fst snd]. auto.
        * intros cs'. cbn [s_muts]. apply Nat.ltb_lt in Hl. now rewrite Hl.
        * eapply Forall_impl; [|exact Fn]. intros p [_ Hp]. exists (k - 1). split; auto. apply in_or_app. right. now left.
      + destruct P as (I1 & Hl & It1). assert (n1 = []) as -> by (destruct Fn as [|p n1 [? _] _]; [auto|lia]).
        apply (Go h1 it1 t l i k refs rs [] _ (None, 0)); auto.
        * eapply refs_mono; eauto.
        * destruct (iter_hint _ _ _ _ _ _ It1) as [Hh1 Hh2]. split; auto. cbn [fst snd]. lia.
        * intros cs'. cbn [s_muts]. apply Nat.ltb_ge in Hl. now rewrite Hl.
      + destruct P as (Hm & Hb). apply (Un h1 it1 n1 (k - 1)); auto. intros Hl. cbn [s_muts]. apply Nat.ltb_lt in Hl. rewrite Hl. cbn [snd]. apply in_or_app. right. now left.
    - destruct (iter_hint _ _ _ _ _ _ It) as [Hh1 Hh2]. destruct (nth_error refs j) as [[a jj]|] eqn:Ej.
      + destruct (f2_nth_l _ _ _ _ _ Rf Ej) as (x & Ex & q & e & A1 & A2 & A3). cbn [fst snd] in *.
        destruct (at_entry t l x e Sh A1) as (q' & j' & es & ks & es0 & ks0 & e' & B1 & B2 & B3 & B4 & B5 & B6). rewrite A2 in B1. injection B1 as <- <-.
        destruct (write_step h0 t0 O start h r t ps q a jj es0 ks0 w I A3 B5 B6) as (e1 & es1 & ks1 & h1 & C1 & C2 & C3 & C4 & C5 & C6).
        rewrite B2 in C1. injection C1 as <- <-. rewrite B3 in C2. injection C2 as <-. rewrite C3. cbn [bind]. rewrite C4. cbn [bind].
        apply (Go h1 it (n_write q jj w t) (upd_nth x w l) i k refs rs [] _ (nth_error l x, k - i)); auto.
        * eapply write_at; eauto.
        * eapply iter_mono; eauto.
        * eapply refs_mono; eauto.
        * split; auto.
        * intros cs'. cbn [s_muts]. now rewrite Ex.
      + apply (Go h it t l i k refs rs [] _ (None, k - i)); auto.
        * split; auto.
        * intros cs'. cbn [s_muts]. now rewrite (f2_none_l _ _ _ _ Rf Ej).
  Qed.
End Run.
