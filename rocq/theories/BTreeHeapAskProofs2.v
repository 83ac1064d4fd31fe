(** [remove] of shared B-trees, with comparisons that may panic. *)
From Coq Require Import List PeanoNat Bool Lia.
From Verif Require Import Base Spec Vec Heap HeapProofs BTreeModel BTreeProofs BTreeProofs2 Ask AskSpec BTreeAskModel BTreeHeapModel BTreeHeapSpec
  BTreeHeapProofs BTreeHeapProofs2 BTreeHeapProofs3 BTreeHeapProofs4 BTreeHeapAskModel BAskHeapSpec BTreeHeapAskProofs.
Import ListNotations.
Local Open Scope nat_scope.

Section Remove.
  Context {K V Q : Type} (bor : K -> Q) (ask : nat -> Q -> Q -> option comparison) (N : nat).
  Variable bomb : nat -> bool.
  Notation entry := (K * V)%type.
  Notation pay := (list (K * V)).
  Notation heap := (heap pay).
  Notation bt := (bt K V).
  Notation scan_t := (@scan_t K V Q bor ask).
  Notation walk := (@walk K V Q bor ask).
  Notation near_t := (@near_t K V Q bor ask).
  Notation loose := (@loose K V).
  Notation flat := (@flat K V).

  (** What follows a removal in child [j]; the removal of entry [i] of the node. *)
  Definition fin (es : pay) (ts : list bt) (j at_ : nat) (c' : bt) (ret : option (entry * bool)) : res (bt * option (entry * bool)) :=
    match ret with
    | Some (kv, true) => '(t2, u) <- rebal N (BN es (set_at j c' ts)) at_;; Ok (t2, Some (kv, u))
    | _ => Ok (BN es (set_at j c' ts), ret)
    end.
  Definition here (es : pay) (ts : list bt) (i : nat) : res (bt * option (entry * bool)) :=
    if is_nil ts then
      '(kv, es') <- vec_remove i es;;
      Ok (BN es' ts, Some (kv, length es' <? MIN_OCC N))
    else
      m <- unwrap (nth_error (map (n_pop_last N) ts) i);;
      '(c', ret) <- m;;
      '(kv, under) <- unwrap ret;;
      old <- unwrap (nth_error es i);;
      let t1 := BN (set_at i kv es) (set_at i c' ts) in
      if (under : bool) then '(t2, u) <- rebal N t1 i;; Ok (t2, Some (old, u))
      else Ok (t1, Some (old, false)).
  Lemma remove_t_eq q es ts n : n_remove_t bor ask N q (BN es ts) n =
    after (scan_t q es n) (fun _ => BN es ts) (fun _ '(i, c) n =>
      match c with
      | Eq => plain (here es ts i) n
      | _ =>
        let j := match c with Gt => length ts - 1 | _ => i end in
        match nth_error ts j with
        | None => Returned (BN es ts) None n
        | Some t => after (n_remove_t bor ask N q t n) (fun c' => BN es (set_at j c' ts))
            (fun c' ret n => plain (fin es ts j (match c with Gt => length es | _ => i end) c' ret) n)
        end
      end).
  Proof.
    cbn [n_remove_t]. destruct (scan_t q es n) as [[] [i c] n1|[] n1|]; cbn [after]; auto. destruct c; auto; cbv zeta.
    - rewrite nth_error_map. destruct (nth_error ts i) as [t|]; cbn [option_map]; auto.
      destruct (n_remove_t bor ask N q t n1) as [t' [[kv [|]]|] n2| |]; auto.
    - unfold last_opt. rewrite map_length, nth_error_map. destruct (nth_error ts (length ts - 1)) as [t|]; cbn [option_map]; auto.
      destruct (n_remove_t bor ask N q t n1) as [t' [[kv [|]]|] n2| |]; auto.
  Qed.

  Lemma fin_val d es ts j at_ t c' ret t' r : loose d (BN es ts) -> nth_error ts j = Some t -> at_ = j ->
    (forall d', d = S d' -> loose d' t -> loose d' c' /\ sub (flat c') (flat t)) ->
    fin es ts j at_ c' ret = Ok (t', r) -> loose d t' /\ sub (flat t') (flat (BN es ts)).
  Proof.
    intros L Ek -> Hc E. destruct (kid_cut _ _ _ _ _ L Ek) as (d' & e1 & e2 & t1 & t2 & -> & -> & -> & L1 & Lt & L2 & Lc & LC).
    destruct (Hc d' eq_refl Lc) as (Lk' & Sk). unfold fin in E. rewrite set_at_mid in E by lia. pose proof (LC e1 c' eq_refl Lk') as L'.
    assert (Fl : sub (flat (BN (e1 ++ e2) (t1 ++ c' :: t2))) (flat (BN (e1 ++ e2) (t1 ++ t :: t2)))).
    { rewrite !flat_one by (auto; lia). apply sub_app; [apply sub_refl|]. apply sub_app; [auto|apply sub_refl]. }
    destruct ret as [[kv [|]]|].
    - destruct (rebal N _ _) as [[t2' u']|] eqn:Er; cbn [bind] in E; [|discriminate]. injection E as <- <-.
      destruct (fun Hc => rebal_val _ _ _ _ _ _ _ c' L' Hc Er) as [Lr Fr]; [apply nth_mid; lia|]. rewrite Fr. auto.
    - injection E as <- <-. auto.
    - injection E as <- <-. auto.
  Qed.
  Lemma here_val d es ts i e t' r : loose d (BN es ts) -> nth_error es i = Some e -> here es ts i = Ok (t', r) ->
    loose d t' /\ sub (flat t') (flat (BN es ts)).
  Proof.
    intros L Hn E. unfold here in E. destruct (is_nil ts) eqn:Ei.
    - destruct ts; [|discriminate]. apply nth_cut in Hn as (e1 & e2 & -> & Hi).
      rewrite (vec_remove_mid e1) in E by lia. injection E as <- <-.
      apply loose_inv in L as [[-> _]|(? & _ & Hl & _)]; [|discriminate]. split; [constructor|].
      cbn. apply sub_app; [apply sub_refl|]. apply AvlHeapSpec.sub_skip, sub_refl.
    - rewrite nth_error_map in E. destruct (nth_error ts i) as [k|] eqn:Ek; cbn [option_map unwrap bind] in E; [|discriminate].
      destruct (kid_cut _ _ _ _ _ L Ek) as (d' & e1 & e2 & t1 & t2 & -> & -> & -> & L1 & Lt & L2 & Lc & LC).
      destruct (n_pop_last N k) as [[k' ret]|] eqn:En; cbn [bind] in E; [|discriminate].
      destruct (pop_last_val _ _ _ _ _ Lc En) as (Lk' & kv & u & -> & Fk). cbn [unwrap bind] in E.
      rewrite Hn in E. cbn [unwrap bind] in E. rewrite (set_at_mid t1) in E by lia.
      assert (exists e2', e2 = e :: e2') as [e2' ->].
      { rewrite nth_error_app2 in Hn by lia. replace (i - length e1) with 0 in Hn by lia. destruct e2; [discriminate|]. injection Hn as ->. eauto. }
      rewrite (set_at_mid e1) in E by lia. destruct t2 as [|x t2]; [discriminate|]. cbn [length] in L2.
      assert (L' : loose (S d') (BN (e1 ++ kv :: e2') (t1 ++ k' :: x :: t2))).
      { pose proof (LC (e1) k' eq_refl Lk') as L0. apply (loose_pair _ _ _ _ _ _ _ _ ) in L0 as (_ & LA & LB & LP & _); [|lia]. auto. }
      assert (Fl : sub (flat (BN (e1 ++ kv :: e2') (t1 ++ k' :: x :: t2))) (flat (BN (e1 ++ e :: e2') (t1 ++ k :: x :: t2)))).
      { rewrite !flat_pair by lia. apply sub_app; [apply sub_refl|]. apply sub_app; [|apply sub_refl]. rewrite Fk, <- app_assoc.
        apply sub_app; [apply sub_refl|]. cbn [app]. apply AvlHeapSpec.sub_keep, AvlHeapSpec.sub_skip, sub_refl. }
      destruct u.
      + destruct (rebal N _ _) as [[t2' u']|] eqn:Er; cbn [bind] in E; [|discriminate]. injection E as <- <-.
        destruct (fun Hc => rebal_val _ _ _ _ _ _ _ k' L' Hc Er) as [Lr Fr]; [apply nth_mid; lia|]. rewrite Fr. auto.
      + injection E as <- <-. auto.
  Qed.
  Lemma gt_at d es (ts : list bt) t : loose d (BN es ts) -> nth_error ts (length ts - 1) = Some t -> length es = length ts - 1.
  Proof.
    intros L E. apply loose_inv in L as [[_ ->]|(d' & _ & H & _)]; [discriminate|lia].
  Qed.
  Lemma remove_t_val q d : forall t n t' r n', loose d t -> n_remove_t bor ask N q t n = Returned t' r n' ->
    loose d t' /\ sub (flat t') (flat t).
  Proof.
    induction d as [d IH] using (well_founded_induction Wf_nat.lt_wf). intros [es ts] n t' r n' L E. rewrite remove_t_eq in E.
    pose proof (scan_walk bor ask q es n) as Sn. destruct (scan_t q es n) as [[] [i c] n1|[] n1|]; cbn [after] in E; [|discriminate|discriminate].
    destruct Sn as (_ & _ & Hn).
    assert (Below : forall j at_, (forall t, nth_error ts j = Some t -> at_ = j) -> match nth_error ts j with
        | None => Returned (BN es ts) None n1
        | Some t => after (n_remove_t bor ask N q t n1) (fun c' => BN es (set_at j c' ts)) (fun c' ret n => plain (fin es ts j at_ c' ret) n)
        end = Returned t' r n' -> loose d t' /\ sub (flat t') (flat (BN es ts))).
    { intros j at_ Ha E'. destruct (nth_error ts j) as [t|] eqn:Ek.
      2:{ injection E' as <- <- <-. split; auto. apply sub_refl. }
      destruct (n_remove_t bor ask N q t n1) as [c' ret n2|c' n2|] eqn:Er; cbn [after] in E'; [|discriminate|discriminate].
      destruct (fin es ts j at_ c' ret) as [[t1 r1]|] eqn:Ef; cbn [plain] in E'; [|discriminate]. injection E' as <- <- <-.
      eapply (fin_val d es ts j at_ t); eauto. intros d' -> Lt. exact (IH d' (Nat.lt_succ_diag_r _) _ _ _ _ _ Lt Er). }
    destruct c.
    - destruct Hn as (e & Hn). destruct (here es ts i) as [[t1 r1]|] eqn:Eh; cbn [plain] in E; [|discriminate]. injection E as <- <- <-. eapply here_val; eauto.
    - apply (Below i i); auto.
    - apply (Below (length ts - 1) (length es)); auto. intros t. eapply gt_at; eauto.
  Qed.

  (** ** The heap *)
  Definition rmt_ok (h : heap) O d (t : bt) M n (v : trial bt (option (entry * bool))) (x : res (heap * addr * nat * out (option (entry * bool)))) : Prop :=
    exists h' a' n' o, x = Ok (h', a', n', o) /\ n <= n' /\ sound h' (a' :: O) /\ frame O h h' /\ none_lost h h' M
      /\ match o with
         | Done r => exists t', v = Returned t' r n' /\ ns h' a' t' /\ unique h' a' = true
         | Unwound => (panicked ask n' /\ ns h' a' t)
                      \/ ((exists i, bomb i = true) /\ exists t1, ns h' a' t1 /\ loose d t1 /\ sub (flat t1) (flat t))
         end.
  Lemma rm_asked (h : heap) O d (t : bt) M n n1 t' r v x : rm_ok bomb h O d t M t' r x -> n <= n1 -> v = Returned t' r n1 ->
    rmt_ok h O d t M n v (asked n1 x).
  Proof.
    intros (h' & a' & o & -> & A1 & A2 & A3 & A4) L ->. eexists _, _, _, _. split; [reflexivity|]. split; [exact L|]. split; [exact A1|]. split; [exact A2|].
    split; [exact A3|]. destruct o as [r'|]; [|right; exact A4]. destruct A4 as (-> & D & U). eauto.
  Qed.

  (** The removal of an entry of an opened node. *)
  Lemma here_ok (h h1 : heap) O a' es ks ts d i e t' r fuel : sess h h1 [a'] (ks ++ []) O -> Forall2 (ns h1) ks ts ->
    none_lost h h1 [es] -> loose d (BN es ts) -> d < S fuel -> nth_error es i = Some e -> here es ts i = Ok (t', r) ->
    rm_ok bomb h O d (BN es ts) (match nth_error (map near_last ts) i with Some l => beside i ts ++ l | None => [] end ++ [es]) t' r
      (if is_nil ks then
         '(kv, es') <- vec_remove i es;;
         Ok (cls h1 a' es' ks, a', Done (Some (kv, length es' <? MIN_OCC N)))
       else
         c <- unwrap (nth_error ks i);;
         '(h2, c', o) <- h_pop_last N bomb fuel h1 c;;
         let ks1 := set_at i c' ks in
         match o with
         | Unwound => Ok (cls h2 a' es ks1, a', Unwound)
         | Done ret =>
           '(kv, under) <- unwrap ret;;
           old <- unwrap (nth_error es i);;
           let es1 := set_at i kv es in
           if (under : bool) then h_rebal_cls N bomb h2 a' es1 ks1 i old
           else Ok (cls h2 a' es1 ks1, a', Done (Some (old, false)))
         end).
  Proof.
    intros S1 F1 N1 L Lf Hn E. unfold here in E. rewrite (f2_nil _ _ _ F1).
    destruct (is_nil ts) eqn:Ei.
    + destruct ts; [|discriminate]. rewrite nth_error_map, nth_nil. cbn [option_map app].
      destruct (vec_remove i es) as [[kv es']|]; cbn [bind] in *; [|discriminate]. injection E as <- <-. apply rm_close; auto.
    + rewrite nth_error_map in E. destruct (nth_error ts i) as [k|] eqn:Ekt; cbn [option_map unwrap bind] in E; [|discriminate].
      destruct (kid_cut _ _ _ _ _ L Ekt) as (d' & e1 & e2 & t1 & t2 & -> & -> & -> & L1 & Lt & L2 & Lc & LC).
      destruct (n_pop_last N k) as [[k' ret]|] eqn:En; cbn [bind] in E; [|discriminate].
      destruct (pop_last_val _ _ _ _ _ Lc En) as (Lk' & kv & u & -> & Fk). cbn [unwrap bind] in E.
      rewrite Hn in E. cbn [unwrap bind] in E. rewrite (set_at_mid t1) in E by lia.
      assert (exists e2', e2 = e :: e2') as [e2' ->].
      { rewrite nth_error_app2 in Hn by lia. replace (i - length e1) with 0 in Hn by lia. destruct e2; [discriminate|]. injection Hn as ->. eauto. }
      rewrite (set_at_mid e1) in E by lia. destruct t2 as [|x t2]; [discriminate|]. cbn [length] in L2.
      assert (LP : forall m' k1, loose d' k1 -> loose (Datatypes.S d') (BN (e1 ++ m' :: e2') (t1 ++ k1 :: x :: t2))).
      { intros m' k1 Lk1. pose proof (LC e1 k1 eq_refl Lk1) as L0. apply (loose_pair _ _ _ _ _ _ _ _ ) in L0 as (_ & LA & LB & LP & _); [|lia]. auto. }
      assert (Fl : sub (flat (BN (e1 ++ kv :: e2') (t1 ++ k' :: x :: t2))) (flat (BN (e1 ++ e :: e2') (t1 ++ k :: x :: t2)))).
      { rewrite !flat_pair by lia. apply sub_app; [apply sub_refl|]. apply sub_app; [|apply sub_refl]. rewrite Fk, <- app_assoc.
        apply sub_app; [apply sub_refl|]. cbn [app]. apply AvlHeapSpec.sub_keep, AvlHeapSpec.sub_skip, sub_refl. }
      apply f2_cut_r in F1 as (kl & c0 & kr & -> & Lkl & Fkl & Dc & Fkr).
      rewrite (nth_mid kl) by lia. cbn [unwrap bind].
      destruct (h_pop_last_ok N bomb fuel d' k k' (Some (kv, u)) c0 h1 ((kl ++ kr ++ []) ++ O) Lc) as (h2 & c' & o & E2 & S2 & Fr2 & N2 & P2); auto;
        [lia|eapply kid_sound; eauto|].
      rewrite E2. cbn [bind]. rewrite (set_at_mid kl c0 c' kr) by lia.
      destruct (kid_done h h1 h2 [a'] kl c0 [c'] kr [] O S1 S2 Fr2) as [S3 K3].
      assert (S3' : sess h h2 [a'] ((kl ++ c' :: kr) ++ []) O) by perm.
      assert (Fl' : Forall2 (ns h2) kl t1) by (eapply keep_f2; [exact K3|inc|exact Fkl]).
      assert (Fr' : Forall2 (ns h2) kr (x :: t2)) by (eapply keep_f2; [exact K3|inc|exact Fkr]).
      assert (NL2 : none_lost h h2 (near_last k ++ [e1 ++ e :: e2'])) by (eapply nl_trans; eauto).
      rewrite nth_error_map, (nth_mid t1) by lia. cbn [option_map].
      destruct o as [r2|].
      * destruct P2 as (-> & D2 & U2). cbn [unwrap bind]. rewrite Hn. cbn [unwrap bind]. rewrite (set_at_mid e1) by lia.
        destruct u.
        -- destruct (rebal N _ _) as [[t2' u']|] eqn:Er; cbn [bind] in E; [|discriminate]. injection E as <- <-.
           rewrite <- app_assoc. rewrite (beside_mid i t1 k k' (x :: t2)) by lia. eapply h_rebal_cls_ok; eauto.
           ++ apply f2_set; auto.
           ++ apply nth_mid. lia.
        -- injection E as <- <-. apply rm_close; auto; [apply f2_set; auto|].
           eapply nl_le; [|exact NL2]. rewrite <- app_assoc. apply sub_app_r, sub_refl.
      * destruct P2 as (Bb & t1' & D1 & Lo1 & Sb1). apply (rm_close_un bomb h h2 O a' _ (t1 ++ t1' :: x :: t2)); auto; [apply f2_set; auto| |].
        -- eapply nl_le; [|exact NL2]. rewrite <- app_assoc. apply sub_app_r, sub_refl.
        -- rewrite !flat_pair by lia. apply sub_app; [apply sub_refl|]. apply sub_app; [|apply sub_refl]. apply sub_app; [auto|apply sub_refl].
  Qed.

  Lemma h_remove_t_ok q fuel : forall d t a (h : heap) O n, loose d t -> d < fuel -> sound h (a :: O) -> ns h a t ->
    n_remove_t bor ask N q t n <> Fault ->
    rmt_ok h O d t (near_t q t n) n (n_remove_t bor ask N q t n) (h_remove_t bor ask N bomb fuel h a q n).
  Proof.
    induction fuel as [|fuel IH]; intros d [es ts] a h O n L Lf S D NF; [lia|]. cbn [h_remove_t]. rewrite remove_t_eq in *.
    pose proof (sess_start h [a] O S) as S0.
    destruct (sess_open bomb h h [] a [] O es ts S0 D) as (h1 & o & Eo & P). rewrite Eo. cbn [bind].
    destruct o as [[[a' es'] ks]|].
    2:{ destruct P as (S1 & K1 & C1 & _ & B & _). apply sess_end in S1 as [S1 F1].
        eexists _, _, _, _. split; [reflexivity|]. split; [lia|]. split; [exact S1|]. split; [exact F1|]. split.
        - eapply nl_le; [|apply nl_one; exact C1]. cbn [BAskHeapSpec.near_t]. apply sub_app_r, sub_refl.
        - right. split; [eauto|]. exists (BN es ts). split; [apply K1; [now left|auto]|]. split; [exact L|apply sub_refl]. }
    destruct P as (-> & S1 & F1 & K1 & _ & cs & C1 & Sc & _).
    assert (N1 : none_lost h h1 [es]) by (exists cs; auto).
    destruct (node_close _ _ _ _ _ es _ S1 F1) as (A1 & A2 & A5 & A4 & A3).
    assert (N1' : none_lost h (cls h1 a' es ks) (near_t q (BN es ts) n)).
    { eapply nl_eq; [exact A5|]. eapply nl_le; [|exact N1]. cbn [BAskHeapSpec.near_t]. apply sub_app_r, sub_refl. }
    pose proof (scan_walk bor ask q es n) as Sn. destruct (scan_t q es n) as [[] [i c] n1|[] n1|] eqn:Es; cbn [after] in *; [| |contradiction].
    2:{ destruct Sn as (_ & Hn & P). eexists _, _, _, _. split; [reflexivity|]. split; [lia|]. split; [exact A1|]. split; [exact A2|]. split; [exact N1'|]. auto. }
    destruct Sn as (Hw & Ln & Hn).
    assert (Below : forall j at_, c <> Eq -> (forall t, nth_error ts j = Some t -> at_ = j /\ j = i) ->
      let v := match nth_error ts j with
        | None => Returned (BN es ts) None n1
        | Some t => after (n_remove_t bor ask N q t n1) (fun c' => BN es (set_at j c' ts)) (fun c' ret n => plain (fin es ts j at_ c' ret) n)
        end in v <> Fault ->
      rmt_ok h O d (BN es ts) (near_t q (BN es ts) n) n v
       (match nth_error ks j with
        | None => Ok (cls h1 a' es ks, a', n1, Done None)
        | Some c =>
            '(h2, c', n2, o) <- h_remove_t bor ask N bomb fuel h1 c q n1;;
            let ks1 := set_at j c' ks in
            match o with
            | Done (Some (kv, true)) => asked n2 (h_rebal_cls N bomb h2 a' es ks1 at_ kv)
            | _ => Ok (cls h2 a' es ks1, a', n2, o)
            end
        end)).
    { intros j at_ Hc Hj v NV. subst v. destruct (nth_error ks j) as [c0|] eqn:Ek.
      2:{ rewrite (f2_none _ _ _ _ F1 Ek). eexists _, _, _, _. split; [reflexivity|]. split; [exact Ln|]. split; [exact A1|]. split; [exact A2|]. split; [exact N1'|]. eauto. }
      assert (exists t0, nth_error ts j = Some t0 /\ ns h1 c0 t0) as (t0 & Et & Dc).
      { destruct (f2_at _ _ _ _ _ F1 Ek) as (kl & kr & tl & t0 & tr & -> & -> & Lk & Lt & Fl & Dc & Fr). exists t0. rewrite nth_mid by lia. auto. }
      destruct (Hj _ Et) as (-> & ->). rewrite Et in *.
      assert (NK : n_remove_t bor ask N q t0 n1 <> Fault) by (intros X; apply NV; now rewrite X).
      destruct (kid_cut _ _ _ _ _ L Et) as (d' & _ & _ & _ & _ & -> & _ & _ & _ & _ & _ & Lc & _).
      assert (IHX : forall X, sound h1 (c0 :: X) -> rmt_ok h1 X d' t0 (near_t q t0 n1) n1 (n_remove_t bor ask N q t0 n1) (h_remove_t bor ask N bomb fuel h1 c0 q n1)).
      { intros X SX. apply IH; auto. lia. }
      destruct (f2_at _ _ _ _ _ F1 Ek) as (kl & kr & tl & t0' & tr & Ekk & Ett & Lk & Lt & Fl & _ & Fr).
      assert (t0' = t0) as ->. { rewrite Ett, nth_mid in Et by lia. congruence. }
      assert (S1' : sess h h1 [a'] ((kl ++ c0 :: kr) ++ []) O) by (rewrite <- Ekk; exact S1).
      destruct (IHX _ (kid_sound _ _ _ _ _ _ _ _ S1')) as (h2 & c' & n2 & o & E2 & L2 & S2 & Fr2 & N2 & P2).
      assert (Nr : near_t q (BN es ts) n = match nth_error (map (fun t => near_t q t n1) ts) i with Some l => beside i ts ++ l | None => [] end ++ [es]).
      { cbn [BAskHeapSpec.near_t]. rewrite Hw. destruct c; [congruence|reflexivity|reflexivity]. }
      assert (Cs : (o = Unwound /\ panicked ask n2 /\ ns h2 c' t0) \/ (o = Unwound -> exists i, bomb i = true)).
      { destruct o as [r|]; [right; discriminate|]. destruct P2 as [[P2 D2]|[P2 _]]; auto. }
      destruct Cs as [(-> & Pn & D2)|Bm].
      { rewrite E2. cbn [bind]. cbv zeta. rewrite Ekk, (set_at_mid kl c0 c' kr) by lia.
        destruct (kid_done h h1 h2 [a'] kl c0 [c'] kr [] O S1' S2 Fr2) as [S3 K3].
        assert (S3' : sess h h2 [a'] ((kl ++ c' :: kr) ++ []) O) by perm.
        assert (F3 : Forall2 (ns h2) (kl ++ c' :: kr) ts).
        { rewrite Ett. apply f2_set; auto; eapply keep_f2; try exact K3; eauto; inc. }
        destruct (node_close _ _ _ _ _ es _ S3' F3) as (B1 & B2 & B5 & B4 & B3).
        eexists _, _, _, _. split; [reflexivity|]. split; [lia|]. split; [exact B1|]. split; [exact B2|]. split; [|auto].
        eapply nl_eq; [exact B5|]. rewrite Nr, nth_error_map, Et. cbn [option_map]. eapply nl_le; [|eapply nl_trans; [exact N1|exact N2]].
        rewrite <- app_assoc. apply sub_app_r, sub_refl. }
      set (vcall := fun t : bt => match n_remove_t bor ask N q t n1 with Returned t' r _ => Ok (t', r) | _ => Ok (t, None) end).
      assert (Ev : exists t' r, (match nth_error (map vcall ts) i with
          | Some m => '(c', ret) <- m;;
              match ret with
              | Some (kv, true) => '(t2, u) <- rebal N (BN es (set_at i c' ts)) i;; Ok (t2, Some (kv, u))
              | _ => Ok (BN es (set_at i c' ts), ret)
              end
          | None => Panic end = Ok (t', r))
          /\ forall t1 r1 m, n_remove_t bor ask N q t0 n1 = Returned t1 r1 m -> fin es ts i i t1 r1 = Ok (t', r)).
      { rewrite nth_error_map, Et. cbn [option_map]. unfold vcall. destruct (n_remove_t bor ask N q t0 n1) as [t1 r1 m|t1 m|]; cbn [bind after] in *; [| |congruence].
        - destruct (fin es ts i i t1 r1) as [[t' r]|] eqn:Ef; cbn [plain] in NV; [|congruence]. exists t', r. split; [exact Ef|]. intros ? ? ? [= <- <- <-]. exact Ef.
        - eexists _, _. split; [reflexivity|]. discriminate. }
      destruct Ev as (t' & r & Ev & Ev').
      assert (R : rm_ok bomb h O (Datatypes.S d') (BN es ts) (near_t q (BN es ts) n) t' r
        (match o with
         | Done (Some (kv, true)) => h_rebal_cls N bomb h2 a' es (set_at i c' ks) i kv
         | _ => Ok (cls h2 a' es (set_at i c' ks), a', o)
         end)).
      { rewrite Nr.
        pose proof (rm_kid N bomb h h1 O a' es ks ts (Datatypes.S d') i c0 (fun h c => '(h', a', _, o) <- h_remove_t bor ask N bomb fuel h c q n1;; Ok (h', a', o))
          vcall [es] (fun t => near_t q t n1) t' r S1 F1 L N1 Ek) as R. cbv beta in R. rewrite E2 in R. cbn [bind] in R. apply R; auto.
        - intros d'' t1 t1' r1 X Ed L1 Et' Ev1 Sx Dx. injection Ed as <-. rewrite Et in Et'. injection Et' as <-.
          destruct (IHX X Sx) as (h2' & c2 & n2' & o2 & E2' & _ & S2' & Fr2' & N2' & P2'). rewrite E2 in E2'. injection E2' as <- <- <- <-.
          eexists _, _, _. split; [reflexivity|]. split; [exact S2'|]. split; [exact Fr2'|]. split; [exact N2'|]. destruct o as [r2|].
          + destruct P2' as (t2 & Er & D2 & U2). unfold vcall in Ev1. rewrite Er in Ev1. injection Ev1 as <- <-. auto.
          + split; [auto|]. destruct P2' as [[_ D2]|[_ X2]]; [|exact X2]. exists t0. split; [exact D2|]. split; [exact L1|apply sub_refl].
        - intros d'' t1 t1' r1 L1 Ev1. unfold vcall in Ev1. destruct (n_remove_t bor ask N q t1 n1) as [t2 r2 m|t2 m|] eqn:Er.
          + injection Ev1 as <- <-. eapply remove_t_val; eauto.
          + injection Ev1 as <- <-. split; [exact L1|apply sub_refl].
          + injection Ev1 as <- <-. split; [exact L1|apply sub_refl]. }
      rewrite E2. cbn [bind]. cbv zeta.
      assert (X : match o with
         | Done (Some (kv, true)) => asked n2 (h_rebal_cls N bomb h2 a' es (set_at i c' ks) i kv)
         | _ => Ok (cls h2 a' es (set_at i c' ks), a', n2, o)
         end = asked n2 (match o with
         | Done (Some (kv, true)) => h_rebal_cls N bomb h2 a' es (set_at i c' ks) i kv
         | _ => Ok (cls h2 a' es (set_at i c' ks), a', o)
         end)) by (destruct o as [[[kv [|]]|]|]; reflexivity).
      rewrite X. clear X. destruct R as (h' & a'' & o' & ER & B1 & B2 & B3 & B4). rewrite ER. cbn [asked bind].
      eexists _, _, _, _. split; [reflexivity|]. split; [lia|]. split; [exact B1|]. split; [exact B2|]. split; [exact B3|].
      destruct o' as [r'|]; [|right; exact B4]. destruct B4 as (-> & D4 & U4). exists t'. split; [|auto].
      destruct o as [r2|]; [|discriminate]. destruct P2 as (t2 & Er & _). rewrite Er. cbn [after]. rewrite (Ev' _ _ _ Er). reflexivity. }
    destruct c.
    - destruct Hn as (e & Hn). destruct (here es ts i) as [[t' r]|] eqn:Eh; cbn [plain] in NF; [|congruence].
      eapply rm_asked; [|exact Ln|reflexivity]. cbn [BAskHeapSpec.near_t]. rewrite Hw. eapply here_ok; eauto.
    - apply (Below i i); [discriminate| |exact NF]. intros t _. auto.
    - rewrite (f2_length _ _ _ F1). apply (Below (length ts - 1) (length es)); [discriminate| |exact NF].
      intros t Et. pose proof (gt_at _ _ _ _ L Et). split; lia.
  Qed.
End Remove.
