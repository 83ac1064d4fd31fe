(** [pop_first], [pop_last] and [remove] of shared B-tree nodes. *)
From Coq Require Import List PeanoNat Bool Lia.
From Verif Require Import Base Spec Vec Heap HeapProofs BTreeModel BTreeProofs BTreeProofs2 BTreeHeapModel
  BTreeHeapSpec BTreeHeapProofs BTreeHeapProofs2 BTreeHeapProofs3.
Import ListNotations.
Local Open Scope nat_scope.

Section Remove2.
  Context {K V Q : Type} (bor : K -> Q) (cmp : Q -> Q -> comparison) (N : nat).
  Variable bomb : nat -> bool.
  Notation pay := (list (K * V)).
  Notation heap := (heap pay).
  Notation bt := (bt K V).
  Notation scan := (@scan K V Q bor cmp).
  Notation rank := (@rank K V Q bor cmp).
  Notation hit := (@hit K V Q bor cmp).
  Notation near := (@near K V Q bor cmp).
  Notation loose := (@loose K V).
  Notation flat := (@flat K V).

  (** ** Values *)
  Lemma kid_cut d es ts i c : loose d (BN es ts) -> nth_error ts i = Some c ->
    exists d' e1 e2 t1 t2, d = S d' /\ es = e1 ++ e2 /\ ts = t1 ++ c :: t2 /\ length e1 = i /\ length t1 = i /\ length e2 = length t2
      /\ loose d' c /\ forall e1' c', length e1' = length e1 -> loose d' c' -> loose (S d') (BN (e1' ++ e2) (t1 ++ c' :: t2)).
  Proof.
    intros L H. apply loose_inv in L as [[_ ->]|(d' & -> & Hl & F)]; [now rewrite nth_nil in H|].
    apply nth_cut in H as (t1 & t2 & -> & <-). rewrite app_length in Hl. cbn [length] in Hl.
    apply Forall_app in F as [F1 F2]. inversion F2 as [|? ? Hc F3]; subst.
    exists d', (firstn (length t1) es), (skipn (length t1) es), t1, t2. rewrite firstn_skipn.
    split; auto. split; auto. split; auto. split; [rewrite firstn_length; lia|]. split; auto. split; [rewrite skipn_length; lia|]. split; auto.
    intros e1' c' L1 Hc'. constructor.
    - rewrite firstn_length in L1. rewrite !app_length, skipn_length. cbn [length]. lia.
    - apply Forall_app. auto.
  Qed.
  Lemma last_cut {A} (l : list A) x : last_opt l = Some x -> nth_error l (length l - 1) = Some x.
  Proof. auto. Qed.

  Lemma pop_first_val d : forall t t' r, loose d t -> n_pop_first N t = Ok (t', r) ->
    loose d t' /\ exists kv u, r = Some (kv, u) /\ flat t = kv :: flat t'.
  Proof.
    induction d as [|d IH]; intros [es ts] t' r L E; cbn [n_pop_first] in E; rewrite nth_error_map in E;
      destruct (nth_error ts 0) as [c|] eqn:Ec; cbn [option_map] in E.
    - destruct (kid_cut _ _ _ _ _ L Ec) as (? & _ & _ & _ & _ & ? & _). discriminate.
    - apply loose_inv in L as [[_ ->]|(d' & ? & _)]; [|discriminate]. destruct es as [|kv es]; [discriminate|].
      change (vec_remove 0 (kv :: es)) with (Ok (kv, es)) in E. injection E as <- <-. split; [constructor|]. cbn. eauto.
    - destruct (kid_cut _ _ _ _ _ L Ec) as (d' & e1 & e2 & t1 & t2 & Ed & -> & -> & L1 & Lt & L2 & Lc & LC). injection Ed as <-.
      destruct (n_pop_first N c) as [[c' ret]|] eqn:En; cbn [bind] in E; [|discriminate].
      destruct (IH _ _ _ Lc En) as (Lc' & kv & u & -> & Fc). rewrite set_at_mid in E by lia.
      pose proof (LC e1 c' eq_refl Lc') as L'. destruct e1; [|discriminate]. destruct t1; [|discriminate].
      assert (Fl : flat (BN ([] ++ e2) ([] ++ c :: t2)) = kv :: flat (BN ([] ++ e2) ([] ++ c' :: t2))).
      { rewrite !flat_one by auto. cbn [map zipl app]. rewrite Fc. reflexivity. }
      destruct u.
      + destruct (rebal N _ 0) as [[t2' u']|] eqn:Er; cbn [bind] in E; [|discriminate]. injection E as <- <-.
        destruct (fun Hc => rebal_val _ _ _ _ _ _ _ c' L' Hc Er) as [Lr Fr]; [reflexivity|]. split; auto. rewrite Fr. eauto.
      + injection E as <- <-. eauto.
    - destruct es as [|kv es]; [discriminate|]. inversion L as [|? ? ? Hl _]; subst. destruct ts; discriminate.
  Qed.
  Lemma pop_last_val d : forall t t' r, loose d t -> n_pop_last N t = Ok (t', r) ->
    loose d t' /\ exists kv u, r = Some (kv, u) /\ flat t = flat t' ++ [kv].
  Proof.
    induction d as [|d IH]; intros [es ts] t' r L E; cbn [n_pop_last] in E; unfold last_opt in E; rewrite map_length, nth_error_map in E;
      destruct (nth_error ts (length ts - 1)) as [c|] eqn:Ec; cbn [option_map] in E.
    - destruct (kid_cut _ _ _ _ _ L Ec) as (? & _ & _ & _ & _ & ? & _). discriminate.
    - apply loose_inv in L as [[_ ->]|(d' & ? & _)]; [|discriminate].
      destruct (snoc_cases es) as [->|(es' & kv & ->)]; [discriminate|].
      rewrite vec_pop_snoc in E. injection E as <- <-. split; [constructor|]. eexists _, _. split; [reflexivity|]. reflexivity.
    - destruct (kid_cut _ _ _ _ _ L Ec) as (d' & e1 & e2 & t1 & t2 & Ed & -> & -> & L1 & Lt & L2 & Lc & LC). injection Ed as <-.
      destruct (n_pop_last N c) as [[c' ret]|] eqn:En; cbn [bind] in E; [|discriminate].
      destruct (IH _ _ _ Lc En) as (Lc' & kv & u & -> & Fc). rewrite set_at_mid in E by lia.
      pose proof (LC e1 c' eq_refl Lc') as L'. rewrite app_length in Lt, L1. cbn [length] in Lt, L1. destruct t2; [|cbn [length] in Lt; lia]. destruct e2; [|discriminate].
      assert (Fl : flat (BN (e1 ++ []) (t1 ++ [c])) = flat (BN (e1 ++ []) (t1 ++ [c'])) ++ [kv]).
      { rewrite !flat_one by (auto; lia). cbn [map zipr]. rewrite !app_nil_r, Fc. now rewrite app_assoc. }
      destruct u.
      + destruct (rebal N _ _) as [[t2' u']|] eqn:Er; cbn [bind] in E; [|discriminate]. injection E as <- <-.
        rewrite app_nil_r in Er, L'. rewrite app_nil_r in Fl. 
        destruct (fun Hc => rebal_val _ _ _ _ _ _ _ c' L' Hc Er) as [Lr Fr]; [apply nth_mid; lia|]. split; auto. rewrite app_nil_r, Fr. eauto.
      + injection E as <- <-. eauto.
    - apply nth_error_None in Ec. inversion L as [|? ? ? Hl _]; subst. destruct ts; cbn [length] in *; [lia|lia].
  Qed.
  Lemma remove_val q d : forall t t' r, loose d t -> n_remove bor cmp N q t = Ok (t', r) ->
    loose d t' /\ sub (flat t') (flat t).
  Proof.
    induction d as [d IH] using (well_founded_induction Wf_nat.lt_wf). intros [es ts] t' r L E. cbn [n_remove] in E.
    destruct (scan q es) as [i c] eqn:Sn. apply scan_rank in Sn as (_ & _ & Hn).
    assert (Below : forall j, match nth_error (map (n_remove bor cmp N q) ts) j with
        | None => Ok (BN es ts, None)
        | Some m =>
          '(c', ret) <- m;;
          let t1 := BN es (set_at j c' ts) in
          match ret with
          | None => Ok (t1, None)
          | Some (kv, true) => '(t2, u) <- rebal N t1 j;; Ok (t2, Some (kv, u))
          | Some (kv, false) => Ok (t1, Some (kv, false))
          end
        end = Ok (t', r) -> loose d t' /\ sub (flat t') (flat (BN es ts))).
    { intros j. rewrite nth_error_map. destruct (nth_error ts j) as [k|] eqn:Ek; cbn [option_map]; intros E'.
      2:{ injection E' as <- <-. split; auto. apply sub_refl. }
      destruct (kid_cut _ _ _ _ _ L Ek) as (d' & e1 & e2 & t1 & t2 & -> & -> & -> & L1 & Lt & L2 & Lc & LC).
      destruct (n_remove bor cmp N q k) as [[k' ret]|] eqn:En; cbn [bind] in E'; [|discriminate].
      destruct (IH d' (Nat.lt_succ_diag_r _) _ _ _ Lc En) as (Lk' & Sk). rewrite set_at_mid in E' by lia.
      pose proof (LC e1 k' eq_refl Lk') as L'.
      assert (Fl : sub (flat (BN (e1 ++ e2) (t1 ++ k' :: t2))) (flat (BN (e1 ++ e2) (t1 ++ k :: t2)))).
      { rewrite !flat_one by (auto; lia). apply sub_app; [apply sub_refl|]. apply sub_app; [auto|apply sub_refl]. }
      destruct ret as [[kv [|]]|].
      - destruct (rebal N _ _) as [[t2' u']|] eqn:Er; cbn [bind] in E'; [|discriminate]. injection E' as <- <-.
        destruct (fun Hc => rebal_val _ _ _ _ _ _ _ k' L' Hc Er) as [Lr Fr]; [apply nth_mid; lia|]. rewrite Fr. auto.
      - injection E' as <- <-. auto.
      - injection E' as <- <-. auto. }
    destruct c.
    - destruct Hn as (e & Hn). unfold is_leaf in E. cbn [kids_of] in E. destruct (is_nil ts) eqn:Ei.
      + destruct ts; [|discriminate]. apply nth_cut in Hn as (e1 & e2 & -> & Hi).
        rewrite (vec_remove_mid e1) in E by lia. injection E as <- <-.
        apply loose_inv in L as [[-> _]|(? & _ & Hl & _)]; [|discriminate]. split; [constructor|].
        cbn. apply sub_app; [apply sub_refl|]. apply AvlHeapSpec.sub_skip, sub_refl.
      + rewrite nth_error_map in E. destruct (nth_error ts i) as [k|] eqn:Ek; cbn [option_map unwrap bind] in E; [|discriminate].
        destruct (kid_cut _ _ _ _ _ L Ek) as (d' & e1 & e2 & t1 & t2 & -> & -> & -> & L1 & Lt & L2 & Lc & LC).
        destruct (n_pop_last N k) as [[k' ret]|] eqn:En; cbn [bind] in E; [|discriminate].
        destruct (pop_last_val _ _ _ _ Lc En) as (Lk' & kv & u & -> & Fk). cbn [unwrap bind] in E.
        rewrite Hn in E. cbn [unwrap bind] in E. rewrite (set_at_mid t1) in E by lia.
        assert (exists e2', e2 = e :: e2') as [e2' ->].
        { rewrite nth_error_app2 in Hn by lia. replace (i - length e1) with 0 in Hn by lia. destruct e2; [discriminate|]. injection Hn as ->. eauto. }
        rewrite (set_at_mid e1) in E by lia. destruct t2 as [|x t2]; [discriminate|]. cbn [length] in L2.
        assert (L' : loose (S d') (BN (e1 ++ kv :: e2') (t1 ++ k' :: x :: t2))).
        { pose proof (LC (e1) k' eq_refl Lk') as L0. apply (loose_pair _ _ _ _ _ _ _ _ ) in L0 as (_ & LA & LB & LP & _); [|lia]. auto. }
        assert (Fl : sub (flat (BN (e1 ++ kv :: e2') (t1 ++ k' :: x :: t2))) (flat (BN (e1 ++ e :: e2') (t1 ++ k :: x :: t2)))).
        { rewrite !flat_pair by lia. apply sub_app; [apply sub_refl|]. apply sub_app; [|apply sub_refl]. rewrite Fk, <- app_assoc.
          apply sub_app; [apply sub_refl|]. cbn [app]. apply AvlHeapSpec.sub_keep, AvlHeapSpec.sub_skip, sub_refl. }
        destruct u.
        * destruct (rebal N _ _) as [[t2' u']|] eqn:Er; cbn [bind] in E; [|discriminate]. injection E as <- <-.
          destruct (fun Hc => rebal_val _ _ _ _ _ _ _ k' L' Hc Er) as [Lr Fr]; [apply nth_mid; lia|]. rewrite Fr. auto.
        * injection E as <- <-. auto.
    - apply (Below i). exact E.
    - apply (Below (length ts - 1)). unfold last_opt in E. rewrite map_length in E. subst i.
      destruct (nth_error (map (n_remove bor cmp N q) ts) (length ts - 1)) eqn:Ex; [|exact E].
      assert (length ts - 1 = length es) as EL; [|rewrite EL in E |- *; exact E].
      rewrite nth_error_map in Ex. destruct (nth_error ts (length ts - 1)) eqn:Ey; [|discriminate].
      destruct (kid_cut _ _ _ _ _ L Ey) as (d' & e1 & e2 & t1 & t2 & _ & -> & -> & L1 & Lt & L2 & _).
      rewrite !app_length in *. cbn [length] in *. lia.
  Qed.

  (** ** The heap *)
  Lemma beside_mid i t1 x y t2 : i = length t1 -> beside i (t1 ++ x :: t2) = beside i (t1 ++ y :: t2) :> list pay.
  Proof.
    intros ->. unfold beside. destruct t1 as [|z t1].
    - reflexivity.
    - change (0 <? length (z :: t1)) with true. cbn match. rewrite !nth_error_app1 by (cbn [length]; lia). reflexivity.
  Qed.

  Lemma rm_unwound h0 (h : heap) O a es ts t' r M : sess h0 h [] [a] O -> clones h = es :: clones h0 -> ns h a (BN es ts) ->
    (exists n, bomb n = true) -> forall d, loose d (BN es ts) ->
    rm_ok bomb h0 O d (BN es ts) (M ++ [es]) t' r (Ok (h, a, Unwound)).
  Proof.
    intros S C D Bb d L. apply sess_end in S as [S F]. eexists _, _, _. split; [reflexivity|]. split; auto. split; auto.
    split. { apply nl_one in C. eapply nl_le; [|exact C]. apply sub_app_r, sub_refl. }
    split; auto. exists (BN es ts). split; auto. split; auto. apply sub_refl.
  Qed.
  Lemma rm_close (h0 h : heap) O a ks ts es d t M r : sess h0 h [a] (ks ++ []) O -> Forall2 (ns h) ks ts -> none_lost h0 h M ->
    rm_ok bomb h0 O d t M (BN es ts) r (Ok (cls h a es ks, a, Done r)).
  Proof.
    intros S F NL. destruct (node_close _ _ _ _ _ es _ S F) as (A1 & A2 & A3 & A4 & A5).
    eexists _, _, _. split; [reflexivity|]. auto 10.
  Qed.
  Lemma rm_close_un (h0 h : heap) O a ks ts es d t t' M r : sess h0 h [a] (ks ++ []) O -> Forall2 (ns h) ks ts -> none_lost h0 h M ->
    (exists n, bomb n = true) -> loose d (BN es ts) -> sub (flat (BN es ts)) (flat t) ->
    rm_ok bomb h0 O d t M t' r (Ok (cls h a es ks, a, Unwound)).
  Proof.
    intros S F NL Bb L Sb. destruct (node_close _ _ _ _ _ es _ S F) as (A1 & A2 & A3 & A4 & A5).
    eexists _, _, _. split; [reflexivity|]. split; auto. split; auto. split; [eapply nl_eq; eauto|]. split; auto. eauto.
  Qed.
  Lemma rm_le (h : heap) O d (t : bt) M M' t' r res_ : sub M M' -> rm_ok bomb h O d t M t' r res_ -> rm_ok bomb h O d t M' t' r res_.
  Proof.
    intros S (h' & a' & o & E & A1 & A2 & A3 & A4). exists h', a', o. split; auto. split; auto. split; auto. split; auto.
    eapply nl_le; eauto.
  Qed.

  Definition rm_fun := heap -> addr -> res (heap * addr * out (option ((K * V) * bool))).

  (** A removal in one child of an opened node, and what follows. *)
  Lemma rm_kid (h0 h1 : heap) O a es ks ts d i c (call : rm_fun) (vcall : bt -> res (bt * option ((K * V) * bool))) M0 (M1 : bt -> list pay) t' r :
    sess h0 h1 [a] (ks ++ []) O -> Forall2 (ns h1) ks ts -> loose d (BN es ts) -> none_lost h0 h1 M0 ->
    nth_error ks i = Some c ->
    (forall d' t0 t0' r0 X, d = S d' -> loose d' t0 -> nth_error ts i = Some t0 -> vcall t0 = Ok (t0', r0) -> sound h1 (c :: X) -> ns h1 c t0 ->
       rm_ok bomb h1 X d' t0 (M1 t0) t0' r0 (call h1 c)) ->
    (forall d' t0 t0' r0, loose d' t0 -> vcall t0 = Ok (t0', r0) -> loose d' t0' /\ sub (flat t0') (flat t0)) ->
    (match nth_error (map vcall ts) i with
     | Some m => '(c', ret) <- m;;
        match ret with
        | Some (kv, true) => '(t2, u) <- rebal N (BN es (set_at i c' ts)) i;; Ok (t2, Some (kv, u))
        | _ => Ok (BN es (set_at i c' ts), ret)
        end
     | None => Panic
     end = Ok (t', r)) ->
    rm_ok bomb h0 O d (BN es ts) (match nth_error (map M1 ts) i with Some l => beside i ts ++ l | None => [] end ++ M0) t' r
      ('(h2, c', o) <- call h1 c;;
       match o with
       | Done (Some (kv, true)) => h_rebal_cls N bomb h2 a es (set_at i c' ks) i kv
       | _ => Ok (cls h2 a es (set_at i c' ks), a, o)
       end).
  Proof.
    intros S1 F1 L NL Ek Hcall Hval E.
    destruct (f2_at _ _ _ _ _ F1 Ek) as (kl & kr & tl & t0 & tr & -> & -> & Lk & Lt & Fl & Dc & Fr).
    destruct (kid_cut d es (tl ++ t0 :: tr) i t0 L) as (d' & e1 & e2 & t1 & t2 & -> & -> & Et & L1 & Lt1 & L2 & Lc & LC); [apply nth_mid; lia|].
    assert (tl = t1 /\ tr = t2) as [<- <-].
    { assert (H : firstn i (tl ++ t0 :: tr) = firstn i (t1 ++ t0 :: t2)) by now rewrite Et.
      assert (H' : skipn (Datatypes.S i) (tl ++ t0 :: tr) = skipn (Datatypes.S i) (t1 ++ t0 :: t2)) by now rewrite Et.
      rewrite <- Lt in H at 1. rewrite <- Lt1 in H. rewrite !firstn_app, !firstn_all, !Nat.sub_diag in H. cbn in H. rewrite !app_nil_r in H.
      split; auto. subst t1. apply app_inv_head in Et. congruence. }
    rewrite !nth_error_map in *. rewrite (nth_mid tl) in * by lia. cbn [option_map] in *.
    destruct (vcall t0) as [[t0' r0]|] eqn:Ev; cbn [bind] in E; [|discriminate].
    destruct (Hval _ _ _ _ Lc Ev) as [L0' Sb0].
    destruct (Hcall d' t0 t0' r0 ((kl ++ kr ++ []) ++ O) eq_refl Lc eq_refl Ev) as (h2 & c' & o & E2 & S2 & Fr2 & N2 & P2); auto; [eapply kid_sound; eauto|].
    rewrite E2. cbn [bind]. rewrite (set_at_mid kl c c' kr) by lia. rewrite (set_at_mid tl) in E by lia.
    destruct (kid_done h0 h1 h2 [a] kl c [c'] kr [] O S1 S2 Fr2) as [S3 K3].
    assert (S3' : sess h0 h2 [a] ((kl ++ c' :: kr) ++ []) O) by perm.
    assert (Fl' : Forall2 (ns h2) kl tl) by (eapply keep_f2; [exact K3|inc|exact Fl]).
    assert (Fr' : Forall2 (ns h2) kr tr) by (eapply keep_f2; [exact K3|inc|exact Fr]).
    assert (NL2 : none_lost h0 h2 (M1 t0 ++ M0)) by (eapply nl_trans; eauto).
    assert (NL3 : none_lost h0 h2 ((beside i (tl ++ t0 :: tr) ++ M1 t0) ++ M0)).
    { eapply nl_le; [|exact NL2]. rewrite <- app_assoc. apply sub_app_r, sub_refl. }
    assert (Sub : forall t1, sub (flat t1) (flat t0) -> sub (flat (BN (e1 ++ e2) (tl ++ t1 :: tr))) (flat (BN (e1 ++ e2) (tl ++ t0 :: tr)))).
    { intros t1 Hs. rewrite !flat_one by (auto; lia). apply sub_app; [apply sub_refl|]. apply sub_app; [auto|apply sub_refl]. }
    destruct o as [r2|].
    - destruct P2 as (-> & D2 & U2).
      assert (Cl : Ok (BN (e1 ++ e2) (tl ++ t0' :: tr), r0) = Ok (t', r) ->
        rm_ok bomb h0 O (S d') (BN (e1 ++ e2) (tl ++ t0 :: tr)) ((beside i (tl ++ t0 :: tr) ++ M1 t0) ++ M0) t' r (Ok (cls h2 a (e1 ++ e2) (kl ++ c' :: kr), a, Done r0))).
      { intros Ex. injection Ex as <- <-. apply rm_close; auto. apply f2_set; auto. }
      destruct r0 as [[kv [|]]|]; [|apply Cl; exact E..].
      destruct (rebal N _ _) as [[t2' u']|] eqn:Er; cbn [bind] in E; [|discriminate]. injection E as <- <-.
      rewrite <- app_assoc. rewrite (beside_mid i tl t0 t0' tr) by lia. eapply h_rebal_cls_ok; eauto.
      + apply f2_set; auto.
      + apply nth_mid. lia.
    - destruct P2 as (Bb & t1' & D1 & Lo1 & Sb1). apply (rm_close_un h0 h2 O a _ (tl ++ t1' :: tr)); auto. apply f2_set; auto.
  Qed.

  Lemma h_pop_first_ok fuel : forall d t t' r a (h : heap) O, loose d t -> d < fuel -> sound h (a :: O) -> ns h a t ->
    n_pop_first N t = Ok (t', r) -> rm_ok bomb h O d t (near_first t) t' r (h_pop_first N bomb fuel h a).
  Proof.
    induction fuel as [|fuel IH]; intros d [es ts] t' r a h O L Lf S D E; [lia|]. cbn [h_pop_first].
    pose proof (sess_start h [a] O S) as S0.
    destruct (sess_open bomb h h [] a [] O es ts S0 D) as (h1 & o & Eo & P). rewrite Eo. cbn [bind].
    destruct o as [[[a' es'] ks]|].
    2:{ destruct P as (S1 & K1 & C1 & _ & B & _). cbn [near_first]. eapply rm_unwound; eauto. apply K1; [mem|auto]. }
    destruct P as (-> & S1 & F1 & K1 & _ & cs & C1 & Sc & _).
    assert (N1 : none_lost h h1 [es]) by (exists cs; auto). cbn [near_first].
    destruct (nth_error ks 0) as [c|] eqn:Ek.
    - eapply (rm_kid h h1 O a' es ks ts d 0 c (h_pop_first N bomb fuel) (n_pop_first N) [es] near_first); eauto.
      + intros d' t0 t0' r0 X -> L0 _ E0 Sd D0. eapply IH; eauto. lia.
      + intros d' t0 t0' r0 L0 E0. destruct (pop_first_val _ _ _ _ L0 E0) as (L0' & kv & u & -> & Fl). split; auto. rewrite Fl.
        apply AvlHeapSpec.sub_skip, sub_refl.
      + cbn [n_pop_first] in E. destruct (f2_at _ _ _ _ _ F1 Ek) as (kl & kr & tl & t0 & tr & -> & -> & Lk & Lt & _).
        rewrite nth_error_map in *. rewrite nth_mid in * by lia. exact E.
    - cbn [n_pop_first] in E. rewrite nth_error_map in *. rewrite (f2_none _ _ _ _ F1 Ek) in *. cbn [option_map app] in *.
      destruct (vec_remove 0 es) as [[kv es']|]; cbn [bind] in *; [|discriminate]. injection E as <- <-. apply rm_close; auto.
  Qed.

  Lemma last_at {A B} (R : A -> B -> Prop) ks (ts : list B) d es (f : B -> bt) :
    Forall2 R ks ts -> loose d (BN es (map f ts)) -> ks <> [] -> length ks - 1 = length es.
  Proof.
    intros F L H. apply loose_inv in L as [[_ Hn]|(d' & _ & Hl & _)].
    - destruct F; [contradiction|discriminate].
    - rewrite (f2_length _ _ _ F). rewrite map_length in Hl. lia.
  Qed.
  Lemma last_at' (h : heap) ks ts d es : Forall2 (ns h) ks ts -> loose d (BN es ts) -> ks <> [] -> length ks - 1 = length es.
  Proof. intros F L. eapply (last_at _ _ _ d es (fun x => x)); [exact F|]. now rewrite map_id. Qed.

  Lemma h_pop_last_ok fuel : forall d t t' r a (h : heap) O, loose d t -> d < fuel -> sound h (a :: O) -> ns h a t ->
    n_pop_last N t = Ok (t', r) -> rm_ok bomb h O d t (near_last t) t' r (h_pop_last N bomb fuel h a).
  Proof.
    induction fuel as [|fuel IH]; intros d [es ts] t' r a h O L Lf S D E; [lia|]. cbn [h_pop_last].
    pose proof (sess_start h [a] O S) as S0.
    destruct (sess_open bomb h h [] a [] O es ts S0 D) as (h1 & o & Eo & P). rewrite Eo. cbn [bind].
    destruct o as [[[a' es'] ks]|].
    2:{ destruct P as (S1 & K1 & C1 & _ & B & _). cbn [near_last]. eapply rm_unwound; eauto. apply K1; [mem|auto]. }
    destruct P as (-> & S1 & F1 & K1 & _ & cs & C1 & Sc & _).
    assert (N1 : none_lost h h1 [es]) by (exists cs; auto). cbn [near_last].
    unfold last_opt. destruct (nth_error ks (length ks - 1)) as [c|] eqn:Ek.
    - assert (EL : length ks - 1 = length es). { eapply last_at'; eauto. intros ->. discriminate. }
      rewrite EL in *. assert (ET : length ts - 1 = length es) by (rewrite <- (f2_length _ _ _ F1); exact EL).
      eapply (rm_kid h h1 O a' es ks ts d (length es) c (h_pop_last N bomb fuel) (n_pop_last N) [es] near_last); eauto.
      + intros d' t0 t0' r0 X -> L0 _ E0 Sd D0. eapply IH; eauto. lia.
      + intros d' t0 t0' r0 L0 E0. destruct (pop_last_val _ _ _ _ L0 E0) as (L0' & kv & u & -> & Fl). split; auto. rewrite Fl.
        apply sub_app_l, sub_refl.
      + cbn [n_pop_last] in E. unfold last_opt in E. rewrite map_length, ET in E.
        destruct (f2_at _ _ _ _ _ F1 Ek) as (kl & kr & tl & t0 & tr & -> & -> & Lk & Lt & _).
        rewrite nth_error_map in *. rewrite nth_mid in * by lia. exact E.
    - assert (ks = []) as ->. { destruct ks; auto. apply nth_error_None in Ek. cbn [length] in Ek. lia. }
      inversion F1; subst ts. cbn [n_pop_last map last_opt length] in E. cbn in E.
      destruct (vec_pop es) as [[kv es']|]; cbn [bind unwrap] in *; [|discriminate]. injection E as <- <-.
      rewrite nth_error_map, nth_nil. cbn [option_map app]. apply rm_close; auto.
  Qed.

  Lemma h_remove_ok q fuel : forall d t t' r a (h : heap) O, loose d t -> d < fuel -> sound h (a :: O) -> ns h a t ->
    n_remove bor cmp N q t = Ok (t', r) -> rm_ok bomb h O d t (near q t) t' r (h_remove bor cmp N bomb fuel h a q).
  Proof.
    induction fuel as [|fuel IH]; intros d [es ts] t' r a h O L Lf S D E; [lia|]. cbn [h_remove].
    pose proof (sess_start h [a] O S) as S0.
    destruct (sess_open bomb h h [] a [] O es ts S0 D) as (h1 & o & Eo & P). rewrite Eo. cbn [bind].
    destruct o as [[[a' es'] ks]|].
    2:{ destruct P as (S1 & K1 & C1 & _ & B & _). cbn [BTreeHeapSpec.near]. eapply rm_unwound; eauto. apply K1; [mem|auto]. }
    destruct P as (-> & S1 & F1 & K1 & _ & cs & C1 & Sc & _).
    assert (N1 : none_lost h h1 [es]) by (exists cs; auto). cbn [BTreeHeapSpec.near].
    cbn [n_remove] in E. destruct (scan q es) as [i c] eqn:Sn. apply scan_rank in Sn as (Hi & Hh & Hn).
    assert (Below : forall j, c <> Eq -> j = i \/ nth_error ts j = None ->
      (match nth_error (map (n_remove bor cmp N q) ts) j with
        | None => Ok (BN es ts, None)
        | Some m =>
          '(c', ret) <- m;;
          let t1 := BN es (set_at j c' ts) in
          match ret with
          | None => Ok (t1, None)
          | Some (kv, true) => '(t2, u) <- rebal N t1 i;; Ok (t2, Some (kv, u))
          | Some (kv, false) => Ok (t1, Some (kv, false))
          end
        end = Ok (t', r)) ->
      rm_ok bomb h O d (BN es ts)
       (match nth_error (map (fun c => if hit q es then near_last c else near q c) ts) (rank q es) with
        | Some l => beside (rank q es) ts ++ l | None => [] end ++ [es]) t' r
       (match nth_error ks j with
        | None => Ok (cls h1 a' es ks, a', Done None)
        | Some c =>
            '(h2, c', o) <- h_remove bor cmp N bomb fuel h1 c q;;
            let ks1 := set_at j c' ks in
            match o with
            | Done (Some (kv, true)) => h_rebal_cls N bomb h2 a' es ks1 i kv
            | _ => Ok (cls h2 a' es ks1, a', o)
            end
        end)).
    { intros j Hc Hj E'. assert (hit q es = false) as -> by (rewrite Hh; destruct c; congruence). rewrite <- Hi.
      destruct (nth_error ks j) as [c0|] eqn:Ek.
      - destruct Hj as [->|Hj].
        2:{ destruct (f2_at _ _ _ _ _ F1 Ek) as (kl & kr & tl & t0 & tr & -> & -> & Lk & Lt & _). rewrite nth_mid in Hj by lia. discriminate. }
        eapply (rm_kid h h1 O a' es ks ts d i c0 (fun h c => h_remove bor cmp N bomb fuel h c q) (n_remove bor cmp N q) [es] (near q)); eauto.
        + intros d' t0 t0' r0 X -> L0 _ E0 Sd D0. eapply IH; eauto. lia.
        + intros d' t0 t0' r0 L0 E0. eapply remove_val; eauto.
        + destruct (f2_at _ _ _ _ _ F1 Ek) as (kl & kr & tl & t0 & tr & -> & -> & Lk & Lt & _).
          rewrite nth_error_map in *. rewrite nth_mid in * by lia. cbn [option_map] in *.
          destruct (n_remove bor cmp N q t0) as [[c' ret]|]; cbn [bind] in *; [|discriminate].
          destruct ret as [[kv [|]]|]; exact E'.
      - rewrite nth_error_map in E'. rewrite (f2_none _ _ _ _ F1 Ek) in E'. cbn [option_map] in E'. injection E' as <- <-.
        apply rm_close; auto. eapply nl_le; [|exact N1]. apply sub_app_r, sub_refl. }
    destruct c.
    - destruct Hn as (e & Hn). unfold is_leaf in E. cbn [kids_of] in E. rewrite (f2_nil _ _ _ F1). rewrite Hh, <- Hi.
      destruct (is_nil ts) eqn:Ei.
      + destruct ts; [|discriminate]. rewrite nth_error_map, nth_nil. cbn [option_map app].
        destruct (vec_remove i es) as [[kv es']|]; cbn [bind] in *; [|discriminate]. injection E as <- <-. apply rm_close; auto.
      + rewrite nth_error_map in E. destruct (nth_error ts i) as [k|] eqn:Ekt; cbn [option_map unwrap bind] in E; [|discriminate].
        destruct (kid_cut _ _ _ _ _ L Ekt) as (d' & e1 & e2 & t1 & t2 & -> & -> & -> & L1 & Lt & L2 & Lc & LC).
        destruct (n_pop_last N k) as [[k' ret]|] eqn:En; cbn [bind] in E; [|discriminate].
        destruct (pop_last_val _ _ _ _ Lc En) as (Lk' & kv & u & -> & Fk). cbn [unwrap bind] in E.
        rewrite Hn in E. cbn [unwrap bind] in E. rewrite (set_at_mid t1) in E by lia.
        assert (exists e2', e2 = e :: e2') as [e2' ->].
        { rewrite nth_error_app2 in Hn by lia. replace (i - length e1) with 0 in Hn by lia. destruct e2; [discriminate|]. injection Hn as ->. eauto. }
        rewrite (set_at_mid e1) in E by lia. destruct t2 as [|x t2]; [discriminate|]. cbn [length] in L2.
        assert (LP : forall m' k1, loose d' k1 -> loose (Datatypes.S d') (BN (e1 ++ m' :: e2') (t1 ++ k1 :: x :: t2))).
        { intros m' k1 Lk1. pose proof (LC e1 k1 eq_refl Lk1) as L0. apply (loose_pair _ _ _ _ _ _ _ _ ) in L0 as (_ & LA & LB & LP & _); [|lia]. auto. }
        assert (Fl : sub (flat (BN (e1 ++ kv :: e2') (t1 ++ k' :: x :: t2))) (flat (BN (e1 ++ e :: e2') (t1 ++ k :: x :: t2)))).
        { rewrite !flat_pair by lia. apply sub_app; [apply sub_refl|]. apply sub_app; [|apply sub_refl]. rewrite Fk, <- app_assoc.
          apply sub_app; [apply sub_refl|]. cbn [app]. apply AvlHeapSpec.sub_keep, AvlHeapSpec.sub_skip, sub_refl. }
        apply f2_cut_r in F1 as (kl & c0 & kr & -> & Lkl & Fkl & Dc & Fkr).
        rewrite (nth_mid kl) by lia. cbn [unwrap bind].
        destruct (h_pop_last_ok fuel d' k k' (Some (kv, u)) c0 h1 ((kl ++ kr ++ []) ++ O) Lc) as (h2 & c' & o & E2 & S2 & Fr2 & N2 & P2); auto;
          [lia|eapply kid_sound; eauto|].
        rewrite E2. cbn [bind]. rewrite (set_at_mid kl c0 c' kr) by lia.
        destruct (kid_done h h1 h2 [a'] kl c0 [c'] kr [] O S1 S2 Fr2) as [S3 K3].
        assert (S3' : sess h h2 [a'] ((kl ++ c' :: kr) ++ []) O) by perm.
        assert (Fl' : Forall2 (ns h2) kl t1) by (eapply keep_f2; [exact K3|inc|exact Fkl]).
        assert (Fr' : Forall2 (ns h2) kr (x :: t2)) by (eapply keep_f2; [exact K3|inc|exact Fkr]).
        assert (NL2 : none_lost h h2 (near_last k ++ [e1 ++ e :: e2'])) by (eapply nl_trans; eauto).
        rewrite nth_error_map, (nth_mid t1) by lia. cbn [option_map].
        destruct o as [r2|].
        * destruct P2 as (-> & D2 & U2). cbn [unwrap bind]. rewrite Hn. cbn [unwrap bind]. rewrite (set_at_mid e1) by lia.
          destruct u.
          -- destruct (rebal N _ _) as [[t2' u']|] eqn:Er; cbn [bind] in E; [|discriminate]. injection E as <- <-.
             rewrite <- app_assoc. rewrite (beside_mid i t1 k k' (x :: t2)) by lia. eapply h_rebal_cls_ok; eauto.
             ++ apply f2_set; auto.
             ++ apply nth_mid. lia.
          -- injection E as <- <-. apply rm_close; auto; [apply f2_set; auto|].
             eapply nl_le; [|exact NL2]. rewrite <- app_assoc. apply sub_app_r, sub_refl.
        * destruct P2 as (Bb & t1' & D1 & Lo1 & Sb1). apply (rm_close_un h h2 O a' _ (t1 ++ t1' :: x :: t2)); auto; [apply f2_set; auto| |].
          -- eapply nl_le; [|exact NL2]. rewrite <- app_assoc. apply sub_app_r, sub_refl.
          -- rewrite !flat_pair by lia. apply sub_app; [apply sub_refl|]. apply sub_app; [|apply sub_refl]. apply sub_app; [auto|apply sub_refl].
    - apply (Below i); [discriminate|auto|exact E].
    - rewrite <- Hn. apply (Below (length ks - 1)); [discriminate| |].
      + destruct ks as [|c0 ks]; [right; inversion F1; subst; apply nth_nil|left].
        rewrite Hn. eapply last_at'; eauto. discriminate.
      + unfold last_opt in E. rewrite map_length in E. rewrite (f2_length _ _ _ F1), Hn. exact E.
  Qed.
End Remove2.
