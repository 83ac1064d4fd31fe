(** The functions of [FixedHeapAskModel] on the level of lists, as in FixedHeapProofs2.v, and why those on arrays follow
    them. *)
From Coq Require Import List PeanoNat Bool Lia.
From Verif Require Import Base Spec Vec Ask FixedAskModel Heap HeapProofs BTreeModel BTreeProofs BTreeHeapModel
  FixedModel FixedProofs FixedProofs2 FixedProofs3 FixedHeapModel FixedHeapProofs FixedHeapProofs2 FixedHeapProofs5 FixedHeapProofs6 FixedHeapAskModel.
Import ListNotations.
Local Open Scope nat_scope.

Section Lists.
  Context {K V Q : Type} (bor : K -> Q) (ask : nat -> Q -> Q -> option comparison) (small_key : bool).
  Variable bomb : nat -> bool.
  Notation pay := (list (K * V)).
  Notation heap := (Heap.heap pay).
  Notation N := MIN_OCCUPANCY.
  Notation entry := (K * V)%type.

  Definition lsearch_t (q : Q) (es : pay) (n : nat) : trial unit (nat + nat) :=
    if is_nil es then Fault
    else if small_key then lin_t bor ask q (map fst es) 0 n
    else bin_t bor ask (length (map fst es)) q (map fst es) 0 (length (map fst es)) n.

  Fixpoint g_get_mut_t (fuel : nat) (h : heap) (a : addr) (q : Q) (w : V -> V) (n : nat) : res (heap * addr * nat * out (option V)) :=
    match fuel with
    | O => Panic
    | S fuel' =>
      '(h1, r) <- opn bomb h a;;
      match r with
      | Unwound => Ok (h1, a, n, Unwound)
      | Done (a', es, ks) =>
        match lsearch_t q es n with
        | Fault => Panic
        | Ask.Unwound _ n1 => Ok (cls h1 a' es ks, a', n1, Unwound)
        | Returned _ (inl i) n1 =>
          e <- unwrap (nth_error es i);; Ok (cls h1 a' (set_at i (fst e, w (snd e)) es) ks, a', n1, Done (Some (snd e)))
        | Returned _ (inr i) n1 =>
          match nth_error ks i with
          | None => Ok (cls h1 a' es ks, a', n1, Done None)
          | Some c => '(h2, c', n2, o) <- g_get_mut_t fuel' h1 c q w n1;; Ok (cls h2 a' es (set_at i c' ks), a', n2, o)
          end
        end
      end
    end.

  Fixpoint g_insert_t (fuel : nat) (h : heap) (a : addr) (kv : K * V) (n : nat) : res (heap * addr * nat * out (fh_res K V)) :=
    match fuel with
    | O => Panic
    | S fuel' =>
      '(h1, r) <- opn bomb h a;;
      match r with
      | Unwound => Ok (h1, a, n, Unwound)
      | Done (a', es, ks) =>
        match lsearch_t (bor (fst kv)) es n with
        | Fault => Panic
        | Ask.Unwound _ n1 => Ok (cls h1 a' es ks, a', n1, Unwound)
        | Returned _ (inl ub) n1 =>
          old <- unwrap (nth_error es ub);;
          Ok (cls h1 a' (set_at ub kv es) ks, a', n1, Done (FHReplaced (fst old) (snd old)))
        | Returned _ (inr ub) n1 =>
          '(h2, ks1, n2, r) <- match nth_error ks ub with
                               | Some c => '(h2, c', n2, o) <- g_insert_t fuel' h1 c kv n1;; Ok (h2, set_at ub c' ks, n2, o)
                               | None => Ok (h1, ks, n1, Done (FHSplit None kv))
                               end;;
          match r with
          | Done (FHSplit kid kv1) => asks_none n2 (g_absorb h2 a' es ks1 ub kid kv1)
          | _ => Ok (cls h2 a' es ks1, a', n2, r)
          end
        end
      end
    end.

  Fixpoint g_remove_t (fuel : nat) (h : heap) (a : addr) (q : Q) (n : nat) : res (heap * addr * nat * out (option (entry * bool))) :=
    match fuel with
    | O => Panic
    | S fuel' =>
      '(h1, r) <- opn bomb h a;;
      match r with
      | Unwound => Ok (h1, a, n, Unwound)
      | Done (a', es, ks) =>
        match lsearch_t q es n with
        | Fault => Panic
        | Ask.Unwound _ n1 => Ok (cls h1 a' es ks, a', n1, Unwound)
        | Returned _ (inr i) n1 =>
          match nth_error ks i with
          | None => Ok (cls h1 a' es ks, a', n1, Done None)
          | Some c =>
            '(h2, c', n2, o) <- g_remove_t fuel' h1 c q n1;;
            let ks1 := set_at i c' ks in
            match o with
            | Done (Some (kv, true)) => asks_none n2 (g_rebal_cls bomb h2 a' es ks1 i kv)
            | _ => Ok (cls h2 a' es ks1, a', n2, o)
            end
          end
        | Returned _ (inl i) n1 =>
          if is_nil ks then
            '(kv, es') <- vec_remove i es;;
            Ok (cls h1 a' es' ks, a', n1, Done (Some (kv, length es' <? MIN_OCC N)))
          else
            c <- unwrap (nth_error ks i);;
            '(h2, c', o) <- g_pop_last bomb fuel' h1 c;;
            let ks1 := set_at i c' ks in
            match o with
            | Unwound => Ok (cls h2 a' es ks1, a', n1, Unwound)
            | Done ret =>
              '(kv, under) <- unwrap ret;;
              old <- unwrap (nth_error es i);;
              let es1 := set_at i kv es in
              if (under : bool) then asks_none n1 (g_rebal_cls bomb h2 a' es1 ks1 i old)
              else Ok (cls h2 a' es1 ks1, a', n1, Done (Some (old, false)))
            end
        end
      end
    end.
End Lists.

Section Sim.
  Context {K V Q : Type} (bor : K -> Q) (ask : nat -> Q -> Q -> option comparison) (small_key : bool).
  Variable bomb : nat -> bool.
  Notation elems := (elems K V).
  Notation okids := (option (kids addr)).
  Notation cell := (elems * okids)%type.
  Notation fheap := (Heap.heap cell).
  Notation pay := (list (K * V)).
  Notation er := (@er K V).
  Notation good := (@good K V).
  Notation crel := (@crel K V).
  Notation entry := (K * V)%type.
  Notation N := MIN_OCCUPANCY.
  Implicit Types (e : elems) (d : okids) (es : pay) (ks : list addr) (h : fheap).

  Lemma search_t_sim q e es n : elems_are e es -> lsearch_t bor ask small_key q es n <> Fault ->
    search_t bor ask small_key q e n = lsearch_t bor ask small_key q es n.
  Proof.
    intros He E. unfold lsearch_t in *. destruct (is_nil es) eqn:En; [congruence|].
    destruct (el_live e es He) as [Ek _]; [now intros ->|]. unfold search_t. now rewrite Ek.
  Qed.
  Ltac open_ E h1 G1 a1 es1 ks1 e1 d1 Cr :=
    let E0 := fresh "E" in let r := fresh "r" in let r' := fresh "r'" in let Or := fresh "Or" in
    match type of E with bind (opn _ (FixedHeapProofs.er ?h) ?a) _ = Ok _ =>
      destruct (opn bomb (er h) a) as [[? r]|] eqn:E0; cbn [bind] in E; [|discriminate E];
      match goal with G : FixedHeapProofs.good h |- _ => destruct (fopn_sim bomb _ _ _ _ G E0) as (h1 & r' & -> & <- & G1 & Or) end;
      cbn [bind]; destruct r as [[[a1 es1] ks1]|], r' as [[[? e1] d1]|]; cbn [orel] in Or; try contradiction;
      [destruct Or as [-> Cr]|]
    end.
  (** The search; the case that it panics is settled. *)
  Ltac search_ E Cr h1 a1 G1 es q n i n1 :=
    rewrite (search_t_sim q _ es n (proj1 Cr)) by (intros Z; rewrite Z in E; discriminate E);
    destruct (lsearch_t bor ask small_key q es n) as [[] [i|i] n1|[] n1|]; [| | |discriminate E];
    [| |injection E as <- <- <- <-; let h2 := fresh "h" in let G2 := fresh "G" in
        destruct (fcls_sim h1 a1 _ _ _ _ G1 Cr) as (h2 & -> & <- & G2); cbn [bind]; eauto; fail].

  Theorem get_mut_t_sim q w : forall fuel h a n g a' n' o, good h ->
    g_get_mut_t bor ask small_key bomb fuel (er h) a q w n = Ok (g, a', n', o) ->
    exists h', fh_get_mut_t bor ask small_key bomb fuel h a q w n = Ok (h', a', n', o) /\ er h' = g /\ good h'.
  Proof.
    induction fuel as [|fuel IH]; intros h a n g a' n' o G E; [discriminate|]. cbn [g_get_mut_t fh_get_mut_t] in *.
    open_ E h1 G1 a1 es ks e d Cr.
    2:{ injection E as <- <- <- <-. eauto. }
    search_ E Cr h1 a1 G1 es q n i n1.
    - inv_bind E. destruct (nth_error es i) as [[k v]|] eqn:En; [|discriminate]. injection E1 as <-. injection E as <- <- <- <-.
      destruct (el_live e es (proj1 Cr)) as [_ ->]; [intros ->; now destruct i|]. cbn [bind].
      rewrite nth_error_map, En. cbn [option_map unwrap bind fst snd].
      destruct (nth_set i (k, v) (k, w v) es En) as (l1 & l2 & -> & L & Es). rewrite Es.
      assert (He : elems_are (Elems (el_keys e) (set_at i (Some (w v)) (el_vals e)) (el_len e)) (l1 ++ (k, w v) :: l2)).
      { destruct Cr as [(Hk & Hv & Hl) _]. rewrite map_app in Hk, Hv. cbn [map fst snd] in Hk, Hv.
        split; [|split]; cbn [el_keys el_vals el_len]; rewrite ?map_app; cbn [map fst snd]; auto.
        - eapply set_arr; eauto. now rewrite map_length.
        - rewrite Hl, !app_length. reflexivity. }
      destruct (fcls_sim h1 a1 _ _ _ _ G1 (crel_kids _ _ _ _ _ _ Cr He)) as (h2 & -> & <- & G2). cbn [bind]. eauto.
    - rewrite (crel_child _ _ _ _ i Cr). cbn [bind]. destruct (nth_error ks i) as [c|] eqn:En.
      + inv_bind E. destruct a0 as [[[g2 c'] n2] o']. injection E as <- <- <- <-.
        destruct (IH _ _ _ _ _ _ _ G1 E1) as (h2 & -> & <- & G2). cbn [bind].
        destruct (fcls_sim h2 a1 _ _ _ _ G2 (crel_put _ _ _ _ i c' c Cr En)) as (h3 & -> & <- & G3). cbn [bind]. eauto.
      + injection E as <- <- <- <-.
        destruct (fcls_sim h1 a1 _ _ _ _ G1 Cr) as (h2 & -> & <- & G2). cbn [bind]. eauto.
  Qed.

  Lemma absorb_t_sim h a e d es ks ub kid kv n g a' n' o : good h -> crel e d es ks ->
    asks_none n (g_absorb (er h) a es ks ub kid kv) = Ok (g, a', n', o) ->
    exists h', (if el_len e <? MAX_OCCUPANCY then
              '(e', d') <- cell_absorb e d ub kid kv;;
              h3 <- fcls h a e' d';;
              Ok (h3, a, n, Done FHAbsorbed)
            else
              '((he, hd), (le, ld), div) <- cell_split e d ub kid kv;;
              h3 <- fcls h a he hd;;
              '(h4, b) <- f_alloc h3 le ld;;
              Ok (h4, a, n, Done (FHSplit (Some b) div))) = Ok (h', a', n', o) /\ er h' = g /\ good h'.
  Proof.
    intros G Cr E. unfold asks_none in E. inv_bind E. destruct a0 as [[g1 a1] o1]. injection E as <- <- <- <-.
    destruct (absorb_sim h a e d es ks ub kid kv _ _ _ G Cr E0) as (h' & E & X). exists h'. split; [|exact X]. clear X E0.
    destruct (_ <? _).
    - destruct (cell_absorb e d ub kid kv) as [[e' d']|]; cbn [bind] in *; [|discriminate].
      destruct (fcls h a e' d'); cbn [bind] in *; [|discriminate]. now injection E as <- <- <-.
    - destruct (cell_split e d ub kid kv) as [[[[he hd] [le ld]] div]|]; cbn [bind] in *; [|discriminate].
      destruct (fcls h a he hd); cbn [bind] in *; [|discriminate]. destruct (f_alloc _ _ _) as [[h4 b]|]; cbn [bind] in *; [|discriminate].
      now injection E as <- <- <-.
  Qed.
  Theorem insert_t_sim kv : forall fuel h a n g a' n' o, good h ->
    g_insert_t bor ask small_key bomb fuel (er h) a kv n = Ok (g, a', n', o) ->
    exists h', fh_insert_t bor ask small_key bomb fuel h a kv n = Ok (h', a', n', o) /\ er h' = g /\ good h'.
  Proof.
    induction fuel as [|fuel IH]; intros h a n g a' n' o G E; [discriminate|]. cbn [g_insert_t fh_insert_t] in *.
    open_ E h1 G1 a1 es ks e d Cr.
    2:{ injection E as <- <- <- <-. eauto. }
    search_ E Cr h1 a1 G1 es (bor (fst kv)) n ub n1.
    - inv_bind E. destruct (nth_error es ub) as [old|] eqn:En; [|discriminate]. injection E1 as <-. injection E as <- <- <- <-.
      destruct (replace_sim e es ub old kv (proj1 Cr) En) as (e' & -> & He'). cbn [bind].
      destruct (fcls_sim h1 a1 _ _ _ _ G1 (crel_kids _ _ _ _ _ _ Cr He')) as (h2 & -> & <- & G2). cbn [bind]. eauto.
    - rewrite (crel_child _ _ _ _ ub Cr). cbn [bind]. inv_bind E. destruct a0 as [[[g2 ks1] n2] r].
      assert (X : exists h2 d1, match nth_error ks ub with
                          | Some c => '(h2, c', n2, o) <- fh_insert_t bor ask small_key bomb fuel h1 c kv n1;; Ok (h2, fput d ub c', n2, o)
                          | None => Ok (h1, d, n1, Done (FHSplit None kv))
                          end = Ok (h2, d1, n2, r) /\ er h2 = g2 /\ good h2 /\ crel e d1 es ks1).
      { destruct (nth_error ks ub) as [c|] eqn:En.
        - inv_bind E1. destruct a0 as [[[g3 c'] n3] o']. injection E1 as <- <- <- <-.
          destruct (IH _ _ _ _ _ _ _ G1 E2) as (h2 & -> & <- & G2). cbn [bind]. eexists _, _. split; [reflexivity|].
          split; auto. split; auto. eapply crel_put; eauto.
        - injection E1 as <- <- <- <-. eexists _, _. split; [reflexivity|]. auto. }
      destruct X as (h2 & d1 & -> & <- & G2 & Cr2). cbn [bind].
      destruct r as [[|k0 v0|kid kv1]|];
        try (injection E as <- <- <- <-; destruct (fcls_sim h2 a1 _ _ _ _ G2 Cr2) as (h3 & -> & <- & G3); cbn [bind]; eauto; fail).
      eapply absorb_t_sim; eauto.
  Qed.

  Lemma rebal_t_sim (kv : entry) h a e d es ks at_ n g a' n' o : good h -> crel e d es ks ->
    asks_none n (g_rebal_cls bomb (er h) a es ks at_ kv) = Ok (g, a', n', o) ->
    exists h', asks_none n (fh_rebal_cls bomb h a e d at_ (fun u => Some (kv, u))) = Ok (h', a', n', o) /\ er h' = g /\ good h'.
  Proof.
    intros G Cr E. unfold asks_none in *. inv_bind E. destruct a0 as [[g1 a1] o1]. injection E as <- <- <- <-.
    destruct (rebal_cls_sim bomb (fun u => Some (kv, u)) _ _ _ _ _ _ _ _ _ _ _ G Cr E0) as (h3 & o2 & -> & <- & G3 & Or). cbn [bind].
    destruct o1 as [[[kv' u]|]|], o2 as [x|]; try contradiction; [destruct Or as [-> ->]|]; eauto.
  Qed.
  Theorem remove_node_t_sim q : forall fuel h a n g a' n' o, good h ->
    g_remove_t bor ask small_key bomb fuel (er h) a q n = Ok (g, a', n', o) ->
    exists h', fh_remove_node_t bor ask small_key bomb fuel h a q n = Ok (h', a', n', o) /\ er h' = g /\ good h'.
  Proof.
    induction fuel as [|fuel IH]; intros h a n g a' n' o G E; [discriminate|]. cbn [g_remove_t fh_remove_node_t] in *.
    open_ E h1 G1 a1 es ks e d Cr.
    2:{ injection E as <- <- <- <-. eauto. }
    search_ E Cr h1 a1 G1 es q n i n1.
    - rewrite (crel_some _ _ _ _ Cr). destruct (is_nil ks) eqn:Ek; cbn [negb].
      + inv_bind E. destruct a0 as [kv es']. injection E as <- <- <- <-.
        destruct (remove_sim _ _ _ _ _ (proj1 Cr) E1) as (e' & -> & He'). cbn [bind].
        destruct (fcls_sim h1 a1 _ _ _ _ G1 (crel_kids _ _ _ _ _ _ Cr He')) as (h2 & -> & <- & G2). cbn [bind].
        eexists. split; [now rewrite (proj2 (proj2 He'))|]. auto.
      + rewrite (crel_child _ _ _ _ _ Cr). cbn [bind].
        inv_bind E. destruct (nth_error ks i) as [c|] eqn:Ec; [|discriminate]. injection E1 as <-. cbn [unwrap bind].
        inv_bind E. destruct a0 as [[g2 c'] o1]. destruct (pop_greatest_sim bomb _ _ _ _ _ _ G1 E1) as (h2 & o' & -> & <- & G2 & ->).
        cbn [bind]. pose proof (crel_put _ _ _ _ i c' c Cr Ec) as Cr2. destruct o' as [[kv under]|].
        * cbn [unwrap bind] in E. inv_bind E. destruct (nth_error es i) as [old|] eqn:En; [|discriminate]. injection E2 as <-.
          destruct (replace_sim e es i old kv (proj1 Cr) En) as (e1 & -> & He1). cbn [bind].
          pose proof (crel_kids _ _ _ _ _ _ Cr2 He1) as Cr3. cbv zeta in E. destruct under.
          -- eapply rebal_t_sim; eauto.
          -- injection E as <- <- <- <-. destruct (fcls_sim h2 a1 _ _ _ _ G2 Cr3) as (h3 & -> & <- & G3). cbn [bind]. eauto.
        * injection E as <- <- <- <-. destruct (fcls_sim h2 a1 _ _ _ _ G2 Cr2) as (h3 & -> & <- & G3). cbn [bind]. eauto.
    - rewrite (crel_child _ _ _ _ _ Cr). cbn [bind]. destruct (nth_error ks i) as [c|] eqn:Ec.
      + inv_bind E. destruct a0 as [[[g2 c'] n2] o1]. destruct (IH _ _ _ _ _ _ _ G1 E1) as (h2 & -> & <- & G2). cbn [bind].
        pose proof (crel_put _ _ _ _ i c' c Cr Ec) as Cr2. cbv zeta in E.
        destruct o1 as [[[kv [|]]|]|];
          try (injection E as <- <- <- <-; destruct (fcls_sim h2 a1 _ _ _ _ G2 Cr2) as (h3 & -> & <- & G3); cbn [bind]; eauto; fail).
        eapply rebal_t_sim; eauto.
      + injection E as <- <- <- <-. destruct (fcls_sim h1 a1 _ _ _ _ G1 Cr) as (h2 & -> & <- & G2). cbn [bind]. eauto.
  Qed.
End Sim.
