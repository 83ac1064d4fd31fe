(** Calls on shared [BTreeMap]s, with comparisons that may panic. *)
From Coq Require Import List PeanoNat Bool Lia.
From Verif Require Import Base Spec Vec Heap HeapProofs BTreeModel BTreeProofs BTreeProofs2 BTreeIterModel BTreeIterProofs BTreeHistModel
  Ask AskSpec AskAnySpec AskAnyProofs BTreeAskModel BTreeAskAnyProofs AnyOrdSpec AnyOrdShows BTreeAnyProofs
  BTreeHeapModel BTreeHeapSpec BTreeHeapProofs BTreeHeapProofs2 BTreeHeapProofs3 BTreeHeapProofs4 BTreeHeapProofs5
  BTreeHeapAskModel BAskHeapSpec BTreeHeapAskProofs BTreeHeapAskProofs2.
Import ListNotations.
Local Open Scope nat_scope.

Section Maps.
  Context {K V Q : Type} (bor : K -> Q) (ask : nat -> Q -> Q -> option comparison) (N : nat).
  Variable bomb : nat -> bool.
  Notation entry := (K * V)%type.
  Notation pay := (list (K * V)).
  Notation heap := (heap pay).
  Notation bt := (bt K V).
  Notation bmap := (bt_map K V).
  Notation near_t := (@near_t K V Q bor ask).
  Notation path_t := (@path_t K V Q bor ask).
  Notation loose := (@loose K V).
  Notation flat := (@flat K V).
  Notation why := (why ask bomb).
  Notation said := (said bor ask).

  Lemma hb_get_mut_t_ok (h : heap) m b q w O n : loose_map b -> sound h (olist (hb_root m) ++ O) -> hbm h m b ->
    exists h' m' n' o, hb_get_mut_t bor ask bomb h m q w n = Ok (h', m', n', o) /\ n <= n' /\ sound h' (olist (hb_root m') ++ O) /\ frame O h h'
      /\ none_lost h h' (root_do b (fun t => path_t q t n))
      /\ match o with
         | Done r => exists b', b_get_mut_t bor ask b q w n = Returned b' r n' /\ hbm h' m' b'
         | Unwound => hbm h' m' b /\ why n'
         end.
  Proof.
    intros L S [E D]. unfold hb_get_mut_t, b_get_mut_t, loose_map, root_do, hbm in *.
    destruct (hb_root m) as [a|] eqn:Ea, (bm_root b) as [t|] eqn:Eb; cbn [opt_ns] in D; try contradiction.
    - destruct L as [d L]. pose proof (loose_depth _ _ _ _ L D) as Hd.
      destruct (h_get_mut_t_ok bor ask bomb q w (depth h) d t a h O n L) as (h1 & a1 & n1 & o & E1 & Ln & S1 & F1 & N1 & P); auto; [unfold depth; lia|].
      rewrite E1. cbn [bind]. eexists _, _, _, _. split; [reflexivity|]. cbn [hb_root hb_len]. split; [exact Ln|]. split; [exact S1|]. split; [exact F1|]. split; [exact N1|].
      destruct o as [e|].
      + destruct P as (t' & -> & P). cbn [after]. eexists. split; [reflexivity|]. cbn. auto.
      + destruct P as [P Bb]. cbn [opt_ns]. auto.
    - eexists _, _, _, _. split; [reflexivity|]. rewrite Ea. split; [lia|]. split; [exact S|]. split; [apply frame_refl|]. split; [now apply nl_same|].
      exists b. rewrite Eb. cbn. auto.
  Qed.

  Lemma hb_insert_t_ok (h : heap) m b k v O n : loose_map b -> sound h (olist (hb_root m) ++ O) -> hbm h m b ->
    b_insert_t bor ask N b k v n <> Fault ->
    exists h' m' n' o, hb_insert_t bor ask N bomb h m k v n = Ok (h', m', n', o) /\ n <= n' /\ sound h' (olist (hb_root m') ++ O) /\ frame O h h'
      /\ none_lost h h' (root_do b (fun t => path_t (bor k) t n))
      /\ match o with
         | Done r => exists b', b_insert_t bor ask N b k v n = Returned b' r n' /\ hbm h' m' b'
         | Unwound => hbm h' m' b /\ why n'
         end.
  Proof.
    intros L S [E D] NF. unfold hb_insert_t, b_insert_t, loose_map, root_do, hbm in *.
    destruct (hb_root m) as [a|] eqn:Ea, (bm_root b) as [t|] eqn:Er; cbn [opt_ns] in D; try contradiction.
    - destruct L as [d L]. pose proof (loose_depth _ _ _ _ L D) as Hd.
      assert (NK : n_insert_t bor ask N k v t n <> Fault) by (intros X; apply NF; now rewrite X).
      destruct (h_insert_t_ok bor ask N bomb k v (depth h) d t a h O n L) as (h1 & a1 & n1 & o & E1 & Ln & F1 & N1 & P); auto; [unfold depth; lia|].
      rewrite E1. cbn [bind]. destruct o as [s|].
      2:{ destruct P as (S1 & D1 & Bb). eexists _, _, _, _. split; [reflexivity|]. cbn [hb_root hb_len]. cbn [opt_ns olist app]. auto 10. }
      destruct P as (t' & ri & Y & Eq & IR & S1 & D1). rewrite Eq in *. cbn [after] in *.
      destruct s as [v1|child k1 v1|]; destruct ri as [v2|tc k2 v2|]; cbn [ins_rel] in IR; try contradiction.
      + destruct IR as [-> ->]. eexists _, _, _, _. split; [reflexivity|]. cbn [hb_root hb_len]. split; [exact Ln|]. split; [exact S1|]. split; [exact F1|]. split; [exact N1|].
        eexists. split; [reflexivity|]. cbn. auto.
      + destruct IR as (-> & -> & -> & On). destruct tc as [tc|]; cbn [unwrap bind plain] in *; [|congruence].
        destruct child as [l|]; [|contradiction]. cbn [unwrap bind opt_ns] in *.
        pose proof (sess_start h1 [l; a1] O) as S2. destruct (alloc _ _) as [h2 r2] eqn:Eal.
        assert (S3 : sess h1 h1 [] ([l; a1] ++ []) O).
        { rewrite app_nil_r. apply S2. destruct S1 as [W1 A1]. split; auto. eapply wf_equiv; [|exact W1]. intros x. cbn [olist app]. rewrite !cnt_cons. lia. }
        destruct (sess_alloc h1 h1 [] [l; a1] [] O [(k2, v2)] [tc; t'] h2 r2 S3) as (S4 & D4 & _ & _ & _ & C4 & _); auto.
        apply sess_end in S4 as [S4 F4]. eexists _, _, _, _. split; [reflexivity|]. cbn [hb_root hb_len olist].
        split; [exact Ln|]. split; [exact S4|]. split; [eapply frame_trans; eauto|]. split; [eapply nl_eq; eauto|].
        eexists. split; [reflexivity|]. cbn. auto.
      + subst Y. eexists _, _, _, _. split; [reflexivity|]. cbn [hb_root hb_len olist]. split; [exact Ln|]. split; [exact S1|]. split; [exact F1|]. split; [exact N1|].
        eexists. split; [reflexivity|]. cbn. auto.
    - destruct (alloc _ _) as [h2 r2] eqn:Eal.
      pose proof (sess_start h [] O S) as S0.
      destruct (sess_alloc h h [] [] [] O [(k, v)] [] h2 r2 S0) as (S4 & D4 & _ & _ & _ & C4 & _); auto.
      apply sess_end in S4 as [S4 F4]. eexists _, _, _, _. split; [reflexivity|]. cbn [hb_root hb_len olist].
      split; [lia|]. split; [exact S4|]. split; [exact F4|]. split; [now apply nl_same|]. eexists. split; [reflexivity|]. cbn. auto.
  Qed.

  (** A removal clones nodes beside the way of its second walk, which begins at comparison number [n1]. *)
  Lemma hb_remove_t_ok (h : heap) m b q O n : loose_map b -> sound h (olist (hb_root m) ++ O) -> hbm h m b ->
    b_remove_t bor ask N b q n <> Fault ->
    (forall n1 u r, b_contains_t bor ask b q n = Returned u r n1 -> n <= n1) ->
    (forall n1 u, b_contains_t bor ask b q n = Ask.Unwound u n1 -> n <= n1 /\ panicked ask n1) ->
    exists h' m' n1 n' o, hb_remove_t bor ask N bomb h m q n = Ok (h', m', n', o) /\ n <= n1 <= n' /\ sound h' (olist (hb_root m') ++ O) /\ frame O h h'
      /\ none_lost h h' (root_do b (fun t => near_t q t n1))
      /\ match o with
         | Done r => exists b', b_remove_t bor ask N b q n = Returned b' r n' /\ hbm h' m' b'
         | Unwound => (panicked ask n' /\ hbm h' m' b) \/ ((exists i, bomb i = true) /\ left_over h' m' b)
         end.
  Proof.
    intros L S M NF C1 C2. unfold hb_remove_t, hb_contains_t, h_look_t. rewrite (proj2 (read_iff h m b) M). cbn [bind].
    unfold b_remove_t in *. destruct (b_contains_t bor ask b q n) as [u there n1|u n1|] eqn:Ec; cbn [after bind] in *; [| |congruence].
    2:{ destruct (C2 _ _ eq_refl) as [Ln P]. eexists _, _, n1, _, _. split; [reflexivity|]. split; [lia|]. split; [exact S|]. split; [apply frame_refl|]. split; [now apply nl_same|]. auto. }
    pose proof (C1 _ _ _ eq_refl) as Ln. clear C1 C2. destruct there; cbn [negb] in *.
    2:{ eexists _, _, n1, _, _. split; [reflexivity|]. split; [lia|]. split; [exact S|]. split; [apply frame_refl|]. split; [now apply nl_same|]. eauto. }
    destruct M as [E D]. unfold loose_map, root_do, hbm in *.
    destruct (hb_root m) as [a|] eqn:Ea, (bm_root b) as [t|] eqn:Er; cbn [opt_ns] in D; try contradiction.
    2:{ eexists _, _, n1, _, _. split; [reflexivity|]. rewrite Ea. split; [lia|]. split; [exact S|]. split; [apply frame_refl|]. split; [now apply nl_same|].
        exists b. rewrite Er. cbn. auto. }
    destruct L as [d L]. pose proof (loose_depth _ _ _ _ L D) as Hd.
    assert (NK : n_remove_t bor ask N q t n1 <> Fault) by (intros X; apply NF; now rewrite X).
    destruct (h_remove_t_ok bor ask N bomb q (depth h) d t a h O n1 L) as (h1 & a1 & n2 & o & E1 & L2 & S1 & F1 & N1 & P); auto; [unfold depth; lia|].
    rewrite E1. cbn [bind]. destruct o as [s|].
    2:{ eexists _, _, n1, _, _. split; [reflexivity|]. cbn [hb_root hb_len olist app]. split; [lia|]. split; [exact S1|]. split; [exact F1|]. split; [exact N1|].
        destruct P as [[Pn D1]|[Bb (t1 & D1 & L1 & Sb)]]; [left; cbn; auto|right]. split; [exact Bb|]. exists t, t1, d. unfold hbm. cbn. auto 10. }
    destruct P as (t' & Eq & D1 & U1). rewrite Eq in *. cbn [after] in *. destruct s as [[old under]|].
    2:{ eexists _, _, n1, _, _. split; [reflexivity|]. cbn [hb_root hb_len]. split; [lia|]. split; [exact S1|]. split; [exact F1|]. split; [exact N1|].
        eexists. split; [reflexivity|]. cbn. auto. }
    rewrite E. destruct (usize_sub (bm_len b) 1) as [len|]; cbn [bind plain] in *; [|congruence].
    destruct t' as [es ts]. cbn [elems_of kids_of] in *.
    pose proof (sess_start h1 [a1] O S1) as S2.
    destruct (sess_take h1 h1 [] a1 [] O es ts S2 D1 U1) as (h2 & ks & E2 & S3 & F3 & K3 & C3 & _).
    rewrite E2. cbn [bind nd_data nd_kids]. rewrite olists_some.
    destruct (under && is_nil es).
    - rewrite (f2_length _ _ _ F3). destruct (length ts <=? 1) eqn:El; cbn [assert_ bind plain] in *; [|congruence].
      assert (Hp : exists root troot, (match vec_pop ks with Some (c, ks') => (Some c, ks') | None => (None, ks) end) = (root, [])
        /\ option_map fst (vec_pop ts) = troot /\ opt_ns h2 root troot /\ ks = olist root).
      { apply Nat.leb_le in El. destruct F3 as [|k0 t0 ks ts D3 F3]; [exists None, None; cbn; auto|].
        destruct F3; [|cbn [length] in El; lia]. exists (Some k0), (Some t0). cbn. auto. }
      destruct Hp as (root & troot & -> & -> & On & ->).
      assert (S3' : sess h1 h2 [a1] ([] ++ olist root) O) by perm.
      destruct (sess_close h1 h2 [] a1 [] (olist root) O es [] S3') as (S4 & _ & K4 & _ & _ & C4); auto.
      destruct (sess_drop h1 (cls h2 a1 es []) [] (Some a1) (olist root) O S4) as (h3 & E5 & S5 & K5 & C5 & _).
      rewrite E5. cbn [bind]. eexists _, _, n1, _, _. split; [reflexivity|]. apply sess_end in S5 as [S5 F5]. cbn [hb_root hb_len].
      split; [lia|]. split; [exact S5|]. split; [eapply frame_trans; eauto|]. split; [eapply nl_eq; [|exact N1]; congruence|].
      eexists. split; [reflexivity|]. split; [reflexivity|]. cbn [hb_root bm_root].
      destruct root as [c|], troot as [tc|]; cbn [opt_ns] in *; auto. apply K5; [mem|]. apply K4. exact On.
    - destruct (sess_close h1 h2 [] a1 ks [] O es ts S3 F3) as (S4 & D4 & _ & _ & _ & C4).
      apply sess_end in S4 as [S4 F4]. eexists _, _, n1, _, _. split; [reflexivity|]. cbn [hb_root hb_len].
      split; [lia|]. split; [exact S4|]. split; [eapply frame_trans; eauto|]. split; [eapply nl_eq; [|exact N1]; congruence|].
      eexists. split; [reflexivity|]. cbn. auto.
  Qed.
End Maps.
