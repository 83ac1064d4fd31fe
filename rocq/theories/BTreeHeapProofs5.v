(** Calls on shared [BTreeMap]s. *)
From Coq Require Import List PeanoNat Bool Lia.
From Verif Require Import Base Spec Vec Heap HeapProofs BTreeModel BTreeProofs BTreeProofs2 BTreeIterModel BTreeIterProofs
  BTreeHistModel BTreeHeapModel BTreeHeapSpec BTreeHeapProofs BTreeHeapProofs2 BTreeHeapProofs3 BTreeHeapProofs4.
Import ListNotations.
Local Open Scope nat_scope.
Notation den := Heap.den.
Notation dens := Heap.dens.

Section Maps.
  Context {K V Q : Type} (bor : K -> Q) (cmp : Q -> Q -> comparison) (N : nat).
  Variable bomb : nat -> bool.
  Notation pay := (list (K * V)).
  Notation heap := (heap pay).
  Notation bt := (bt K V).
  Notation bmap := (bt_map K V).
  Notation near := (@near K V Q bor cmp).
  Notation path := (@path K V Q bor cmp).
  Notation loose := (@loose K V).
  Notation flat := (@flat K V).

  (** ** Reading *)
  Definition hbm (h : heap) (m : hbmap) (b : bmap) : Prop := hb_len m = bm_len b /\ opt_ns h (hb_root m) (bm_root b).

  Lemma map_res_f2 (h : heap) fuel : (forall a t, h_read fuel h (Some a) = Ok t -> ns h a t) ->
    forall ps ts, map_res (h_read fuel h) ps = Ok ts -> exists ks, ps = map Some ks /\ Forall2 (ns h) ks ts.
  Proof.
    intros H. induction ps as [|p ps IH]; cbn [map_res]; intros ts E.
    - injection E as <-. exists []. auto.
    - destruct (h_read fuel h p) as [t|] eqn:E1; [|discriminate]. cbn [bind] in E.
      destruct (map_res (h_read fuel h) ps) as [us|] eqn:E2; [|discriminate]. cbn [bind] in E. injection E as <-.
      destruct (IH _ eq_refl) as (ks & -> & F). destruct p as [a|]; [|destruct fuel; discriminate].
      exists (a :: ks). auto.
  Qed.
  Lemma read_ns fuel : forall (h : heap) a t, h_read fuel h (Some a) = Ok t -> ns h a t.
  Proof.
    induction fuel as [|fuel IH]; intros h a t E; [discriminate|]. cbn [h_read] in E.
    destruct (get h a) as [[c [es ps]]|] eqn:G; [|discriminate]. cbn [nd_kids nd_data] in E.
    destruct (map_res (h_read fuel h) ps) as [ts|] eqn:E2; [|discriminate]. cbn [bind] in E. injection E as <-.
    destruct (map_res_f2 h fuel (IH h) _ _ E2) as (ks & -> & F). eapply ns_intro; eauto.
  Qed.
  Lemma ns_read : forall fuel (h : heap) a t, n_levels t <= fuel -> ns h a t -> h_read fuel h (Some a) = Ok t.
  Proof.
    induction fuel as [|fuel IH]; intros h a [es ts] L D; [cbn in L; lia|]. cbn [h_read].
    apply ns_inv in D as (c & ks & G & F). rewrite G. cbn [nd_kids nd_data].
    assert (E : map_res (h_read fuel h) (map Some ks) = Ok ts); [|now rewrite E].
    rewrite levels_eq in L. assert (Hl : forall t, In t ts -> n_levels t <= fuel).
    { intros t Ht. pose proof (max_levels_in t ts Ht). lia. }
    clear L G. induction F as [|k t ks ts D F IHF]; [reflexivity|]. cbn [map map_res].
    rewrite (IH h k t); [|apply Hl; now left|auto]. cbn [bind]. rewrite IHF by (intros; apply Hl; now right). reflexivity.
  Qed.
  Lemma levels_chain (h : heap) : forall n t a, n_levels t = n -> ns h a t ->
    exists l, length l = n /\ NoDup l /\ incl l (seq 0 (length (cells h)))
      /\ forall b, In b l -> exists u, n_levels u <= n /\ ns h b u.
  Proof.
    induction n as [n IH] using (well_founded_induction Wf_nat.lt_wf). intros [es ts] a L D; pose proof D as D0.
    apply ns_inv in D as (c & ks & G & F). rewrite levels_eq in L.
    assert (Hl : exists l, length l = max_levels ts /\ NoDup l /\ incl l (seq 0 (length (cells h)))
      /\ forall b, In b l -> exists u, n_levels u <= max_levels ts /\ ns h b u).
    { destruct ts as [|t0 ts0].
      - exists []. split; auto. split; [constructor|]. split; [intros x []|intros b []].
      - assert (Hm : exists t, In t (t0 :: ts0) /\ n_levels t = max_levels (t0 :: ts0)).
        { clear. revert t0. induction ts0 as [|t1 ts IH]; intros t0.
          - exists t0. split; [now left|]. cbn. lia.
          - destruct (IH t1) as (t & Ht & E). unfold max_levels in *. cbn [fold_right] in *.
            destruct (Nat.max_dec (n_levels t0) (fold_right (fun c s => Nat.max (n_levels c) s) 0 (t1 :: ts))) as [X|X]; cbn [fold_right] in X; rewrite X.
            + exists t0. split; [now left|auto].
            + exists t. split; [now right|auto]. }
        destruct Hm as (t & Ht & Et). apply in_split in Ht as (t1 & t2 & E). rewrite E in F.
        apply f2_cut_r in F as (k1 & k & k2 & _ & _ & _ & Dk & _).
        destruct (IH (max_levels (t0 :: ts0))) with (t := t) (a := k) as (l & H1 & H2 & H3 & H4); auto; [lia|].
        exists l. auto. }
    destruct Hl as (l & H1 & H2 & H3 & H4). exists (a :: l). split; [cbn; lia|]. split; [|split].
    - constructor; auto. intros Hi. destruct (H4 a Hi) as (u & Lu & Du). pose proof (ns_det _ _ _ _ D0 Du) as <-.
      rewrite levels_eq in Lu. lia.
    - intros x [<-|Hx]; auto. apply in_seq. apply get_lt in G. lia.
    - intros b [<-|Hi]; [exists (BN es ts); rewrite levels_eq; split; [lia|auto]|].
      destruct (H4 b Hi) as (u & Lu & Du). exists u. split; [lia|auto].
  Qed.
  Lemma levels_depth (h : heap) a t : ns h a t -> n_levels t <= length (cells h).
  Proof.
    intros D. destruct (levels_chain h _ t a eq_refl D) as (l & Ll & Nl & Il & _).
    pose proof (NoDup_incl_length Nl Il) as H. rewrite seq_length in H. lia.
  Qed.
  Lemma read_iff (h : heap) m b : hb_read h m = Ok b <-> hbm h m b.
  Proof.
    destruct m as [n r], b as [n' r']. unfold hb_read, hbm. cbn [hb_root hb_len bm_len bm_root]. destruct r as [a|]; cbn [opt_ns].
    - split.
      + destruct (h_read (depth h) h (Some a)) as [t|] eqn:E; [|discriminate]. cbn [bind]. intros [= <- <-]. apply read_ns in E. auto.
      + intros [<- D]. destruct r' as [t|]; [|contradiction].
        pose proof (levels_depth _ _ _ D) as L. pose proof (ns_read (depth h) h a t) as X. rewrite X; auto. unfold depth. lia.
    - split; [intros [= <- <-]; auto|]. intros [<- D]. destruct r'; [contradiction|auto].
  Qed.

  Lemma hbm_keep O (h h' : heap) m b : keep O h h' -> incl (olist (hb_root m)) O -> hbm h m b -> hbm h' m b.
  Proof.
    intros Kp I [H D]. split; auto. destruct (hb_root m) as [a|], (bm_root b) as [t|]; cbn [opt_ns] in *; auto.
    apply Kp; auto. apply I. now left.
  Qed.

  Definition loose_map (b : bmap) : Prop := match bm_root b with None => True | Some t => exists d, loose d t end.
  Lemma shape_loose h : forall mn t, shape N mn h t -> loose h t.
  Proof.
    induction h as [|h IH]; intros mn t S.
    - apply shape_0 in S as (es & -> & _). constructor.
    - apply shape_S in S as (es & ks & -> & _ & Hk & F). constructor; auto. eapply Forall_impl; [|exact F]. intros c. apply IH.
  Qed.
  Lemma valid_loose b : valid bor cmp N b -> loose_map b.
  Proof.
    intros (_ & _ & S). unfold loose_map. destruct (bm_root b); auto. destruct S as [h S]. exists h. eapply shape_loose; eauto.
  Qed.

  (** ** Calls *)
  Definition root_do {A} (b : bmap) (f : bt -> list A) : list A := match bm_root b with Some t => f t | None => [] end.

  Lemma sess_take (h0 h : heap) R a X O es ts : sess h0 h R (a :: X) O -> ns h a (BN es ts) -> unique h a = true ->
    exists h1 ks, take h a = Ok (h1, Nd es (map Some ks)) /\ sess h0 h1 (a :: R) (ks ++ X) O /\ Forall2 (ns h1) ks ts
      /\ keep (X ++ O) h h1 /\ clones h1 = clones h /\ (forall b, In b X -> unique h b = true -> unique h1 b = true).
  Proof.
    intros S D U. destruct (sess_open (fun _ => false) h0 h R a X O es ts S D) as (h1 & r & E & P).
    apply ns_inv in D as (c & ks & G & F). assert (c = 1) as ->.
    { apply unique_get in U as [n U]. rewrite U in G. now injection G as ->. }
    unfold opn, make_mut in E. rewrite G in E. cbn [bind] in E. unfold take in *. rewrite G in *. cbn [bind nd_data nd_kids] in E.
    rewrite olists_some in E. injection E as <- <-. destruct P as (_ & S1 & F1 & K1 & Us & cs & C1 & _ & Hc).
    rewrite (Hc U) in C1. eexists _, ks. split; [reflexivity|]. auto 10.
  Qed.
  Lemma sess_forget (h0 h : heap) a R X O : sess h0 h (a :: R) X O -> sess h0 h R X O.
  Proof.
    intros [W A F Nd Rs]. split; auto; [inversion Nd; auto|]. intros b Hb. apply Rs. now right.
  Qed.

  Lemma hb_get_mut_ok (h : heap) m b q w O : loose_map b -> sound h (olist (hb_root m) ++ O) -> hbm h m b ->
    exists h' m' o, hb_get_mut bor cmp bomb h m q w = Ok (h', m', o) /\ sound h' (olist (hb_root m') ++ O) /\ frame O h h'
      /\ none_lost h h' (root_do b (path q))
      /\ match o with
         | Done r => r = snd (b_get_mut bor cmp b q w) /\ hbm h' m' (fst (b_get_mut bor cmp b q w))
         | Unwound => hbm h' m' b /\ exists n, bomb n = true
         end.
  Proof.
    intros L S [E D]. unfold hb_get_mut, b_get_mut, loose_map, root_do, hbm in *.
    destruct (hb_root m) as [a|] eqn:Ea, (bm_root b) as [t|] eqn:Eb; cbn [opt_ns] in D; try contradiction.
    - destruct L as [d L]. pose proof (loose_depth _ _ _ _ L D) as Hd.
      destruct (h_get_mut_ok bor cmp bomb q w (depth h) d t a h O L) as (h1 & a1 & o & E1 & S1 & F1 & N1 & P); auto; [unfold depth; lia|].
      rewrite E1. cbn [bind]. eexists _, _, _. split; [reflexivity|]. cbn [hb_root hb_len]. split; auto. split; auto. split; auto.
      destruct o as [e|].
      + destruct P as [-> P]. destruct (n_get_mut bor cmp q w t) as [t' r]. cbn [fst snd bm_len bm_root opt_ns] in *. auto.
      + destruct P as [P Bb]. cbn [opt_ns]. auto 10.
    - eexists _, _, _. split; [reflexivity|]. rewrite Ea. split; auto. split; [apply frame_refl|]. split; [now apply nl_same|].
      cbn [fst snd]. rewrite ?Ea, ?Eb. cbn [opt_ns]. auto 10.
  Qed.

  Lemma hb_insert_ok (h : heap) m b k v b' r O : loose_map b -> sound h (olist (hb_root m) ++ O) -> hbm h m b ->
    b_insert bor cmp N b k v = Ok (b', r) ->
    exists h' m' o, hb_insert bor cmp N bomb h m k v = Ok (h', m', o) /\ sound h' (olist (hb_root m') ++ O) /\ frame O h h'
      /\ none_lost h h' (root_do b (path (bor k)))
      /\ match o with
         | Done x => x = r /\ hbm h' m' b'
         | Unwound => hbm h' m' b /\ exists n, bomb n = true
         end.
  Proof.
    intros L S [E D] Eb. unfold hb_insert, b_insert, loose_map, root_do, hbm in *.
    destruct (hb_root m) as [a|] eqn:Ea, (bm_root b) as [t|] eqn:Er; cbn [opt_ns] in D; try contradiction.
    - destruct L as [d L]. pose proof (loose_depth _ _ _ _ L D) as Hd.
      destruct (n_insert bor cmp N k v t) as [[t' ri]|] eqn:Ei; [|discriminate]. cbn [bind] in Eb.
      destruct (h_insert_ok bor cmp N bomb k v (depth h) d t t' ri a h O L) as (h1 & a1 & o & E1 & F1 & N1 & P); auto; [unfold depth; lia|].
      rewrite E1. cbn [bind]. destruct o as [s|].
      2:{ destruct P as (S1 & D1 & Bb). eexists _, _, _. split; [reflexivity|]. cbn [hb_root hb_len]. rewrite ?Er. cbn [opt_ns]. auto 10. }
      destruct P as (Y & IR & S1 & D1). destruct s as [v1|child k1 v1|]; destruct ri as [v2|tc k2 v2|]; cbn [ins_rel] in IR; try contradiction.
      + destruct IR as [-> ->]. injection Eb as <- <-. eexists _, _, _. split; [reflexivity|]. cbn [hb_root hb_len bm_len bm_root opt_ns]. auto 10.
      + destruct IR as (-> & -> & -> & On). destruct tc as [tc|]; [|discriminate]. cbn [unwrap bind] in Eb. injection Eb as <- <-.
        destruct child as [l|]; [|contradiction]. cbn [unwrap bind opt_ns] in *.
        pose proof (sess_start h1 [l; a1] O) as S2. destruct (alloc _ _) as [h2 r2] eqn:Eal.
        assert (S3 : sess h1 h1 [] ([l; a1] ++ []) O).
        { rewrite app_nil_r. apply S2. destruct S1 as [W1 A1]. split; auto. eapply wf_equiv; [|exact W1]. intros x. cbn [olist app]. rewrite !cnt_cons. lia. }
        destruct (sess_alloc h1 h1 [] [l; a1] [] O [(k2, v2)] [tc; t'] h2 r2 S3) as (S4 & D4 & _ & _ & _ & C4 & _); auto.
        apply sess_end in S4 as [S4 F4]. eexists _, _, _. split; [reflexivity|]. cbn [hb_root hb_len bm_len bm_root opt_ns olist].
        split; auto. split; [eapply frame_trans; eauto|]. split; [eapply nl_eq; eauto|]. auto.
      + subst Y. injection Eb as <- <-. eexists _, _, _. split; [reflexivity|]. cbn [hb_root hb_len bm_len bm_root opt_ns olist]. split; auto. split; auto.
    - injection Eb as <- <-. destruct (alloc _ _) as [h2 r2] eqn:Eal.
      pose proof (sess_start h [] O S) as S0.
      destruct (sess_alloc h h [] [] [] O [(k, v)] [] h2 r2 S0) as (S4 & D4 & _ & _ & _ & C4 & _); auto.
      apply sess_end in S4 as [S4 F4]. eexists _, _, _. split; [reflexivity|]. cbn [hb_root hb_len bm_len bm_root opt_ns olist].
      split; auto. split; auto. split; [now apply nl_same|]. auto.
  Qed.

  (** After a removal that unwound: a map whose tree holds some of the entries, in their order. *)
  Definition left_over (h : heap) (m : hbmap) (b : bmap) : Prop :=
    exists t0 t1 d, bm_root b = Some t0 /\ hbm h m (BMap (bm_len b) (Some t1)) /\ loose d t0 /\ loose d t1 /\ sub (flat t1) (flat t0).

  Lemma rm_and_rebal_ok (h : heap) m b b' r O (call : rm_fun) (vcall : bt -> res (bt * option ((K * V) * bool))) M :
    loose_map b -> sound h (olist (hb_root m) ++ O) -> hbm h m b ->
    (forall d t t' r a O, loose d t -> d < depth h -> sound h (a :: O) -> ns h a t -> vcall t = Ok (t', r) ->
       rm_ok bomb h O d t (M t) t' r (call h a)) ->
    rm_and_rebal b vcall = Ok (b', r) ->
    exists h' m' o, h_rm_and_rebal h m call = Ok (h', m', o) /\ sound h' (olist (hb_root m') ++ O) /\ frame O h h'
      /\ none_lost h h' (root_do b M)
      /\ match o with
         | Done x => x = r /\ hbm h' m' b'
         | Unwound => left_over h' m' b /\ exists n, bomb n = true
         end.
  Proof.
    intros L S [E D] Hc Eb. unfold h_rm_and_rebal, rm_and_rebal, loose_map, root_do, hbm in *.
    destruct (hb_root m) as [a|] eqn:Ea, (bm_root b) as [t|] eqn:Er; cbn [opt_ns] in D; try contradiction.
    2:{ injection Eb as <- <-. eexists _, _, _. split; [reflexivity|]. rewrite Ea. split; auto. split; [apply frame_refl|].
        split; [now apply nl_same|]. rewrite ?Ea, ?Er. cbn [opt_ns]. auto 10. }
    destruct L as [d L]. pose proof (loose_depth _ _ _ _ L D) as Hd.
    destruct (vcall t) as [[t' ri]|] eqn:Ei; [|discriminate]. cbn [bind] in Eb.
    destruct (Hc d t t' ri a O L) as (h1 & a1 & o & E1 & S1 & F1 & N1 & P); auto; [unfold depth; lia|].
    rewrite E1. cbn [bind]. destruct o as [s|].
    2:{ destruct P as (Bb & t1 & D1 & L1 & Sb). eexists _, _, _. split; [reflexivity|]. cbn [hb_root hb_len]. split; auto. split; auto. split; auto.
        split; auto. exists t, t1, d. unfold hbm. cbn. auto 10. }
    destruct P as (-> & D1 & U1). destruct ri as [[old under]|].
    2:{ injection Eb as <- <-. eexists _, _, _. split; [reflexivity|]. cbn [hb_root hb_len bm_len bm_root opt_ns]. auto 10. }
    rewrite E. destruct (usize_sub (bm_len b) 1) as [len|]; [|discriminate]. cbn [bind] in *.
    destruct t' as [es ts]. cbn [elems_of kids_of] in Eb.
    pose proof (sess_start h1 [a1] O S1) as S2.
    destruct (sess_take h1 h1 [] a1 [] O es ts S2 D1 U1) as (h2 & ks & E2 & S3 & F3 & K3 & C3 & _).
    rewrite E2. cbn [bind nd_data nd_kids]. rewrite olists_some.
    destruct (under && is_nil es).
    - rewrite (f2_length _ _ _ F3). destruct (length ts <=? 1) eqn:El; [|discriminate]. cbn [assert_ bind] in *. injection Eb as <- <-.
      assert (Hp : exists root troot, (match vec_pop ks with Some (c, ks') => (Some c, ks') | None => (None, ks) end) = (root, [])
        /\ option_map fst (vec_pop ts) = troot /\ opt_ns h2 root troot /\ ks = olist root).
      { apply Nat.leb_le in El. destruct F3 as [|k0 t0 ks ts D3 F3]; [exists None, None; cbn; auto|].
        destruct F3; [|cbn [length] in El; lia]. exists (Some k0), (Some t0). cbn. auto. }
      destruct Hp as (root & troot & -> & -> & On & ->).
      assert (S3' : sess h1 h2 [a1] ([] ++ olist root) O) by perm.
      destruct (sess_close h1 h2 [] a1 [] (olist root) O es [] S3') as (S4 & _ & K4 & _ & _ & C4); auto.
      destruct (sess_drop h1 (cls h2 a1 es []) [] (Some a1) (olist root) O S4) as (h3 & E5 & S5 & K5 & C5 & _).
      rewrite E5. cbn [bind]. eexists _, _, _. split; [reflexivity|]. apply sess_end in S5 as [S5 F5]. cbn [hb_root hb_len bm_len bm_root].
      split; auto. split; [eapply frame_trans; eauto|]. split; [eapply nl_eq; [|exact N1]; congruence|]. split; auto. split; auto.
      destruct root as [c|], troot as [tc|]; cbn [opt_ns] in *; auto. apply K5; [mem|]. apply K4. exact On.
    - injection Eb as <- <-. destruct (sess_close h1 h2 [] a1 ks [] O es ts S3 F3) as (S4 & D4 & _ & _ & _ & C4).
      apply sess_end in S4 as [S4 F4]. eexists _, _, _. split; [reflexivity|]. cbn [hb_root hb_len bm_len bm_root opt_ns].
      split; auto. split; [eapply frame_trans; eauto|]. split; [eapply nl_eq; [|exact N1]; congruence|]. auto.
  Qed.

  Lemma hb_pop_first_ok (h : heap) m b b' r O : loose_map b -> sound h (olist (hb_root m) ++ O) -> hbm h m b ->
    b_pop_first N b = Ok (b', r) ->
    exists h' m' o, hb_pop_first N bomb h m = Ok (h', m', o) /\ sound h' (olist (hb_root m') ++ O) /\ frame O h h'
      /\ none_lost h h' (root_do b near_first)
      /\ match o with Done x => x = r /\ hbm h' m' b' | Unwound => left_over h' m' b /\ exists n, bomb n = true end.
  Proof.
    intros L S D E. eapply (rm_and_rebal_ok h m b b' r O (h_pop_first N bomb (depth h)) (n_pop_first N)); eauto.
    intros. eapply h_pop_first_ok; eauto.
  Qed.
  Lemma hb_pop_last_ok (h : heap) m b b' r O : loose_map b -> sound h (olist (hb_root m) ++ O) -> hbm h m b ->
    b_pop_last N b = Ok (b', r) ->
    exists h' m' o, hb_pop_last N bomb h m = Ok (h', m', o) /\ sound h' (olist (hb_root m') ++ O) /\ frame O h h'
      /\ none_lost h h' (root_do b near_last)
      /\ match o with Done x => x = r /\ hbm h' m' b' | Unwound => left_over h' m' b /\ exists n, bomb n = true end.
  Proof.
    intros L S D E. eapply (rm_and_rebal_ok h m b b' r O (h_pop_last N bomb (depth h)) (n_pop_last N)); eauto.
    intros. eapply h_pop_last_ok; eauto.
  Qed.
  Lemma hb_remove_ok (h : heap) m b q b' r O : loose_map b -> sound h (olist (hb_root m) ++ O) -> hbm h m b ->
    b_remove bor cmp N b q = Ok (b', r) ->
    exists h' m' o, hb_remove bor cmp N bomb h m q = Ok (h', m', o) /\ sound h' (olist (hb_root m') ++ O) /\ frame O h h'
      /\ none_lost h h' (if b_contains_key bor cmp b q then root_do b (near q) else [])
      /\ match o with Done x => x = r /\ hbm h' m' b' | Unwound => left_over h' m' b /\ exists n, bomb n = true end.
  Proof.
    intros L S D E. unfold hb_remove, b_remove in *. rewrite (proj2 (read_iff h m b) D). cbn [bind].
    destruct (b_contains_key bor cmp b q) eqn:Ec; cbn [negb] in *.
    2:{ injection E as <- <-. eexists _, _, _. split; [reflexivity|]. split; auto. split; [apply frame_refl|]. split; [now apply nl_same|]. auto. }
    destruct (rm_and_rebal b (n_remove bor cmp N q)) as [[b1 r1]|] eqn:Er; [|discriminate]. cbn [bind] in E. injection E as <- <-.
    destruct (rm_and_rebal_ok h m b b1 r1 O (fun h a => h_remove bor cmp N bomb (depth h) h a q) (n_remove bor cmp N q) (near q))
      as (h' & m' & o & E1 & A1 & A2 & A3 & A4); auto.
    { intros. eapply h_remove_ok; eauto. }
    rewrite E1. cbn [bind]. eexists _, _, _. split; [reflexivity|]. split; auto. split; auto. split; auto.
    destruct o as [x|]; auto. destruct A4 as [-> A4]. auto.
  Qed.

  (** ** Copies and drops *)
  Lemma hb_clone_ok (h : heap) m b O : sound h (olist (hb_root m) ++ O) -> hbm h m b ->
    exists h', hb_clone h m = Ok (h', m) /\ sound h' (olist (hb_root m) ++ olist (hb_root m) ++ O)
      /\ frame (olist (hb_root m) ++ O) h h' /\ hbm h' m b /\ clones h' = clones h.
  Proof.
    intros [W A] D. unfold hb_clone.
    destruct (inc_ok h (hb_root m) (olist (hb_root m) ++ O) W A) as (h' & E & W' & A' & S1 & S2 & _ & Lc & C).
    { intros x Hx. apply in_or_app. left. apply in_or_app. now left. }
    rewrite E. cbn [bind]. exists h'. split; auto. split; [split; auto|].
    assert (F : frame (olist (hb_root m) ++ O) h h').
    { apply same_frame; auto; [|lia]. intros a Ga _. destruct (get h' a) as [[c n]|] eqn:G; auto. apply S2 in G as [c' G]. congruence. }
    split; auto. split; auto.
    eapply hbm_keep; [apply frame_keep; exact F|intros x Hx; apply in_or_app; now left|auto].
  Qed.
  Lemma hb_drop_ok (h : heap) m O : sound h (olist (hb_root m) ++ O) ->
    exists h', hb_drop h m = Ok h' /\ sound h' O /\ frame O h h' /\ clones h' = clones h.
  Proof.
    intros [W A]. destruct (drop_ok h (hb_root m) O W A) as (h' & E & W1 & A1 & F & C & _). exists h'. split; auto. split; [split; auto|auto].
  Qed.
  Lemma hb_clear_ok (h : heap) m O : sound h (olist (hb_root m) ++ O) ->
    exists h', hb_clear h m = Ok (h', hb_new) /\ sound h' O /\ frame O h h' /\ clones h' = clones h.
  Proof.
    intros S. destruct (hb_drop_ok h m O S) as (h' & E & P). exists h'. unfold hb_clear, hb_drop in *. rewrite E. auto.
  Qed.
End Maps.
