(** Removal from shared nodes, on the level of lists. *)
From Coq Require Import List PeanoNat Bool Lia.
From Verif Require Import Base Spec SpecFacts Vec Heap HeapProofs BTreeModel BTreeProofs BTreeProofs2 BTreeHeapModel
  BTreeHeapSpec BTreeHeapProofs BTreeHeapProofs2 BTreeHeapProofs3 BTreeHeapProofs4 BTreeHeapProofs5
  FixedModel FixedProofs FixedProofs2 FixedProofs3 FixedHeapModel FixedHeapProofs2 FixedHeapProofs3.
Import ListNotations.
Local Open Scope nat_scope.

Section Remove2.
  Context {K V Q : Type} (bor : K -> Q) (cmp : Q -> Q -> comparison).
  Context (laws : order_laws cmp) (small_key : bool).
  Variable bomb : nat -> bool.
  Notation pay := (list (K * V)).
  Notation heap := (heap pay).
  Notation bt := (bt K V).
  Notation entry := (K * V)%type.
  Notation N := MIN_OCCUPANCY.
  Notation scan := (@scan K V Q bor cmp).
  Notation rank := (@rank K V Q bor cmp).
  Notation hit := (@hit K V Q bor cmp).
  Notation near := (@near K V Q bor cmp).
  Notation loose := (@loose K V).
  Notation flat := (@flat K V).
  Notation asc := (@ascending K V Q bor cmp).
  Notation shape := (@shape K V MIN_OCCUPANCY).
  Notation left_ok := (@left_ok K V MIN_OCCUPANCY).
  Notation rm_ok := (@FixedHeapProofs2.rm_ok K V bomb).

  Lemma rm_unwound h0 (h : heap) O a es ts t' r M : sess h0 h [] [a] O -> clones h = es :: clones h0 -> ns h a (BN es ts) ->
    (exists n, bomb n = true) -> rm_ok h0 O (M ++ [es]) t' r (Ok (h, a, Unwound)).
  Proof.
    intros S C D Bb. apply sess_end in S as [S F]. eexists _, _, _. split; [reflexivity|]. split; auto. split; auto.
    split. { apply nl_one in C. eapply nl_le; [|exact C]. apply sub_app_r, sub_refl. }
    split; auto. exists (BN es ts). auto.
  Qed.
  Lemma rm_close (h0 h : heap) O a ks ts es M r : sess h0 h [a] (ks ++ []) O -> Forall2 (ns h) ks ts -> none_lost h0 h M ->
    rm_ok h0 O M (BN es ts) r (Ok (cls h a es ks, a, Done r)).
  Proof.
    intros S F NL. destruct (node_close _ _ _ _ _ es _ S F) as (A1 & A2 & A3 & A4 & A5).
    eexists _, _, _. split; [reflexivity|]. auto 10.
  Qed.
  Lemma rm_close_un (h0 h : heap) O a ks ts es t' M r : sess h0 h [a] (ks ++ []) O -> Forall2 (ns h) ks ts -> none_lost h0 h M ->
    (exists n, bomb n = true) -> rm_ok h0 O M t' r (Ok (cls h a es ks, a, Unwound)).
  Proof.
    intros S F NL Bb. destruct (node_close _ _ _ _ _ es _ S F) as (A1 & A2 & A3 & A4 & A5).
    eexists _, _, _. split; [reflexivity|]. split; auto. split; auto. split; [eapply nl_eq; eauto|]. split; auto. eauto.
  Qed.

  Lemma full_kids d (ts : list bt) : Forall (shape N d) ts -> Forall (fun t => 1 <= n_len t) ts.
  Proof.
    apply Forall_impl. intros [es ks] S. apply shape_iff in S as [B _]. unfold n_len. cbn [elems_of]. change N with 5 in B. lia.
  Qed.
  Lemma under_len d (t : bt) : left_ok N d t true -> n_len t = N - 1.
  Proof. intros [S L]. destruct t as [es ks]. apply shape_iff in S as [B _]. unfold n_len in *. cbn [elems_of] in *. lia. Qed.
  Lemma left_loose mn d (t : bt) u : left_ok mn d t u -> loose d t.
  Proof. destruct u; [intros [S _]|intros S]; eapply shape_loose; eauto. Qed.

  Definition rm_fun := heap -> addr -> res (heap * addr * out (option (entry * bool))).

  (** A removal in one child of an opened node, and what follows. *)
  Lemma rm_kid (h0 h1 : heap) O a es ks tl t0 tr d i c (call : rm_fun) M0 M1 t0' r0 t' r :
    sess h0 h1 [a] (ks ++ []) O -> Forall2 (ns h1) ks (tl ++ t0 :: tr) -> loose (S d) (BN es (tl ++ t0 :: tr)) -> none_lost h0 h1 M0 ->
    i = length tl -> nth_error ks i = Some c -> Forall (shape N d) tl -> Forall (shape N d) tr ->
    (forall X, sound h1 (c :: X) -> ns h1 c t0 -> rm_ok h1 X M1 t0' r0 (call h1 c)) ->
    loose d t0' -> (forall kv, r0 = Some (kv, true) -> left_ok N d t0' true) ->
    match r0 with
    | Some (kv, true) => '(t2, u) <- rebal N (BN es (tl ++ t0' :: tr)) i;; Ok (t2, Some (kv, u))
    | _ => Ok (BN es (tl ++ t0' :: tr), r0)
    end = Ok (t', r) ->
    rm_ok h0 O ((beside i (tl ++ t0 :: tr) ++ M1) ++ M0) t' r
      ('(h2, c', o) <- call h1 c;;
       match o with
       | Done (Some (kv, true)) => g_rebal_cls bomb h2 a es (set_at i c' ks) i kv
       | _ => Ok (cls h2 a es (set_at i c' ks), a, o)
       end).
  Proof.
    intros S1 F1 L NL Hi Ek Fs1 Fs2 Hcall L0' Hun E.
    destruct (f2_cut_r _ _ _ _ _ F1) as (kl & c0 & kr & -> & Lk & Fl & Dc & Fr).
    rewrite (nth_mid kl) in Ek by lia. injection Ek as ->.
    destruct (Hcall ((kl ++ kr ++ []) ++ O)) as (h2 & c' & o & E2 & S2 & Fr2 & N2 & P2); auto; [eapply kid_sound; eauto|].
    rewrite E2. cbn [bind]. rewrite (set_at_mid kl c c' kr) by lia.
    destruct (kid_done h0 h1 h2 [a] kl c [c'] kr [] O S1 S2 Fr2) as [S3 K3].
    assert (S3' : sess h0 h2 [a] ((kl ++ c' :: kr) ++ []) O) by perm.
    assert (Fl' : Forall2 (ns h2) kl tl) by (eapply keep_f2; [exact K3|inc|exact Fl]).
    assert (Fr' : Forall2 (ns h2) kr tr) by (eapply keep_f2; [exact K3|inc|exact Fr]).
    assert (NL2 : none_lost h0 h2 (M1 ++ M0)) by (eapply nl_trans; eauto).
    assert (NL3 : none_lost h0 h2 ((beside i (tl ++ t0 :: tr) ++ M1) ++ M0)).
    { eapply nl_le; [|exact NL2]. rewrite <- app_assoc. apply sub_app_r, sub_refl. }
    destruct o as [r2|].
    - destruct P2 as (-> & D2 & U2).
      assert (Cl : Ok (BN es (tl ++ t0' :: tr), r0) = Ok (t', r) ->
        rm_ok h0 O ((beside i (tl ++ t0 :: tr) ++ M1) ++ M0) t' r (Ok (cls h2 a es (kl ++ c' :: kr), a, Done r0))).
      { intros Ex. injection Ex as <- <-. apply rm_close; auto. apply f2_set; auto. }
      destruct r0 as [[kv [|]]|]; [|apply Cl; exact E..].
      destruct (rebal N _ _) as [[t2' u']|] eqn:Er; cbn [bind] in E; [|discriminate]. injection E as <- <-.
      rewrite <- app_assoc. rewrite (beside_mid i tl t0 t0' tr) by lia.
      pose proof (Hun kv eq_refl) as Lu. pose proof (under_len _ _ Lu) as Le.
      apply (g_rebal_cls_ok bomb h0 h2 O a es (kl ++ c' :: kr) (tl ++ t0' :: tr) i c' d t2' u' kv); auto.
      + apply f2_set; auto.
      + apply loose_inv in L as [[? _]|(d' & X & Hl & FL)]; [discriminate|]. injection X as <-.
        apply Forall_app in FL as [FL1 FL2]. inversion FL2; subst. constructor; [rewrite app_length in *; exact Hl|].
        apply Forall_app. auto.
      + apply nth_mid. lia.
      + apply Forall_app. split; [eapply full_kids; eauto|]. constructor; [|eapply full_kids; eauto]. rewrite Le. change N with 5. lia.
      + intros tc Htc. rewrite (nth_mid tl) in Htc by lia. injection Htc as <-. exact Le.
    - destruct P2 as (Bb & t1' & D1). apply (rm_close_un h0 h2 O a _ (tl ++ t1' :: tr)); auto. apply f2_set; auto.
  Qed.

  Lemma g_pop_last_ok fuel : forall mn d t t' r a (h : heap) O, 1 <= mn <= N -> shape mn d t -> d < fuel -> sound h (a :: O) -> ns h a t ->
    n_pop_last N t = Ok (t', r) -> rm_ok h O (near_last t) t' r (g_pop_last bomb fuel h a).
  Proof.
    induction fuel as [|fuel IH]; intros mn d [es ts] t' r a h O Hm Sh Lf S D E; [lia|]. cbn [g_pop_last].
    pose proof (sess_start h [a] O S) as S0. pose proof (shape_loose _ _ _ _ Sh) as L.
    destruct (sess_open bomb h h [] a [] O es ts S0 D) as (h1 & o & Eo & P). rewrite Eo. cbn [bind].
    destruct o as [[[a' es'] ks]|].
    2:{ destruct P as (S1 & K1 & C1 & _ & B & _). cbn [near_last]. eapply (rm_unwound h h1 O a es ts); eauto. apply K1; [mem|auto]. }
    destruct P as (-> & S1 & F1 & K1 & _ & cs & C1 & Sc & _).
    assert (N1 : none_lost h h1 [es]) by (exists cs; auto). cbn [near_last].
    unfold last_opt. destruct (nth_error ks (length ks - 1)) as [c|] eqn:Ek.
    - assert (EL : length ks - 1 = length es). { eapply last_at'; [exact F1|exact L|]. intros ->. discriminate. }
      rewrite EL in *. assert (ET : length ts - 1 = length es) by (rewrite <- (f2_length _ _ _ F1); exact EL).
      destruct d as [|d']. { destruct (shape_0 _ _ _ Sh) as (es0 & X & _). injection X as <- ->. inversion F1; subst. rewrite nth_nil in Ek. discriminate. }
      destruct (shape_S _ _ _ _ Sh) as (es0 & ks0 & X & Hb & Hk & HF). injection X as <- <-.
      destruct (f2_at _ _ _ _ _ F1 Ek) as (kl & kr & tl & t0 & tr & -> & -> & Lk & Lt & _).
      apply Forall_mid in HF as (Fs1 & Ft & Fs2).
      cbn [n_pop_last] in E. unfold last_opt in E. rewrite map_length, ET in E.
      rewrite nth_error_map in *. rewrite (nth_mid tl) in * by lia. cbn [option_map] in *.
      destruct (n_pop_last_ok N min_pos N d' t0) as (t0' & e0 & u0 & E0 & Lo0 & _); auto; [split; [exact min_pos|auto]|].
      rewrite E0 in E. cbn [bind] in E. rewrite (set_at_mid tl) in E by lia.
      eapply (rm_kid h h1 O a' es (kl ++ c :: kr) tl t0 tr d' (length es) c (g_pop_last bomb fuel) [es] (near_last t0) t0' (Some (e0, u0))); eauto.
      + intros X Sd D0. apply (IH N d'); auto; [split; [exact min_pos|auto]|lia].
      + eapply left_loose; eauto.
      + intros kv Ex. injection Ex as -> ->. auto.
    - assert (ks = []) as ->. { destruct ks; auto. apply nth_error_None in Ek. cbn [length] in Ek. lia. }
      inversion F1; subst ts. cbn [n_pop_last map last_opt length] in E. cbn in E.
      destruct (vec_pop es) as [[kv es']|]; cbn [bind unwrap] in *; [|discriminate]. injection E as <- <-.
      rewrite nth_error_map, nth_nil. cbn [option_map app]. apply rm_close; auto.
  Qed.

  Lemma g_remove_ok q fuel : forall mn d t t' r a (h : heap) O, 1 <= mn <= N -> shape mn d t -> asc (flat t) -> d < fuel ->
    sound h (a :: O) -> ns h a t ->
    n_remove bor cmp N q t = Ok (t', r) -> rm_ok h O (near q t) t' r (g_remove bor cmp small_key bomb fuel h a q).
  Proof.
    induction fuel as [|fuel IH]; intros mn d [es ts] t' r a h O Hm Sh A Lf S D E; [lia|]. cbn [g_remove].
    pose proof (sess_start h [a] O S) as S0. pose proof (shape_loose _ _ _ _ Sh) as L.
    destruct (sess_open bomb h h [] a [] O es ts S0 D) as (h1 & o & Eo & P). rewrite Eo. cbn [bind].
    destruct o as [[[a' es'] ks]|].
    2:{ destruct P as (S1 & K1 & C1 & _ & B & _). cbn [BTreeHeapSpec.near]. eapply (rm_unwound h h1 O a es ts); eauto. apply K1; [mem|auto]. }
    destruct P as (-> & S1 & F1 & K1 & _ & cs & C1 & Sc & _).
    assert (N1 : none_lost h h1 [es]) by (exists cs; auto). cbn [BTreeHeapSpec.near].
    cbn [n_remove] in E. destruct (scan q es) as [i c] eqn:Sn.
    rewrite (lsearch_ok bor cmp laws small_key q es i c (shape_ne _ _ _ _ (proj1 Hm) Sh) (asc_elems bor cmp _ _ A) Sn). cbn [bind].
    pose proof (scan_rank _ _ _ _ _ _ Sn) as (Hi & Hh & Hn).
    assert (Below : c <> Eq ->
      (match nth_error (map (n_remove bor cmp N q) ts) i with
        | None => Ok (BN es ts, None)
        | Some m =>
          '(c', ret) <- m;;
          let t1 := BN es (set_at i c' ts) in
          match ret with
          | None => Ok (t1, None)
          | Some (kv, true) => '(t2, u) <- rebal N t1 i;; Ok (t2, Some (kv, u))
          | Some (kv, false) => Ok (t1, Some (kv, false))
          end
        end = Ok (t', r)) ->
      rm_ok h O
       (match nth_error (map (fun c => if hit q es then near_last c else near q c) ts) (rank q es) with
        | Some l => beside (rank q es) ts ++ l | None => [] end ++ [es]) t' r
       (match nth_error ks i with
        | None => Ok (cls h1 a' es ks, a', Done None)
        | Some c =>
            '(h2, c', o) <- g_remove bor cmp small_key bomb fuel h1 c q;;
            let ks1 := set_at i c' ks in
            match o with
            | Done (Some (kv, true)) => g_rebal_cls bomb h2 a' es ks1 i kv
            | _ => Ok (cls h2 a' es ks1, a', o)
            end
        end)).
    { intros Hc E'. assert (hit q es = false) as -> by (rewrite Hh; destruct c; congruence). rewrite <- Hi.
      destruct (scan_down bor cmp laws bomb mn d q es ts i c Sh A Sn Hc) as [(-> & -> & _)
        |(d' & -> & es1 & es2 & tl & t0 & tr & -> & -> & L0 & L1 & L2 & Hl & Hr & At & Fs1 & Ft & Fs2 & _)].
      - inversion F1; subst ks. cbn [map] in *. rewrite !nth_nil in *. injection E' as <- <-.
        apply rm_close; auto.
      - pose proof (f2_length _ _ _ F1) as Lk. rewrite app_length in Lk. cbn [length] in Lk.
        destruct (nth_error ks i) as [c0|] eqn:Ek; [|apply nth_error_None in Ek; lia].
        rewrite nth_error_map in *. rewrite (nth_mid tl) in * by lia. cbn [option_map] in *.
        destruct (n_remove_ok bor cmp laws N min_pos N d' t0 q) as (t0' & ret & E0 & Fl0 & P0); auto; [split; [exact min_pos|auto]|].
        rewrite E0 in E'. cbn [bind] in E'. rewrite (set_at_mid tl) in E' by lia.
        eapply (rm_kid h h1 O a' (es1 ++ es2) ks tl t0 tr d' i c0 (fun h c => g_remove bor cmp small_key bomb fuel h c q) [es1 ++ es2] (near q t0) t0' ret); eauto.
        + intros X Sd D0. apply (IH N d'); auto; [split; [exact min_pos|auto]|lia].
        + destruct ret as [[e u]|]; destruct P0 as [_ P0]; [eapply left_loose; eauto|eapply shape_loose; eauto].
        + intros kv ->. tauto.
        + destruct ret as [[kv [|]]|]; exact E'. }
    destruct c.
    - destruct Hn as (e & Hn). unfold is_leaf in E. cbn [kids_of] in E. rewrite (f2_nil _ _ _ F1). rewrite Hh, <- Hi.
      destruct (is_nil ts) eqn:Ei.
      + destruct ts; [|discriminate]. rewrite nth_error_map, nth_nil. cbn [option_map app].
        destruct (vec_remove i es) as [[kv es']|]; cbn [bind] in *; [|discriminate]. injection E as <- <-. apply rm_close; auto.
      + destruct d as [|d']. { destruct (shape_0 _ _ _ Sh) as (es0 & X & _). injection X as <- ->. discriminate. }
        destruct (shape_S _ _ _ _ Sh) as (es0 & ks0 & X & Hb & Hk & HF). injection X as <- <-.
        destruct (scan_branch_eq bor cmp laws N min_pos q es ts i Hk A Sn) as (e1 & e' & e2 & t1 & k & t2 & -> & -> & L1 & Lt & L2 & _).
        rewrite (nth_mid e1) in Hn by lia. injection Hn as ->.
        apply Forall_mid in HF as (Fs1 & Ft & Fs2).
        rewrite nth_error_map in *. rewrite (nth_mid t1) in * by lia. cbn [option_map unwrap bind] in *.
        destruct (n_pop_last_ok N min_pos N d' k) as (k' & kv & u & En & Lo0 & _); auto; [split; [exact min_pos|auto]|].
        rewrite En in E. cbn [bind unwrap] in E. rewrite (nth_mid e1) in E by lia. cbn [unwrap bind] in E.
        rewrite (set_at_mid t1), (set_at_mid e1) in E by lia.
        apply f2_cut_r in F1 as (kl & c0 & kr & -> & Lkl & Fkl & Dc & Fkr).
        rewrite (nth_mid kl) by lia. cbn [unwrap bind].
        destruct (g_pop_last_ok fuel N d' k k' (Some (kv, u)) c0 h1 ((kl ++ kr ++ []) ++ O)) as (h2 & c' & o & E2 & S2 & Fr2 & N2 & P2); auto;
          [split; [exact min_pos|auto]|lia|eapply kid_sound; eauto|].
        rewrite E2. cbn [bind]. rewrite (set_at_mid kl c0 c' kr) by lia.
        destruct (kid_done h h1 h2 [a'] kl c0 [c'] kr [] O S1 S2 Fr2) as [S3 K3].
        assert (S3' : sess h h2 [a'] ((kl ++ c' :: kr) ++ []) O) by perm.
        assert (Fl' : Forall2 (ns h2) kl t1) by (eapply keep_f2; [exact K3|inc|exact Fkl]).
        assert (Fr' : Forall2 (ns h2) kr t2) by (eapply keep_f2; [exact K3|inc|exact Fkr]).
        assert (NL2 : none_lost h h2 (near_last k ++ [e1 ++ e :: e2])) by (eapply nl_trans; eauto).
        assert (NL3 : none_lost h h2 ((beside i (t1 ++ k :: t2) ++ near_last k) ++ [e1 ++ e :: e2])).
        { eapply nl_le; [|exact NL2]. rewrite <- app_assoc. apply sub_app_r, sub_refl. }
        destruct o as [r2|].
        * destruct P2 as (-> & D2 & U2). cbn [unwrap bind]. rewrite (nth_mid e1) by lia. cbn [unwrap bind]. rewrite (set_at_mid e1) by lia.
          destruct u.
          -- destruct (rebal N _ _) as [[t2' u']|] eqn:Er; cbn [bind] in E; [|discriminate]. injection E as <- <-.
             rewrite <- app_assoc. rewrite (beside_mid i t1 k k' t2) by lia. pose proof (under_len _ _ Lo0) as Le.
             apply (g_rebal_cls_ok bomb h h2 O a' (e1 ++ kv :: e2) (kl ++ c' :: kr) (t1 ++ k' :: t2) i c' d' t2' u' e); auto.
             ++ apply f2_set; auto.
             ++ constructor; [rewrite !app_length in *; exact Hk|]. apply Forall_app. split; [|constructor].
                ** eapply Forall_impl; [|exact Fs1]. intros x. apply shape_loose.
                ** eapply left_loose; eauto.
                ** eapply Forall_impl; [|exact Fs2]. intros x. apply shape_loose.
             ++ apply nth_mid. lia.
             ++ apply Forall_app. split; [eapply full_kids; eauto|]. constructor; [|eapply full_kids; eauto]. rewrite Le. change N with 5. lia.
             ++ intros tc Htc. rewrite (nth_mid t1) in Htc by lia. injection Htc as <-. exact Le.
          -- injection E as <- <-. apply rm_close; auto; [apply f2_set; auto].
        * destruct P2 as (Bb & t1' & D1). apply (rm_close_un h h2 O a' _ (t1 ++ t1' :: t2)); auto; [apply f2_set; auto].
    - apply Below; [discriminate|exact E].
    - apply Below; [discriminate|]. unfold last_opt in E. rewrite map_length in E.
      destruct (scan_down bor cmp laws bomb mn d q es ts i Gt Sh A Sn) as [(-> & -> & _)
        |(d' & -> & es1 & es2 & tl & t0 & tr & -> & -> & L0 & L1 & L2 & _ & _ & _ & _ & _ & _ & X)]; [discriminate| |].
      + cbn [map] in *. rewrite !nth_nil in *. exact E.
      + rewrite (X eq_refl) in *. rewrite Hn. replace (length (tl ++ [t0]) - 1) with i in E by (rewrite app_length; cbn; lia).
        rewrite Hn in E. exact E.
  Qed.
End Remove2.
