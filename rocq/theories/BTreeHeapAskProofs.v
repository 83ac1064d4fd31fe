(** [get_mut] and [insert] of shared B-trees, with comparisons that may panic. *)
From Coq Require Import List PeanoNat Bool Lia.
From Verif Require Import Base Spec Vec Heap HeapProofs BTreeModel BTreeProofs Ask AskSpec BTreeAskModel BTreeHeapModel BTreeHeapSpec
  BTreeHeapProofs BTreeHeapProofs2 BTreeHeapAskModel BAskHeapSpec.
Import ListNotations.
Local Open Scope nat_scope.

Section Insert.
  Context {K V Q : Type} (bor : K -> Q) (ask : nat -> Q -> Q -> option comparison) (N : nat).
  Variable bomb : nat -> bool.
  Notation pay := (list (K * V)).
  Notation heap := (heap pay).
  Notation bt := (bt K V).
  Notation scan_t := (@scan_t K V Q bor ask).
  Notation walk := (@walk K V Q bor ask).
  Notation path_t := (@path_t K V Q bor ask).
  Notation loose := (@loose K V).

  Lemma scan_walk q es : forall n,
    match scan_t q es n with
    | Returned _ (i, c) n1 => walk q es n = Some (i, match c with Eq => true | _ => false end, n1) /\ n <= n1
        /\ match c with Gt => i = length es | _ => exists e, nth_error es i = Some e end
    | Ask.Unwound _ n1 => walk q es n = None /\ n < n1 /\ panicked ask n1
    | Fault => False
    end.
  Proof.
    induction es as [|e es IH]; intros n; cbn [BTreeAskModel.scan_t BAskHeapSpec.walk]; [auto|].
    unfold question. destruct (ask n q (bor (fst e))) as [[| |]|] eqn:E.
    - cbn. split; [auto|]. split; [lia|eauto].
    - cbn. split; [auto|]. split; [lia|eauto].
    - specialize (IH (1 + n)). change (1 + n) with (S n) in *. destruct (scan_t q es (S n)) as [[] [i c] n1|[] n1|]; cbn [after]; [| |contradiction].
      + destruct IH as (-> & L & H). split; [auto|]. split; [lia|]. destruct c; cbn; auto.
      + destruct IH as (-> & L & P). split; [auto|]. split; [lia|auto].
    - split; [auto|]. split; [lia|]. exists n, q, (bor (fst e)). split; [lia|auto].
  Qed.

  (** Why a call unwound. *)
  Definition why (n : nat) : Prop := (exists i, bomb i = true) \/ panicked ask n.

  Lemma get_mut_t_eq q w es ts n : n_get_mut_t bor ask q w (BN es ts) n =
    after (scan_t q es n) (fun _ => BN es ts) (fun _ '(i, c) n =>
      match c with
      | Eq =>
        match nth_error es i with
        | Some e => Returned (BN (set_at i (fst e, w (snd e)) es) ts) (Some e) n
        | None => Returned (BN es ts) None n
        end
      | _ =>
        let j := match c with Gt => length ts - 1 | _ => i end in
        match nth_error ts j with
        | Some t => after (n_get_mut_t bor ask q w t n) (fun c' => BN es (set_at j c' ts)) (fun c' r n => Returned (BN es (set_at j c' ts)) r n)
        | None => Returned (BN es ts) None n
        end
      end).
  Proof.
    cbn [n_get_mut_t]. destruct (scan_t q es n) as [[] [i c] n1|[] n1|]; cbn [after]; auto. destruct c; auto; cbv zeta.
    - rewrite nth_error_map. now destruct (nth_error ts i).
    - unfold last_opt. rewrite map_length, nth_error_map. now destruct (nth_error ts (length ts - 1)).
  Qed.

  Lemma h_get_mut_t_ok q w fuel : forall d t a (h : heap) O n, loose d t -> d < fuel -> sound h (a :: O) -> ns h a t ->
    exists h' a' n' o, h_get_mut_t bor ask bomb fuel h a q w n = Ok (h', a', n', o) /\ n <= n' /\ sound h' (a' :: O) /\ frame O h h'
      /\ none_lost h h' (path_t q t n)
      /\ match o with
         | Done e => exists t', n_get_mut_t bor ask q w t n = Returned t' e n' /\ ns h' a' t'
         | Unwound => ns h' a' t /\ why n'
         end.
  Proof.
    induction fuel as [|fuel IH]; intros d [es ts] a h O n L Lf S D; [lia|]. cbn [h_get_mut_t]. rewrite get_mut_t_eq.
    pose proof (sess_start h [a] O S) as S0.
    destruct (sess_open bomb h h [] a [] O es ts S0 D) as (h1 & r & E & P). rewrite E. cbn [bind].
    destruct r as [[[a' es'] ks]|].
    2:{ destruct P as (S1 & K1 & C1 & _ & B & _). apply sess_end in S1 as [S1 F1].
        eexists _, _, _, _. split; [reflexivity|]. split; [lia|]. split; [exact S1|]. split; [exact F1|]. split.
        - eapply nl_le; [|apply nl_one; exact C1]. cbn [BAskHeapSpec.path_t]. apply sub_app_r, sub_refl.
        - split; [apply K1; [now left|auto]|left; eauto]. }
    destruct P as (-> & S1 & F1 & K1 & _ & cs & C1 & Sc & _).
    assert (N1 : none_lost h h1 [es]) by (exists cs; auto).
    (* closing with what was there *)
    assert (Same : forall es1, sound (cls h1 a' es1 ks) (a' :: O) /\ frame O h (cls h1 a' es1 ks)
      /\ none_lost h (cls h1 a' es1 ks) (path_t q (BN es ts) n) /\ ns (cls h1 a' es1 ks) a' (BN es1 ts)).
    { intros es1. destruct (sess_close h h1 [] a' ks [] O es1 ts S1 F1) as (S2 & D2 & _ & _ & _ & C2).
      apply sess_end in S2 as [S2 Fr2]. split; [exact S2|]. split; [exact Fr2|].
      split; auto. destruct N1 as (c1 & E1 & E1'). exists c1. rewrite C2. split; auto.
      cbn [BAskHeapSpec.path_t]. now apply sub_app_r. }
    pose proof (scan_walk q es n) as Sn. destruct (scan_t q es n) as [[] [i c] n1|[] n1|]; cbn [after]; [| |contradiction].
    2:{ destruct Sn as (_ & Hn & P). destruct (Same es) as (A1 & A2 & A3 & A4). eexists _, _, _, _. split; [reflexivity|]. split; [lia|].
        split; [exact A1|]. split; [exact A2|]. split; [exact A3|]. split; [exact A4|right; exact P]. }
    destruct Sn as (Hw & Ln & Hn).
    (* descending into child [j] *)
    assert (Below : forall j, c <> Eq -> (j = i \/ nth_error ts j = None) ->
      exists h' a'' n' o, match nth_error ks j with
          | None => Ok (cls h1 a' es ks, a', n1, Done None)
          | Some c => '(h2, c', n2, o) <- h_get_mut_t bor ask bomb fuel h1 c q w n1;; Ok (cls h2 a' es (set_at j c' ks), a', n2, o)
          end = Ok (h', a'', n', o) /\ n <= n' /\ sound h' (a'' :: O) /\ frame O h h' /\ none_lost h h' (path_t q (BN es ts) n)
        /\ match o with
           | Done e => exists t', match nth_error ts j with
             | Some t => after (n_get_mut_t bor ask q w t n1) (fun c' => BN es (set_at j c' ts)) (fun c' r n => Returned (BN es (set_at j c' ts)) r n)
             | None => Returned (BN es ts) None n1
             end = Returned t' e n' /\ ns h' a'' t'
           | Unwound => ns h' a'' (BN es ts) /\ why n'
           end).
    { intros j Hc Hj. destruct (nth_error ks j) as [c0|] eqn:Ek.
      2:{ rewrite (f2_none _ _ _ _ F1 Ek). destruct (Same es) as (A1 & A2 & A3 & A4).
          eexists _, _, _, _. split; [reflexivity|]. eauto 10. }
      destruct (f2_at _ _ _ _ _ F1 Ek) as (kl & kr & tl & t0 & tr & -> & -> & Lk & Lt & Fl & Dc & Fr).
      rewrite (nth_mid tl t0 tr) in * by lia.
      destruct Hj as [->|Hj]; [|discriminate].
      apply loose_inv in L as [[_ ?]|(d' & -> & Hd & FL)]; [destruct tl; discriminate|].
      assert (Lc : loose d' t0). { rewrite Forall_forall in FL. apply FL, in_elt. }
      destruct (IH d' t0 c0 h1 ((kl ++ kr ++ []) ++ O) n1 Lc) as (h2 & c' & n2 & o & E2 & L2 & S2 & Fr2 & N2 & P2); auto; [lia|eapply kid_sound; eauto|].
      rewrite E2. cbn [bind]. rewrite (set_at_mid kl c0 c' kr) by lia.
      destruct (kid_done h h1 h2 [a'] kl c0 [c'] kr [] O S1 S2 Fr2) as [S3 K3].
      assert (S3' : sess h h2 [a'] ((kl ++ c' :: kr) ++ []) O) by perm.
      assert (Fl' : Forall2 (ns h2) kl tl) by (eapply keep_f2; [exact K3|inc|exact Fl]).
      assert (Fr' : Forall2 (ns h2) kr tr) by (eapply keep_f2; [exact K3|inc|exact Fr]).
      assert (NL : none_lost h h2 (path_t q (BN es (tl ++ t0 :: tr)) n)).
      { cbn [BAskHeapSpec.path_t]. rewrite Hw. destruct c; [congruence| |]; rewrite nth_error_map, nth_mid by lia; cbn [option_map];
          eapply nl_trans; eauto. }
      assert (Cl : forall t1, ns h2 c' t1 -> sound (cls h2 a' es (kl ++ c' :: kr)) (a' :: O) /\ frame O h (cls h2 a' es (kl ++ c' :: kr))
         /\ none_lost h (cls h2 a' es (kl ++ c' :: kr)) (path_t q (BN es (tl ++ t0 :: tr)) n)
         /\ ns (cls h2 a' es (kl ++ c' :: kr)) a' (BN es (tl ++ t1 :: tr))).
      { intros t1 D1. destruct (sess_close h h2 [] a' (kl ++ c' :: kr) [] O es (tl ++ t1 :: tr) S3') as (S4 & D4 & _ & _ & _ & C4).
        { apply f2_app; auto. }
        apply sess_end in S4 as [S4 F4]. auto. }
      eexists _, _, _, _. split; [reflexivity|]. split; [lia|].
      destruct o as [e|].
      - destruct P2 as (t' & Ev & P2). destruct (Cl _ P2) as (A1 & A2 & A3 & A4). split; auto. split; auto. split; auto.
        rewrite Ev. cbn [after]. rewrite set_at_mid by lia. eauto.
      - destruct P2 as [P2 W]. destruct (Cl _ P2) as (A1 & A2 & A3 & A4). auto. }
    destruct c.
    - destruct Hn as (e & Hn). rewrite Hn.
      destruct (Same (set_at i (fst e, w (snd e)) es)) as (A1 & A2 & A3 & A4).
      eexists _, _, _, _. split; [reflexivity|]. eauto 10.
    - apply (Below i); [discriminate|auto].
    - rewrite <- (f2_length _ _ _ F1). apply (Below (length ks - 1)); [discriminate|].
      rewrite (f2_length _ _ _ F1). apply loose_inv in L as [[_ ->]|(d' & -> & Hd & FL)]; [right; apply nth_nil|left; lia].
  Qed.

  Lemma h_insert_t_ok k v fuel : forall d t a (h : heap) O n, loose d t -> d < fuel -> sound h (a :: O) -> ns h a t ->
    n_insert_t bor ask N k v t n <> Fault ->
    exists h' a' n' o, h_insert_t bor ask N bomb fuel h a k v n = Ok (h', a', n', o) /\ n <= n' /\ frame O h h'
      /\ none_lost h h' (path_t (bor k) t n)
      /\ match o with
         | Done s => exists t' r Y, n_insert_t bor ask N k v t n = Returned t' r n' /\ ins_rel h' s r Y /\ sound h' (a' :: Y ++ O) /\ ns h' a' t'
         | Unwound => sound h' (a' :: O) /\ ns h' a' t /\ why n'
         end.
  Proof.
    induction fuel as [|fuel IH]; intros d [es ts] a h O n L Lf S D NF; [lia|]. cbn [h_insert_t]. cbn [n_insert_t] in *.
    pose proof (sess_start h [a] O S) as S0.
    destruct (sess_open bomb h h [] a [] O es ts S0 D) as (h1 & o & Eo & P). rewrite Eo. cbn [bind].
    destruct o as [[[a' es'] ks]|].
    2:{ destruct P as (S1 & K1 & C1 & _ & B & _). apply sess_end in S1 as [S1 F1].
        eexists _, _, _, _. split; [reflexivity|]. split; [lia|]. split; [exact F1|]. split.
        - eapply nl_le; [|apply nl_one; exact C1]. cbn [BAskHeapSpec.path_t]. apply sub_app_r, sub_refl.
        - split; [exact S1|]. split; [apply K1; [now left|auto]|left; eauto]. }
    destruct P as (-> & S1 & F1 & K1 & _ & cs & C1 & Sc & _).
    assert (N1 : none_lost h h1 [es]) by (exists cs; auto).
    assert (Same : forall es1, sound (cls h1 a' es1 ks) (a' :: O) /\ frame O h (cls h1 a' es1 ks)
      /\ none_lost h (cls h1 a' es1 ks) (path_t (bor k) (BN es ts) n) /\ ns (cls h1 a' es1 ks) a' (BN es1 ts)).
    { intros es1. destruct (sess_close h h1 [] a' ks [] O es1 ts S1 F1) as (S2 & D2 & _ & _ & _ & C2).
      apply sess_end in S2 as [S2 Fr2]. split; [exact S2|]. split; [exact Fr2|].
      split; auto. destruct N1 as (c1 & E1 & E1'). exists c1. rewrite C2. split; auto.
      cbn [BAskHeapSpec.path_t]. now apply sub_app_r. }
    pose proof (scan_walk (bor k) es n) as Sn. destruct (scan_t (bor k) es n) as [[] [i c] n1|[] n1|]; cbn [after] in *; [| |contradiction].
    2:{ destruct Sn as (_ & Hn & P). destruct (Same es) as (A1 & A2 & A3 & A4). eexists _, _, _, _. split; [reflexivity|]. split; [lia|].
        split; [exact A2|]. split; [exact A3|]. split; [exact A1|]. split; [exact A4|right; exact P]. }
    destruct Sn as (Hw & Ln & Hn).
    assert (HE : c = Eq \/ c <> Eq) by (destruct c; [left|right|right]; congruence). destruct HE as [->|Hc].
    { destruct Hn as (e & Hn). rewrite Hn. cbn [unwrap bind plain]. destruct (Same (set_at i (k, v) es)) as (A1 & A2 & A3 & A4).
      eexists _, _, _, _. split; [reflexivity|]. split; [lia|]. split; [exact A2|]. split; [exact A3|].
      eexists _, _, []. cbn [ins_rel]. auto. }
    (* the child *)
    set (rec := match nth_error ks i with
                | Some c0 => _
                | None => _
                end).
    set (vrec := match nth_error (map (n_insert_t bor ask N k v) ts) i with Some m => _ | None => _ end) in *.
    set (fin := fun ks1 (r : ins_res K V) n => plain
          match r with
          | Split child k1 v1 =>
            es1 <- vec_insert i (k1, v1) es;;
            ks2 <- match child with Some rc => vec_insert i rc ks1 | None => Ok ks1 end;;
            if length es1 <=? MAX_OCC N then Ok (BN es1 ks2, Absorbed) else n_split N (BN es1 ks2)
          | _ => Ok (BN es ks1, r)
          end n) in *.
    assert (NF' : after vrec (BN es) fin <> Fault) by (destruct c; [congruence|exact NF|exact NF]). clear NF.
    assert (Rec : exists h2 ks1 n2 o, rec = Ok (h2, ks1, n2, o) /\ n1 <= n2 /\ none_lost h h2 (path_t (bor k) (BN es ts) n)
      /\ match o with
         | Done s => exists ts1 r0 Y, vrec = Returned ts1 r0 n2 /\ ins_rel h2 s r0 Y /\ sess h h2 [a'] (ks1 ++ Y) O /\ Forall2 (ns h2) ks1 ts1
         | Unwound => sess h h2 [a'] (ks1 ++ []) O /\ Forall2 (ns h2) ks1 ts /\ why n2
         end).
    { assert (NV : vrec <> Fault) by (intros E; apply NF'; now rewrite E).
      unfold rec, vrec in *. clear rec vrec fin NF'. rewrite nth_error_map in *.
      destruct (nth_error ks i) as [c0|] eqn:Ek.
      2:{ rewrite (f2_none _ _ _ _ F1 Ek). cbn [option_map].
          eexists _, _, _, _. split; [reflexivity|]. split; [lia|]. split.
          - eapply nl_le; [|exact N1]. cbn [BAskHeapSpec.path_t]. apply sub_app_r, sub_refl.
          - eexists _, _, []. split; [reflexivity|]. cbn [ins_rel opt_ns olist]. auto. }
      destruct (f2_at _ _ _ _ _ F1 Ek) as (kl & kr & tl & t0 & tr & -> & -> & Lk & Lt & Fl & Dc & Fr).
      rewrite (nth_mid tl t0 tr) in * by lia. cbn [option_map] in *.
      apply loose_inv in L as [[_ ?]|(d' & -> & Hd & FL)]; [destruct tl; discriminate|].
      assert (Lc : loose d' t0). { rewrite Forall_forall in FL. apply FL, in_elt. }
      destruct (IH d' t0 c0 h1 ((kl ++ kr ++ []) ++ O) n1 Lc) as (h2 & c' & n2 & o & E2 & L2 & Fr2 & N2 & P2); auto;
        [lia|eapply kid_sound; eauto|intros E; apply NV; now rewrite E|].
      rewrite E2. cbn [bind]. rewrite (set_at_mid kl c0 c' kr) by lia.
      assert (NL : none_lost h h2 (path_t (bor k) (BN es (tl ++ t0 :: tr)) n)).
      { cbn [BAskHeapSpec.path_t]. rewrite Hw. destruct c; [congruence| |]; rewrite nth_error_map, nth_mid by lia; cbn [option_map];
          eapply nl_trans; eauto. }
      eexists _, _, _, _. split; [reflexivity|]. split; [exact L2|]. split; [exact NL|].
      destruct o as [s|].
      - destruct P2 as (t1 & r1 & Y & Ev & IR & S2 & D2). rewrite Ev. cbn [after]. rewrite (set_at_mid tl t0 t1 tr) by lia.
        destruct (kid_done h h1 h2 [a'] kl c0 (c' :: Y) kr [] O S1 S2 Fr2) as [S3 K3].
        eexists _, _, Y. split; [reflexivity|]. split; auto. split; [perm|]. apply f2_set; auto; eapply keep_f2; try exact K3; eauto; inc.
      - destruct P2 as (S2 & D2 & Bb).
        destruct (kid_done h h1 h2 [a'] kl c0 [c'] kr [] O S1 S2 Fr2) as [S3 K3].
        split; [perm|]. split; auto. apply f2_set; auto; eapply keep_f2; try exact K3; eauto; inc. }
    clearbody rec vrec. destruct Rec as (h2 & ks1 & n2 & o & -> & L2 & NL & P2). cbn [bind].
    assert (G : exists h' a'' n' o', match o with
        | Unwound => Ok (cls h2 a' es ks1, a', n2, Unwound)
        | Done (HSplit child k1 v1) =>
          es1 <- vec_insert i (k1, v1) es;;
          ks2 <- match child with Some rc => vec_insert i rc ks1 | None => Ok ks1 end;;
          if length es1 <=? MAX_OCC N then Ok (cls h2 a' es1 ks2, a', n2, Done HAbsorbed)
          else '(h3, s) <- h_split N h2 a' es1 ks2;; Ok (h3, a', n2, Done s)
        | Done s => Ok (cls h2 a' es ks1, a', n2, Done s)
        end = Ok (h', a'', n', o') /\ n <= n' /\ frame O h h' /\ none_lost h h' (path_t (bor k) (BN es ts) n)
        /\ match o' with
         | Done s => exists t' r Y, after vrec (BN es) fin = Returned t' r n' /\ ins_rel h' s r Y /\ sound h' (a'' :: Y ++ O) /\ ns h' a'' t'
         | Unwound => sound h' (a'' :: O) /\ ns h' a'' (BN es ts) /\ why n'
         end).
    { assert (NLc : forall g, clones g = clones h2 -> none_lost h g (path_t (bor k) (BN es ts) n)).
      { intros g Eg. destruct NL as (c1 & E1 & E1'). exists c1. rewrite Eg. auto. }
      assert (Close : forall ks2 ts2 es2, sess h h2 [a'] (ks2 ++ []) O -> Forall2 (ns h2) ks2 ts2 ->
        sound (cls h2 a' es2 ks2) (a' :: O) /\ frame O h (cls h2 a' es2 ks2)
        /\ none_lost h (cls h2 a' es2 ks2) (path_t (bor k) (BN es ts) n) /\ ns (cls h2 a' es2 ks2) a' (BN es2 ts2)).
      { intros ks2 ts2 es2 S2 F2. destruct (sess_close h h2 [] a' ks2 [] O es2 ts2 S2 F2) as (S3 & D3 & _ & _ & _ & C3).
        apply sess_end in S3 as [S3 Fr3]. auto. }
      destruct o as [s|].
      2:{ destruct P2 as (S2 & F2 & Bb). destruct (Close ks1 ts es S2 F2) as (A1 & A2 & A3 & A4).
          eexists _, _, _, _. split; [reflexivity|]. split; [lia|]. auto. }
      destruct P2 as (ts1 & r0 & Y & -> & IR & S2 & F2). cbn [after] in *. unfold fin in *. clear fin.
      destruct s as [v1|child k1 v1|]; destruct r0 as [v2|tc k2 v2|]; cbn [ins_rel] in IR; try contradiction.
      - destruct IR as [-> ->]. destruct (Close ks1 ts1 es S2 F2) as (A1 & A2 & A3 & A4).
        eexists _, _, _, _. split; [reflexivity|]. split; [lia|]. split; auto. split; auto. eexists _, _, []. split; [reflexivity|]. cbn [ins_rel]. auto.
      - destruct IR as (-> & -> & -> & On).
        destruct (vec_insert i (k2, v2) es) as [es1|]; cbn [bind plain] in *; [|congruence].
        assert (exists ks2 ts2, match child with Some rc => vec_insert i rc ks1 | None => Ok ks1 end = Ok ks2
          /\ match tc with Some rc => vec_insert i rc ts1 | None => Ok ts1 end = Ok ts2
          /\ sess h h2 [a'] (ks2 ++ []) O /\ Forall2 (ns h2) ks2 ts2) as (ks2 & ts2 & E3 & E4 & S3 & F3).
        { destruct child as [rc|]; destruct tc as [tc|]; cbn [opt_ns] in On; try contradiction.
          - destruct (vec_insert i tc ts1) as [ts2|] eqn:E4; [|cbn [bind plain] in NF'; congruence].
            destruct (f2_insert _ _ _ _ _ _ _ F2 On E4) as (ks2 & E3 & F3 & l1 & l2 & -> & ->).
            exists (l1 ++ rc :: l2), ts2. split; auto. split; auto. split; [|auto]. perm.
          - exists ks1, ts1. auto. }
        rewrite E3. rewrite E4 in *. cbn [bind] in *.
        destruct (length es1 <=? MAX_OCC N).
        + destruct (Close ks2 ts2 es1 S3 F3) as (A1 & A2 & A3 & A4).
          eexists _, _, _, _. split; [reflexivity|]. split; [lia|]. split; auto. split; auto. eexists _, _, []. split; [reflexivity|]. cbn [ins_rel]. auto.
        + destruct (n_split N (BN es1 ts2)) as [[t' r]|] eqn:E'; cbn [plain] in *; [|congruence].
          destruct (h_split_ok N h h2 [] a' es1 ks2 ts2 [] O t' r S3 F3 E') as (h3 & s & Y & E5 & IR & S5 & D5 & C5).
          rewrite E5. cbn [bind]. apply sess_end in S5 as [S5 Fr5]. rewrite app_nil_r in S5.
          eexists _, _, _, _. split; [reflexivity|]. split; [lia|]. split; auto. split; [auto|]. exists t', r, Y. auto.
      - subst Y. destruct (Close ks1 ts1 es S2 F2) as (A1 & A2 & A3 & A4).
        eexists _, _, _, _. split; [reflexivity|]. split; [lia|]. split; auto. split; auto. eexists _, _, []. split; [reflexivity|]. cbn [ins_rel]. auto. }
    destruct c; [congruence|exact G|exact G].
  Qed.
End Insert.
