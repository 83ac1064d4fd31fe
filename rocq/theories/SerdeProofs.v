(** The visitor of [lib.rs] builds the same map as insertion one by one, whatever the
    size hint was: proved once for every implementation of the trait [Map] that
    satisfies the conditions collected in [visitor_ok]. *)
From Coq Require Import List NArith ZArith Bool Lia.
From Verif Require Import Base Vec SerdeModel.
Import ListNotations.
Local Open Scope nat_scope.

Lemma skipn_twice {A} n (l : list A) m : skipn n (skipn m l) = skipn (n + m) l.
Proof.
  revert l. induction m as [|m IH]; intros l; [now rewrite Nat.add_0_r|].
  rewrite Nat.add_succ_r. destruct l as [|x l]; [now rewrite !skipn_nil|]. cbn [skipn]. apply IH.
Qed.

Section VisitorProofs.
  Context {K V M H E : Type} (ops : map_impl K V M H).
  Notation entry := (K * V)%type.
  Notation Mx := (mi_max_half_len ops).
  (** [full s h l]: the half [h] holds the [s] entries [l]. [part s h l]: it holds [l], but
      was meant for [s]. [rep m l]: the map [m] is right after the entries [l]. [lim n]: the
      implementation can hold [n] entries. *)
  Context (full part : N -> H -> list entry -> Prop) (rep : M -> list entry -> Prop) (lim : nat -> Prop).

  Definition uneven (s1 s2 : N) : Prop := (s2 <= s1 <= s2 + 1 /\ Mx < s1 + s2 /\ s1 + s2 < 2 ^ 64)%N.
  Record visitor_ok : Prop := VisitorOk {
    vo_max : (1 <= Mx)%N;
    vo_len : forall s h l, full s h l -> N.of_nat (length l) = s;
    vo_half : forall l, l <> [] -> (N.of_nat (length l) <= Mx)%N ->
      exists h, mi_make_half ops l = Ok (h, []) /\ full (N.of_nat (length l)) h l;
    vo_part : forall s s' h l, full s h l -> (s <= s')%N -> part s' h l;
    vo_more : forall s s' h l, part s h l -> (s <= s')%N -> part s' h l;
    vo_stitch : forall s1 s2 h1 h2 l1 l2, uneven s1 s2 -> full s1 h1 l1 -> full s2 h2 l2 ->
      exists h, mi_stitch ops h1 h2 = Ok h /\ full (s1 + s2) h (l1 ++ l2);
    vo_stitch_part : forall s1 s2 h1 h2 l1 l2, uneven s1 s2 -> full s1 h1 l1 -> part s2 h2 l2 ->
      exists h, mi_stitch ops h1 h2 = Ok h /\ part (s1 + s2) h (l1 ++ l2);
    vo_check : forall s h l, full s h l -> (s < 2 ^ 64)%N -> lim (length l) ->
      exists c, mi_check_half ops h = Ok c /\ match c with inl n => N.of_nat n = s | inr u => u = true end;
    vo_whole : forall s h l, part s h l -> (s < 2 ^ 64)%N -> (N.of_nat (length l) <= s)%N -> lim (length l) ->
      exists m, mi_make_whole ops h s = Ok m /\ rep m l;
    vo_new : rep (mi_new ops) [];
    vo_insert : forall m l k v, rep m l -> lim (length (l ++ [(k, v)])) ->
      exists m', mi_insert ops m k v = Ok m' /\ rep m' (l ++ [(k, v)]);
    vo_lim : forall n n', n <= n' -> lim n' -> lim n }.
  Context (ok : visitor_ok).

  Lemma fill_ok n : forall items (e : option E) s, n + length s <> 0 -> (N.of_nat (n + length s) <= Mx)%N ->
    exists r a' s', fill ops n (Access items e) s = Ok (r, a', s')
    /\ match r with
       | inl h => s' = [] /\ a' = Access (skipn n items) e /\ n <= length items
                  /\ full (N.of_nat (n + length s)) h (s ++ firstn n items)
       | inr (TooFewElems None) => items = [] /\ s = [] /\ e = None
       | inr (TooFewElems (Some h)) => e = None /\ length items < n
                  /\ part (N.of_nat (n + length s)) h (s ++ items)
       | inr (Other x) => e = Some x /\ length items < n
       end.
  Proof.
    induction n as [|n IH]; intros items e s H0 H1; cbn [fill].
    - destruct (vo_half ok s) as (h & Eh & F); [now destruct s| lia|]. rewrite Eh. cbn [bind].
      exists (inl h), (Access items e), []. split; auto. cbn [skipn firstn]. rewrite app_nil_r. repeat split; auto; lia.
    - unfold next_entry. cbn [ac_items ac_end]. destruct items as [|kv items].
      + destruct e as [x|].
        * exists (inr (Other x)), (Access [] (Some x)), s. repeat split. cbn. lia.
        * destruct s as [|k s]; cbn [is_nil].
          -- exists (inr (TooFewElems None)), (Access [] None), []. auto.
          -- destruct (vo_half ok (k :: s)) as (h & Eh & F); [easy|lia|]. rewrite Eh. cbn [bind].
             exists (inr (TooFewElems (Some h))), (Access [] None), []. split; auto. split; auto.
             split; [cbn; lia|]. rewrite app_nil_r. eapply (vo_part ok); [exact F|lia].
      + assert (L : n + length (s ++ [kv]) = S n + length s) by (rewrite app_length; cbn; lia).
        destruct (IH items e (s ++ [kv])) as (r & a' & s' & Er & R); [lia|lia|]. rewrite Er.
        exists r, a', s'. split; auto. rewrite L in R. rewrite <- !app_assoc in R.
        destruct r as [h|[[h|]|x]].
        * destruct R as (-> & -> & R1 & R2). cbn [length skipn firstn app] in *. repeat split; auto; lia.
        * destruct R as (-> & R1 & R2). cbn [length app] in *. repeat split; auto; lia.
        * destruct R as (_ & R & _). now destruct s.
        * destruct R as (-> & R1). cbn [length]. split; auto. lia.
  Qed.

  Lemma build_ok debug f : forall len items (e : option E), (0 < len)%N -> (len < 2 ^ 64 - 1)%N ->
    (len <= 2 ^ N.of_nat f)%N ->
    exists r a' s', build_map_by_halves debug ops (S f) (Access items e) len [] = Ok (r, a', s')
    /\ match r with
       | inl h => s' = [] /\ a' = Access (skipn (N.to_nat len) items) e /\ (len <= N.of_nat (length items))%N
                  /\ full len h (firstn (N.to_nat len) items)
       | inr (TooFewElems None) => items = [] /\ e = None
       | inr (TooFewElems (Some h)) => e = None /\ (N.of_nat (length items) < len)%N /\ part len h items
       | inr (Other x) => e = Some x /\ (N.of_nat (length items) < len)%N
       end.
  Proof.
    induction f as [|f IH]; intros len items e H0 H1 H2.
    - cbn in H2. assert (len = 1%N) by lia. subst len. cbn [build_map_by_halves].
      pose proof (vo_max ok). destruct (N.leb_spec 1 Mx); [|lia]. cbn [N.ltb N.compare assert_ bind is_nil].
      destruct (fill_ok (N.to_nat 1) items e []) as (r & a' & s' & Er & R); [cbn; lia|cbn; lia|]. rewrite Er.
      exists r, a', s'. split; auto. change (N.of_nat (N.to_nat 1 + length (@nil entry))) with 1%N in R.
      destruct r as [h|[[h|]|x]]; cbn [app] in R.
      + destruct R as (-> & -> & R1 & R2). repeat split; auto; lia.
      + destruct R as (-> & R1 & R2). repeat split; auto; lia.
      + destruct R as (-> & _ & ->). auto.
      + destruct R as (-> & R1). split; auto; lia.
    - remember (S f) as f1. cbn [build_map_by_halves]. subst f1.
      destruct (N.ltb_spec 0 len); [|lia]. cbn [assert_ bind].
      destruct (N.leb_spec len Mx) as [Hs|Hs].
      + cbn [is_nil assert_ bind].
        destruct (fill_ok (N.to_nat len) items e []) as (r & a' & s' & Er & R); [lia|cbn [length]; lia|]. rewrite Er.
        exists r, a', s'. split; auto. replace (N.of_nat (N.to_nat len + length (@nil entry))) with len in R by (cbn; lia).
        destruct r as [h|[[h|]|x]]; cbn [app] in R.
        * destruct R as (-> & -> & R1 & R2). repeat split; auto; lia.
        * destruct R as (-> & R1 & R2). repeat split; auto; lia.
        * destruct R as (-> & _ & ->). auto.
        * destruct R as (-> & R1). split; auto; lia.
      + unfold usize_add1. destruct (N.ltb_spec (len + 1) (2 ^ 64)); [|lia]. cbn [bind].
        set (lf := ((len + 1) / 2)%N). pose proof (N.div_mod (len + 1) 2 ltac:(lia)) as D.
        pose proof (N.mod_lt (len + 1) 2 ltac:(lia)) as D2. fold lf in D. clearbody lf. generalize dependent ((len + 1) mod 2)%N. intros md D D2.
        unfold usize_subN. destruct (N.leb_spec lf len); [|lia]. cbn [bind].
        remember (len - lf)%N as rt eqn:Ert. pose proof (vo_max ok) as Hmx.
        rewrite Nat2N.inj_succ, N.pow_succ_r' in H2.
        destruct (IH lf items e) as (r & a1 & s1 & Er & R); [lia|lia|lia|]. rewrite Er. cbn [bind].
        assert (U : uneven lf rt) by (unfold uneven; lia). assert (Hsum : (lf + rt)%N = len) by lia.
        destruct r as [h1|[[h|]|x]].
        * destruct R as (-> & -> & R1 & R2).
          destruct (IH rt (skipn (N.to_nat lf) items) e) as (r & a2 & s2 & Er2 & R'); [lia|lia|lia|].
          rewrite Er2. cbn [bind]. rewrite skipn_length in R'. destruct r as [h2|[[h2|]|x]].
          -- destruct R' as (-> & -> & R1' & R2').
             destruct (vo_stitch ok _ _ _ _ _ _ U R2 R2') as (h & Eh & F). rewrite Eh. cbn [bind].
             exists (inl h), (Access (skipn (N.to_nat rt) (skipn (N.to_nat lf) items)) e), [].
             split; auto. split; auto. split; [|split].
             ++ rewrite skipn_twice. f_equal. f_equal. lia.
             ++ lia.
             ++ rewrite Hsum in F. rewrite <- (firstn_skipn (N.to_nat lf) items) at 1. rewrite firstn_app.
                rewrite firstn_firstn. rewrite firstn_length.
                replace (Nat.min (N.to_nat len) (N.to_nat lf)) with (N.to_nat lf) by lia.
                replace (N.to_nat len - Nat.min (N.to_nat lf) (length items)) with (N.to_nat rt) by lia. exact F.
          -- destruct R' as (-> & R1' & R2').
             destruct (vo_stitch_part ok _ _ _ _ _ _ U R2 R2') as (h & Eh & F). rewrite Eh. cbn [bind].
             rewrite firstn_skipn in F. eexists _, _, _. split; [reflexivity|]. cbv beta iota.
             split; auto. split; [lia|]. now rewrite <- Hsum.
          -- destruct R' as (R1' & ->). eexists _, _, _. split; [reflexivity|]. cbv beta iota.
             split; auto. assert (L : length items - N.to_nat lf = 0) by (rewrite <- skipn_length, R1'; reflexivity).
             split; [lia|]. rewrite firstn_all2 in R2 by lia. eapply (vo_part ok); [exact R2|lia].
          -- destruct R' as (-> & R1'). eexists _, _, _. split; [reflexivity|]. cbv beta iota. split; auto; lia.
        * destruct R as (-> & R1 & R2). eexists _, _, _. split; [reflexivity|]. cbv beta iota.
          split; auto. split; [lia|]. eapply (vo_more ok); [exact R2|lia].
        * destruct R as (-> & ->). eexists _, _, _. split; [reflexivity|]. cbv beta iota. auto.
        * destruct R as (-> & R1). eexists _, _, _. split; [reflexivity|]. cbv beta iota. split; auto; lia.
  Qed.

  Lemma insert_rest_ok : forall items m l (e : option E), rep m l -> lim (length (l ++ items)) ->
    exists r, insert_rest ops m items e = Ok r
    /\ match r with inl m' => e = None /\ rep m' (l ++ items) | inr x => e = Some x end.
  Proof.
    induction items as [|[k v] items IH]; intros m l e R L; cbn [insert_rest].
    - destruct e as [x|]; eexists; (split; [reflexivity|]); cbv beta iota; auto. now rewrite app_nil_r.
    - destruct (vo_insert ok m l k v R) as (m' & Em & R').
      { eapply (vo_lim ok); [|exact L]. rewrite !app_length. cbn. lia. }
      rewrite Em. cbn [bind]. destruct (IH m' (l ++ [(k, v)]) e R') as (r & Er & X).
      { now rewrite <- app_assoc. }
      rewrite Er. eexists. split; [reflexivity|]. rewrite <- app_assoc in X. exact X.
  Qed.

  Lemma visit_ok debug hint items (e : option E) :
    match hint with Some n => (n < 2 ^ 64 - 1)%N | None => True end -> lim (length items) ->
    exists r, visit_map debug ops hint (Access items e) = Ok r
    /\ match r with inl m => e = None /\ rep m items | inr x => e = Some x end.
  Proof.
    intros Hh L. unfold visit_map. cbn [ac_items ac_end].
    assert (D : exists r, insert_rest ops (mi_new ops) items e = Ok r
      /\ match r with inl m => e = None /\ rep m items | inr x => e = Some x end).
    { apply (insert_rest_ok items (mi_new ops) [] e (vo_new ok) L). }
    destruct hint as [len|]; auto. destruct (N.ltb_spec 0 len) as [H0|H0]; auto. clear D.
    destruct (build_ok debug 65 len items e H0 Hh) as (r & a1 & s1 & Er & R).
    { etransitivity; [apply N.lt_le_incl, Hh|]. discriminate. }
    rewrite Er. cbn [bind]. destruct r as [h|[[h|]|x]].
    - destruct R as (-> & -> & R1 & F). cbn [ac_items ac_end].
      assert (Lf : lim (length (firstn (N.to_nat len) items))).
      { eapply (vo_lim ok); [|exact L]. rewrite firstn_length. lia. }
      assert (C : (if debug then
                  c <- mi_check_half ops h;;
                  assert_ (match c with
                           | inl sz => (len =? N.of_nat sz)%N
                           | inr unsorted => unsorted
                           end)
                else Ok tt) = Ok tt).
      { destruct debug; auto. destruct (vo_check ok _ _ _ F) as (c & Ec & X); [lia|exact Lf|].
        rewrite Ec. cbn [bind]. destruct c as [n|u]; [rewrite X, N.eqb_refl|rewrite X]; reflexivity. }
      rewrite C. cbn [bind].
      destruct (vo_whole ok len h (firstn (N.to_nat len) items)) as (m & Em & Rm).
      { eapply (vo_part ok); [exact F|lia]. } { lia. } { rewrite firstn_length. lia. } { exact Lf. }
      rewrite Em. cbn [bind].
      destruct (insert_rest_ok (skipn (N.to_nat len) items) m _ e Rm) as (r & E1 & X).
      { now rewrite firstn_skipn. }
      rewrite firstn_skipn in X. eauto.
    - destruct R as (-> & R1 & F).
      destruct (vo_whole ok len h items F) as (m & Em & Rm); [lia|lia|exact L|]. rewrite Em. cbn [bind].
      eexists. split; [reflexivity|]. cbv beta iota. auto.
    - destruct R as (-> & ->). eexists. split; [reflexivity|]. cbv beta iota. split; auto. apply (vo_new ok).
    - destruct R as (-> & _). eexists. split; [reflexivity|]. reflexivity.
  Qed.
End VisitorProofs.

(** The largest size hint makes every build fail: in a build that checks overflow the
    addition does, in one that wraps the left half has size 0. *)
Lemma build_max {K V M H E} (ops : map_impl K V M H) debug f (a : access K V E) :
  (mi_max_half_len ops < 2 ^ 64 - 1)%N ->
  build_map_by_halves debug ops (S (S f)) a (2 ^ 64 - 1)%N [] = Panic.
Proof.
  intros L. remember (S f) as f1. cbn [build_map_by_halves].
  replace (0 <? 2 ^ 64 - 1)%N with true by reflexivity. cbn [assert_ bind].
  destruct (N.leb_spec (2 ^ 64 - 1) (mi_max_half_len ops)); [lia|].
  unfold usize_add1. replace (2 ^ 64 - 1 + 1 <? 2 ^ 64)%N with false by reflexivity.
  destruct debug; [reflexivity|]. cbn [bind]. replace (0 / 2)%N with 0%N by reflexivity.
  unfold usize_subN. replace (0 <=? 2 ^ 64 - 1)%N with true by reflexivity. cbn [bind].
  subst f1. reflexivity.
Qed.
Lemma visit_max {K V M H E} (ops : map_impl K V M H) debug (a : access K V E) :
  (mi_max_half_len ops < 2 ^ 64 - 1)%N -> visit_map debug ops (Some (2 ^ 64 - 1)%N) a = Panic.
Proof.
  intros L. unfold visit_map. replace (0 <? 2 ^ 64 - 1)%N with true by reflexivity.
  rewrite (build_max ops debug 64 a L). reflexivity.
Qed.
