(** Proofs about [range_mut] on shared nodes with comparisons that may answer anything and may panic: sequences of calls; whole maps. *)
From Coq Require Import List PeanoNat Bool Lia Sorted.
From Verif Require Import Base Spec MapSpec Vec Heap HeapProofs HeapMut HeapMutProofs BTreeModel BTreeProofs BTreeProofs2
  BTreeIterModel BTreeIterProofs2 BTreeRangeProofs BTreeMutProofs BTreeShows BTreeHeapModel BTreeHeapSpec BTreeHeapProofs BTreeHeapProofs2 BTreeHeapProofs5 BTreeHeapProofs9 MutSpec BTreeHeapMutModel
  BTreeHeapMutProofs BTreeHeapMutProofs2 BTreeHeapMutProofs3 BTreeHeapMutProofs4 AnyOrdSpec BAnyHeapSpec AnyOrdShows
  Ask AskSpec BAskRangeSpec BAskRangeMutSpec BTreeRangeAskModel BTreeRangeAskProofs BTreeHeapRangeAskModel BTreeHeapRangeAskProofs.
From Verif Require BTreeHeapProofs2 AvlHeapSpec BTreeIterProofs BTreeHeapProofs5 BTreeAnyRange BTreeAnyProofs.
Import ListNotations.
Local Open Scope nat_scope.

Section Run.
  Context {K V Q : Type} (bor : K -> Q) (cmp : Q -> Q -> comparison) (N : nat) (HN : 1 <= N).
  Variable bomb : nat -> bool.
  Notation bt := (bt K V).
  Notation pay := (list (K * V)).
  Notation heap := (heap pay).
  Notation valid := (@valid K V Q bor cmp N).
  Variables (h0 : heap) (t0 : bt) (O : list addr) (start : list nat -> Prop) (len : nat).
  Notation mst := (mst h0 t0 O start).
  Notation minv := (minv h0 t0 O start).
  Notation wsims := (wsims t0).
  Notation M t := (BMap len (Some t)).
  Notation R := (contents (map_pos (M t0))).
  Hypothesis V0 : valid (M t0).
  Notation shows_at := (shows_at bor cmp N t0 len).
  Notation refs_ok := (refs_ok t0 len).

  (** The iterator has still to hand out the entries number [xs]. *)
  Definition iter_at (h : heap) (r : addr) (it : m_iter) (xs : list nat) (d : nat) : Prop :=
    exists gs, wsims h r (mi_work it) gs /\ Forall BTreeIterProofs.ok2 gs /\ Forall (rich N) gs
      /\ map (nth_error R) xs = map Some (BTreeIterProofs.dens gs) /\ mi_len it = length xs + d.
  Lemma at_mono h h' r it xs d : mono h h' r -> iter_at h r it xs d -> iter_at h' r it xs d.
  Proof. intros Mo (gs & H & G). exists gs. split; auto. eapply wsims_mono; eauto. Qed.

  Lemma at_hint h r it xs d : iter_at h r it xs d -> fst (mi_hint N it) <= length xs /\ snd (mi_hint N it) = length xs + d.
  Proof.
    intros (gs & W & O2 & Ri & D & Ln). split; [|exact Ln].
    assert (E : fst (mi_hint N it) = fst (b_range_hint N (BIter gs 0))).
    { unfold mi_hint, b_range_hint. cbn [fst bi_work]. clear - W. unfold BTreeHeapMutProofs.wsims in W. induction W as [|w g ws gs [p H] F IH]; auto. cbn [fold_right].
      destruct (wsim_flags _ _ _ _ _ _ H) as (_ & _ & _ & E1 & E2). now rewrite E1, E2, IH. }
    rewrite E. etransitivity; [apply (hint_ok N HN gs 0); auto; now apply BTreeIterProofs.ok2s|].
    apply (f_equal (@length _)) in D. rewrite !map_length in D. lia.
  Qed.

  Lemma next_at h r t l ps it xs d : minv h r t ps -> shows_at t l -> iter_at h r it xs d ->
    exists h' it' o nps, hm_next bomb h it = Ok (h', it', o) /\ mono h h' r
      /\ match o with
         | Done None => minv h' r t (nps ++ ps) /\ xs = [] /\ iter_at h' r it' [] d
         | Done (Some rf) => minv h' r t (nps ++ ps) /\ exists x xs', xs = x :: xs' /\ iter_at h' r it' xs' d /\ refs_ok h' r [rf] [x]
         | BTreeHeapModel.Unwound => mst h' r t (nps ++ ps) /\ exists n, bomb n = true
         end.
  Proof.
    intros I Sh (gs & W & O2 & Ri & D & Ln). destruct (BTreeIterProofs.next_ok gs (mi_len it)) as (gs' & E & O1' & D' & B').
    { now apply BTreeIterProofs.ok2s. }
    { intros X. destruct xs as [|x xs]; [|cbn [length] in Ln; lia]. destruct (BTreeIterProofs.dens gs); [congruence|discriminate]. }
    destruct (next_m bomb h0 t0 O start h r t ps it (BIter gs (mi_len it)) _ _ I W eq_refl E) as (h' & it' & o & nps & Eh & Mo & P).
    pose proof (next_keeps N _ _ _ E Ri) as Ri'. cbn [bi_work bi_len] in *.
    assert (O2' : Forall BTreeIterProofs.ok2 gs') by (apply BTreeIterProofs.ok2s in O2 as [_ O2]; apply BTreeIterProofs.ok2s; auto).
    exists h', it', o, nps. split; auto. split; auto. destruct (BTreeIterProofs.dens gs) as [|e L] eqn:Ed.
    - destruct xs as [|x xs]; [|discriminate]. cbn [hd_error tl] in *. destruct o as [s|].
      + destruct P as (I' & W' & Ln' & q & Rs & _ & Hn). rewrite (Hn eq_refl) in *. unfold ref_sim in Rs. destruct s; [now destruct m|]. split; auto. split; auto.
        exists gs'. rewrite D'. repeat split; auto; try lia.
      + destruct P as (_ & _ & _ & e' & _ & _ & X & _). discriminate.
    - destruct xs as [|x xs]; [discriminate|]. cbn [map] in D. injection D as De D. cbn [hd_error tl] in *. destruct o as [s|].
      + destruct P as (I' & W' & Ln' & q & Rs & Fp & _). unfold ref_sim in Rs. destruct s as [[a j]|]; [|contradiction]. destruct Rs as [Hh Hq].
        split; auto. exists x, xs. split; auto. split.
        * exists gs'. rewrite D'. cbn [length] in Ln. repeat split; auto; try lia.
        * constructor; [|constructor]. exists q, e. auto.
      + destruct P as (I' & Hb & _). auto.
  Qed.
  Lemma next_back_at h r t l ps it xs d : minv h r t ps -> shows_at t l -> iter_at h r it xs d ->
    exists h' it' o nps, hm_next_back bomb h it = Ok (h', it', o) /\ mono h h' r
      /\ match o with
         | Done None => minv h' r t (nps ++ ps) /\ xs = [] /\ iter_at h' r it' [] d
         | Done (Some rf) => minv h' r t (nps ++ ps) /\ exists x xs', xs = xs' ++ [x] /\ iter_at h' r it' xs' d /\ refs_ok h' r [rf] [x]
         | BTreeHeapModel.Unwound => mst h' r t (nps ++ ps) /\ exists n, bomb n = true
         end.
  Proof.
    intros I Sh (gs & W & O2 & Ri & D & Ln). destruct (BTreeIterProofs.next_back_ok gs (mi_len it) O2) as (gs' & E & O2' & D').
    { intros X. destruct xs as [|x xs]; [|cbn [length] in Ln; lia]. destruct (BTreeIterProofs.dens gs); [congruence|discriminate]. }
    destruct (next_back_m bomb h0 t0 O start h r t ps it (BIter gs (mi_len it)) _ _ I W eq_refl E) as (h' & it' & o & nps & Eh & Mo & P).
    pose proof (next_back_keeps N _ _ _ E Ri) as Ri'. cbn [bi_work bi_len] in *.
    exists h', it', o, nps. split; auto. split; auto. destruct (BTreeIterProofs.dens gs) as [|e L _] eqn:Ed using rev_ind.
    - destruct xs as [|x xs]; [|discriminate]. cbn [hd_error rev removelast] in *. destruct o as [s|].
      + destruct P as (I' & W' & Ln' & q & Rs & _ & Hn). rewrite (Hn eq_refl) in *. unfold ref_sim in Rs. destruct s; [now destruct m|]. split; auto. split; auto.
        exists gs'. rewrite D'. repeat split; auto; try lia.
      + destruct P as (_ & _ & _ & e' & _ & _ & X & _). discriminate.
    - destruct xs as [|x xs _] using rev_ind; [destruct L; discriminate|]. rewrite !map_app in D. cbn [map] in D. apply app_inj_tail in D as [D De].
      rewrite rev_app_distr, removelast_snoc in *. cbn [rev app hd_error] in *.
      assert (Hc : match L ++ [e] with [] => 0 | _ => 1 end = 1) by (now destruct L). rewrite Hc in *. destruct o as [s|].
      + destruct P as (I' & W' & Ln' & q & Rs & Fp & _). unfold ref_sim in Rs. destruct s as [[a j]|]; [|contradiction]. destruct Rs as [Hh Hq].
        split; auto. exists x, xs. split; auto. split.
        * exists gs'. rewrite D'. rewrite app_length in Ln. cbn [length] in Ln. repeat split; auto; try lia.
        * constructor; [|constructor]. exists q, e. auto.
      + destruct P as (I' & Hb & _). auto.
  Qed.

  Definition ran_at (cs : list (mcall V)) (r : addr) (l : list (K * V)) (xs : list nat) (d : nat) (rs : list nat)
    (h' : heap) (outs : list (option (K * V) * (nat * nat))) (b : bool) : Prop :=
    exists t' ps', mst h' r t' ps' /\ shows_at t' (snd (s_picks (firstn (length outs) cs) l xs rs))
      /\ Forall2 (mut_out d) outs (fst (s_picks (firstn (length outs) cs) l xs rs))
      /\ if b then length outs = length cs else exists n, bomb n = true.

  Lemma run_at cs : forall h r t l ps it xs d refs rs, minv h r t ps -> shows_at t l -> iter_at h r it xs d -> refs_ok h r refs rs ->
    exists h' it' outs b, hm_run N bomb cs h it refs = Ok (h', it', outs, b) /\ ran_at cs r l xs d rs h' outs b.
  Proof.
    induction cs as [|c cs IH]; intros h r t l ps it xs d refs rs I Sh It Rf.
    { exists h, it, [], true. split; auto. exists t, ps. cbn [length firstn s_picks fst snd]. split; [exact (proj1 I)|]. split; [exact Sh|]. split; [constructor|reflexivity]. }
    assert (Go : forall h1 it1 t1 l1 xs1 refs1 rs1 ps1 o so, minv h1 r t1 ps1 -> shows_at t1 l1 -> iter_at h1 r it1 xs1 d -> refs_ok h1 r refs1 rs1 ->
      mut_out d o so ->
      (forall cs', s_picks (c :: cs') l xs rs = let '(os, l') := s_picks cs' l1 xs1 rs1 in (so :: os, l')) ->
      exists h' it' outs b, ('(h2, it2, outs, b) <- hm_run N bomb cs h1 it1 refs1;; Ok (h2, it2, o :: outs, b)) = Ok (h', it', outs, b)
        /\ ran_at (c :: cs) r l xs d rs h' outs b).
    { intros h1 it1 t1 l1 xs1 refs1 rs1 ps1 o so I1 Sh1 It1 Rf1 Ho Es.
      destruct (IH h1 r t1 l1 _ it1 xs1 d refs1 rs1 I1 Sh1 It1 Rf1) as (h' & it' & outs & b & E & t' & ps' & A1 & A2 & A3 & A4).
      rewrite E. cbn [bind]. eexists _, _, _, _. split; [reflexivity|]. exists t', ps'. cbn [length]. rewrite !firstn_cons, !Es.
      destruct (s_picks (firstn (length outs) cs) l1 xs1 rs1) as [os l'] eqn:E1. cbn [fst snd] in *.
      split; auto. split; auto. split; [constructor; auto|]. destruct b; auto. }
    assert (Un : forall h1 (it1 : m_iter) ps1, mst h1 r t ps1 -> (exists n, bomb n = true) ->
      exists h' it' outs b, Ok (h1, it1, @nil (option (K * V) * (nat * nat)), false) = Ok (h', it', outs, b) /\ ran_at (c :: cs) r l xs d rs h' outs b).
    { intros h1 it1 ps1 Hm Hb. exists h1, it1, [], false. split; auto. exists t, ps1. cbn [length firstn s_picks fst snd] in *. split; [exact Hm|]. split; [exact Sh|]. split; [constructor|exact Hb]. }
    assert (Hnew : forall h1 rf x, refs_ok h1 r refs rs -> refs_ok h1 r [rf] [x] -> refs_ok h1 r (refs ++ [rf]) (rs ++ [x])).
    { intros h1 rf x F1 F2. apply Forall2_app; auto. }
    assert (Rd : forall h1 rf x t1 ps1, minv h1 r t1 ps1 -> shows_at t1 l -> refs_ok h1 r [rf] [x] -> exists e, ref_read h1 rf = Ok e /\ nth_error l x = Some e).
    { intros h1 [a j] x t1 ps1 I1 S1 F. inversion F as [|? ? ? ? (q & e & A1 & A2 & A3) _]; subst. cbn [fst snd] in *.
      destruct (at_entry bor cmp N t0 len V0 t1 l x e S1 A1) as (q' & j' & es & ks & es0 & ks0 & e' & B1 & B2 & B3 & B4 & B5 & B6). rewrite A2 in B1. injection B1 as <- <-.
      destruct (write_step h0 t0 O start h1 r t1 ps1 q a j es0 ks0 (fun v => v) I1 A3 B5 B6) as (e1 & es1 & ks1 & h2 & C1 & C2 & C3 & _).
      rewrite B2 in C1. injection C1 as <- <-. rewrite B3 in C2. injection C2 as <-. eauto. }
    destruct c as [| |j w]; cbn [hm_run].
    - destruct (next_at h r t l ps it xs d I Sh It) as (h1 & it1 & o & n1 & E & Mo & P). rewrite E. cbn [bind]. destruct o as [[rf|]|].
      + destruct P as (I1 & x & xs' & -> & It1 & Rf1). destruct (Rd h1 rf x t _ I1 Sh Rf1) as (e & Er & El). rewrite Er. cbn [bind].
        apply (Go h1 it1 t l xs' (refs ++ [rf]) (rs ++ [x]) (n1 ++ ps) _ (nth_error l x, length xs')); auto.
        * apply Hnew; auto. eapply refs_mono; eauto.
        * destruct (at_hint _ _ _ _ _ It1) as [Hh1 Hh2]. split; [now rewrite El|]. cbn [fst snd]. auto.
      + destruct P as (I1 & -> & It1).
        apply (Go h1 it1 t l [] refs rs (n1 ++ ps) _ (None, 0)); auto.
        * eapply refs_mono; eauto.
        * destruct (at_hint _ _ _ _ _ It1) as [Hh1 Hh2]. split; auto.
      + destruct P as (Hm & Hb). apply (Un h1 it1 (n1 ++ ps)); auto.
    - destruct (next_back_at h r t l ps it xs d I Sh It) as (h1 & it1 & o & n1 & E & Mo & P). rewrite E. cbn [bind]. destruct o as [[rf|]|].
      + destruct P as (I1 & x & xs' & -> & It1 & Rf1). destruct (Rd h1 rf x t _ I1 Sh Rf1) as (e & Er & El). rewrite Er. cbn [bind].
        apply (Go h1 it1 t l xs' (refs ++ [rf]) (rs ++ [x]) (n1 ++ ps) _ (nth_error l x, length xs')); auto.
        * apply Hnew; auto. eapply refs_mono; eauto.
        * destruct (at_hint _ _ _ _ _ It1) as [Hh1 Hh2]. split; [now rewrite El|]. cbn [fst snd]. auto.
        * intros cs'. cbn [s_picks]. rewrite rev_app_distr. cbn [rev app]. now rewrite rev_involutive, rev_length.
      + destruct P as (I1 & -> & It1).
        apply (Go h1 it1 t l [] refs rs (n1 ++ ps) _ (None, 0)); auto.
        * eapply refs_mono; eauto.
        * destruct (at_hint _ _ _ _ _ It1) as [Hh1 Hh2]. split; auto.
      + destruct P as (Hm & Hb). apply (Un h1 it1 (n1 ++ ps)); auto.
    - destruct (at_hint _ _ _ _ _ It) as [Hh1 Hh2]. destruct (nth_error refs j) as [[a jj]|] eqn:Ej.
      + destruct (f2_nth_l _ _ _ _ _ Rf Ej) as (x & Ex & q & e & A1 & A2 & A3). cbn [fst snd] in *.
        destruct (at_entry bor cmp N t0 len V0 t l x e Sh A1) as (q' & j' & es & ks & es0 & ks0 & e' & B1 & B2 & B3 & B4 & B5 & B6). rewrite A2 in B1. injection B1 as <- <-.
        destruct (write_step h0 t0 O start h r t ps q a jj es0 ks0 w I A3 B5 B6) as (e1 & es1 & ks1 & h1 & C1 & C2 & C3 & C4 & C5 & C6).
        rewrite B2 in C1. injection C1 as <- <-. rewrite B3 in C2. injection C2 as <-. rewrite C3. cbn [bind]. rewrite C4. cbn [bind].
        apply (Go h1 it (n_write q jj w t) (upd_nth x w l) xs refs rs ps _ (nth_error l x, length xs)); auto.
        * eapply write_at; eauto.
        * eapply at_mono; eauto.
        * eapply refs_mono; eauto.
        * split; auto.
        * intros cs'. cbn [s_picks]. now rewrite Ex.
      + apply (Go h it t l xs refs rs ps _ (None, length xs)); auto.
        * split; auto.
        * intros cs'. cbn [s_picks]. now rewrite (f2_none_l _ _ _ _ Rf Ej).
  Qed.
End Run.

Lemma sub_idx {A} (a b : list A) : AvlHeapSpec.sub a b -> exists xs, StronglySorted lt xs /\ map (nth_error b) xs = map Some a.
Proof.
  intros H. induction H as [|x l m H (xs & H1 & H2)|x l m H (xs & H1 & H2)].
  - exists []. split; [constructor|reflexivity].
  - exists (map S xs). split; [|rewrite map_map; exact H2]. clear H2. induction H1 as [|y ys H1 IH F]; cbn [map]; constructor; auto.
    rewrite Forall_map. eapply Forall_impl; [|exact F]. intros z Hz. lia.
  - exists (0 :: map S xs). split; [|cbn [map nth_error]; rewrite map_map; now rewrite <- H2]. clear H2. constructor.
    + induction H1 as [|y ys H1 IH F]; cbn [map]; constructor; auto. rewrite Forall_map. eapply Forall_impl; [|exact F]. intros z Hz. lia.
    + rewrite Forall_map. apply Forall_forall. intros z _. lia.
Qed.

Section Unpos.
  Context {K V Q : Type} (bor : K -> Q) (ask : nat -> Q -> Q -> option comparison).
  Notation mbor := (fun r : @bref K => bor (snd r)).
  Lemma part_unpos n n' lo hi (R L : list (@bref K * V)) : asked_part mbor ask n n' lo hi R L -> asked_part bor ask n n' lo hi (map unpos R) (map unpos L).
  Proof.
    intros P. constructor.
    - apply sub_map, P.
    - intros E. destruct (ap_prefix _ _ _ _ _ _ _ _ P E) as [r ->]. exists (map unpos r). now rewrite map_app.
    - intros E. destruct (ap_suffix _ _ _ _ _ _ _ _ P E) as [r ->]. exists (map unpos r). now rewrite map_app.
    - intros H. f_equal. apply (ap_all _ _ _ _ _ _ _ _ P). intros e He. exact (H (unpos e) (in_map unpos R e He)).
    - intros e E. apply hd_map in E as (e' & E & <-). pose proof (ap_first _ _ _ _ _ _ _ _ P e' E) as F. unfold asked_first in *. destruct lo as [|q|q]; auto.
      destruct F as [F|(l1 & x & l2 & -> & F)]; [left; exact F|right]. exists (map unpos l1), (unpos x), (map unpos l2). split; [now rewrite map_app|exact F].
    - intros e E. rewrite <- map_rev in E. apply hd_map in E as (e' & E & <-). pose proof (ap_last _ _ _ _ _ _ _ _ P e' E) as F. unfold asked_last in *. destruct hi as [|q|q]; auto.
      destruct F as [F|(l1 & x & l2 & -> & F)]; [left; exact F|right]. exists (map unpos l1), (unpos x), (map unpos l2). split; [now rewrite map_app|exact F].
  Qed.
  Lemma gap_unpos n n' lo hi (R : list (@bref K * V)) : asked_gap mbor ask n n' lo hi R -> asked_gap bor ask n n' lo hi (map unpos R).
  Proof. intros (e & He & G). exists (unpos e). split; [now apply in_map|exact G]. Qed.
End Unpos.

Section Whole.
  Context {K V Q : Type} (bor : K -> Q) (ask : nat -> Q -> Q -> option comparison) (N : nat) (HN : 1 <= N).
  Variable bomb : nat -> bool.
  Notation bt := (bt K V).
  Notation pay := (list (K * V)).
  Notation heap := (heap pay).
  Notation hbany := (@hbany K V N).
  Notation nob := (fun _ : K => tt).
  Notation noc := (fun _ _ : unit => Lt).
  Notation mbor := (fun r : @bref K => bor (snd r)).

  Lemma range_mut_shared h m l lo hi n O : sound h (olist (hb_root m) ++ O) -> hbany h m l ->
    exists d, level_bound l (N + 1) d /\
    match hb_range_mut_t bor ask bomb h m lo hi n with
    | Returned (h', m') o n' => n <= n' <= n + (1 + 2 * ((2 * N + 1) * (d + 1))) /\ still N O h h' m' l
        /\ match o with
           | Made it => ~ asked_crossed ask n lo hi
               /\ exists xs l', StronglySorted lt xs /\ map (nth_error l) xs = map Some l' /\ asked_part bor ask n n' lo hi l l'
               /\ forall cs, exists h2 it2 outs b, hm_run N bomb cs h' it [] = Ok (h2, it2, outs, b)
                  /\ picks_ok N bomb O h cs l xs (length l - length xs) h2 m' outs b
           | Torn => exists k, bomb k = true
           | Broke => asked_crossed ask n lo hi \/ exists n2, n2 <= n + (1 + 2 * ((2 * N + 1) * (d + 1))) /\ asked_gap bor ask n n2 lo hi l
           end
    | Ask.Unwound (h', m') n' => n < n' <= n + (1 + 2 * ((2 * N + 1) * (d + 1))) /\ panicked ask n' /\ still N O h h' m' l
    | Fault => False
    end.
  Proof.
    intros So Ha. assert (Same : still N O h h m l) by (split; [exact So|split; [apply frame_refl|exact Ha]]).
    pose proof (bad_runs ask N HN lo hi n) as Bd. unfold runs in Bd. unfold hb_range_mut_t.
    destruct Ha as (b & Rb & Hb). pose proof Hb as Hb0. apply BTreeHeapProofs5.read_iff in Rb. destruct (any_valid N b l Hb) as [Hv Hc].
    destruct b as [len [t|]], m as [len' [a|]]; destruct Rb as [El D]; cbn [hb_len hb_root bm_len bm_root BTreeHeapProofs2.opt_ns] in *; try contradiction; subst len'.
    2:{ exists 0. assert (l = []) as -> by (now rewrite <- Hc). split; [unfold level_bound; cbn; lia|].
      destruct (bad_range_t ask lo hi n) as [[] [|] n1|[] n1|]; cbn [after]; [| | |destruct Bd as (? & _ & [])].
      - destruct Bd as [L Bd]. split; [lia|]. split; [exact Same|]. now left.
      - destruct Bd as [L Bd]. split; [lia|]. split; [exact Same|]. split; [exact Bd|]. exists [], []. split; [constructor|]. split; [reflexivity|]. split; [apply asked_nil|].
        assert (len = 0) as -> by (destruct Hb0 as [X _]; exact X).
        intros cs. exists h, (MIter [] 0), (map (fun _ => (None, (0, 0))) cs), true. split; [exact (proj1 (run_nil N bomb cs h))|].
        split; [exact (proj1 Same)|]. split; [apply frame_refl|]. rewrite !map_length, firstn_all.
        assert (E : s_picks cs ([] : pay) [] [] = (map (fun _ => (None, 0)) cs, [])).
        { clear. induction cs as [|c cs IH]; [reflexivity|]. destruct c as [| |j w]; cbn [s_picks rev]; [now rewrite IH..|]. replace (nth_error (@nil nat) j) with (@None nat) by (now destruct j). now rewrite IH. }
        rewrite E. cbn [fst snd]. split; [apply Same|]. split; [|reflexivity]. clear. induction cs; constructor; auto. repeat split; auto.
      - destruct Bd as [L Bd]. split; [lia|]. split; [exact Bd|exact Same]. }
    pose proof Hv as (As & Ln & ht & Sh). cbn [bm_root bm_len] in *. exists ht.
    split; [pose proof (proj1 (count_bounds N ht 1 t Sh)); unfold level_bound; rewrite <- Hc; cbn [contents bm_root] in *; unfold contents; cbn [bm_root]; lia|].
    destruct (bad_range_t ask lo hi n) as [[] [|] n1|[] n1|]; cbn [after]; [| | |destruct Bd as (? & _ & [])].
    { destruct Bd as [L Bd]. split; [nia|]. split; [exact Same|]. now left. }
    2:{ destruct Bd as [L Bd]. split; [nia|]. split; [exact Bd|exact Same]. }
    destruct Bd as [L1 Bd]. destruct So as [W A].
    destruct (root_start N HN bomb ht h a t O W A D (shape_loose N ht _ _ Sh) (levels N ht _ _ Sh)) as (h1 & x & E & R).
    pose proof (loose_depth h ht t a (shape_loose N ht _ _ Sh) D) as Dp.
    assert (St : forall h' r ps, mst h t O (from h a) h' r t ps -> still N O h h' (HB len (Some r)) l).
    { intros h' r ps (W' & A' & D' & _ & F' & _). split; [split; auto|]. split; [exact F'|]. exists (BMap len (Some t)). split; [|exact Hb0]. apply BTreeHeapProofs5.read_iff. split; auto. }
    assert (Mx : (bd1 lo + bd1 hi) * (MAX_OCC N * (ht + 1)) <= 2 * ((2 * N + 1) * (ht + 1))).
    { change (MAX_OCC N) with (2 * N + 1). assert (bd1 lo + bd1 hi <= 2) by (destruct lo, hi; cbn; lia). now apply Nat.mul_le_mono_r. }
    pose proof (work_ask mbor ask N HN ht 1 (with_pos [] t) lo hi n1 (le_n 1) (proj1 (with_pos_ok N ht 1 _ [] Sh))) as Wa. unfold runs in Wa.
    destruct t as [es ks] eqn:Et. rewrite <- Et in *. destruct (ns_inv h a es ks) as (ka & kk & Ga & _); [now rewrite <- Et|].
    assert (Ep : peek h a = Ok es) by (unfold peek; now rewrite Ga).
    destruct x as [r|].
    - destruct R as (ps & I & Hr & _).
      destruct (work_t bor ask bomb h t O (from h a) N HN ht 1 t (depth h) h h1 (SRoot a) a es r t ps [] r lo hi n1 (le_n 1) Sh) as [(n2 & -> & L2 & P)|P]; auto.
      { unfold depth. lia. }
      { now rewrite Et. }
      { split; [lia|]. split; [exact P|exact Same]. }
      destruct (hm_worklist_t bor ask bomb (depth h) h (SRoot a) lo hi n1) as [[h2 x] o n2|[h2 x] n2|]; cbn [kid_ok] in P; [| |contradiction].
      2:{ destruct P as (Hx & L2 & P & _ & nps & I2). unfold is in Hx. subst x. split; [lia|]. split; [exact P|]. exact (St _ _ _ (proj1 I2)). }
      destruct P as (Hx & L2 & _ & nps & P). unfold is in Hx. subst x. split; [lia|]. destruct o as [ws| |].
      + destruct P as (I2 & gs & ET & Ws). split; [exact (St _ _ _ (proj1 I2))|]. split; [exact Bd|]. rewrite ET in Wa. destruct Wa as (_ & O2 & Ri & Pa).
        pose proof (proj2 (map_pos_ok nob noc N _ Hv)) as Hm. rewrite Hc in Hm.
        destruct (sub_idx _ _ (ap_sub _ _ _ _ _ _ _ _ Pa)) as (xs & X1 & X2).
        assert (Lx : length xs = length (BTreeIterProofs.dens gs)) by (apply (f_equal (@length _)) in X2; now rewrite !map_length in X2).
        assert (Le : length xs <= length l) by (rewrite Lx, <- Hm, map_length; apply (BTreeAnyRange.sub_len N HN), (ap_sub _ _ _ _ _ _ _ _ Pa)).
        exists xs, (map unpos (BTreeIterProofs.dens gs)). split; [exact X1|]. split.
        { rewrite <- Hm. transitivity (map (option_map unpos) (map (nth_error (contents (map_pos (BMap len (Some t))))) xs)).
          - rewrite map_map. apply map_ext. intros i. apply nth_error_map.
          - rewrite (X2 : map (nth_error (contents (map_pos (BMap len (Some t))))) xs = _), !map_map. reflexivity. }
        split. { rewrite <- Hm. apply part_unpos. apply (part_wide mbor ask N HN n1); [lia|exact Pa]. }
        intros cs. assert (It : iter_at N t len h2 r (MIter ws len) xs (length l - length xs)).
        { exists gs. cbn [mi_work mi_len]. split; auto. split; auto. split; auto. split; [exact X2|]. destruct Hb0 as [Hl _]. cbn [bm_len] in Hl. lia. }
        destruct (run_at nob noc N HN bomb h t O (from h a) len Hv cs h2 r t l _ (MIter ws len) xs _ [] [] I2 (conj Hv (conj Hc eq_refl)) It (Forall2_nil _)) as (h3 & it3 & outs & b & Er & t3 & ps3 & M3 & S3 & F3 & B3).
        exists h3, it3, outs, b. split; [exact Er|]. destruct M3 as (W3 & A3 & D3 & _ & Fr & _). split; [split; auto|]. split; [exact Fr|]. split; [|split; [exact F3|exact B3]].
        destruct S3 as (V3 & C3 & _). exists (BMap len (Some t3)). split; [apply BTreeHeapProofs5.read_iff; split; auto|]. rewrite <- C3. now apply (BTreeAnyRange.valid_any N).
      + destruct P as (M2 & B2). split; [exact (St _ _ _ M2)|exact B2].
      + destruct P as (I2 & ET). split; [exact (St _ _ _ (proj1 I2))|]. right. rewrite ET in Wa. destruct Wa as (n3 & L3 & G). exists n3. split; [lia|].
        pose proof (proj2 (map_pos_ok nob noc N _ Hv)) as Hm. rewrite Hc in Hm. rewrite <- Hm. apply gap_unpos. apply (gap_wide mbor ask N HN n1); [lia|exact G].
    - destruct R as (Ms & B). assert (Ed : exists d, depth h = S d) by (unfold depth; destruct (length (cells h)); [lia|eauto]). destruct Ed as [d Ed].
      rewrite Ed. cbn [hm_worklist_t slot_addr slot_mut bind]. rewrite Ep.
      assert (Hle : 1 <= length es <= MAX_OCC N). { apply shape_len in Sh. unfold n_len in Sh. rewrite Et in Sh. cbn [elems_of] in Sh. lia. }
      assert (Hes : es <> []) by (intros ->; cbn in Hle; lia).
      pose proof (edges_asked bor ask es lo hi n1 Hes) as Re. destruct (find_range_edges_t bor ask es lo hi n1) as [[] [[[le lk] lp] [[ue uk] rp]] n2|[] n2|]; cbn [after]; [| |contradiction].
      + rewrite E. split; [nia|]. split; [exact (St _ _ _ Ms)|exact B].
      + split; [nia|]. split; [apply Re|exact Same].
  Qed.
End Whole.

(** ** Comparisons of an order that may panic *)
Section Law.
  Context {K V Q : Type} (bor : K -> Q) (ask : nat -> Q -> Q -> option comparison) (cmp : Q -> Q -> comparison) (A : answers cmp ask).
  Variable bomb : nat -> bool.
  Notation heap := (heap (list (K * V))).
  Definition hdoes {X R} (t : trial (heap * X) (halt R)) (r : res (heap * X * out R)) : Prop :=
    match t with
    | Returned (h, x) (Made w) _ => r = Ok (h, x, Done w)
    | Returned (h, x) Torn _ => r = Ok (h, x, BTreeHeapModel.Unwound)
    | Returned _ Broke _ => r = Panic
    | Ask.Unwound _ _ => True
    | Fault => r = Panic
    end.
  Lemma hm_does fuel : forall h s lb ub n, hdoes (hm_worklist_t bor ask bomb fuel h s lb ub n) (hm_worklist bor cmp bomb fuel h s lb ub).
  Proof.
    induction fuel as [|fuel IH]; intros h s lb ub n; cbn [hm_worklist_t hm_worklist]; [reflexivity|].
    destruct (slot_addr h s) as [c|]; [|reflexivity]. cbn [bind]. destruct (peek h c) as [es|]; [|reflexivity]. cbn [bind].
    pose proof (edges_do bor ask cmp A es lb ub n) as D. destruct (find_range_edges_t bor ask es lb ub n) as [[] edges n1|u n1|]; cbn [does after] in *; [|exact Logic.I|discriminate].
    injection D as ->. destruct edges as [[[le lk] lp] [[ue uk] rp]]. destruct (slot_mut bomb h s) as [[h1 [a|]]|]; [|reflexivity|reflexivity]. cbn [bind].
    destruct (excl h1 a) as [nd|]; [|reflexivity]. cbn [bind]. destruct (slice le ue (nd_data nd)) as [sl|]; [|reflexivity]. cbn [bind].
    destruct (match slice lk uk (nd_kids nd) with Ok _ => (lk, uk) | Panic => (0, 0) end) as [lk0 uk0].
    assert (Rt : forall lk1 lb1 w1 h2 n2, hdoes (hm_right_t (hm_worklist_t bor ask bomb fuel) a ((le, lk, lp), (ue, uk, rp)) lk1 uk0 lb1 ub w1 h2 n2)
      (let '(to_prune, uk1) := if rp && (lk1 <? uk0) then (Some (SKid a (uk0 - 1)), uk0 - 1) else (None, uk0) in
       let w2 := if (0 <? ue - le) || (0 <? uk1 - lk1) then [MW a le ue lk1 uk1 (negb lp && (le =? lk)) (negb rp && (ue <? uk))] else [] in
       '(h3, o3) <- match to_prune with
                    | Some s0 => '(h3, _, o) <- hm_worklist bor cmp bomb fuel h2 s0 lb1 ub;; Ok (h3, o)
                    | None => Ok (h2, Done [])
                    end;;
       Ok (h3, Some a, match o3 with Done w3 => Done (w1 ++ w2 ++ w3) | BTreeHeapModel.Unwound => BTreeHeapModel.Unwound end))).
    { intros lk1 lb1 w1 h2 n2. unfold hm_right_t. destruct (rp && (lk1 <? uk0)); [|cbn [bind hdoes]; now rewrite app_nil_r].
      pose proof (IH h2 (SKid a (uk0 - 1)) lb1 ub n2) as D. destruct (hm_worklist_t bor ask bomb fuel h2 (SKid a (uk0 - 1)) lb1 ub n2) as [[h3 x] [w| |] n3|[h3 x] n3|];
        cbn [hdoes then_w] in *; try rewrite D; try reflexivity. }
    destruct lp.
    - destruct (if (uk0 - lk0 =? 1) && rp then _ else _) as [ub'|]; [|reflexivity]. cbn [bind]. destruct (lk0 <? uk0); [|apply Rt].
      pose proof (IH h1 (SKid a lk0) lb ub' n1) as D. destruct (hm_worklist_t bor ask bomb fuel h1 (SKid a lk0) lb ub' n1) as [[h3 x] [w| |] n3|[h3 x] n3|];
        cbn [hdoes then_w] in D |- *; try rewrite D; cbn [bind]; try reflexivity. apply Rt.
    - cbn [bind]. apply Rt.
  Qed.
  Lemma range_mut_does h m lo hi n : hdoes (hb_range_mut_t bor ask bomb h m lo hi n) (hb_range_mut bor cmp bomb h m lo hi).
  Proof.
    unfold hb_range_mut_t, hb_range_mut.
    assert (B : does (bad_range_t ask lo hi n) (Ok (bad_range cmp lo hi))).
    { destruct lo as [|a|a], hi as [|b|b]; cbn [bad_range_t bad_range]; try reflexivity; unfold question; (destruct (ask n b a) as [c|] eqn:E; [|exact Logic.I]); apply A in E; subst c; reflexivity. }
    destruct (bad_range_t ask lo hi n) as [[] bad n1|u n1|]; cbn [does after] in *; [|exact Logic.I|discriminate]. injection B as ->. destruct bad; [reflexivity|].
    destruct (hb_root m) as [a|]; [|reflexivity]. pose proof (hm_does (depth h) h (SRoot a) lo hi n1) as D.
    destruct (hm_worklist_t bor ask bomb (depth h) h (SRoot a) lo hi n1) as [[h3 x] [w| |] n3|[h3 x] n3|]; cbn [hdoes] in *; try rewrite D; try reflexivity.
  Qed.
End Law.
