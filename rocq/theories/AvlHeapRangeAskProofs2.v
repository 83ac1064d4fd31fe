(** Proofs about [range_mut] of [AvlMap]s on shared nodes with comparisons that may answer anything and may panic: sequences of
    calls; whole maps. *)
From Coq Require Import List PeanoNat Bool Lia Sorted.
From Verif Require Import Base Spec MapSpec SpecFacts Heap HeapProofs HeapMut HeapMutProofs AvlModel AvlMapProofs AvlHistProofs AvlIterModel AvlIterProofs AvlShows
  AvlHeapModel AvlHeapSpec AvlHeapHistSpec AvlHeapProofs AvlHeapProofs3 AvlHeapProofs4 AvlHeapProofs6 MutSpec AvlHeapMutModel AvlHeapMutProofs AvlHeapMutProofs2 AvlHeapMutProofs3 AvlHeapMutProofs4
  AnyOrdSpec AnyHeapSpec AvlAnyProofs AvlAnyRange Ask AskSpec AskRangeSpec AskRangeMutSpec AvlRangeAskModel AvlRangeAskProofs AvlHeapRangeAskModel AvlHeapRangeAskProofs.
From Verif Require BTreeHeapProofs BTreeHeapMutProofs BTreeHeapMutProofs3 BTreeHeapRangeAskProofs2 BTreeAnyProofs BAskRangeMutSpec AvlProofs2 AskShows.
Import ListNotations.
Local Open Scope nat_scope.

Section Run.
  Context {K V Q : Type} (bor : K -> Q) (cmp : Q -> Q -> comparison).
  Variable bomb : nat -> bool.
  Notation tree := (tree K V).
  Notation heap := (heap (pay K V)).
  Notation path := AvlIterModel.path.
  Variables (h0 : heap) (t0 : tree) (O : list addr) (start : path -> Prop) (len : nat).
  Notation mst := (mst h0 t0 O start).
  Notation minv := (minv h0 t0 O start).
  Notation asims := (asims t0).
  Notation R := (refs [] t0).
  Notation gden := (AvlIterProofs.den (@mflat K V)).
  Hypothesis L0 : levels t0 < depth.
  Notation shows_at := (shows_at bor cmp t0 len).
  Notation refs_ok := (refs_ok t0).
  Notation s_picks := BAskRangeMutSpec.s_picks.

  (** The iterator has still to hand out the entries number [xs]. *)
  Definition iter_at (h : heap) (r : addr) (it : inner_iter addr addr) (xs : list nat) (d : nat) : Prop :=
    exists gs, asims h r (it_work it) gs /\ map (nth_error R) xs = map Some (gden gs) /\ it_len it = length xs + d.
  Lemma at_mono h h' r it xs d : mono h h' r -> iter_at h r it xs d -> iter_at h' r it xs d.
  Proof. intros Mo (gs & H & G). exists gs. split; auto. eapply asims_mono; eauto. Qed.

  Lemma next_at h r t ps it xs d : minv h r t ps -> iter_at h r it xs d ->
    exists h' it' o nps, am_next bomb h it = Ok (h', it', o) /\ mono h h' r
      /\ match o with
         | Done None => minv h' r t (nps ++ ps) /\ xs = [] /\ iter_at h' r it' [] d
         | Done (Some rf) => minv h' r t (nps ++ ps) /\ exists x xs', xs = x :: xs' /\ iter_at h' r it' xs' d /\ refs_ok h' r [rf] [x]
         | AvlHeapModel.Unwound => mst h' r t (nps ++ ps) /\ exists n, bomb n = true
         end.
  Proof.
    intros I (gs & W & D & Ln).
    assert (Lx : length xs = length (gden gs)) by (apply (f_equal (@length _)) in D; now rewrite !map_length in D).
    destruct (next_m bomb h0 t0 O start depth h r t ps (it_work it) gs (it_len it) I W) as (h' & it' & o & nps & E & Mo & P).
    { pose proof (asims_lv t0 h r _ _ W). lia. }
    { lia. }
    exists h', it', o, nps. split; auto. split; auto. destruct (gden gs) as [|[q kk] rest].
    - destruct xs as [|x xs]; [|discriminate]. destruct P as (-> & -> & -> & ->). split; auto. split; auto. exists []. split; [constructor|]. split; [reflexivity|exact Ln].
    - destruct xs as [|x xs]; [discriminate|]. cbn [map] in D. injection D as De D. destruct P as [_ P].
      destruct o as [[y|]|]; [|contradiction|destruct P as (P1 & P2 & _); auto]. destruct P as (I' & Hx & gs' & W' & D' & Ln'). split; auto. exists x, xs. split; auto. split.
      + exists gs'. rewrite D'. split; auto. split; auto. cbn [length] in Ln. lia.
      + constructor; [|constructor]. exists q, kk. auto.
  Qed.
  Lemma next_back_at h r t ps it xs d : minv h r t ps -> iter_at h r it xs d ->
    exists h' it' o nps, am_next_back bomb h it = Ok (h', it', o) /\ mono h h' r
      /\ match o with
         | Done None => minv h' r t (nps ++ ps) /\ xs = [] /\ iter_at h' r it' [] d
         | Done (Some rf) => minv h' r t (nps ++ ps) /\ exists x xs', xs = xs' ++ [x] /\ iter_at h' r it' xs' d /\ refs_ok h' r [rf] [x]
         | AvlHeapModel.Unwound => mst h' r t (nps ++ ps) /\ exists n, bomb n = true
         end.
  Proof.
    intros I (gs & W & D & Ln).
    assert (Lx : length xs = length (gden gs)) by (apply (f_equal (@length _)) in D; now rewrite !map_length in D).
    destruct (next_back_m bomb h0 t0 O start depth h r t ps (it_work it) gs (it_len it) I W) as (h' & it' & o & nps & E & Mo & P).
    { pose proof (asims_lvb t0 h r _ _ W). lia. }
    { lia. }
    exists h', it', o, nps. split; auto. split; auto. destruct (gden gs) as [|[q kk] L _] eqn:Ed using rev_ind.
    - destruct xs as [|x xs]; [|discriminate]. destruct P as (-> & -> & -> & ->). split; auto. split; auto. exists []. split; [constructor|]. split; [reflexivity|exact Ln].
    - destruct xs as [|x xs _] using rev_ind; [destruct L; discriminate|]. rewrite !map_app in D. cbn [map] in D. apply app_inj_tail in D as [D De].
      rewrite rev_app_distr in P. cbn [rev app] in P. destruct P as [_ P].
      destruct o as [[y|]|]; [|contradiction|destruct P as (P1 & P2 & _); auto]. destruct P as (I' & Hx & gs' & W' & D' & Ln'). rewrite rev_involutive in D'. split; auto. exists x, xs. split; auto. split.
      + exists gs'. rewrite D'. split; auto. split; auto. rewrite app_length in Ln. cbn [length] in Ln. lia.
      + constructor; [|constructor]. exists q, kk. auto.
  Qed.

  Definition ran_at (cs : list (mcall V)) (r : addr) (l : list (K * V)) (xs : list nat) (d : nat) (rs : list nat)
    (h' : heap) (outs : list (option (K * V) * nat)) (b : bool) : Prop :=
    exists t' ps', mst h' r t' ps' /\ shows_at t' (snd (s_picks (firstn (length outs) cs) l xs rs))
      /\ outs = map (fun s => (fst s, snd s + d)) (fst (s_picks (firstn (length outs) cs) l xs rs))
      /\ if b then length outs = length cs else exists n, bomb n = true.

  Lemma run_at cs : forall h r t l ps it xs d rfs rs, minv h r t ps -> shows_at t l -> iter_at h r it xs d -> refs_ok h r rfs rs ->
    exists h' it' outs b, am_run bomb cs h it rfs = Ok (h', it', outs, b) /\ ran_at cs r l xs d rs h' outs b.
  Proof.
    induction cs as [|c cs IH]; intros h r t l ps it xs d rfs rs I Sh It Rf.
    { exists h, it, [], true. split; auto. exists t, ps. cbn [length firstn s_picks fst snd]. split; [exact (proj1 I)|]. split; [exact Sh|]. split; reflexivity. }
    assert (Go : forall h1 it1 t1 l1 xs1 rfs1 rs1 ps1 o so, minv h1 r t1 ps1 -> shows_at t1 l1 -> iter_at h1 r it1 xs1 d -> refs_ok h1 r rfs1 rs1 ->
      o = (fst so, snd so + d) ->
      (forall cs', s_picks (c :: cs') l xs rs = let '(os, l') := s_picks cs' l1 xs1 rs1 in (so :: os, l')) ->
      exists h' it' outs b, ('(h2, it2, outs, b) <- am_run bomb cs h1 it1 rfs1;; Ok (h2, it2, o :: outs, b)) = Ok (h', it', outs, b)
        /\ ran_at (c :: cs) r l xs d rs h' outs b).
    { intros h1 it1 t1 l1 xs1 rfs1 rs1 ps1 o so I1 Sh1 It1 Rf1 Ho Es.
      destruct (IH h1 r t1 l1 _ it1 xs1 d rfs1 rs1 I1 Sh1 It1 Rf1) as (h' & it' & outs & b & E & t' & ps' & A1 & A2 & A3 & A4).
      rewrite E. cbn [bind]. eexists _, _, _, _. split; [reflexivity|]. exists t', ps'. cbn [length]. rewrite !firstn_cons, !Es.
      destruct (s_picks (firstn (length outs) cs) l1 xs1 rs1) as [os l'] eqn:E1. cbn [fst snd] in *.
      split; auto. split; auto. split; [cbn [map]; now rewrite Ho, <- A3|]. destruct b; auto. }
    assert (Un : forall h1 (it1 : inner_iter addr addr) ps1, mst h1 r t ps1 -> (exists n, bomb n = true) ->
      exists h' it' outs b, Ok (h1, it1, @nil (option (K * V) * nat), false) = Ok (h', it', outs, b) /\ ran_at (c :: cs) r l xs d rs h' outs b).
    { intros h1 it1 ps1 Hm Hb. exists h1, it1, [], false. split; auto. exists t, ps1. cbn [length firstn s_picks fst snd] in *. split; [exact Hm|]. split; [exact Sh|]. split; [reflexivity|exact Hb]. }
    assert (Hnew : forall h1 rf x, refs_ok h1 r rfs rs -> refs_ok h1 r [rf] [x] -> refs_ok h1 r (rfs ++ [rf]) (rs ++ [x])).
    { intros h1 rf x F1 F2. apply Forall2_app; auto. }
    assert (Acc : forall h1 a q kk x w ps1, minv h1 r t ps1 -> nth_error R x = Some (q, kk) -> held h1 r (np q) a ->
      exists e h2, am_read h1 a = Ok e /\ nth_error l x = Some e /\ am_write h1 a w = Ok h2 /\ minv h2 r (write_at q w t) ps1 /\ mono h1 h2 r).
    { intros h1 a q kk x w ps1 I1 Ex Ha. destruct (refs_at t0 [] x q kk Ex) as (s & v0 & lh & rh & l1 & r1 & -> & B1 & _). cbn [app] in *.
      destruct (write_step h0 t0 O start h1 r t ps1 s a kk v0 lh rh l1 r1 w I1 Ha B1) as (v & l2 & r2 & h2 & C1 & C2 & C3 & C4 & C5).
      destruct Sh as (_ & <- & Hf). rewrite <- Hf in Ex. destruct (refs_at t [] x s kk Ex) as (s' & v' & lh' & rh' & l' & r' & -> & D1 & D2). cbn [app] in *.
      rewrite C1 in D1. injection D1 as <- _ _ _ _. eauto 8. }
    assert (Rd : forall h1 rf x ps1, minv h1 r t ps1 -> refs_ok h1 r [rf] [x] -> exists e, am_read h1 rf = Ok e /\ nth_error l x = Some e).
    { intros h1 a x ps1 I1 F. inversion F as [|? ? ? ? (q & e & A1 & A2) _]; subst. destruct (Acc h1 a q e x (fun v => v) ps1 I1 A1 A2) as (e' & _ & B1 & B2 & _). eauto. }
    assert (Hlen : forall h1 it1 xs1, iter_at h1 r it1 xs1 d -> it_len it1 = length xs1 + d) by (intros h1 it1 xs1 (_ & _ & _ & X); exact X).
    destruct c as [| |j w]; cbn [am_run].
    - destruct (next_at h r t ps it xs d I It) as (h1 & it1 & o & n1 & E & Mo & P). rewrite E. cbn [bind]. destruct o as [[rf|]|].
      + destruct P as (I1 & x & xs' & -> & It1 & Rf1). destruct (Rd h1 rf x _ I1 Rf1) as (e & Er & El). rewrite Er. cbn [bind].
        apply (Go h1 it1 t l xs' (rfs ++ [rf]) (rs ++ [x]) (n1 ++ ps) _ (nth_error l x, length xs')); auto.
        * apply Hnew; auto. eapply refs_mono; eauto.
        * cbn [fst snd]. now rewrite El, (Hlen _ _ _ It1).
      + destruct P as (I1 & -> & It1).
        apply (Go h1 it1 t l [] rfs rs (n1 ++ ps) _ (None, 0)); auto.
        * eapply refs_mono; eauto.
        * cbn [fst snd]. now rewrite (Hlen _ _ _ It1).
      + destruct P as (Hm & Hb). apply (Un h1 it1 (n1 ++ ps)); auto.
    - destruct (next_back_at h r t ps it xs d I It) as (h1 & it1 & o & n1 & E & Mo & P). rewrite E. cbn [bind]. destruct o as [[rf|]|].
      + destruct P as (I1 & x & xs' & -> & It1 & Rf1). destruct (Rd h1 rf x _ I1 Rf1) as (e & Er & El). rewrite Er. cbn [bind].
        apply (Go h1 it1 t l xs' (rfs ++ [rf]) (rs ++ [x]) (n1 ++ ps) _ (nth_error l x, length xs')); auto.
        * apply Hnew; auto. eapply refs_mono; eauto.
        * cbn [fst snd]. now rewrite El, (Hlen _ _ _ It1).
        * intros cs'. cbn [s_picks]. rewrite rev_app_distr. cbn [rev app]. now rewrite rev_involutive, rev_length.
      + destruct P as (I1 & -> & It1).
        apply (Go h1 it1 t l [] rfs rs (n1 ++ ps) _ (None, 0)); auto.
        * eapply refs_mono; eauto.
        * cbn [fst snd]. now rewrite (Hlen _ _ _ It1).
      + destruct P as (Hm & Hb). apply (Un h1 it1 (n1 ++ ps)); auto.
    - pose proof (Hlen _ _ _ It) as Hl. destruct (nth_error rfs j) as [a|] eqn:Ej.
      + destruct (BTreeHeapMutProofs3.f2_nth_l _ _ _ _ _ Rf Ej) as (x & Ex & q & kk & A1 & A2).
        destruct (Acc h a q kk x w ps I A1 A2) as (e & h1 & C1 & C2 & C3 & C4 & C5). rewrite C1. cbn [bind]. rewrite C3. cbn [bind].
        apply (Go h1 it (write_at q w t) (upd_nth x w l) xs rfs rs ps _ (nth_error l x, length xs)); auto.
        * eapply write_shows; eauto.
        * eapply at_mono; eauto.
        * eapply refs_mono; eauto.
        * cbn [fst snd]. now rewrite C2, Hl.
        * intros cs'. cbn [s_picks]. now rewrite Ex.
      + apply (Go h it t l xs rfs rs ps _ (None, length xs)); auto.
        intros cs'. cbn [s_picks]. now rewrite (BTreeHeapMutProofs3.f2_none_l _ _ _ _ Rf Ej).
  Qed.
End Run.

(** ** What the comparisons told of the references and of the entries *)
Section Zip.
  Context {A B : Type}.
  Notation sub := AvlHeapSpec.sub.
  Lemma sub_zip (Z : list (A * B)) : forall rs, sub rs (map fst Z) -> exists Z', sub Z' Z /\ map fst Z' = rs.
  Proof.
    induction Z as [|[a b] Z IH]; intros rs H; cbn [map fst] in H.
    - inversion H; subst. exists []. split; [constructor|reflexivity].
    - inversion H as [|? ? ? H'|? rs' ? H']; subst.
      + destruct (IH _ H') as (Z' & S & E). exists Z'. split; [now constructor|exact E].
      + destruct (IH _ H') as (Z' & S & E). exists ((a, b) :: Z'). split; [now constructor|cbn [map fst]; now rewrite E].
  Qed.
  Lemma sub_whole {X} (a b : list X) : sub a b -> length a = length b -> a = b.
  Proof.
    induction 1 as [|x a b H IH|x a b H IH]; intros L; auto.
    - apply sub_length in H. cbn [length] in L. lia.
    - cbn [length] in L. f_equal. apply IH. lia.
  Qed.
  Lemma sub_incl {X} (a b : list X) x : sub a b -> In x a -> In x b.
  Proof. induction 1 as [|y a b H IH|y a b H IH]; cbn [In]; intuition. Qed.
  Lemma sub_map {X Y} (f : X -> Y) (a b : list X) : sub a b -> sub (map f a) (map f b).
  Proof. induction 1; cbn [map]; now constructor. Qed.
  Lemma hd_map {X Y} (f : X -> Y) (a : list X) y : hd_error (map f a) = Some y -> exists x, hd_error a = Some x /\ y = f x.
  Proof. destruct a as [|x a]; [discriminate|]. cbn. intros [= <-]. eauto. Qed.
  Lemma hd_in {X} (a : list X) x : hd_error a = Some x -> In x a.
  Proof. destruct a; [discriminate|]. intros [= ->]. now left. Qed.

  Lemma range_zip {Q} (ka : A -> Q) (kb : B -> Q) ask lo hi n n' (Z Z' : list (A * B)) : (forall z, In z Z -> ka (fst z) = kb (snd z)) -> sub Z' Z ->
    ask_range ka ask lo hi n n' (map fst Z) (map fst Z') -> ask_range kb ask lo hi n n' (map snd Z) (map snd Z').
  Proof.
    intros Hk S (_ & M & H). split; [now apply sub_map|]. split.
    - intros Ml. assert (E : map fst Z' = map fst Z).
      { apply M. intros i Hi. apply in_map_iff in Hi as (z & <- & Hz). specialize (Ml (snd z) (in_map snd _ _ Hz)).
        unfold ask_mid in *. now rewrite (Hk z Hz). }
      apply (f_equal (@length _)) in E. rewrite !map_length in E. f_equal. now apply sub_whole.
    - intros i Hi. assert (X : exists z, (hd_error Z' = Some z \/ hd_error (rev Z') = Some z) /\ i = snd z).
      { destruct Hi as [Hi|Hi]; [|rewrite <- map_rev in Hi]; apply hd_map in Hi as (z & Hz & ->); eauto. }
      destruct X as (z & Hz & ->). assert (Iz : In z Z').
      { destruct Hz as [Hz|Hz]; apply hd_in in Hz; auto. now apply in_rev. }
      specialize (H (fst z)). unfold ask_in in *. rewrite <- (Hk z (sub_incl _ _ _ S Iz)). apply H. rewrite <- map_rev.
      destruct Hz as [Hz|Hz]; [left; destruct Z' as [|y Z']|right; destruct (rev Z') as [|y Y]]; try discriminate; injection Hz as ->; reflexivity.
  Qed.
End Zip.
Lemma idx_map {X Y} (f : X -> Y) (a b : list X) xs : map (nth_error b) xs = map Some a -> map (nth_error (map f b)) xs = map Some (map f a).
Proof.
  intros H. transitivity (map (option_map f) (map (nth_error b) xs)); [rewrite map_map; apply map_ext; intros i; apply nth_error_map|].
  now rewrite H, !map_map.
Qed.
Lemma zip_map {A B} (a : list A) : forall b : list B, length a = length b -> map fst (combine a b) = a /\ map snd (combine a b) = b.
Proof. induction a as [|x a IH]; intros [|y b] L; try discriminate; auto. injection L as L. destruct (IH b L) as [E1 E2]. cbn [combine map fst snd]. now rewrite E1, E2. Qed.
Lemma zip_key {K A B} (f : A -> K) (g : B -> K) (a : list A) : forall b : list B, map f a = map g b -> forall z, In z (combine a b) -> f (fst z) = g (snd z).
Proof. induction a as [|x a IH]; intros [|y b] E z Hz; cbn in *; try contradiction. injection E as E1 E2. destruct Hz as [<-|Hz]; eauto. Qed.

Section Whole.
  Context {K V Q : Type} (bor : K -> Q) (ask : nat -> Q -> Q -> option comparison).
  Variable bomb : nat -> bool.
  Notation heap := (heap (pay K V)).
  Notation gden := (AvlIterProofs.den (@mflat K V)).
  Notation nob := (fun _ : K => tt).
  Notation noc := (fun _ _ : unit => Lt).
  Notation mbor := (fun r : @mref K => bor (snd r)).

  Lemma loops_goes (t : tree K V) lo hi n f : length (elems t) < f -> goes ask n (4 * length (elems t))
    (after (prune_front_t (@mut_destr K V) mbor ask lo hi f (odesc (mk_mnode [] t)) n) back (fun _ w n1 => prune_back_t (@mut_destr K V) mbor ask lo hi f w n1))
    (fun w n' => ask_range mbor ask lo hi n n' (refs [] t) (gden w)).
  Proof.
    intros Hf. set (root := mk_mnode [] t). assert (Os : osize mut_size root = length (elems t)) by apply osize_mnode.
    pose proof (prune_front_goes mut_destr mut_size mflat mut_flat mut_sized mbor ask lo hi n f (odesc root) n (le_n _)) as F.
    rewrite wsize_odesc in F. assert (R0 : rets mbor ask lo hi n n (odesc root)) by (intros i Hi; destruct root; cbn in Hi; intuition discriminate).
    specialize (F ltac:(lia) R0). rewrite Os in F. unfold after at 1.
    destruct (prune_front_t _ _ _ _ _ _ (odesc root) n) as [[] w1 n1|u n1|]; [|exact F|exact F].
    destruct F as [L1 (B1 & D1 & R1 & X1 & M1)]. rewrite wsize_odesc, den_odesc in *. unfold root in D1, M1. rewrite mflat_mk in D1, M1.
    pose proof (prune_back_goes mut_destr mut_size mflat mut_flat mut_sized mbor ask lo hi n f w1 n1 (proj1 L1) ltac:(lia) R1 X1) as G.
    destruct (prune_back_t _ _ _ _ _ _ w1 n1) as [[] w2 n2|u n2|]; cbn [AvlRangeAskProofs.goes] in G |- *; [|destruct G; split; auto; lia|exact G].
    destruct G as [L2 ((B2 & D2 & R2 & X2 & M2) & Y2)]. split; [lia|]. split; [|split].
    - eapply BTreeHeapProofs.sub_trans; eauto.
    - intros Ml. rewrite M2; [apply M1|rewrite M1]; try (apply mid_mono with (m := n) (m' := n2); [lia|lia|exact Ml]).
    - intros i [H|H].
      + destruct w2 as [|[x|j] w2]; [discriminate|exfalso; eapply X2; reflexivity|]. injection H as <-. apply R2. now left.
      + destruct (rev_cases w2) as [->|(w0 & [x|j] & ->)]; [discriminate|exfalso; eapply Y2; reflexivity|].
        rewrite den_app, rev_app_distr in H. injection H as <-. apply R2, in_or_app. right. now left.
  Qed.

  Lemma picks_nil cs : BAskRangeMutSpec.s_picks cs ([] : list (K * V)) [] [] = (map (fun _ => (None, 0)) cs, []).
  Proof.
    induction cs as [|c cs IH]; [reflexivity|]. destruct c as [| |j w]; cbn [BAskRangeMutSpec.s_picks rev]; [now rewrite IH..|].
    replace (nth_error (@nil nat) j) with (@None nat) by (now destruct j). now rewrite IH.
  Qed.

  (** The two loops on values, with the fuel of the call. *)
  Definition loops (t : tree K V) lo hi (f n : nat) : trial unit (list (action (@mnode K V) (@mref K))) :=
    after (prune_front_t (@mut_destr K V) mbor ask lo hi f (odesc (mk_mnode [] t)) n) back (fun _ w n1 => prune_back_t (@mut_destr K V) mbor ask lo hi f w n1).
  (** The references of [w] are those of a part of the entries of which [P] holds. *)
  Definition part_of (t : tree K V) (l : list (K * V)) (P : list (K * V) -> Prop) (w : list (action (@mnode K V) (@mref K))) : Prop :=
    exists Z', AvlHeapSpec.sub Z' (combine (refs [] t) l) /\ map fst Z' = gden w /\ P (map snd Z').

  Lemma shared_gen (h : heap) m (l : list (K * V)) b lo hi n O most (P : nat -> list (K * V) -> Prop) :
    sound h (olist (hm_root m) ++ O) -> hm_read h m = Ok b -> a_any b l -> small l ->
    goes ask n most (loops (AvlModel.am_root b) lo hi (S (length l)) n) (fun w n' => part_of (AvlModel.am_root b) l (P n') w) ->
    match hm_range_mut_t bor ask bomb lo hi h m n with
    | Returned (h', m') o n' => n <= n' <= n + most /\ still O h h' m' l
        /\ match o with
           | Done it => exists xs l', StronglySorted lt xs /\ map (nth_error l) xs = map Some l' /\ P n' l'
               /\ forall cs, exists h2 it2 outs b, am_run bomb cs h' it [] = Ok (h2, it2, outs, b)
                  /\ picks_ok bomb O h cs l xs (length l - length xs) h2 m' outs b
           | AvlHeapModel.Unwound => exists k, bomb k = true
           end
    | Ask.Unwound (h', m') n' => n < n' <= n + most /\ panicked ask n' /\ still O h h' m' l
    | Fault => False
    end.
  Proof.
    intros So Rb Hb Sm G. assert (Same : still O h h m l) by (split; [exact So|split; [apply frame_refl|exists b; auto]]).
    unfold hm_range_mut_t, AvlHeapMutModel.am_root.
    pose proof Hb as Hb0. apply read_mapped in Rb. apply aany_iff in Hb as (Av & El & Ln).
    destruct b as [len t], m as [len' [a|]]; destruct Rb as [El' D]; cbn [hm_len hm_root AvlModel.am_root am_len] in *; subst len'.
    2:{ apply den_leaf in D. destruct D as [_ D]. specialize (D eq_refl). subst t. cbn [elems] in El. subst l. cbn [length] in *. subst len.
      cbn in G. destruct G as (L & Z' & S' & _ & HP). inversion S'; subst Z'. cbn [map] in HP.
      cbn [am_front_t am_back_t then_t rev]. split; [lia|]. split; [exact Same|]. exists [], []. split; [constructor|]. split; [reflexivity|]. split; [exact HP|].
      intros cs. exists h, (InnerIter [] 0), (map (fun _ => (None, 0)) cs), true. split; [exact (proj1 (run_nil bomb cs h))|].
      unfold picks_ok. rewrite !map_length, firstn_all, picks_nil. cbn [fst snd]. split; [exact Same|]. split; [|reflexivity].
      rewrite map_map. reflexivity. }
    destruct So as [W A]. cbn [olist app] in W. assert (Ft : AvlProofs2.fits (elems t)) by (rewrite El; now apply small_fits).
    pose proof (low_levels _ (fits_low _ Av Ft)) as Lv.
    destruct (root_start bomb h a t O W A D) as (h1 & x & E & R). rewrite E. cbn [bind].
    assert (Rd : forall (h' : heap) r (t' : tree K V) (l' : list (K * V)), mapped h' (HMap len (Some r)) (AvlMap len t') -> a_any (AvlMap len t') l' -> small l' -> hany h' (HMap len (Some r)) l').
    { intros h' r t' l' M' A' S'. exists (AvlMap len t'). split; [|exact A']. apply aany_iff in A' as (A1 & A2 & A3). cbn [AvlModel.am_root] in *.
      apply read_s; [exact M'|exact A1|]. unfold contents. cbn [AvlModel.am_root]. rewrite A2. now apply small_fits. }
    assert (St : forall h' r ps, mst h t O (hh h a) h' r t ps -> still O h h' (HMap len (Some r)) l).
    { intros h' r ps (W' & A' & D' & _ & F' & _). split; [split; auto|]. split; [exact F'|]. apply (Rd h' r t); auto. split; auto. }
    destruct x as [r|].
    2:{ destruct R as (M & B). split; [|split; [exact (St _ _ _ M)|exact B]]. destruct (loops _ _ _ _ _) as [u gs k|u k|]; cbn [goes] in G; [lia|lia|contradiction]. }
    destruct R as (ps & I & Hr & _). pose proof (root_sim _ _ _ _ _ _ _ I Hr) as S0.
    rewrite <- Ln in G. set (f := S len) in *.
    pose proof (sims_then bomb h t O (hh h a) h1 r t ps n _ _ (fun _ w n1 => prune_back_t (@mut_destr K V) mbor ask lo hi f w n1) (am_back_t bor ask bomb lo hi f) (front_sim bor ask bomb h t O (hh h a) lo hi f h1 r t ps _ _ n I S0)
      (fun h' w n' gs nps Mo Le I' As' => back_sim bor ask bomb h t O (hh h a) lo hi f h' r t (nps ++ ps) w gs n' I' As') (fun gs k => back_ends bor ask lo hi f gs k)) as T.
    cbn beta in T. fold (loops t lo hi f n) in T.
    destruct (then_t (am_front_t bor ask bomb lo hi f h1 [Descend r] n) (am_back_t bor ask bomb lo hi f)) as [h2 [w2|] n2|h2 n2|]; cbn [sims] in T.
    - destruct T as (Mo & L2 & gs & nps & ET & I2 & W2). rewrite ET in G. destruct G as [L3 (Z' & S & Eg & HP)]. split; [exact L3|]. split; [exact (St _ _ _ (proj1 I2))|].
      assert (Lr : length (refs [] t) = length l) by (rewrite refs_length; now rewrite El).
      destruct (zip_map (refs [] t) l Lr) as [Z1 Z2]. set (Z := combine (refs [] t) l) in *.
      destruct (BTreeHeapRangeAskProofs2.sub_idx _ _ S) as (xs & X1 & X2).
      assert (Lx : length xs = length Z') by (apply (f_equal (@length _)) in X2; now rewrite !map_length in X2).
      assert (Lz : length Z' <= length l) by (apply sub_length in S; rewrite <- (map_length snd Z), Z2 in S; exact S).
      exists xs, (map snd Z'). split; [exact X1|]. split; [rewrite <- Z2; now apply idx_map|]. split; [exact HP|].
      intros cs. assert (It : iter_at t h2 r (InnerIter w2 len) xs (length l - length xs)).
      { exists gs. split; [exact W2|]. split; [rewrite <- Eg, <- Z1; now apply idx_map|]. cbn [it_len]. lia. }
      assert (Hv : valid nob noc (AvlMap len t)).
      { split; [exact Av|]. split; [apply BTreeAnyProofs.sorted_any|]. unfold contents. cbn [AvlModel.am_root am_len]. now rewrite El. }
      destruct (run_at nob noc bomb h t O (hh h a) len Lv cs h2 r t l _ (InnerIter w2 len) xs _ [] [] I2 (conj Hv (conj El eq_refl)) It (Forall2_nil _))
        as (h3 & it3 & outs & b & Er & t3 & ps3 & M3 & S3 & F3 & B3).
      exists h3, it3, outs, b. split; [exact Er|]. destruct M3 as (W3 & A3 & D3 & _ & Fr & _).
      split; [|split; [exact F3|exact B3]]. split; [split; auto|]. split; [exact Fr|]. destruct S3 as ((V1 & _ & V3) & C3 & R3). unfold contents in V3. cbn [AvlModel.am_root am_len] in *.
      apply (Rd h3 r t3); [split; auto|apply aany_iff; cbn [AvlModel.am_root am_len]; rewrite <- C3; auto|].
      unfold small in *. rewrite <- C3, <- (refs_length []), R3, refs_length, El. exact Sm.
    - destruct T as ((nps & M2) & B & L2 & En). split; [|split; [exact (St _ _ _ M2)|exact B]].
      destruct (loops _ _ _ _ _) as [u gs k|u k|]; cbn [ends goes] in *; [lia|lia|contradiction].
    - destruct T as (ET & nps & M2). rewrite ET in G. destruct G as [L3 G]. split; [exact L3|]. split; [exact G|exact (St _ _ _ M2)].
    - rewrite T in G. exact G.
  Qed.

  Lemma range_mut_shared (h : heap) m (l : list (K * V)) lo hi n O : sound h (olist (hm_root m) ++ O) -> hany h m l -> small l ->
    match hm_range_mut_t bor ask bomb lo hi h m n with
    | Returned (h', m') o n' => n <= n' <= n + 4 * length l /\ still O h h' m' l
        /\ match o with
           | Done it => exists xs l', StronglySorted lt xs /\ map (nth_error l) xs = map Some l'
               /\ ask_range (fun e => bor (fst e)) ask lo hi n n' l l'
               /\ forall cs, exists h2 it2 outs b, am_run bomb cs h' it [] = Ok (h2, it2, outs, b)
                  /\ picks_ok bomb O h cs l xs (length l - length xs) h2 m' outs b
           | AvlHeapModel.Unwound => exists k, bomb k = true
           end
    | Ask.Unwound (h', m') n' => n < n' <= n + 4 * length l /\ panicked ask n' /\ still O h h' m' l
    | Fault => False
    end.
  Proof.
    intros So (b & Rb & Hb) Sm. apply (shared_gen h m l b lo hi n O (4 * length l) (fun n' l' => ask_range (fun e => bor (fst e)) ask lo hi n n' l l')); auto.
    apply aany_iff in Hb as (_ & El & _). destruct b as [len t]. cbn [AvlModel.am_root] in *.
    pose proof (loops_goes t lo hi n (S (length l)) ltac:(rewrite El; lia)) as G. fold (loops t lo hi (S (length l)) n) in G. rewrite El in G.
    destruct (loops _ _ _ _ _) as [u gs n2|u n2|]; cbn [goes] in *; auto. destruct G as [L G]. split; [exact L|].
    assert (Lr : length (refs [] t) = length l) by (rewrite refs_length; now rewrite El).
    destruct (zip_map (refs [] t) l Lr) as [Z1 Z2]. unfold part_of. set (Z := combine (refs [] t) l) in *.
    destruct (sub_zip Z (gden gs)) as (Z' & S & Eg). { rewrite Z1. exact (proj1 G). }
    exists Z'. split; [exact S|]. split; [exact Eg|].
    rewrite <- Z2. apply (range_zip mbor (fun e => bor (fst e)) ask lo hi n n2 Z Z'); [|exact S|rewrite Z1, Eg; exact G].
    intros z Hz. f_equal. apply (zip_key (@snd _ K) (@fst K V) (refs [] t) l); [rewrite <- El; apply refs_keys|exact Hz].
  Qed.

  Lemma back_same {N I Q'} (destr : N -> option N * I * option N) (ikey : I -> Q') cmp lo hi f : forall f' w x y,
    prune_back destr ikey cmp lo hi f w = Ok x -> prune_back destr ikey cmp lo hi f' w = Ok y -> x = y.
  Proof.
    induction f as [|f IH]; intros [|f'] w x y E E'; cbn [prune_back] in *; try discriminate.
    destruct (rev w) as [|[d|d] w']; [congruence|eauto|congruence].
  Qed.
  Lemma sub_filter {X} (p : X -> bool) (a : list X) : AvlHeapSpec.sub (filter p a) a.
  Proof. induction a as [|x a IH]; cbn [filter]; [constructor|]. destruct (p x); now constructor. Qed.
  Lemma filter_map {X Y} (g : X -> Y) (p : Y -> bool) (q : X -> bool) (a : list X) : (forall x, In x a -> q x = p (g x)) -> map g (filter q a) = filter p (map g a).
  Proof.
    induction a as [|x a IH]; intros H; [reflexivity|]. cbn [filter map]. rewrite (H x (or_introl eq_refl)).
    assert (IH' := IH (fun y Hy => H y (or_intror Hy))). destruct (p (g x)); cbn [map]; now rewrite IH'.
  Qed.

  Lemma loops_law cmp (t : tree K V) len lo hi n f : order_laws cmp -> answers cmp ask -> valid bor cmp (AvlMap len t) ->
    f = S (length (elems t)) ->
    goes ask n (8 * AvlShows.depth t) (loops t lo hi f n) (fun w _ => gden w = filter (inr_ mbor cmp lo hi) (refs [] t)).
  Proof.
    intros laws An Hv Ef. unfold loops. set (root := mk_mnode [] t) in *. assert (Os : osize mut_size root = length (elems t)) by apply osize_mnode.
    assert (Hlev : forall x : @mnode K V, let '(l, _, r) := mut_destr x in osize mlev l < mlev x /\ osize mlev r < mlev x) by (intros [[[p e] x] y]; cbn [mut_destr mlev]; rewrite !olev_m; lia).
    assert (Ol : osize mlev root = AvlShows.depth t) by apply olev_m.
    destruct (range_mut_spec bor cmp laws _ lo hi Hv) as (it & Ei & Di & _). unfold avl_range_mut, range_iter in Ei. cbn [AvlModel.am_root] in Ei. fold root in Ei.
    unfold mrefs in Di. cbn [AvlModel.am_root] in Di.
    assert (L0 : low mlev (osize mlev root) (odesc root : list (action (@mnode K V) (@mref K)))). { intros x Hx. destruct root; [|easy]. destruct Hx as [[= <-]|[]]. cbn. lia. }
    pose proof (prune_front_law mut_destr mut_size mlev mut_sized Hlev mbor ask lo hi cmp laws An (osize mlev root) f (osize mlev root) (odesc root) n) as FL.
    rewrite wsize_odesc in FL. specialize (FL ltac:(lia)).
    specialize (FL ltac:(destruct root; cbn; auto; split; auto; intros (x & w & [=])) L0 ltac:(intros x w' E; apply L0; rewrite E; now left)).
    pose proof (prune_front_goes mut_destr mut_size mflat mut_flat mut_sized mbor ask lo hi n f (odesc root) n (le_n _)) as F.
    rewrite wsize_odesc in F. assert (R0 : rets mbor ask lo hi n n (odesc root)) by (intros i Hi; destruct root; cbn in Hi; intuition discriminate).
    specialize (F ltac:(lia) R0). rewrite Ol in *.
    destruct (prune_front_t mut_destr mbor ask lo hi f (odesc root) n) as [[] w1 n1|u n1|]; cbn [after goes] in *; [|destruct FL; split; auto; lia|exact F].
    destruct F as [_ (B1 & _)]. destruct FL as [L1 (E1 & A1 & Lo1)].
    rewrite wsize_odesc in B1, Ei. rewrite Os, <- Ef, E1 in Ei. cbn [bind] in Ei. destruct (prune_back _ _ _ _ _ _ w1) as [w2'|] eqn:E2 in Ei; [|discriminate]. cbn [bind] in Ei. injection Ei as <-. cbn [it_work] in Di.
    pose proof (prune_back_law mut_destr mut_size mlev mut_sized Hlev mbor ask lo hi cmp laws An f (AvlShows.depth t) w1 n1 ltac:(lia) A1) as BL.
    specialize (BL ltac:(intros x w' ->; apply Lo1, in_or_app; right; now left)).
    destruct (prune_back_t mut_destr mbor ask lo hi f w1 n1) as [[] w2 n2|u n2|]; cbn [goes] in *; [|destruct BL; split; auto; lia|exact BL].
    destruct BL as [L2 E3]. split; [lia|]. rewrite (back_same _ _ _ _ _ _ _ _ _ _ E3 E2). exact Di.
  Qed.

  Lemma range_mut_order cmp (h : heap) m (l : list (K * V)) lo hi n O : order_laws cmp -> answers cmp ask ->
    sound h (olist (hm_root m) ++ O) -> hshows bor cmp h m l -> small l ->
    exists lev, log_bound l lev /\
    match hm_range_mut_t bor ask bomb lo hi h m n with
    | Returned (h', m') o n' => n <= n' <= n + 8 * lev /\ still O h h' m' l
        /\ match o with
           | Done it => exists xs, StronglySorted lt xs /\ map (nth_error l) xs = map Some (s_range bor cmp lo hi l)
               /\ forall cs, exists h2 it2 outs b, am_run bomb cs h' it [] = Ok (h2, it2, outs, b)
                  /\ picks_ok bomb O h cs l xs (length l - length xs) h2 m' outs b
           | AvlHeapModel.Unwound => exists k, bomb k = true
           end
    | Ask.Unwound (h', m') n' => n < n' <= n + 8 * lev /\ panicked ask n' /\ still O h h' m' l
    | Fault => False
    end.
  Proof.
    intros laws An So (b & Rb & Sh) Sm. exists (AvlShows.depth (AvlModel.am_root b)). split; [now apply (AskShows.depth_log bor cmp laws)|].
    apply shows_valid in Sh as [Hv Hc]; [|exact laws]. assert (Hb : a_any b l). { apply aany_iff. destruct Hv as (A1 & _ & A3). rewrite Hc in A3. auto. }
    assert (G : goes ask n (8 * AvlShows.depth (AvlModel.am_root b)) (loops (AvlModel.am_root b) lo hi (S (length l)) n)
      (fun w n' => part_of (AvlModel.am_root b) l (fun l' => l' = s_range bor cmp lo hi l) w)).
    { destruct b as [len t]. unfold contents in Hc. cbn [AvlModel.am_root] in *.
      pose proof (loops_law cmp t len lo hi n (S (length l)) laws An Hv ltac:(now rewrite Hc)) as G.
      destruct (loops _ _ _ _ _) as [u gs n2|u n2|]; cbn [goes] in *; auto. destruct G as [L G]. split; [exact L|].
      assert (Lr : length (refs [] t) = length l) by (rewrite refs_length; now rewrite Hc).
      destruct (zip_map (refs [] t) l Lr) as [Z1 Z2]. unfold part_of. set (Z := combine (refs [] t) l) in *.
      exists (filter (fun z => inr_ mbor cmp lo hi (fst z)) Z). split; [apply sub_filter|]. split.
      - rewrite G, <- Z1. now apply filter_map.
      - unfold s_range. rewrite <- Z2. apply filter_map. intros z Hz.
        assert (Ek : snd (fst z) = fst (snd z)) by (apply (zip_key (@snd _ K) (@fst K V) (refs [] t) l); [rewrite <- Hc; apply refs_keys|exact Hz]).
        destruct z as [[p k] [k' v]]. cbn [fst snd] in *. subst k'. unfold inr_, i_above, i_below, above, below, lt_q, gt_q. cbn [fst snd].
        destruct lo as [|q|q], hi as [|q'|q']; auto; repeat match goal with |- context [cmp ?a ?b] => destruct (cmp a b) end; reflexivity. }
    pose proof (shared_gen h m l b lo hi n O _ (fun _ l' => l' = s_range bor cmp lo hi l) So Rb Hb Sm G) as R.
    destruct (hm_range_mut_t bor ask bomb lo hi h m n) as [[h' m'] o n'|[h' m'] n'|]; auto. destruct R as (R1 & R2 & R3). split; [exact R1|]. split; [exact R2|].
    destruct o as [it|]; auto. destruct R3 as (xs & l' & X1 & X2 & -> & X3). exists xs. auto.
  Qed.
End Whole.
