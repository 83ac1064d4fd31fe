(** Proofs about owning iteration over shared [AvlMap]s: clients. *)
From Coq Require Import List PeanoNat Bool Lia Permutation.
From Verif Require Import Base Spec MapSpec SpecFacts Heap HeapProofs AvlModel AvlMapProofs AvlHistProofs AvlIterModel AvlShows AvlHeapModel AvlHeapSpec AvlHeapHistSpec AvlHeapProofs AvlHeapProofs2
  AvlHeapProofs3 AvlHeapProofs4 AvlHeapProofs6 AvlHeapIntoModel AvlHeapIntoSpec AvlHeapMutProofs AvlHeapMutProofs4 AvlHeapLazy AvlHeapIntoProofs.
From Verif Require AvlProofs AvlProofs2.
Import ListNotations.
Local Open Scope nat_scope.
Arguments depth : simpl never.

Section Calls.
  Context {K V I : Type} (mk : K * V -> I).
  Variable bomb : nat -> bool.
  Notation pay := (pay K V).
  Notation heap := (heap pay).
  Notation tree := (tree K V).
  Notation onode := (onode K V).
  Notation oiter := (inner_iter onode I).
  Notation stands := (stands mk).
  Notation oshows := (oshows mk).
  Notation next := (oi_next mk bomb).
  Notation next_back := (oi_next_back mk bomb).

  Lemma high_ok (h : heap) w gs : Forall2 (stands h) w gs -> high gs < depth /\ high_back gs < depth.
  Proof.
    intros S. assert (T : forall g, In g gs -> match g with Descend t => levels t < depth | _ => True end).
    { clear - S. induction S as [|x g w gs Sx S IH]; intros y Hy; [destruct Hy|]. destruct Hy as [<-|Hy]; [|now apply IH]. inversion Sx; subst; auto. }
    unfold high_back. destruct gs as [|g gs']; [split; unfold depth; cbn; lia|]. split.
    - specialize (T g ltac:(now left)). cbn [high]. destruct g; auto. unfold depth. lia.
    - destruct (rev (g :: gs')) as [|y l] eqn:E; [unfold depth; lia|]. specialize (T y). destruct y; [|unfold depth; lia]. apply T. apply in_rev. rewrite E. now left.
  Qed.

  Definition call (c : end_call) (h : heap) (it : oiter) := match c with Front => next h it | Back => next_back h it end.
  Definition isf (c : end_call) : bool := match c with Front => true | Back => false end.
  Lemma call_core c (h : heap) it gs O : sound h (oheld it ++ O) -> Forall2 (stands h) (it_work it) gs -> length (flat gs) <= it_len it ->
    exists h' it' o, call c h it = Ok (h', it', o) /\ after mk bomb (isf c) h gs (it_len it) O h' it' o.
  Proof.
    intros So S L. destruct (high_ok _ _ _ S) as [H1 H2]. destruct c; [apply next_core|apply next_back_core]; auto.
  Qed.

  Lemma map_rl {A B} (f : A -> B) l : map f (removelast l) = removelast (map f l).
  Proof. induction l as [|x l IH]; auto. cbn. destruct l; auto. cbn in *. now rewrite IH. Qed.
  Lemma hd_map {A B} (f : A -> B) l : hd_error (map f l) = option_map f (hd_error l).
  Proof. destruct l; auto. Qed.
  Lemma tl_map {A B} (f : A -> B) l : tl (map f l) = map f (tl l).
  Proof. destruct l; auto. Qed.
  Lemma rl_length {A} (l : list A) : length (removelast l) = length l - 1.
  Proof. induction l as [|x l IH]; auto. cbn [removelast length]. destruct l; auto. cbn [length] in *. lia. Qed.
  Lemma tl_length' {A} (l : list A) : length (tl l) = length l - 1.
  Proof. destruct l; cbn; lia. Qed.

  (** ** One call *)
  Lemma next_h (h : heap) it l d O : sound h (oheld it ++ O) -> oshows h it l d ->
    exists h' it' o, next h it = Ok (h', it', o) /\ sound h' (oheld it' ++ O) /\ frame O h h' /\
    match o with
    | Done x => x = hd_error l /\ oshows h' it' (tl l) d
    | Unwound => (exists n, bomb n = true) /\ exists l1 l2, l1 <> [] /\ l = l1 ++ l2 /\ oshows h' it' l2 (d + length l1)
    end.
  Proof.
    intros So (gs & S & El & Ln). subst l. rewrite map_length in Ln.
    destruct (call_core Front h it gs O So S) as (h' & it' & o & E & So' & F & _ & gs' & new & rest & S' & _ & _ & _ & R); [unfold flat in *; lia|].
    exists h', it', o. split; [exact E|]. split; [exact So'|]. split; [exact F|]. cbn [isf] in R. fold (flat gs) in Ln |- *. destruct o as [x|].
    - destruct R as (-> & Ef & Lf). rewrite hd_map. split; auto. exists gs'. split; auto. fold (flat gs'). rewrite Ef, tl_map. split; auto.
      rewrite Lf, map_length, tl_length', Ln. destruct (flat gs); cbn [length]; lia.
    - destruct R as (Hb & Lf & l1 & N & Ef). split; auto. exists (map mk l1), (map mk (flat gs')). split; [destruct l1; [congruence|discriminate]|].
      rewrite Ef, map_app. split; auto. exists gs'. split; auto. split; auto. rewrite Lf, Ln, Ef, !map_length, app_length. lia.
  Qed.
  Lemma next_back_h (h : heap) it l d O : sound h (oheld it ++ O) -> oshows h it l d ->
    exists h' it' o, next_back h it = Ok (h', it', o) /\ sound h' (oheld it' ++ O) /\ frame O h h' /\
    match o with
    | Done x => x = hd_error (rev l) /\ oshows h' it' (removelast l) d
    | Unwound => (exists n, bomb n = true) /\ exists l1 l2, l1 <> [] /\ l = l2 ++ l1 /\ oshows h' it' l2 (d + length l1)
    end.
  Proof.
    intros So (gs & S & El & Ln). subst l. rewrite map_length in Ln.
    destruct (call_core Back h it gs O So S) as (h' & it' & o & E & So' & F & _ & gs' & new & rest & S' & _ & _ & _ & R); [unfold flat in *; lia|].
    exists h', it', o. split; [exact E|]. split; [exact So'|]. split; [exact F|]. cbn [isf] in R. fold (flat gs) in Ln |- *. destruct o as [x|].
    - destruct R as (-> & Ef & Lf). rewrite <- map_rev, hd_map. split; auto. exists gs'. split; auto. fold (flat gs'). rewrite Ef, map_rl. split; auto.
      rewrite Lf, <- map_rl, map_length, rl_length, Ln. destruct (flat gs); cbn [length]; lia.
    - destruct R as (Hb & Lf & l1 & N & Ef). split; auto. exists (map mk l1), (map mk (flat gs')). split; [destruct l1; [congruence|discriminate]|].
      rewrite Ef, map_app. split; auto. exists gs'. split; auto. split; auto. rewrite Lf, Ln, Ef, !map_length, app_length. lia.
  Qed.
  Lemma drop_h (h : heap) (it : oiter) O : sound h (oheld it ++ O) ->
    exists h', oi_drop h it = Ok h' /\ sound h' O /\ frame O h h' /\ clones h' = clones h.
  Proof.
    intros [W A]. destruct (drops_ok h (oi_ptrs it) O W A) as (h' & E & W' & A' & F & C & _). exists h'. unfold oi_drop. repeat split; auto; apply F.
  Qed.
  Lemma frame_h (h h' : heap) it l d O : frame O h h' -> incl (oheld it) O -> oshows h it l d -> oshows h' it l d.
  Proof. intros F Hi (gs & S & El & Ln). exists gs. split; auto. eapply works_frame; eauto. Qed.

  (** ** Runs *)
  Definition taking (cs : list end_call) (l : list (K * V)) (n : nat) (t0 : tree) (c : pay) : Prop :=
    exists e x, In (Some e, x) (firstn (S n) (s_ends cs l)) /\ above t0 (Some e) c.
  Lemma run_core cs : forall (h : heap) it gs O, sound h (oheld it ++ O) -> Forall2 (stands h) (it_work it) gs -> it_len it = length (flat gs) ->
    exists h' it' outs b new rest, oi_run mk bomb cs h it = Ok (h', it', outs, b)
      /\ sound h' (oheld it' ++ O) /\ frame O h h' /\ length (cells h') = length (cells h) /\ clones h' = new ++ clones h
      /\ Permutation (pend gs) (map pk new ++ rest)
      /\ (forall t0, Forall (inside t0) gs -> Forall (taking cs (flat gs) (length outs) t0) new)
      /\ outs = firstn (length outs) (s_ends cs (map mk (flat gs)))
      /\ if b then length outs = length cs else exists n, bomb n = true.
  Proof.
    induction cs as [|c cs IH]; intros h it gs O So S Ln.
    - exists h, it, [], true, [], (pend gs). split; [reflexivity|]. split; auto. split; [apply frame_refl|]. split; [auto|]. split; [auto|]. split; [auto|].
      split; [constructor|]. split; auto.
    - destruct (call_core c h it gs O So S) as (h1 & it1 & o & E & So1 & F1 & C1 & gs1 & new1 & rest1 & S1 & K1 & P1 & In1 & R); [lia|].
      cbn [oi_run]. fold (call c h it). rewrite E. cbn [bind]. destruct o as [x|].
      + destruct R as (-> & Ef & Lf).
        destruct (IH h1 it1 gs1 O So1 S1) as (h2 & it2 & outs & b & new2 & rest2 & E2 & So2 & F2 & C2 & K2 & P2 & In2 & R2 & B2).
        { rewrite Lf, Ln, Ef. destruct c; cbn [isf]; rewrite ?tl_length', ?rl_length; destruct (flat gs); cbn [length]; lia. }
        rewrite E2. cbn [bind]. eexists h2, it2, _, b, (new2 ++ new1), (rest2 ++ rest1). split; [reflexivity|]. split; [exact So2|].
        split; [eapply frame_trans; eauto|]. split; [lia|]. split; [rewrite K2, K1; now rewrite app_assoc|]. split.
        { eapply Permutation_trans; [exact P1|]. rewrite map_app. eapply Permutation_trans; [apply Permutation_app_head, Permutation_app_tail, P2|].
          rewrite !app_assoc. apply Permutation_app_tail, Permutation_app_tail. apply Permutation_app_comm. }
        assert (Hs : s_ends (c :: cs) (flat gs) = (hd_error (if isf c then flat gs else rev (flat gs)), length (flat gs1)) :: s_ends cs (flat gs1)).
        { rewrite Ef. destruct c; reflexivity. }
        assert (Hm : s_ends (c :: cs) (map mk (flat gs)) = (option_map mk (hd_error (if isf c then flat gs else rev (flat gs))), length (flat gs1)) :: s_ends cs (map mk (flat gs1))).
        { rewrite Ef. destruct c; cbn [s_ends isf]; rewrite <- ?map_rev, ?hd_map, <- ?map_rl, ?tl_map, ?map_length; reflexivity. }
        split; [|split].
        * intros t0 Ht. destruct (In1 t0 Ht) as [J1 J2]. cbn [length]. unfold taking. rewrite Hs. cbn [firstn]. apply Forall_app. split.
          -- eapply Forall_impl; [|exact (In2 t0 J1)]. intros p (e & y & Hy & Ha). exists e, y. split; auto. right. exact Hy.
          -- eapply Forall_impl; [|exact J2]. intros p Ha. pose proof Ha as Hb. destruct Hb as (k & v & lh & rh & l & r & _ & _ & e & He & _).
             rewrite He in *. exists e, (length (flat gs1)). split; auto. now left.
        * rewrite Hm. cbn [length firstn]. f_equal; [|exact R2]. f_equal. rewrite Lf, Ln, Ef. destruct c; cbn [isf]; rewrite ?tl_length', ?rl_length; destruct (flat gs); cbn [length]; lia.
        * destruct b; [cbn [length]; lia|exact B2].
      + destruct R as (Hb & Lf & _). exists h1, it1, [], false, new1, (pend gs1 ++ rest1). split; [reflexivity|]. split; [exact So1|]. split; [exact F1|].
        split; [exact C1|]. split; [exact K1|]. split; [exact P1|]. split; [|split; [reflexivity|exact Hb]].
        intros t0 Ht. destruct (In1 t0 Ht) as [_ J2]. eapply Forall_impl; [|exact J2]. intros p Ha. pose proof Ha as Hc.
        destruct Hc as (k & v & lh & rh & l & r & _ & _ & e & He & _). rewrite He in *. exists e. destruct c; cbn [s_ends isf] in *; rewrite He; eexists; (split; [now left|exact Ha]).
  Qed.
End Calls.

(** Nothing shared, nothing cloned: every node is taken out of its cell. *)
Section Unshared.
  Context {K V I : Type} (mk : K * V -> I).
  Variable bomb : nat -> bool.
  Variable U : addr -> Prop.
  Variable c0 : list (pay K V).
  Variable g0 : addr -> option (nat * node (pay K V)).
  Notation pay := (pay K V).
  Notation heap := (heap pay).
  Notation onode := (onode K V).
  Notation ok := (ok U c0 g0).
  Notation pin := (pin U).

  Definition owned (n : onode) : Prop := match n with OArc _ => False | OOwn _ l r => pin l /\ pin r end.
  Definition aowned (x : action onode I) : Prop := match x with Descend n => owned n | Return _ => True end.

  Lemma oi_of_lone (h : heap) p h' n : ok h -> pin p -> oi_of h p = Ok (h', n) -> ok h' /\ Forall aowned (odesc n).
  Proof.
    intros O P E. destruct p as [a|]; cbn [oi_of] in E; [|injection E as <- <-; split; [exact O|constructor]].
    pose proof O as [[A1 A2] C]. destruct (get h a) as [[c nd]|] eqn:G.
    2:{ unfold unique in E. rewrite G in E. discriminate. }
    destruct (A2 a c nd (pin_inv U a P) G) as [-> Hk]. unfold unique, take in E. rewrite G in E. cbn [bind] in E.
    destruct nd as [d [|l [|r [|]]]]; cbn [nd_kids nd_data] in *; try discriminate. injection E as <- <-. split; [apply put_none_ok; [exact O|exact (pin_inv U a P)]|].
    cbn [olists flat_map] in Hk. rewrite app_nil_r in Hk. cbn [odesc]. constructor; [|constructor]. cbn [aowned owned]. split; intros b Hb; apply Hk, in_or_app; auto.
  Qed.
  Lemma destr_lone (h : heap) n h' o : ok h -> owned n -> oi_destr mk bomb h n = Ok (h', o) ->
    ok h' /\ match o with Done (lf, _, rt) => Forall aowned (odesc lf) /\ Forall aowned (odesc rt) | Unwound => False end.
  Proof.
    intros O N E. destruct n as [a|d l r]; [destruct N|]. destruct N as [Nl Nr]. cbn [oi_destr] in E.
    destruct (oi_of h l) as [[h1 lf]|] eqn:E1; [|discriminate]. cbn [bind] in E. destruct (oi_of h1 r) as [[h2 rt]|] eqn:E2; [|discriminate].
    cbn [bind] in E. injection E as <- <-. destruct (oi_of_lone _ _ _ _ O Nl E1) as [O1 F1]. destruct (oi_of_lone _ _ _ _ O1 Nr E2) as [O2 F2]. auto.
  Qed.
  Lemma next_lone fuel : forall (h : heap) w len h' it o, ok h -> Forall aowned w -> oi_next_fuel mk bomb fuel h w len = Ok (h', it, o) ->
    ok h' /\ Forall aowned (it_work it) /\ o <> Unwound.
  Proof.
    induction fuel as [|fuel IH]; intros h w len h' it o O F E; cbn [oi_next_fuel] in E; [discriminate|].
    destruct F as [|x w Fx F]; [injection E as <- <- <-; split; [exact O|]; split; [constructor|discriminate]|]. destruct x as [n|x].
    - destruct (oi_destr mk bomb h n) as [[h1 o1]|] eqn:E1; [|discriminate]. cbn [bind] in E. destruct (destr_lone _ _ _ _ O Fx E1) as [O1 R].
      destruct o1 as [[[lf y] rt]|]; [|destruct R]. destruct R as [Fl Fr]. apply (IH _ _ _ _ _ _ O1) in E; auto.
      apply Forall_app. split; auto. constructor; [exact Logic.I|]. apply Forall_app. auto.
    - destruct (usize_sub len 1) as [m|]; [|discriminate]. cbn [bind] in E. injection E as <- <- <-. split; [exact O|]. split; [exact F|discriminate].
  Qed.
  Lemma next_back_lone fuel : forall (h : heap) w len h' it o, ok h -> Forall aowned w -> oi_next_back_fuel mk bomb fuel h w len = Ok (h', it, o) ->
    ok h' /\ Forall aowned (it_work it) /\ o <> Unwound.
  Proof.
    induction fuel as [|fuel IH]; intros h w len h' it o O F E; cbn [oi_next_back_fuel] in E; [discriminate|].
    destruct w as [|x w _] using rev_ind; [injection E as <- <- <-; split; [exact O|]; split; [constructor|discriminate]|].
    apply Forall_app in F as [F Fx]. inversion Fx as [|? ? Fx1 _]; subst. rewrite rev_app_distr in E. cbn [rev app] in E. rewrite rev_involutive in E. destruct x as [n|x].
    - destruct (oi_destr mk bomb h n) as [[h1 o1]|] eqn:E1; [|discriminate]. cbn [bind] in E. destruct (destr_lone _ _ _ _ O Fx1 E1) as [O1 R].
      destruct o1 as [[[lf y] rt]|]; [|destruct R]. destruct R as [Fl Fr]. apply (IH _ _ _ _ _ _ O1) in E; auto.
      apply Forall_app. split; auto. apply Forall_app. split; auto. constructor; [exact Logic.I|]. auto.
    - destruct (usize_sub len 1) as [m|]; [|discriminate]. cbn [bind] in E. injection E as <- <- <-. split; [exact O|]. split; [exact F|discriminate].
  Qed.
  Lemma run_lone cs : forall (h : heap) it h' it' outs b, ok h -> Forall aowned (it_work it) -> oi_run mk bomb cs h it = Ok (h', it', outs, b) -> ok h' /\ b = true.
  Proof.
    induction cs as [|c cs IH]; intros h it h' it' outs b O F E; cbn [oi_run] in E; [injection E as <- <- <- <-; auto|].
    destruct (match c with Front => oi_next mk bomb h it | Back => oi_next_back mk bomb h it end) as [[[h1 it1] o]|] eqn:E1; [|discriminate]. cbn [bind] in E.
    assert (T : ok h1 /\ Forall aowned (it_work it1) /\ o <> Unwound) by (destruct c; [eapply next_lone|eapply next_back_lone]; eauto).
    destruct T as (O1 & F1 & N). destruct o as [x|]; [|congruence]. destruct (oi_run mk bomb cs h1 it1) as [[[[h2 it2] outs2] b2]|] eqn:E2; [|discriminate].
    cbn [bind] in E. injection E as <- <- <- <-. eapply IH; eauto.
  Qed.
End Unshared.

Section Maps.
  Context {K V Q : Type} (bor : K -> Q) (cmp : Q -> Q -> comparison) (laws : order_laws cmp).
  Context {I : Type} (mk : K * V -> I).
  Variable bomb : nat -> bool.
  Notation pay := (pay K V).
  Notation heap := (heap pay).
  Notation tree := (tree K V).
  Notation hshows := (hshows bor cmp).
  Notation asc := (ascending bor cmp).

  Lemma subtree_in (t u : tree) : subtree t u -> incl (elems t) (elems u).
  Proof. induction 1 as [t|u k v lh rh l r S IH|u k v lh rh l r S IH]; intros x Hx; auto; cbn [elems]; apply in_or_app; [left|right; right]; auto. Qed.
  Lemma above_path (t u : tree) : subtree t u -> asc (elems u) -> forall k v lh rh l r e, t = Node k v lh rh l r -> In e (elems t) ->
    In (Pay k v lh rh) (path bor cmp u (bor (fst e))).
  Proof.
    induction 1 as [t|u k0 v0 lh0 rh0 l0 r0 S IH|u k0 v0 lh0 rh0 l0 r0 S IH]; intros A k v lh rh l r e -> He.
    - cbn [path]. apply in_or_app. right. now left.
    - cbn [elems] in A. apply (asc_app_iff bor cmp) in A as (A1 & A2 & A3). pose proof (A3 e (k0, v0) (subtree_in _ _ S _ He) ltac:(now left)) as C. cbn [fst] in C.
      cbn [path]. rewrite C. apply in_or_app. left. eapply IH; eauto.
    - cbn [elems] in A. apply (asc_app_iff bor cmp) in A as (A1 & A2 & A3). inversion A2 as [|? ? A4 A5]; subst. rewrite Forall_forall in A5.
      pose proof (A5 _ (subtree_in _ _ S _ He)) as C. cbn [fst] in C. apply (cmp_lt_gt laws) in C. cbn [path]. rewrite C. apply in_or_app. left. eapply IH; eauto.
  Qed.

  Lemma ends_len {A} cs : forall l : list A, length (s_ends cs l) = length cs.
  Proof. induction cs as [|[|] cs IH]; intros l; cbn [s_ends length]; auto. Qed.
  Lemma nodup_l {A} (l r : list A) : NoDup (l ++ r) -> NoDup l.
  Proof. induction l as [|x l IH]; cbn [app]; intros H; [constructor|]. inversion H as [|? ? H1 H2]; subst. constructor; auto. intros Hx. apply H1, in_or_app. auto. Qed.
  Lemma nodup_keys (l : list (K * V)) : asc l -> NoDup (map fst l).
  Proof.
    induction l as [|e l IH]; intros A; [constructor|]. apply (asc_cons_iff bor cmp) in A as [A Ha]. cbn [map]. constructor; auto.
    intros Hi. apply in_map_iff in Hi as (y & Ey & Hy). pose proof (Ha y Hy) as C. rewrite Ey, (cmp_refl laws) in C. discriminate.
  Qed.

  Lemma into_core (h : heap) m l O : sound h (olist (hm_root m) ++ O) -> hshows h m l -> small l ->
    exists a h' it, hm_read h m = Ok a /\ elems (AvlModel.am_root a) = l /\ asc l /\ hm_into_iter (I := I) h m = Ok (h', it) /\ sound h' (oheld it ++ O) /\ frame O h h' /\ clones h' = clones h
      /\ length (cells h') = length (cells h)
      /\ Forall2 (stands mk h') (it_work it) (gdesc (AvlModel.am_root a)) /\ it_len it = length l.
  Proof.
    intros So H Sm. apply (hshows_read bor cmp laws) in H as (a & E & [El D] & Hv & Ec).
    assert (Lv : levels (AvlModel.am_root a) < depth).
    { apply low_levels, (valid_low bor cmp a); auto. rewrite Ec. now apply small_fits. }
    destruct (oi_of_ok (I := I) mk h (hm_root m) (AvlModel.am_root a) O So D Lv) as (h' & n & E1 & So1 & F & T & K1 & C1).
    exists a, h', (InnerIter (odesc n) (hm_len m)). split; [exact E|]. split; [exact Ec|]. destruct Hv as (_ & V2 & V3). split; [rewrite <- Ec; exact V2|].
    split; [unfold hm_into_iter; rewrite E1; reflexivity|]. split.
    { unfold oheld, oi_ptrs. cbn [it_work]. change (olists (flat_map a_ptrs (odesc n))) with (owptrs (I := I) (odesc n)). now rewrite owptrs_odesc. }
    split; [exact F|]. split; [exact K1|]. split; [exact C1|]. split; [now apply ostands_work|]. cbn [it_len]. rewrite El, <- Ec. exact V3.
  Qed.

  Lemma into_iter_h (h : heap) m l O : sound h (olist (hm_root m) ++ O) -> hshows h m l -> small l ->
    exists h' it, hm_into_iter h m = Ok (h', it) /\ sound h' (oheld it ++ O) /\ frame O h h' /\ oshows mk h' it (map mk l) 0 /\ clones h' = clones h.
  Proof.
    intros So H Sm. destruct (into_core h m l O So H Sm) as (a & h' & it & _ & El & _ & E & So' & F & C & _ & S & L). exists h', it. split; auto. split; auto. split; auto.
    split; auto. exists (gdesc (AvlModel.am_root a)). split; auto. change (flat_map entries (gdesc (AvlModel.am_root a))) with (flat (gdesc (AvlModel.am_root a))).
    rewrite flat_gdesc, El. split; auto. rewrite L, map_length. lia.
  Qed.

  Lemma into_calls_h (h : heap) m l cs O : sound h (olist (hm_root m) ++ O) -> hshows h m l -> small l ->
    exists a h' outs b new, hm_read h m = Ok a /\ hm_into_calls mk bomb h m cs = Ok (h', outs, b) /\ sound h' O /\ frame O h h'
      /\ outs = firstn (length outs) (s_ends cs (map mk l))
      /\ (if b then length outs = length cs else exists n, bomb n = true)
      /\ clones h' = new ++ clones h /\ NoDup new
      /\ Forall (fun c => exists e n, In (Some e, n) (firstn (S (length outs)) (s_ends cs l)) /\ In c (path bor cmp (AvlModel.am_root a) (bor (fst e)))) new.
  Proof.
    intros So H Sm. destruct (into_core h m l O So H Sm) as (a & h1 & it & Er & El & A & E & So1 & F1 & K1 & C1 & S & L).
    destruct (run_core mk bomb cs h1 it (gdesc (AvlModel.am_root a)) O So1 S) as (h2 & it2 & outs & b & new & rest & E2 & So2 & F2 & C2 & K2 & P & T & R & B).
    { rewrite flat_gdesc, El. exact L. }
    destruct (drop_h h2 it2 O So2) as (h3 & E3 & So3 & F3 & K3).
    exists a, h3, outs, b, new. split; [exact Er|]. split; [unfold hm_into_calls; rewrite E; cbn [bind]; rewrite E2; cbn [bind]; rewrite E3; reflexivity|].
    split; [exact So3|]. split; [exact (frame_trans _ _ _ _ F1 (frame_trans _ _ _ _ F2 F3))|]. rewrite flat_gdesc, El in R. split; [exact R|]. split; [exact B|].
    split; [now rewrite K3, K2, K1|]. split.
    - apply (NoDup_map_inv pk). rewrite pend_gdesc, El in P. apply nodup_keys in A. apply (Permutation_NoDup P) in A. now apply nodup_l in A.
    - rewrite flat_gdesc, El in T. eapply Forall_impl; [|apply (T (AvlModel.am_root a)), inside_gdesc, st_here].
      intros c (e & n & Hi & (k & v & lh & rh & l' & r' & St & -> & e' & [= <-] & He)). exists e, n. split; auto. eapply above_path; eauto. now rewrite El.
  Qed.

  Lemma into_unshared (h : heap) m l cs O : sound h (olist (hm_root m) ++ O) -> hshows h m l -> small l -> unshared h (hm_root m) ->
    exists h', hm_into_calls mk bomb h m cs = Ok (h', s_ends cs (map mk l), true) /\ clones h' = clones h /\ length (cells h') = length (cells h).
  Proof.
    intros So H Sm Un. destruct (into_core h m l O So H Sm) as (a & h1 & it & Er & El & A & E & So1 & F1 & K1 & C1 & S & L).
    destruct (run_core mk bomb cs h1 it (gdesc (AvlModel.am_root a)) O So1 S) as (h2 & it2 & outs & b & new & rest & E2 & So2 & F2 & C2 & K2 & P & T & R & B).
    { rewrite flat_gdesc, El. exact L. }
    destruct So2 as [W2 A2]. destruct (drops_ok h2 (oi_ptrs it2) O W2 A2) as (h3 & E3 & W3 & A3 & F3 & K3 & C3).
    destruct (unshared_alone _ _ Un) as [Ok0 P0]. pose proof E as E'. unfold hm_into_iter in E'. destruct (oi_of h (hm_root m)) as [[h1' n]|] eqn:E0; [|discriminate].
    cbn [bind] in E'. injection E' as -> <-. destruct (oi_of_lone (I := I) _ _ _ _ _ _ _ Ok0 P0 E0) as [Ok1 F0].
    destruct (run_lone mk bomb _ _ _ cs h1 (InnerIter (odesc n) (hm_len m)) h2 it2 outs b Ok1 F0 E2) as [[_ [Ok2 _]] ->]. rewrite flat_gdesc, El in R.
    assert (Ho : outs = s_ends cs (map mk l)). { rewrite R, B. apply firstn_all2. now rewrite ends_len. }
    exists h3. split; [unfold hm_into_calls, oi_drop; rewrite E; cbn [bind]; rewrite E2; cbn [bind]; rewrite E3; cbn [bind]; now rewrite Ho|].
    split; [congruence|lia].
  Qed.
End Maps.
