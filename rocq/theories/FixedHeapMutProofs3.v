(** [iter_mut] on shared fixed [BTreeMap]s: runs of calls. *)
From Coq Require Import List PeanoNat Bool Lia Permutation.
From Verif Require Import Base Spec MapSpec SpecFacts Vec Heap HeapProofs HeapMut HeapMutProofs BTreeModel BTreeProofs BTreeProofs2
  BTreeIterModel BTreeMutProofs BTreeHeapModel BTreeHeapSpec BTreeHeapProofs MutSpec BTreeHeapMutModel BTreeHeapMutProofs
  BTreeHeapMutProofs2 BTreeHeapMutProofs3 BTreeHeapMutProofs4 FixedModel FixedIterModel FixedSpec FixedProofs FixedMutProofs FixedHeapModel FixedHeapSpec
  FixedHeapProofs FixedHeapProofs7 FixedHeapMutModel FixedHeapMutSpec FixedHeapMutProofs FixedHeapMutProofs2.
From Verif Require BTreeIterProofs.
Import ListNotations.
Local Open Scope nat_scope.

Section Run.
  Context {K V Q : Type} (bor : K -> Q) (cmp : Q -> Q -> comparison).
  Variable bomb : nat -> bool.
  Notation elems := (elems K V).
  Notation okids := (option (kids addr)).
  Notation cell := (elems * okids)%type.
  Notation fheap := (heap cell).
  Notation pay := (list (K * V)).
  Notation bt := (bt K V).
  Notation er := (@er K V).
  Notation good := (@good K V).
  Notation N := MIN_OCCUPANCY.
  Notation faulty := (exists n, bomb n = true).
  Notation flatu := (@BTreeProofs.flat (@bref K) unit).
  Notation results := (list (out (option (K * V)) * nat)).

  Variables (sk : BTreeModel.bt K unit) (ht len : nat) (O : list addr).
  Hypothesis Hsk : shape N 1 ht sk.
  Notation Rk := (flatu (with_pos [] sk)).
  Notation M t := (BMap len (Some t)).
  Notation stks := (@stks K V sk).
  Notation ref_ok := (@ref_ok K V sk).
  Notation pc := (list nat * nat)%type.

  (** The tree [t] has the entries [l], in the places and with the keys of [sk]. *)
  Definition shown (t : bt) (l : pay) : Prop := valid bor cmp N (M t) /\ contents (M t) = l /\ skel t = sk.
  Definition way (p : list nat) (k : K) : Prop :=
    exists x e q j, nth_error Rk x = Some e /\ fst (fst e) = (q, j) /\ prefix p q /\ k = snd (fst e).

  Lemma at_entry t l x e : shown t l -> nth_error Rk x = Some e ->
    exists q j es ks e', fst (fst e) = (q, j) /\ n_at t q = Some (BN es ks) /\ nth_error es j = Some e' /\ nth_error l x = Some e'
      /\ fst e' = snd (fst e) /\ exists e1, nth_error (contents (map_pos (M t))) x = Some e1 /\ fst e1 = fst e.
  Proof.
    intros (Hv & <- & Hs) Ex. pose proof Hv as (_ & _ & h1 & S). cbn [bm_root] in S.
    assert (Ef : nth_error (map fst (contents (map_pos (M t)))) x = Some (fst e)).
    { unfold contents, map_pos. cbn [bm_root option_map]. change (nth_error (map fst (BTreeProofs.flat (with_pos [] t))) x = Some (fst e)).
      rewrite <- (skel_pos N h1 1 t [] S), Hs, nth_error_map, Ex. reflexivity. }
    rewrite nth_error_map in Ef. destruct (nth_error (contents (map_pos (M t))) x) as [e1|] eqn:E1; [|discriminate]. injection Ef as Ef.
    destruct (pos_at N h1 _ t [] x e1 S E1) as (q & j & es & ks & A1 & A2 & A3). cbn [app] in A1.
    exists q, j, es, ks, (unpos e1). rewrite <- Ef. split; auto. split; auto. split; auto. split.
    - rewrite <- (proj2 (map_pos_ok bor cmp N (M t) Hv)), nth_error_map, E1. reflexivity.
    - split; [reflexivity|]. eauto.
  Qed.
  Lemma write_at t l x e w q j : shown t l -> nth_error Rk x = Some e -> fst (fst e) = (q, j) -> shown (n_write q j w t) (upd_nth x w l).
  Proof.
    intros Sh Ex Eq. destruct (at_entry t l x e Sh Ex) as (_ & _ & _ & _ & _ & _ & _ & _ & _ & _ & e1 & E1 & Ef). destruct Sh as (Hv & <- & Hs).
    destruct (b_write_ok bor cmp N (M t) x e1 w Hv E1) as (H1 & H2 & H3). rewrite Ef in *. unfold b_write in *. rewrite Eq in *. cbn [fst snd bm_len bm_root option_map] in *.
    split; auto. split; auto. now rewrite skel_write.
  Qed.

  (** ** One call *)
  Definition ord (c : mcall V) (lcs : list pc) : list nat := match c with MBack => lists (rev lcs) | _ => lists lcs end.
  Definition acall (c : mcall V) (h : fheap) (it : f_iter fwork) := match c with MBack => fm_next_back bomb h it | _ => fm_next bomb h it end.
  Lemma lists_rev (lcs : list pc) : Permutation (lists (rev lcs)) (lists lcs).
  Proof.
    unfold lists. rewrite map_rev. generalize (map fst lcs). intros ls. induction ls as [|l ls IH]; auto. cbn [rev concat]. rewrite concat_app. cbn [concat]. rewrite app_nil_r, IH. apply Permutation_app_comm.
  Qed.
  Lemma ord_perm c lcs : Permutation (ord c lcs) (lists lcs).
  Proof. destruct c; cbn [ord]; auto using lists_rev. Qed.
  Lemma stks_rev h r w lcs : stks h r w lcs -> stks h r (rev w) (rev lcs).
  Proof. intros F. unfold FixedHeapMutProofs2.stks in *. induction F; cbn [rev]; auto. apply Forall2_app; auto. Qed.

  Lemma call_ok c h0 t0 start (h : fheap) r t ps it lcs : skel t0 = sk -> good h -> minv h0 t0 O start (er h) r t ps -> stks h r (fi_work it) lcs ->
    length (lists lcs) <= fi_len it ->
    exists h' it' o lcs' nps, acall c h it = Ok (h', it', o) /\ good h' /\ mono (er h) (er h') r /\ stks h' r (fi_work it') lcs'
      /\ match o with
         | Done None => minv h0 t0 O start (er h') r t ps /\ nps = [] /\ lists lcs = [] /\ lists lcs' = [] /\ fi_len it' = fi_len it
         | Done (Some rf) => exists x, minv h0 t0 O start (er h') r t (nps ++ ps) /\ ord c lcs = x :: ord c lcs' /\ fi_len it = S (fi_len it') /\ ref_ok h' r rf x
                               /\ Forall (fun p => on_way sk p x) nps
         | Unwound => exists x lost, mst h0 t0 O start (er h') r t (nps ++ ps) /\ faulty /\ nps <> [] /\ ord c lcs = (x :: lost) ++ ord c lcs' /\ fi_len it' = fi_len it
                        /\ Forall (fun p => on_way sk p x) nps
         end.
  Proof.
    intros Ht G I St Ll. assert (Lv : n_levels sk <= length (cells h)).
    { destruct I as [(_ & _ & _ & _ & _ & Lv & _) _]. rewrite <- Ht, (skel_levels (n_levels t0)) by lia. unfold FixedHeapProofs.er in Lv. now rewrite cells_hm in Lv. }
    assert (Fu : forall w lcs, length w = length (fi_work it) -> stks h r w lcs -> needs lcs <= fm_fuel h it).
    { intros w' lcs' Lw S'. pose proof (needs_fuel _ _ _ _ _ S'). unfold fm_fuel. lia. }
    destruct (match c with MBack => true | _ => false end) eqn:Ec.
    - destruct c; try discriminate. cbn [acall ord]. unfold fm_next_back. rewrite <- (rev_involutive (fi_work it)).
      apply stks_rev in St. rewrite (back_rev bomb).
      destruct (next_loop_ok bomb sk ht Hsk h0 t0 O start Ht (fm_fuel h it) h r t ps (rev (fi_work it)) (rev lcs) (fi_len it) G I St) as (h' & w' & len' & o & lcs' & nps & E & G' & Mo & St' & R).
      + eapply Fu; [|exact St]. apply rev_length.
      + now rewrite (Permutation_length (lists_rev lcs)).
      + rewrite E. cbn [rm_]. exists h', (FIter (rev w') len'), o, (rev lcs'), nps. cbn [fi_work fi_len]. split; auto. split; auto. split; auto. split; [now apply stks_rev|].
        rewrite rev_involutive. destruct o as [[rf|]|]; auto. destruct R as (R1 & R2 & R3 & R4 & R5). split; auto. split; auto.
        pose proof (lists_rev lcs) as P. rewrite R3 in P. apply Permutation_nil in P. split; auto. split; auto.
        pose proof (lists_rev lcs') as P'. rewrite R4 in P'. apply Permutation_sym, Permutation_nil in P'. exact P'.
    - assert (Ea : acall c h it = fm_next bomb h it) by (destruct c; [reflexivity|discriminate|reflexivity]).
      assert (Eo : forall l, ord c l = lists l) by (intros; destruct c; [reflexivity|discriminate|reflexivity]). rewrite Ea. unfold fm_next.
      destruct (next_loop_ok bomb sk ht Hsk h0 t0 O start Ht (fm_fuel h it) h r t ps (fi_work it) lcs (fi_len it) G I St) as (h' & w' & len' & o & lcs' & nps & E & G' & Mo & St' & R); auto.
      { eapply Fu; eauto. }
      exists h', (FIter w' len'), o, lcs', nps. rewrite !Eo. auto.
  Qed.

  (** ** Runs *)
  Definition refs_ok (h : fheap) (r : addr) : list mref -> list nat -> Prop := Forall2 (ref_ok h r).
  Lemma refs_mono (h h' : fheap) r refs rs : mono (er h) (er h') r -> refs_ok h r refs rs -> refs_ok h' r refs rs.
  Proof. intros Mo F. induction F as [|a b l l' (q & e & A1 & A2 & A3) F IH]; constructor; auto. exists q, e. auto. Qed.
  Definition tried_k (o : out (option (K * V))) (ks : list K) : Prop :=
    match o with
    | Done (Some e) => ks = [fst e]
    | Done None => ks = []
    | Unwound => exists x e, nth_error Rk x = Some e /\ ks = [snd (fst e)]
    end.

  Definition ran (cs : list (mcall V)) h0 t0 start (r : addr) (l : pay) ps (n : nat) (lcs : list pc) (rs : list nat) (h' : fheap) (outs : results) : Prop :=
    exists l' t', (exists p, Permutation p (lists lcs) /\ walks bomb cs outs l p rs n l')
      /\ (~ In MBack cs -> walks bomb cs outs l (lists lcs) rs n l') /\ (~ In MNext cs -> walks bomb cs outs l (lists (rev lcs)) rs n l') /\ shown t' l' /\ good h'
      /\ (wf (er h') (r :: O) /\ acyclic (er h') /\ ns (er h') r t' /\ frame O h0 (er h')) /\ length outs = length cs
      /\ (In Unwound (map fst outs) -> exists p, n_at t0 p <> None /\ ~ start p)
      /\ (~ In Unwound (map fst (removelast outs)) -> exists nps kss, mst h0 t0 O start (er h') r t' (nps ++ ps)
            /\ Forall2 (fun o ks => tried_k (fst o) ks) outs kss /\ Forall (fun q => exists k, In k (concat kss) /\ way q k) nps
            /\ (~ In Unwound (map fst outs) -> mheld t0 start (er h') r t' (nps ++ ps))).

  Lemma run_ok cs : forall h0 t0 start (h : fheap) r t l ps it lcs refs rs, skel t0 = sk -> good h -> minv h0 t0 O start (er h) r t ps -> shown t l ->
    stks h r (fi_work it) lcs -> length (lists lcs) <= fi_len it -> refs_ok h r refs rs ->
    exists h' it' outs, fm_run bomb cs h it refs = Ok (h', it', outs) /\ ran cs h0 t0 start r l ps (fi_len it) lcs rs h' outs.
  Proof.
    induction cs as [|c cs IH]; intros h0 t0 start h r t l ps it lcs refs rs Ht G I Sh St Ll Rf.
    { exists h, it, []. split; auto. exists l, t. split; [exists (lists lcs); split; [apply Permutation_refl|reflexivity]|]. split; [reflexivity|]. split; [reflexivity|]. split; auto. split; auto. destruct I as [(W & A & D & E & Fr & I1) I2]. split; auto. split; auto. split; [intros []|].
      intros _. exists [], []. split; [split; auto|]. split; [constructor|]. split; [constructor|]. auto. }
    (* after a call that did not unwind *)
    assert (Go : forall h1 it1 t1 l1 lcs1 refs1 rs1 n1 o k ks pre, good h1 -> minv h0 t0 O start (er h1) r t1 (n1 ++ ps) -> shown t1 l1 ->
      stks h1 r (fi_work it1) lcs1 -> length (lists lcs1) <= fi_len it1 -> refs_ok h1 r refs1 rs1 ->
      (forall p l' outs, Permutation p (lists lcs1) -> walks bomb cs outs l1 p rs1 (fi_len it1) l' -> walks bomb (c :: cs) ((o, k) :: outs) l (pre ++ p) rs (fi_len it) l') ->
      Permutation (pre ++ lists lcs1) (lists lcs) -> (c <> MBack -> pre ++ lists lcs1 = lists lcs) -> (c <> MNext -> pre ++ lists (rev lcs1) = lists (rev lcs)) ->
      o <> Unwound -> tried_k o ks -> Forall (fun q => exists k, In k ks /\ way q k) n1 ->
      exists h' it' outs, ('(h2, it2, outs) <- fm_run bomb cs h1 it1 refs1;; Ok (h2, it2, (o, k) :: outs)) = Ok (h', it', outs)
        /\ ran (c :: cs) h0 t0 start r l ps (fi_len it) lcs rs h' outs).
    { intros h1 it1 t1 l1 lcs1 refs1 rs1 n1 o k ks pre G1 I1 Sh1 St1 Ll1 Rf1 Hw P1 P2 P3 Ho Tk Fn.
      destruct (IH h0 t0 start h1 r t1 l1 _ it1 lcs1 refs1 rs1 Ht G1 I1 Sh1 St1 Ll1 Rf1) as (h' & it' & outs & E & l' & t' & (p & Q1 & Q2) & Q3 & Q4 & Q5 & Q6 & Q7 & Q8 & Q9 & Q10).
      rewrite E. cbn [bind]. eexists _, _, _. split; [reflexivity|]. exists l', t'. split; [exists (pre ++ p); split; [now rewrite Q1|now apply Hw]|].
      split; [intros Hc; rewrite <- P2 by (intros ->; apply Hc; now left); apply Hw; [auto|]; apply Q3; intros X; apply Hc; now right|].
      split; [intros Hc; rewrite <- P3 by (intros ->; apply Hc; now left); apply Hw; [apply lists_rev|]; apply Q4; intros X; apply Hc; now right|].
      split; auto. split; auto. split; auto. split; [cbn; now rewrite Q8|]. cbn [map fst].
      split; [intros [X|X]; [congruence|auto]|]. intros Hu. destruct Q10 as (nps & kss & R1 & R2 & R3 & R4).
      { intros X. apply Hu. destruct outs as [|y outs]; [destruct X|]. cbn [removelast map]. now right. }
      exists (nps ++ n1), (ks :: kss). rewrite <- app_assoc. split; auto. split; [constructor; auto|]. split.
      - apply Forall_app. split; [eapply Forall_impl; [|exact R3]|eapply Forall_impl; [|exact Fn]]; intros q (k0 & K1 & K2); exists k0; cbn [concat]; split; auto; apply in_or_app; auto.
      - intros X. apply R4. intros Y. apply X. now right. }
    assert (Rd : forall h1 rf x t1 ps1, good h1 -> minv h0 t0 O start (er h1) r t1 ps1 -> shown t1 l -> ref_ok h1 r rf x ->
      exists e, f_ref_read h1 rf = Ok e /\ nth_error l x = Some e /\ forall p, on_way sk p x -> way p (fst e)).
    { intros h1 [a j] x t1 ps1 G1 I1 S1 (q & e & A1 & A2 & A3). cbn [fst snd] in *.
      destruct (at_entry t1 l x e S1 A1) as (q' & j' & es & ks & e' & B1 & B2 & B3 & B4 & B5 & _). rewrite A2 in B1. injection B1 as <- <-.
      destruct (skel_at t1 t0 q es ks) as (es0 & ks0 & H0 & L0 & _ & _); [now destruct S1 as (_ & _ & ->)|auto|].
      apply (f_equal (@length _)) in L0. rewrite !map_length in L0.
      destruct (write_step h0 t0 O start (er h1) r t1 ps1 q a j es0 ks0 (fun v => v) I1 A3 H0) as (e1 & es1 & ks1 & h2 & C1 & C2 & C3 & _).
      { rewrite L0. apply nth_error_Some. congruence. }
      rewrite B2 in C1. injection C1 as <- <-. rewrite B3 in C2. injection C2 as <-. exists e'. split; [now apply f_ref_read_sim|]. split; auto.
      intros p (e2 & q2 & j2 & D1 & D2 & D3). exists x, e2, q2, j2. rewrite A1 in D1. injection D1 as <-. auto. }
    assert (Nx : c = MNext \/ c = MBack -> exists h' it' outs, ('(h1, it1, o) <- acall c h it;;
      match o with
      | Unwound => '(h2, it2, outs) <- fm_run bomb cs h1 it1 refs;; Ok (h2, it2, (Unwound, fi_len it1) :: outs)
      | Done None => '(h2, it2, outs) <- fm_run bomb cs h1 it1 refs;; Ok (h2, it2, (Done None, fi_len it1) :: outs)
      | Done (Some r) =>
        e <- f_ref_read h1 r;;
        '(h2, it2, outs) <- fm_run bomb cs h1 it1 (refs ++ [r]);;
        Ok (h2, it2, (Done (Some e), fi_len it1) :: outs)
      end) = Ok (h', it', outs) /\ ran (c :: cs) h0 t0 start r l ps (fi_len it) lcs rs h' outs).
    { intros Hc. destruct (call_ok c h0 t0 start h r t ps it lcs Ht G I St Ll) as (h1 & it1 & o & lcs1 & nps & E & G1 & Mo & St1 & R). rewrite E. cbn [bind].
      pose proof (refs_mono _ _ _ _ _ Mo Rf) as Rf1. pose proof (ord_perm c lcs) as Pe. pose proof (ord_perm c lcs1) as Pe1.
      assert (Ob : c <> MBack -> forall z, ord c z = lists z) by (intros X z; destruct c; try reflexivity; congruence).
      assert (On : c <> MNext -> forall z, ord c z = lists (rev z)) by (intros X z; destruct Hc as [-> | ->]; [congruence|reflexivity]).
      destruct o as [[rf|]|].
      - destruct R as (x & I1 & Ex & El & Rr & Fw). destruct (Rd h1 rf x t _ G1 I1 Sh Rr) as (e & Er & Ee & Hwy). rewrite Er. cbn [bind].
        rewrite Ex in Pe. pose proof (Permutation_length Pe) as PL. pose proof (Permutation_length Pe1) as PL1. cbn [length] in PL.
        apply (Go h1 it1 t l lcs1 (refs ++ [rf]) (rs ++ [x]) nps _ _ [fst e] [x]); auto.
        + lia.
        + apply Forall2_app; auto.
        + intros p l' outs Pp Hw. assert (Hgo : exists y todo', [x] ++ p = y :: todo' /\ nth_error l y = Some e /\ fi_len it = S (fi_len it1) /\ walks bomb cs outs l todo' (rs ++ [y]) (fi_len it1) l').
          { exists x, p. auto. }
          destruct Hc as [-> | ->]; exact Hgo.
        + rewrite <- Pe1. exact Pe.
        + intros X. rewrite <- !(Ob X). now rewrite Ex.
        + intros X. rewrite <- !(On X). now rewrite Ex.
        + discriminate.
        + reflexivity.
        + eapply Forall_impl; [|exact Fw]. intros q Hq. exists (fst e). split; [now left|auto].
      - destruct R as (I1 & -> & E0 & E1 & El). pose proof (Permutation_length Pe1) as PL1.
        apply (Go h1 it1 t l lcs1 refs rs [] _ _ [] []); auto.
        + rewrite E1. cbn. lia.
        + intros p l' outs Pp Hw. rewrite E1 in Pp. apply Permutation_sym, Permutation_nil in Pp. subst p. rewrite El in *. destruct Hc as [-> | ->]; cbn [app walks]; auto.
        + rewrite E0, E1. auto.
        + now rewrite E0, E1.
        + intros _. pose proof (lists_rev lcs) as Z. pose proof (lists_rev lcs1) as Z1. rewrite E0 in Z. rewrite E1 in Z1.
          apply Permutation_sym, Permutation_nil in Z, Z1. now rewrite Z, Z1.
        + discriminate.
        + reflexivity.
      - destruct R as (x & lost & Ms & B & Hne & Ex & El & Fw). pose proof Ms as (W1 & A1 & D1 & Sk1 & Fr1 & Lv1 & _).
        assert (I1 : minv (er h1) t O (from (er h1) r) (er h1) r t []).
        { split; [|split; [auto|split; [constructor|auto]]]. split; auto. split; auto. split; auto. split; auto. split; [apply frame_refl|]. split.
          - rewrite <- (skel_levels (n_levels t)), Sk1, (skel_levels (n_levels t0)) by lia. exact Lv1.
          - split; [reflexivity|]. split; constructor. }
        rewrite Ex in Pe. pose proof (Permutation_length Pe) as PL. pose proof (Permutation_length Pe1) as PL1. rewrite app_length in PL.
        destruct (IH (er h1) t (from (er h1) r) h1 r t l [] it1 lcs1 refs rs) as (h' & it' & outs & E' & l' & t' & (p & Q1 & Q2) & Q3 & Q4 & Q5 & Q6 & (Q7 & Q8 & Q9 & Q10) & Q11 & Q12 & Q13); auto.
        { congruence. } { lia. }
        assert (Hw : forall z, walks bomb cs outs l z rs (fi_len it1) l' -> walks bomb (c :: cs) ((Unwound, fi_len it1) :: outs) l ((x :: lost) ++ z) rs (fi_len it) l').
        { intros z Hz. rewrite El in *. assert (Hgo : faulty /\ fi_len it = fi_len it /\ exists lost0 todo', (x :: lost) ++ z = lost0 ++ todo' /\ lost0 <> [] /\ walks bomb cs outs l todo' rs (fi_len it) l').
          { split; auto. split; auto. exists (x :: lost), z. split; auto. split; [discriminate|auto]. }
          destruct Hc as [-> | ->]; exact Hgo. }
        rewrite E'. cbn [bind]. eexists _, _, _. split; [reflexivity|]. exists l', t'. split; [exists ((x :: lost) ++ p); split; [now rewrite Q1, <- Pe1|now apply Hw]|].
        split; [intros X; rewrite <- Ob by (intros ->; apply X; now left); rewrite Ex, Ob by (intros ->; apply X; now left); apply Hw, Q3; intros Y; apply X; now right|].
        split; [intros X; rewrite <- On by (intros ->; apply X; now left); rewrite Ex, On by (intros ->; apply X; now left); apply Hw, Q4; intros Y; apply X; now right|].
        split; auto. split; auto. split; [split; [auto|split; [auto|split; [auto|eapply frame_trans; eauto]]]|]. split; [cbn; now rewrite Q11|]. split.
        { intros _. destruct Ms as (_ & _ & _ & _ & _ & _ & _ & _ & Fs). destruct nps as [|q nps]; [congruence|]. inversion Fs as [|? ? Hq _]; subst. eauto. }
        intros Hu. destruct outs as [|y outs]; [|destruct Hu; cbn [removelast map]; now left]. destruct cs; [|discriminate Q11].
        injection E' as <- <-. cbn [walks] in Q2. subst l'. assert (t' = t) as -> by (eapply ns_det; eauto).
        assert (Hk : exists e, nth_error Rk x = Some e).
        { destruct nps as [|q nps]; [congruence|]. inversion Fw as [|? ? (e & _ & _ & He & _) _]; subst. eauto. }
        destruct Hk as [e He]. exists nps, [[snd (fst e)]]. split; auto. split; [constructor; [exists x, e; auto|constructor]|]. split.
        + eapply Forall_impl; [|exact Fw]. intros q (e2 & q2 & j2 & F1 & F2 & F3). rewrite He in F1. injection F1 as <-. exists (snd (fst e)). split; [now left|]. exists x, e, q2, j2. auto.
        + intros X. destruct X. now left. }
    destruct c as [| |j w]; [apply Nx; auto|apply Nx; auto|]. cbn [fm_run]. destruct (nth_error refs j) as [[a jj]|] eqn:Ej.
    - destruct (f2_nth_l _ _ _ _ _ Rf Ej) as (x & Ex & q & e & A1 & A2 & A3). cbn [fst snd] in *.
      destruct (at_entry t l x e Sh A1) as (q' & j' & es & ks & e' & B1 & B2 & B3 & B4 & B5 & _). rewrite A2 in B1. injection B1 as <- <-.
      destruct (skel_at t t0 q es ks) as (es0 & ks0 & H0 & L0 & _ & _); [now destruct Sh as (_ & _ & ->)|auto|].
      apply (f_equal (@length _)) in L0. rewrite !map_length in L0.
      destruct (write_step h0 t0 O start (er h) r t ps q a jj es0 ks0 w I A3 H0) as (e1 & es1 & ks1 & g & C1 & C2 & C3 & C4 & C5 & C6).
      { rewrite L0. apply nth_error_Some. congruence. }
      rewrite B2 in C1. injection C1 as <- <-. rewrite B3 in C2. injection C2 as <-. rewrite (f_ref_read_sim _ _ _ G C3). cbn [bind].
      destruct (f_ref_write_sim _ _ _ _ G C4) as (h1 & Ew & <- & G1). rewrite Ew. cbn [bind].
      apply (Go h1 it (n_write q jj w t) (upd_nth x w l) lcs refs rs [] _ _ [fst e'] []); auto.
      + eapply write_at; eauto.
      + eapply stks_mono; eauto.
      + eapply refs_mono; eauto.
      + intros p l' outs Pp Hw. cbn [app walks]. rewrite Ex, B4. auto.
      + discriminate.
      + reflexivity.
    - cbn [bind]. apply (Go h it t l lcs refs rs [] _ _ [] []); auto.
      + intros p l' outs Pp Hw. cbn [app walks]. rewrite (f2_none_l _ _ _ _ Rf Ej). auto.
      + discriminate.
      + reflexivity.
  Qed.
End Run.
