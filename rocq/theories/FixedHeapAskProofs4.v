(** Histories of calls on shared maps made of arrays, with any answers to the comparisons. *)
From Coq Require Import List PeanoNat Bool Lia.
From Verif Require Import Base Spec MapSpec SpecFacts Vec AskSpec AskAnySpec Ask AnyOrdSpec BTreeAnyProofs Heap HeapProofs BTreeModel BTreeHeapModel BTreeHeapSpec
  FixedModel FixedIterModel FixedSpec FixedShows FixedIterShows FixedHeapModel FixedHeapSpec FixedHeapProofs FixedHeapProofs7 FixedHeapProofs9
  FixedHeapAskModel FixedAskHeapSpec FixedHeapAskProofs2 FixedHeapAskProofs3.
From Verif Require AvlHeapProofs5 BTreeProofs.
Import ListNotations.
Local Open Scope nat_scope.

Section Runs.
  Context {K V Q : Type} (bor : K -> Q) (ask : nat -> Q -> Q -> option comparison) (small_key : bool).
  Variable bomb : nat -> bool.
  Notation fheap := (heap (elems K V * option (kids addr))).
  Notation pay := (list (K * V)).
  Notation good := (@good K V).
  Notation nob := (fun _ : K => tt).
  Notation noc := (fun _ _ : unit => Lt).
  Notation said := (said bor ask).
  Notation why := (why ask bomb).
  Notation fh_op := (fh_op K V Q).
  Notation fheld := (fheld nob noc).
  Notation fframe := (fframe nob noc).
  Notation faulty := (exists i, bomb i = true).

  Lemma kept_of O (h h' : fheap) : fframe O h h' -> f_kept O h h'.
  Proof. intros [F1 F2]. split; auto. intros m l I H. apply any_shows. apply any_shows in H. auto. Qed.

  (** ** Single calls *)
  (** [call]: from what is known with the heap erased to what a user sees. *)
  Lemma see {A} B (h : fheap) O m n0 (r : res (fheap * fhmap * nat * out A)) P (P' : fheap -> fhmap -> nat -> A -> Prop) U (U' : fheap -> fhmap -> nat -> Prop) :
    good h -> called_t ask bomb B h O m n0 r P U ->
    (forall h' m' n' x, good h' -> P h' m' n' x -> P' h' m' n' x) -> (forall h' m' n', good h' -> why n0 n' -> U h' m' n' -> U' h' m' n') ->
    exists h' m' n' o, r = Ok (h', m', n', o) /\ n0 <= n' /\ fsound h' (olist (fh_root m') ++ O) /\ f_kept O h h' /\ cloned_on B h m h'
      /\ match o with Done x => P' h' m' n' x | Unwound => U' h' m' n' end.
  Proof.
    intros G (h' & m' & n' & o & E & Hn & G' & S & F & C & R) HP HU. exists h', m', n', o. split; auto. split; auto. split; [now apply fsound_iff|].
    split; [now apply kept_of, fframe_of|]. split; auto. destruct o; [auto|]. destruct R; auto.
  Qed.
  Lemma insert_t_see (h : fheap) m l k v n O : fsound h (olist (fh_root m) ++ O) -> fh_any h m l ->
    exists h' m' n' o, fh_insert_map_t bor ask small_key bomb h m k v n = Ok (h', m', n', o) /\ n <= n'
      /\ fsound h' (olist (fh_root m') ++ O) /\ f_kept O h h' /\ cloned_on branch h m h'
      /\ match o with
         | Done x => exists l', may_insert bor (said n n') k v l l' x /\ fh_any h' m' l'
         | Unwound => f_same h m h' m' /\ fh_any h' m' l /\ (faulty \/ n < n' /\ panicked ask n')
         end.
  Proof.
    intros S H. apply fsound_iff in S as [G S]. apply any_is in H; auto. eapply see; [auto|apply insert_t_b; eauto| |]; cbv beta.
    - intros h' m' n' x G' (l' & I' & M). exists l'. split; auto. now apply any_is.
    - intros h' m' n' G' W [Sm I']. split; auto. split; auto. now apply any_is.
  Qed.
  Lemma get_mut_t_see (h : fheap) m l q w n O : fsound h (olist (fh_root m) ++ O) -> fh_any h m l ->
    exists h' m' n' o, fh_get_mut_map_t bor ask small_key bomb h m q w n = Ok (h', m', n', o) /\ n <= n'
      /\ fsound h' (olist (fh_root m') ++ O) /\ f_kept O h h' /\ cloned_on branch h m h'
      /\ match o with
         | Done x => exists l', may_get_mut (said n n') q w l l' x /\ fh_any h' m' l'
         | Unwound => f_same h m h' m' /\ fh_any h' m' l /\ (faulty \/ n < n' /\ panicked ask n')
         end.
  Proof.
    intros S H. apply fsound_iff in S as [G S]. apply any_is in H; auto. eapply see; [auto|apply get_mut_t_b; eauto| |]; cbv beta.
    - intros h' m' n' x G' (l' & I' & M). exists l'. split; auto. now apply any_is.
    - intros h' m' n' G' W [Sm I']. split; auto. split; auto. now apply any_is.
  Qed.
  Lemma remove_t_see (h : fheap) m l q n O : fsound h (olist (fh_root m) ++ O) -> fh_any h m l ->
    exists h' m' n' o, fh_remove_map_t bor ask small_key bomb h m q n = Ok (h', m', n', o) /\ n <= n'
      /\ fsound h' (olist (fh_root m') ++ O) /\ f_kept O h h' /\ cloned_on branch_near h m h'
      /\ match o with
         | Done x => exists l', may_remove_val (said n n') q l l' x /\ fh_any h' m' l'
         | Unwound => f_same h m h' m' /\ fh_any h' m' l /\ n < n' /\ panicked ask n'
             \/ faulty /\ fh_len m' = fh_len m /\ exists a t, fh_root m' = Some a /\ reads h' a t
         end.
  Proof.
    intros S H. apply fsound_iff in S as [G S]. apply any_is in H; auto. eapply see; [auto|apply remove_t_b; eauto| |]; cbv beta.
    - intros h' m' n' x G' (l' & I' & M). exists l'. split; auto. now apply any_is.
    - intros h' m' n' G' W [(Sm & I' & X)|X]; [left|right; exact X]. split; auto. split; auto. now apply any_is.
  Qed.
  Lemma get_t_see (h : fheap) m l q n O : fsound h O -> fh_any h m l ->
    exists n' o, fh_get_t bor ask small_key h m q n = Ok (n', o) /\ n <= n'
      /\ match o with Done x => may_get (said n n') q l x | Unwound => n < n' /\ panicked ask n' end.
  Proof. intros S H. apply fsound_iff in S as [G _]. apply get_t_b; auto. now apply any_is. Qed.
  Lemma extend_t_see (h : fheap) m l ps n O : fsound h (olist (fh_root m) ++ O) -> fh_any h m l ->
    exists h' m' n' o, fh_extend_t bor ask small_key bomb h m ps n = Ok (h', m', n', o) /\ n <= n'
      /\ fsound h' (olist (fh_root m') ++ O) /\ f_kept O h h'
      /\ match o with
         | Done _ => exists l', may_extend bor (said n n') ps l l' /\ fh_any h' m' l'
         | Unwound => (exists done p rest l', ps = done ++ p :: rest /\ may_extend bor (said n n') done l l' /\ fh_any h' m' l')
             /\ (faulty \/ n < n' /\ panicked ask n')
         end.
  Proof.
    intros S H. apply fsound_iff in S as [G S]. apply any_is in H; auto.
    destruct (extend_t_b bor ask small_key bomb ps h m l O n G S H) as (h' & m' & n' & o & E & Hn & G' & S' & F & P).
    exists h', m', n', o. split; auto. split; auto. split; [now apply fsound_iff|]. split; [now apply kept_of, fframe_of|]. destruct o as [x|].
    - destruct P as (l' & I' & M). exists l'. split; auto. now apply any_is.
    - destruct P as [(dn & p & rest & l' & E' & I' & M) W]. split; auto. exists dn, p, rest, l'. split; auto. split; auto. now apply any_is.
  Qed.
  Lemma few_see (h : fheap) m l a t O : fsound h O -> fh_any h m l -> fh_root m = Some a -> reads h a t ->
    exists d, 2 * 6 ^ d <= length l + 1 /\ (forall p, branch t p -> length p <= d + 1) /\ (forall p, branch_near t p -> length p <= 2 * d + 1).
  Proof. intros S H. apply fsound_iff in S as [G _]. apply any_is in H; auto. eapply few_t; eauto. Qed.

  Lemma any_entries (h : fheap) m l a t O : fsound h O -> fh_any h m l -> fh_root m = Some a -> reads h a t -> l = BTreeProofs.flat t.
  Proof.
    intros S H E R. apply fsound_iff in S as [G _]. apply any_is in H; auto. destruct (is_cases _ _ _ H) as [_ [[Ea _]|(a1 & d & t1 & Ea & D & _ & <-)]]; [congruence|].
    f_equal. assert (a1 = a) as -> by congruence. apply reads_ns in D; auto. destruct R as (x & E1 & <-), D as (y & E2 & <-). congruence.
  Qed.

  (** ** Histories *)
  Definition tstepped (h : fheap) ms (st : list pay) n (o : fh_op) : Prop :=
    exists h' ms' n' r st', fh_step_t bor ask small_key bomb (h, ms) n o = Ok ((h', ms'), n', r) /\ n <= n' /\ fheld h' ms' st' []
      /\ match r with
         | Done x => fask_did bor ask n n' st o x st'
         | Unwound => (faulty \/ n < n' /\ panicked ask n') /\ fask_unwound bor ask n n' st o st'
         end.
  Lemma tstep_ok (h : fheap) ms st n (o : fh_op) : fheld h ms st [] -> f_calm o -> tstepped h ms st n o.
  Proof.
    intros H Cm. pose proof H as [So0 Fs0]. assert (G0 : good h /\ sound (er h) (froots ms ++ [])) by (now apply fsound_iff in So0). destruct G0 as [G0 S0].
    assert (Same : forall i (m : fhmap) l, nth_error ms i = Some m -> nth_error st i = Some l -> set_nth i m ms = ms /\ set_nth i l st = st).
    { intros. split; now apply AvlHeapProofs5.set_nth_same. }
    assert (FFo : forall Z (h' : fheap), good h' -> frame (Z ++ []) (er h) (er h') -> fframe Z h h').
    { intros Z h' G' F. eapply frame_z. apply fframe_of; eauto. }
    destruct o as [|ps|i|i o|i k|i]; unfold tstepped; cbn [FixedHeapAskModel.fh_step_t FixedAskHeapSpec.fask_did FixedAskHeapSpec.fask_unwound]; cbv zeta; [| | | | |destruct Cm].
    - (* new *) eexists _, _, _, _, (st ++ [[]]). split; [reflexivity|]. split; auto. split; auto. apply fpush; [exact H|]. now apply new_shows.
    - (* from_iter *) destruct (from_iter_t_b bor ask small_key bomb h ps _ n G0 S0) as (h1 & n1 & o & E & Hn & G1 & F1 & P). rewrite E. cbn [bind].
      assert (F0' : Forall2 (fh_shows nob noc h1) ms st) by (eapply shows_fframe; [apply FFo; eauto|apply incl_refl|exact Fs0]). destruct o as [m|].
      + destruct P as (S1 & l' & I1 & Me). eexists _, _, _, _, (st ++ [l']). split; [reflexivity|]. split; auto. split; [|eauto].
        apply fpush; [|now apply is_shows]. split; auto. apply fsound_iff. split; auto. apply fsound_iff with (h := h1); auto.
        eapply fsound_equiv; [|apply fsound_iff; split; [exact G1|exact S1]]. intros x. rewrite !cnt_app. cbn. lia.
      + destruct P as [S1 W]. eexists _, _, _, _, st. split; [reflexivity|]. split; auto. split; auto. split; auto. now apply fsound_iff.
    - (* clone *) cbn [FixedHeapSpec.fh_step]. destruct (nth_error ms i) as [m|] eqn:Em.
      2:{ rewrite (fheld_none _ _ _ _ _ _ _ H Em). eexists _, _, _, _, st. split; [reflexivity|]. auto. }
      destruct (ffocus nob noc h ms st [] i m H Em) as (l & Z & El & Sh & So1 & Cl). rewrite El. destruct (Same _ _ _ Em El) as [Sm1 Sm2].
      destruct (clone_s nob noc h m l _ So1 Sh) as (h1 & E & S1 & F1 & Sh1 & _). rewrite E. cbn [bind asks_none]. eexists _, _, _, _, (st ++ [l]). split; [reflexivity|].
      split; auto. split; auto. eapply fpush; eauto. rewrite <- Sm1, <- Sm2.
      apply Cl; auto. { eapply fframe_incl; [|exact F1]. intros x Hx. apply in_or_app. right. apply in_or_app. auto. }
      eapply fsound_equiv; [|exact S1]. intros x. rewrite !cnt_app. lia.
    - (* one map *) destruct (nth_error ms i) as [m|] eqn:Em.
      2:{ exists h, ms, n, (Done (FhOut FrUnit)), st. split; [destruct o; cbn [FixedHeapSpec.fh_step]; cbv zeta; rewrite ?Em; reflexivity|]. split; auto. split; auto.
          destruct o; cbn [fask_did]; cbv zeta; rewrite (fheld_none _ _ _ _ _ _ _ H Em); auto. }
      destruct (ffocus nob noc h ms st [] i m H Em) as (l & Z & El & Sh & So1 & Cl). destruct (Same _ _ _ Em El) as [Sm1 Sm2].
      pose proof (proj1 (fsound_iff _ _) So1) as [_ S1]. pose proof (proj2 (is_shows nob noc h m l G0) Sh) as Hi.
      assert (Fin : forall h' m' l', good h' -> sound (er h') (olist (fh_root m') ++ Z ++ []) -> frame (Z ++ []) (er h) (er h') -> FixedHeapProofs7.fh_is nob noc h' m' l' ->
        fheld h' (set_nth i m' ms) (set_nth i l' st) []).
      { intros h' m' l' G' S' F' I'. apply Cl; [now apply FFo|now apply fsound_iff|now apply is_shows]. }
      assert (Back : forall h' m', good h' -> sound (er h') (olist (fh_root m') ++ Z ++ []) -> frame (Z ++ []) (er h) (er h') -> FixedHeapProofs7.fh_is nob noc h' m' l ->
        fheld h' (set_nth i m' ms) st []).
      { intros h' m' G' S' F' I'. rewrite <- Sm2. auto. }
      pose proof Sh as (v & Ev & Sv).
      destruct o as [k w|q|q|q w|  | | |ps]; cbn [fask_did fask_unwound]; cbv zeta; rewrite ?El; cbn [FixedHeapSpec.fh_step]; cbv zeta; rewrite ?Em.
      + (* insert *) destruct (insert_t_b bor ask small_key bomb h m l k w _ n G0 S1 Hi) as (h1 & m1 & n1 & o & E & Hn & G1 & S2 & F1 & _ & P). rewrite E. cbn [bind]. destruct o as [x|].
        * destruct P as (l' & I' & M). eexists _, _, _, _, (set_nth i l' st). split; [reflexivity|]. split; auto. split; auto. exists l'. split; auto. exists x. auto.
        * destruct P as [[_ I'] W]. eexists _, _, _, _, st. split; [reflexivity|]. split; auto.
      + (* remove *) destruct (remove_t_b bor ask small_key bomb h m l q _ n G0 S1 Hi) as (h1 & m1 & n1 & o & E & Hn & G1 & S2 & F1 & _ & P). rewrite E. cbn [bind]. destruct o as [x|].
        * destruct P as (l' & I' & M). eexists _, _, _, _, (set_nth i l' st). split; [reflexivity|]. split; auto. split; auto. exists l'. split; auto. exists x. auto.
        * destruct P as [_ W]. destruct (clear_s nob noc h1 m1 (Z ++ [])) as (h2 & E2 & S3 & F2 & N2 & _); [now apply fsound_iff|]. rewrite E2. cbn [bind].
          eexists _, _, _, _, (set_nth i [] st). split; [reflexivity|]. split; auto. split; auto. apply Cl; auto. eapply frame_z, fframe_trans; [|exact F2]. now apply fframe_of.
      + (* get *) destruct (get_t_b bor ask small_key h m l q n G0 Hi) as (n1 & o & E & Hn & P). rewrite E. cbn [bind]. destruct o as [x|].
        * eexists _, _, _, _, st. split; [reflexivity|]. split; auto. split; auto. split; auto. exists x. auto.
        * eexists _, _, _, _, st. split; [reflexivity|]. split; auto.
      + (* get_mut *) destruct (get_mut_t_b bor ask small_key bomb h m l q w _ n G0 S1 Hi) as (h1 & m1 & n1 & o & E & Hn & G1 & S2 & F1 & _ & P). rewrite E. cbn [bind]. destruct o as [x|].
        * destruct P as (l' & I' & M). eexists _, _, _, _, (set_nth i l' st). split; [reflexivity|]. split; auto. split; auto. exists l'. split; auto. exists x. auto.
        * destruct P as [[_ I'] W]. eexists _, _, _, _, st. split; [reflexivity|]. split; auto.
      + (* len *) rewrite Ev. cbn [bind asks_none]. rewrite (proj1 (f_len_l nob noc v l Sv)). eexists _, _, _, _, st. split; [reflexivity|]. auto.
      + (* is_empty *) rewrite Ev. cbn [bind asks_none]. rewrite (proj2 (f_len_l nob noc v l Sv)). eexists _, _, _, _, st. split; [reflexivity|]. auto.
      + (* clear *) destruct (clear_s nob noc h m _ So1) as (h2 & E2 & S3 & F2 & N2 & _). rewrite E2. cbn [bind asks_none].
        eexists _, _, _, _, (set_nth i [] st). split; [reflexivity|]. split; auto. split; auto. apply Cl; auto. eapply frame_z; eauto.
      + (* extend *) destruct (extend_t_b bor ask small_key bomb ps h m l _ n G0 S1 Hi) as (h1 & m1 & n1 & o & E & Hn & G1 & S2 & F1 & P). rewrite E. cbn [bind]. destruct o as [x|].
        * destruct P as (l' & I' & M). eexists _, _, _, _, (set_nth i l' st). split; [reflexivity|]. split; auto. split; auto. split; auto. exists l'. auto.
        * destruct P as [(dn & p & rest & l' & E' & I' & M) W]. eexists _, _, _, _, (set_nth i l' st). split; [reflexivity|]. split; auto. split; auto. split; auto.
          exists l, dn, p, rest, l'. auto.
    - (* iter *) cbn [FixedHeapSpec.fh_step]. destruct (nth_error ms i) as [m|] eqn:Em.
      2:{ rewrite (fheld_none _ _ _ _ _ _ _ H Em). eexists _, _, _, _, st. split; [reflexivity|]. auto. }
      destruct (ffocus nob noc h ms st [] i m H Em) as (l & Z & El & (v & Ev & Sv) & _ & _). rewrite El, Ev. cbn [bind].
      destruct (iter_front nob noc v l (repeat Front k) Sv) as [(it & it' & E1 & E2) _]; auto.
      { apply Forall_forall. intros c Hc. now apply repeat_spec in Hc. }
      rewrite E1. cbn [bind]. rewrite E2. cbn [bind asks_none]. eexists _, _, _, _, st. split; [reflexivity|]. auto.
  Qed.

  Lemma trun_inv os : forall (h : fheap) ms st n, fheld h ms st [] -> Forall f_calm os ->
    exists h' ms' n' rs st', fh_run_t bor ask small_key bomb (h, ms) n os = Ok ((h', ms'), n', rs)
      /\ fask_follows bor ask faulty n st os rs n' st' /\ fheld h' ms' st' [].
  Proof.
    induction os as [|o os IH]; intros h ms st n H C; cbn [fh_run_t].
    - exists h, ms, n, [], st. split; auto. split; [split; reflexivity|auto].
    - inversion C as [|? ? C1 C2]; subst. destruct (tstep_ok h ms st n o H C1) as (h1 & ms1 & n1 & r & st1 & E1 & Hn & H1 & P1). rewrite E1. cbn [bind].
      destruct (IH h1 ms1 st1 n1 H1 C2) as (h' & ms' & n' & rs & st' & E & F & H'). rewrite E. cbn [bind].
      exists h', ms', n', (r :: rs), st'. split; auto. split; auto. destruct r as [ob|]; cbn [fask_follows]; exists n1, st1; tauto.
  Qed.
  Lemma any_all (h : fheap) ms st : Forall2 (fh_any h) ms st <-> Forall2 (fh_shows nob noc h) ms st.
  Proof. split; intros F; induction F; constructor; auto; now apply any_shows. Qed.
  Lemma run_t_see os : Forall f_calm os ->
    exists (h : fheap) ms n rs st, fh_run_t bor ask small_key bomb (empty_heap, []) 0 os = Ok ((h, ms), n, rs)
      /\ fask_follows bor ask faulty 0 [] os rs n st /\ fsound h (froots ms) /\ Forall2 (fh_any h) ms st
      /\ exists h', fh_drop_all (K := K) (V := V) h ms = Ok h' /\ forall a, get h' a = None.
  Proof.
    intros C. destruct (trun_inv os empty_heap [] [] 0 (fheld_empty nob noc) C) as (h & ms & n & rs & st & E & F & [S Sh]). rewrite app_nil_r in S.
    exists h, ms, n, rs, st. split; auto. split; auto. split; auto. split; [now apply any_all|]. now apply (fdrop_all_none nob noc).
  Qed.
  Lemma step_t_see (h : fheap) ms st n (o : fh_op) : fsound h (froots ms) -> Forall2 (fh_any h) ms st -> f_calm o ->
    exists h' ms' n' r st', fh_step_t bor ask small_key bomb (h, ms) n o = Ok ((h', ms'), n', r) /\ n <= n'
      /\ fsound h' (froots ms') /\ Forall2 (fh_any h') ms' st'
      /\ match r with
         | Done x => fask_did bor ask n n' st o x st'
         | Unwound => (faulty \/ n < n' /\ panicked ask n') /\ fask_unwound bor ask n n' st o st'
         end.
  Proof.
    intros S F C. destruct (tstep_ok h ms st n o) as (h1 & ms1 & n1 & r & st1 & E1 & Hn & [S1 F1] & P1); auto.
    { split; [now rewrite app_nil_r|now apply any_all]. }
    rewrite app_nil_r in S1. exists h1, ms1, n1, r, st1. split; auto. split; auto. split; auto. split; auto. now apply any_all.
  Qed.
End Runs.
