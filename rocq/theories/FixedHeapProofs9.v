(** Histories of calls on shared maps made of arrays, and the calls in terms of what the maps show. *)
From Coq Require Import List PeanoNat Bool Lia.
From Verif Require Import Base Spec MapSpec SpecFacts Vec Heap HeapProofs BTreeModel BTreeProofs BTreeProofs2 BTreeHeapModel BTreeHeapSpec
  BTreeHeapProofs BTreeHeapProofs2 BTreeHeapProofs3 BTreeHeapProofs5 FixedModel FixedIterModel FixedSpec FixedProofs FixedProofs2 FixedProofs4 FixedShows
  FixedIterShows FixedChkProofs FixedHeapModel FixedHeapSpec FixedHeapProofs FixedHeapProofs7 FixedHeapProofs8.
From Verif Require AvlHeapProofs5 BTreeHeapProofs8 BTreeHeapProofs9 BTreeMutProofs.
Import ListNotations.
Local Open Scope nat_scope.

Section Runs.
  Context {K V Q : Type} (bor : K -> Q) (cmp : Q -> Q -> comparison).
  Context (laws : order_laws cmp) (small_key : bool).
  Variable bomb : nat -> bool.
  Notation elems := (elems K V).
  Notation okids := (option (kids addr)).
  Notation cell := (elems * okids)%type.
  Notation fheap := (heap cell).
  Notation pay := (list (K * V)).
  Notation er := (@er K V).
  Notation good := (@good K V).
  Notation fh_is := (fh_is bor cmp).
  Notation fh_shows := (@fh_shows K V Q bor cmp).
  Notation fframe := (@fframe K V Q bor cmp).
  Notation fh_op := (fh_op K V Q).
  Notation fh_step := (fh_step bor cmp small_key bomb).
  Notation fh_run := (fh_run bor cmp small_key bomb).
  Notation sh_step := (sh_step bor cmp).
  Notation sh_run := (sh_run bor cmp).
  Notation sh_unwound := (sh_unwound bor cmp).
  Notation sh_follows := (sh_follows bor cmp).

  (** ** Single calls *)
  Definition call_s {A} (h : fheap) (O : list addr) (r : res (fheap * fhmap * out A))
      (P : fheap -> fhmap -> A -> Prop) (U : fheap -> fhmap -> Prop) : Prop :=
    exists h' m' o, r = Ok (h', m', o) /\ fsound h' (olist (fh_root m') ++ O) /\ fframe O h h'
      /\ match o with Done x => P h' m' x | Unwound => U h' m' /\ exists n, bomb n = true end.
  Lemma call_of {A} (h : fheap) O (r : res (fheap * fhmap * out A)) (P P' : fheap -> fhmap -> A -> Prop) (U U' : fheap -> fhmap -> Prop) :
    good h -> called_is bomb h O r P U -> (forall h' m' x, good h' -> P h' m' x -> P' h' m' x) -> (forall h' m', good h' -> U h' m' -> U' h' m') ->
    call_s h O r P' U'.
  Proof.
    intros G (h' & m' & o & E & G' & S & F & R) HP HU. exists h', m', o. split; auto. split; [now apply fsound_iff|].
    split; [now apply fframe_of|]. destruct o; [auto|]. destruct R; auto.
  Qed.

  Lemma insert_s (h : fheap) m l k v O : fsound h (olist (fh_root m) ++ O) -> fh_shows h m l ->
    call_s h O (fh_insert_map bor cmp small_key bomb h m k v)
      (fun h' m' x => x = s_get bor cmp (bor k) l /\ fh_shows h' m' (s_insert bor cmp k v l)) (fun h' m' => fh_shows h' m' l).
  Proof.
    intros S H. apply fsound_iff in S as [G S]. apply is_shows in H; auto. eapply call_of; [auto|apply insert_i; eauto| |].
    - intros h' m' x G' [-> H']. split; auto. now apply is_shows.
    - intros h' m' G' H'. now apply is_shows.
  Qed.
  Lemma get_mut_s (h : fheap) m l q w O : fsound h (olist (fh_root m) ++ O) -> fh_shows h m l ->
    call_s h O (fh_get_mut_map bor cmp small_key bomb h m q w)
      (fun h' m' x => x = s_get bor cmp q l /\ fh_shows h' m' (s_update bor cmp q w l)) (fun h' m' => fh_shows h' m' l).
  Proof.
    intros S H. apply fsound_iff in S as [G S]. apply is_shows in H; auto. eapply call_of; [auto|apply get_mut_i; eauto| |].
    - intros h' m' x G' [-> H']. split; auto. now apply is_shows.
    - intros h' m' G' H'. now apply is_shows.
  Qed.
  Lemma remove_s (h : fheap) m l q O : fsound h (olist (fh_root m) ++ O) -> fh_shows h m l ->
    call_s h O (fh_remove_map bor cmp small_key bomb h m q)
      (fun h' m' x => x = s_get bor cmp q l /\ fh_shows h' m' (s_remove bor cmp q l)) (fun _ m' => fh_len m' = fh_len m).
  Proof.
    intros S H. apply fsound_iff in S as [G S]. apply is_shows in H; auto. eapply call_of; [auto|apply remove_i; eauto| |auto].
    intros h' m' x G' [-> H']. split; auto. now apply is_shows.
  Qed.
  Lemma extend_s (h : fheap) m l ps O : fsound h (olist (fh_root m) ++ O) -> fh_shows h m l ->
    call_s h O (fh_extend bor cmp small_key bomb h m ps)
      (fun h' m' _ => fh_shows h' m' (s_extend bor cmp l ps))
      (fun h' m' => exists done rest, ps = done ++ rest /\ fh_shows h' m' (s_extend bor cmp l done)).
  Proof.
    intros S H. apply fsound_iff in S as [G S]. apply is_shows in H; auto. eapply call_of; [auto|apply extend_i; eauto| |].
    - intros h' m' x G' H'. now apply is_shows.
    - intros h' m' G' (dn & rest & E & H'). exists dn, rest. split; auto. now apply is_shows.
  Qed.
  Lemma from_iter_s (h : fheap) ps O : fsound h O ->
    exists h' o, fh_from_iter bor cmp small_key bomb h ps = Ok (h', o) /\ fframe O h h'
      /\ match o with
         | Done m => fsound h' (olist (fh_root m) ++ O) /\ fh_shows h' m (s_extend bor cmp [] ps)
         | Unwound => fsound h' O /\ exists n, bomb n = true
         end.
  Proof.
    intros S. apply fsound_iff in S as [G S].
    destruct (from_iter_i bor cmp laws small_key bomb h ps O G S) as (h' & o & E & G' & F & P).
    exists h', o. split; auto. split; [now apply fframe_of|]. destruct o as [m|]; destruct P as [S' P]; split; auto; try (apply fsound_iff; auto; fail).
    now apply is_shows.
  Qed.
  Lemma clone_s (h : fheap) m l O : fsound h (olist (fh_root m) ++ O) -> fh_shows h m l ->
    exists h', fh_clone h m = Ok (h', m) /\ fsound h' (olist (fh_root m) ++ olist (fh_root m) ++ O)
      /\ fframe (olist (fh_root m) ++ O) h h' /\ fh_shows h' m l /\ clones h' = clones h.
  Proof.
    intros S H. apply fsound_iff in S as [G S]. apply is_shows in H; auto.
    destruct (clone_i bor cmp h m l O G S H) as (h' & E & G' & S' & F & H' & C). exists h'. split; auto. split; [now apply fsound_iff|].
    split; [now apply fframe_of|]. split; auto. now apply is_shows.
  Qed.
  Lemma drop_s (h : fheap) m O : fsound h (olist (fh_root m) ++ O) ->
    exists h', fh_drop h m = Ok h' /\ fsound h' O /\ fframe O h h' /\ copies h' = copies h.
  Proof.
    intros S. apply fsound_iff in S as [G S]. destruct (drop_i h (fh_root m) O G S) as (h' & E & G' & S' & F & C).
    exists h'. split; auto. split; [now apply fsound_iff|]. split; [now apply fframe_of|exact C].
  Qed.
  Lemma clear_s (h : fheap) m O : fsound h (olist (fh_root m) ++ O) ->
    exists h', fh_clear h m = Ok (h', fh_new) /\ fsound h' O /\ fframe O h h' /\ fh_shows h' fh_new [] /\ copies h' = copies h.
  Proof.
    intros S. destruct (drop_s h m O S) as (h' & E & S' & F & C). exists h'. unfold fh_clear, fh_drop in *. rewrite E. split; auto. split; auto.
    split; auto. split; auto. apply is_shows; [now apply fsound_iff in S'|apply is_new].
  Qed.

  (** ** Laziness *)
  Lemma of_tree_b (h : fheap) m b f : good h -> fhm h m b -> of_tree h m f = tree_of b f.
  Proof.
    intros G Hb. destruct (view_fhm h m b G Hb) as (v & E & L & R). unfold of_tree, tree_of. rewrite E. destruct v as [[n|] len], (bm_root b) as [t|]; cbn in R; try contradiction; auto.
    now rewrite (repr_tree t n R).
  Qed.
  Definition copied (h h' : fheap) (M : list pay) : Prop := exists cs, copies h' = cs ++ copies h /\ AvlHeapSpec.sub cs M.
  Lemma insert_copies (h : fheap) m l k v O : fsound h (olist (fh_root m) ++ O) -> fh_shows h m l ->
    exists h' m' o, fh_insert_map bor cmp small_key bomb h m k v = Ok (h', m', o) /\ copied h h' (of_tree h m (path bor cmp (bor k))).
  Proof.
    intros S H. apply fsound_iff in S as [G S]. apply is_shows in H as (b & Hb & Vb & _); auto.
    destruct (insert_b bor cmp laws small_key bomb h m b k v O Vb G S Hb) as (h' & m' & o & E & _ & _ & _ & NL & _).
    exists h', m', o. split; auto. rewrite (of_tree_b h m b); auto.
  Qed.
  Lemma get_mut_copies (h : fheap) m l q w O : fsound h (olist (fh_root m) ++ O) -> fh_shows h m l ->
    exists h' m' o, fh_get_mut_map bor cmp small_key bomb h m q w = Ok (h', m', o) /\ copied h h' (of_tree h m (path bor cmp q)).
  Proof.
    intros S H. apply fsound_iff in S as [G S]. apply is_shows in H as (b & Hb & Vb & _); auto.
    destruct (get_mut_b bor cmp laws small_key bomb h m b q w O Vb G S Hb) as (h' & m' & o & E & _ & _ & _ & NL & _).
    exists h', m', o. split; auto. rewrite (of_tree_b h m b); auto.
  Qed.
  Lemma remove_copies (h : fheap) m l q O : fsound h (olist (fh_root m) ++ O) -> fh_shows h m l ->
    exists h' m' o, fh_remove_map bor cmp small_key bomb h m q = Ok (h', m', o) /\ copied h h' (of_tree h m (near bor cmp q)).
  Proof.
    intros S H. apply fsound_iff in S as [G S]. apply is_shows in H as (b & Hb & Vb & _); auto.
    destruct (remove_entry_b bor cmp laws small_key bomb h m b q O Vb G S Hb) as (h' & m' & o & E & _ & _ & _ & NL & _).
    unfold fh_remove_map. rewrite E. cbn [bind]. eexists _, _, _. split; [reflexivity|]. rewrite (of_tree_b h m b); auto.
  Qed.

  Lemma few (h : fheap) m l q : good h -> fh_shows h m l ->
    l = [] /\ of_tree h m (path bor cmp q) = [] /\ of_tree h m (near bor cmp q) = []
    \/ exists d, 2 * 6 ^ d <= length l + 1
         /\ length (of_tree h m (path bor cmp q)) <= d + 1 /\ length (of_tree h m (near bor cmp q)) <= 2 * d + 1.
  Proof.
    intros G H. apply is_shows in H as (b & Hb & (_ & _ & Sh) & <-); auto. rewrite !(of_tree_b h m b) by auto. unfold tree_of, contents.
    destruct (bm_root b) as [t|] eqn:Er; [right|left; auto]. destruct Sh as [d Sh]. pose proof (shape_loose _ _ _ _ Sh) as Lo. exists d.
    split; [apply (BTreeMutProofs.count_bounds 5 d 1 t Sh)|]. split; [now apply (BTreeHeapProofs9.path_len bor cmp)|now apply (BTreeHeapProofs9.near_len bor cmp)].
  Qed.

  (** ** Histories *)
  Definition faulty : Prop := exists n, bomb n = true.
  Definition fheld (h : fheap) (ms : list fhmap) (sst : list pay) (X : list addr) : Prop :=
    fsound h (froots ms ++ X) /\ Forall2 (fh_shows h) ms sst.
  Lemma fsound_equiv (h : fheap) A B : (forall x, cnt x A = cnt x B) -> fsound h A -> fsound h B.
  Proof. intros E (W & Ac & C). split; auto. eapply wf_equiv; [|exact W]. auto. Qed.
  Lemma froots_app a b : froots (a ++ b) = froots a ++ froots b.
  Proof. apply flat_map_app. Qed.
  Lemma shows_fframe Z (h h' : fheap) ms sst : fframe Z h h' -> incl (froots ms) Z -> Forall2 (fh_shows h) ms sst -> Forall2 (fh_shows h') ms sst.
  Proof.
    intros F I H. induction H as [|m l ms sst H Hs IH]; constructor.
    - apply (proj1 F); auto. intros x Hx. apply I. cbn [froots flat_map]. apply in_or_app. auto.
    - apply IH. intros x Hx. apply I. cbn [froots flat_map]. apply in_or_app. auto.
  Qed.
  Lemma fframe_incl Z Z' (h h' : fheap) : incl Z Z' -> fframe Z' h h' -> fframe Z h h'.
  Proof. intros I [F1 F2]. split; [|auto]. intros m l Hi. apply F1. intros x Hx. auto. Qed.
  Lemma fframe_trans Z (h1 h2 h3 : fheap) : fframe Z h1 h2 -> fframe Z h2 h3 -> fframe Z h1 h3.
  Proof. intros [F1 G1] [F2 G2]. split; auto. Qed.
  Lemma fframe_refl Z (h : fheap) : fframe Z h h.
  Proof. split; auto. Qed.

  Lemma ffocus (h : fheap) ms sst X i m : fheld h ms sst X -> nth_error ms i = Some m ->
    exists l Z, nth_error sst i = Some l /\ fh_shows h m l /\ fsound h (olist (fh_root m) ++ Z ++ X)
      /\ forall h' m' l' X', fframe Z h h' -> fsound h' (olist (fh_root m') ++ Z ++ X') -> fh_shows h' m' l' ->
           fheld h' (set_nth i m' ms) (set_nth i l' sst) X'.
  Proof.
    intros [So F] E. apply BTreeHeapProofs8.nth_split_set in E as (a & b & -> & Hi & Es). apply Forall2_app_inv_l in F as (sa & sb & Fa & Fb & ->).
    inversion Fb as [|? l ? sb' Hl Fb' Eq1 Eq2]; subst. assert (Ha : length a = length sa) by (clear - Fa; induction Fa; cbn; auto).
    exists l, (froots a ++ froots b). split; [rewrite Ha, nth_error_app2, Nat.sub_diag by lia; reflexivity|]. split; auto.
    rewrite froots_app in So. cbn [froots flat_map] in So. fold (froots b) in So.
    split; [eapply fsound_equiv; [|exact So]; intros x; rewrite !cnt_app; lia|].
    intros h' m' l' X' Fr So' Sh. rewrite Es.
    replace (set_nth (length a) l' (sa ++ l :: sb')) with (sa ++ l' :: sb').
    2:{ unfold set_nth. rewrite Ha, firstn_app, skipn_app, firstn_all, skipn_all, Nat.sub_diag. cbn. now rewrite app_nil_r. }
    split.
    - rewrite froots_app. cbn [froots flat_map]. fold (froots b). eapply fsound_equiv; [|exact So']. intros x; rewrite !cnt_app; lia.
    - apply Forall2_app; [|constructor; auto]; (eapply shows_fframe; [exact Fr| |eassumption]); intros x Hx; apply in_or_app; auto.
  Qed.
  Lemma fpush (h : fheap) ms sst X m l : fheld h ms sst (olist (fh_root m) ++ X) -> fh_shows h m l -> fheld h (ms ++ [m]) (sst ++ [l]) X.
  Proof.
    intros [So F] H. split; [|apply Forall2_app; auto]. rewrite froots_app. cbn [froots flat_map]. rewrite app_nil_r, <- app_assoc. exact So.
  Qed.
  Lemma fheld_none (h : fheap) ms sst X i : fheld h ms sst X -> nth_error ms i = None -> nth_error sst i = None.
  Proof.
    intros [_ F] E. apply nth_error_None. apply nth_error_None in E. assert (length ms = length sst) by (clear - F; induction F; cbn; auto). lia.
  Qed.
  Lemma frame_z Z X (h h' : fheap) : fframe (Z ++ X) h h' -> fframe Z h h'.
  Proof. apply fframe_incl. intros x Hx. apply in_or_app. auto. Qed.
  Lemma new_shows (h : fheap) : good h -> fh_shows h fh_new [].
  Proof. intros G. apply is_shows; auto. apply is_new. Qed.

  Definition fstepped (h : fheap) ms (sst : list pay) (o : fh_op) : Prop :=
    exists h' ms' r, fh_step (h, ms) o = Ok ((h', ms'), r)
      /\ match r with
         | Done x => x = snd (sh_step sst o) /\ fheld h' ms' (fst (sh_step sst o)) []
         | Unwound => faulty /\ exists sst', sh_unwound sst o sst' /\ fheld h' ms' sst' []
         end.
  Lemma fstep_ok (h : fheap) ms sst (o : fh_op) : fheld h ms sst [] -> fstepped h ms sst o.
  Proof.
    intros H. pose proof H as [So0 Fs0]. assert (G0 : good h) by (now apply fsound_iff in So0).
    assert (Same : forall i (m : fhmap) l, nth_error ms i = Some m -> nth_error sst i = Some l -> set_nth i m ms = ms /\ set_nth i l sst = sst).
    { intros. split; now apply AvlHeapProofs5.set_nth_same. }
    destruct o as [|ps|i|i o|i n|i]; unfold fstepped; cbn [FixedHeapSpec.fh_step FixedHeapSpec.sh_step FixedHeapSpec.sh_unwound]; cbv zeta.
    - (* new *) eexists _, _, _. split; [reflexivity|]. cbn [fst snd]. split; auto. apply fpush; [exact H|]. now apply new_shows.
    - (* from_iter *) rewrite app_nil_r in So0. destruct (from_iter_s h ps _ So0) as (h1 & o & E & F1 & P). rewrite E. cbn [bind].
      assert (F0' : Forall2 (fh_shows h1) ms sst) by (eapply shows_fframe; [exact F1|apply incl_refl|exact Fs0]). destruct o as [m|].
      + destruct P as [S1 Sh]. eexists _, _, _. split; [reflexivity|]. cbn [fst snd]. split; auto. apply fpush; auto. split; auto.
        eapply fsound_equiv; [|exact S1]. intros x. rewrite !cnt_app. cbn. lia.
      + destruct P as [S1 Bb]. eexists _, _, _. split; [reflexivity|]. split; auto. exists sst. split; auto. split; auto. now rewrite app_nil_r.
    - (* clone *) destruct (nth_error ms i) as [m|] eqn:Em.
      2:{ rewrite (fheld_none _ _ _ _ _ H Em). eexists _, _, _. split; [reflexivity|]. cbn [fst snd]. auto. }
      destruct (ffocus h ms sst [] i m H Em) as (l & Z & El & Sh & So1 & Cl). rewrite El. destruct (Same _ _ _ Em El) as [Sm1 Sm2].
      destruct (clone_s h m l _ So1 Sh) as (h1 & E & S1 & F1 & Sh1 & _). rewrite E. cbn [bind]. eexists _, _, _. split; [reflexivity|].
      split; auto. cbn [fst]. eapply fpush; eauto. rewrite <- Sm1, <- Sm2.
      apply Cl; auto. { eapply fframe_incl; [|exact F1]. intros x Hx. apply in_or_app. right. apply in_or_app. auto. }
      eapply fsound_equiv; [|exact S1]. intros x. rewrite !cnt_app. lia.
    - (* one map *) destruct (nth_error ms i) as [m|] eqn:Em.
      2:{ rewrite (fheld_none _ _ _ _ _ H Em). exists h, ms, (Done (FhOut FrUnit)). split; [destruct o; reflexivity|]. cbn [fst snd]. auto. }
      destruct (ffocus h ms sst [] i m H Em) as (l & Z & El & Sh & So1 & Cl). rewrite El. destruct (Same _ _ _ Em El) as [Sm1 Sm2].
      assert (Back : forall h' m', fframe (Z ++ []) h h' -> fsound h' (olist (fh_root m') ++ Z ++ []) -> fh_shows h' m' l -> fheld h' (set_nth i m' ms) sst []).
      { intros h' m' F' S' Sh'. rewrite <- Sm2. apply Cl; auto. eapply frame_z; eauto. }
      destruct Sh as (v & Ev & Sv) eqn:Esh. assert (Sh' : fh_shows h m l) by (exists v; auto). clear Sh Esh.
      destruct o as [k w|q|q|q w|  | | |ps]; cbn [s_f_step fst snd].
      + (* insert *) destruct (insert_s h m l k w _ So1 Sh') as (h1 & m1 & o & E & S1 & F1 & P). rewrite E. cbn [bind]. destruct o as [x|].
        * destruct P as [-> P]. eexists _, _, _. split; [reflexivity|]. split; auto. apply Cl; auto. eapply frame_z; eauto.
        * destruct P as [P Bb]. eexists _, _, _. split; [reflexivity|]. split; auto. exists sst. split; auto.
      + (* remove *) destruct (remove_s h m l q _ So1 Sh') as (h1 & m1 & o & E & S1 & F1 & P). rewrite E. cbn [bind]. destruct o as [x|].
        * destruct P as [-> P]. eexists _, _, _. split; [reflexivity|]. split; auto. apply Cl; auto. eapply frame_z; eauto.
        * destruct P as [_ Bb]. destruct (clear_s h1 m1 _ S1) as (h2 & E2 & S2 & F2 & N2 & _). rewrite E2. cbn [bind].
          eexists _, _, _. split; [reflexivity|]. split; auto. eexists. split; [reflexivity|]. apply Cl; auto. eapply frame_z, fframe_trans; eauto.
      + (* get *) rewrite Ev. cbn [bind]. rewrite (f_get_l bor cmp laws small_key v l q Sv). cbn [bind]. eexists _, _, _. split; [reflexivity|]. rewrite Sm2. auto.
      + (* get_mut *) destruct (get_mut_s h m l q w _ So1 Sh') as (h1 & m1 & o & E & S1 & F1 & P). rewrite E. cbn [bind]. destruct o as [x|].
        * destruct P as [-> P]. eexists _, _, _. split; [reflexivity|]. split; auto. apply Cl; auto. eapply frame_z; eauto.
        * destruct P as [P Bb]. eexists _, _, _. split; [reflexivity|]. split; auto. exists sst. split; auto.
      + (* len *) rewrite Ev. cbn [bind]. rewrite (proj1 (f_len_l bor cmp v l Sv)). eexists _, _, _. split; [reflexivity|]. rewrite Sm2. auto.
      + (* is_empty *) rewrite Ev. cbn [bind]. rewrite (proj2 (f_len_l bor cmp v l Sv)). eexists _, _, _. split; [reflexivity|]. rewrite Sm2. auto.
      + (* clear *) destruct (clear_s h m _ So1) as (h2 & E2 & S2 & F2 & N2 & _). rewrite E2. cbn [bind]. eexists _, _, _. split; [reflexivity|]. split; auto.
        apply Cl; auto. eapply frame_z; eauto.
      + (* extend *) destruct (extend_s h m l ps _ So1 Sh') as (h1 & m1 & o & E & S1 & F1 & P). rewrite E. cbn [bind]. destruct o as [x|].
        * eexists _, _, _. split; [reflexivity|]. split; auto. apply Cl; auto. eapply frame_z; eauto.
        * destruct P as [(dn & rest & -> & P) Bb]. eexists _, _, _. split; [reflexivity|]. split; auto. eexists. split; [exists dn, rest; split; reflexivity|].
          apply Cl; auto. eapply frame_z; eauto.
    - (* iter *) destruct (nth_error ms i) as [m|] eqn:Em.
      2:{ rewrite (fheld_none _ _ _ _ _ H Em). eexists _, _, _. split; [reflexivity|]. cbn [fst snd]. auto. }
      destruct (ffocus h ms sst [] i m H Em) as (l & Z & El & (v & Ev & Sv) & _ & _). rewrite El, Ev. cbn [bind].
      assert (Fr : Forall (eq Front) (repeat Front n)) by (apply Forall_forall; intros c Hc; now apply repeat_spec in Hc).
      destruct (iter_front bor cmp v l (repeat Front n) Sv) as [(it & it' & E1 & E2) _]; auto.
      { apply Forall_forall. intros c Hc. now apply repeat_spec in Hc. }
      rewrite E1. cbn [bind]. rewrite E2. cbn [bind]. eexists _, _, _. split; [reflexivity|]. cbn [fst snd]. auto.
    - (* chk *) destruct (nth_error ms i) as [m|] eqn:Em.
      2:{ rewrite (fheld_none _ _ _ _ _ H Em). eexists _, _, _. split; [reflexivity|]. cbn [fst snd]. auto. }
      destruct (ffocus h ms sst [] i m H Em) as (l & Z & El & (v & Ev & Sv) & _ & _). rewrite El, Ev. cbn [bind].
      destruct (proj2 (f_chk_exact bor cmp laws v) (ex_intro _ l Sv)) as [_ E1]. rewrite E1. cbn [bind]. eexists _, _, _. split; [reflexivity|]. cbn [fst snd]. auto.
  Qed.

  Lemma frun_inv os : forall (h : fheap) ms sst, fheld h ms sst [] ->
    exists h' ms' rs sst', fh_run (h, ms) os = Ok ((h', ms'), rs) /\ sh_follows sst os rs sst' /\ fheld h' ms' sst' [] /\ (In Unwound rs -> faulty).
  Proof.
    induction os as [|o os IH]; intros h ms sst H; cbn [FixedHeapSpec.fh_run].
    - exists h, ms, [], sst. split; auto. split; [reflexivity|]. split; auto. intros [].
    - destruct (fstep_ok h ms sst o H) as (h1 & ms1 & r & E1 & P1). rewrite E1. cbn [bind]. destruct r as [ob|].
      + destruct P1 as [-> H1]. destruct (IH h1 ms1 _ H1) as (h' & ms' & rs & sst' & E & F & H' & U'). rewrite E. cbn [bind].
        exists h', ms', (Done (snd (sh_step sst o)) :: rs), sst'. split; auto. split; [cbn [FixedHeapSpec.sh_follows]; auto|]. split; auto.
        intros [?|?]; [discriminate|auto].
      + destruct P1 as (Hf & sst2 & U & H2). destruct (IH h1 ms1 sst2 H2) as (h' & ms' & rs & sst' & E & F & H' & U'). rewrite E. cbn [bind].
        exists h', ms', (Unwound :: rs), sst'. split; auto. split; [cbn [FixedHeapSpec.sh_follows]; eauto|]. split; auto.
  Qed.
  Lemma fheld_empty : fheld empty_heap [] [] [].
  Proof.
    split; [|constructor]. destruct (@empty_ok cell) as [W A]. split; auto. split; auto. intros a c n E. unfold get in E. cbn in E. now destruct a.
  Qed.
  Lemma frun_b os : exists h ms rs sst, fh_run (empty_heap, []) os = Ok ((h, ms), rs) /\ sh_follows [] os rs sst
      /\ fsound h (froots ms) /\ Forall2 (fh_shows h) ms sst /\ (In Unwound rs -> faulty).
  Proof.
    destruct (frun_inv os empty_heap [] [] fheld_empty) as (h & ms & rs & sst & E & F & [S Sh] & U). rewrite app_nil_r in S.
    exists h, ms, rs, sst. auto.
  Qed.
  Lemma frun_done_b os : (forall n, bomb n = false) ->
    exists h ms, fh_run (empty_heap, []) os = Ok ((h, ms), map Done (snd (sh_run [] os)))
      /\ fsound h (froots ms) /\ Forall2 (fh_shows h) ms (fst (sh_run [] os)).
  Proof.
    intros Nf. destruct (frun_b os) as (h & ms & rs & sst & E & F & S & Sh & U).
    assert (X : forall (os : list fh_op) (st : list pay) (rs : list (out (fh_obs K V))) st', sh_follows st os rs st' -> ~ In Unwound rs -> rs = map Done (snd (sh_run st os)) /\ st' = fst (sh_run st os)).
    { clear. induction os as [|o os IH]; intros st [|[r|] rs] st' F Hn; cbn [FixedHeapSpec.sh_follows] in F; try contradiction.
      - subst. auto.
      - destruct F as [-> F]. cbn [FixedHeapSpec.sh_run]. destruct (IH _ _ _ F) as [-> ->]; [intros Hi; apply Hn; now right|].
        destruct (sh_step st o) as [s1 r1]. cbn [fst snd]. destruct (sh_run s1 os). auto.
      - destruct Hn. now left. }
    destruct (X _ _ _ _ F) as [-> ->]; [intros Hi; destruct (U Hi) as [n Hn]; rewrite Nf in Hn; discriminate|]. exists h, ms. auto.
  Qed.

  Lemma fdrop_all ms : forall (h : fheap) O, fsound h (froots ms ++ O) ->
    exists h', fh_drop_all h ms = Ok h' /\ fsound h' O /\ fframe O h h'.
  Proof.
    induction ms as [|m ms IH]; intros h O So; cbn [fh_drop_all].
    - exists h. split; auto. split; auto. apply fframe_refl.
    - cbn [froots flat_map] in So. rewrite <- app_assoc in So. fold (froots ms) in So.
      destruct (drop_s h m _ So) as (h1 & E1 & So1 & F1 & _). rewrite E1. cbn [bind].
      destruct (IH h1 O So1) as (h' & E' & So' & F'). exists h'. split; auto. split; auto.
      eapply fframe_trans; [|exact F']. eapply fframe_incl; [|exact F1]. intros x Hx. apply in_or_app. auto.
  Qed.
  Lemma fdrop_all_none ms (h : fheap) : fsound h (froots ms) -> exists h', fh_drop_all h ms = Ok h' /\ forall a, get h' a = None.
  Proof.
    intros So. destruct (fdrop_all ms h []) as (h' & E & (W & A & _) & _); [now rewrite app_nil_r|]. exists h'. split; auto. now apply no_leak.
  Qed.

  (** Calls change only the map that they borrow mutably. *)
  Lemma sh_step_other sst (o : fh_op) j l : ~ In j (ftargets o) -> nth_error sst j = Some l -> nth_error (fst (sh_step sst o)) j = Some l.
  Proof.
    intros T E.
    assert (App : forall x, nth_error (sst ++ [x]) j = Some l).
    { intros x. rewrite nth_error_app1; auto. apply nth_error_Some. congruence. }
    assert (Set1 : forall i x, ~ In j [i] -> nth_error (set_nth i x sst) j = Some l).
    { intros i x Hn. rewrite AvlHeapProofs5.set_nth_other; auto. intros ->. apply Hn. now left. }
    destruct o as [|ps|i|i o|i n|i]; cbn [FixedHeapSpec.sh_step]; cbv zeta; cbn [fst]; [apply App|apply App| | | |];
      destruct (nth_error sst i) as [li|] eqn:Ei; cbn [fst]; auto.
    destruct o; cbn [ftargets s_f_step fst] in *; auto; rewrite (AvlHeapProofs5.set_nth_same i li); auto.
  Qed.
  Lemma sh_unwound_other sst (o : fh_op) sst' j l : sh_unwound sst o sst' -> ~ In j (ftargets o) -> nth_error sst j = Some l -> nth_error sst' j = Some l.
  Proof.
    intros U T E.
    assert (Set1 : forall i x, ~ In j [i] -> nth_error (set_nth i x sst) j = Some l).
    { intros i x Hn. rewrite AvlHeapProofs5.set_nth_other; auto. intros ->. apply Hn. now left. }
    destruct o as [|ps|i|i o|i n|i]; cbn [FixedHeapSpec.sh_unwound ftargets] in *; cbv zeta in *; try contradiction; subst; auto.
    destruct o; try contradiction; subst; auto. destruct (nth_error sst i) as [x|]; [|contradiction]. destruct U as (d & r & _ & ->). auto.
  Qed.
  Lemma fstep_other (h : fheap) ms sst (o : fh_op) : fsound h (froots ms) -> Forall2 (fh_shows h) ms sst ->
    exists h' ms' r, fh_step (h, ms) o = Ok ((h', ms'), r) /\ fsound h' (froots ms')
      /\ forall j l, ~ In j (ftargets o) -> nth_error sst j = Some l -> exists m', nth_error ms' j = Some m' /\ fh_shows h' m' l.
  Proof.
    intros S F. destruct (fstep_ok h ms sst o) as (h1 & ms1 & r & E1 & P1); [split; [now rewrite app_nil_r|auto]|]. exists h1, ms1, r. split; auto.
    assert (Gen : forall sst2, fheld h1 ms1 sst2 [] -> fsound h1 (froots ms1)
      /\ forall j l, nth_error sst2 j = Some l -> exists m', nth_error ms1 j = Some m' /\ fh_shows h1 m' l).
    { intros sst2 [S2 F2]. rewrite app_nil_r in S2. split; auto. intros j l E2. pose proof (AvlHeapProofs5.Forall2_nth _ _ _ j F2) as Hn.
      rewrite E2 in Hn. destruct (nth_error ms1 j) as [m'|]; [|contradiction]. eauto. }
    destruct r as [ob|].
    - destruct P1 as [_ H1]. destruct (Gen _ H1) as [S1 F1]. split; auto. intros j l T El. apply F1. now apply sh_step_other.
    - destruct P1 as (_ & sst2 & U & H2). destruct (Gen _ H2) as [S1 F1]. split; auto. intros j l T El. apply F1. eapply sh_unwound_other; eauto.
  Qed.
End Runs.
