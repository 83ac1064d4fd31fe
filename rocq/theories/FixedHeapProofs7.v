(** The maps of shared nodes made of arrays: what a reader sees, and the calls. *)
From Coq Require Import List PeanoNat Bool Lia.
From Verif Require Import Base Spec SpecFacts Vec Heap HeapProofs BTreeModel BTreeProofs BTreeProofs2 BTreeIterModel BTreeIterProofs BTreeHeapModel BTreeHeapSpec
  BTreeHeapProofs BTreeHeapProofs2 BTreeHeapProofs5 FixedModel FixedSpec FixedProofs FixedProofs2 FixedProofs4 FixedShows
  FixedHeapModel FixedHeapSpec FixedHeapProofs FixedHeapProofs2 FixedHeapProofs3 FixedHeapProofs4 FixedHeapProofs5 FixedHeapProofs6.
Import ListNotations.
Local Open Scope nat_scope.
Notation den := Heap.den.
Notation dens := Heap.dens.

(** ** Counts and cycles do not depend on the payloads *)
Section HmFacts.
  Context {P P' : Type} (f : P -> P').
  Lemma ptrs_hm (h : heap P) : ptrs (hm f h) = ptrs h.
  Proof. unfold ptrs, hm. cbn [cells]. induction (cells h) as [|[[c n]|] l IH]; cbn in *; auto. now rewrite IH. Qed.
  Lemma wf_hm (h : heap P) O : wf (hm f h) O <-> wf h O.
  Proof.
    unfold wf. split; intros W a; specialize (W a); rewrite get_hm, ptrs_hm in *; destruct (get h a) as [[c n]|]; exact W.
  Qed.
  Lemma den_hm (h : heap P) :
    (forall p t, den h p t -> exists t', den (hm f h) p t') /\ (forall ps ts, dens h ps ts -> exists ts', dens (hm f h) ps ts').
  Proof.
    apply den_dens_ind.
    - exists VN. constructor.
    - intros a c n ts G _ (ts' & D). eexists. apply (den_node _ a c (nm f n) ts'); auto. now rewrite get_hm, G.
    - exists []. constructor.
    - intros p ps t ts _ (t' & D) _ (ts' & Ds). exists (t' :: ts'). now constructor.
  Qed.
  Lemma hm_den (h : heap P) :
    (forall p t, den (hm f h) p t -> exists t', den h p t') /\ (forall ps ts, dens (hm f h) ps ts -> exists ts', dens h ps ts').
  Proof.
    apply den_dens_ind.
    - exists VN. constructor.
    - intros a c n ts G _ (ts' & D). rewrite get_hm in G. destruct (get h a) as [[c' m]|] eqn:E; [|discriminate].
      injection G as <- <-. eexists. apply (den_node _ a c' m ts'); auto.
    - exists []. constructor.
    - intros p ps t ts _ (t' & D) _ (ts' & Ds). exists (t' :: ts'). now constructor.
  Qed.
  Lemma acyclic_hm (h : heap P) : acyclic (hm f h) <-> acyclic h.
  Proof.
    split; intros A a c n G.
    - destruct (A a c (nm f n)) as [t D]; [now rewrite get_hm, G|]. eapply hm_den; eauto.
    - rewrite get_hm in G. destruct (get h a) as [[c' m]|] eqn:E; [|discriminate]. destruct (A _ _ _ E) as [t D]. eapply den_hm; eauto.
  Qed.
End HmFacts.

Section View.
  Context {K V Q : Type} (bor : K -> Q) (cmp : Q -> Q -> comparison).
  Notation elems := (elems K V).
  Notation okids := (option (kids addr)).
  Notation cell := (elems * okids)%type.
  Notation fheap := (heap cell).
  Notation pay := (list (K * V)).
  Notation bt := (bt K V).
  Notation er := (@er K V).
  Notation good := (@good K V).
  Notation MIN := MIN_OCCUPANCY.

  Lemma cell_ok_tidy (n : node cell) : cell_ok n <-> tidy n.
  Proof.
    unfold cell_ok, tidy, crel, elems_at, elems_are, kids_are.
    split; intros (es & ks & H); exists es, ks; rewrite ?begins_arr in *; destruct (snd (nd_data n)); rewrite ?begins_arr in *; tauto.
  Qed.
  Lemma fsound_iff (h : fheap) O : fsound h O <-> good h /\ sound (er h) O.
  Proof.
    unfold fsound, sound, FixedHeapProofs.er. rewrite wf_hm, acyclic_hm. split.
    - intros (W & A & H). split; auto. intros a c n G. apply cell_ok_tidy. eauto.
    - intros (G & W & A). split; auto. split; auto. intros a c n E. apply cell_ok_tidy. eauto.
  Qed.

  (** ** What a reader sees *)
  Lemma repr_tree : forall (t : bt) n, repr n t -> tree n = t.
  Proof.
    fix IH 1. intros [es ks] [e d] R. cbn [tree].
    apply repr_iff in R as [He Hd]. assert (Ee : ents e = es) by (unfold ents; now rewrite (el_clear_are _ _ He)). rewrite Ee. f_equal.
    destruct d as [[ps k]|]; cbn in Hd; [|now subst].
    destruct Hd as (_ & ns & [Ha Hl] & F). cbn [kd_ptrs kd_len] in *. subst k. destruct Ha as [_ [j ->]].
    clear He Ee. revert ns F. induction ks as [|k ks IHk]; intros ns F; inversion F as [|n ? ns' ? R F']; subst; [reflexivity|].
    cbn. f_equal; [apply IH; exact R|apply IHk; exact F'].
  Qed.
  Lemma repr_det n (t t' : bt) : repr n t -> repr n t' -> t = t'.
  Proof. intros H H'. apply repr_tree in H. apply repr_tree in H'. congruence. Qed.

  Lemma ns_cell (h : fheap) a es ts : good h -> ns (er h) a (BN es ts) ->
    exists c e d ks, get h a = Some (c, Nd (e, d) (map Some ks)) /\ crel e d es ks /\ Forall2 (ns (er h)) ks ts.
  Proof.
    intros G D. apply ns_inv in D as (c & ks & E & F). destruct (get_er _ _ _ _ G E) as (e & d & es' & ks' & Gh & En & Cr).
    injection En as <- En. assert (ks = ks') as <-.
    { rewrite <- (olists_some ks), <- (olists_some ks'). congruence. }
    exists c, e, d, ks. auto.
  Qed.
  Lemma read_arr (ks : list addr) (b : kids addr) (cs : list (fnode K V)) (ts : list bt) :
    kids_are b ks -> ks <> [] -> length cs = length ks -> Forall2 repr cs ts ->
    okids_rep (Some (Kids (map Some cs ++ uninit (length (kd_ptrs b) - kd_len b)) (kd_len b))) ts.
  Proof.
    intros [Ha Hl] Hn L F. split; [intros ->; inversion F; subst; destruct ks; [congruence|discriminate]|].
    exists cs. split; auto. split; cbn [kd_ptrs kd_len]; [|congruence]. pose proof (arr_len _ _ _ Ha) as Hle. destruct Ha as [Ha _].
    split; [|eexists; reflexivity]. rewrite app_length, map_length. unfold uninit. rewrite repeat_length. lia.
  Qed.
  Lemma ns_view : forall fuel (h : fheap) a (t : bt), good h -> n_levels t <= fuel -> ns (er h) a t ->
    exists n, fh_read fuel h (Some a) = Ok n /\ repr n t.
  Proof.
    induction fuel as [|fuel IH]; intros h a [es ts] G L D; [cbn in L; lia|]. cbn [fh_read].
    destruct (ns_cell h a es ts G D) as (c & e & d & ks & Gh & [He Hd] & F). rewrite Gh. cbn [nd_kids nd_data fst snd].
    rewrite levels_eq in L. assert (Hl : forall t, In t ts -> n_levels t <= fuel).
    { intros t Ht. pose proof (max_levels_in t ts Ht). lia. }
    assert (X : exists cs, map_res (fh_read fuel h) (map Some ks) = Ok cs /\ Forall2 repr cs ts).
    { clear L Gh Hd D. induction F as [|k t ks ts D F IHF]; [exists []; auto|]. cbn [map map_res].
      destruct (IH h k t) as (n & E & R); auto; [apply Hl; now left|]. destruct IHF as (cs & E' & F'); [intros; apply Hl; now right|].
      rewrite E. cbn [bind]. rewrite E'. cbn [bind]. eauto. }
    destruct X as (cs & E & Fc). rewrite E. cbn [bind]. eexists. split; [reflexivity|]. apply repr_iff. split; auto.
    destruct d as [b|].
    - destruct Hd as [Hn Hb]. eapply read_arr; eauto. rewrite (f2_length _ _ _ Fc). symmetry. eapply f2_length; eauto.
    - subst ks. inversion F; subst. reflexivity.
  Qed.
  Lemma view_ns : forall fuel (h : fheap) a n, good h -> fh_read fuel h (Some a) = Ok n -> exists t, ns (er h) a t /\ repr n t.
  Proof.
    induction fuel as [|fuel IH]; intros h a n G E; [discriminate|]. cbn [fh_read] in E.
    destruct (get h a) as [[c m]|] eqn:Gh; [|discriminate]. destruct (G _ _ _ Gh) as (es & ks & [He Hd] & Hk).
    destruct m as [[e d] ps]. cbn [nd_data nd_kids fst snd] in *. subst ps.
    destruct (map_res (fh_read fuel h) (map Some ks)) as [cs|] eqn:Em; [|discriminate]. cbn [bind] in E. injection E as <-.
    assert (X : length cs = length ks /\ exists ts, Forall2 (ns (er h)) ks ts /\ Forall2 repr cs ts).
    { clear Gh Hd. revert cs Em. induction ks as [|k ks IHk]; intros cs Em; cbn [map map_res] in Em.
      - injection Em as <-. split; auto. exists []. auto.
      - destruct (fh_read fuel h (Some k)) as [n1|] eqn:E1; [|discriminate]. cbn [bind] in Em.
        destruct (map_res (fh_read fuel h) (map Some ks)) as [cs'|] eqn:E2; [|discriminate]. cbn [bind] in Em. injection Em as <-.
        destruct (IHk _ eq_refl) as (L & ts & F1 & F2). destruct (IH _ _ _ G E1) as (t & D & R). split; [cbn; auto|].
        exists (t :: ts). auto. }
    destruct X as (L & ts & F1 & F2). exists (BN es ts). split.
    - apply (ns_intro (er h) a c es ks ts); auto. unfold FixedHeapProofs.er. rewrite get_hm, Gh. change (Some (c, nm (@ent K V) (Nd (e, d) (map Some ks))) = Some (c, Nd es (map Some ks))).
      destruct (f_node_is e d es ks) as (_ & _ & ->); [split; auto|reflexivity].
    - apply repr_iff. split; auto. destruct d as [b|].
      + destruct Hd as [Hn Hb]. eapply read_arr; eauto.
      + subst ks. inversion F1; subst. reflexivity.
  Qed.

  Lemma reads_ns (h : fheap) a t : good h -> (reads h a t <-> ns (er h) a t).
  Proof.
    intros G. split.
    - intros (n & E & <-). destruct (view_ns _ _ _ _ G E) as (t & D & R). now rewrite (repr_tree _ _ R).
    - intros D. pose proof (levels_depth _ _ _ D) as Lv. unfold FixedHeapProofs.er in Lv. rewrite cells_hm in Lv.
      destruct (ns_view (fdepth h) h a t G) as (n & E & R); [unfold fdepth; lia|auto|]. exists n. split; auto. now apply repr_tree.
  Qed.

  (** The map is the list-based map [b], well formed, and holds [l]. *)
  Definition fhm (h : fheap) (m : fhmap) (b : bt_map K V) : Prop := fh_len m = bm_len b /\ opt_ns (er h) (fh_root m) (bm_root b).
  Definition fh_is (h : fheap) (m : fhmap) (l : pay) : Prop :=
    exists b, fhm h m b /\ valid bor cmp MIN b /\ contents b = l.
  Lemma view_fhm (h : fheap) m b : good h -> fhm h m b -> exists f, fh_view h m = Ok f /\ frep f b.
  Proof.
    intros G [L D]. unfold fh_view. destruct (fh_root m) as [a|], (bm_root b) as [t|] eqn:Eb; cbn [opt_ns] in D; try contradiction.
    - pose proof (levels_depth _ _ _ D) as Lv. unfold FixedHeapProofs.er in Lv. rewrite cells_hm in Lv.
      destruct (ns_view (fdepth h) h a t G) as (n & E & R); [unfold fdepth; lia|auto|]. rewrite E. cbn [bind].
      eexists. split; [reflexivity|]. split; cbn [fm_len fm_root]; [auto|now rewrite Eb].
    - eexists. split; [reflexivity|]. split; cbn [fm_len fm_root]; [auto|now rewrite Eb].
  Qed.
  Lemma fhm_view (h : fheap) m f : good h -> fh_view h m = Ok f -> exists b, fhm h m b /\ frep f b.
  Proof.
    intros G E. unfold fh_view in E. destruct (fh_root m) as [a|] eqn:Em.
    - destruct (fh_read (fdepth h) h (Some a)) as [n|] eqn:Er; [|discriminate]. cbn [bind] in E. injection E as <-.
      destruct (view_ns _ _ _ _ G Er) as (t & D & R). exists (BMap (fh_len m) (Some t)). unfold fhm, frep. rewrite Em. cbn. auto.
    - injection E as <-. exists (BMap (fh_len m) None). unfold fhm, frep. rewrite Em. cbn. auto.
  Qed.
  Lemma frep_det f b b' : frep f b -> @frep K V f b' -> b = b'.
  Proof.
    intros [L R] [L' R']. destruct b as [n r], b' as [n' r']. cbn in *. f_equal; [congruence|].
    destruct (fm_root f), r, r'; try contradiction; auto. f_equal. eapply repr_det; eauto.
  Qed.
  Lemma is_shows (h : fheap) m l : good h -> (fh_is h m l <-> fh_shows bor cmp h m l).
  Proof.
    intros G. split.
    - intros (b & Hb & Vb & Cb). destruct (view_fhm h m b G Hb) as (f & E & R). exists f. split; auto.
      apply f_shows_is. exists b. auto.
    - intros (f & E & Sh). apply f_shows_is in Sh as (b & R & Vb & Cb). destruct (fhm_view h m f G E) as (b' & Hb & R').
      rewrite (frep_det _ _ _ R' R) in Hb. exists b. auto.
  Qed.
  Lemma fhm_frame O (h h' : fheap) m b : frame O (er h) (er h') -> incl (olist (fh_root m)) O -> fhm h m b -> fhm h' m b.
  Proof.
    intros (F & _) I [L D]. split; auto. destruct (fh_root m) as [a|], (bm_root b) as [t|]; cbn [opt_ns] in *; auto.
    unfold ns in *. now apply F.
  Qed.
  Lemma is_frame O (h h' : fheap) m l : frame O (er h) (er h') -> incl (olist (fh_root m)) O -> fh_is h m l -> fh_is h' m l.
  Proof. intros F I (b & Hb & P). exists b. split; auto. eapply fhm_frame; eauto. Qed.
  Lemma fframe_of O (h h' : fheap) : good h -> good h' -> frame O (er h) (er h') -> fframe bor cmp O h h'.
  Proof.
    intros G G' F. split.
    - intros m l I H. apply is_shows; auto. eapply is_frame; eauto. now apply is_shows.
    - intros a t Ha H. apply reads_ns; auto. apply reads_ns in H; auto. destruct F as [F _]. apply F; auto. cbn. auto using incl_cons, incl_nil_l.
  Qed.
  Lemma copies_er (h : fheap) : copies h = clones (er h).
  Proof. reflexivity. Qed.
  Definition tree_of {A} (b : bt_map K V) (f : bt -> list A) : list A := match bm_root b with Some t => f t | None => [] end.
End View.
